(** External programs, programs without applications, programs without builtin
    functions. *)

From Coq Require Import String.
From Verif Require Import Base Syntax Host Ops Parser ErrorFmt Text Monad Builtins Eval
  MonoFacts EvalSpec EvalFacts MapFacts CoreFacts.

(** ** Words *)

Lemma flatten_leaves e : leaves e (flatten1 e).
Proof.
  induction e using expr_ind2 with (Q := fun _ => True); try exact I;
    try (apply leaves_one; discriminate).
  - constructor. exact IHe.
  - constructor. cbn [flatten1]. induction H; constructor; auto.
Qed.

Lemma flatten_all_leaves l : all_leaves l (flatten l).
Proof. induction l; [constructor |]. constructor; [apply flatten_leaves | auto]. Qed.

Scheme leaves_mut := Induction for leaves Sort Prop
  with all_leaves_mut := Induction for all_leaves Sort Prop.

Lemma leaves_det e a : leaves e a -> a = flatten1 e.
Proof.
  apply (leaves_mut (fun e a _ => a = flatten1 e) (fun l a _ => a = flatten l)).
  - auto.
  - auto.
  - intros x N1 N2. destruct x; try reflexivity; [destruct (N2 x eq_refl) | destruct (N1 l eq_refl)].
  - reflexivity.
  - intros x l b c _ -> _ ->. reflexivity.
Qed.

Lemma all_leaves_det l a : all_leaves l a -> a = flatten l.
Proof. induction 1 as [| e l a b L _ ->]; [reflexivity |]. now rewrite (leaves_det _ _ L). Qed.

Section Cmd.
  Variable H : host.

  Definition leaf_words (x : expr) : list str :=
    match x with
    | EString s => [s]
    | EBytes b => [h_lossy H b]
    | ENone => []
    | _ => [display H x]
    end.

  Lemma shown_display x t : shown H x t <-> t = display H x.
  Proof.
    split.
    - now destruct 1.
    - intros ->. destruct x as [| | | | | | b | | | | | | | | | | | |];
        try (apply shown_other; exact I); try destruct b; constructor.
  Qed.

  Lemma word_det x w : word H x w <-> w = leaf_words x.
  Proof.
    split.
    - intros X. inversion X as [| | e t N1 N2 S]; subst; try reflexivity.
      apply (proj1 (shown_display _ _)) in S. subst t.
      destruct x; try reflexivity; congruence.
    - intros ->. destruct x; cbn [leaf_words]; constructor; try discriminate;
        now apply shown_display.
  Qed.

  Lemma words_det l w : words H l w <-> w = flat_map leaf_words l.
  Proof.
    revert w. induction l as [| x l IH]; intros w; split.
    - now inversion 1.
    - intros ->. constructor.
    - inversion 1 as [| e l' a b W W2]; subst. apply word_det in W. apply IH in W2. now subst.
    - intros ->. cbn [flat_map]. constructor; [now apply word_det | now apply IH].
  Qed.

  Lemma command_words_flat vs :
    flat_map (command_words H) vs = flat_map leaf_words (flatten vs).
  Proof.
    induction vs as [| v vs IH]; [reflexivity |].
    cbn [flat_map]. unfold flatten. cbn [flat_map]. rewrite flat_map_app. fold (flatten vs).
    rewrite IH. f_equal. unfold command_words, flatten. cbn [flat_map]. now rewrite app_nil_r.
  Qed.

  Lemma command_envs_spec e : passed_variables H e (command_envs H e).
  Proof.
    intros x t. unfold command_envs. rewrite filter_In. cbn [snd]. rewrite N.leb_le, in_map_iff.
    split.
    - intros [([k v] & E & I) L]. injection E as -> <-. exists v.
      split; [exact I |]. split; [now apply shown_display | exact L].
    - intros (v & I & T & L). apply (proj1 (shown_display _ _)) in T. subst t.
      split; [| exact L]. exists (x, v). auto.
  Qed.

  Definition command_answer (name : str) (f : expr) (args : list expr) (a : response) : res expr :=
    match a with
    | RsNotFound => RErr (ProgramNotFound name)
    | RsPermission => RErr (PermissionDenied (EApply f args))
    | RsFailed | RsWriteFailed | RsWaitFailed | RsErr _ _ _ => RErr (CommandFailed name args)
    | _ => ROk ENone
    end.

  Lemma command_result_det name f args a r :
    command_result name f args a r <-> r = command_answer name f args a.
  Proof.
    split.
    - inversion 1; subst; try reflexivity;
        repeat match goal with
        | X : _ \/ _ |- _ => destruct X as [X | X]
        | X : exists _, _ |- _ => destruct X as [? X]
        end; subst; try reflexivity.
      destruct a; try reflexivity; try congruence.
    - intros ->. destruct a; cbn [command_answer];
        first [apply result_started; congruence | constructor; eauto 10].
  Qed.

  (** The state after asking the operating system. *)
  Definition asked (rq : request) (s : st) : st :=
    St (s_env s) ((rq, h_answer H (s_trace s) rq) :: s_trace s) (s_log s).

  Lemma apply_command d name f args s r s' :
    lim (fun n => run_command H (eval H n d) name f args) s r s' <->
    (exists vs s1,
        evaluates_all H d args s (ROk vs) s1
        /\ let rq := RqStatus (Command name (flat_map leaf_words (flatten vs))
                                 (env_get_cwd (s_env s1)) (command_envs H (s_env s))) in
           s' = asked rq s1 /\ r = command_answer name f args (h_answer H (s_trace s1) rq))
    \/ (exists r1, evaluates_all H d args s r1 s' /\ fails r1 r).
  Proof.
    unfold run_command. rewrite lim_get_env.
    set (k := fun (_ : nat) vs => e' <- get_env ;;
      rs <- ask H (RqStatus (Command name (flat_map (command_words H) vs) (env_get_cwd e')
                                   (command_envs H (s_env s)))) ;;
      match rs with
      | RsNotFound => throw (ProgramNotFound name)
      | RsPermission => throw (PermissionDenied (EApply f args))
      | RsFailed | RsWriteFailed | RsWaitFailed | RsErr _ _ _ => throw (CommandFailed name args)
      | _ => ret ENone
      end).
    assert (K : forall vs s1 r s', lim (fun n => k n vs) s1 r s' <->
        let rq := RqStatus (Command name (flat_map leaf_words (flatten vs))
                                 (env_get_cwd (s_env s1)) (command_envs H (s_env s))) in
           s' = asked rq s1 /\ r = command_answer name f args (h_answer H (s_trace s1) rq)).
    { intros vs s1 q t. subst k. cbv beta. rewrite lim_get_env, command_words_flat. cbv zeta.
      set (rq := RqStatus _). rewrite lim_const. unfold bind, ask, command_answer, asked.
      destruct (h_answer H (s_trace s1) rq); unfold throw, ret;
        (split; [intros [_ E]; injection E as <- <-; auto | intros [-> ->]; split; [discriminate | auto]]). }
    match goal with |- ?X <-> _ =>
      change X with (lim (fun n => bind (mapM (eval H n d) args) (k n)) s r s') end.
    rewrite (lim_bind _ _ (fun n => mapM (eval H n d) args) k);
      [| apply mono_all | intros vs0; apply (mono_const _ (k 0%nat vs0))].
    split; (intros [(vs & s1 & E1 & E2) | (r1 & E & F)]; [left | right]).
    - exists vs, s1. rewrite lim_mapM_eval in E1. apply K in E2. auto.
    - exists r1. rewrite lim_mapM_eval in E. auto.
    - exists vs, s1. rewrite lim_mapM_eval. rewrite K. auto.
    - exists r1. rewrite lim_mapM_eval. auto.
  Qed.

  (** ** Programs without applications *)

  (** Finishes without touching the outside world. *)
  Definition finishes_quietly {A} (P : st -> res A -> st -> Prop) : Prop :=
    forall s, exists r s', P s r s' /\ r <> RFuel /\ s_trace s' = s_trace s /\ s_log s' = s_log s.

  Lemma quiet_all A B (R : A -> st -> res B -> st -> Prop) l :
    Forall (fun x => finishes_quietly (R x)) l -> finishes_quietly (in_order R l).
  Proof.
    induction 1 as [| x l X F IH]; intros s.
    - exists (ROk []), s. repeat split; [constructor | discriminate].
    - destruct (X s) as (r & s1 & E & N & T & G).
      destruct r as [v | e | p | c |].
      + destruct (IH s1) as (r2 & s2 & E2 & N2 & T2 & G2).
        destruct r2 as [vs | e | p | c |].
        * exists (ROk (v :: vs)), s2. repeat split; try congruence. econstructor; eauto.
        * exists (RErr e), s2. repeat split; try congruence. eapply io_later; eauto; constructor.
        * exists (RPanic p), s2. repeat split; try congruence. eapply io_later; eauto; constructor.
        * exists (RExit c), s2. repeat split; try congruence. eapply io_later; eauto; constructor.
        * congruence.
      + exists (RErr e), s1. repeat split; try congruence. eapply io_first; eauto; constructor.
      + exists (RPanic p), s1. repeat split; try congruence. eapply io_first; eauto; constructor.
      + exists (RExit c), s1. repeat split; try congruence. eapply io_first; eauto; constructor.
      + congruence.
  Qed.

  Lemma app_free_list l : app_free (EList l) <-> Forall app_free l.
  Proof. apply Forall_fix. Qed.
  Lemma app_free_do l : app_free (EDo l) <-> Forall app_free l.
  Proof. apply Forall_fix. Qed.
  Lemma app_free_map m : app_free (EMap m) <-> Forall app_free (map snd m).
  Proof. apply Forall_fix_map. Qed.

  Ltac done_quietly := repeat split; try congruence; try discriminate.

  Lemma app_free_quiet e : app_free e -> forall d, finishes_quietly (evaluates H d e).
  Proof.
    induction e using expr_ind2 with (Q := fun _ => True); try exact I;
      intros AF d t; cbn [app_free] in AF.
    all: destruct (N.leb_spec d MAX_DEPTH) as [L | L];
      [| eexists _, t; split; [apply evaluates_deep; [exact L | split; reflexivity] |];
         done_quietly].
    all: try (eexists _, t; split;
              [apply rule_value; [exact L | exact I | split; reflexivity] |]; done_quietly).
    - (* group *)
      destruct (IHe AF (d + 1)%N t) as (r & s1 & E & Q).
      exists r, s1. split; [now apply rule_group | exact Q].
    - (* symbol *)
      eexists _, t. split; [apply rule_symbol; [exact L | split; reflexivity] |]. done_quietly.
    - (* list *)
      apply app_free_list in AF.
      assert (F : Forall (fun x => finishes_quietly (evaluates H (d + 1) x)) l).
      { rewrite Forall_forall in *. auto. }
      destruct (quiet_all _ _ _ _ F t) as (r & s1 & E & N & T & G).
      destruct r as [vs | e | p | c |].
      + exists (ROk (EList vs)), s1. split; [apply rule_list; eauto |]. done_quietly.
      + exists (RErr e), s1. split; [| done_quietly]. apply rule_list; [exact L |]. right.
        eexists. split; [exact E | constructor].
      + exists (RPanic p), s1. split; [| done_quietly]. apply rule_list; [exact L |]. right.
        eexists. split; [exact E | constructor].
      + exists (RExit c), s1. split; [| done_quietly]. apply rule_list; [exact L |]. right.
        eexists. split; [exact E | constructor].
      + congruence.
    - (* map *)
      apply app_free_map in AF.
      assert (F : Forall (fun x => finishes_quietly (evaluates H (d + 1) x)) (map snd m)).
      { rewrite Forall_forall in *. intros x X. apply in_map_iff in X.
        destruct X as ([k y] & <- & X). apply (H0 _ X). apply AF. apply in_map_iff. eauto. }
      destruct (quiet_all _ _ _ _ F t) as (r & s1 & E & N & T & G).
      destruct r as [vs | e | p | c |].
      + exists (ROk (EMap (combine (map fst m) vs))), s1. split; [| done_quietly].
        apply rule_map; [exact L |]. left. eauto.
      + exists (RErr e), s1. split; [| done_quietly]. apply rule_map; [exact L |]. right.
        eexists. split; [exact E | constructor].
      + exists (RPanic p), s1. split; [| done_quietly]. apply rule_map; [exact L |]. right.
        eexists. split; [exact E | constructor].
      + exists (RExit c), s1. split; [| done_quietly]. apply rule_map; [exact L |]. right.
        eexists. split; [exact E | constructor].
      + congruence.
    - (* assignment *)
      destruct (IHe AF (d + 1)%N t) as (r & s1 & E & N & T & G).
      destruct r as [v | er | p | c |].
      + exists (ROk ENone), (with_var x v s1). split; [apply rule_assign; eauto 6 |]. cbn. done_quietly.
      + exists (RErr er), s1. split; [| done_quietly]. apply rule_assign; [exact L |]. right.
        eexists. split; [exact E | constructor].
      + exists (RPanic p), s1. split; [| done_quietly]. apply rule_assign; [exact L |]. right.
        eexists. split; [exact E | constructor].
      + exists (RExit c), s1. split; [| done_quietly]. apply rule_assign; [exact L |]. right.
        eexists. split; [exact E | constructor].
      + congruence.
    - (* for *)
      destruct AF as [A1 A2].
      destruct (IHe1 A1 (d + 1)%N t) as (r & s1 & E & N & T & G).
      destruct r as [v | er | p | c |].
      + assert (D : (exists items, v = EList items) \/ forall items, v <> EList items).
        { destruct v; try (right; discriminate). left. eauto. }
        destruct D as [[items ->] | D].
        * assert (F : Forall (fun y => finishes_quietly (iteration H (d + 1) x e2 y)) items).
          { apply Forall_forall. intros y _ s2. unfold iteration.
            destruct (IHe2 A2 (d + 1)%N (with_var x y s2)) as (r & s3 & Q). exists r, s3. exact Q. }
          destruct (quiet_all _ _ _ _ F s1) as (r & s2 & E2 & N2 & T2 & G2).
          destruct r as [vs | er | p | c |].
          -- exists (ROk (EList vs)), s2. split; [| done_quietly].
             apply rule_for; [exact L |]. left. exists items, s1. eauto.
          -- exists (RErr er), s2. split; [| done_quietly].
             apply rule_for; [exact L |]. left. exists items, s1. split; [exact E |]. right.
             eexists. split; [exact E2 | constructor].
          -- exists (RPanic p), s2. split; [| done_quietly].
             apply rule_for; [exact L |]. left. exists items, s1. split; [exact E |]. right.
             eexists. split; [exact E2 | constructor].
          -- exists (RExit c), s2. split; [| done_quietly].
             apply rule_for; [exact L |]. left. exists items, s1. split; [exact E |]. right.
             eexists. split; [exact E2 | constructor].
          -- congruence.
        * exists (RErr (ForNonList e1)), s1. split; [| done_quietly].
          apply rule_for; [exact L |]. right; left. eauto.
      + exists (RErr er), s1. split; [| done_quietly]. apply rule_for; [exact L |]. right; right.
        eexists. split; [exact E | constructor].
      + exists (RPanic p), s1. split; [| done_quietly]. apply rule_for; [exact L |]. right; right.
        eexists. split; [exact E | constructor].
      + exists (RExit c), s1. split; [| done_quietly]. apply rule_for; [exact L |]. right; right.
        eexists. split; [exact E | constructor].
      + congruence.
    - (* if *)
      destruct AF as (A1 & A2 & A3).
      destruct (IHe1 A1 (d + 1)%N t) as (r & s1 & E & N & T & G).
      destruct r as [v | er | p | c |].
      + assert (Q : finishes_quietly (evaluates H (d + 1) (if is_truthy v then e2 else e3))).
        { destruct (is_truthy v); auto. }
        destruct (Q s1) as (r & s2 & E2 & N2 & T2 & G2).
        exists r, s2. split; [| done_quietly]. apply rule_if; [exact L |]. left. eauto.
      + exists (RErr er), s1. split; [| done_quietly]. apply rule_if; [exact L |]. right.
        eexists. split; [exact E | constructor].
      + exists (RPanic p), s1. split; [| done_quietly]. apply rule_if; [exact L |]. right.
        eexists. split; [exact E | constructor].
      + exists (RExit c), s1. split; [| done_quietly]. apply rule_if; [exact L |]. right.
        eexists. split; [exact E | constructor].
      + congruence.
    - (* application *) contradiction.
    - (* lambda *)
      eexists _, t. split; [apply rule_lambda; [exact L | split; reflexivity] |]. done_quietly.
    - (* sequence *)
      apply app_free_do in AF.
      assert (F : Forall (fun x => finishes_quietly (evaluates H (d + 1) x)) l).
      { rewrite Forall_forall in *. auto. }
      destruct (quiet_all _ _ _ _ F t) as (r & s1 & E & N & T & G).
      destruct r as [vs | e | p | c |].
      + exists (ROk (last vs ENone)), s1. split; [| done_quietly].
        apply rule_do; [exact L |]. left. eauto.
      + exists (RErr e), s1. split; [| done_quietly]. apply rule_do; [exact L |]. right.
        eexists. split; [exact E | constructor].
      + exists (RPanic p), s1. split; [| done_quietly]. apply rule_do; [exact L |]. right.
        eexists. split; [exact E | constructor].
      + exists (RExit c), s1. split; [| done_quietly]. apply rule_do; [exact L |]. right.
        eexists. split; [exact E | constructor].
      + congruence.
    - (* quote *)
      eexists _, t. split; [apply rule_quote; [exact L | split; reflexivity] |]. done_quietly.
  Qed.
End Cmd.
