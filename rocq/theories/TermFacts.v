(** Programs without builtin functions always finish. *)

From Coq Require Import String.
From Verif Require Import Base Syntax Host Ops Parser ErrorFmt Text Monad Builtins Eval
  MonoFacts EvalSpec EvalFacts MapFacts CoreFacts.

Lemma no_builtin_list l : no_builtin (EList l) <-> Forall no_builtin l.
Proof. apply Forall_fix. Qed.
Lemma no_builtin_do l : no_builtin (EDo l) <-> Forall no_builtin l.
Proof. apply Forall_fix. Qed.
Lemma no_builtin_apply f l : no_builtin (EApply f l) <-> no_builtin f /\ Forall no_builtin l.
Proof. cbn [no_builtin]. now rewrite (Forall_fix _ no_builtin l). Qed.
Lemma no_builtin_map m : no_builtin (EMap m) <-> Forall (fun kv => no_builtin (snd kv)) m.
Proof.
  cbn [no_builtin]. rewrite (Forall_fix_map _ no_builtin m). now rewrite Forall_map.
Qed.
Lemma no_builtin_Env b p :
  no_builtin_env (Env b p) <->
  Forall (fun kv => no_builtin (snd kv)) b /\ opt_all no_builtin_env p.
Proof.
  cbn [no_builtin_env]. rewrite (Forall_fix_map _ no_builtin b), Forall_map.
  destruct p; reflexivity.
Qed.

Lemma nb_get x e v : no_builtin_env e -> env_get x e = Some v -> no_builtin v.
Proof.
  induction e as [b p IH] using env_chain_ind. rewrite no_builtin_Env. intros [F P]. cbn [env_get].
  destruct (bm_get x b) as [w |] eqn:E.
  - intros X. injection X as ->. clear IH P. induction F as [| [k y] b Y F IH]; [discriminate |].
    cbn in E. destruct (str_eqb x k); [injection E as <-; exact Y | auto].
  - destruct p; [cbn in *; auto | discriminate].
Qed.

Lemma nb_define x v e : no_builtin v -> no_builtin_env e -> no_builtin_env (env_define x v e).
Proof.
  destruct e as [b p]. cbn [env_define]. rewrite !no_builtin_Env. intros V [F P].
  split; [apply bm_insert_forall; auto | exact P].
Qed.

Lemma nb_capture e p b c :
  no_builtin_env e -> no_builtin_env c -> no_builtin_env (capture e p b c).
Proof.
  intros E C. unfold capture, capture_symbols.
  assert (T : no_builtin_env (env_set_cwd (env_get_cwd e) (env_define p ENone c))).
  { apply nb_define; [exact I |]. now apply nb_define. }
  revert T. generalize (env_set_cwd (env_get_cwd e) (env_define p ENone c)).
  induction (used_symbols b) as [| x l IH]; intros t T; cbn [fold_left]; [exact T |].
  apply IH. destruct (_ && _); [| exact T]. destruct (env_get x e) eqn:G; [| exact T].
  apply nb_define; [| exact T]. now apply (nb_get x e).
Qed.

(** Does not run out of fuel and keeps builtin functions out. *)
Definition fine {A} (G : A -> Prop) (m : M A) : Prop :=
  forall s, no_builtin_env (s_env s) ->
    no_builtin_env (s_env (snd (m s)))
    /\ match fst (m s) with ROk a => G a | RFuel => False | _ => True end.

Lemma fine_ret A (G : A -> Prop) a : G a -> fine G (ret a).
Proof. intros X s N. auto. Qed.
Lemma fine_throw A (G : A -> Prop) e : fine G (throw e).
Proof. intros s N. cbn. auto. Qed.
Lemma fine_bind A B (F : A -> Prop) (G : B -> Prop) m k :
  fine F m -> (forall a, F a -> fine G (k a)) -> fine G (bind m k).
Proof.
  intros X Y s N. unfold bind. specialize (X s N). destruct (m s) as [r s1]. cbn in X.
  destruct X as [N1 X]. destruct r; cbn; auto. now apply Y.
Qed.
Lemma fine_get_env : fine no_builtin_env get_env.
Proof. intros s N. cbn. auto. Qed.
Lemma fine_define x v : no_builtin v -> fine (fun _ => True) (define x v).
Proof. intros V s N. cbn. split; [| exact I]. now apply nb_define. Qed.
Lemma fine_in_env A (G : A -> Prop) e m : no_builtin_env e -> fine G m -> fine G (in_env e m).
Proof.
  intros E X s N. unfold in_env. specialize (X (St e (s_trace s) (s_log s)) E).
  destruct (m _) as [r s1]. cbn in *. tauto.
Qed.
Lemma fine_ask H rq : fine (fun _ => True) (ask H rq).
Proof. intros s N. cbn. auto. Qed.
Lemma fine_mapM A B (P : A -> Prop) (G : B -> Prop) f l :
  Forall P l -> (forall a, P a -> fine G (f a)) -> fine (Forall G) (mapM f l).
Proof.
  intros F X. induction F as [| a l Pa F IH]; cbn [mapM]; [apply fine_ret; constructor |].
  eapply fine_bind; [now apply X | intros b Gb].
  eapply fine_bind; [exact IH | intros bs Gs]. apply fine_ret. now constructor.
Qed.

Section Body.
  Variable H : host.
  Variable rec ev0 : expr -> M expr.
  Hypothesis REC : forall e, no_builtin e -> fine no_builtin (rec e).

  Lemma fine_command name f args :
    no_builtin f -> Forall no_builtin args -> fine no_builtin (run_command H rec name f args).
  Proof.
    intros F A. unfold run_command.
    eapply fine_bind; [apply fine_get_env | intros e E].
    eapply fine_bind; [eapply fine_mapM; [exact A | exact REC] | intros vs V].
    eapply fine_bind; [apply fine_get_env | intros e' E'].
    eapply fine_bind; [apply fine_ask | intros rs _].
    destruct rs; try apply fine_throw; now apply fine_ret.
  Qed.

  Lemma fine_apply g f args :
    no_builtin g -> no_builtin f -> Forall no_builtin args ->
    fine no_builtin (apply_value H rec ev0 g f args).
  Proof.
    intros G F A. destruct g; try apply fine_throw; cbn [apply_value].
    - now apply fine_command.
    - now apply fine_command.
    - destruct G as [Gb Gc]. destruct args as [| a rest]; [apply fine_throw |].
      inversion A as [| a' r' Aa Ar]; subst.
      eapply fine_bind; [apply fine_get_env | intros e E].
      eapply fine_bind; [now apply REC | intros x X]. cbv zeta.
      assert (NE : no_builtin_env (env_define p x (env_set_cwd (env_get_cwd e) c))).
      { apply nb_define; [exact X |]. now apply nb_define. }
      destruct rest as [| a2 rest]; [apply fine_in_env; auto |].
      eapply fine_bind; [apply fine_in_env; [exact NE | now apply REC] | intros q Q].
      apply REC. now apply no_builtin_apply.
    - cbn in G. destruct args as [| a rest]; [apply fine_throw |].
      inversion A as [| a' r' Aa Ar]; subst.
      eapply fine_bind; [now apply REC | intros x X].
      eapply fine_bind; [now apply fine_define | intros _ _].
      destruct rest as [| a2 rest]; [now apply REC |].
      eapply fine_bind; [now apply REC | intros q Q].
      apply REC. now apply no_builtin_apply.
    - contradiction.
  Qed.

  Lemma fine_seq l : Forall no_builtin l -> fine no_builtin (seqM rec l).
  Proof.
    induction 1 as [| x l X F IH]; [now apply fine_ret |].
    destruct l as [| y l]; [now apply REC |].
    change (fine no_builtin (rec x ;;; seqM rec (y :: l))).
    eapply fine_bind; [now apply REC | intros; exact IH].
  Qed.

  Lemma fine_map m :
    Forall (fun kv => no_builtin (snd kv)) m ->
    fine (fun r => Forall (fun kv => no_builtin (snd kv)) r) (map_values rec m).
  Proof.
    induction 1 as [| [k x] m X F IH]; cbn [map_values]; [now apply fine_ret |].
    eapply fine_bind; [now apply REC | intros y Y].
    eapply fine_bind; [exact IH | intros r R]. apply fine_ret. now constructor.
  Qed.

  Lemma fine_body e : no_builtin e -> fine no_builtin (eval_body H rec ev0 e).
  Proof.
    intros N. destruct e; cbn [eval_body]; try (now apply fine_ret).
    - now apply REC.
    - eapply fine_bind; [apply fine_get_env | intros e E].
      apply fine_ret. destruct (env_get s e) eqn:G; [now apply (nb_get s e) | exact I].
    - apply no_builtin_list in N.
      eapply fine_bind; [eapply fine_mapM; [exact N | exact REC] | intros vs V].
      apply fine_ret. now apply no_builtin_list.
    - apply no_builtin_map in N.
      eapply fine_bind; [now apply fine_map | intros r R]. apply fine_ret. now apply no_builtin_map.
    - eapply fine_bind; [now apply REC | intros v V].
      eapply fine_bind; [now apply fine_define | intros _ _]. now apply fine_ret.
    - destruct N as [N1 N2].
      eapply fine_bind; [now apply REC | intros v V]. destruct v; try apply fine_throw.
      apply no_builtin_list in V.
      eapply fine_bind; [| intros r R; apply fine_ret; apply no_builtin_list; exact R].
      eapply fine_mapM; [exact V |]. intros a A.
      eapply fine_bind; [now apply fine_define | intros _ _]. now apply REC.
    - destruct N as (N1 & N2 & N3).
      eapply fine_bind; [now apply REC | intros v V]. destruct (is_truthy v); now apply REC.
    - apply no_builtin_apply in N. destruct N as [N1 N2].
      eapply fine_bind; [now apply REC | intros v V]. now apply fine_apply.
    - destruct N as [N1 N2].
      eapply fine_bind; [apply fine_get_env | intros e' E]. apply fine_ret.
      split; [exact N1 | now apply nb_capture].
    - apply no_builtin_do in N. now apply fine_seq.
  Qed.
End Body.

Lemma fine_eval H n : forall d e,
  (0 < n)%nat -> (N.of_nat n + d >= MAX_DEPTH + 2)%N -> no_builtin e ->
  fine no_builtin (eval H n d e).
Proof.
  induction n as [| n IH]; intros d e P L N; [lia |]. cbn [eval].
  destruct (N.ltb_spec MAX_DEPTH d) as [D | D]; [apply fine_throw |].
  apply fine_body; [| exact N]. intros x X. apply IH; [lia | lia | exact X].
Qed.

(** 802 is enough fuel. *)
Lemma no_builtin_finishes H d e s :
  no_builtin e -> no_builtin_env (s_env s) ->
  exists r s', evaluates H d e s r s' /\ no_builtin_env (s_env s')
    /\ (forall v, r = ROk v -> no_builtin v).
Proof.
  intros N E.
  destruct (fine_eval H (N.to_nat (MAX_DEPTH + 2)) d e) with (s := s) as [X Y];
    [unfold MAX_DEPTH; lia | lia | exact N | exact E |].
  set (n := N.to_nat (MAX_DEPTH + 2)) in *. clearbody n.
  destruct (eval H n d e s) as [r s'] eqn:EV. cbn in X, Y.
  exists r, s'. split; [split; [intros ->; contradiction | eauto] |].
  split; [exact X |]. intros v ->. exact Y.
Qed.
