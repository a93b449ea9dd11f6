(** C54: [fn@curry] on functions of the user. *)

From Coq Require Import String.
From Verif Require Import Base Syntax Host Ops Parser ErrorFmt Text Monad Builtins Eval
  EvalSpec EvalFacts MapFacts CoreFacts LibFacts OpsSpec OpsFacts LibSpec ListFacts
  CurryFacts Init Demo P_Ops P_List P_Fn P_Staged.

(** Whatever the variables are, and at all depths up to [D], applying [f] to
    arguments with the values [vs] has the outcome [r] and changes no variable. *)
Definition runs_to (H : host) (D : N) (f : expr) (vs : list expr) (s : st) (r : res expr) (s' : st) : Prop :=
  s_env s' = s_env s
  /\ forall E d args,
      env_get_cwd E = env_get_cwd (s_env s) -> (d <= D)%N ->
      Forall2 (argument H (D + N.of_nat (length vs)) (with_env E s)) args vs ->
      evaluates H d (EApply f args) (with_env E s) r (with_env E s').

Section Curry.
  Variables (H : host) (e0 : env) (fv : expr) (n : nat).
  Hypothesis FREE : forall i, (S i < n)%nat -> env_get (arg_name i) e0 = None.

  Let body : expr := EApply fv (map (fun i => ESymbol (arg_name i)) (seq 0 n)).
  Let level (k : nat) : expr :=
    fold_right (fun i acc => ELambda (arg_name i) acc (capture e0 (arg_name i) acc env_new)) body (seq k (n - k)).

  Lemma level_step k : (k < n)%nat ->
    level k = ELambda (arg_name k) (level (S k)) (capture e0 (arg_name k) (level (S k)) env_new).
  Proof. intros L. unfold level at 1. replace (n - k)%nat with (S (n - S k)) by lia. reflexivity. Qed.

  Lemma level_used k i : (i < n)%nat -> In (arg_name i) (used_symbols (level k)).
  Proof.
    intros L. unfold level. generalize (n - k)%nat. intros m. revert k.
    induction m as [|m IH]; intros k; [|cbn [seq fold_right used_symbols]; apply IH].
    unfold body. cbn [seq fold_right used_symbols]. apply in_or_app. right. apply in_flat_map.
    exists (ESymbol (arg_name i)). split; [|now left]. apply in_map_iff. exists i. split; [reflexivity|].
    apply in_seq. lia.
  Qed.

  (** The function that has got the arguments [given]. *)
  Definition got (given : list expr) (h : expr) : Prop :=
    exists c, h = ELambda (arg_name (length given)) (level (S (length given))) c
      /\ forall i v, nth_error given i = Some v -> env_get (arg_name i) c = Some v.

  Lemma got_none : (0 < n)%nat -> got [] (level 0).
  Proof.
    intros L. rewrite level_step by exact L. eexists. split; [reflexivity|]. intros [|i] v X; discriminate.
  Qed.

  Lemma neq_arg i j : i <> j -> arg_name i <> arg_name j.
  Proof. intros N E. now apply arg_name_inj in E. Qed.

  Lemma given_lt (given : list expr) i v : nth_error given i = Some v -> (i < length given)%nat.
  Proof. intros X. apply nth_error_Some. congruence. Qed.

  Lemma got_again d given h s : (d <= MAX_DEPTH)%N -> (length given < n)%nat -> got given h ->
    exists h', evaluates H d h s (ROk h') s /\ got given h'.
  Proof.
    intros D L (c & -> & K). eexists. split; [apply rule_lambda; [exact D|split; reflexivity]|].
    eexists. split; [reflexivity|]. intros i v X. pose proof (given_lt _ _ _ X) as I.
    apply get_capture; [apply level_used; lia|apply neq_arg; lia|apply arg_name_cwd|left; now apply K].
  Qed.

  Lemma call_got given v c s : (length given < n)%nat ->
    (forall i w, nth_error given i = Some w -> env_get (arg_name i) c = Some w) ->
    forall i w, nth_error (given ++ [v]) i = Some w ->
    env_get (arg_name i) (call_env (arg_name (length given)) v c (s_env s)) = Some w.
  Proof.
    intros L K i w X. unfold call_env, env_set_cwd. rewrite !env_get_define.
    destruct (Nat.eq_dec i (length given)) as [-> | N].
    - rewrite str_eqb_refl. rewrite nth_error_app2, Nat.sub_diag in X by lia. exact X.
    - assert (I : (i < length given)%nat).
      { apply given_lt in X. rewrite app_length in X. cbn in X. lia. }
      rewrite nth_error_app1 in X by lia.
      rewrite (proj2 (str_eqb_neq _ _)) by (apply neq_arg; lia).
      rewrite (proj2 (str_eqb_neq _ _)) by apply arg_name_cwd. now apply K.
  Qed.

  (** The function for the next argument is made in a scope with those given. *)
  Lemma got_next given v c s : (S (length given) < n)%nat ->
    (forall i w, nth_error given i = Some w -> env_get (arg_name i) c = Some w) ->
    let E := call_env (arg_name (length given)) v c (s_env s) in
    exists h, evaluates H 0 (level (S (length given))) (with_env E s) (ROk h) (with_env E s)
    /\ (forall d, (d <= MAX_DEPTH)%N ->
        evaluates H d (level (S (length given))) (with_env E s) (ROk h) (with_env E s))
    /\ got (given ++ [v]) h.
  Proof.
    intros L K E. rewrite level_step by exact L.
    eexists. split; [apply rule_lambda; [unfold MAX_DEPTH; lia|split; reflexivity]|].
    split; [intros d D; apply rule_lambda; [exact D|split; reflexivity]|].
    assert (LE : length (given ++ [v]) = S (length given)) by (rewrite app_length; cbn; lia).
    unfold got. rewrite LE.
    eexists. split; [reflexivity|]. intros i w X.
    assert (I : (i < S (length given))%nat) by (rewrite <- LE; eapply given_lt; exact X).
    apply get_capture; [apply level_used; lia|apply neq_arg; lia|apply arg_name_cwd|right].
    split.
    - unfold capture. rewrite capture_symbols_get. unfold env_set_cwd. rewrite !env_get_define.
      rewrite (proj2 (str_eqb_neq (arg_name i) CWD)) by apply arg_name_cwd.
      rewrite (proj2 (str_eqb_neq (arg_name i) (arg_name (S (length given))))) by (apply neq_arg; lia).
      rewrite FREE by lia.
      destruct (_ && _); reflexivity.
    - cbn [with_env s_env]. eapply call_got; eauto. lia.
  Qed.

  Lemma apply_got d e given h a v s : (d + 1 <= MAX_DEPTH)%N -> (S (length given) < n)%nat -> got given h ->
    evaluates H (d + 1) e s (ROk h) s -> evaluates H (d + 1) a s (ROk v) s ->
    exists h', evaluates H d (EApply e [a]) s (ROk h') s /\ got (given ++ [v]) h'.
  Proof.
    intros D L (c & -> & K) E A. destruct (got_next given v c s L K) as (h' & _ & X & G).
    exists h'. split; [|exact G].
    eapply apply_one; [lia|exact E|exact A|]. eexists. split; [apply X; lia|now destruct s].
  Qed.

  Lemma apply_got_last D d e given h a v s r s' :
    (d + 1 <= D)%N -> (D + N.of_nat n <= MAX_DEPTH)%N -> S (length given) = n -> got given h ->
    evaluates H (d + 1) e s (ROk h) s -> evaluates H (d + 1) a s (ROk v) s ->
    runs_to H D fv (given ++ [v]) s r s' -> evaluates H d (EApply e [a]) s r s'.
  Proof.
    intros D1 D2 L (c & -> & K) E A [V R].
    assert (B : level (S (length given)) = body) by (unfold level; rewrite L, Nat.sub_diag; reflexivity).
    rewrite B in E.
    pose (E1 := call_env (arg_name (length given)) v c (s_env s)).
    eapply apply_one; [lia|exact E|exact A|]. exists (with_env E1 s'). split; [|now rewrite <- (same_env s s' V)].
    assert (LE : length (given ++ [v]) = n) by (rewrite app_length; cbn; lia).
    apply R; [apply call_cwd, arg_name_cwd|lia|]. rewrite LE.
    assert (KN : forall i w, nth_error (given ++ [v]) i = Some w -> env_get (arg_name i) E1 = Some w)
      by (intros i w X; unfold E1; eapply call_got; eauto; lia).
    clear - KN LE D2. revert KN LE. generalize (given ++ [v]) as vs. intros vs.
    assert (G : forall k, (forall i w, nth_error vs i = Some w -> env_get (arg_name (k + i)) E1 = Some w) ->
      Forall2 (argument H (D + N.of_nat n) (with_env E1 s)) (map (fun i => ESymbol (arg_name i)) (seq k (length vs))) vs).
    { induction vs as [|w vs IH]; intros k KN; cbn [length seq map]; constructor.
      - apply argument_symbol; [lia|]. cbn [with_env s_env]. specialize (KN 0%nat w eq_refl).
        now rewrite Nat.add_0_r in KN.
      - apply IH. intros i u X. specialize (KN (S i) u X). now replace (S k + i)%nat with (k + S i)%nat by lia. }
    intros KN LE. rewrite <- LE at 2. apply (G 0%nat). exact KN.
  Qed.

  (** All the arguments at once. *)
  Lemma apply_all_got D s r s' : (D + N.of_nat n <= MAX_DEPTH)%N ->
    forall args vs given h e d, (d + N.of_nat (length args) <= D)%N -> args <> [] ->
    (length given + length args = n)%nat -> got given h ->
    evaluates H (d + 1) e s (ROk h) s -> Forall2 (argument H D s) args vs ->
    runs_to H D fv (given ++ vs) s r s' -> evaluates H d (EApply e args) s r s'.
  Proof.
    intros DM. induction args as [|a args IH]; [congruence|].
    intros vs given h e d D1 _ L G E A R. inversion A as [|a' v l vs' AV A']; subst.
    cbn [length] in *. destruct args as [|a2 rest].
    - inversion A'; subst. cbn [length] in *. apply (apply_got_last D d e given h a v); auto; try lia; apply AV; lia.
    - pose proof G as (c & -> & K). cbn [length] in *.
      destruct (got_next given v c s ltac:(lia) K) as (h' & _ & X & G').
      eapply apply_more; [lia|exact E|apply AV; lia|apply X; lia|].
      destruct (got_again (d + 1 + 1) (given ++ [v]) h' s ltac:(lia) ltac:(rewrite app_length; cbn; lia) G')
        as (h'' & E2 & G'').
      apply (IH vs' (given ++ [v]) h'' h' (d + 1)%N).
      + lia.
      + discriminate.
      + rewrite app_length. cbn [length]. lia.
      + exact G''.
      + exact E2.
      + exact A'.
      + now rewrite <- app_assoc.
  Qed.

  (** One at a time. *)
  Lemma apply_each_got D s r s' : (D + N.of_nat n <= MAX_DEPTH)%N ->
    forall args vs given h e, (N.of_nat (length args) <= D)%N -> args <> [] ->
    (length given + length args = n)%nat -> got given h ->
    argument H (N.of_nat (length args)) s e h -> Forall2 (argument H D s) args vs ->
    runs_to H D fv (given ++ vs) s r s' -> evaluates H 0 (one_at_a_time e args) s r s'.
  Proof.
    intros DM. induction args as [|a args IH]; [congruence|].
    intros vs given h e D1 _ L G E A R. inversion A as [|a' v l vs' AV A']; subst.
    cbn [length] in *. destruct args as [|a2 rest].
    - inversion A'; subst. cbn [length] in *. cbn [one_at_a_time fold_left].
      apply (apply_got_last D 0 e given h a v); auto; try lia; solve [apply E; lia|apply AV; lia].
    - cbn [length] in *.
      assert (X : exists h', argument H (N.of_nat (S (length rest))) s (EApply e [a]) h' /\ got (given ++ [v]) h').
      { pose proof G as (c & -> & K).
        destruct (got_next given v c s ltac:(lia) K) as (h' & _ & X & G'). exists h'. split; [|exact G'].
        intros d Dd. eapply apply_one; [lia|apply E; lia|apply AV; lia|].
        eexists. split; [apply X; lia|now destruct s]. }
      destruct X as (h' & E' & G').
      change (one_at_a_time e (a :: a2 :: rest)) with (one_at_a_time (EApply e [a]) (a2 :: rest)).
      apply (IH vs' (given ++ [v]) h').
      + lia.
      + discriminate.
      + rewrite app_length. cbn [length]. lia.
      + exact G'.
      + exact E'.
      + exact A'.
      + now rewrite <- app_assoc.
  Qed.
End Curry.

(** [fn@curry] makes a function that agrees with the given one, applied at once
    or one argument at a time, if no variable has the name of a parameter that
    it makes up, and if the outcome of the given function does not depend on the
    variables of its caller. *)
Theorem C54_fn_curry_functions H a c s fv n s1 s2 :
  gives H a s fv s1 -> gives H c s1 (EInteger n) s2 -> (0 < n)%Z -> (2 * Z.to_N n <= MAX_DEPTH)%N ->
  (forall i, (Z.of_nat i + 1 < n)%Z -> env_get (lit "arg" ++ n_str (N.of_nat i)) (s_env s2) = None) ->
  exists h, calls H FCurry [a; c] s (ROk h) s2
  /\ forall f args vs t r t', let D := Z.to_N n in
     Z.of_nat (length args) = n -> argument H D t f h -> Forall2 (argument H D t) args vs ->
     runs_to H D fv vs t r t' ->
     evaluates H 0 (EApply f args) t r t' /\ evaluates H 0 (one_at_a_time f args) t r t'.
Proof.
  intros A C P D F. exists (curry_env fv (Z.to_nat n) (s_env s2)). split.
  - unfold gives in *. call. unfold run_curry. cbn [length Nat.ltb Nat.leb]. repeat sure_step.
    rewrite as_usize_nonneg by (unfold fits; unfold MAX_DEPTH in D; lia).
    replace (Z.to_N n <? 2 ^ 56)%N with true by (symmetry; apply N.ltb_lt; unfold MAX_DEPTH in D; lia).
    apply sure_const. unfold bind, get_env, ret. rewrite Z_N_nat. reflexivity.
  - intros f args vs t r t' DD L EF EA R.
    assert (FR : forall i, (S i < Z.to_nat n)%nat -> env_get (arg_name i) (s_env s2) = None)
      by (intros i I; apply F; lia).
    assert (LN : length args = Z.to_nat n) by lia.
    assert (G : got (s_env s2) fv (Z.to_nat n) [] (curry_env fv (Z.to_nat n) (s_env s2))).
    { unfold curry_env, curry_lambdas. rewrite <- (Nat.sub_0_r (Z.to_nat n)) at 3. apply got_none. lia. }
    assert (NE : args <> []) by (intros ->; cbn in L; lia).
    split.
    + eapply (apply_all_got H _ fv _ FR DD t r t'); [unfold DD; lia|unfold DD; lia|exact NE| |exact G|apply EF|exact EA|exact R];
        [cbn; lia|unfold DD; lia].
    + eapply (apply_each_got H _ fv _ FR DD t r t'); [unfold DD; lia|unfold DD; lia|exact NE| |exact G| |exact EA|exact R];
        [cbn; lia|]. now replace (N.of_nat (length args)) with DD by (unfold DD; lia).
Qed.

(** A function of the user that meets the hypothesis: [x -> y -> [y, x]]. *)
Example C54_swap H D v w s : (D + 10 <= MAX_DEPTH)%N ->
  runs_to H D (ELambda (lit "x") (ELambda (lit "y") (EList [ESymbol (lit "y"); ESymbol (lit "x")]) env_new) env_new)
    [v; w] s (ROk (EList [w; v])) s.
Proof.
  intros DM. split; [reflexivity|]. intros E d args C Dd A.
  inversion A as [|a1 ? l ? A1 B]; subst. inversion B as [|a2 ? l2 ? A2 B']; subst. inversion B'; subst.
  set (t := with_env E s).
  destruct (closure_new H (d + 1) (lit "x") (ELambda (lit "y") (EList [ESymbol (lit "y"); ESymbol (lit "x")]) env_new) t)
    as (h & E1 & C1); [lia|].
  eapply (closure_more H d (lit "x") (lit "y") _ _ h _ a1 v a2 [] t); [lia|discriminate|exact C1|exact E1|apply A1; cbn; lia|].
  intros g CG. destruct (closure_again H (d + 1 + 1) _ _ _ g t ltac:(lia) CG) as (g' & EG & CG').
  eapply (closure_runs H (d + 1) (lit "y") _ _ g' g a2 w t); [lia|discriminate|exact CG'|exact EG|apply A2; cbn; lia|reflexivity|].
  intros E2 CW K. exists (with_env E2 t). split; [|exists E2; split; [reflexivity|split; [exact CW|intros ? ? []]]].
  apply rule_list; [lia|]. left. exists [w; v]. split; [|reflexivity].
  apply (io_cons _ _ w (with_env E2 t)); [|apply (io_cons _ _ v (with_env E2 t)); [|apply io_nil]];
    apply rule_symbol; try lia; cbn [with_env s_env];
    [rewrite (K (lit "y") w)|rewrite (K (lit "x") v)]; auto; try discriminate; vm_compute; tauto.
Qed.

Example C54_curry_example :
  value_of "let swap = x -> y -> [y, x]; let c = fn@curry swap 2; [c 1 2, (c 1) 2]"
    = ROk (EList [EList [EInteger 2; EInteger 1]; EList [EInteger 2; EInteger 1]])
  /\ env_get (lit "arg0") demo_env = None.
Proof. split; vm_compute; reflexivity. Qed.

Print Assumptions C54_fn_curry_functions.
