(** Facts about functions that take their arguments one at a time. *)

From Coq Require Import String DecimalN.
From Verif Require Import Base Syntax Host Ops Parser ErrorFmt Text Monad Builtins Eval
  MonoFacts EvalSpec EvalFacts MapFacts CoreFacts LibFacts.

Lemma uint_str_inj a : forall b, uint_str a = uint_str b -> a = b.
Proof.
  induction a as [| a IH | a IH | a IH | a IH | a IH | a IH | a IH | a IH | a IH | a IH]; intros b;
    destruct b; cbn; intros E; try discriminate; try reflexivity;
    injection E as E; f_equal; apply IH; exact E.
Qed.

Lemma n_str_inj a b : n_str a = n_str b -> a = b.
Proof. intros E. apply uint_str_inj in E. now apply Unsigned.to_uint_inj. Qed.

Lemma arg_name_inj i j : arg_name i = arg_name j -> i = j.
Proof. intros E. unfold arg_name in E. apply app_inv_head, n_str_inj in E. lia. Qed.

Lemma arg_name_cwd i : arg_name i <> CWD.
Proof. discriminate. Qed.

(** ** Scopes without an enclosing one *)

Definition flat (c : env) : Prop := env_parent c = None /\ sorted (env_bindings c).

Lemma flat_new : flat env_new.
Proof. split; [reflexivity | apply sorted_nil]. Qed.

Lemma flat_define x v c : flat c -> flat (env_define x v c).
Proof. destruct c as [b p]. intros [P S]. split; [exact P | apply sorted_insert, S]. Qed.

Lemma flat_ext c1 c2 : flat c1 -> flat c2 -> (forall x, env_get x c1 = env_get x c2) -> c1 = c2.
Proof.
  destruct c1 as [b1 p1], c2 as [b2 p2]. intros [P1 S1] [P2 S2] E. cbn in *. subst.
  f_equal. apply sorted_ext; auto. intros k. specialize (E k). cbn in E.
  destruct (bm_get k b1), (bm_get k b2); congruence.
Qed.

Lemma flat_capture e p b c : flat c -> flat (capture e p b c).
Proof.
  intros F. unfold capture, capture_symbols.
  assert (G : flat (env_set_cwd (env_get_cwd e) (env_define p ENone c)))
    by (apply flat_define, flat_define, F).
  revert G. generalize (env_set_cwd (env_get_cwd e) (env_define p ENone c)).
  induction (used_symbols b) as [| x l IH]; intros t G; cbn [fold_left]; [exact G |].
  apply IH. destruct (_ && _); [| exact G]. destruct (env_get x e); [| exact G]. now apply flat_define.
Qed.

(** ** Applications of functions to data *)

Section Apply.
  Variable H : host.

  Lemma data_at d v s : data v -> (d + nesting v <= MAX_DEPTH)%N -> evaluates H d v s (ROk v) s.
  Proof.
    intros D L. destruct (data_evaluates H v D d s) as (r & E & OK & _). now rewrite OK in E by exact L.
  Qed.

  Lemma apply_one d f p b c a v s r s' :
    (d <= MAX_DEPTH)%N ->
    evaluates H (d + 1) f s (ROk (ELambda p b c)) s ->
    evaluates H (d + 1) a s (ROk v) s ->
    (evaluates H d (EApply f [a]) s r s' <->
     exists s2, evaluates H (d + 1) b (with_env (call_env p v c (s_env s)) s) r s2
                /\ s' = with_env (s_env s) s2).
  Proof.
    intros L EF EA. rewrite rule_apply by exact L. split.
    - intros [(g & s1 & E & A) | (r1 & E & F)].
      + destruct (evaluates_det _ _ _ _ _ _ _ _ E EF) as [X ->]. injection X as ->.
        apply apply_lambda1 in A. destruct A as [(w & s2 & s3 & E1 & E2 & ->) | (r1 & E1 & F)].
        * destruct (evaluates_det _ _ _ _ _ _ _ _ E1 EA) as [X ->]. injection X as ->. eauto.
        * destruct (evaluates_det _ _ _ _ _ _ _ _ E1 EA) as [-> _]. inversion F.
      + destruct (evaluates_det _ _ _ _ _ _ _ _ E EF) as [-> _]. inversion F.
    - intros (s2 & E2 & ->). left. exists (ELambda p b c), s. split; [exact EF |].
      apply apply_lambda1. left. exists v, s, s2. auto.
  Qed.

  Lemma apply_more d f p b c a v g s a2 rest r s' :
    (d <= MAX_DEPTH)%N ->
    evaluates H (d + 1) f s (ROk (ELambda p b c)) s ->
    evaluates H (d + 1) a s (ROk v) s ->
    evaluates H (d + 1) b (with_env (call_env p v c (s_env s)) s) (ROk g)
      (with_env (call_env p v c (s_env s)) s) ->
    (evaluates H d (EApply f (a :: a2 :: rest)) s r s' <->
     evaluates H (d + 1) (EApply g (a2 :: rest)) s r s').
  Proof.
    intros L EF EA EB.
    assert (W : with_env (s_env s) (with_env (call_env p v c (s_env s)) s) = s) by now destruct s.
    rewrite rule_apply by exact L. split.
    - intros [(g' & s1 & E & A) | (r1 & E & F)].
      + destruct (evaluates_det _ _ _ _ _ _ _ _ E EF) as [X ->]. injection X as ->.
        apply apply_lambda2 in A.
        destruct A as [(w & s2 & g2 & s3 & E1 & E2 & E3) |
                       [(w & s2 & r1 & s3 & E1 & E2 & F & ->) | (r1 & E1 & F)]];
          destruct (evaluates_det _ _ _ _ _ _ _ _ E1 EA) as [X Y]; try (subst; now inversion F).
        * injection X as ->. subst s2. destruct (evaluates_det _ _ _ _ _ _ _ _ E2 EB) as [X ->].
          injection X as ->. now rewrite W in E3.
        * injection X as ->. subst s2. destruct (evaluates_det _ _ _ _ _ _ _ _ E2 EB) as [-> _].
          inversion F.
      + destruct (evaluates_det _ _ _ _ _ _ _ _ E EF) as [-> _]. inversion F.
    - intros E. left. exists (ELambda p b c), s. split; [exact EF |].
      apply apply_lambda2. left. exists v, s, g, (with_env (call_env p v c (s_env s)) s).
      split; [exact EA |]. split; [exact EB |]. now rewrite W.
  Qed.
End Apply.

(** ** Functions of several parameters *)

(** A scope in which a function of [n] parameters has got [given]. *)
Definition holds (name : nat -> str) (n : nat) (given : list expr) (c : env) : Prop :=
  flat c
  /\ (forall i v, nth_error given i = Some v -> env_get (name i) c = Some v)
  /\ (forall x, env_get x c <> None -> x = CWD \/ exists i, (i < n)%nat /\ x = name i).

(** The scope in which the body of such a function runs. *)
Definition args_env (name : nat -> str) (cwd : str) (vs : list expr) : env :=
  fold_left (fun e iv => env_define (name (fst iv)) (snd iv) e)
    (combine (seq 0 (length vs)) vs) (env_define CWD (EString cwd) env_new).

(** Giving the arguments one at a time. *)
Definition one_at_a_time (f : expr) (args : list expr) : expr :=
  fold_left (fun f a => EApply f [a]) args f.

(** Evaluating [a] in the state [s] has the value [v] and no effect, at all
    depths up to [d]. *)
Definition argument (H : host) (d : N) (s : st) (a v : expr) : Prop :=
  forall d', (d' <= d)%N -> evaluates H d' a s (ROk v) s.

Lemma argument_less H d d' s a v : argument H d s a v -> (d' <= d)%N -> argument H d' s a v.
Proof. intros A L d2 L2. apply A. lia. Qed.

Lemma argument_data H d s v : data v -> (d + nesting v <= MAX_DEPTH)%N -> argument H d s v v.
Proof. intros D L d' L'. apply data_at; [exact D | lia]. Qed.

Lemma argument_quote H d s v : (d <= MAX_DEPTH)%N -> argument H d s (EQuote v) v.
Proof. intros L d' L'. apply rule_quote; [lia | auto]. Qed.

Lemma argument_symbol H d s x v :
  (d <= MAX_DEPTH)%N -> env_get x (s_env s) = Some v -> argument H d s (ESymbol x) v.
Proof. intros L G d' L'. apply rule_symbol; [lia |]. now rewrite G. Qed.

Lemma Forall2_len A B (P : A -> B -> Prop) l m : Forall2 P l m -> length l = length m.
Proof. induction 1; cbn; auto. Qed.

Lemma Forall2_weaken A B (P Q : A -> B -> Prop) l m :
  (forall x y, P x y -> Q x y) -> Forall2 P l m -> Forall2 Q l m.
Proof. induction 2; constructor; auto. Qed.

Section Curried.
  Variable H : host.
  Variables (name : nat -> str) (n : nat) (cs : nat -> env) (body : expr).
  Hypothesis INJ : forall i j, (i < n)%nat -> (j < n)%nat -> name i = name j -> i = j.
  Hypothesis NCWD : forall i, (i < n)%nat -> name i <> CWD.
  Hypothesis USED : forall x, In x (used_symbols body) -> exists i, (i < n)%nat /\ x = name i.
  Hypothesis USES : forall i, (S i < n)%nat -> In (name i) (used_symbols body).
  Hypothesis FLAT : forall k, (k < n)%nat -> flat (cs k).
  Hypothesis KEYS : forall k x, (k < n)%nat -> env_get x (cs k) <> None ->
                    x = CWD \/ exists i, (i < n)%nat /\ x = name i.
  Hypothesis FREE : forall k i, (k < n)%nat -> (i < k)%nat -> env_get (name i) (cs k) = None.

  Definition stage (k : nat) : expr :=
    fold_right (fun i acc => ELambda (name i) acc (cs i)) body (seq k (n - k)).

  Lemma neq_name i j : (i < n)%nat -> (j < n)%nat -> i <> j -> str_eqb (name i) (name j) = false.
  Proof. intros I J N. apply str_eqb_neq. intros E. apply N. now apply INJ. Qed.

  Lemma neq_cwd i : (i < n)%nat -> str_eqb (name i) CWD = false.
  Proof. intros I. now apply str_eqb_neq, NCWD. Qed.

  Lemma args_fold l : forall e k vs, l = combine (seq k (length vs)) vs -> flat e ->
    (k + length vs <= n)%nat ->
    flat (fold_left (fun e iv => env_define (name (fst iv)) (snd iv) e) l e)
    /\ (forall i v, nth_error vs i = Some v ->
          env_get (name (k + i)) (fold_left (fun e iv => env_define (name (fst iv)) (snd iv) e) l e)
          = Some v)
    /\ (forall x, (forall i, (i < length vs)%nat -> x <> name (k + i)%nat) ->
          env_get x (fold_left (fun e iv => env_define (name (fst iv)) (snd iv) e) l e) = env_get x e).
  Proof.
    induction l as [| iv l IH]; intros e k vs E F LE.
    - destruct vs; [| discriminate]. cbn [fold_left]. split; [exact F |].
      split; [intros [|] ? X; discriminate | auto].
    - destruct vs as [| v vs]; [discriminate |]. cbn in E. injection E as -> E.
      cbn [fold_left fst snd]. cbn [length] in LE.
      destruct (IH (env_define (name k) v e) (S k) vs E (flat_define _ _ _ F) ltac:(lia)) as (A & B & C).
      split; [exact A |]. split.
      + intros [| i] w X; cbn in X.
        * injection X as ->. rewrite Nat.add_0_r, C.
          -- now rewrite env_get_define, str_eqb_refl.
          -- intros i I Y. apply INJ in Y; lia.
        * replace (k + S i)%nat with (S k + i)%nat by lia. now apply B.
      + intros x X. rewrite C.
        * rewrite env_get_define. assert (N := X 0%nat ltac:(cbn; lia)). rewrite Nat.add_0_r in N.
          apply str_eqb_neq in N. now rewrite N.
        * intros i I. replace (S k + i)%nat with (k + S i)%nat by lia. apply X. cbn. lia.
  Qed.

  Lemma args_env_spec cwd vs : (length vs <= n)%nat ->
    flat (args_env name cwd vs)
    /\ (forall i v, nth_error vs i = Some v -> env_get (name i) (args_env name cwd vs) = Some v)
    /\ (forall x, (forall i, (i < length vs)%nat -> x <> name i) ->
          env_get x (args_env name cwd vs) = if str_eqb x CWD then Some (EString cwd) else None).
  Proof.
    intros LE.
    destruct (args_fold (combine (seq 0 (length vs)) vs) (env_define CWD (EString cwd) env_new) 0 vs
                eq_refl (flat_define _ _ _ flat_new) LE) as (A & B & C).
    split; [exact A |]. split; [exact B |].
    intros x X. unfold args_env. rewrite C by exact X. rewrite env_get_define. reflexivity.
  Qed.

  Lemma stage_end : stage n = body.
  Proof. unfold stage. now rewrite Nat.sub_diag. Qed.

  Lemma stage_step k : (k < n)%nat -> stage k = ELambda (name k) (stage (S k)) (cs k).
  Proof.
    intros L. unfold stage at 1. replace (n - k)%nat with (S (n - S k)) by lia. reflexivity.
  Qed.

  Lemma stage_used k : used_symbols (stage k) = used_symbols body.
  Proof.
    unfold stage. generalize (n - k)%nat. intros m. revert k.
    induction m as [| m IH]; intros k; [reflexivity |]. cbn [seq fold_right used_symbols]. apply IH.
  Qed.

  Lemma capture_get e' p k c x :
    env_get x (capture e' p (stage k) c)
    = if str_eqb x CWD then Some (EString (env_get_cwd e'))
      else if str_eqb x p then Some ENone
      else if existsb (str_eqb x) (used_symbols body) && negb (env_is_defined x c)
           then env_get x e' else env_get x c.
  Proof.
    unfold capture. rewrite capture_symbols_get, stage_used.
    unfold env_set_cwd. rewrite !env_get_define.
    destruct (str_eqb x CWD) eqn:EC.
    - apply str_eqb_eq in EC. subst x.
      assert (NU : existsb (str_eqb CWD) (used_symbols body) = false).
      { apply not_true_iff_false. rewrite existsb_str. intros U. apply USED in U.
        destruct U as (i & I & U). now apply (NCWD i I). }
      now rewrite NU.
    - destruct (str_eqb x p); [now rewrite andb_false_r |]. rewrite andb_true_r.
      destruct (existsb _ _ && _) eqn:T; [| reflexivity].
      apply andb_true_iff in T. destruct T as [_ T]. apply negb_true_iff in T.
      destruct (env_get x e'); [reflexivity |].
      destruct (env_get x c) eqn:G; [| reflexivity].
      assert (D : env_is_defined x c = true) by (apply env_is_defined_get; congruence). congruence.
  Qed.

  Lemma holds_capture given c e' :
    (length given < n)%nat -> holds name n given c ->
    holds name n given (capture e' (name (length given)) (stage (S (length given))) c).
  Proof.
    intros L (F & G & K). split; [now apply flat_capture |]. split.
    - intros i v X. rewrite capture_get.
      assert (I : (i < length given)%nat) by (apply nth_error_Some; congruence).
      rewrite neq_cwd, neq_name by lia.
      assert (D : env_is_defined (name i) c = true)
        by (apply env_is_defined_get; rewrite (G i v X); discriminate).
      rewrite D, andb_false_r. now apply G.
    - intros x X. rewrite capture_get in X.
      destruct (str_eqb x CWD) eqn:EC; [apply str_eqb_eq in EC; auto |].
      destruct (str_eqb x (name (length given))) eqn:EP;
        [apply str_eqb_eq in EP; right; eauto |].
      destruct (existsb _ _ && _) eqn:T; [| now apply K].
      apply andb_true_iff in T. destruct T as [T _]. apply existsb_str, USED in T. auto.
  Qed.

  Lemma holds_nil k : (k < n)%nat -> holds name n [] (cs k).
  Proof.
    intros L. split; [now apply FLAT |]. split; [intros [|] ? X; discriminate |].
    intros x. now apply KEYS.
  Qed.

  (** Giving one more argument. *)
  Lemma holds_next given v c cwd :
    (S (length given) < n)%nat -> holds name n given c ->
    holds name n (given ++ [v])
      (capture (env_define (name (length given)) v (env_set_cwd cwd c))
         (name (S (length given))) (stage (S (S (length given)))) (cs (S (length given)))).
  Proof.
    intros L (F & G & K). split; [apply flat_capture, FLAT; lia |]. split.
    - intros i w X.
      assert (I : (i < S (length given))%nat).
      { assert (Y : (i < length (given ++ [v]))%nat) by (apply nth_error_Some; congruence).
        rewrite app_length in Y. cbn in Y. lia. }
      assert (U : existsb (str_eqb (name i)) (used_symbols body) = true)
        by (apply existsb_str, USES; lia).
      rewrite capture_get, neq_cwd, neq_name by lia.
      assert (D : env_is_defined (name i) (cs (S (length given))) = false).
      { apply not_true_iff_false. rewrite env_is_defined_get, FREE by lia. auto. }
      rewrite U, D. cbn [andb negb]. unfold env_set_cwd. rewrite !env_get_define.
      destruct (Nat.eq_dec i (length given)) as [-> | NE].
      + rewrite str_eqb_refl. rewrite nth_error_app2, Nat.sub_diag in X by lia. exact X.
      + rewrite neq_cwd, neq_name by lia. apply G. now rewrite nth_error_app1 in X by lia.
    - intros x X. rewrite capture_get in X.
      destruct (str_eqb x CWD) eqn:EC; [apply str_eqb_eq in EC; auto |].
      destruct (str_eqb x (name (S (length given)))) eqn:EP;
        [apply str_eqb_eq in EP; right; eauto |].
      destruct (existsb _ _ && _) eqn:T.
      + apply andb_true_iff in T. destruct T as [T _]. apply existsb_str, USED in T. auto.
      + eapply KEYS; eauto.
  Qed.

  (** Giving the last argument. *)
  Lemma holds_last given v c cwd :
    S (length given) = n -> holds name n given c ->
    env_define (name (length given)) v (env_set_cwd cwd c) = args_env name cwd (given ++ [v]).
  Proof.
    intros L (F & G & K).
    assert (LE : (length (given ++ [v]) <= n)%nat) by (rewrite app_length; cbn; lia).
    destruct (args_env_spec cwd (given ++ [v]) LE) as (A & B & C).
    apply flat_ext; [apply flat_define, flat_define, F | exact A |].
    intros x. unfold env_set_cwd. rewrite !env_get_define.
    destruct (str_eqb x (name (length given))) eqn:EI.
    - apply str_eqb_eq in EI. subst x. symmetry. apply B.
      rewrite nth_error_app2, Nat.sub_diag by lia. reflexivity.
    - apply str_eqb_neq in EI. destruct (str_eqb x CWD) eqn:EC.
      + rewrite C; [now rewrite EC |]. intros i I ->. rewrite neq_cwd in EC by lia. discriminate.
      + destruct (env_get x c) as [w |] eqn:EX.
        * destruct (K x) as [-> | (i & I & ->)]; [congruence | now rewrite str_eqb_refl in EC |].
          assert (J : (i < length given)%nat).
          { assert (i <> length given) by (intros ->; now apply EI). lia. }
          destruct (nth_error given i) as [u |] eqn:NE; [| apply nth_error_None in NE; lia].
          rewrite (G i u NE) in EX. injection EX as <-. symmetry. apply B.
          now rewrite nth_error_app1.
        * rewrite C; [now rewrite EC |]. intros i I ->. rewrite app_length in I. cbn in I.
          assert (J : (i < length given)%nat).
          { assert (i <> length given) by (intros ->; now apply EI). lia. }
          destruct (nth_error given i) as [u |] eqn:NE; [| apply nth_error_None in NE; lia].
          rewrite (G i u NE) in EX. discriminate.
  Qed.

  (** All remaining arguments at once. *)
  Lemma curried_all rest : forall vs given c d f s r s',
    rest <> [] -> (length given + length rest = n)%nat -> holds name n given c ->
    (d + N.of_nat (length rest) <= MAX_DEPTH)%N ->
    Forall2 (argument H (d + N.of_nat (length rest)) s) rest vs ->
    evaluates H (d + 1) f s (ROk (ELambda (name (length given)) (stage (S (length given))) c)) s ->
    (evaluates H d (EApply f rest) s r s' <->
     exists s2, evaluates H (d + N.of_nat (length rest)) body
                  (with_env (args_env name (env_get_cwd (s_env s)) (given ++ vs)) s) r s2
                /\ s' = with_env (s_env s) s2).
  Proof.
    induction rest as [| a rest IH]; intros vs given c d f s r s' NE LEN HC DL PL EF; [congruence |].
    destruct vs as [| v vs]; [inversion PL |].
    assert (PA : argument H (d + N.of_nat (length (a :: rest))) s a v) by now inversion PL.
    assert (PR : Forall2 (argument H (d + N.of_nat (length (a :: rest))) s) rest vs) by now inversion PL.
    cbn [length] in *.
    assert (EA : evaluates H (d + 1) a s (ROk v) s) by (apply PA; lia).
    destruct rest as [| a2 rest].
    - rewrite (apply_one H d f _ _ c a v s r s' ltac:(lia) EF EA).
      inversion PR. cbn [length] in *. unfold call_env.
      rewrite (holds_last given v c) by (assumption || lia).
      replace (S (length given)) with n by lia. rewrite stage_end. reflexivity.
    - cbn [length] in *.
      set (cwd := env_get_cwd (s_env s)).
      set (E := call_env (name (length given)) v c (s_env s)).
      set (c2 := capture E (name (S (length given))) (stage (S (S (length given)))) (cs (S (length given)))).
      set (g := ELambda (name (S (length given))) (stage (S (S (length given)))) c2).
      assert (EB : evaluates H (d + 1) (stage (S (length given))) (with_env E s) (ROk g) (with_env E s)).
      { rewrite stage_step by lia. apply rule_lambda; [lia |]. split; reflexivity. }
      rewrite (apply_more H d f _ _ c a v g s a2 rest r s' ltac:(lia) EF EA EB).
      assert (HN : holds name n (given ++ [v]) c2) by (apply holds_next; [lia | exact HC]).
      assert (LG : length (given ++ [v]) = S (length given)) by (rewrite app_length; cbn; lia).
      assert (HN2 := holds_capture (given ++ [v]) c2 (s_env s) ltac:(lia) HN).
      rewrite LG in HN2.
      rewrite (IH vs (given ++ [v]) (capture (s_env s) (name (S (length given)))
        (stage (S (S (length given)))) c2) (d + 1)%N g s r s');
        [ | discriminate | cbn [length]; lia | exact HN2 | cbn [length]; lia | | ].
      + rewrite <- app_assoc. cbn [Datatypes.app length].
        replace (d + 1 + N.of_nat (S (length rest)))%N with (d + N.of_nat (S (S (length rest))))%N
          by lia.
        reflexivity.
      + eapply Forall2_weaken; [| exact PR]. intros x y X. eapply argument_less; [exact X |]. cbn [length]. lia.
      + rewrite LG. unfold g. apply rule_lambda; [lia |]. split; reflexivity.
  Qed.

  (** Some, but not all arguments, one at a time. *)
  Lemma curried_some args : forall vs d f c s,
    (length args < n)%nat -> holds name n [] c ->
    (d + N.of_nat (length args) <= MAX_DEPTH)%N ->
    Forall2 (argument H (d + N.of_nat (length args)) s) args vs ->
    evaluates H (d + N.of_nat (length args)) f s (ROk (ELambda (name 0) (stage 1) c)) s ->
    exists c', holds name n vs c'
      /\ evaluates H d (one_at_a_time f args) s
           (ROk (ELambda (name (length args)) (stage (S (length args))) c')) s.
  Proof.
    induction args as [| a args IH] using rev_ind; intros vs d f c s LN HC DM PL EF.
    - inversion PL. cbn in *. rewrite N.add_0_r in EF. eauto.
    - rewrite app_length in *. cbn [length] in *.
      apply Forall2_app_inv_l in PL. destruct PL as (vs1 & vs2 & PL & PA & ->).
      destruct vs2 as [| v vs2]; [inversion PA |].
      assert (V2 : vs2 = []) by (inversion PA as [| ? ? ? ? _ Q]; now inversion Q). subst vs2.
      assert (PA' : argument H (d + N.of_nat (length args + 1)) s a v) by now inversion PA.
      assert (LV : length vs1 = length args) by (symmetry; eapply Forall2_len; exact PL).
      unfold one_at_a_time. rewrite fold_left_app. cbn [fold_left].
      replace (d + N.of_nat (length args + 1))%N with (d + 1 + N.of_nat (length args))%N in * by lia.
      destruct (IH vs1 (d + 1)%N f c s) as (c1 & H1 & E1); auto; [lia |].
      fold (one_at_a_time f args).
      exists (capture (call_env (name (length args)) v c1 (s_env s))
                (name (S (length args))) (stage (S (S (length args)))) (cs (S (length args)))).
      rewrite Nat.add_1_r. split; [rewrite <- LV; apply holds_next; [lia | exact H1] |].
      assert (EA : evaluates H (d + 1) a s (ROk v) s) by (apply PA'; lia).
      apply (apply_one H d _ _ _ c1 a v s _ _ ltac:(lia) E1 EA).
      exists (with_env (call_env (name (length args)) v c1 (s_env s)) s).
      split; [| destruct s; reflexivity].
      rewrite stage_step by lia. apply rule_lambda; [lia |]. split; reflexivity.
  Qed.

  Lemma curried_one_at_a_time args vs d f c s r s' :
    (0 < n)%nat -> (length args = n)%nat -> holds name n [] c -> (d + N.of_nat n <= MAX_DEPTH)%N ->
    Forall2 (argument H (d + N.of_nat n) s) args vs ->
    evaluates H (d + N.of_nat n) f s (ROk (ELambda (name 0) (stage 1) c)) s ->
    (evaluates H d (one_at_a_time f args) s r s' <->
     exists s2, evaluates H (d + 1) body
                  (with_env (args_env name (env_get_cwd (s_env s)) vs) s) r s2
                /\ s' = with_env (s_env s) s2).
  Proof.
    intros POS LN HC DM PL EF.
    destruct args as [| a0 args0] using rev_ind; [cbn in LN; lia | clear IHargs0].
    rewrite app_length in LN. cbn [length] in LN.
    apply Forall2_app_inv_l in PL. destruct PL as (vs1 & vs2 & PL & PA & ->).
    destruct vs2 as [| v vs2]; [inversion PA |].
    assert (V2 : vs2 = []) by (inversion PA as [| ? ? ? ? _ Q]; now inversion Q). subst vs2.
    assert (PA' : argument H (d + N.of_nat n) s a0 v) by now inversion PA.
    assert (LV : length vs1 = length args0) by (symmetry; eapply Forall2_len; exact PL).
    destruct (curried_some args0 vs1 (d + 1)%N f c s) as (c1 & H1 & E1); auto; try lia.
    - eapply Forall2_weaken; [| exact PL]. intros x y X. eapply argument_less; [exact X |]. lia.
    - replace (d + 1 + N.of_nat (length args0))%N with (d + N.of_nat n)%N by lia. exact EF.
    - unfold one_at_a_time. rewrite fold_left_app. cbn [fold_left]. fold (one_at_a_time f args0).
      assert (EA : evaluates H (d + 1) a0 s (ROk v) s) by (apply PA'; lia).
      rewrite (apply_one H d _ _ _ c1 a0 v s r s' ltac:(lia) E1 EA).
      unfold call_env. rewrite <- LV. rewrite (holds_last vs1 v c1) by (assumption || lia).
      replace (S (length vs1)) with n by lia. rewrite stage_end. reflexivity.
  Qed.
End Curried.

(** ** [curry_env] and [reverse_curry_env] *)

(** The variables of the lambda number [k] when it is made. *)
Definition curry_scope (e : env) (body : expr) (n k : nat) : env :=
  capture e (arg_name k)
    (fold_right (fun i acc => ELambda (arg_name i) acc (capture e (arg_name i) acc env_new))
       body (seq (S k) (n - S k))) env_new.

Lemma curry_stage e body n k :
  stage arg_name n (curry_scope e body n) body k
  = fold_right (fun i acc => ELambda (arg_name i) acc (capture e (arg_name i) acc env_new))
      body (seq k (n - k)).
Proof.
  unfold stage. remember (n - k)%nat as m eqn:M. revert k M.
  induction m as [| m IH]; intros k M; [reflexivity |]. cbn [seq fold_right].
  rewrite (IH (S k)) by lia. unfold curry_scope.
  replace (n - S k)%nat with m by lia. reflexivity.
Qed.

Section CurryEnv.
  Variables (H : host) (e : env) (n : nat) (body : expr).
  Hypothesis POS : (0 < n)%nat.
  Hypothesis USED : forall x, In x (used_symbols body) <-> exists i, (i < n)%nat /\ x = arg_name i.
  Hypothesis FREE : forall i, (S i < n)%nat -> env_get (arg_name i) e = None.

  Let cs := curry_scope e body n.

  Lemma cs_get k x : (k < n)%nat ->
    env_get x (cs k)
    = if str_eqb x CWD then Some (EString (env_get_cwd e))
      else if str_eqb x (arg_name k) then Some ENone
      else if existsb (str_eqb x) (used_symbols body) then env_get x e else None.
  Proof.
    intros L. unfold cs, curry_scope. rewrite <- curry_stage.
    rewrite (capture_get arg_name n (curry_scope e body n) body).
    - cbn [env_new env_is_defined bm_mem bm_get orb negb env_get]. rewrite andb_true_r. reflexivity.
    - intros; apply arg_name_cwd.
    - intros y. apply USED.
  Qed.

  Lemma cs_flat k : (k < n)%nat -> flat (cs k).
  Proof. intros _. apply flat_capture, flat_new. Qed.

  Lemma cs_keys k x : (k < n)%nat -> env_get x (cs k) <> None ->
    x = CWD \/ exists i, (i < n)%nat /\ x = arg_name i.
  Proof.
    intros L. rewrite cs_get by exact L.
    destruct (str_eqb x CWD) eqn:EC; [apply str_eqb_eq in EC; auto |].
    destruct (str_eqb x (arg_name k)) eqn:EP; [apply str_eqb_eq in EP; eauto |].
    destruct (existsb _ _) eqn:T; [| congruence]. apply existsb_str, USED in T. auto.
  Qed.

  Lemma cs_free k i : (k < n)%nat -> (i < k)%nat -> env_get (arg_name i) (cs k) = None.
  Proof.
    intros L I. rewrite cs_get by exact L.
    rewrite (proj2 (str_eqb_neq (arg_name i) CWD)) by apply arg_name_cwd.
    rewrite (proj2 (str_eqb_neq (arg_name i) (arg_name k)))
      by (intros Y; apply arg_name_inj in Y; lia).
    destruct (existsb _ _); [| reflexivity]. apply FREE. lia.
  Qed.

  Lemma curry_lambdas_stage :
    curry_lambdas e body n = ELambda (arg_name 0) (stage arg_name n cs body 1) (cs 0).
  Proof.
    unfold curry_lambdas. replace (seq 0 n) with (seq 0 (n - 0)) by (f_equal; lia).
    rewrite <- curry_stage. now apply stage_step.
  Qed.

  Lemma holds_cs c : flat c ->
    (forall x, env_get x c <> None -> x = CWD \/ exists i, (i < n)%nat /\ x = arg_name i) ->
    holds arg_name n [] c.
  Proof. intros F K. split; [exact F |]. split; [intros [|] ? X; discriminate | exact K]. Qed.

  Lemma holds_cs0 : holds arg_name n [] (cs 0).
  Proof. apply holds_cs; [now apply cs_flat | intros x; now apply cs_keys]. Qed.

  (** Evaluating the function again. *)
  Lemma curry_again d c s :
    (d <= MAX_DEPTH)%N -> holds arg_name n [] c ->
    exists c', holds arg_name n [] c'
      /\ evaluates H d (ELambda (arg_name 0) (stage arg_name n cs body 1) c) s
           (ROk (ELambda (arg_name 0) (stage arg_name n cs body 1) c')) s.
  Proof.
    intros L HC. exists (capture (s_env s) (arg_name 0) (stage arg_name n cs body 1) c). split.
    - apply (holds_capture arg_name n cs body) with (given := []); auto.
      + intros i j _ _. apply arg_name_inj.
      + intros; apply arg_name_cwd.
      + intros x. apply USED.
    - now apply rule_lambda.
  Qed.

  Lemma curry_all args vs f c s r s' :
    length args = n -> (N.of_nat n <= MAX_DEPTH)%N ->
    Forall2 (argument H (N.of_nat n) s) args vs -> holds arg_name n [] c ->
    evaluates H 1 f s (ROk (ELambda (arg_name 0) (stage arg_name n cs body 1) c)) s ->
    (evaluates H 0 (EApply f args) s r s' <->
     exists s2, evaluates H (N.of_nat n) body
                  (with_env (args_env arg_name (env_get_cwd (s_env s)) vs) s) r s2
                /\ s' = with_env (s_env s) s2).
  Proof.
    intros L DM PL HC EF.
    rewrite (curried_all H arg_name n cs body) with (vs := vs) (given := []) (c := c).
    - cbn [length Datatypes.app]. rewrite L. reflexivity.
    - intros i j _ _. apply arg_name_inj.
    - intros; apply arg_name_cwd.
    - intros x. apply USED.
    - intros i I. apply USED. exists i. split; [lia | reflexivity].
    - exact cs_flat.
    - exact cs_keys.
    - exact cs_free.
    - destruct args; [cbn in L; lia | discriminate].
    - exact L.
    - exact HC.
    - rewrite L. exact DM.
    - rewrite L. exact PL.
    - exact EF.
  Qed.

  Lemma curry_one_at_a_time args vs f c s r s' :
    length args = n -> (N.of_nat n <= MAX_DEPTH)%N ->
    Forall2 (argument H (N.of_nat n) s) args vs -> holds arg_name n [] c ->
    evaluates H (N.of_nat n) f s (ROk (ELambda (arg_name 0) (stage arg_name n cs body 1) c)) s ->
    (evaluates H 0 (one_at_a_time f args) s r s' <->
     exists s2, evaluates H 1 body
                  (with_env (args_env arg_name (env_get_cwd (s_env s)) vs) s) r s2
                /\ s' = with_env (s_env s) s2).
  Proof.
    intros L DM PL HC EF.
    apply (curried_one_at_a_time H arg_name n cs body) with (c := c); auto.
    - intros i j _ _. apply arg_name_inj.
    - intros; apply arg_name_cwd.
    - intros x. apply USED.
    - intros i I. apply USED. exists i. split; [lia | reflexivity].
    - exact cs_flat.
    - exact cs_keys.
    - exact cs_free.
  Qed.

  (** The function returned for the first of several arguments. *)
  Lemma curry_first f a v c s :
    (1 < n)%nat -> argument H 1 s a v -> holds arg_name n [] c ->
    evaluates H 1 f s (ROk (ELambda (arg_name 0) (stage arg_name n cs body 1) c)) s ->
    exists c', holds arg_name n [v] c'
      /\ evaluates H 0 (EApply f [a]) s (ROk (ELambda (arg_name 1) (stage arg_name n cs body 2) c')) s.
  Proof.
    intros L A HC EF.
    apply (curried_some H arg_name n cs body) with (args := [a]) (c := c) (d := 0%N); auto.
    - intros i j _ _. apply arg_name_inj.
    - intros; apply arg_name_cwd.
    - intros x. apply USED.
    - intros i I. apply USED. exists i. split; [lia | reflexivity].
    - exact cs_flat.
    - exact cs_keys.
    - exact cs_free.
    - discriminate.
  Qed.

  (** The last argument. *)
  Lemma curry_last f given a v c s r s' :
    S (length given) = n -> argument H 1 s a v -> holds arg_name n given c ->
    evaluates H 1 f s (ROk (ELambda (arg_name (length given)) (stage arg_name n cs body n) c)) s ->
    (evaluates H 0 (EApply f [a]) s r s' <->
     exists s2, evaluates H 1 body
                  (with_env (args_env arg_name (env_get_cwd (s_env s)) (given ++ [v])) s) r s2
                /\ s' = with_env (s_env s) s2).
  Proof.
    intros L A HC EF. rewrite stage_end in EF.
    rewrite (apply_one H 0 f _ _ c a v s r s' ltac:(discriminate) EF (A 1%N ltac:(lia))).
    unfold call_env. rewrite (holds_last arg_name n) with (c := c); auto.
    - reflexivity.
    - intros i j _ _. apply arg_name_inj.
    - intros; apply arg_name_cwd.
  Qed.
End CurryEnv.

Lemma curry_used f n : used_symbols f = [] -> forall x,
  In x (used_symbols (EApply f (map (fun i => ESymbol (arg_name i)) (seq 0 n))))
  <-> exists i, (i < n)%nat /\ x = arg_name i.
Proof.
  intros F x. cbn [used_symbols]. rewrite F. cbn [Datatypes.app]. rewrite in_flat_map. split.
  - intros (y & Y & X). apply in_map_iff in Y. destruct Y as (i & <- & I). apply in_seq in I.
    destruct X as [<- | []]. exists i. split; [lia | reflexivity].
  - intros (i & I & ->). exists (ESymbol (arg_name i)). split; [| now left].
    apply in_map_iff. exists i. split; [reflexivity | apply in_seq; lia].
Qed.

Lemma reverse_curry_used f n : used_symbols f = [] -> forall x,
  In x (used_symbols (EApply f (map (fun i => ESymbol (arg_name i)) (rev (seq 0 n)))))
  <-> exists i, (i < n)%nat /\ x = arg_name i.
Proof.
  intros F x. rewrite <- (curry_used f n F x). cbn [used_symbols]. rewrite F. cbn [Datatypes.app].
  rewrite map_rev, !in_flat_map. setoid_rewrite <- in_rev. reflexivity.
Qed.

(** Calling a builtin function from any depth. *)
Lemma builtin_at H d b nm args s r s' :
  (d < MAX_DEPTH)%N ->
  (evaluates H d (EApply (EBuiltin (Bi b nm)) args) s r s' <-> calls H b args s r s').
Proof.
  intros L. rewrite rule_apply by lia. split.
  - intros [(g & s1 & E & C) | (r1 & E & F)];
      apply rule_value in E; try exact I; try lia; destruct E as [E ->].
    + injection E as ->. exact C.
    + inversion F; congruence.
  - intros C. left. exists (EBuiltin (Bi b nm)), s. split; [| exact C].
    apply rule_value; [lia | exact I | auto].
Qed.

(** ** Functions written with [->] *)

(** The chain of lambdas with the parameters [names]; only the outermost one
    has been evaluated. *)
Definition lambdas (names : list str) (c : env) (body : expr) : expr :=
  match names with
  | [] => body
  | p :: ps => ELambda p (fold_right (fun q acc => ELambda q acc env_new) body ps) c
  end.

Definition lam_name (names : list str) (i : nat) : str := nth i names [].
Definition lam_scope (c : env) (k : nat) : env := match k with O => c | S _ => env_new end.

Lemma skipn_nth (l : list str) : forall k, (k < length l)%nat ->
  skipn k l = nth k l [] :: skipn (S k) l.
Proof.
  induction l as [| x l IH]; intros [| k] K; cbn in *; try lia; [reflexivity |].
  apply IH. lia.
Qed.

Lemma fold_stage names c body k : (k <= length names)%nat -> (0 < k)%nat ->
  stage (lam_name names) (length names) (lam_scope c) body k
  = fold_right (fun q acc => ELambda q acc env_new) body (skipn k names).
Proof.
  unfold stage. intros L P. remember (length names - k)%nat as m eqn:M. revert k L P M.
  induction m as [| m IH]; intros k L P M; cbn [seq fold_right].
  - replace k with (length names) by lia. now rewrite skipn_all.
  - rewrite (IH (S k)) by lia. rewrite (skipn_nth names k) by lia.
    destruct k as [| k]; [lia |]. reflexivity.
Qed.

Lemma lambdas_stage names c body : names <> [] ->
  lambdas names c body
  = ELambda (lam_name names 0) (stage (lam_name names) (length names) (lam_scope c) body 1) c.
Proof.
  intros NE. destruct names as [| p ps]; [congruence |].
  rewrite fold_stage by (cbn; lia). reflexivity.
Qed.

Lemma name_in names x : In x names <-> exists i, (i < length names)%nat /\ x = lam_name names i.
Proof.
  unfold lam_name. split.
  - intros X. destruct (In_nth _ _ [] X) as (i & L & E). eauto.
  - intros (i & L & ->). now apply nth_In.
Qed.

(** Calling such a function with all its arguments. *)
Lemma lambdas_all H names c body args vs d f s r s' :
  names <> [] -> NoDup names -> ~ In CWD names ->
  (forall x, In x (used_symbols body) -> In x names) ->
  (forall x, In x (removelast names) -> In x (used_symbols body)) ->
  flat c -> (forall x, env_get x c <> None -> x = CWD \/ In x names) ->
  length args = length names -> (d + N.of_nat (length names) <= MAX_DEPTH)%N ->
  Forall2 (argument H (d + N.of_nat (length names)) s) args vs ->
  evaluates H (d + 1) f s (ROk (lambdas names c body)) s ->
  (evaluates H d (EApply f args) s r s' <->
   exists s2, evaluates H (d + N.of_nat (length names)) body
                (with_env (args_env (lam_name names) (env_get_cwd (s_env s)) vs) s) r s2
              /\ s' = with_env (s_env s) s2).
Proof.
  intros NE ND NC USED USES FC KC L DM PL EF.
  rewrite lambdas_stage in EF by exact NE.
  rewrite (curried_all H (lam_name names) (length names) (lam_scope c) body)
    with (vs := vs) (given := []) (c := c).
  - rewrite L. reflexivity.
  - intros i j I J E. unfold lam_name in E. eapply NoDup_nth; eauto.
  - intros i I E. apply NC. rewrite <- E. now apply nth_In.
  - intros x X. now apply name_in, USED.
  - intros i I. apply USES. unfold lam_name.
    assert (Q : names = removelast names ++ [last names []]) by now apply app_removelast_last.
    assert (LR : length names = S (length (removelast names)))
      by (rewrite Q at 1; rewrite app_length; cbn; lia).
    replace (nth i names []) with (nth i (removelast names) []).
    { apply nth_In. lia. }
    rewrite Q at 2. now rewrite app_nth1 by lia.
  - intros [| k] K; [exact FC | apply flat_new].
  - intros [| k] x K X; [| now cbn in X].
    destruct (KC x X) as [-> | I]; [now left | right; now apply name_in].
  - intros [| k] i K I; [lia |]. reflexivity.
  - destruct args; [destruct names; [congruence | discriminate] | discriminate].
  - exact L.
  - split; [exact FC |]. split; [intros [|] ? X; discriminate |].
    intros x X. destruct (KC x X) as [-> | I]; [now left | right; now apply name_in].
  - rewrite L. exact DM.
  - rewrite L. exact PL.
  - exact EF.
Qed.

(** The variables of its body. *)
Lemma lambdas_env names cwd vs :
  NoDup names -> ~ In CWD names -> length vs = length names ->
  (forall i v, nth_error vs i = Some v ->
     env_get (lam_name names i) (args_env (lam_name names) cwd vs) = Some v)
  /\ env_get_cwd (args_env (lam_name names) cwd vs) = cwd.
Proof.
  intros ND NC L.
  destruct (args_env_spec (lam_name names) (length names)) with (cwd := cwd) (vs := vs) as (_ & B & C);
    [intros i j I J E; unfold lam_name in E; eapply NoDup_nth; eauto | lia |].
  split; [exact B |]. unfold env_get_cwd. rewrite C; [reflexivity |].
  intros i I E. apply NC. rewrite E. apply nth_In. lia.
Qed.
