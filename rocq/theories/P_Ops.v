(** C31 to C35, C53, C58: operators and error codes. *)

From Coq Require Import String Floats.SpecFloat.
From Verif Require Import Base Syntax Host Ops Parser ErrorFmt Text Monad Builtins Eval
  EvalSpec EvalFacts MapFacts CoreFacts LibFacts OpsSpec OpsFacts OrderFacts Init Demo.

(** ** C31 *)

(** The table published as [err@codes]. *)
Definition published (e : error) : option expr := bm_get (kind_name e) error_codes.

Theorem C31_codes_refuted :
  exists e, published e <> Some (EInteger (error_code e)).
Proof. exists (ProgramNotFound (lit "x")). vm_compute. discriminate. Qed.

(** Two kinds of errors with the same reported code. *)
Theorem C31_distinct_refuted :
  exists e e', kind_name e <> kind_name e' /\ error_code e = error_code e'.
Proof.
  exists (ProgramNotFound (lit "x")), (PermissionDenied ENone). vm_compute. split; [discriminate | reflexivity].
Qed.

(** The reported code is the published one exactly for the other six kinds. *)
Theorem C31_codes_partial e :
  published e = Some (EInteger (error_code e)) <->
  ~ In (kind_name e) [lit "permission-denied"; lit "program-not-found"; lit "syntax-error"].
Proof.
  destruct e; vm_compute; (split; [intros E; intuition discriminate |]); intros N; try reflexivity;
    exfalso; apply N; auto.
Qed.

(** Every kind has a published code, and different kinds have different ones. *)
Theorem C31_published_partial e e' :
  (exists c, published e = Some (EInteger c))
  /\ (published e = published e' -> kind_name e = kind_name e').
Proof.
  split; [destruct e; vm_compute; eauto |].
  destruct e, e'; vm_compute; intros E; first [reflexivity | discriminate E].
Qed.

Example C31_example :
  value_of "err@codes" = ROk (EMap error_codes)
  /\ value_of "err@try ([1, 2] 3) (e -> e@code)" = ROk (EInteger 1).
Proof. split; vm_compute; reflexivity. Qed.

Print Assumptions C31_codes_refuted.
Print Assumptions C31_distinct_refuted.
Print Assumptions C31_codes_partial.
Print Assumptions C31_published_partial.

(** ** C32 *)

(** The operand expressions have the integer values [z :: zs]; then the
    operator gives the exact result [o], or a custom error when there is none. *)
Theorem C32_exact_arithmetic H b op a1 a2 rest s z zs s' o :
  In (b, op) [(BAdd, sum); (BSub, difference); (BMul, product); (BDiv, quotient)] ->
  evaluates_all H 0 (a1 :: a2 :: rest) s (ROk (map EInteger (z :: zs))) s' ->
  exactly op z zs o ->
  match o with
  | Some w => calls H b (a1 :: a2 :: rest) s (ROk (EInteger w)) s'
  | None => exists m s1, calls H b (a1 :: a2 :: rest) s (RErr (CustomError m)) s1
  end.
Proof.
  intros B E X. cbn [map] in E.
  assert (V : Forall value (EInteger z :: map EInteger zs)).
  { constructor; [apply value_int |]. apply Forall_map, Forall_forall. intros; apply value_int. }
  assert (B' : exists eop, arith_op b = Some eop /\ int_op b = Some op).
  { repeat destruct B as [B | B]; try contradiction; injection B as <- <-; eexists; split; reflexivity. }
  destruct B' as (eop & A & I).
  pose proof (arith_operator H b eop a1 a2 rest s _ _ s' A E V) as C.
  rewrite (arith_ints b op eop z zs o I A X) in C.
  destruct o; exact C.
Qed.

(** There always is such an [o], and only one. *)
Theorem C32_exactly_function op z zs :
  exists o, exactly op z zs o /\ forall o', exactly op z zs o' -> o' = o.
Proof.
  destruct (exactly_total op z zs) as [o E]. exists o. split; [exact E |].
  induction E; intros o' X; inversion X; subst; try reflexivity;
    repeat match goal with A : op ?x ?y = _, B : op ?x ?y = _ |- _ => rewrite A in B; clear A end;
    try discriminate; repeat match goal with A : Some _ = Some _ |- _ => injection A as -> end;
    try contradiction; auto.
Qed.

Example C32_example :
  exactly sum 1 [2; 3]%Z (Some 6%Z)
  /\ exactly product (2 ^ 62) [2]%Z None
  /\ exactly quotient (-7) [2]%Z (Some (-3)%Z)
  /\ exactly quotient (- 2 ^ 63) [-1]%Z None
  /\ value_of "-7 // 2" = ROk (EInteger (-3))
  /\ value_of "err@try (9223372036854775807 + 1) (e -> e@code)" = ROk (EInteger 9).
Proof.
  split; [| split; [| split; [| split]]]; [| | | | split; vm_compute; reflexivity];
    repeat (eapply exactly_nil
            || (eapply exactly_step;
                  [vm_compute; reflexivity
                  | split; [vm_compute; discriminate | vm_compute; reflexivity] |])
            || (eapply exactly_range;
                  [vm_compute; reflexivity
                  | intros [L U]; vm_compute in L, U; first [discriminate U | now apply L]])).
Qed.

Print Assumptions C32_exact_arithmetic.
Print Assumptions C32_exactly_function.

(** ** C58: negation *)

(** Negating the smallest integer crashes the shell when it is compiled with
    overflow checks, and gives the smallest integer otherwise. *)
Theorem C58_negation_refuted :
  exists H z r s s', fits z /\ calls H BSub [EInteger z] s r s'
    /\ r <> ROk (EInteger (- z)) /\ (forall e, r <> RErr e).
Proof.
  exists demo_host, (- 2 ^ 63)%Z, (ROk (EInteger (- 2 ^ 63)))%Z, demo, demo.
  split; [unfold fits; lia |]. split; [compute_outcome 3%nat |].
  split; [discriminate | intros; discriminate].
Qed.

(** The exact outcome of [- x]. *)
Theorem C58_negation_partial H a s z s' :
  evaluates H 0 a s (ROk (EInteger z)) s' ->
  (fits (- z) -> calls H BSub [a] s (ROk (EInteger (- z))) s')
  /\ (~ fits (- z) -> calls H BSub [a] s
        (match h_overflow H with
         | OvfPanic => RPanic PNegOverflow
         | OvfWrap => ROk (EInteger (wrap64 (- z)))
         end) s').
Proof.
  intros E. split; intros F; (apply sure_calls; [try discriminate |]).
  2: destruct (h_overflow H); discriminate.
  all: cbn [run_builtin]; unfold run_sub; eapply sure_ev_arg; [reflexivity | exact E |];
    apply sure_const; cbn [expr_neg].
  - now rewrite (proj2 (in_i64_fits _) F).
  - destruct (in_i64 (- z)) eqn:I; [apply in_i64_fits in I; contradiction |].
    destruct (h_overflow H); reflexivity.
Qed.

Example C58_example : value_of "let x = 5; - x" = ROk (EInteger (-5)).
Proof. vm_compute. reflexivity. Qed.

Print Assumptions C58_negation_refuted.
Print Assumptions C58_negation_partial.

(** ** C33 *)

Theorem C33_remainder_refuted :
  exists a b s s', fits a /\ fits b
    /\ calls demo_host BRem [EInteger a; EInteger b] s (RPanic PRemZero) s'.
Proof.
  exists 1%Z, 0%Z, demo, demo. split; [unfold fits; lia |]. split; [unfold fits; lia |].
  compute_outcome 3%nat.
Qed.

(** The exact outcome for two integer operands. *)
Theorem C33_remainder_partial H a1 a2 s x y s' :
  evaluates_all H 0 [a1; a2] s (ROk [EInteger x; EInteger y]) s' -> fits x -> fits y ->
  (y <> 0 /\ ~ (x = - 2 ^ 63 /\ y = -1) ->
     calls H BRem [a1; a2] s (ROk (EInteger (Z.rem x y))) s')%Z
  /\ (y = 0 \/ x = - 2 ^ 63 /\ y = -1 ->
      exists s1, calls H BRem [a1; a2] s (RPanic PRemZero) s1)%Z.
Proof.
  intros E FX FY.
  assert (V : Forall value [EInteger x; EInteger y]) by auto using value_int.
  pose proof (arith_operator H BRem expr_rem a1 a2 [] s _ _ s' eq_refl E V) as C.
  cbn [afold expr_rem] in C.
  assert (Q : (y <> 0 -> in_i64 (Z.quot x y) = true <-> ~ (x = - 2 ^ 63 /\ y = -1))%Z).
  { intros N. rewrite in_i64_fits. unfold fits in *.
    assert (QB : (Z.abs (Z.quot x y) <= Z.abs x)%Z).
    { rewrite <- Z.quot_abs by exact N.
      destruct (Z.eq_dec (Z.abs y) 1) as [-> |]; [rewrite Z.quot_1_r; lia |].
      destruct (Z.eq_dec x 0) as [-> |]; [rewrite Z.quot_0_l; lia |].
      apply Z.lt_le_incl, Z.quot_lt; lia. }
    split.
    - intros B [-> ->]. vm_compute in B. destruct B as [_ B]. discriminate.
    - intros B. destruct (Z.eq_dec x (- 2 ^ 63)) as [-> |]; [| lia].
      assert (Y1 : (y <> -1)%Z) by tauto.
      destruct (Z.eq_dec y 1) as [-> |]; [rewrite Z.quot_1_r; lia |].
      assert (QL : (Z.abs (Z.quot (- 2 ^ 63) y) < Z.abs (- 2 ^ 63))%Z).
      { rewrite <- Z.quot_abs by exact N. apply Z.quot_lt; lia. }
      lia. }
  split.
  - intros [N M]. rewrite (proj2 (Z.eqb_neq y 0) N) in C.
    rewrite (proj2 (Q N) M) in C. exact C.
  - intros [-> | [X Y]]; [exact C |].
    assert (N : (y <> 0)%Z) by lia. rewrite (proj2 (Z.eqb_neq y 0) N) in C.
    specialize (Q N). destruct (in_i64 (Z.quot x y)); [exfalso; tauto | exact C].
Qed.

Example C33_example :
  value_of "-7 % 3" = ROk (EInteger (-1)) /\ value_of "7 % 0" = RPanic PRemZero.
Proof. split; vm_compute; reflexivity. Qed.

Print Assumptions C33_remainder_refuted.
Print Assumptions C33_remainder_partial.

(** ** C34 *)

(** What the six comparisons answer, and that they evaluate both operands
    exactly once, from left to right. *)
Lemma compare_answers H b f x y s a s1 c s2 :
  In (b, f) [(BEq, expr_eqb); (BNe, fun a b => negb (expr_eqb a b)); (BLt, expr_lt);
             (BLe, expr_le); (BGt, expr_gt); (BGe, expr_ge)] ->
  evaluates H 0 x s (ROk a) s1 -> evaluates H 0 y s1 (ROk c) s2 ->
  calls H b [x; y] s (ROk (EBoolean (f a c))) s2.
Proof.
  intros B E1 E2.
  repeat destruct B as [B | B]; try contradiction; injection B as <- <-;
    call; unfold run_compare; repeat sure_step.
Qed.

Lemma says_iff H b f x y answer :
  In (b, f) [(BEq, expr_eqb); (BNe, fun a b => negb (expr_eqb a b)); (BLt, expr_lt);
             (BLe, expr_le); (BGt, expr_gt); (BGe, expr_ge)] ->
  forall a c, (forall s, evaluates H 0 x s (ROk a) s) -> (forall s, evaluates H 0 y s (ROk c) s) ->
  (says H b x y answer <-> f a c = answer).
Proof.
  intros B a c X Y. split.
  - intros S.
    destruct (calls_det _ _ _ _ _ _ _ _ (S demo)
                (compare_answers H b f x y demo a demo c demo B (X _) (Y _))) as [E _].
    congruence.
  - intros <- s. eapply compare_answers; eauto.
Qed.

Theorem C34_booleans_refuted :
  exists x y,
    x = EBoolean false /\ y = EBoolean true
    /\ says demo_host BLt x y false /\ says demo_host BEq x y false /\ says demo_host BGt x y false.
Proof.
  exists (EBoolean false), (EBoolean true). do 2 (split; [reflexivity |]).
  assert (E : forall b s, evaluates demo_host 0 (EBoolean b) s (ROk (EBoolean b)) s)
    by (intros; apply value_evaluates, value_bool).
  split; [| split]; intros s.
  - exact (compare_answers _ BLt expr_lt _ _ s _ s _ s ltac:(cbn; tauto) (E false s) (E true s)).
  - exact (compare_answers _ BEq expr_eqb _ _ s _ s _ s ltac:(cbn; tauto) (E false s) (E true s)).
  - exact (compare_answers _ BGt expr_gt _ _ s _ s _ s ltac:(cbn; tauto) (E false s) (E true s)).
Qed.

Theorem C34_trichotomy_partial H t x y :
  has_type t x -> has_type t y -> value x -> value y ->
  (says H BLt x y true /\ says H BEq x y false /\ says H BGt x y false)
  \/ (says H BLt x y false /\ says H BEq x y true /\ says H BGt x y false)
  \/ (says H BLt x y false /\ says H BEq x y false /\ says H BGt x y true).
Proof.
  intros T1 T2 V1 V2.
  assert (E1 : forall s, evaluates H 0 x s (ROk x) s) by (intros; now apply value_evaluates).
  assert (E2 : forall s, evaluates H 0 y s (ROk y) s) by (intros; now apply value_evaluates).
  destruct (cmp_typed x t y T1 T2) as (c & C & E).
  rewrite !(says_iff H BLt expr_lt x y _ ltac:(cbn; tauto) x y E1 E2),
    !(says_iff H BEq expr_eqb x y _ ltac:(cbn; tauto) x y E1 E2),
    !(says_iff H BGt expr_gt x y _ ltac:(cbn; tauto) x y E1 E2).
  unfold expr_lt, expr_gt. rewrite C.
  destruct (expr_eqb x y); destruct c; intuition congruence.
Qed.

(** [<=] is [<] or [==]; [>=] is [>] or [==]; [>] is [<] with the operands
    exchanged. *)
Theorem C34_less_equal_partial H t x y :
  has_type t x -> has_type t y -> value x -> value y ->
  (says H BLe x y true <-> says H BLt x y true \/ says H BEq x y true)
  /\ (says H BGe x y true <-> says H BGt x y true \/ says H BEq x y true)
  /\ (says H BGt x y true <-> says H BLt y x true).
Proof.
  intros T1 T2 V1 V2.
  assert (E1 : forall s, evaluates H 0 x s (ROk x) s) by (intros; now apply value_evaluates).
  assert (E2 : forall s, evaluates H 0 y s (ROk y) s) by (intros; now apply value_evaluates).
  destruct (cmp_typed x t y T1 T2) as (c & C & E).
  rewrite !(says_iff H BLt expr_lt x y _ ltac:(cbn; tauto) x y E1 E2),
    !(says_iff H BEq expr_eqb x y _ ltac:(cbn; tauto) x y E1 E2),
    !(says_iff H BLe expr_le x y _ ltac:(cbn; tauto) x y E1 E2),
    !(says_iff H BGe expr_ge x y _ ltac:(cbn; tauto) x y E1 E2),
    !(says_iff H BGt expr_gt x y _ ltac:(cbn; tauto) x y E1 E2),
    !(says_iff H BLt expr_lt y x _ ltac:(cbn; tauto) y x E2 E1).
  unfold expr_lt, expr_gt, expr_le, expr_ge. rewrite (expr_cmp_antisym x y), C.
  destruct (expr_eqb x y); destruct c; cbn; intuition congruence.
Qed.

(** Transitivity needs no types. *)
Theorem C34_transitive H x y z :
  value x -> value y -> value z ->
  (says H BLt x y true -> says H BLt y z true -> says H BLt x z true)
  /\ (says H BLe x y true -> says H BLe y z true -> says H BLe x z true).
Proof.
  intros V1 V2 V3.
  assert (E1 : forall s, evaluates H 0 x s (ROk x) s) by (intros; now apply value_evaluates).
  assert (E2 : forall s, evaluates H 0 y s (ROk y) s) by (intros; now apply value_evaluates).
  assert (E3 : forall s, evaluates H 0 z s (ROk z) s) by (intros; now apply value_evaluates).
  rewrite !(says_iff H BLt expr_lt x y _ ltac:(cbn; tauto) x y E1 E2),
    !(says_iff H BLt expr_lt y z _ ltac:(cbn; tauto) y z E2 E3),
    !(says_iff H BLt expr_lt x z _ ltac:(cbn; tauto) x z E1 E3),
    !(says_iff H BLe expr_le x y _ ltac:(cbn; tauto) x y E1 E2),
    !(says_iff H BLe expr_le y z _ ltac:(cbn; tauto) y z E2 E3),
    !(says_iff H BLe expr_le x z _ ltac:(cbn; tauto) x z E1 E3).
  unfold expr_lt, expr_le. pose proof (expr_le_trans x y z) as T.
  destruct (expr_cmp x y) as [[] |], (expr_cmp y z) as [[] |]; split; intros A B; try discriminate;
    rewrite (T _ _ eq_refl eq_refl) by discriminate; reflexivity.
Qed.

Example C34_example :
  has_type (TList TString) (EList [EString (lit "a"); EString (lit "b")])
  /\ value (EList [EString (lit "a"); EString (lit "b")])
  /\ value_of "[""a"", ""b""] < [""a"", ""ba""]" = ROk (EBoolean true)
  /\ value_of "[""a"", ""b""] < [""a""]" = ROk (EBoolean false)
  /\ has_type TFloat (EFloat (S754_finite false 3 (-1))).
Proof. repeat split; try (vm_compute; reflexivity); cbn; try lia; try discriminate. Qed.

Print Assumptions C34_booleans_refuted.
Print Assumptions C34_trichotomy_partial.
Print Assumptions C34_less_equal_partial.
Print Assumptions C34_transitive.

(** ** C35 *)

(** The operands are quoted, so [x], [y], [z] are arbitrary expressions. *)
Theorem C35_equivalence H x y z :
  nan_free x ->
  says H BEq (EQuote x) (EQuote x) true
  /\ (says H BEq (EQuote x) (EQuote y) true <-> says H BEq (EQuote y) (EQuote x) true)
  /\ (says H BEq (EQuote x) (EQuote y) true -> says H BEq (EQuote y) (EQuote z) true ->
      says H BEq (EQuote x) (EQuote z) true).
Proof.
  intros N.
  assert (Q : forall v s, evaluates H 0 (EQuote v) s (ROk v) s) by (intros; apply quote_evaluates).
  rewrite !(says_iff H BEq expr_eqb (EQuote x) (EQuote x) _ ltac:(cbn; tauto) x x (Q _) (Q _)),
    !(says_iff H BEq expr_eqb (EQuote x) (EQuote y) _ ltac:(cbn; tauto) x y (Q _) (Q _)),
    !(says_iff H BEq expr_eqb (EQuote y) (EQuote x) _ ltac:(cbn; tauto) y x (Q _) (Q _)),
    !(says_iff H BEq expr_eqb (EQuote y) (EQuote z) _ ltac:(cbn; tauto) y z (Q _) (Q _)),
    !(says_iff H BEq expr_eqb (EQuote x) (EQuote z) _ ltac:(cbn; tauto) x z (Q _) (Q _)).
  split; [now apply expr_eqb_refl |]. split; [now rewrite expr_eqb_sym | apply expr_eqb_trans].
Qed.

Theorem C35_not_equal H x y s a s1 c s2 t :
  evaluates H 0 x s (ROk a) s1 -> evaluates H 0 y s1 (ROk c) s2 ->
  (calls H BNe [x; y] s (ROk (EBoolean (negb t))) s2 <-> calls H BEq [x; y] s (ROk (EBoolean t)) s2).
Proof.
  intros E1 E2.
  assert (A := compare_answers H BEq expr_eqb x y s a s1 c s2 ltac:(cbn; tauto) E1 E2).
  assert (B := compare_answers H BNe _ x y s a s1 c s2 ltac:(cbn; tauto) E1 E2). cbv beta in B.
  split; intros X.
  - destruct (calls_det _ _ _ _ _ _ _ _ X B) as [E _].
    assert (T : t = expr_eqb a c) by (destruct t, (expr_eqb a c); cbn in E; congruence).
    now rewrite T.
  - destruct (calls_det _ _ _ _ _ _ _ _ X A) as [E _].
    assert (T : t = expr_eqb a c) by congruence. now rewrite T.
Qed.

(** NaN is why the hypothesis is there. *)
Example C35_example :
  nan_free (ELambda (lit "x") (EApply (ESymbol (lit "+")) [ESymbol (lit "x"); EFloat (S754_zero true)]) env_new)
  /\ expr_eqb (EFloat S754_nan) (EFloat S754_nan) = false
  /\ value_of "'(x -> [x, 1]) == '(x -> [x, 1])" = ROk (EBoolean true)
  /\ value_of "'(x -> [x, 1]) == '(y -> [x, 1])" = ROk (EBoolean false).
Proof. repeat split; try (vm_compute; reflexivity); discriminate. Qed.

Print Assumptions C35_equivalence.
Print Assumptions C35_not_equal.

(** ** C53 *)

(** Evaluating the operand has no effect, adding it prints something. *)
Theorem C53_evaluated_again_refuted :
  exists a v s r s',
    evaluates demo_host 0 a s (ROk v) s
    /\ calls demo_host BAdd [a; EInteger 1] s r s' /\ s_trace s' <> s_trace s.
Proof.
  set (a := EQuote (EApply (ESymbol (lit "echo")) [EInteger 5])).
  exists a, (EApply (ESymbol (lit "echo")) [EInteger 5]), demo,
    (fst (run_builtin demo_host (eval demo_host 12 0) BAdd [a; EInteger 1] demo)),
    (snd (run_builtin demo_host (eval demo_host 12 0) BAdd [a; EInteger 1] demo)).
  split; [apply quote_evaluates |].
  split; [split; [vm_compute; discriminate | exists 12%nat; apply surjective_pairing] |].
  vm_compute. discriminate.
Qed.

(** When the values of the operands are data, the arithmetic operators act on
    them after evaluating each of them once: a successful result leaves the
    state after these evaluations. *)
Theorem C53_evaluated_once_partial H b a1 a2 rest s vs s' :
  In b [BAdd; BSub; BMul; BDiv; BRem] ->
  evaluates_all H 0 (a1 :: a2 :: rest) s (ROk vs) s' -> Forall value vs ->
  (exists w, calls H b (a1 :: a2 :: rest) s (ROk w) s')
  \/ (exists m s1, calls H b (a1 :: a2 :: rest) s (RErr (CustomError m)) s1)
  \/ (exists p s1, calls H b (a1 :: a2 :: rest) s (RPanic p) s1).
Proof.
  intros B E V.
  assert (A : exists op, arith_op b = Some op).
  { repeat destruct B as [<- | B]; try contradiction; eexists; reflexivity. }
  destruct A as [op A]. inversion E; subst; try match goal with X : fails _ (ROk _) |- _ => inversion X end.
  pose proof (arith_operator H b op a1 a2 rest s _ _ s' A E V) as C.
  destruct (afold _ _ _); cbn [arith_calls] in C.
  - left. eauto.
  - right. left. exact C.
  - right. right. destruct C as [s2 C]. eauto.
Qed.

(** The comparisons and the logical operators evaluate their operands once,
    whatever the values are. *)
Theorem C53_comparisons_once H b x y s a s1 c s2 :
  In b [BEq; BNe; BLt; BLe; BGt; BGe] ->
  evaluates H 0 x s (ROk a) s1 -> evaluates H 0 y s1 (ROk c) s2 ->
  exists t, calls H b [x; y] s (ROk (EBoolean t)) s2.
Proof.
  intros B E1 E2.
  repeat destruct B as [<- | B]; try contradiction;
    eexists; eapply compare_answers; eauto; cbn; tauto.
Qed.

Theorem C53_logic_once H b P args s vs s' :
  In (b, P) [(BAnd, Forall truthy); (BOr, Exists truthy); (BNot, Forall falsy)] ->
  evaluates_all H 0 args s (ROk vs) s' ->
  exists t, (t = true <-> P vs) /\ calls H b args s (ROk (EBoolean t)) s'.
Proof.
  intros B E.
  assert (F : exists f, (f vs = true <-> P vs)
    /\ forall n, run_builtin H (eval H n 0) b args = run_logic (eval H n 0) f args).
  { repeat destruct B as [B | B]; try contradiction; injection B as <- <-.
    - exists (forallb is_truthy). split; [| reflexivity].
      rewrite forallb_forall, Forall_forall. now setoid_rewrite is_truthy_iff.
    - exists (existsb is_truthy). split; [| reflexivity].
      rewrite existsb_exists, Exists_exists. now setoid_rewrite is_truthy_iff.
    - exists (forallb (fun x => negb (is_truthy x))). split; [| reflexivity].
      rewrite forallb_forall, Forall_forall.
      setoid_rewrite Bool.negb_true_iff. now setoid_rewrite is_falsy. }
  destruct F as (f & FP & R). exists (f vs). split; [exact FP |].
  apply sure_calls; [discriminate |].
  apply (sure_ext _ _ (fun n => run_logic (eval H n 0) f args)); [intros; now rewrite R |].
  unfold run_logic. eapply (sure_bind _ _ (fun n => mapM (eval H n 0) args));
    [| apply sure_ret].
  apply lim_sure; [apply mono_all | now apply lim_mapM_eval].
Qed.

Example C53_example :
  effects_of "(echo 1) == (echo 2)" = [RqPrint (lit "1" ++ [10%N]); RqPrint (lit "2" ++ [10%N])].
Proof. vm_compute. reflexivity. Qed.

Print Assumptions C53_evaluated_again_refuted.
Print Assumptions C53_evaluated_once_partial.
Print Assumptions C53_comparisons_once.
Print Assumptions C53_logic_once.
