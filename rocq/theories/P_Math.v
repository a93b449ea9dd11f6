(** C45, C50: integer mathematics and log levels. *)

From Coq Require Import String Floats.SpecFloat.
From Verif Require Import Base Syntax Host Ops Parser ErrorFmt Text Monad Builtins Eval
  EvalSpec EvalFacts MapFacts CoreFacts LibFacts OpsSpec OpsFacts LibSpec ListFacts Init Demo.

(** ** C45 *)

(** [f] is the factorial of [n]. *)
Inductive factorial : Z -> Z -> Prop :=
| factorial_0 : factorial 0 1
| factorial_step n f : factorial n f -> factorial (n + 1) ((n + 1) * f).

(** [w] is [z] with only the lowest 64 bits kept. *)
Definition cut (z w : Z) : Prop := fits w /\ ((w - z) mod 2 ^ 64 = 0)%Z.

Lemma cut_wrap z : cut z (wrap64 z).
Proof.
  unfold cut, wrap64, fits. assert (M := Z.mod_pos_bound (z + 2 ^ 63) (2 ^ 64) ltac:(lia)).
  split; [lia |]. rewrite (Z.mod_eq (z + 2 ^ 63) (2 ^ 64)) by lia.
  replace (_ - _ - z)%Z with ((- ((z + 2 ^ 63) / 2 ^ 64)) * 2 ^ 64)%Z by lia.
  apply Z.mod_mul. lia.
Qed.

Lemma cut_unique z w1 w2 : cut z w1 -> cut z w2 -> w1 = w2.
Proof.
  intros [F1 M1] [F2 M2]. apply Z.mod_divide in M1, M2; try lia. unfold fits in *.
  destruct M1 as [p P], M2 as [q Q]. lia.
Qed.

Lemma arith_fits ovf z : fits z -> arith ovf z = inl z.
Proof. intros F. unfold arith. now rewrite (proj2 (in_i64_fits z) F). Qed.

Lemma arith_panic z : ~ fits z -> arith OvfPanic z = inr PArith.
Proof.
  intros F. unfold arith. destruct (in_i64 z) eqn:E; [apply in_i64_fits in E; tauto | reflexivity].
Qed.

Lemma arith_wrap z : arith OvfWrap z = inl (wrap64 z).
Proof.
  unfold arith. destruct (in_i64 z) eqn:E; [| reflexivity]. f_equal.
  apply in_i64_fits in E. apply (cut_unique z); [| apply cut_wrap].
  split; [exact E |]. now rewrite Z.sub_diag.
Qed.

Lemma zrange_cons lo n : zrange lo (S n) = lo :: zrange (lo + 1) n.
Proof.
  unfold zrange. cbn [seq map]. f_equal; [lia |]. rewrite <- seq_shift, map_map.
  apply map_ext. intros i. lia.
Qed.

Lemma factorial_fun n f : factorial n f -> forall g, factorial n g -> f = g.
Proof.
  assert (NN : forall n f, factorial n f -> (0 <= n)%Z) by (induction 1; lia).
  induction 1 as [| n f F IH]; intros g G; inversion G as [| m h G1 E]; subst.
  - reflexivity.
  - apply NN in G1. lia.
  - apply NN in F. lia.
  - assert (m = n) as -> by lia. now rewrite (IH h G1).
Qed.

Lemma factorial_pos n f : factorial n f -> (0 <= n /\ 1 <= f)%Z.
Proof. induction 1; nia. Qed.

Lemma factorial_range m : forall k a f,
  factorial k a -> factorial (k + Z.of_nat m) f -> (a <= f)%Z.
Proof.
  induction m as [| m IH]; intros k a f A F.
  - rewrite Z.add_0_r in F. rewrite (factorial_fun _ _ A _ F). lia.
  - assert (X := factorial_step _ _ A). assert (P := factorial_pos _ _ A).
    assert (Y := IH (k + 1)%Z ((k + 1) * a)%Z f X ltac:(now replace (k + 1 + Z.of_nat m)%Z with (k + Z.of_nat (S m))%Z by lia)).
    nia.
Qed.

Lemma fact_loop_fits H m : forall k a f,
  factorial k a -> factorial (k + Z.of_nat m) f -> fits f ->
  fact_loop H (zrange (k + 1) m) a = inl f.
Proof.
  induction m as [| m IH]; intros k a f A F FT.
  - rewrite Z.add_0_r in F. cbn. now rewrite (factorial_fun _ _ A _ F).
  - rewrite zrange_cons. cbn [fact_loop].
    assert (X := factorial_step _ _ A).
    assert (F' : factorial (k + 1 + Z.of_nat m) f)
      by now replace (k + 1 + Z.of_nat m)%Z with (k + Z.of_nat (S m))%Z by lia.
    assert (LE := factorial_range m _ _ _ X F'). assert (P := factorial_pos _ _ X).
    rewrite (Z.mul_comm a). rewrite arith_fits by (unfold fits in *; lia).
    now apply IH.
Qed.

Lemma fact_loop_panic H m : h_overflow H = OvfPanic -> forall k a f,
  factorial k a -> factorial (k + Z.of_nat m) f -> fits a -> ~ fits f ->
  fact_loop H (zrange (k + 1) m) a = inr PArith.
Proof.
  intros OV. induction m as [| m IH]; intros k a f A F FA FT.
  - rewrite Z.add_0_r in F. now rewrite (factorial_fun _ _ A _ F) in FA.
  - rewrite zrange_cons. cbn [fact_loop].
    assert (X := factorial_step _ _ A).
    assert (F' : factorial (k + 1 + Z.of_nat m) f)
      by now replace (k + 1 + Z.of_nat m)%Z with (k + Z.of_nat (S m))%Z by lia.
    rewrite (Z.mul_comm a), OV.
    destruct (in_i64 ((k + 1) * a)) eqn:I.
    + apply in_i64_fits in I. rewrite arith_fits by exact I. now apply (IH _ _ f).
    + rewrite arith_panic; [reflexivity |]. rewrite <- in_i64_fits. congruence.
Qed.

Lemma cut_mul a b w : cut a b -> cut (a * w) (wrap64 (b * w)).
Proof.
  intros [_ M]. destruct (cut_wrap (b * w)) as [F N]. split; [exact F |].
  apply Z.mod_divide in M, N; try lia. apply Z.mod_divide; [lia |].
  destruct M as [p P], N as [q Q]. exists (q + p * w)%Z. nia.
Qed.

Lemma fact_loop_wrap H m : h_overflow H = OvfWrap -> forall k a a' f,
  factorial k a -> cut a a' -> factorial (k + Z.of_nat m) f ->
  exists f', fact_loop H (zrange (k + 1) m) a' = inl f' /\ cut f f'.
Proof.
  intros OV. induction m as [| m IH]; intros k a a' f A C F.
  - rewrite Z.add_0_r in F. rewrite <- (factorial_fun _ _ A _ F). cbn. eauto.
  - rewrite zrange_cons. cbn [fact_loop]. rewrite OV, arith_wrap.
    apply (IH (k + 1)%Z ((k + 1) * a)%Z); [now constructor | |].
    + rewrite (Z.mul_comm (k + 1)). now apply cut_mul.
    + now replace (k + 1 + Z.of_nat m)%Z with (k + Z.of_nat (S m))%Z by lia.
Qed.

Theorem C45_fact_partial H a s n f s' :
  gives H a s (EInteger n) s' -> factorial n f -> fits f ->
  calls H MFact [a] s (ROk (EInteger f)) s'.
Proof.
  intros A F FT. assert (P := factorial_pos _ _ F). unfold gives in A.
  call. unfold run_fact, exact1. repeat sure_step. rewrite (proj2 (Z.ltb_ge n 0)) by lia.
  change 1%Z with (0 + 1)%Z at 1.
  rewrite (fact_loop_fits H (Z.to_nat n) 0 1 f); [repeat sure_step | constructor | | exact FT].
  now rewrite Z2Nat.id by lia.
Qed.

Theorem C45_fact_negative H a s n s' :
  gives H a s (EInteger n) s' -> (n < 0)%Z ->
  exists m, calls H MFact [a] s (RErr (CustomError m)) s'.
Proof.
  intros A N. unfold gives in A. eexists.
  call. unfold run_fact, exact1. repeat sure_step. rewrite (proj2 (Z.ltb_lt n 0)) by lia.
  apply sure_throw.
Qed.

(** When the factorial does not fit there is no error: a build with overflow
    checks panics, one without returns the lowest 64 bits. *)
Theorem C45_fact_overflow H a s n f s' :
  gives H a s (EInteger n) s' -> factorial n f -> ~ fits f ->
  (h_overflow H = OvfPanic -> calls H MFact [a] s (RPanic PArith) s')
  /\ (h_overflow H = OvfWrap ->
      exists w, cut f w /\ calls H MFact [a] s (ROk (EInteger w)) s').
Proof.
  intros A F FT. assert (P := factorial_pos _ _ F). unfold gives in A.
  assert (F' : factorial (0 + Z.of_nat (Z.to_nat n)) f) by now rewrite Z2Nat.id by lia.
  split; intros OV.
  - call. unfold run_fact, exact1. repeat sure_step. rewrite (proj2 (Z.ltb_ge n 0)) by lia.
    change 1%Z with (0 + 1)%Z at 1.
    rewrite (fact_loop_panic H (Z.to_nat n) OV 0 1 f factorial_0 F'); [| unfold fits; lia | exact FT].
    now apply sure_const.
  - destruct (fact_loop_wrap H (Z.to_nat n) OV 0 1 1 f factorial_0) as (w & E & C).
    + split; [unfold fits; lia | reflexivity].
    + exact F'.
    + exists w. split; [exact C |].
      call. unfold run_fact, exact1. repeat sure_step. rewrite (proj2 (Z.ltb_ge n 0)) by lia.
      change 1%Z with (0 + 1)%Z at 1. cbn [Z.add] in E |- *. rewrite E. repeat sure_step.
Qed.

Theorem C45_fact_refuted :
  exists n f w, factorial n f /\ ~ fits f
    /\ calls demo_host MFact [EInteger n] demo (ROk (EInteger w)) demo.
Proof.
  exists 21%Z, 51090942171709440000%Z, (-4249290049419214848)%Z. split.
  - do 21 (match goal with |- factorial ?n ?f =>
      let m := eval vm_compute in (n - 1)%Z in let g := eval vm_compute in (f / n)%Z in
      change (factorial (m + 1) ((m + 1) * g)); apply factorial_step end).
    exact factorial_0.
  - split; [unfold fits; lia | compute_outcome 20%nat].
Qed.

(** Sums and products of integers, given as arguments or as a list. *)
Section Accumulate.
  Variables (H : host) (name : str) (fi : Z -> Z -> Z) (ff : f64 -> f64 -> f64).

  Let int_step (acc : Z * f64) (i : Z) : M (Z * f64) :=
    bind (or_panic (arith (h_overflow H) (fi (fst acc) i))) (fun z => ret (z, snd acc)).

  Let item (ev : expr -> M expr) (acc : Z * f64) (x : expr) : M (Z * f64) :=
    bind (ev x) (fun w =>
      match w with
      | EInteger i => int_step acc i
      | EFloat f => ret (fst acc, ff (snd acc) f)
      | _ => custom (lit "invalid " ++ name ++ lit " argument " ++ debug H w)
      end).

  Let step (ev : expr -> M expr) (acc : Z * f64) (a : expr) : M (Z * f64) :=
    bind (ev a) (fun v =>
      match v with
      | EInteger i => int_step acc i
      | EFloat f => ret (fst acc, ff (snd acc) f)
      | EList l => foldM (item ev) acc l
      | _ => custom (lit "invalid " ++ name ++ lit " argument " ++ debug H v)
      end).

  Lemma accumulate_fold ev init args :
    accumulate H ev name fi ff init args = foldM (step ev) init args.
  Proof. reflexivity. Qed.

  (** What happens to the integers. *)
  Variable op : Z -> Z -> option Z.
  Hypothesis OP : forall a b, op a b = Some (fi a b).

  Definition accumulates (f : nat -> M (Z * f64)) (fl : f64) (o : option Z) s s' : Prop :=
    match o with
    | Some w => sure f s (ROk (w, fl)) s'
    | None => h_overflow H = OvfPanic -> exists s1, sure f s (RPanic PArith) s1
    end.

  Lemma accumulate_steps (g : (expr -> M expr) -> Z * f64 -> expr -> M (Z * f64)) fl :
    (forall a s y s1 z, evaluates H 0 a s (ROk (EInteger y)) s1 ->
       sure (fun n => bind (ret tt) (fun _ => g (eval H n 0) (z, fl) a)) s
            (match arith (h_overflow H) (fi z y) with inl w => ROk (w, fl) | inr p => RPanic p end) s1) ->
    forall args s l s' z o,
    evaluates_all H 0 args s (ROk (map EInteger l)) s' -> exactly op z l o ->
    accumulates (fun n => foldM (g (eval H n 0)) (z, fl) args) fl o s s'.
  Proof.
    intros G. induction args as [| a args IH]; intros s l s' z o E X.
    - inversion E; subst. destruct l; [| discriminate]. inversion X; subst. apply sure_ret.
    - inversion E; subst; try match goal with Y : fails _ (ROk _) |- _ => inversion Y end.
      destruct l as [| y l]; [discriminate |]. cbn [map] in *.
      match goal with Y : _ :: _ = EInteger y :: _ |- _ => injection Y as -> -> end.
      match goal with Y : evaluates H 0 a s _ ?t |- _ => assert (K := G a s y t z Y) end.
      inversion X; subst.
      + match goal with Y : op z y = Some w |- _ => rewrite OP in Y; injection Y as <- end.
        rewrite arith_fits in K by assumption.
        match goal with Y : in_order _ args ?t _ _, Z : exactly op (fi z y) l o |- _ =>
          specialize (IH t l s' (fi z y) o Y Z) end.
        destruct o as [w |]; cbn [accumulates] in IH |- *; cbn [foldM].
        * eapply (sure_bind _ _ (fun n => g (eval H n 0) (z, fl) a)
                    (fun n b => foldM (g (eval H n 0)) b args)); [exact K | exact IH].
        * intros OV. destruct (IH OV) as (s2 & Q). exists s2.
          eapply (sure_bind _ _ (fun n => g (eval H n 0) (z, fl) a)
                    (fun n b => foldM (g (eval H n 0)) b args)); [exact K | exact Q].
      + rewrite OP in *. discriminate.
      + match goal with Y : op z y = Some w |- _ => rewrite OP in Y; injection Y as <- end.
        cbn [accumulates]. intros OV. rewrite OV, arith_panic in K by assumption.
        eexists. cbn [foldM].
        eapply (sure_bind_fails _ _ (fun n => g (eval H n 0) (z, fl) a)
                  (fun n b => foldM (g (eval H n 0)) b args)); [exact K | constructor].
  Qed.

  Lemma int_step_sure fl z y s1 :
    sure (fun _ => int_step (z, fl) y) s1
      (match arith (h_overflow H) (fi z y) with inl w => ROk (w, fl) | inr p => RPanic p end) s1.
  Proof.
    unfold int_step. cbn [fst snd]. destruct (arith _ _); now apply sure_const.
  Qed.

  Lemma accumulate_args fl args s l s' z o :
    evaluates_all H 0 args s (ROk (map EInteger l)) s' -> exactly op z l o ->
    accumulates (fun n => accumulate H (eval H n 0) name fi ff (z, fl) args) fl o s s'.
  Proof.
    intros E X. apply (accumulate_steps step) with (l := l); auto.
    intros a t y t1 z' A. unfold step. eapply sure_bind_const; [reflexivity |].
    eapply sure_ev_bind; [exact A |]. cbv beta iota. apply int_step_sure.
  Qed.

  Lemma accumulate_list fl a s l s' z o :
    gives H a s (EList (map EInteger l)) s' -> exactly op z l o ->
    accumulates (fun n => accumulate H (eval H n 0) name fi ff (z, fl) [a]) fl o s s'.
  Proof.
    intros A X.
    assert (E : evaluates_all H 0 (map EInteger l) s' (ROk (map EInteger l)) s').
    { apply values_evaluate. apply Forall_forall. intros x I. apply in_map_iff in I as (y & <- & _).
      apply value_int. }
    assert (K : accumulates (fun n => foldM (item (eval H n 0)) (z, fl) (map EInteger l)) fl o s' s').
    { apply (accumulate_steps item) with (l := l); auto.
      intros b t y t1 z' B. unfold item. eapply sure_bind_const; [reflexivity |].
      eapply sure_ev_bind; [exact B |]. cbv beta iota. apply int_step_sure. }
    assert (W : forall r t, sure (fun n => foldM (item (eval H n 0)) (z, fl) (map EInteger l)) s' r t ->
                sure (fun n => step (eval H n 0) (z, fl) a) s r t).
    { intros r t S. unfold step. eapply sure_ev_bind; [exact A |]. cbv beta iota. exact S. }
    destruct o as [w |]; cbn [accumulates] in *.
    - eapply (sure_bind _ _ (fun n => step (eval H n 0) (z, fl) a) (fun n b => ret b));
        [apply W, K | apply sure_ret].
    - intros OV. destruct (K OV) as (t & S). exists t.
      apply (sure_bind_fails _ _ (fun n => step (eval H n 0) (z, fl) a) (fun n b => ret b)
               s (RPanic PArith)); [apply W, S | constructor].
  Qed.
End Accumulate.

(** The arguments, or the items of the one list given as argument, are the
    integers [l]. *)
Inductive numbers (H : host) : list expr -> st -> list Z -> st -> Prop :=
| numbers_args args s l s' :
    evaluates_all H 0 args s (ROk (map EInteger l)) s' -> numbers H args s l s'
| numbers_list a s l s' :
    gives H a s (EList (map EInteger l)) s' -> numbers H [a] s l s'.

Theorem C45_sum H args s l s' o :
  numbers H args s l s' -> exactly sum 0 l o ->
  match o with
  | Some w => calls H MSum args s (ROk (EInteger w)) s'
  | None => h_overflow H = OvfPanic -> exists s1, calls H MSum args s (RPanic PArith) s1
  end.
Proof.
  intros N X.
  assert (K : accumulates H (fun n => accumulate H (eval H n 0) (lit "sum") Z.add f64_add (0%Z, f64_zero) args)
                f64_zero o s s').
  { destruct N; [eapply accumulate_args | eapply accumulate_list]; eauto; reflexivity. }
  destruct o as [w |]; cbn [accumulates] in K.
  - call. unfold run_sum.
    eapply (sure_bind _ _ (fun n => accumulate H (eval H n 0) (lit "sum") Z.add f64_add (0%Z, f64_zero) args));
      [exact K |]. cbn [fst snd]. apply sure_ret.
  - intros OV. destruct (K OV) as (s1 & Q). exists s1. call. unfold run_sum.
    eapply (sure_bind_fails _ _ (fun n => accumulate H (eval H n 0) (lit "sum") Z.add f64_add (0%Z, f64_zero) args));
      [exact Q | constructor].
Qed.

Theorem C45_product H args s l s' o :
  numbers H args s l s' -> exactly product 1 l o ->
  match o with
  | Some w => calls H MProduct args s (ROk (EInteger w)) s'
  | None => h_overflow H = OvfPanic -> exists s1, calls H MProduct args s (RPanic PArith) s1
  end.
Proof.
  intros N X.
  assert (K : accumulates H (fun n => accumulate H (eval H n 0) (lit "product") Z.mul f64_mul (1%Z, f64_one) args)
                f64_one o s s').
  { destruct N; [eapply accumulate_args | eapply accumulate_list]; eauto; reflexivity. }
  assert (OO : f64_eqb f64_one f64_one = true) by (vm_compute; reflexivity).
  destruct o as [w |]; cbn [accumulates] in K.
  - call. unfold run_product.
    eapply (sure_bind _ _ (fun n => accumulate H (eval H n 0) (lit "product") Z.mul f64_mul (1%Z, f64_one) args));
      [exact K |]. cbn [fst snd]. rewrite OO. apply sure_ret.
  - intros OV. destruct (K OV) as (s1 & Q). exists s1. call. unfold run_product.
    eapply (sure_bind_fails _ _ (fun n => accumulate H (eval H n 0) (lit "product") Z.mul f64_mul (1%Z, f64_one) args));
      [exact Q | constructor].
Qed.

(** Without overflow checks a sum that does not fit is wrong. *)
Theorem C45_sum_refuted :
  exists l w, exactly sum 0 l None
    /\ calls demo_host MSum (map EInteger l) demo (ROk (EInteger w)) demo.
Proof.
  exists [9223372036854775807%Z; 1%Z], (-9223372036854775808)%Z. split; [| compute_outcome 20%nat].
  eapply exactly_step; [reflexivity | unfold fits; lia |].
  eapply exactly_range; [reflexivity | unfold fits; lia].
Qed.

(** Powers with an exponent that fits in 32 bits. *)
Theorem C45_pow_partial H a b s x s1 y s2 :
  gives H a s (EInteger x) s1 -> gives H b s1 (EInteger y) s2 -> (0 <= y < 2 ^ 32)%Z ->
  (fits (x ^ y) -> calls H MPow [a; b] s (ROk (EInteger (x ^ y))) s2)
  /\ (~ fits (x ^ y) -> exists m, calls H MPow [a; b] s (RErr (CustomError m)) s2).
Proof.
  intros A B Y. unfold gives in *. split.
  - intros F. call. unfold run_pow, exact2. repeat sure_step.
    rewrite (Z.mod_small y) by lia. cbv zeta. rewrite (proj2 (in_i64_fits _) F). apply sure_ret.
  - intros F. eexists. call. unfold run_pow, exact2. repeat sure_step.
    rewrite (Z.mod_small y) by lia. cbv zeta.
    destruct (in_i64 (x ^ y)) eqn:I; [apply in_i64_fits in I; tauto | apply sure_throw].
Qed.

(** Larger exponents are cut to 32 bits without an error. *)
Theorem C45_pow_refuted :
  exists x y w, (0 <= y)%Z /\ w <> (x ^ y)%Z
    /\ calls demo_host MPow [EInteger x; EInteger y] demo (ROk (EInteger w)) demo.
Proof.
  exists 2%Z, 4294967296%Z, 1%Z. split; [lia |]. split; [| compute_outcome 20%nat].
  assert (P : forall y, (1 <= y -> 1 <> 2 ^ y)%Z).
  { intros y Y E. assert (L : (2 ^ 1 <= 2 ^ y)%Z) by (apply Z.pow_le_mono_r; lia).
    rewrite <- E in L. lia. }
  apply P. discriminate.
Qed.

(** [iseven] is right; [isodd] is right for integers that are not negative. *)
Theorem C45_iseven H a s n s' :
  gives H a s (EInteger n) s' ->
  exists b, calls H MIsEven [a] s (ROk (EBoolean b)) s' /\ (b = true <-> exists k, n = 2 * k)%Z.
Proof.
  intros A. unfold gives in A. exists (Z.rem n 2 =? 0)%Z. split.
  - call. unfold run_parity, exact1. repeat sure_step.
  - rewrite Z.eqb_eq, Z.rem_divide by lia. split; intros [k K]; exists k; lia.
Qed.

Theorem C45_isodd_partial H a s n s' :
  gives H a s (EInteger n) s' -> (0 <= n)%Z ->
  exists b, calls H MIsOdd [a] s (ROk (EBoolean b)) s' /\ (b = true <-> exists k, n = 2 * k + 1)%Z.
Proof.
  intros A P. unfold gives in A. exists (Z.rem n 2 =? 1)%Z. split.
  - call. unfold run_parity, exact1. repeat sure_step.
  - rewrite Z.eqb_eq, Z.rem_mod_nonneg by lia. split.
    + intros M. exists (n / 2)%Z. rewrite <- M. apply Z.div_mod. lia.
    + intros [k ->]. rewrite Z.add_comm, Z.mul_comm, Z.mod_add by lia. reflexivity.
Qed.

Theorem C45_isodd_refuted :
  exists n, (exists k, n = 2 * k + 1)%Z
    /\ calls demo_host MIsOdd [EInteger n] demo (ROk (EBoolean false)) demo
    /\ calls demo_host MIsEven [EInteger n] demo (ROk (EBoolean false)) demo.
Proof.
  exists (-3)%Z. split; [exists (-2)%Z; reflexivity |]. split; compute_outcome 20%nat.
Qed.

Example C45_example :
  value_of "math@fact 20" = ROk (EInteger 2432902008176640000)
  /\ value_of "math@sum [1, 2, 3]" = ROk (EInteger 6)
  /\ value_of "math@sum 1 2 3" = ROk (EInteger 6)
  /\ value_of "math@product 4 5 6" = ROk (EInteger 120)
  /\ value_of "math@pow 3 4" = ROk (EInteger 81)
  /\ value_of "math@isodd -3" = ROk (EBoolean false)
  /\ factorial 2 2
  /\ numbers demo_host [EInteger 1; EInteger 2] demo [1; 2]%Z demo
  /\ exactly sum 0 [1; 2]%Z (Some 3%Z).
Proof.
  do 6 (split; [vm_compute; reflexivity |]). split.
  - change (factorial (1 + 1) ((1 + 1) * 1)). apply factorial_step.
    change (factorial (0 + 1) ((0 + 1) * 1)). apply factorial_step, factorial_0.
  - split.
    + apply numbers_args, (values_evaluate demo_host [EInteger 1; EInteger 2]).
      constructor; [apply value_int |]. constructor; [apply value_int | constructor].
    + do 2 (eapply exactly_step; [reflexivity | unfold fits; lia |]). constructor.
Qed.

(** ** C50 *)

(** [writes H s t s']: between [s] and [s'] the text [t] is printed, possibly
    in several pieces, and nothing else happens. *)
Inductive writes (H : host) : st -> str -> st -> Prop :=
| writes_nil s : writes H s [] s
| writes_more s x t s' :
    writes H (St (s_env s) ((RqPrint x, h_answer H (s_trace s) (RqPrint x)) :: s_trace s) (s_log s)) t s' ->
    writes H s (x ++ t) s'.

(** The five kinds of messages with their levels, as the names in the module
    say. *)
Definition messages : list (bid * Z * string * string) :=
  [ (GError, 1%Z, "error", "ERROR"); (GWarn, 2%Z, "warn", "WARN"); (GInfo, 3%Z, "info", "INFO");
    (GDebug, 4%Z, "debug", "DEBUG"); (GTrace, 5%Z, "trace", "TRACE") ]%string.

Theorem C50_levels_and_names b level name title :
  In (b, level, name, title) messages ->
  bm_get (lit name) log_module = Some (EBuiltin (Bi b (lit name)))
  /\ exists m, bm_get (lit "level") log_module = Some (EMap m) /\ bm_get (lit name) m = Some (EInteger level).
Proof.
  intros I. cbn in I.
  repeat destruct I as [I | I]; try contradiction; injection I as <- <- <- <-;
    (split; [vm_compute; reflexivity | eexists; split; vm_compute; reflexivity]).
Qed.

(** A message is hidden when the level is too low; its arguments are not even
    evaluated. *)
Theorem C50_hidden H b level name title args s :
  In (b, level, name, title) messages -> (s_log s < level)%Z ->
  calls H b args s (ROk ENone) s.
Proof.
  intros I L.
  assert (E : log_enabled (s_log s) level = false).
  { unfold log_enabled. cbn in I. apply Bool.orb_false_iff. rewrite !Z.leb_gt.
    repeat destruct I as [I | I]; try contradiction; injection I as <- <- <- <-; lia. }
  cbn in I. repeat destruct I as [I | I]; try contradiction; injection I as <- <- <- <-;
    (call; unfold run_log_at; eapply sure_bind_const; [reflexivity |]; cbv beta iota; rewrite E;
     apply sure_ret).
Qed.

Lemma writes_print H s x t s' :
  writes H (snd (ask H (RqPrint x) s)) t s' -> writes H s (x ++ t) s'.
Proof. intros W. now apply writes_more. Qed.

Lemma writes_one H s x : writes H s x (snd (ask H (RqPrint x) s)).
Proof. rewrite <- (app_nil_r x) at 1. apply writes_more. constructor. Qed.

(** A text as complete lines and a rest. *)
Definition has_lines (t : str) (lines : list str) (last : str) : Prop :=
  t = concat (map (fun l => l ++ NL) lines) ++ last
  /\ Forall (fun l => ~ In 10%N l) (last :: lines).

Lemma split_nl_lines t : exists lines last,
  split_nl t = lines ++ [last] /\ has_lines t lines last.
Proof.
  induction t as [| c t (lines & last & E & T & F)].
  - exists [], []. split; [reflexivity |]. split; [reflexivity |]. repeat constructor. tauto.
  - cbn [split_nl]. destruct (c =? 10)%N eqn:C.
    + apply N.eqb_eq in C as ->. exists ([] :: lines), last. rewrite E. split; [reflexivity |].
      split; [now rewrite T |]. inversion F; subst. repeat constructor; auto.
    + apply N.eqb_neq in C. rewrite E. destruct lines as [| l lines].
      * exists [], (c :: last). split; [reflexivity |]. split; [now rewrite T |].
        inversion F; subst. repeat constructor. intros [X | X]; [congruence | auto].
      * exists ((c :: l) :: lines), last. split; [reflexivity |]. split; [now rewrite T |].
        inversion F as [| ? ? F1 F2]; subst. inversion F2; subst. repeat constructor; auto.
        intros [X | X]; [congruence | auto].
Qed.

Lemma has_lines_unique t l1 x1 : forall l2 x2, has_lines t l1 x1 -> has_lines t l2 x2 ->
  l1 = l2 /\ x1 = x2.
Proof.
  assert (CUT : forall a b u v, ~ In 10%N a -> ~ In 10%N b -> a ++ NL ++ u = b ++ NL ++ v -> a = b /\ u = v).
  { induction a as [| c a IH]; intros [| d b] u v A B E; cbn in E.
    - injection E as ->. auto.
    - injection E as <- E. cbn in B. tauto.
    - injection E as -> E. cbn in A. tauto.
    - injection E as -> E. destruct (IH b u v) as [-> ->]; auto; cbn in A, B; tauto. }
  revert t. induction l1 as [| a l1 IH]; intros t [| b l2] x2 [T1 F1] [T2 F2]; cbn in T1, T2.
  - subst. auto.
  - exfalso. apply (Forall_inv F1). rewrite <- T1, T2, !in_app_iff. cbn. auto.
  - exfalso. apply (Forall_inv F2). rewrite <- T2, T1, !in_app_iff. cbn. auto.
  - assert (A1 := Forall_inv F1). assert (A2 := Forall_inv_tail F1).
    assert (B1 := Forall_inv F2). assert (B2 := Forall_inv_tail F2).
    rewrite T1, <- !app_assoc in T2. apply CUT in T2 as [-> T2];
      [| exact (Forall_inv A2) | exact (Forall_inv B2)].
    destruct (IH _ l2 x2 (conj eq_refl (Forall_cons _ A1 (Forall_inv_tail A2)))
                (conj T2 (Forall_cons _ B1 (Forall_inv_tail B2)))) as [-> ->]. auto.
Qed.

Lemma log_pieces_writes H prefix lines : forall last s, exists s',
  writes H s (concat (map (fun l => prefix ++ l ++ NL) lines)
              ++ match last with [] => [] | _ => prefix ++ last end) s'
  /\ log_pieces H prefix (lines ++ [last]) s = (ROk tt, s').
Proof.
  induction lines as [| l lines IH]; intros last s.
  - cbn [map concat Datatypes.app log_pieces]. destruct last.
    + exists s. split; [constructor | reflexivity].
    + eexists. split; [apply writes_one | reflexivity].
  - destruct (IH last (snd (ask H (RqPrint (prefix ++ l ++ NL)) s))) as (s' & W & E).
    exists s'. split.
    + cbn [map concat]. rewrite <- app_assoc. now apply writes_print.
    + cbn [Datatypes.app log_pieces]. destruct (lines ++ [last]) eqn:Q.
      * destruct lines; discriminate.
      * exact E.
Qed.

(** The text of a message on the terminal. *)
Definition as_message (colour title : string) (lines : list str) (last : str) : str :=
  let prefix := ESC ++ lit "[" ++ lit colour ++ lit "m[" ++ lit title ++ lit "]" ++ ESC ++ lit "[m " in
  match lines with
  | [] => prefix ++ last ++ NL
  | _ => concat (map (fun l => prefix ++ l ++ NL) lines)
         ++ match last with [] => [] | _ => prefix ++ last end
  end.

(** Otherwise it is shown: every line of the text with the title in front. *)
Theorem C50_shown H b level name title a s t s1 lines last :
  In (b, level, name, title) messages -> (level <= s_log s)%Z ->
  gives H a s (EString t) s1 -> has_lines t lines last ->
  exists colour s2, calls H b [a] s (ROk ENone) s2
    /\ writes H s1 (as_message colour title lines last) s2.
Proof.
  intros I L A T.
  assert (E : log_enabled (s_log s) level = true).
  { unfold log_enabled. rewrite (proj2 (Z.leb_le _ _) L). apply Bool.orb_true_r. }
  assert (K : forall prefix, exists s2,
     sure (fun n => log_args H (eval H n 0) prefix true [a]) s (ROk tt) s2
     /\ writes H s1 (match lines with
                    | [] => prefix ++ last ++ NL
                    | _ => concat (map (fun l => prefix ++ l ++ NL) lines)
                           ++ match last with [] => [] | _ => prefix ++ last end
                    end) s2).
  { intros prefix. destruct (split_nl_lines t) as (l2 & x2 & SP & T2).
    destruct (has_lines_unique _ _ _ _ _ T T2) as [<- <-].
    destruct lines as [| l lines].
    - destruct T as [T _]. cbn in T. subst t. eexists. split.
      + cbn [log_args]. eapply sure_ev_bind; [exact A |]. cbv beta zeta. cbn [display]. rewrite SP.
        cbn [Datatypes.app]. eapply sure_bind_const; [reflexivity |]. cbv beta iota. apply sure_ret.
      + apply writes_print, writes_one.
    - destruct (log_pieces_writes H prefix (l :: lines) last s1) as (s2 & W & Q).
      exists s2. split; [| exact W].
      cbn [log_args]. eapply sure_ev_bind; [exact A |]. cbv beta zeta. cbn [display]. rewrite SP.
      destruct lines as [| l2 lines]; cbn [Datatypes.app] in Q |- *;
        (eapply sure_bind_const; [exact Q |]; cbv beta iota; apply sure_ret). }
  cbn in I. repeat destruct I as [I | I]; try contradiction; injection I as <- <- <- <-.
  1: set (col := "91"%string). 2: set (col := "93"%string). 3: set (col := "92"%string).
  4: set (col := "94"%string). 5: set (col := "95"%string).
  all: match goal with |- context [as_message _ ?title _ _] =>
         destruct (K (ESC ++ lit "[" ++ lit col ++ lit "m[" ++ lit title ++ lit "]" ++ ESC ++ lit "[m "))
         as (s2 & S & W) end;
    exists col, s2; split; [| exact W];
    call; unfold run_log_at; eapply sure_bind_const; [reflexivity |]; cbv beta iota; rewrite E;
    (eapply (sure_bind _ _ (fun n => log_args H (eval H n 0) _ true [a]) (fun n _ => ret ENone));
     [exact S | apply sure_ret]).
Qed.

(** [enabled?] says which messages are shown. *)
Theorem C50_enabled H a s level s' :
  gives H a s (EInteger level) s' ->
  exists b, calls H GEnabled [a] s (ROk (EBoolean b)) s'
    /\ (b = true <-> (level <= 0 \/ level <= s_log s')%Z).
Proof.
  intros A. unfold gives in A. exists (log_enabled (s_log s') level). split.
  - call. unfold run_enabled, exact1. repeat sure_step.
    eapply sure_bind_const; [reflexivity |]. cbv beta iota. apply sure_ret.
  - unfold log_enabled. rewrite Bool.orb_true_iff, !Z.leb_le. reflexivity.
Qed.

(** The level is what was set last; [disable] hides all messages. *)
Theorem C50_set_level H a s level s' :
  gives H a s (EInteger level) s' ->
  calls H GSetLevel [a] s (ROk ENone) (St (s_env s') (s_trace s') level)
  /\ calls H GGetLevel [] (St (s_env s') (s_trace s') level) (ROk (EInteger level))
       (St (s_env s') (s_trace s') level).
Proof.
  intros A. unfold gives in A. split.
  - call. unfold run_set_level, exact1. repeat sure_step.
    eapply sure_bind_const; [reflexivity |]. cbv beta iota. apply sure_ret.
  - call. unfold run_get_level. repeat sure_step.
    eapply sure_bind_const; [reflexivity |]. cbv beta iota. apply sure_ret.
Qed.

Theorem C50_disable H s :
  exists s', calls H GDisable [] s (ROk ENone) s' /\ s_env s' = s_env s /\ s_trace s' = s_trace s
    /\ forall b level name title args, In (b, level, name, title) messages ->
         calls H b args s' (ROk ENone) s'.
Proof.
  exists (St (s_env s) (s_trace s) 0%Z). split.
  - call. unfold run_disable. repeat sure_step.
    eapply sure_bind_const; [reflexivity |]. cbv beta iota. apply sure_ret.
  - do 2 (split; [reflexivity |]). intros b level name title args I.
    eapply C50_hidden; [exact I |]. cbn [s_log]. cbn in I.
    repeat destruct I as [I | I]; try contradiction; injection I as <- <- <- <-; lia.
Qed.

(** Raising the level never hides a message: one that was not hidden before is
    shown after. *)
Theorem C50_monotone H b level name title a s t s2 n s1 lines last :
  In (b, level, name, title) messages -> (s_log s <= n)%Z ->
  calls H b [a] s (ROk ENone) s2 -> s2 <> s ->
  gives H a (St (s_env s) (s_trace s) n) (EString t) s1 -> has_lines t lines last ->
  exists colour s3,
    calls H b [a] (St (s_env s) (s_trace s) n) (ROk ENone) s3
    /\ writes H s1 (as_message colour title lines last) s3.
Proof.
  intros I L C X A T. destruct (Z.lt_ge_cases (s_log s) level) as [D | D].
  - exfalso. apply X. apply (calls_det _ _ _ _ _ _ _ _ C (C50_hidden H b level name title [a] s I D)).
  - apply (C50_shown H b level name title a _ t s1 lines last I); auto. cbn [s_log]. lia.
Qed.

Example C50_example :
  effects_of "log@info 1" = []
  /\ effects_of "log@set-level 3; log@info ""hi""; log@debug ""no"""
     = [RqPrint (ESC ++ lit "[92m[INFO]" ++ ESC ++ lit "[m "); RqPrint (lit "hi" ++ NL)]
  /\ has_lines (lit "hi") [] (lit "hi")
  /\ has_lines (lit "a" ++ NL ++ lit "b") [lit "a"] (lit "b").
Proof.
  do 2 (split; [vm_compute; reflexivity |]).
  split; (split; [reflexivity |]; repeat constructor; cbn; intuition discriminate).
Qed.

Print Assumptions C45_fact_partial.
Print Assumptions C45_fact_negative.
Print Assumptions C45_fact_overflow.
Print Assumptions C45_fact_refuted.
Print Assumptions C45_sum.
Print Assumptions C45_product.
Print Assumptions C45_sum_refuted.
Print Assumptions C45_pow_partial.
Print Assumptions C45_pow_refuted.
Print Assumptions C45_iseven.
Print Assumptions C45_isodd_partial.
Print Assumptions C45_isodd_refuted.
Print Assumptions C50_levels_and_names.
Print Assumptions C50_hidden.
Print Assumptions C50_shown.
Print Assumptions C50_enabled.
Print Assumptions C50_set_level.
Print Assumptions C50_disable.
Print Assumptions C50_monotone.
