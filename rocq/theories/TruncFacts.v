(** The whole part of a quotient of floats. *)

From Coq Require Import ZArith QArith Qabs Qpower Lia Lqa Floats.SpecFloat.
From Verif Require Import Base Host FloatSpec FloatFacts SqrtFacts.

Local Open Scope Q_scope.

Lemma dyadic_any t j : (0 < t < 2 ^ 53)%Z -> (-900 <= j <= 900)%Z ->
  exists g, finite g /\ value g == inject_Z t * pw j.
Proof.
  intros T J. pose proof (digits_range t ltac:(lia)) as R. pose proof (digits_pos t ltac:(lia)) as P.
  set (d := Zdigits2 t) in *.
  assert (D : (d <= 53)%Z).
  { assert (2 ^ (d - 1) < 2 ^ 53)%Z by lia. apply Z.pow_lt_mono_r_iff in H; lia. }
  assert (B : (2 ^ 52 <= t * 2 ^ (53 - d) < 2 ^ 53)%Z).
  { assert (0 < 2 ^ (53 - d))%Z by (apply Z.pow_pos_nonneg; lia).
    replace (2 ^ 52)%Z with (2 ^ (d - 1) * 2 ^ (53 - d))%Z by (rewrite <- Z.pow_add_r by lia; f_equal; lia).
    replace (2 ^ 53)%Z with (2 ^ d * 2 ^ (53 - d))%Z by (rewrite <- Z.pow_add_r by lia; f_equal; lia).
    split; [apply Z.mul_le_mono_nonneg_r|apply Z.mul_lt_mono_pos_r]; lia. }
  destruct (t * 2 ^ (53 - d))%Z as [|m|m] eqn:E; [lia| |lia].
  exists (S754_finite false m (j - (53 - d))). split.
  - cbn [finite]. left. lia.
  - cbn [value]. fold (pw (j - (53 - d))). rewrite <- E, inject_Z_mult, <- pw_Z by lia.
    replace j with (53 - d + (j - (53 - d)))%Z at 2 by lia. rewrite pw_plus. ring.
Qed.

Lemma dyadic_nonneg t j : (0 <= t <= 2 ^ 53)%Z -> (-900 <= j < 900)%Z ->
  exists g, finite g /\ value g == inject_Z t * pw j.
Proof.
  intros T J. destruct (Z.eq_dec t 0) as [-> | N0].
  { exists (S754_zero false). split; [exact I | cbn [value]; ring]. }
  destruct (Z.eq_dec t (2 ^ 53)) as [-> | N1]; [| apply dyadic_any; lia].
  destruct (dyadic_any (2 ^ 52) (j + 1) ltac:(lia) ltac:(lia)) as (g & G & V).
  exists g. split; [exact G |]. rewrite V, pw_plus, pw_1.
  setoid_replace (inject_Z (2 ^ 53)) with (2 * inject_Z (2 ^ 52)) by reflexivity. ring.
Qed.

(** The whole part of a float that is not negative. *)
Lemma whole_part f n : finite f -> (0 <= n <= 2 ^ 62)%Z ->
  inject_Z n <= value f -> value f < inject_Z n + 1 -> f64_to_int f = n.
Proof.
  intros F N A B. destruct f as [s | s | | s m e]; try contradiction.
  - change (value (S754_zero s)) with 0 in *. cbn.
    assert (inject_Z n <= inject_Z 0) by exact A. apply (proj1 (inj_le _ _)) in H. lia.
  - assert (SF : s = false).
    { destruct s; [| reflexivity]. exfalso. cbn [value] in A. fold (pw e) in A.
      pose proof (pw_pos e). assert (P : inject_Z (Z.neg m) <= inject_Z (-1)) by (apply (proj2 (inj_le _ _)); lia).
      assert (Q : inject_Z 0 <= inject_Z n) by (apply (proj2 (inj_le _ _)); lia).
      change (inject_Z (-1)) with (-(1)) in P. change (inject_Z 0) with 0 in Q.
      pose proof (Qmult_le_compat_r _ _ (pw e) P ltac:(lra)). lra. }
    subst s. cbn [f64_to_int]. cbn [value] in A, B. fold (pw e) in A, B.
    assert (K : (if (0 <=? e)%Z then Z.pos m * 2 ^ e else Z.pos m / 2 ^ (- e))%Z = n).
    { destruct (0 <=? e)%Z eqn:E.
      - apply Z.leb_le in E. rewrite pw_Z, <- inject_Z_mult in A, B by exact E.
        apply (proj1 (inj_le _ _)) in A. change 1 with (inject_Z 1) in B. rewrite <- inject_Z_plus in B.
        apply (proj1 (inj_lt _ _)) in B. lia.
      - apply Z.leb_gt in E.
        assert (I : pw e * pw (- e) == 1) by (apply pw_inv; lia).
        pose proof (pw_pos (- e)) as P. pose proof (pw_pos e) as P'.
        assert (A' : inject_Z n * pw (- e) <= inject_Z (Z.pos m)).
        { setoid_replace (inject_Z (Z.pos m)) with (inject_Z (Z.pos m) * pw e * pw (- e))
            by (rewrite <- Qmult_assoc, I; ring).
          apply Qmult_le_compat_r; [exact A | lra]. }
        assert (B' : inject_Z (Z.pos m) < (inject_Z n + 1) * pw (- e)).
        { setoid_replace (inject_Z (Z.pos m)) with (inject_Z (Z.pos m) * pw e * pw (- e))
            by (rewrite <- Qmult_assoc, I; ring).
          apply Qmult_lt_compat_r; [exact P | exact B]. }
        rewrite pw_Z, <- inject_Z_mult in A' by lia. apply (proj1 (inj_le _ _)) in A'.
        change 1 with (inject_Z 1) in B'. rewrite pw_Z, <- inject_Z_plus, <- inject_Z_mult in B' by lia.
        apply (proj1 (inj_lt _ _)) in B'. symmetry. apply Z.div_unique_pos with (Z.pos m - n * 2 ^ (- e))%Z; lia. }
    rewrite K. unfold i64_min, i64_max.
    destruct (n <? _)%Z eqn:E1; [apply Z.ltb_lt in E1; lia |].
    destruct (_ <? n)%Z eqn:E2; [apply Z.ltb_lt in E2; lia |]. reflexivity.
Qed.

(** Dividing a number up to 2^53 by a small one and dropping the fraction. *)
Theorem quotient_truncates y k j kf :
  (0 <= y <= 2 ^ 53)%Z -> (2 ^ j <= k < 2 ^ (j + 1))%Z -> (0 <= j <= 20)%Z ->
  finite kf -> value kf == inject_Z k ->
  f64_to_int (f64_div (f64_of_int y) kf) = (y / k)%Z.
Proof.
  intros Y K J F V.
  assert (J0 : (0 < 2 ^ j)%Z) by (apply Z.pow_pos_nonneg; lia).
  assert (J1 : (2 ^ (j + 1) = 2 * 2 ^ j)%Z) by (rewrite Z.pow_add_r by lia; lia).
  assert (JM : (2 ^ j <= 2 ^ 20)%Z) by (apply Z.pow_le_mono_r; lia).
  assert (KP : 0 < inject_Z k) by (change 0 with (inject_Z 0); apply (proj2 (inj_lt _ _)); lia).
  assert (VN : ~ value kf == 0) by (rewrite V; lra).
  (* the number itself is exact *)
  destruct (dyadic_nonneg y 0 ltac:(lia) ltac:(lia)) as (yf & YF & YV).
  rewrite pw_0, Qmult_1_r in YV.
  assert (OK : finite (f64_of_int y) /\ value (f64_of_int y) == inject_Z y).
  { pose proof (of_int_rounded y) as R.
    destruct (rounded_finite_inv _ _ R) as [FI | [s E]].
    - split; [exact FI |]. pose proof (rounded_near _ _ R FI yf YF) as N.
      setoid_replace (value yf - inject_Z y) with 0 in N by (rewrite YV; ring).
      change (Qabs 0) with 0 in N. pose proof (Qabs_nonneg (value (f64_of_int y) - inject_Z y)).
      assert (Z0 : Qabs (value (f64_of_int y) - inject_Z y) == 0) by lra.
      assert (X : value (f64_of_int y) - inject_Z y == 0).
      { pose proof (Qle_Qabs (value (f64_of_int y) - inject_Z y)).
        pose proof (Qle_Qabs (- (value (f64_of_int y) - inject_Z y))) as U. rewrite Qabs_opp in U. lra. }
      lra.
    - exfalso. rewrite E in R. inversion R as [| | ? L]; subst.
      assert (B : Qabs (inject_Z y) < limit).
      { rewrite Qabs_pos by (change 0 with (inject_Z 0); apply (proj2 (inj_le _ _)); lia).
        unfold limit. apply (proj2 (inj_lt _ _)). assert (2 ^ 53 < 2 ^ 1024 - 2 ^ 970)%Z by reflexivity. lia. }
      lra. }
  destruct OK as [FI VI].
  pose proof (div_rounded _ _ FI F VN) as R.
  set (q := value (f64_of_int y) / value kf) in R.
  assert (Q : q * inject_Z k == inject_Z y) by (unfold q; rewrite VI, V; field; lra).
  set (n := (y / k)%Z).
  assert (NK : (n * k <= y < n * k + k)%Z).
  { subst n. pose proof (Z.div_mod y k ltac:(lia)). pose proof (Z.mod_pos_bound y k ltac:(lia)). lia. }
  assert (N0 : (0 <= n)%Z) by (apply Z.div_pos; lia).
  assert (Q1 : inject_Z n * inject_Z k <= q * inject_Z k)
    by (rewrite Q, <- inject_Z_mult; apply (proj2 (inj_le _ _)); lia).
  assert (Q2 : q * inject_Z k <= inject_Z n * inject_Z k + inject_Z k - 1).
  { rewrite Q. change 1 with (inject_Z 1). rewrite <- inject_Z_mult, <- inject_Z_plus, <- inject_Z_minus.
    apply (proj2 (inj_le _ _)). lia. }
  assert (L1 : inject_Z n <= q) by nra.
  assert (NN : 0 <= inject_Z n) by (change 0 with (inject_Z 0); apply (proj2 (inj_le _ _)); lia).
  assert (FF : finite (f64_div (f64_of_int y) kf)).
  { destruct (rounded_finite_inv _ _ R) as [FF | [s E]]; [exact FF |]. exfalso.
    rewrite E in R. inversion R as [| | ? L]; subst.
    assert (QY : q <= inject_Z y).
    { assert (1 <= inject_Z k) by (change 1 with (inject_Z 1); apply (proj2 (inj_le _ _)); lia). nra. }
    assert (B : inject_Z y < limit).
    { unfold limit. apply (proj2 (inj_lt _ _)). assert (2 ^ 53 < 2 ^ 1024 - 2 ^ 970)%Z by reflexivity. lia. }
    rewrite Qabs_pos in L by lra. lra. }
  pose proof (rounded_near _ _ R FF) as NEAR.
  assert (NY : (n <= y)%Z) by nia.
  destruct (dyadic_nonneg n 0 ltac:(lia) ltac:(lia)) as (nf & NF & NV). rewrite pw_0, Qmult_1_r in NV.
  pose proof (NEAR nf NF) as D. rewrite NV in D.
  set (f := f64_div (f64_of_int y) kf) in *.
  assert (AB : forall a, a <= Qabs a /\ - a <= Qabs a).
  { intros a. split; [apply Qle_Qabs |]. rewrite <- (Qabs_opp a). apply Qle_Qabs. }
  setoid_replace (inject_Z n - q) with (- (q - inject_Z n)) in D by ring.
  rewrite Qabs_opp, (Qabs_pos (q - inject_Z n)) in D by lra.
  destruct (AB (value f - q)) as [A1 A2].
  apply whole_part; [exact FF | lia | lra |].
  destruct (Z.eq_dec y (n * k)) as [EX | NX].
  { assert (q == inject_Z n).
    { assert (X : q * inject_Z k == inject_Z n * inject_Z k) by (rewrite Q, <- inject_Z_mult; now rewrite <- EX).
      apply Qmult_inj_r in X; [exact X | lra]. }
    lra. }
  assert (TOP : ((n + 1) * 2 ^ j <= 2 ^ 53)%Z).
  { assert (n * 2 ^ j < 2 ^ 53)%Z by nia.
    replace (2 ^ 53)%Z with (2 ^ (53 - j) * 2 ^ j)%Z in *
      by (rewrite <- Z.pow_add_r by lia; f_equal; lia).
    apply Z.mul_lt_mono_pos_r in H; [| exact J0]. apply Z.mul_le_mono_nonneg_r; lia. }
  destruct (dyadic_nonneg ((n + 1) * 2 ^ j - 1) (- j) ltac:(nia) ltac:(lia)) as (g & G & GV).
  assert (U : inject_Z (2 ^ j) * pw (- j) == 1) by (rewrite <- pw_Z by lia; apply pw_inv; lia).
  set (u := pw (- j)) in *. assert (UP : 0 < u) by apply pw_pos.
  assert (GE : value g == inject_Z n + 1 - u).
  { rewrite GV, inject_Z_minus, inject_Z_mult, inject_Z_plus.
    setoid_replace ((inject_Z n + inject_Z 1) * inject_Z (2 ^ j) - inject_Z 1)
      with ((inject_Z n + 1) * inject_Z (2 ^ j) - 1) by reflexivity.
    setoid_replace (((inject_Z n + 1) * inject_Z (2 ^ j) - 1) * u)
      with ((inject_Z n + 1) * (inject_Z (2 ^ j) * u) - u) by ring.
    rewrite U. ring. }
  assert (KU : inject_Z k * u < 2).
  { assert (inject_Z k * u < inject_Z (2 ^ (j + 1)) * u)
      by (apply Qmult_lt_compat_r; [exact UP | apply (proj2 (inj_lt _ _)); lia]).
    rewrite J1, inject_Z_mult in H. change (inject_Z 2) with 2 in H. rewrite <- Qmult_assoc, U in H. lra. }
  pose proof (NEAR g G) as E. rewrite GE in E.
  apply Qnot_le_lt. intros C.
  assert (LT : Qabs (inject_Z n + 1 - u - q) < inject_Z n + 1 - q).
  { apply Qabs_Qlt_condition. split; [| lra].
    assert (2 * q + u < 2 * inject_Z n + 2); [| lra].
    apply (Qmult_lt_r _ _ (inject_Z k) KP). lra. }
  lra.
Qed.
