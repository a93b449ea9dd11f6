(** Square roots of floats are correctly rounded. *)

From Coq Require Import ZArith Lia QArith Qabs Qpower Qminmax Lqa SpecFloat.
From Verif Require Import Base Host FloatSpec FloatFacts SqrtSpec.

Open Scope Q_scope.

Lemma rounded_near x f : rounded x f -> finite f ->
  forall g, finite g -> Qabs (value f - x) <= Qabs (value g - x).
Proof.
  intros R F g G. destruct R as [s N _ _|s m e _ _ N _|]; [|exact (N g G)|destruct F].
  change (value (S754_zero s)) with 0.
  setoid_replace (0 - x) with (- x) by ring. rewrite Qabs_opp. exact (N g G).
Qed.

(** A float that is the nearest to all numbers between [lo] and [hi]. *)
Lemma cell lo hi f : lo < hi -> finite f -> (forall x, lo < x -> x < hi -> rounded x f) ->
  (forall g, finite g -> value f < value g -> hi <= (value f + value g) / 2)
  /\ (forall g, finite g -> value g < value f -> (value f + value g) / 2 <= lo).
Proof.
  intros LH F A. split; intros g G L.
  - set (v := value f) in *. set (w := value g) in *.
    apply Qnot_lt_le. intros C.
    set (y := Qmax lo ((v + w) / 2)).
    assert (Y1 : lo <= y) by apply Q.le_max_l. assert (Y2 : (v + w) / 2 <= y) by apply Q.le_max_r.
    assert (Y3 : y < hi) by (now apply Q.max_lub_lt).
    clearbody y. setoid_replace ((v + w) / 2) with ((1 # 2) * (v + w)) in Y2 by field.
    pose proof (rounded_near ((1 # 2) * (y + hi)) f (A ((1 # 2) * (y + hi)) ltac:(lra) ltac:(lra)) F g G) as N.
    fold v w in N. revert N. apply (Qabs_case (v - (1 # 2) * (y + hi)));
      apply (Qabs_case (w - (1 # 2) * (y + hi))); intros; lra.
  - set (v := value f) in *. set (w := value g) in *.
    apply Qnot_lt_le. intros C.
    set (y := Qmin hi ((v + w) / 2)).
    assert (Y1 : y <= hi) by apply Q.le_min_l. assert (Y2 : y <= (v + w) / 2) by apply Q.le_min_r.
    assert (Y3 : lo < y) by (now apply Q.min_glb_lt).
    clearbody y. setoid_replace ((v + w) / 2) with ((1 # 2) * (v + w)) in Y2 by field.
    pose proof (rounded_near ((1 # 2) * (y + lo)) f (A ((1 # 2) * (y + lo)) ltac:(lra) ltac:(lra)) F g G) as N.
    fold v w in N. revert N. apply (Qabs_case (v - (1 # 2) * (y + lo)));
      apply (Qabs_case (w - (1 # 2) * (y + lo))); intros; lra.
Qed.

Lemma square_lt a b : 0 <= a -> a < b -> square a < square b.
Proof. unfold square. intros. nra. Qed.

(** The whole root and what it leaves. *)
Lemma root_parts m e :
  (0 < m)%Z ->
  let '(q, e', l) := SFsqrt_core_binary 53 1024 m e in
  exists m' r, (m' = q * q + r /\ 0 <= r <= 2 * q /\ 1 <= q)%Z
    /\ inject_Z m * pw e == inject_Z m' * (pw e' * pw e')
    /\ l = (if Zeq_bool r 0 then loc_Exact else loc_Inexact (if (r <=? q)%Z then Lt else Gt))
    /\ (e' <= fexp 53 1024 (Zdigits2 q + e'))%Z.
Proof.
  intros M. unfold SFsqrt_core_binary.
  set (D := (Zdigits2 m + e)%Z).
  set (e' := Z.min (fexp 53 1024 (Z.div2 (D + 1))) (Z.div2 e)).
  assert (L1 : (e' <= fexp 53 1024 (Z.div2 (D + 1)))%Z) by (unfold e'; lia).
  assert (L2 : (0 <= e - 2 * e')%Z).
  { assert (e' <= Z.div2 e)%Z by (unfold e'; lia). rewrite Z.div2_div in *.
    pose proof (Z.mul_div_le e 2 ltac:(lia)). lia. }
  clearbody e'.
  set (m' := match (e - 2 * e')%Z with
             | Zpos _ => Z.shiftl m (e - 2 * e') | Z0 => m | Zneg _ => Z0 end).
  assert (ME : m' = (m * 2 ^ (e - 2 * e'))%Z).
  { unfold m'. destruct (e - 2 * e')%Z as [|p|p] eqn:Q; [lia| |lia]. now rewrite Z.shiftl_mul_pow2 by lia. }
  clearbody m'. assert (P2 : (0 < 2 ^ (e - 2 * e'))%Z) by (apply Z.pow_pos_nonneg; lia).
  assert (M1 : (1 <= m')%Z) by nia.
  pose proof (Z.sqrtrem_spec m' ltac:(lia)) as SR. destruct (Z.sqrtrem m') as [q r]. destruct SR as [S1 S2].
  assert (Q1 : (1 <= q)%Z) by nia.
  exists m', r. repeat split; try lia.
  - rewrite ME, inject_Z_mult, <- pw_Z by lia.
    replace (e - 2 * e')%Z with (e + (- e' + - e'))%Z by lia. rewrite !pw_plus.
    assert (I : pw (- e') * pw e' == 1) by (apply pw_inv; lia).
    setoid_replace (inject_Z m * (pw e * (pw (- e') * pw (- e'))) * (pw e' * pw e'))
      with (inject_Z m * pw e * (pw (- e') * pw e') * (pw (- e') * pw e')) by ring.
    rewrite I. ring.
  - pose proof (digits_range m M) as [RM _]. pose proof (digits_pos m M) as PM.
    set (k := ((Zdigits2 m - 1 + (e - 2 * e')) / 2)%Z).
    assert (K0 : (0 <= k)%Z) by (apply Z.div_pos; lia).
    assert (K2 : (2 * k <= Zdigits2 m - 1 + (e - 2 * e'))%Z) by (apply Z.mul_div_le; lia).
    assert (KK : (2 ^ k * 2 ^ k <= m')%Z).
    { rewrite <- Z.pow_add_r by lia.
      apply Z.le_trans with (2 ^ (Zdigits2 m - 1 + (e - 2 * e')))%Z; [apply Z.pow_le_mono_r; lia|].
      rewrite Z.pow_add_r by lia. rewrite ME. apply Z.mul_le_mono_nonneg_r; lia. }
    assert (0 < 2 ^ k)%Z by (apply Z.pow_pos_nonneg; lia).
    assert (QK : (2 ^ k <= q)%Z) by nia.
    pose proof (digits_range q ltac:(lia)). pose proof (digits_pos q ltac:(lia)).
    assert (k < Zdigits2 q)%Z by (apply (Z.pow_lt_mono_r_iff 2); lia).
    assert (DD : (Z.div2 (D + 1) = k + 1 + e')%Z).
    { rewrite Z.div2_div. unfold k, D.
      replace (Zdigits2 m + e + 1)%Z with (Zdigits2 m - 1 + (e - 2 * e') + (1 + e') * 2)%Z by lia.
      rewrite Z.div_add by lia. lia. }
    rewrite DD in L1. rewrite !fexp_max in *. lia.
Qed.

Lemma scaled x lo hi e : lo * pw e < x -> x < hi * pw e -> lo < x * pw (- e) /\ x * pw (- e) < hi.
Proof.
  intros A B. assert (I : pw e * pw (- e) == 1) by (apply pw_inv; lia).
  assert (C : forall a, a == a * pw e * pw (- e)) by (intros a; rewrite <- Qmult_assoc, I; ring).
  split.
  - rewrite (C lo). apply Qmult_lt_compat_r; [apply pw_pos|exact A].
  - rewrite (C hi). apply Qmult_lt_compat_r; [apply pw_pos|exact B].
Qed.

Lemma value_below m e : finite (S754_finite false m e) -> value (S754_finite false m e) < pw 1024.
Proof.
  intros F. cbn [value]. fold (pw e).
  assert (B : (Zpos m < 2 ^ 53)%Z) by (cbn in F; lia).
  assert (E : (e <= 971)%Z) by (cbn in F; lia).
  apply Qlt_le_trans with (inject_Z (2 ^ 53) * pw e).
  - apply Qmult_lt_compat_r; [apply pw_pos|now apply inj_lt].
  - rewrite <- pw_Z by lia. rewrite <- pw_plus. apply pw_mono. lia.
Qed.

Lemma root_below x : 0 <= x -> square x < 4 * pw 1024 -> x < limit.
Proof.
  intros X L. apply Qnot_le_lt. intros C.
  assert (B : pw 514 <= limit) by (vm_compute; discriminate).
  assert (P : square (pw 514) == 16 * pw 1024) by reflexivity.
  pose proof (pw_pos 514). pose proof (pw_pos 1024).
  assert (square (pw 514) <= square x) by (unfold square; nra). lra.
Qed.

(** The root of a positive float. *)
Theorem sqrt_rounded m e : finite (S754_finite false m e) ->
  root_rounded (value (S754_finite false m e)) (SFsqrt 53 1024 (S754_finite false m e)).
Proof.
  intros F. pose proof (value_below m e F) as VB. unfold SFsqrt.
  pose proof (root_parts (Zpos m) e ltac:(lia)) as P.
  destruct (SFsqrt_core_binary 53 1024 (Zpos m) e) as [[q e'] l].
  destruct P as (m' & r & (M & R & Q1) & V & -> & L).
  change (value (S754_finite false m e)) with (inject_Z (Zpos m) * pw e) in *.
  set (v := inject_Z (Zpos m) * pw e) in *. clearbody v. clear m e F.
  pose proof (pw_pos e') as E0. assert (QQ : 1 <= inject_Z q) by now apply (inj_le 1).
  assert (MQ : inject_Z m' == inject_Z q * inject_Z q + inject_Z r)
    by (rewrite M, inject_Z_plus, inject_Z_mult; reflexivity).
  destruct (Z.eq_dec r 0) as [->|R0].
  - (* an exact root *)
    apply (root_fraction _ _ (inject_Z q * pw e')).
    + nra.
    + rewrite V, MQ. unfold square. change (inject_Z 0) with 0. ring.
    + change (Zeq_bool 0 0) with true. cbv iota.
      apply (round_aux_rounded (inject_Z q * pw e') false q e' loc_Exact); [lia|now apply at_exact|exact L].
  - assert (Z0 : Zeq_bool r 0 = false) by (destruct (Zeq_bool r 0) eqn:Z; [now apply Zeq_bool_eq in Z|reflexivity]).
    rewrite Z0.
    assert (C : exists lo hi, inject_Z q <= lo /\ lo < hi /\ hi <= inject_Z q + 1
      /\ lo * lo < inject_Z m' /\ inject_Z m' < hi * hi
      /\ forall x, lo < x -> x < hi ->
           at_loc x q (loc_Inexact (if (r <=? q)%Z then Lt else Gt))).
    { destruct (Z.leb_spec r q) as [C|C].
      - exists (inject_Z q), (inject_Z q + (1 # 2)).
        assert (inject_Z r <= inject_Z q) by now apply inj_le.
        assert (1 <= inject_Z r) by (apply (inj_le 1); lia).
        repeat split; try nra; cbn -[inject_Z]; intros; lra.
      - exists (inject_Z q + (1 # 2)), (inject_Z q + 1).
        assert (inject_Z q + 1 <= inject_Z r) by (change 1 with (inject_Z 1); rewrite <- inject_Z_plus; apply inj_le; lia).
        assert (inject_Z r <= 2 * inject_Z q) by (change 2 with (inject_Z 2); rewrite <- inject_Z_mult; apply inj_le; lia).
        repeat split; try nra; cbn -[inject_Z]; intros; lra. }
    destruct C as (lo & hi & C1 & C2 & C3 & C4 & C5 & AT).
    set (lc := loc_Inexact (if (r <=? q)%Z then Lt else Gt)) in *.
    set (f := binary_round_aux 53 1024 false q e' lc).
    assert (ALL : forall x, lo * pw e' < x -> x < hi * pw e' -> rounded x f).
    { intros x X1 X2. apply (round_aux_rounded x false q e' lc); [lia| |exact L].
      destruct (scaled x lo hi e' X1 X2). now apply AT. }
    assert (VL : square (lo * pw e') < v).
    { rewrite V. unfold square. setoid_replace (lo * pw e' * (lo * pw e')) with (lo * lo * (pw e' * pw e')) by ring.
      apply Qmult_lt_compat_r; [nra|exact C4]. }
    assert (VH : v < square (hi * pw e')).
    { rewrite V. unfold square. setoid_replace (hi * pw e' * (hi * pw e')) with (hi * hi * (pw e' * pw e')) by ring.
      apply Qmult_lt_compat_r; [nra|exact C5]. }
    set (x := (1 # 2) * (lo + hi) * pw e').
    assert (X1 : lo * pw e' < x) by (unfold x; apply Qmult_lt_compat_r; lra).
    assert (X2 : x < hi * pw e') by (unfold x; apply Qmult_lt_compat_r; lra).
    pose proof (ALL x X1 X2) as RX.
    assert (X0 : 0 < x) by nra.
    assert (XL : x < limit).
    { apply root_below; [lra|].
      apply Qlt_trans with (4 * square (lo * pw e')); [|lra].
      assert (x < 2 * (lo * pw e')) by nra. unfold square. nra. }
    assert (F : finite f).
    { destruct (rounded_finite_inv _ _ RX) as [F|[s EQ]]; [exact F|]. rewrite EQ in RX.
      inversion RX as [| |? LI _ _]. rewrite Qabs_pos in LI by lra. lra. }
    assert (F0 : 0 <= value f).
    { pose proof (rounded_near x f RX F (S754_zero false) I) as N. cbn [value] in N. revert N.
      fold f. set (w := value f).
      apply (Qabs_case (w - x)); apply (Qabs_case (0 - x)); intros; lra. }
    destruct (cell (lo * pw e') (hi * pw e') f ltac:(lra) F ALL) as [UP DOWN].
    apply root_other; [exact F|exact F0| |].
    + intros g G LT. pose proof (UP g G LT) as U.
      assert (0 <= hi * pw e') by nra.
      eapply Qlt_le_trans; [exact VH|]. unfold square. set (y := (value f + value g) / 2) in *. nra.
    + intros g G GP LT. pose proof (DOWN g G LT) as U.
      assert (0 <= (value f + value g) / 2).
      { apply Qle_shift_div_l; [reflexivity|]. lra. }
      eapply Qle_lt_trans; [|exact VL]. unfold square. set (y := (value f + value g) / 2) in *. nra.
Qed.

Lemma square_inj a b : 0 <= a -> 0 <= b -> square a == square b -> a == b.
Proof.
  unfold square. intros A B E.
  destruct (Q_dec a b) as [[L|L]|L]; [exfalso|exfalso|exact L]; nra.
Qed.

(** The root of the square of a float is that float. *)
Theorem root_of_square q f g : finite g -> 0 <= value g -> square (value g) == q ->
  root_rounded q f -> finite f /\ value f == value g.
Proof.
  intros G G0 E R. destruct R as [x X0 X R|F F0 UP DOWN].
  - assert (XG : x == value g) by (apply square_inj; [exact X0|exact G0|now rewrite X, E]).
    pose proof (rounded_eq _ _ f XG R) as RG.
    destruct (rounded_finite_inv _ _ RG) as [F|[s ->]].
    + split; [exact F|]. pose proof (rounded_near _ _ RG F g G) as N.
      setoid_replace (value g - value g) with 0 in N by ring. change (Qabs 0) with 0 in N.
      revert N. apply (Qabs_case (value f - value g)); intros; lra.
    + exfalso. inversion RG as [| |? LI _ _].
      rewrite Qabs_pos in LI by exact G0. clear RG XG E.
      destruct g as [t|t| |t m e]; [|destruct G|destruct G|].
      * change (value (S754_zero t)) with 0 in LI. pose proof limit_pos. lra.
      * pose proof (finite_rounded _ G) as FR. inversion FR as [|? ? ? _ BL _ _|].
        rewrite Qabs_pos in BL by exact G0. lra.
  - split; [exact F|]. destruct (Q_dec (value f) (value g)) as [[L|L]|L]; [exfalso|exfalso|exact L].
    + pose proof (UP g G L) as U. rewrite <- E in U. unfold square in U.
      setoid_replace ((value f + value g) / 2) with ((1 # 2) * (value f + value g)) in U by field. nra.
    + pose proof (DOWN g G G0 L) as U. rewrite <- E in U. unfold square in U.
      setoid_replace ((value f + value g) / 2) with ((1 # 2) * (value f + value g)) in U by field. nra.
Qed.

(** ** Squares of whole numbers *)

Lemma dyadic_float t j : (0 < t < 2 ^ 53)%Z -> (0 <= j <= 900)%Z ->
  exists g, finite g /\ value g == inject_Z t * pw j.
Proof.
  intros T J. pose proof (digits_range t ltac:(lia)) as R. pose proof (digits_pos t ltac:(lia)) as P.
  set (d := Zdigits2 t) in *.
  assert (D : (d <= 53)%Z).
  { assert (2 ^ (d - 1) < 2 ^ 53)%Z by lia. apply Z.pow_lt_mono_r_iff in H; lia. }
  assert (B : (2 ^ 52 <= t * 2 ^ (53 - d) < 2 ^ 53)%Z).
  { assert (0 < 2 ^ (53 - d))%Z by (apply Z.pow_pos_nonneg; lia).
    replace (2 ^ 52)%Z with (2 ^ (d - 1) * 2 ^ (53 - d))%Z by (rewrite <- Z.pow_add_r by lia; f_equal; lia).
    replace (2 ^ 53)%Z with (2 ^ d * 2 ^ (53 - d))%Z by (rewrite <- Z.pow_add_r by lia; f_equal; lia).
    split; [apply Z.mul_le_mono_nonneg_r|apply Z.mul_lt_mono_pos_r]; lia. }
  destruct (t * 2 ^ (53 - d))%Z as [|m|m] eqn:E; [lia| |lia].
  exists (S754_finite false m (j - (53 - d))). split.
  - cbn [finite]. left. lia.
  - cbn [value]. fold (pw (j - (53 - d))). rewrite <- E, inject_Z_mult, <- pw_Z by lia.
    replace j with (53 - d + (j - (53 - d)))%Z at 2 by lia. rewrite pw_plus. ring.
Qed.

Lemma near_square N k : (0 <= k < 100)%Z -> (2 ^ (2 * k) <= N < 2 ^ (2 * k + 2))%Z ->
  exists g, finite g /\ Qabs (value g - inject_Z N) <= pw (2 * k - 52).
Proof.
  intros K R. assert (0 < 2 ^ (2 * k))%Z by (apply Z.pow_pos_nonneg; lia).
  destruct (Z_lt_le_dec N (2 ^ 53)) as [C|C].
  - destruct (dyadic_float N 0 ltac:(lia) ltac:(lia)) as (g & G & V). exists g. split; [exact G|].
    rewrite V, pw_0. setoid_replace (inject_Z N * 1 - inject_Z N) with 0 by ring.
    apply Qlt_le_weak, pw_pos.
  - assert (K2 : (0 <= 2 * k - 52)%Z).
    { assert (X : (2 ^ 53 < 2 ^ (2 * k + 2))%Z) by lia. apply Z.pow_lt_mono_r_iff in X; lia. }
    set (h := (2 ^ (2 * k - 52))%Z). assert (H0 : (0 < h)%Z) by (apply Z.pow_pos_nonneg; lia).
    set (t := ((N + h) / (2 * h))%Z).
    pose proof (Z.div_mod (N + h) (2 * h) ltac:(lia)) as DM.
    pose proof (Z.mod_pos_bound (N + h) (2 * h) ltac:(lia)) as MB. fold t in DM.
    assert (TH : (2 ^ (2 * k + 2) = 2 ^ 53 * (2 * h))%Z).
    { unfold h. rewrite <- (Z.pow_succ_r 2 (2 * k - 52)), <- Z.pow_add_r by lia. f_equal. lia. }
    assert (HN : (h <= 2 ^ (2 * k))%Z) by (apply Z.pow_le_mono_r; lia).
    assert (T0 : (0 < t)%Z) by nia. assert (T1 : (t <= 2 ^ 53)%Z) by nia.
    assert (HP : inject_Z h == pw (2 * k - 52)) by (unfold h; now rewrite pw_Z by lia).
    assert (HP2 : pw (2 * k - 51) == 2 * inject_Z h).
    { replace (2 * k - 51)%Z with (1 + (2 * k - 52))%Z by lia. rewrite pw_plus, HP, pw_1. reflexivity. }
    assert (X : exists g, finite g /\ value g == inject_Z t * pw (2 * k - 51)).
    { destruct (Z.eq_dec t (2 ^ 53)) as [->|NE]; [|apply dyadic_float; lia].
      destruct (dyadic_float (2 ^ 52) (2 * k - 50) ltac:(lia) ltac:(lia)) as (g & G & V).
      exists g. split; [exact G|]. rewrite V.
      replace (2 * k - 50)%Z with (1 + (2 * k - 51))%Z by lia. rewrite pw_plus, pw_1.
      change (2 ^ 53)%Z with (2 ^ 52 * 2)%Z. rewrite (inject_Z_mult (2 ^ 52) 2). change (inject_Z 2) with 2. ring. }
    destruct X as (g & G & V). exists g. split; [exact G|]. rewrite V, HP2, <- HP.
    setoid_replace (inject_Z t * (2 * inject_Z h) - inject_Z N) with (inject_Z (t * (2 * h) - N)).
    2: { unfold Zminus. rewrite inject_Z_plus, inject_Z_opp, !inject_Z_mult. change (inject_Z 2) with 2. ring. }
    apply Qabs_Qle_condition. rewrite <- inject_Z_opp. split; apply inj_le; nia.
Qed.

Lemma grid g k : finite g -> (0 <= k <= 52)%Z -> pw k <= value g ->
  exists z, value g == inject_Z z * pw (k - 52).
Proof.
  intros G K L. destruct g as [s|s| |s m e]; [|destruct G|destruct G|].
  - pose proof (pw_pos k). change (value (S754_zero s)) with 0 in L. lra.
  - assert (F := G).
    cbn [value] in L. fold (pw e) in L.
    assert (E : (k - 52 <= e)%Z).
    { apply Z.le_ngt. intros C. assert (M : (Zpos m < 2 ^ 53)%Z) by (cbn in F; lia).
      assert (inject_Z (Zpos m) * pw e < pw k).
      { apply Qlt_le_trans with (inject_Z (2 ^ 53) * pw e).
        - apply Qmult_lt_compat_r; [apply pw_pos|now apply inj_lt].
        - rewrite <- pw_Z by lia. rewrite <- pw_plus. apply pw_mono. lia. }
      assert (inject_Z (if s then Zneg m else Zpos m) <= inject_Z (Zpos m)) by (apply inj_le; destruct s; lia).
      pose proof (pw_pos e). nra. }
    eexists. cbn [value]. fold (pw e). rewrite (pw_split (k - 52) e E), Qmult_assoc, <- inject_Z_mult. reflexivity.
Qed.

Lemma whole_grid n k : (0 <= k <= 52)%Z -> inject_Z n == inject_Z (n * 2 ^ (52 - k)) * pw (k - 52).
Proof.
  intros K. rewrite inject_Z_mult, <- pw_Z by lia.
  rewrite <- Qmult_assoc, pw_inv by lia. ring.
Qed.

(** The root is at the right side of each middle. *)
Lemma root_middle q f g : root_rounded q f -> finite f -> finite g -> 0 <= value f -> 0 <= value g ->
  (value f < value g -> q <= square ((1 # 2) * (value f + value g)))
  /\ (value g < value f -> square ((1 # 2) * (value f + value g)) <= q).
Proof.
  intros R F G F0 G0.
  assert (HALF : (value f + value g) / 2 == (1 # 2) * (value f + value g)) by field.
  destruct R as [x X0 X R|_ _ UP DOWN].
  - pose proof (rounded_near x f R F g G) as N. rewrite <- X. unfold square.
    split; intros L; revert N; apply (Qabs_case (value f - x)); apply (Qabs_case (value g - x)); intros; nra.
  - split; intros L.
    + pose proof (UP g G L) as U. unfold square in *. rewrite HALF in U. lra.
    + pose proof (DOWN g G G0 L) as U. unfold square in *. rewrite HALF in U. lra.
Qed.

Lemma log_whole n : (0 < n < 2 ^ 32)%Z -> exists k, (0 <= k < 32 /\ 2 ^ k <= n < 2 ^ (k + 1))%Z.
Proof.
  intros N. exists (Z.log2 n). pose proof (Z.log2_spec n ltac:(lia)) as [A B].
  replace (Z.log2 n + 1)%Z with (Z.succ (Z.log2 n)) by lia. repeat split; try lia.
  - apply Z.log2_nonneg.
  - apply (Z.pow_lt_mono_r_iff 2); lia.
Qed.

(** Whatever the rounding of the square does, the root is the number. *)
Theorem root_of_whole n f : (0 < n < 2 ^ 32)%Z -> rounded (inject_Z (n * n)) f ->
  finite (SFsqrt 53 1024 f) /\ value (SFsqrt 53 1024 f) == inject_Z n.
Proof.
  intros N R. destruct (log_whole n N) as (k & K & K1 & K2).
  assert (P0 : (0 < 2 ^ k)%Z) by (apply Z.pow_pos_nonneg; lia).
  assert (KK : (2 ^ (k + 1) = 2 * 2 ^ k)%Z) by (rewrite Z.pow_add_r by lia; lia).
  assert (NN : (2 ^ (2 * k) <= n * n < 2 ^ (2 * k + 2))%Z).
  { replace (2 * k)%Z with (k + k)%Z at 1 by lia. rewrite (Z.pow_add_r 2 k k) by lia.
    replace (2 * k + 2)%Z with (k + 1 + (k + 1))%Z by lia. rewrite Z.pow_add_r by lia. nia. }
  destruct (near_square (n * n) k ltac:(lia) NN) as (h & FH & HN).
  assert (P2 : pw (2 * k - 52) == pw (k - 52) * pw k) by (rewrite <- pw_plus; now replace (2 * k - 52)%Z with (k - 52 + k)%Z by lia).
  assert (PK : pw k == inject_Z (2 ^ k)) by (apply pw_Z; lia).
  assert (QN : pw k <= inject_Z n) by (rewrite PK; now apply inj_le).
  pose proof (pw_pos k) as PK0. pose proof (pw_pos (k - 52)) as PE0.
  assert (SMALL : 2 * pw (k - 52) <= 1).
  { change 1 with (pw 0). rewrite <- pw_1, <- pw_plus. apply pw_mono. lia. }
  assert (FF : finite f).
  { destruct (rounded_finite_inv _ _ R) as [F|[s ->]]; [exact F|exfalso].
    inversion R as [| |? LI _ _]. revert LI. apply Qlt_not_le.
    assert (B : (2 ^ (2 * k + 2) <= 2 ^ 64)%Z) by (apply Z.pow_le_mono_r; lia).
    apply Qlt_le_trans with (inject_Z (2 ^ 64)); [|vm_compute; discriminate].
    rewrite Qabs_pos by (apply (inj_le 0); lia). apply inj_lt. lia. }
  pose proof (rounded_near _ _ R FF h FH) as FN.
  assert (V : Qabs (value f - inject_Z (n * n)) <= pw (k - 52) * pw k) by (rewrite <- P2; lra).
  apply Qabs_Qle_condition in V. rewrite inject_Z_mult in V.
  assert (V0 : 0 < value f).
  { assert (A1 : 1 <= inject_Z n) by (apply (inj_le 1); lia).
    assert (A2 : pw (k - 52) * pw k <= (1 # 2) * pw k) by (apply Qmult_le_compat_r; lra).
    assert (A3 : 1 * inject_Z n <= inject_Z n * inject_Z n) by (apply Qmult_le_compat_r; lra). lra. }
  destruct f as [s|s| |s m e]; [|destruct FF|destruct FF|]; [change (value (S754_zero s)) with 0 in V0; lra|].
  destruct s.
  { exfalso. cbn [value] in V0. pose proof (pw_pos e) as PE. fold (pw e) in V0.
    assert (inject_Z (Zneg m) < 0) by (apply (inj_lt _ 0); lia). nra. }
  pose proof (sqrt_rounded m e FF) as SR. set (v := value (S754_finite false m e)) in *.
  destruct (dyadic_float n 0 ltac:(lia) ltac:(lia)) as (nf & NF & NV).
  rewrite pw_0, Qmult_1_r in NV.
  set (g := SFsqrt 53 1024 (S754_finite false m e)) in *.
  destruct (Z.eq_dec n (2 ^ k)) as [EN|EN].
  - (* a power of two *)
    assert (VE : v == square (value nf)).
    { unfold square. rewrite NV. rewrite <- inject_Z_mult.
      assert (X : exists h2, finite h2 /\ value h2 == inject_Z (n * n)).
      { destruct (dyadic_float 1 (2 * k) ltac:(lia) ltac:(lia)) as (h2 & H2 & W). exists h2. split; [exact H2|].
        rewrite W, EN, inject_Z_mult, <- PK. change (inject_Z 1) with 1.
        replace (2 * k)%Z with (k + k)%Z by lia. rewrite pw_plus. ring. }
      destruct X as (h2 & H2 & W). pose proof (rounded_near _ _ R FF h2 H2) as Q. fold v in Q.
      rewrite W in Q. setoid_replace (inject_Z (n * n) - inject_Z (n * n)) with 0 in Q by ring.
      change (Qabs 0) with 0 in Q. revert Q. apply (Qabs_case (v - inject_Z (n * n))); intros; lra. }
    rewrite <- NV. apply (root_of_square v g nf NF); [rewrite NV; lra|now symmetry|exact SR].
  - assert (N1 : (2 ^ k + 1 <= n)%Z) by lia.
    assert (Q1 : pw k + 1 <= inject_Z n).
    { rewrite PK. change 1 with (inject_Z 1). rewrite <- inject_Z_plus. now apply inj_le. }
    assert (GF : finite g /\ 0 <= value g).
    { destruct SR as [x X0 X RX|G G0 _ _]; [|now split].
      assert (XL : x < limit).
      { apply root_below; [exact X0|]. rewrite X. pose proof (value_below m e FF). fold v in H. pose proof (pw_pos 1024). lra. }
      assert (G : finite g).
      { destruct (rounded_finite_inv _ _ RX) as [F|[s EQ]]; [exact F|]. rewrite EQ in RX.
        inversion RX as [| |? LI _ _]. rewrite Qabs_pos in LI by lra. lra. }
      split; [exact G|]. pose proof (rounded_near x g RX G (S754_zero false) I) as Z0.
      change (value (S754_zero false)) with 0 in Z0. revert Z0. set (w := value g).
      apply (Qabs_case (w - x)); apply (Qabs_case (0 - x)); intros; lra. }
    destruct GF as [G G0]. split; [exact G|].
    destruct (root_middle v g nf SR G NF G0 ltac:(rewrite NV; lra)) as [UP DOWN].
    unfold square in UP, DOWN. rewrite NV in UP, DOWN. set (w := value g) in *. set (x := inject_Z n) in *.
    assert (WG : pw k <= w -> exists z, w - x == inject_Z z * pw (k - 52)).
    { intros L. destruct (grid g k G ltac:(lia) L) as (z & Z). fold w in Z.
      exists (z - n * 2 ^ (52 - k))%Z. unfold x. rewrite Z, (whole_grid n k) by lia.
      unfold Zminus. rewrite inject_Z_plus, inject_Z_opp. ring. }
    destruct (Q_dec w x) as [[L|L]|L]; [exfalso|exfalso|exact L].
    + specialize (UP L).
      assert (W : w <= x - pw (k - 52)).
      { destruct (Qlt_le_dec w (pw k)) as [C|C]; [lra|]. destruct (WG C) as (z & Z).
        assert (inject_Z z <= -1).
        { change (-1) with (inject_Z (-1)). apply inj_le. enough (z < 0)%Z by lia. apply inj_lt.
          change (inject_Z 0) with 0. apply Qnot_le_lt. intros ZP. nra. }
        nra. }
      set (u := pw (k - 52)) in *. set (y := (1 # 2) * (w + x)) in *.
      assert (Y0 : 0 <= y) by (unfold y; lra). assert (Y1 : y <= x - (1 # 2) * u) by (unfold y; lra).
      assert (Y2 : y * y <= (x - (1 # 2) * u) * (x - (1 # 2) * u)) by nra.
      nra.
    + specialize (DOWN L). destruct (WG ltac:(lra)) as (z & Z).
      assert (1 <= inject_Z z).
      { change 1 with (inject_Z 1). apply inj_le. enough (0 < z)%Z by lia. apply inj_lt.
        change (inject_Z 0) with 0. apply Qnot_le_lt. intros ZP. nra. }
      set (u := pw (k - 52)) in *. assert (W : x + u <= w) by nra.
      set (y := (1 # 2) * (w + x)) in *. assert (Y1 : x + (1 # 2) * u <= y) by (unfold y; lra).
      assert (Y2 : (x + (1 # 2) * u) * (x + (1 # 2) * u) <= y * y) by nra.
      nra.
Qed.
