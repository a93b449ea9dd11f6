(** C102: floats that are printed and read again. *)

From Coq Require Import String ZArith QArith Qabs Qpower List Lia Lqa SpecFloat.
From Verif Require Import Base Syntax Host Ops ErrorFmt Text Tokenizer Parser Monad Builtins Eval EvalSpec
  LibFacts LibSpec MapFacts EvalFacts CmdFacts TextFacts TokFacts WordFacts LexFacts OpsSpec OpsFacts P_Ops P_Literal
  FloatSpec FloatFacts FloatOpSpec P_Float FloatFmt Init Demo.
Import ListNotations.
Open Scope Q_scope.

(** ** Powers of ten *)

Lemma ten_neq : ~ 10 == 0.
Proof. discriminate. Qed.

Lemma ten_Z k : (0 <= k)%Z -> Qpower 10 k == inject_Z (10 ^ k).
Proof. intros K. change 10 with (inject_Z 10). now rewrite Zpower_Qpower. Qed.

Lemma ten_neg k : (k < 0)%Z -> Qpower 10 k == / inject_Z (10 ^ (- k)).
Proof.
  intros K. rewrite <- ten_Z by lia. replace k with (- (- k))%Z at 1 by lia. now rewrite Qpower_opp.
Qed.

Lemma ten_pos k : 0 < Qpower 10 k.
Proof.
  destruct (Z.lt_ge_cases k 0).
  - rewrite ten_neg by lia. apply Qinv_lt_0_compat. apply (inj_lt 0), Z.pow_pos_nonneg; lia.
  - rewrite ten_Z by lia. apply (inj_lt 0), Z.pow_pos_nonneg; lia.
Qed.

Lemma ten_plus a b : Qpower 10 (a + b) == Qpower 10 a * Qpower 10 b.
Proof. apply Qpower_plus, ten_neq. Qed.

Lemma nearest_rounded d k : (0 <= d)%Z -> rounded (inject_Z d * Qpower 10 k) (f64_nearest d k).
Proof.
  intros D. unfold f64_nearest. destruct (Z.leb_spec 0 k) as [K|K].
  - eapply rounded_eq; [|apply of_decimal_rounded; [|lia]].
    + rewrite ten_Z by lia. rewrite inject_Z_mult. change (inject_Z (10 ^ 0)) with 1. field.
    + apply Z.mul_nonneg_nonneg; [lia|]. apply Z.pow_nonneg. lia.
  - eapply rounded_eq; [|apply of_decimal_rounded; [lia|lia]].
    rewrite ten_neg by lia. unfold Qdiv. ring.
Qed.

(** ** Numbers between two that are rounded to the same float *)

Lemma nearer_between a b p q r :
  p <= q -> q <= r -> Qabs (a - p) <= Qabs (b - p) -> Qabs (a - r) <= Qabs (b - r) ->
  Qabs (a - q) <= Qabs (b - q).
Proof.
  intros L1 L2. apply (Qabs_case (a - p)); apply (Qabs_case (b - p)); apply (Qabs_case (a - r)); apply (Qabs_case (b - r));
  apply (Qabs_case (a - q)); apply (Qabs_case (b - q)); intros; lra.
Qed.

Lemma equally_between a b p q r :
  p <= q -> q <= r -> Qabs (a - p) <= Qabs (b - p) -> Qabs (a - r) <= Qabs (b - r) -> ~ b == a ->
  Qabs (b - q) == Qabs (a - q) -> Qabs (b - p) == Qabs (a - p) \/ Qabs (b - r) == Qabs (a - r).
Proof.
  intros L1 L2 A B NE E.
  assert (M : b + a == 2 * q).
  { revert E. apply (Qabs_case (b - q)); apply (Qabs_case (a - q)); intros; lra. }
  destruct (Q_dec a b) as [[L|L]|E']; [| |exfalso; apply NE; now symmetry].
  - right. revert B. apply (Qabs_case (a - r)); apply (Qabs_case (b - r)); intros; lra.
  - left. revert A. apply (Qabs_case (a - p)); apply (Qabs_case (b - p)); intros; lra.
Qed.

Lemma rounded_between p q r m e :
  0 <= p -> p <= q -> q <= r -> rounded p (S754_finite false m e) -> rounded r (S754_finite false m e) ->
  rounded q (S754_finite false m e).
Proof.
  intros P0 L1 L2 A B. inversion A as [|? ? ? F LA NA TA|]; inversion B as [|? ? ? _ LB NB TB|]; subst.
  constructor; [exact F| | |].
  - rewrite Qabs_pos in LB by lra. rewrite Qabs_pos by lra. lra.
  - intros g G. apply (nearer_between _ _ p q r); auto.
  - intros g G NE E. destruct (equally_between _ _ p q r L1 L2 (NA g G) (NB g G) NE E) as [X|X];
      [exact (TA g G NE X)|exact (TB g G NE X)].
Qed.

(** ** The neighbours of a float among the multiples of a power of ten *)

Lemma is_float_true m e f : is_float m e f = true <-> f = S754_finite false m e.
Proof.
  split.
  - destruct f as [| | |[] m' e']; try discriminate. cbn. intros E. apply andb_prop in E as [A B].
    apply Pos.eqb_eq in A. apply Z.eqb_eq in B. congruence.
  - intros ->. cbn. now rewrite Pos.eqb_refl, Z.eqb_refl.
Qed.

Definition below (m : positive) (e k : Z) : Z :=
  Zpos m * 2 ^ Z.max e 0 * 10 ^ Z.max (- k) 0 / (2 ^ Z.max (- e) 0 * 10 ^ Z.max k 0).

Lemma max_split (b : Q) (z : Z) (e : Z) : ~ inject_Z z == 0 -> b = inject_Z z ->
  Qpower b e == inject_Z (z ^ Z.max e 0) / inject_Z (z ^ Z.max (- e) 0).
Proof.
  intros NE ->. destruct (Z.lt_ge_cases e 0) as [L|L].
  - rewrite (Z.max_r e 0), (Z.max_l (- e) 0) by lia. change (z ^ 0)%Z with 1%Z.
    rewrite Zpower_Qpower by lia. replace e with (- (- e))%Z at 1 by lia. rewrite Qpower_opp.
    unfold Qdiv. change (inject_Z 1) with 1. ring.
  - rewrite (Z.max_l e 0), (Z.max_r (- e) 0) by lia. change (z ^ 0)%Z with 1%Z.
    rewrite Zpower_Qpower by lia. change (inject_Z 1) with 1. field.
Qed.

Lemma fraction m e k :
  let num := (Zpos m * 2 ^ Z.max e 0 * 10 ^ Z.max (- k) 0)%Z in
  let den := (2 ^ Z.max (- e) 0 * 10 ^ Z.max k 0)%Z in
  (0 < num)%Z /\ (0 < den)%Z /\ value (S754_finite false m e) * inject_Z den == inject_Z num * Qpower 10 k.
Proof.
  intros num den.
  assert (P : forall a b, (0 < a -> 0 < a ^ Z.max b 0)%Z) by (intros; apply Z.pow_pos_nonneg; lia).
  pose proof (P 2 e eq_refl)%Z. pose proof (P 2 (- e) eq_refl)%Z. pose proof (P 10 k eq_refl)%Z.
  pose proof (P 10 (- k) eq_refl)%Z.
  split; [subst num; nia|]. split; [subst den; nia|].
  rewrite value_sign. unfold pw. subst num den. rewrite !inject_Z_mult.
  rewrite (max_split 2 2 e), (max_split 10 10 k); try reflexivity; try discriminate.
  field.
  split; intros X; apply (proj1 (inj_eq _ 0)) in X; rewrite X in *; discriminate.
Qed.

Lemma below_bounds m e k :
  (0 <= below m e k)%Z /\ inject_Z (below m e k) * Qpower 10 k <= value (S754_finite false m e)
  /\ value (S754_finite false m e) < inject_Z (below m e k + 1) * Qpower 10 k.
Proof.
  unfold below. destruct (fraction m e k) as (N & D & E). cbv zeta in E. set (num := (_ * _ * _)%Z) in *.
  set (den := (_ * 10 ^ Z.max k 0)%Z) in *. clearbody num den. pose proof (Z.div_pos num den ltac:(lia) D).
  pose proof (Z.mul_div_le num den D). pose proof (Z.mul_succ_div_gt num den D). pose proof (ten_pos k) as T.
  assert (D' : 0 < inject_Z den) by (now apply (inj_lt 0)).
  set (v := value _) in *. set (t := Qpower 10 k) in *. set (q := (num / den)%Z) in *.
  assert (A : inject_Z den * inject_Z q <= inject_Z num) by (rewrite <- inject_Z_mult; now apply inj_le).
  assert (B : inject_Z num < inject_Z den * inject_Z (q + 1)) by (rewrite <- inject_Z_mult; apply inj_lt; lia).
  split; [lia|]. clearbody v t q. set (x := inject_Z q) in *. set (y := inject_Z (q + 1)) in *.
  set (n := inject_Z num) in *. set (d := inject_Z den) in *. clearbody x y n d.
  split.
  - apply (Qmult_le_r _ _ d D'). rewrite E. setoid_replace (x * t * d) with (d * x * t) by ring.
    apply Qmult_le_compat_r; lra.
  - apply (Qmult_lt_r _ _ d D'). rewrite E. setoid_replace (y * t * d) with (d * y * t) by ring.
    now apply Qmult_lt_r.
Qed.

Lemma digits_at_sound m e k d : digits_at m e k = Some d -> (0 <= d)%Z /\ f64_nearest d k = S754_finite false m e.
Proof.
  unfold digits_at. cbv zeta. fold (below m e k). destruct (below_bounds m e k) as (B & _).
  destruct (is_float m e (f64_nearest (below m e k) k)) eqn:X, (is_float m e (f64_nearest (below m e k + 1) k)) eqn:Y;
    cbn [andb]; try discriminate; try apply is_float_true in X; try apply is_float_true in Y.
  - destruct (_ <=? _)%Z; intros [= <-]; (split; [lia|assumption]).
  - intros [= <-]. split; [lia|assumption].
  - intros [= <-]. split; [lia|assumption].
Qed.

Lemma digits_at_none m e k : digits_at m e k = None ->
  f64_nearest (below m e k) k <> S754_finite false m e /\ f64_nearest (below m e k + 1) k <> S754_finite false m e.
Proof.
  unfold digits_at. cbv zeta. fold (below m e k).
  destruct (is_float m e (f64_nearest (below m e k) k)) eqn:X, (is_float m e (f64_nearest (below m e k + 1) k)) eqn:Y;
    cbn [andb]; try discriminate. intros _. split; intros Z; apply is_float_true in Z; congruence.
Qed.

(** The number that is printed depends on what [f64_nearest] says of a
    neighbour only. *)
Lemma nearest_unique d k m e : (0 <= d)%Z -> rounded (inject_Z d * Qpower 10 k) (S754_finite false m e) ->
  f64_nearest d k = S754_finite false m e.
Proof.
  intros D R. destruct (rounded_unique _ _ _ (nearest_rounded d k D) R) as [E|Z]; [exact E|].
  exfalso. apply (zero_and_pos 0 false m e); [apply zero_rounded|]. now apply (rounded_eq (inject_Z d * Qpower 10 k)).
Qed.

(** If any multiple of the power of ten is rounded to the float, one of the
    neighbours is. *)
Lemma digits_at_complete m e k d : finite (S754_finite false m e) -> (0 <= d)%Z ->
  f64_nearest d k = S754_finite false m e -> digits_at m e k <> None.
Proof.
  intros F D E N. apply digits_at_none in N as [N1 N2]. destruct (below_bounds m e k) as (B0 & B1 & B2).
  pose proof (nearest_rounded d k D) as R. rewrite E in R. pose proof (finite_rounded _ F) as V.
  pose proof (ten_pos k) as T.
  assert (P : forall a b, (a <= b)%Z -> inject_Z a * Qpower 10 k <= inject_Z b * Qpower 10 k).
  { intros a b L. apply Qmult_le_compat_r; [now apply inj_le|lra]. }
  assert (Z0 : forall a, (0 <= a)%Z -> 0 <= inject_Z a * Qpower 10 k).
  { intros a A. apply Qmult_le_0_compat; [now apply (inj_le 0)|lra]. }
  destruct (Z.le_gt_cases d (below m e k)) as [L|L].
  - apply N1. apply nearest_unique; [exact B0|]. 
    apply (rounded_between (inject_Z d * Qpower 10 k) _ (value (S754_finite false m e))); auto.
  - apply N2. apply nearest_unique; [lia|]. 
    apply (rounded_between (value (S754_finite false m e)) _ (inject_Z d * Qpower 10 k)); auto.
    + pose proof (value_pos m e). lra.
    + lra.
    + apply P. lia.
Qed.

Lemma digits_at_exact m e k : finite (S754_finite false m e) ->
  (exists d, (0 <= d)%Z /\ value (S754_finite false m e) == inject_Z d * Qpower 10 k) -> digits_at m e k <> None.
Proof.
  intros F (d & D & E). apply (digits_at_complete m e k d F D). apply nearest_unique; [exact D|].
  apply (rounded_eq (value (S754_finite false m e))); [exact E|now apply finite_rounded].
Qed.

(** ** The search for an exponent *)

Lemma shortest_found n m e : forall k j, (k - Z.of_nat n < j <= k)%Z -> digits_at m e j <> None ->
  exists d i, shortest n m e k = (d, i) /\ digits_at m e i = Some d /\ (j <= i)%Z.
Proof.
  induction n as [|n IH]; intros k j R N; [lia|]. cbn [shortest].
  destruct (digits_at m e k) as [d|] eqn:E; [exists d, k; repeat split; auto; lia|].
  apply IH; [|exact N]. assert (j <> k) by congruence. lia.
Qed.

Lemma half_five a : pw (- a) == Qpower 5 a * Qpower 10 (- a).
Proof.
  change 10 with (2 * 5). rewrite Qmult_power. unfold pw.
  setoid_replace (Qpower 5 a * (Qpower 2 (- a) * Qpower 5 (- a))) with (Qpower 2 (- a) * (Qpower 5 a * Qpower 5 (- a))) by ring.
  rewrite <- Qpower_plus by discriminate. replace (a + - a)%Z with 0%Z by lia. cbn [Qpower]. ring.
Qed.

Lemma exact_somewhere m e a : (0 <= a)%Z -> (- a <= e)%Z ->
  exists d, (0 <= d)%Z /\ value (S754_finite false m e) == inject_Z d * Qpower 10 (- a).
Proof.
  intros A E. exists (Zpos m * 2 ^ (e - - a) * 5 ^ a)%Z.
  assert (0 < 2 ^ (e - - a))%Z by (apply Z.pow_pos_nonneg; lia).
  assert (0 < 5 ^ a)%Z by (apply Z.pow_pos_nonneg; lia).
  split; [nia|]. rewrite value_sign, (pw_split (- a) e E), half_five, !inject_Z_mult.
  change 5 with (inject_Z 5). rewrite (Zpower_Qpower 5 a) by lia.
  cbv iota. ring.
Qed.

Definition LEAST : Z := 1074.
Definition GREATEST : Z := 309.

Lemma too_great k : (GREATEST < k)%Z -> limit <= Qpower 10 k.
Proof.
  intros K. rewrite ten_Z by (unfold GREATEST in K; lia). apply inj_le.
  apply Z.le_trans with (10 ^ GREATEST)%Z; [vm_compute; discriminate|].
  apply Z.pow_le_mono_r; lia.
Qed.

Lemma exponent_bound d k m e : (0 <= d)%Z -> f64_nearest d k = S754_finite false m e -> (k <= GREATEST)%Z.
Proof.
  intros D E. pose proof (nearest_rounded d k D) as R. rewrite E in R.
  destruct (Z.le_gt_cases k GREATEST) as [L|L]; [exact L|exfalso].
  destruct (Z.eq_dec d 0) as [->|N].
  { apply (zero_and_pos 0 false m e); [apply zero_rounded|]. eapply rounded_eq; [|exact R]. change (inject_Z 0) with 0. ring. }
  inversion R as [|? ? ? _ LA _ _|]; subst. pose proof (too_great k L) as T. pose proof limit_pos.
  assert (1 <= inject_Z d) by (apply (inj_le 1); lia).
  assert (limit <= inject_Z d * Qpower 10 k) by nra.
  rewrite Qabs_pos in LA by lra. lra.
Qed.

(** The decimal number that is printed for a float: it is rounded to this
    float, and no number with a greater exponent is. *)
Lemma display_chosen s m e : finite (S754_finite false m e) ->
  exists d k, f64_display (S754_finite s m e) = minus s (plain d k) /\ (0 <= d)%Z
    /\ f64_nearest d k = S754_finite false m e
    /\ forall d' k', (0 <= d')%Z -> f64_nearest d' k' = S754_finite false m e -> (k' <= k)%Z.
Proof.
  intros F. unfold f64_display. change 309%Z with GREATEST. change (Z.to_nat 1384) with (Z.to_nat (LEAST + GREATEST + 1)).
  assert (X : digits_at m e (- LEAST) <> None).
  { apply digits_at_exact; [exact F|]. apply exact_somewhere; unfold LEAST; [lia|].
    destruct (finite_digits false m e F). lia. }
  assert (R : forall j, (- LEAST <= j <= GREATEST)%Z -> (GREATEST - Z.of_nat (Z.to_nat (LEAST + GREATEST + 1)) < j <= GREATEST)%Z).
  { intros j J. rewrite Z2Nat.id by (unfold LEAST, GREATEST; lia). lia. }
  destruct (shortest_found (Z.to_nat (LEAST + GREATEST + 1)) m e GREATEST (- LEAST)) as (d & k & E & A & L);
    [apply R; unfold LEAST, GREATEST; lia|exact X|].
  rewrite E. exists d, k. destruct (digits_at_sound _ _ _ _ A) as [D N]. repeat split; auto.
  intros d' k' D' N'. destruct (Z.le_gt_cases (- LEAST) k') as [G|G]; [|lia].
  assert (k' <= GREATEST)%Z by (eapply exponent_bound; eassumption).
  destruct (shortest_found (Z.to_nat (LEAST + GREATEST + 1)) m e GREATEST k') as (d1 & k1 & E1 & _ & L1);
    [apply R; lia|now apply (digits_at_complete m e k' d')|].
  rewrite E in E1. injection E1 as -> ->. exact L1.
Qed.

(** ** The text of a decimal number *)

Lemma decimal_app a b : decimal (a ++ b) = (decimal a * 10 ^ Z.of_nat (length b) + decimal b)%Z.
Proof.
  induction a as [|c a IH]; [cbn; lia|]. cbn [List.app decimal]. rewrite IH, app_length, Nat2Z.inj_add, Z.pow_add_r by lia. ring.
Qed.

Lemma decimal_zeros n : decimal (repeat 48%N n) = 0%Z.
Proof. induction n as [|n IH]; [reflexivity|]. cbn [repeat decimal]. rewrite IH. lia. Qed.

Lemma digits_zeros n : digits (repeat 48%N n).
Proof. induction n; constructor; auto. Qed.

Lemma z_str_digits n : (0 <= n)%Z ->
  digits (z_str n) /\ z_str n <> [] /\ (hd 0%N (z_str n) = 48%N -> z_str n = [48%N]) /\ decimal (z_str n) = n.
Proof.
  intros N. unfold z_str. destruct (Z.ltb_spec n 0); [lia|]. destruct (n_str_numeral (Z.to_N n)) as (A & B & C).
  repeat split; auto. rewrite n_str_value. lia.
Qed.

Lemma z_str_length n (j : nat) : (0 <= n < 10 ^ Z.of_nat j)%Z -> (1 <= j)%nat -> (length (z_str n) <= j)%nat.
Proof.
  intros [N L] J. destruct (z_str_digits n N) as (D & NE & Z & V).
  destruct (z_str n) as [|c r]; [congruence|]. destruct (N.eq_dec c 48) as [->|C].
  - rewrite (Z eq_refl). exact J.
  - cbn [decimal] in V. apply Forall_cons_iff in D as [C' D'].
    pose proof (decimal_nonneg r D') as P.
    assert (48 <= c)%N by (apply andb_prop in C' as [C' _]; now apply N.leb_le in C').
    destruct (le_lt_dec (length (c :: r)) j) as [K|K]; [exact K|exfalso]. cbn [length] in K.
    assert (10 ^ Z.of_nat j <= 10 ^ Z.of_nat (length r))%Z by (apply Z.pow_le_mono_r; lia).
    unfold chr in *. nia.
Qed.

Lemma plain_point d (j : nat) : (0 <= d)%Z -> (1 <= j)%nat ->
  exists a b, plain d (- Z.of_nat j) = a ++ lit "." ++ b /\ digits a /\ a <> [] /\ (hd 0%N a = 48%N -> a = [48%N])
    /\ digits b /\ b <> [] /\ length b = j /\ decimal (a ++ b) = d.
Proof.
  intros D J. unfold plain. destruct (Z.leb_spec 0 (- Z.of_nat j)); [lia|]. rewrite Z.opp_involutive.
  assert (T : (0 < 10 ^ Z.of_nat j)%Z) by (apply Z.pow_pos_nonneg; lia).
  pose proof (Z.div_pos d _ D T) as Q. pose proof (Z.mod_pos_bound d _ T) as M.
  destruct (z_str_digits _ Q) as (A1 & A2 & A3 & A4). destruct (z_str_digits (d mod 10 ^ Z.of_nat j) (proj1 M)) as (B1 & B2 & _ & B4).
  pose proof (z_str_length _ j M J) as B5. rewrite Nat2Z.id.
  eexists _, _. split; [reflexivity|]. repeat split; auto.
  - apply Forall_app. split; [apply digits_zeros|exact B1].
  - intros X. apply app_eq_nil in X as [_ X]. congruence.
  - rewrite app_length, repeat_length. apply Nat.sub_add, B5.
  - rewrite !decimal_app, decimal_zeros, A4, B4, !app_length, repeat_length.
    replace (_ + _)%nat with j by (symmetry; apply Nat.sub_add, B5).
    pose proof (Z.div_mod d (10 ^ Z.of_nat j) ltac:(lia)). lia.
Qed.

Lemma of_decimal_sign s d k : (0 <= d)%Z -> (0 <= k)%Z ->
  f64_of_decimal s d k = if s then SFopp (f64_of_decimal false d k) else f64_of_decimal false d k.
Proof.
  destruct s; [|reflexivity]. intros D K. destruct d as [|p|p]; [reflexivity| |lia]. unfold f64_of_decimal.
  destruct (k =? 0)%Z.
  - cbn [binary_normalize]. unfold binary_round. destruct (shl_align p 0 _) as [mz ez]. apply round_aux_sign.
  - assert (T : (0 < 10 ^ k)%Z) by (apply Z.pow_pos_nonneg; lia). destruct (10 ^ k)%Z; try lia.
    destruct (SFdiv_core_binary 53 1024 (Zpos p) 0 (Zpos p0) 0) as [[mz ez] lz]. apply round_aux_sign.
Qed.

Lemma parse_point neg d fr : digits d -> d <> [] -> (hd 0%N d = 48%N -> d = [48%N]) -> digits fr -> fr <> [] ->
  parse_script (minus neg (d ++ lit "." ++ fr))
  = SOk (EDo [EFloat (f64_of_decimal neg (decimal (d ++ fr)) (Z.of_nat (length fr)))]).
Proof.
  intros D Nd Z F Nf. apply (script_lexed _ [(TkFloatLiteral, minus neg (d ++ (46%N : chr) :: fr))]).
  - apply lexed_one; [destruct neg, d; discriminate |]. now apply lex_float.
  - reflexivity.
  - cbn [filter fst]. apply op_one. constructor. now apply parse_f64_digits.
Qed.

(** ** Whole numbers are rounded to whole numbers *)

Lemma of_int_exact n : (0 < n <= 2 ^ 53)%Z -> exists g, finite g /\ value g == inject_Z n.
Proof.
  intros R. pose proof (digits_range n ltac:(lia)) as D. pose proof (digits_pos n ltac:(lia)) as P.
  set (b := Zdigits2 n) in *.
  destruct (Z.eq_dec n (2 ^ 53)) as [->|NE].
  { exists (S754_finite false (2 ^ 52) 1). split; [left; split; [split; [discriminate|reflexivity]|lia]|]. reflexivity. }
  assert (B : (b <= 53)%Z).
  { destruct (Z.le_gt_cases b 53) as [L|L]; [exact L|]. assert (2 ^ 53 <= 2 ^ (b - 1))%Z by (apply Z.pow_le_mono_r; lia). lia. }
  destruct n as [|p|p]; try lia. clearbody b.
  assert (Q : (0 < Zpos p * 2 ^ (53 - b))%Z) by (apply Z.mul_pos_pos; [lia|apply Z.pow_pos_nonneg; lia]).
  destruct (Zpos p * 2 ^ (53 - b))%Z as [|m|m] eqn:M; try lia.
  exists (S754_finite false m (- (53 - b))). split.
  - left. rewrite <- M. assert (S1 : (2 ^ 52 = 2 ^ (b - 1) * 2 ^ (53 - b))%Z) by (rewrite <- Z.pow_add_r by lia; f_equal; lia).
    assert (S2 : (2 ^ 53 = 2 ^ b * 2 ^ (53 - b))%Z) by (rewrite <- Z.pow_add_r by lia; f_equal; lia).
    assert (0 < 2 ^ (53 - b))%Z by (apply Z.pow_pos_nonneg; lia). rewrite S1, S2. split; [|lia]. nia.
  - rewrite value_sign. rewrite <- M, inject_Z_mult, <- pw_Z by lia.
    assert (I : pw (53 - b) * pw (- (53 - b)) == 1) by (apply pw_inv; lia).
    setoid_replace (1 * (inject_Z (Zpos p) * pw (53 - b) * pw (- (53 - b)))) with (inject_Z (Zpos p) * (pw (53 - b) * pw (- (53 - b)))) by ring.
    rewrite I. ring.
Qed.

Lemma whole_rounded n m e : (0 <= n)%Z -> rounded (inject_Z n) (S754_finite false m e) ->
  value (S754_finite false m e) < inject_Z (2 ^ 53) -> value (S754_finite false m e) == inject_Z n.
Proof.
  intros N R L. inversion R as [|? ? ? F LA NA TA|]; subst. pose proof (value_pos m e) as P.
  set (v := value (S754_finite false m e)) in *. clearbody v. set (t := (2 ^ 53)%Z) in *.
  destruct (Z.eq_dec n 0) as [->|NE]; [exfalso; now apply (zero_and_pos 0 false m e); [apply zero_rounded|]|].
  destruct (Z.le_gt_cases n t) as [LE|GT].
  - destruct (of_int_exact n) as (g & G & V); [lia|]. specialize (NA g G). rewrite V in NA. revert NA.
    apply (Qabs_case (v - inject_Z n)); apply (Qabs_case (inject_Z n - inject_Z n)); intros; lra.
  - exfalso. destruct (of_int_exact t) as (g & G & V); [subst t; lia|]. specialize (NA g G). rewrite V in NA.
    assert (inject_Z t < inject_Z n) by (now apply inj_lt). clearbody t. revert NA.
    apply (Qabs_case (v - inject_Z n)); apply (Qabs_case (inject_Z t - inject_Z n)); intros; lra.
Qed.

Lemma not_whole_small m e : finite (S754_finite false m e) -> ~ whole (value (S754_finite false m e)) ->
  value (S754_finite false m e) < inject_Z (2 ^ 53).
Proof.
  intros F W. destruct (Z.lt_ge_cases e 0) as [L|L].
  - assert (A : inject_Z (Zpos m) < inject_Z (2 ^ 53)).
    { apply inj_lt. assert (2 ^ 53 = 2 * 2 ^ 52)%Z by reflexivity. cbn -[Z.pow] in F. lia. }
    rewrite value_sign. cbv iota. set (t := inject_Z (2 ^ 53)) in *. clearbody t. pose proof (pw_pos e).
    assert (pw e <= 1) by (rewrite <- pw_0; apply pw_mono; lia).
    assert (0 < inject_Z (Zpos m)) by (apply (inj_lt 0); lia). nra.
  - exfalso. apply W. exists (Zpos m * 2 ^ e)%Z. rewrite value_sign, pw_Z, inject_Z_mult by lia. ring.
Qed.

Lemma whole_opp q : whole q -> whole (- q).
Proof. intros (z & E). exists (- z)%Z. now rewrite E, inject_Z_opp. Qed.

Lemma value_minus s m e : value (S754_finite s m e) == (if s then - value (S754_finite false m e) else value (S754_finite false m e)).
Proof. destruct s; rewrite !value_sign; cbv iota; ring. Qed.

Lemma finite_minus s m e : finite (S754_finite s m e) -> finite (S754_finite false m e).
Proof. exact (fun F => F). Qed.

(** The printed number is whole exactly for whole floats. *)
Lemma chosen_whole m e d k : finite (S754_finite false m e) -> (0 <= d)%Z ->
  f64_nearest d k = S754_finite false m e -> (0 <= k)%Z -> whole (value (S754_finite false m e)).
Proof.
  intros F D E K. pose proof (nearest_rounded d k D) as R. rewrite E in R.
  apply (rounded_eq _ (inject_Z (d * 10 ^ k))) in R; [|now rewrite ten_Z, inject_Z_mult by lia].
  destruct (Qlt_le_dec (value (S754_finite false m e)) (inject_Z (2 ^ 53))) as [L|L].
  - exists (d * 10 ^ k)%Z. apply whole_rounded; [|exact R|exact L].
    apply Z.mul_nonneg_nonneg; [lia|]. apply Z.pow_nonneg. lia.
  - destruct (Z.lt_ge_cases e 0) as [N|N].
    + exfalso. assert (W : ~ whole (value (S754_finite false m e)) -> False).
      { intros W. pose proof (not_whole_small m e F W). lra. }
      assert (A : inject_Z (Zpos m) < inject_Z (2 ^ 53)).
      { apply inj_lt. assert (2 ^ 53 = 2 * 2 ^ 52)%Z by reflexivity. cbn -[Z.pow] in F. lia. }
      rewrite value_sign in L. cbv iota in L. set (t := inject_Z (2 ^ 53)) in *. clearbody t. pose proof (pw_pos e).
      assert (pw e <= 1) by (rewrite <- pw_0; apply pw_mono; lia).
      assert (0 < inject_Z (Zpos m)) by (apply (inj_lt 0); lia). nra.
    + exists (Zpos m * 2 ^ e)%Z. rewrite value_sign, pw_Z, inject_Z_mult by lia. ring.
Qed.

(** ** C102 *)

(** The digits [a] before and [b] after the point of a literal. *)
Definition point_literal (a b : str) : Prop :=
  digits a /\ a <> [] /\ (hd 0%N a = 48%N -> a = [48%N]) /\ digits b /\ b <> [].

Lemma fraction_text s m e : finite (S754_finite s m e) -> ~ whole (value (S754_finite s m e)) ->
  exists a b, f64_display (S754_finite s m e) = minus s (a ++ lit "." ++ b) /\ point_literal a b
    /\ f64_of_decimal false (decimal (a ++ b)) (Z.of_nat (length b)) = S754_finite false m e
    /\ forall d' k', (0 <= d')%Z -> f64_nearest d' k' = S754_finite false m e -> (k' <= - Z.of_nat (length b))%Z.
Proof.
  intros F W. apply finite_minus in F. destruct (display_chosen s m e F) as (d & k & E & D & N & M).
  assert (K : (k < 0)%Z).
  { destruct (Z.lt_ge_cases k 0) as [K|K]; [exact K|]. exfalso. apply W.
    pose proof (chosen_whole m e d k F D N K) as X. destruct X as (z & X).
    destruct s; [exists (- z)%Z; rewrite inject_Z_opp, <- X; exact (value_minus true m e)|exists z; exact X]. }
  destruct (plain_point d (Z.to_nat (- k)) D ltac:(lia)) as (a & b & P & A1 & A2 & A3 & B1 & B2 & B3 & V).
  replace (- Z.of_nat (Z.to_nat (- k)))%Z with k in P by lia. rewrite P in E.
  exists a, b. split; [exact E|]. split; [repeat split; auto|]. rewrite B3, V, Z2Nat.id by lia. split.
  - unfold f64_nearest in N. destruct (Z.leb_spec 0 k); [lia|exact N].
  - intros d' k' D' N'. rewrite Z.opp_involutive. apply (M d'); assumption.
Qed.

Lemma fraction_read f : finite f -> ~ whole (value f) ->
  exists neg a b, f64_display f = minus neg (a ++ lit "." ++ b) /\ point_literal a b
    /\ parse_f64 (minus neg (a ++ lit "." ++ b)) = Some f.
Proof.
  intros F W. destruct f as [s|s| |s m e]; [|destruct F|destruct F|].
  - destruct W. exists 0%Z. reflexivity.
  - destruct (fraction_text s m e F W) as (a & b & E & PL & N & _). exists s, a, b. split; [exact E|]. split; [exact PL|].
    destruct PL as (A1 & A2 & A3 & B1 & B2). refine (eq_trans (parse_f64_digits s a b A1 A2 B1) _).
    rewrite of_decimal_sign, N; [destruct s; reflexivity| |lia].
    apply decimal_nonneg. apply Forall_app; split; assumption.
Qed.

(** A float that is no whole number is printed as a literal that denotes this
    float. *)
Theorem C102_fraction H f : h_float H = f64_display -> finite f -> ~ whole (value f) ->
  parse_script (debug H (EFloat f)) = SOk (EDo [EFloat f]).
Proof.
  intros HF F W. cbn [debug]. rewrite HF. destruct f as [s|s| |s m e]; [|destruct F|destruct F|].
  - destruct W. exists 0%Z. reflexivity.
  - destruct (fraction_text s m e F W) as (a & b & E & (A1 & A2 & A3 & B1 & B2) & N & _).
    rewrite E, parse_point by assumption. rewrite of_decimal_sign, N; [destruct s; reflexivity| |lia].
    apply decimal_nonneg. apply Forall_app; split; assumption.
Qed.

Lemma of_decimal_positive d k m e : (0 <= d)%Z -> (0 <= k)%Z -> f64_of_decimal false d k <> S754_finite true m e.
Proof.
  intros D K X. pose proof (of_decimal_rounded false d k D K) as R. rewrite X in R. cbv iota in R.
  inversion R as [|? ? ? F _ NA _|]; subst. specialize (NA (S754_zero false) Logic.I).
  change (value (S754_zero false)) with 0 in NA. rewrite value_minus in NA. pose proof (value_pos m e).
  assert (Q0 : 0 <= 1 * (inject_Z d / inject_Z (10 ^ k))).
  { rewrite Qmult_1_l. apply Qmult_le_0_compat; [now apply (inj_le 0)|]. apply Qinv_le_0_compat. apply (inj_le 0), Z.pow_nonneg. lia. }
  revert NA. set (q := 1 * _) in *. clearbody q. set (v := value _) in *. clearbody v.
  apply (Qabs_case (- v - q)); apply (Qabs_case (0 - q)); intros; lra.
Qed.

(** No literal that denotes the same float has fewer digits after the point. *)
Theorem C102_shortest H f : h_float H = f64_display -> finite f -> ~ whole (value f) ->
  exists neg a b, debug H (EFloat f) = minus neg (a ++ lit "." ++ b) /\ point_literal a b
    /\ forall neg' a' b', point_literal a' b' ->
       parse_script (minus neg' (a' ++ lit "." ++ b')) = SOk (EDo [EFloat f]) -> (length b <= length b')%nat.
Proof.
  intros HF F W. cbn [debug]. rewrite HF. destruct f as [s|s| |s m e]; [|destruct F|destruct F|].
  { destruct W. exists 0%Z. reflexivity. }
  destruct (fraction_text s m e F W) as (a & b & E & PL & _ & M). exists s, a, b. split; [exact E|]. split; [exact PL|].
  intros neg' a' b' (A1 & A2 & A3 & B1 & B2) P. rewrite parse_point in P by assumption. injection P as P.
  assert (D : (0 <= decimal (a' ++ b'))%Z) by (apply decimal_nonneg; apply Forall_app; split; assumption).
  assert (N : f64_of_decimal false (decimal (a' ++ b')) (Z.of_nat (length b')) = S754_finite false m e).
  { rewrite of_decimal_sign in P by lia. destruct neg'.
    - assert (Q : f64_of_decimal false (decimal (a' ++ b')) (Z.of_nat (length b')) = S754_finite (negb s) m e).
      { rewrite <- (opp_opp (f64_of_decimal _ _ _)), P. reflexivity. }
      destruct s; [exact Q|]. destruct (of_decimal_positive _ _ _ _ D (Nat2Z.is_nonneg _) Q).
    - destruct s; [|exact P]. destruct (of_decimal_positive _ _ _ _ D (Nat2Z.is_nonneg _) P). }
  specialize (M (decimal (a' ++ b')) (- Z.of_nat (length b'))%Z D). unfold f64_nearest in M.
  assert (1 <= length b')%nat by (destruct b'; [congruence|cbn; lia]).
  destruct (Z.leb_spec 0 (- Z.of_nat (length b'))); [lia|]. rewrite Z.opp_involutive in M. specialize (M N). lia.
Qed.

(** A float that is a whole number is printed without a point, as a whole number
    that is rounded to it; this number itself is read, as an integer, or refused
    if it is outside the range of integers.  Below [2 ^ 53] it is the float's
    own number. *)
Theorem C102_whole H f z : h_float H = f64_display -> finite f -> value f == inject_Z z ->
  exists n, rounded (inject_Z n) f /\ (Z.abs z < 2 ^ 53 -> n = z)%Z
    /\ ((i64_min <= n <= i64_max)%Z -> parse_script (debug H (EFloat f)) = SOk (EDo [EInteger n]))
    /\ (~ (i64_min <= n <= i64_max)%Z -> exists x, parse_script (debug H (EFloat f)) = SFailure x).
Proof.
  intros HF F W. cbn [debug]. rewrite HF. destruct f as [s|s| |s m e]; [|destruct F|destruct F|].
  { exists 0%Z. split; [apply zero_rounded|]. split.
    - intros _. apply (proj1 (inj_eq 0 z)). exact W.
    - split; [|intros X; destruct X; split; discriminate]. intros _. destruct s; vm_compute; reflexivity. }
  pose proof (finite_minus _ _ _ F) as F'. destruct (display_chosen s m e F') as (d & k & E & D & N & M).
  assert (WP : exists z', (0 < z')%Z /\ value (S754_finite false m e) == inject_Z z' /\ z = signed s z').
  { rewrite value_minus in W. pose proof (value_pos m e) as P. destruct s.
    - exists (- z)%Z. assert (V : value (S754_finite false m e) == inject_Z (- z)) by (rewrite inject_Z_opp; lra).
      rewrite V in P. apply (proj1 (inj_lt 0 _)) in P. split; [exact P|]. split; [exact V|]. cbn. lia.
    - exists z. rewrite W in P. apply (proj1 (inj_lt 0 _)) in P. auto. }
  destruct WP as (z' & Z0 & V & ->).
  assert (K : (0 <= k)%Z).
  { apply (M z'); [lia|]. apply nearest_unique; [lia|]. apply (rounded_eq (value (S754_finite false m e))).
    - rewrite V. cbn [Qpower]. ring.
    - apply finite_rounded, F'. }
  assert (T : (0 <= d * 10 ^ k)%Z) by (apply Z.mul_nonneg_nonneg; [lia|apply Z.pow_nonneg; lia]).
  assert (R : rounded (inject_Z (d * 10 ^ k)) (S754_finite false m e)).
  { rewrite <- N. eapply rounded_eq; [|apply nearest_rounded, D]. rewrite ten_Z, inject_Z_mult by lia. reflexivity. }
  rewrite E. unfold plain. destruct (Z.leb_spec 0 k); [|lia]. destruct (z_str_digits _ T) as (A1 & A2 & A3 & A4).
  set (t := (d * 10 ^ k)%Z) in *. clearbody t. exists (signed s t). split; [|split; [|split]].
  - destruct s; [|exact R]. apply (rounded_eq (- inject_Z t)); [cbn [signed]; rewrite inject_Z_opp; reflexivity|].
    exact (rounded_opp _ _ R).
  - intros B. apply whole_rounded in R; [|exact T|].
    + rewrite V in R. apply (proj1 (inj_eq _ _)) in R. subst t. reflexivity.
    + rewrite V. apply inj_lt. unfold signed in B. destruct s; lia.
  - intros I. pose proof (C11_exact s (z_str t) A1 A2 A3) as X. cbv zeta in X. rewrite A4 in X. apply X; exact I.
  - intros I. pose proof (C11_rejected s (z_str t) A1 A2 A3) as X. cbv zeta in X. rewrite A4 in X. apply X; exact I.
Qed.

(** What is no number is read as a name. *)
Theorem C102_special H f : h_float H = f64_display ->
  (exists s, f = S754_infinity s) \/ f = S754_nan ->
  parse_script (debug H (EFloat f)) = SOk (EDo [ESymbol (debug H (EFloat f))]).
Proof.
  intros HF [(s & ->)| ->]; cbn [debug]; rewrite HF; [destruct s|]; vm_compute; reflexivity.
Qed.

(** So a float that is printed and read again need not be the same value. *)
Theorem C102_read_back_refuted :
  let H := with_floats demo_host in
  exists f, finite f /\ parse_script (debug H (EFloat f)) = SOk (EDo [EInteger 1]).
Proof.
  exists (S754_finite false (2 ^ 52) (-52)). split; [left; split; [split; [discriminate|reflexivity]|lia]|].
  vm_compute. reflexivity.
Qed.

Example C102_example :
  let shown s m e := debug (with_floats demo_host) (EFloat (S754_finite s m e)) in
  shown false 7205759403792794%positive (-56)%Z = lit "0.1"
  /\ shown true 5404319552844596%positive (-54)%Z = lit "-0.30000000000000004"
  /\ shown false (2 ^ 52)%positive 11%Z = lit "9223372036854776000"
  /\ debug (with_floats demo_host) (EFloat (S754_infinity true)) = lit "-inf".
Proof. cbv zeta. split; [|split; [|split]]; vm_compute; reflexivity. Qed.

Print Assumptions C102_fraction.
Print Assumptions C102_shortest.
Print Assumptions C102_whole.
Print Assumptions C102_special.
Print Assumptions C102_read_back_refuted.
