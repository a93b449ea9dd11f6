(** Rounding of floats. *)

From Coq Require Import ZArith Lia QArith Qabs Qpower Lqa SpecFloat.
From Verif Require Import Base Host FloatSpec.

Open Scope Q_scope.

(** ** Powers of two *)

Definition pw (e : Z) : Q := Qpower 2 e.

Lemma two_neq : ~ 2 == 0.
Proof. intros X. discriminate X. Qed.

Lemma pw_pos e : 0 < pw e.
Proof.
  pose proof (Qpower_pos 2 e ltac:(discriminate)) as P. unfold pw.
  pose proof (Qpower_not_0 2 e two_neq) as N.
  apply Qle_lteq in P. destruct P as [P|P]; [exact P|]. now symmetry in P.
Qed.

Lemma pw_plus a b : pw (a + b) == pw a * pw b.
Proof. apply Qpower_plus. exact two_neq. Qed.

Lemma pw_0 : pw 0 == 1.
Proof. reflexivity. Qed.

Lemma pw_1 : pw 1 == 2.
Proof. reflexivity. Qed.

Lemma pw_Z n : (0 <= n)%Z -> pw n == inject_Z (2 ^ n).
Proof. intros L. unfold pw. rewrite (Zpower_Qpower 2 n L). reflexivity. Qed.

Lemma pw_inv a b : (a + b = 0)%Z -> pw a * pw b == 1.
Proof. intros E. rewrite <- pw_plus, E. apply pw_0. Qed.

(** [a <= b] gives a whole number of times. *)
Lemma pw_split a b : (a <= b)%Z -> pw b == inject_Z (2 ^ (b - a)) * pw a.
Proof.
  intros L. rewrite <- pw_Z by lia. rewrite <- pw_plus. now replace (b - a + a)%Z with b by lia.
Qed.

Lemma inject_Z_minus a b : inject_Z (a - b) == inject_Z a - inject_Z b.
Proof. unfold Z.sub. rewrite inject_Z_plus, inject_Z_opp. reflexivity. Qed.

Lemma inj_le a b : inject_Z a <= inject_Z b <-> (a <= b)%Z.
Proof. rewrite Zle_Qle. reflexivity. Qed.
Lemma inj_lt a b : inject_Z a < inject_Z b <-> (a < b)%Z.
Proof. rewrite Zlt_Qlt. reflexivity. Qed.
Lemma inj_eq a b : inject_Z a == inject_Z b <-> a = b.
Proof. apply inject_Z_injective. Qed.

Lemma pw_mono a b : (a <= b)%Z -> pw a <= pw b.
Proof.
  intros L. rewrite (pw_split a b L). pose proof (pw_pos a).
  assert (1 <= inject_Z (2 ^ (b - a))).
  { apply (inj_le 1). enough (0 < 2 ^ (b - a))%Z by lia. apply Z.pow_pos_nonneg; lia. }
  nra.
Qed.

(** ** Where a number is between whole numbers *)

(** [y] is between [m] and [m + 1]; the location says where. *)
Definition at_loc (y : Q) (m : Z) (l : location) : Prop :=
  match l with
  | loc_Exact => y == inject_Z m
  | loc_Inexact Lt => inject_Z m < y /\ y < inject_Z m + (1 # 2)
  | loc_Inexact Eq => y == inject_Z m + (1 # 2)
  | loc_Inexact Gt => inject_Z m + (1 # 2) < y /\ y < inject_Z m + 1
  end.

Definition at_rec (y : Q) (r : shr_record) : Prop :=
  at_loc y (shr_m r) (loc_of_shr_record r).

Lemma at_rec_of_loc y m l : at_loc y m l -> at_rec y (shr_record_of_loc m l).
Proof. intros A. unfold at_rec. destruct l as [|[| |]]; exact A. Qed.

Lemma at_loc_between y m l : at_loc y m l -> inject_Z m <= y /\ y < inject_Z m + 1.
Proof. destruct l as [|[| |]]; cbn; intros; lra. Qed.

Lemma at_loc_eq y z m l : y == z -> at_loc y m l -> at_loc z m l.
Proof. intros E. unfold at_loc. destruct l as [|[| |]]; now rewrite E. Qed.

Lemma inject_xO p : inject_Z (Zpos p~0) == 2 * inject_Z (Zpos p).
Proof. rewrite Pos2Z.inj_xO, inject_Z_mult. reflexivity. Qed.
Lemma inject_xI p : inject_Z (Zpos p~1) == 2 * inject_Z (Zpos p) + 1.
Proof. rewrite Pos2Z.inj_xI, inject_Z_plus, inject_Z_mult. reflexivity. Qed.

Lemma shr_1_at y r : (0 <= shr_m r)%Z -> at_rec y r ->
  at_rec (y * pw (-1)) (shr_1 r) /\ (0 <= shr_m (shr_1 r))%Z.
Proof.
  assert (E : pw (-1) == 1 # 2) by reflexivity.
  destruct r as [m r s]. unfold at_rec. cbn [shr_m]. intros L A. split.
  - apply (at_loc_eq (y * (1 # 2))); [now rewrite E|]. clear E. destruct m as [|p|p]; [| |lia].
    + destruct r, s; cbn -[inject_Z] in *; change (inject_Z 0) with 0 in *; lra.
    + destruct p as [p|p|]; [pose proof (inject_xI p)|pose proof (inject_xO p)|
        change (inject_Z 1) with 1 in *];
        destruct r, s; cbn -[inject_Z] in *; change (inject_Z 0) with 0 in *; change (inject_Z 1) with 1 in *; lra.
  - destruct m as [|[p|p|]|]; cbn; lia.
Qed.

Lemma iter_at p : forall y r, (0 <= shr_m r)%Z -> at_rec y r ->
  at_rec (y * pw (Zneg p)) (SpecFloat.iter_pos shr_1 p r) /\ (0 <= shr_m (SpecFloat.iter_pos shr_1 p r))%Z.
Proof.
  assert (C : forall y z r, y == z -> at_rec y r -> at_rec z r) by (intros y z r; apply at_loc_eq).
  induction p as [p IH|p IH|]; intros y r L A; cbn [SpecFloat.iter_pos].
  - destruct (shr_1_at y r L A) as [A1 L1]. destruct (IH _ _ L1 A1) as [A2 L2].
    destruct (IH _ _ L2 A2) as [A3 L3]. split; [|exact L3]. eapply C; [|exact A3].
    replace (Zneg p~1) with (-1 + Zneg p + Zneg p)%Z by lia. rewrite !pw_plus. ring.
  - destruct (IH _ _ L A) as [A2 L2].
    destruct (IH _ _ L2 A2) as [A3 L3]. split; [|exact L3]. eapply C; [|exact A3].
    replace (Zneg p~0) with (Zneg p + Zneg p)%Z by lia. rewrite !pw_plus. ring.
  - now apply shr_1_at.
Qed.

(** ** Digits *)

Lemma digits_size p : digits2_pos p = Pos.size p.
Proof. induction p as [p IH|p IH|]; cbn; now rewrite ?IH. Qed.

Lemma digits_range m : (0 < m)%Z -> (2 ^ (Zdigits2 m - 1) <= m < 2 ^ Zdigits2 m)%Z.
Proof.
  destruct m as [|p|p]; [lia| |lia]. intros _. cbn [Zdigits2]. rewrite digits_size.
  pose proof (Pos.size_gt p) as G. pose proof (Pos.size_le p) as L.
  assert (X : (2 * 2 ^ (Zpos (Pos.size p) - 1) = 2 ^ Zpos (Pos.size p))%Z).
  { rewrite <- Z.pow_succ_r by lia. f_equal. lia. }
  assert (Y : Zpos (2 ^ Pos.size p) = (2 ^ Zpos (Pos.size p))%Z) by apply Pos2Z.inj_pow.
  lia.
Qed.

Lemma digits_pos m : (0 < m)%Z -> (0 < Zdigits2 m)%Z.
Proof. destruct m; cbn; lia. Qed.

Lemma digits_unique m d : (2 ^ (d - 1) <= m < 2 ^ d)%Z -> (0 < d)%Z -> Zdigits2 m = d.
Proof.
  intros R D. assert (0 < 2 ^ (d - 1))%Z by (apply Z.pow_pos_nonneg; lia).
  pose proof (digits_range m ltac:(lia)) as R'. pose proof (digits_pos m ltac:(lia)).
  assert (Zdigits2 m - 1 < d)%Z by (apply (Z.pow_lt_mono_r_iff 2); lia).
  assert (d - 1 < Zdigits2 m)%Z by (apply (Z.pow_lt_mono_r_iff 2); lia). lia.
Qed.

Lemma digits_le m d : (0 <= m < 2 ^ d)%Z -> (0 <= d)%Z -> (Zdigits2 m <= d)%Z.
Proof.
  intros R D. destruct (Z.eq_dec m 0) as [->|N]; [exact D|].
  pose proof (digits_range m ltac:(lia)) as R'.
  enough (Zdigits2 m - 1 < d)%Z by lia. apply (Z.pow_lt_mono_r_iff 2); lia.
Qed.

Lemma fexp_max e : fexp 53 1024 e = Z.max (e - 53) (-1074).
Proof. reflexivity. Qed.

(** ** Rounding *)

Lemma magnitude x m e l : (0 <= m)%Z -> at_loc (x * pw (- e)) m l ->
  0 <= x /\ x < pw (Zdigits2 m + e) /\ ((0 < m)%Z -> pw (Zdigits2 m + e - 1) <= x).
Proof.
  intros L A. apply at_loc_between in A. destruct A as [A B].
  pose proof (pw_inv (- e) e ltac:(lia)) as I. pose proof (pw_pos e) as P. pose proof (pw_pos (- e)) as P'.
  assert (E : x == x * pw (- e) * pw e) by (rewrite <- Qmult_assoc, I; ring).
  assert (M : 0 <= inject_Z m) by (now apply (inj_le 0)).
  assert (X : inject_Z m * pw e <= x) by (rewrite E; apply Qmult_le_compat_r; lra).
  assert (Y : x < (inject_Z m + 1) * pw e) by (rewrite E; apply Qmult_lt_compat_r; lra).
  repeat split.
  - nra.
  - eapply Qlt_le_trans; [exact Y|]. rewrite pw_plus. apply Qmult_le_compat_r; [|lra].
    destruct (Z.eq_dec m 0) as [->|N]; [discriminate|].
    pose proof (digits_range m ltac:(lia)). pose proof (digits_pos m ltac:(lia)).
    rewrite pw_Z by lia. change 1 with (inject_Z 1). rewrite <- inject_Z_plus. apply inj_le. lia.
  - intros G. eapply Qle_trans; [|exact X].
    replace (Zdigits2 m + e - 1)%Z with (Zdigits2 m - 1 + e)%Z by lia.
    rewrite pw_plus. apply Qmult_le_compat_r; [|lra].
    pose proof (digits_range m ltac:(lia)). pose proof (digits_pos m ltac:(lia)).
    rewrite pw_Z by lia. apply inj_le. lia.
Qed.

Lemma shr_fexp_at x m e l :
  (0 <= m)%Z -> at_loc (x * pw (- e)) m l -> (e <= fexp 53 1024 (Zdigits2 m + e))%Z ->
  exists r, shr_fexp 53 1024 m e l = (r, fexp 53 1024 (Zdigits2 m + e))
    /\ at_rec (x * pw (- fexp 53 1024 (Zdigits2 m + e))) r /\ (0 <= shr_m r)%Z.
Proof.
  intros L A E. unfold shr_fexp, shr. set (k := fexp 53 1024 (Zdigits2 m + e)) in *.
  apply at_rec_of_loc in A.
  assert (L' : (0 <= shr_m (shr_record_of_loc m l))%Z) by (destruct l as [|[| |]]; exact L).
  destruct (k - e)%Z as [|p|p] eqn:D.
  - replace k with e by lia. eauto.
  - exists (SpecFloat.iter_pos shr_1 p (shr_record_of_loc m l)).
    split; [f_equal; lia|]. destruct (iter_at p _ _ L' A) as [A' L2]. split; [|exact L2].
    eapply at_loc_eq; [|exact A']. replace (- k)%Z with (- e + Zneg p)%Z by lia. rewrite pw_plus. ring.
  - lia.
Qed.

(** A whole number nearest to [y]. *)
Definition near (y : Q) (n : Z) : Prop :=
  y - (1 # 2) <= inject_Z n /\ inject_Z n <= y + (1 # 2)
  /\ (inject_Z n == y - (1 # 2) \/ inject_Z n == y + (1 # 2) -> Z.even n = true).

Lemma near_round y r : at_rec y r -> near y (round_nearest_even (shr_m r) (loc_of_shr_record r)).
Proof.
  unfold at_rec. generalize (shr_m r) (loc_of_shr_record r). clear r. intros m l A.
  unfold near. destruct l as [|[| |]]; cbn -[inject_Z] in *.
  - rewrite A. repeat split; try lra; intros [X|X]; lra.
  - destruct (Z.even m) eqn:E.
    + rewrite A. repeat split; try lra. intros _. exact E.
    + rewrite inject_Z_plus, A. change (inject_Z 1) with 1. repeat split; try lra. intros _.
      rewrite Z.even_add, E. reflexivity.
  - repeat split; try lra; intros [X|X]; lra.
  - rewrite inject_Z_plus. change (inject_Z 1) with 1. repeat split; try lra; intros [X|X]; lra.
Qed.

Lemma near_least y n k : near y n ->
  Qabs (inject_Z n - y) <= Qabs (inject_Z k - y)
  /\ (k <> n -> Qabs (inject_Z k - y) == Qabs (inject_Z n - y) -> Z.even n = true).
Proof.
  intros (A & B & C). destruct (Z.lt_trichotomy k n) as [L|[->|L]].
  - assert (X : inject_Z k + 1 <= inject_Z n).
    { change 1 with (inject_Z 1). rewrite <- inject_Z_plus. apply inj_le. lia. }
    apply (Qabs_case (inject_Z n - y)); apply (Qabs_case (inject_Z k - y)); intros; (split; [lra|]); intros;
      apply C; right; lra.
  - split; [apply Qle_refl|congruence].
  - assert (X : inject_Z n + 1 <= inject_Z k).
    { change 1 with (inject_Z 1). rewrite <- inject_Z_plus. apply inj_le. lia. }
    apply (Qabs_case (inject_Z n - y)); apply (Qabs_case (inject_Z k - y)); intros; (split; [lra|]); intros;
      apply C; left; lra.
Qed.

Lemma near_ge y n k : near y n -> inject_Z k <= y -> (k <= n)%Z.
Proof.
  intros (A & _) B. enough (k < n + 1)%Z by lia. apply inj_lt. rewrite inject_Z_plus. change (inject_Z 1) with 1. lra.
Qed.

Lemma near_le y n k : near y n -> y <= inject_Z k -> (n <= k)%Z.
Proof.
  intros (_ & A & _) B. enough (n < k + 1)%Z by lia. apply inj_lt. rewrite inject_Z_plus. change (inject_Z 1) with 1. lra.
Qed.

(** The outcome of [binary_round_aux] without sign. *)
Definition outcome (n e : Z) : f64 :=
  match n with
  | Zpos p =>
      if (n <? 2 ^ 53)%Z then if (e <=? 971)%Z then S754_finite false p e else S754_infinity false
      else if (e + 1 <=? 971)%Z then S754_finite false (2 ^ 52) (e + 1) else S754_infinity false
  | _ => S754_zero false
  end.

Lemma round_aux_outcome x m e l :
  (0 <= m)%Z -> at_loc (x * pw (- e)) m l -> (e <= fexp 53 1024 (Zdigits2 m + e))%Z ->
  exists n e1, binary_round_aux 53 1024 false m e l = outcome n e1
    /\ near (x * pw (- e1)) n /\ (0 <= n <= 2 ^ 53)%Z /\ (-1074 <= e1)%Z
    /\ (e1 = (-1074)%Z \/ pw 52 <= x * pw (- e1)).
Proof.
  intros L A E. pose proof (magnitude x m e l L A) as (X0 & X1 & X2).
  destruct (shr_fexp_at x m e l L A E) as (r & F & R & R0). set (D := (Zdigits2 m + e)%Z) in *.
  pose proof (fexp_max D) as EM. set (e1 := fexp 53 1024 D) in *. clearbody e1.
  pose proof (near_round _ _ R) as N. set (n := round_nearest_even (shr_m r) (loc_of_shr_record r)) in *.
  pose proof (pw_pos (- e1)) as P.
  assert (Y0 : 0 <= x * pw (- e1)) by nra.
  assert (Y1 : x * pw (- e1) <= inject_Z (2 ^ 53)).
  { rewrite <- (pw_Z 53) by lia. apply Qle_trans with (pw D * pw (- e1)); [apply Qmult_le_compat_r; lra|].
    rewrite <- pw_plus. apply pw_mono. lia. }
  assert (Y2 : (e1 = (-1074)%Z \/ pw 52 <= x * pw (- e1))).
  { destruct (Z.eq_dec e1 (-1074)) as [|NE]; [now left|right].
    assert (D0 : (e1 = D - 53)%Z) by lia.
    assert (M : (0 < m)%Z).
    { destruct (Z.eq_dec m 0) as [->|]; [|lia]. unfold D in D0. cbn in D0. lia. }
    specialize (X2 M). apply Qle_trans with (pw (D - 1) * pw (- e1)); [|apply Qmult_le_compat_r; lra].
    rewrite <- pw_plus. apply pw_mono. lia. }
  assert (N0 : (0 <= n)%Z) by (eapply near_ge; [exact N|exact Y0]).
  assert (N1 : (n <= 2 ^ 53)%Z) by (eapply near_le; [exact N|exact Y1]).
  exists n, e1. split; [|split; [exact N|split; [lia|split; [lia|exact Y2]]]]. unfold binary_round_aux. rewrite F. cbv iota beta. fold n.
  assert (E1 : (-1074 <= e1)%Z) by lia.
  assert (N2 : (e1 = -1074 \/ 2 ^ 52 <= n)%Z).
  { destruct Y2 as [->|Y2]; [now left|right]. eapply near_ge; [exact N|]. now rewrite <- (pw_Z 52) by lia. }
  clearbody n. clear - N0 N1 N2 E1.
  unfold shr_fexp, shr, shr_record_of_loc. rewrite fexp_max.
  destruct (Z.eq_dec n (2 ^ 53)) as [->|NE].
  - change (Zdigits2 (2 ^ 53)) with 54%Z. replace (Z.max (54 + e1 - 53) (-1074) - e1)%Z with 1%Z by lia.
    reflexivity.
  - assert (Q : (Z.max (Zdigits2 n + e1 - 53) (-1074) - e1 <= 0)%Z).
    { pose proof (digits_le n 53 ltac:(lia) ltac:(lia)). lia. }
    assert (Q' : (0 <= Z.max (Zdigits2 n + e1 - 53) (-1074) - e1)%Z).
    { destruct N2 as [->|N2]; [lia|]. rewrite (digits_unique n 53) by (cbn - [Z.pow]; lia). lia. }
    replace (Z.max (Zdigits2 n + e1 - 53) (-1074) - e1)%Z with 0%Z by lia. cbn [shr_m]. unfold outcome.
    destruct n as [|p|p]; [reflexivity| |lia].
    destruct (Z.ltb_spec (Zpos p) (2 ^ 53)); [|lia]. reflexivity.
Qed.

Lemma limit_pw : limit == (pw 53 - (1 # 2)) * pw 971.
Proof.
  unfold limit. rewrite inject_Z_minus, <- !pw_Z by lia.
  replace 1024%Z with (53 + 971)%Z by lia. replace 970%Z with (-1 + 971)%Z by lia. rewrite !pw_plus.
  change (pw (-1)) with (1 # 2). ring.
Qed.

(** ** The nearest float *)

Lemma value_opp f : value (SFopp f) == - value f.
Proof.
  destruct f as [s|s| |s m e]; try reflexivity. cbn -[inject_Z].
  destruct s; cbn [negb]; [change (Zneg m) with (- Zpos m)%Z|change (Zneg m) with (- Zpos m)%Z];
    rewrite inject_Z_opp; ring.
Qed.

Lemma finite_opp f : finite f -> finite (SFopp f).
Proof. destruct f; cbn; auto. Qed.

Lemma opp_opp f : SFopp (SFopp f) = f.
Proof. destruct f as [[]|[]| |[] m e]; reflexivity. Qed.

Lemma dist_opp a b : Qabs (- a - - b) == Qabs (a - b).
Proof. rewrite <- Qabs_opp. apply Qabs_wd. ring. Qed.

Lemma rounded_opp q f : rounded q f -> rounded (- q) (SFopp f).
Proof.
  assert (D : forall g, Qabs (value g - - q) == Qabs (value (SFopp g) - q)).
  { intros g. rewrite value_opp. rewrite <- (dist_opp (value g) (- q)). apply Qabs_wd. ring. }
  assert (V : forall s m e, value (S754_finite (negb s) m e) == - value (S754_finite s m e))
    by (intros s m e; apply (value_opp (S754_finite s m e))).
  destruct 1 as [s A B C|s m e F L A B|s L B C]; cbn [SFopp].
  - constructor.
    + intros g G. rewrite Qabs_opp, D. apply A. now apply finite_opp.
    + intros X. rewrite C by lra. reflexivity.
    + intros X. rewrite B by lra. reflexivity.
  - constructor.
    + exact F.
    + now rewrite Qabs_opp.
    + intros g G. rewrite V, dist_opp, D. apply A. now apply finite_opp.
    + intros g G NE E. rewrite V, dist_opp, D in E. apply (B (SFopp g)); [now apply finite_opp| |exact E].
      intros X. apply NE. rewrite V, <- X, value_opp. ring.
  - constructor.
    + now rewrite Qabs_opp.
    + intros X. rewrite C by lra. reflexivity.
    + intros X. rewrite B by lra. reflexivity.
Qed.

Lemma rounded_eq q q' f : q == q' -> rounded q f -> rounded q' f.
Proof.
  intros E. destruct 1 as [s A B C|s m e F L A B|s L B C]; constructor; auto.
  - intros g G. rewrite <- E. now apply A.
  - intros X. apply B. now rewrite E.
  - intros X. apply C. now rewrite E.
  - now rewrite <- E.
  - intros g G. rewrite <- E. now apply A.
  - intros g G NE X. rewrite <- E in X. now apply (B g).
  - now rewrite <- E.
  - intros X. apply B. now rewrite E.
  - intros X. apply C. now rewrite E.
Qed.

Lemma scaled k y u x : 0 < u -> x == y * u -> Qabs (inject_Z k * u - x) == Qabs (inject_Z k - y) * u.
Proof.
  intros P E. rewrite E. setoid_replace (inject_Z k * u - y * u) with ((inject_Z k - y) * u) by ring.
  rewrite Qabs_Qmult, (Qabs_pos u) by lra. reflexivity.
Qed.

(** No float is nearer to [x] than the nearest multiple of [2 ^ e]. *)
Lemma nearest x e n :
  0 <= x -> near (x * pw (- e)) n -> (-1074 <= e)%Z -> (e = (-1074)%Z \/ pw 52 <= x * pw (- e)) ->
  forall g, finite g ->
    Qabs (inject_Z n * pw e - x) <= Qabs (value g - x)
    /\ (~ value g == inject_Z n * pw e ->
        Qabs (value g - x) == Qabs (inject_Z n * pw e - x) -> Z.even n = true).
Proof.
  intros X0 N E0 Y. pose proof (pw_pos e) as P. set (u := pw e) in *. set (y := x * pw (- e)) in *.
  assert (XY : x == y * u).
  { unfold y, u. rewrite <- Qmult_assoc, pw_inv by lia. ring. }
  assert (K : forall k,
    Qabs (inject_Z n * u - x) <= Qabs (inject_Z k * u - x)
    /\ (k <> n -> Qabs (inject_Z k * u - x) == Qabs (inject_Z n * u - x) -> Z.even n = true)).
  { intros k. destruct (near_least y n k N) as [A B]. split.
    - rewrite !(scaled _ y u x P XY). apply Qmult_le_compat_r; [exact A|lra].
    - intros NE Q. apply B; [exact NE|]. rewrite !(scaled _ y u x P XY) in Q.
      apply Qmult_inj_r in Q; [exact Q|lra]. }
  assert (KV : forall v k, v == inject_Z k * u ->
    Qabs (inject_Z n * u - x) <= Qabs (v - x)
    /\ (~ v == inject_Z n * u -> Qabs (v - x) == Qabs (inject_Z n * u - x) -> Z.even n = true)).
  { intros v k V. destruct (K k) as [A B]. split; [now rewrite V|].
    intros NE Q. apply B; [|now rewrite V in Q]. intros ->. now apply NE. }
  intros g F. destruct g as [s|s| |s m e']; [|destruct F|destruct F|].
  - apply (KV _ 0%Z). cbn. ring.
  - destruct (Z_le_gt_dec e e') as [L|L].
    + apply (KV _ ((if s then Zneg m else Zpos m) * 2 ^ (e' - e))%Z).
      unfold value. fold (pw e'). rewrite (pw_split e e' L), inject_Z_mult. fold u. ring.
    + assert (E' : (-1074 <= e')%Z) by (cbn in F; lia).
      destruct Y as [->|Y]; [lia|].
      assert (M : inject_Z (if s then Zneg m else Zpos m) <= inject_Z (2 ^ 53)).
      { apply inj_le. cbn -[Z.pow] in F. destruct s; lia. }
      assert (V : value (S754_finite s m e') < pw 52 * u).
      { unfold value. fold (pw e'). 
        assert (A1 : inject_Z (if s then Zneg m else Zpos m) < inject_Z (2 ^ 53)).
        { apply inj_lt. cbn -[Z.pow] in F. destruct s; lia. }
        apply Qlt_le_trans with (inject_Z (2 ^ 53) * pw e').
        - apply Qmult_lt_compat_r; [apply pw_pos|exact A1].
        - rewrite <- (pw_Z 53) by lia. unfold u. rewrite <- !pw_plus. apply pw_mono. lia. }
      assert (Z52 : pw 52 * u <= x) by (rewrite XY; apply Qmult_le_compat_r; lra).
      assert (S : Qabs (inject_Z n * u - x) < Qabs (value (S754_finite s m e') - x)).
      { eapply Qle_lt_trans; [apply (proj1 (K (2 ^ 52)%Z))|]. rewrite <- (pw_Z 52) by lia.
        apply (Qabs_case (pw 52 * u - x)); apply (Qabs_case (value (S754_finite s m e') - x)); intros; lra. }
      split; [lra|]. intros _ Q. rewrite Q in S. destruct (Qlt_irrefl _ S).
Qed.

Theorem outcome_rounded x e n :
  0 <= x -> near (x * pw (- e)) n -> (-1074 <= e)%Z -> (e = (-1074)%Z \/ pw 52 <= x * pw (- e)) ->
  (0 <= n <= 2 ^ 53)%Z -> rounded x (outcome n e).
Proof.
  intros X0 N E0 Y NR. pose proof (nearest x e n X0 N E0 Y) as A.
  pose proof (pw_pos e) as P. assert (XY : x == x * pw (- e) * pw e) by (rewrite <- Qmult_assoc, pw_inv by lia; ring).
  set (y := x * pw (- e)) in *. pose proof N as (NA & NB & NC).
  assert (AX : Qabs x == x) by now apply Qabs_pos.
  assert (BIG : pw 52 <= y -> (2 ^ 52 <= n)%Z).
  { intros Q. eapply near_ge; [exact N|]. now rewrite <- (pw_Z 52) by lia. }
  assert (P53 : pw 53 == inject_Z (2 ^ 53)) by now apply pw_Z.
  unfold outcome. destruct n as [|p|p]; [| |lia].
  - constructor; [|intros; lra|reflexivity]. intros g G. destruct (A g G) as [A1 _].
    change (inject_Z 0) with 0 in A1. rewrite <- (Qabs_opp x). setoid_replace (- x) with (0 * pw e - x) by ring. exact A1.
  - destruct (Z.ltb_spec (Zpos p) (2 ^ 53)) as [L|L].
    + destruct (Z.leb_spec e 971) as [L1|L1].
      * constructor.
        -- cbn -[Z.pow]. destruct Y as [->|Y]; [|specialize (BIG Y)]; lia.
        -- rewrite AX, limit_pw. assert (Q : y < pw 53 - (1 # 2)).
           { rewrite P53. destruct (Z.eq_dec (Zpos p) (2 ^ 53 - 1)) as [E|E].
             - rewrite E in *. rewrite inject_Z_minus in *. change (inject_Z 1) with 1 in *.
               destruct (Qlt_le_dec y (inject_Z (2 ^ 53) - (1 # 2))) as [|Q]; [assumption|].
               assert (even : Z.even (2 ^ 53 - 1) = true) by (apply NC; left; lra). discriminate even.
             - assert (Q : inject_Z (Zpos p) + 2 <= inject_Z (2 ^ 53)).
               { change 2 with (inject_Z 2). rewrite <- inject_Z_plus. apply inj_le. lia. }
               lra. }
           rewrite XY. apply Qlt_le_trans with ((pw 53 - (1 # 2)) * pw e); [apply Qmult_lt_compat_r; lra|].
           assert (0 < pw 53 - (1 # 2)) by (pose proof (pw_mono 0 53 ltac:(lia)); rewrite pw_0 in *; lra).
           rewrite (Qmult_comm _ (pw e)), (Qmult_comm _ (pw 971)). apply Qmult_le_compat_r; [now apply pw_mono|lra].
        -- intros g G. apply (A g G).
        -- intros g G. apply (A g G).
      * constructor; [|intros; lra|reflexivity].
        rewrite AX, limit_pw. destruct Y as [->|Y]; [lia|]. rewrite XY.
        apply Qle_trans with (pw 52 * pw e); [|apply Qmult_le_compat_r; lra].
        rewrite (pw_split 972 e) by lia.
        assert (1 <= inject_Z (2 ^ (e - 972))).
        { apply (inj_le 1). enough (0 < 2 ^ (e - 972))%Z by lia. apply Z.pow_pos_nonneg; lia. }
        assert (E1 : pw 972 == 2 * pw 971) by (rewrite <- pw_1, <- pw_plus; reflexivity).
        assert (E2 : pw 53 == 2 * pw 52) by (rewrite <- pw_1, <- pw_plus; reflexivity).
        rewrite E1, E2. pose proof (pw_pos 971). pose proof (pw_pos 52). 
        apply Qle_trans with (pw 52 * (1 * (2 * pw 971))); [nra|].
        apply Qmult_le_l; [assumption|]. apply Qmult_le_compat_r; [assumption|lra].
    + assert (E : Zpos p = (2 ^ 53)%Z) by lia.
      assert (V : value (S754_finite false (2 ^ 52) (e + 1)) == inject_Z (Zpos p) * pw e).
      { cbn [value]. fold (pw (e + 1)). rewrite E, pw_plus.
        change (Zpos (2 ^ 52)) with (2 ^ 52)%Z. rewrite <- !pw_Z by lia.
        change 53%Z with (52 + 1)%Z. rewrite (pw_plus 52 1). ring. }
      destruct (Z.leb_spec (e + 1) 971) as [L1|L1].
      * constructor.
        -- left. split; [split; [reflexivity|]|lia]. reflexivity.
        -- rewrite AX, limit_pw. rewrite E, <- P53 in *. rewrite XY.
           assert (G1 : 1 <= pw 53) by (rewrite <- pw_0; apply pw_mono; lia).
           assert (G2 : 2 <= pw 53) by (rewrite <- pw_1; apply pw_mono; lia).
           apply Qle_lt_trans with ((pw 53 + (1 # 2)) * pw e); [apply Qmult_le_compat_r; lra|].
           assert (G3 : pw (e + 1) <= pw 971) by now apply pw_mono.
           rewrite pw_plus, pw_1 in G3. nra.
        -- intros g G. rewrite V. apply (A g G).
        -- intros g G. rewrite V. intros. reflexivity.
      * constructor; [|intros; lra|reflexivity]. rewrite AX, limit_pw, XY.
        rewrite E, <- P53 in *.
        assert (G2 : 2 <= pw 53) by (rewrite <- pw_1; apply pw_mono; lia).
        assert (G3 : pw 971 <= pw e) by (apply pw_mono; lia). pose proof (pw_pos 971).
        apply Qle_trans with ((pw 53 - (1 # 2)) * pw e); [|apply Qmult_le_compat_r; lra].
        apply Qmult_le_l; lra.
Qed.

Lemma round_aux_sign s m e l :
  binary_round_aux 53 1024 s m e l
  = if s then SFopp (binary_round_aux 53 1024 false m e l) else binary_round_aux 53 1024 false m e l.
Proof.
  destruct s; [|reflexivity]. unfold binary_round_aux.
  destruct (shr_fexp 53 1024 m e l) as [r e1].
  destruct (shr_fexp 53 1024 (round_nearest_even (shr_m r) (loc_of_shr_record r)) e1 loc_Exact) as [r2 e2].
  destruct (shr_m r2); try reflexivity. now destruct (e2 <=? 1024 - 53)%Z.
Qed.

(** [binary_round_aux] gives the float nearest to the number located by its
    arguments. *)
Theorem round_aux_rounded x (s : bool) m e l :
  (0 <= m)%Z -> at_loc (x * pw (- e)) m l -> (e <= fexp 53 1024 (Zdigits2 m + e))%Z ->
  rounded (if s then - x else x) (binary_round_aux 53 1024 s m e l).
Proof.
  intros L A E. destruct (magnitude x m e l L A) as (X0 & _ & _).
  destruct (round_aux_outcome x m e l L A E) as (n & e1 & R & N & NR & E1 & Y).
  rewrite round_aux_sign, R. pose proof (outcome_rounded x e1 n X0 N E1 Y NR) as O.
  destruct s; [now apply rounded_opp|exact O].
Qed.

(** ** The operations *)

Lemma shift_pos_mult d m : Zpos (shift_pos d m) = (Zpos m * 2 ^ Zpos d)%Z.
Proof. rewrite shift_pos_correct. rewrite Z.mul_comm. reflexivity. Qed.

(** Shifting to the left keeps the number. *)
Lemma shl_align_value m e e' :
  inject_Z (Zpos (fst (shl_align m e e'))) * pw (snd (shl_align m e e')) == inject_Z (Zpos m) * pw e.
Proof.
  unfold shl_align. destruct (e' - e)%Z as [|d|d] eqn:D; try reflexivity. cbn [fst snd].
  rewrite shift_pos_mult, inject_Z_mult, <- pw_Z by lia.
  replace e with (Zpos d + e')%Z by lia. rewrite pw_plus. ring.
Qed.

Lemma shl_align_exp m e e' : (e' <= e)%Z -> snd (shl_align m e e') = e'.
Proof. intros L. unfold shl_align. destruct (e' - e)%Z as [|d|d] eqn:D; cbn; lia. Qed.

Lemma at_exact x m e : x == inject_Z m * pw e -> at_loc (x * pw (- e)) m loc_Exact.
Proof. intros E. cbn -[inject_Z]. rewrite E, <- Qmult_assoc, pw_inv by lia. ring. Qed.

Lemma digits_shift p d : Zdigits2 (Zpos (shift_pos d p)) = (Zdigits2 (Zpos p) + Zpos d)%Z.
Proof.
  apply digits_unique; [|cbn; lia]. rewrite shift_pos_mult.
  pose proof (digits_range (Zpos p) ltac:(lia)). pose proof (digits_pos (Zpos p) ltac:(lia)).
  replace (Zdigits2 (Zpos p) + Zpos d - 1)%Z with (Zdigits2 (Zpos p) - 1 + Zpos d)%Z by lia.
  rewrite !Z.pow_add_r by lia. assert (0 < 2 ^ Zpos d)%Z by (apply Z.pow_pos_nonneg; lia). nia.
Qed.

Lemma binary_round_rounded (s : bool) m e :
  rounded ((if s then - 1 else 1) * (inject_Z (Zpos m) * pw e)) (binary_round 53 1024 s m e).
Proof.
  unfold binary_round. set (k := fexp 53 1024 (Zpos (digits2_pos m) + e)).
  pose proof (shl_align_value m e k) as V.
  destruct (shl_align m e k) as [m' e'] eqn:E. cbn [fst snd] in V.
  eapply rounded_eq; [|apply (round_aux_rounded (inject_Z (Zpos m) * pw e))].
  - destruct s; ring.
  - lia.
  - apply at_exact. now rewrite V.
  - unfold shl_align in E. destruct (k - e)%Z as [|d|d] eqn:D; injection E as <- <-.
    + cbn [Zdigits2]. fold k. lia.
    + cbn [Zdigits2]. fold k. lia.
    + rewrite digits_shift. cbn [Zdigits2].
      replace (Zpos (digits2_pos m) + Zpos d + k)%Z with (Zpos (digits2_pos m) + e)%Z by lia. fold k. lia.
Qed.

Lemma zero_rounded s : rounded 0 (S754_zero s).
Proof. constructor; [|intros X; lra|intros X; lra]. intros g _. apply Qabs_nonneg. Qed.

Theorem normalize_rounded m e s : rounded (inject_Z m * pw e) (binary_normalize 53 1024 m e s).
Proof.
  destruct m as [|p|p]; cbn [binary_normalize].
  - eapply rounded_eq; [|apply zero_rounded]. symmetry. apply Qmult_0_l.
  - eapply rounded_eq; [|apply binary_round_rounded]. cbv beta iota. ring.
  - eapply rounded_eq; [|apply binary_round_rounded]. cbv beta iota.
    change (Zneg p) with (- Zpos p)%Z. rewrite inject_Z_opp. ring.
Qed.

(** A finite float is the float nearest to its number. *)
Theorem finite_rounded f : finite f -> rounded (value f) f.
Proof.
  intros F. destruct f as [s|s| |s m e]; [apply zero_rounded|destruct F|destruct F|].
  assert (R : forall g, 0 <= Qabs (value g - value (S754_finite s m e))) by (intros; apply Qabs_nonneg).
  assert (Z0 : Qabs (value (S754_finite s m e) - value (S754_finite s m e)) == 0).
  { setoid_replace (value (S754_finite s m e) - value (S754_finite s m e)) with 0 by ring. reflexivity. }
  constructor; [exact F| | |].
  - unfold value. fold (pw e). rewrite Qabs_Qmult, (Qabs_pos (pw e)) by (pose proof (pw_pos e); lra).
    assert (M : Qabs (inject_Z (if s then Zneg m else Zpos m)) == inject_Z (Zpos m)).
    { destruct s; [change (Zneg m) with (- Zpos m)%Z; rewrite inject_Z_opp, Qabs_opp|]; apply Qabs_pos;
        apply (inj_le 0); lia. }
    rewrite M, limit_pw. cbn -[Z.pow] in F.
    assert (M1 : inject_Z (Zpos m) <= pw 53 - 1).
    { rewrite (pw_Z 53) by lia. change 1 with (inject_Z 1). rewrite <- inject_Z_minus. apply inj_le.
      assert (2 ^ 53 = 2 * 2 ^ 52)%Z by reflexivity. lia. }
    assert (G3 : pw e <= pw 971) by (apply pw_mono; lia). pose proof (pw_pos e).
    assert (G2 : 2 <= pw 53) by (rewrite <- pw_1; apply pw_mono; lia).
    apply Qle_lt_trans with ((pw 53 - 1) * pw e); [apply Qmult_le_compat_r; lra|].
    apply Qle_lt_trans with ((pw 53 - 1) * pw 971); [apply Qmult_le_l; lra|].
    apply Qmult_lt_compat_r; [apply pw_pos|lra].
  - intros g G. rewrite Z0. apply R.
  - intros g G NE Q. rewrite Z0 in Q. destruct NE.
    revert Q. apply (Qabs_case (value g - value (S754_finite s m e))); intros; lra.
Qed.

Lemma cond_opp (s : bool) p : inject_Z (cond_Zopp s (Zpos p)) == (if s then -1 else 1) * inject_Z (Zpos p).
Proof. destruct s; cbn -[inject_Z]; [change (Zneg p) with (- Zpos p)%Z; rewrite inject_Z_opp|]; ring. Qed.

Lemma value_sign s m e : value (S754_finite s m e) == (if s then -1 else 1) * (inject_Z (Zpos m) * pw e).
Proof.
  unfold value. fold (pw e). destruct s; [change (Zneg m) with (- Zpos m)%Z; rewrite inject_Z_opp|]; ring.
Qed.

Theorem add_rounded f g : finite f -> finite g -> rounded (value f + value g) (f64_add f g).
Proof.
  intros F G. destruct f as [s|s| |s m e]; [|destruct F|destruct F|];
    destruct g as [t|t| |t n k]; try solve [destruct G].
  - unfold f64_add. cbn. destruct s, t; cbn; apply (rounded_eq 0); try apply zero_rounded; reflexivity.
  - apply (rounded_eq (value (S754_finite t n k))); [|exact (finite_rounded _ G)]. cbn [value]. ring.
  - apply (rounded_eq (value (S754_finite s m e))); [|exact (finite_rounded _ F)]. cbn [value]. ring.
  - unfold f64_add, SFadd. eapply rounded_eq; [|apply normalize_rounded].
    rewrite inject_Z_plus, !cond_opp, !value_sign.
    rewrite <- (shl_align_value m e (Z.min e k)), <- (shl_align_value n k (Z.min e k)).
    rewrite !shl_align_exp by lia. ring.
Qed.

Theorem sub_rounded f g : finite f -> finite g -> rounded (value f - value g) (f64_sub f g).
Proof.
  intros F G. destruct f as [s|s| |s m e]; [|destruct F|destruct F|];
    destruct g as [t|t| |t n k]; try solve [destruct G].
  - unfold f64_sub. cbn. destruct s, t; cbn; apply (rounded_eq 0); try apply zero_rounded; reflexivity.
  - apply (rounded_eq (value (S754_finite (negb t) n k))); [|exact (finite_rounded (S754_finite (negb t) n k) G)].
    pose proof (value_opp (S754_finite t n k)) as V. cbn [SFopp] in V. rewrite V. cbn [value]. ring.
  - apply (rounded_eq (value (S754_finite s m e))); [|exact (finite_rounded _ F)]. cbn [value]. ring.
  - unfold f64_sub, SFsub. eapply rounded_eq; [|apply normalize_rounded].
    rewrite inject_Z_minus, !cond_opp, !value_sign.
    rewrite <- (shl_align_value m e (Z.min e k)), <- (shl_align_value n k (Z.min e k)).
    rewrite !shl_align_exp by lia. ring.
Qed.

Lemma finite_digits s m e : finite (S754_finite s m e) ->
  (-1074 <= e)%Z /\ (e = -1074 \/ Zdigits2 (Zpos m) = 53)%Z.
Proof.
  intros F. cbn -[Z.pow] in F. split; [lia|].
  destruct F as [[F E]|[F E]]; [right|now left]. apply digits_unique; [exact F|lia].
Qed.

Lemma digits_mult m n : (0 < m)%Z -> (0 < n)%Z ->
  (Zdigits2 m + Zdigits2 n - 1 <= Zdigits2 (m * n))%Z.
Proof.
  intros M N. pose proof (digits_range m M). pose proof (digits_range n N).
  pose proof (digits_range (m * n) ltac:(nia)). pose proof (digits_pos m M). pose proof (digits_pos n N).
  enough (Zdigits2 m - 1 + (Zdigits2 n - 1) < Zdigits2 (m * n))%Z by lia.
  apply (Z.pow_lt_mono_r_iff 2); [lia|pose proof (digits_pos (m * n) ltac:(nia)); lia|].
  rewrite Z.pow_add_r by lia. 
  assert (0 < 2 ^ (Zdigits2 m - 1))%Z by (apply Z.pow_pos_nonneg; lia).
  assert (0 < 2 ^ (Zdigits2 n - 1))%Z by (apply Z.pow_pos_nonneg; lia). nia.
Qed.

Theorem mul_rounded f g : finite f -> finite g -> rounded (value f * value g) (f64_mul f g).
Proof.
  intros F G. destruct f as [s|s| |s m e]; [|destruct F|destruct F|];
    destruct g as [t|t| |t n k]; try solve [destruct G].
  - apply (rounded_eq 0); [reflexivity|apply zero_rounded].
  - apply (rounded_eq 0); [cbn [value]; ring|apply zero_rounded].
  - apply (rounded_eq 0); [cbn [value]; ring|apply zero_rounded].
  - unfold f64_mul, SFmul. eapply rounded_eq; [|apply (round_aux_rounded (inject_Z (Zpos m * Zpos n) * pw (e + k)))].
    + rewrite !value_sign. destruct s, t; cbv [xorb]; rewrite inject_Z_mult, pw_plus; ring.
    + lia.
    + now apply at_exact.
    + destruct (finite_digits _ _ _ F) as [F1 F2]. destruct (finite_digits _ _ _ G) as [G1 G2].
      change (Zpos (m * n)) with (Zpos m * Zpos n)%Z.
      pose proof (digits_mult (Zpos m) (Zpos n) ltac:(lia) ltac:(lia)).
      pose proof (digits_pos (Zpos m) ltac:(lia)). pose proof (digits_pos (Zpos n) ltac:(lia)).
      rewrite fexp_max. lia.
Qed.

Lemma new_location_at d q r x :
  (0 < d)%Z -> (0 <= r < d)%Z -> x * inject_Z d == inject_Z (d * q + r) -> at_loc x q (new_location d r).
Proof.
  intros D R E. rewrite inject_Z_plus, inject_Z_mult in E.
  assert (D0 : 0 < inject_Z d) by now apply (inj_lt 0).
  assert (X : inject_Z d * (x - inject_Z q) == inject_Z r) by lra.
  destruct (Z.eq_dec r 0) as [->|R0].
  - assert (L : new_location d 0 = loc_Exact) by (unfold new_location; now destruct (Z.even d)).
    rewrite L. cbn -[inject_Z]. change (inject_Z 0) with 0 in X.
    apply Qmult_integral in X. destruct X; lra.
  - assert (LL : exists c, new_location d r = loc_Inexact c /\ c = (2 * r ?= d)%Z).
    { unfold new_location, new_location_even, new_location_odd.
      destruct (Z.even d) eqn:V.
      - destruct (Zeq_bool r 0) eqn:Z0; [now apply Zeq_bool_eq in Z0|]. eauto.
      - destruct (Zeq_bool r 0) eqn:Z0; [now apply Zeq_bool_eq in Z0|]. eexists. split; [reflexivity|].
        assert (OD : (2 * r <> d)%Z).
        { intros <-. rewrite Z.even_mul in V. discriminate. }
        destruct (Z.compare_spec (2 * r + 1) d); destruct (Z.compare_spec (2 * r) d); try reflexivity; lia. }
    destruct LL as (c & -> & ->).
    assert (R1 : 0 < inject_Z r) by (apply (inj_lt 0); lia).
    assert (R2 : inject_Z r < inject_Z d) by (apply inj_lt; lia).
    assert (Y : x - inject_Z q == inject_Z r / inject_Z d) by (rewrite <- X; field; lra).
    assert (W : 0 < inject_Z r / inject_Z d < 1).
    { split; [apply Qlt_shift_div_l; lra|apply Qlt_shift_div_r; lra]. }
    destruct (Z.compare_spec (2 * r) d) as [C|C|C]; cbn -[inject_Z].
    + assert (2 * inject_Z r == inject_Z d) by (change 2 with (inject_Z 2); rewrite <- inject_Z_mult; now rewrite C).
      assert (inject_Z r / inject_Z d == 1 # 2) by (rewrite <- H; field; lra). lra.
    + assert (2 * inject_Z r < inject_Z d) by (change 2 with (inject_Z 2); rewrite <- inject_Z_mult; now apply inj_lt).
      assert (inject_Z r / inject_Z d < 1 # 2) by (apply Qlt_shift_div_r; lra). lra.
    + assert (inject_Z d < 2 * inject_Z r) by (change 2 with (inject_Z 2); rewrite <- inject_Z_mult; now apply inj_lt).
      assert (1 # 2 < inject_Z r / inject_Z d) by (apply Qlt_shift_div_l; lra). lra.
Qed.

(** The quotient of two positive numbers, rounded. *)
Theorem div_core_rounded (s : bool) m e n k :
  let '(mz, ez, lz) := SFdiv_core_binary 53 1024 (Zpos m) e (Zpos n) k in
  rounded ((if s then -1 else 1) * ((inject_Z (Zpos m) * pw e) / (inject_Z (Zpos n) * pw k)))
    (binary_round_aux 53 1024 s mz ez lz).
Proof.
  unfold SFdiv_core_binary.
  set (D := (Zdigits2 (Zpos m) + e - (Zdigits2 (Zpos n) + k))%Z).
  set (ez := Z.min (fexp 53 1024 D) (e - k)).
  assert (L1 : (ez <= fexp 53 1024 D)%Z) by (unfold ez; lia).
  assert (L2 : (0 <= e - k - ez)%Z) by (unfold ez; lia). clearbody ez.
  set (m' := match (e - k - ez)%Z with
             | Zpos _ => Z.shiftl (Zpos m) (e - k - ez) | Z0 => Zpos m | Zneg _ => Z0 end).
  assert (M : m' = (Zpos m * 2 ^ (e - k - ez))%Z).
  { unfold m'. destruct (e - k - ez)%Z as [|p|p] eqn:Q; [lia| |lia]. now rewrite Z.shiftl_mul_pow2 by lia. }
  clearbody m'. assert (P2 : (0 < 2 ^ (e - k - ez))%Z) by (apply Z.pow_pos_nonneg; lia).
  pose proof (Z_div_mod m' (Zpos n) ltac:(lia)) as DM. destruct (Z.div_eucl m' (Zpos n)) as [q r].
  destruct DM as [DM R].
  set (x := (inject_Z (Zpos m) * pw e) / (inject_Z (Zpos n) * pw k)).
  assert (N0 : 0 < inject_Z (Zpos n)) by (apply (inj_lt 0); lia).
  pose proof (pw_pos k) as K0. pose proof (pw_pos e) as E0. pose proof (pw_pos ez) as EZ0.
  assert (XE : x * pw (- ez) * inject_Z (Zpos n) == inject_Z m').
  { rewrite M, inject_Z_mult, <- pw_Z by lia.
    replace (e - k - ez)%Z with (e + - k + - ez)%Z by lia. rewrite !pw_plus.
    assert (KI : pw (- k) == / pw k) by (unfold pw; apply Qpower_opp). rewrite KI. unfold x. field. lra. }
  eapply rounded_eq; [|apply (round_aux_rounded x)].
  - destruct s; fold x; ring.
  - nia.
  - apply new_location_at; [lia|lia|]. now rewrite XE, DM.
  - (* enough digits *)
    assert (X : pw (D - 1) < x).
    { unfold x. apply Qlt_shift_div_l; [nra|].
      pose proof (digits_range (Zpos n) ltac:(lia)) as [_ RN]. pose proof (digits_pos (Zpos n) ltac:(lia)) as PN.
      pose proof (digits_range (Zpos m) ltac:(lia)) as [RM _]. pose proof (digits_pos (Zpos m) ltac:(lia)) as PM.
      assert (QN : inject_Z (Zpos n) < pw (Zdigits2 (Zpos n))) by (rewrite pw_Z by lia; now apply inj_lt).
      assert (QM : pw (Zdigits2 (Zpos m) - 1) <= inject_Z (Zpos m)) by (rewrite pw_Z by lia; now apply inj_le).
      apply Qlt_le_trans with (pw (Zdigits2 (Zpos m) - 1) * pw e); [|apply Qmult_le_compat_r; lra].
      rewrite <- pw_plus. replace (Zdigits2 (Zpos m) - 1 + e)%Z with (D - 1 + (Zdigits2 (Zpos n) + k))%Z by (unfold D; lia).
      rewrite (pw_plus (D - 1)), (pw_plus (Zdigits2 (Zpos n)) k).
      apply Qmult_lt_l; [apply pw_pos|]. now apply Qmult_lt_compat_r. }
    destruct (Z_le_gt_dec D ez) as [Q|Q].
    + assert (0 <= Zdigits2 q)%Z by (destruct q; cbn; lia). rewrite !fexp_max in *. lia.
    + assert (B : (2 ^ (D - 1 - ez) <= q)%Z).
      { enough (2 ^ (D - 1 - ez) < q + 1)%Z by lia. apply inj_lt. rewrite <- pw_Z by lia.
        replace (D - 1 - ez)%Z with (D - 1 + - ez)%Z by lia. rewrite pw_plus.
        apply Qlt_le_trans with (x * pw (- ez)); [apply Qmult_lt_compat_r; [apply pw_pos|exact X]|].
        apply Qmult_lt_0_le_reg_r with (inject_Z (Zpos n)); [exact N0|]. rewrite XE, <- inject_Z_mult.
        apply inj_le. nia. }
      assert (B0 : (0 < 2 ^ (D - 1 - ez))%Z) by (apply Z.pow_pos_nonneg; lia).
      pose proof (digits_range q ltac:(lia)). pose proof (digits_pos q ltac:(lia)).
      assert (D - 1 - ez < Zdigits2 q)%Z by (apply (Z.pow_lt_mono_r_iff 2); lia).
      rewrite !fexp_max in *. lia.
Qed.

Theorem div_rounded f g : finite f -> finite g -> ~ value g == 0 -> rounded (value f / value g) (f64_div f g).
Proof.
  intros F G NZ. destruct f as [s|s| |s m e]; [|destruct F|destruct F|];
    destruct g as [t|t| |t n k]; try solve [destruct G]; try (now destruct NZ).
  - apply (rounded_eq 0); [cbn [value]; unfold Qdiv; ring|apply zero_rounded].
  - unfold f64_div, SFdiv. pose proof (div_core_rounded (xorb s t) m e n k) as D.
    destruct (SFdiv_core_binary 53 1024 (Zpos m) e (Zpos n) k) as [[mz ez] lz].
    eapply rounded_eq; [|exact D]. rewrite !value_sign.
    assert (0 < inject_Z (Zpos n)) by (apply (inj_lt 0); lia). pose proof (pw_pos k).
    destruct s, t; cbv [xorb]; field; split; lra.
Qed.

Theorem of_int_rounded z : rounded (inject_Z z) (f64_of_int z).
Proof. eapply rounded_eq; [|apply normalize_rounded]. rewrite pw_0. ring. Qed.

Theorem of_decimal_rounded (neg : bool) m k : (0 <= m)%Z -> (0 <= k)%Z ->
  rounded ((if neg then -1 else 1) * (inject_Z m / inject_Z (10 ^ k))) (f64_of_decimal neg m k).
Proof.
  intros M K. unfold f64_of_decimal. destruct m as [|p|p]; [| |lia].
  - apply (rounded_eq 0); [|apply zero_rounded]. change (inject_Z 0) with 0. unfold Qdiv. ring.
  - destruct (Z.eqb_spec k 0) as [->|NE].
    + eapply rounded_eq; [|apply normalize_rounded]. rewrite pw_0. change (10 ^ 0)%Z with 1%Z.
      destruct neg; [change (Zneg p) with (- Zpos p)%Z; rewrite inject_Z_opp|]; change (inject_Z 1) with 1; field.
    + assert (T : (0 < 10 ^ k)%Z) by (apply Z.pow_pos_nonneg; lia).
      destruct (10 ^ k)%Z as [|q|q]; [lia| |lia].
      pose proof (div_core_rounded neg p 0 q 0) as D.
      destruct (SFdiv_core_binary 53 1024 (Zpos p) 0 (Zpos q) 0) as [[mz ez] lz].
      eapply rounded_eq; [|exact D]. rewrite pw_0.
      assert (0 < inject_Z (Zpos q)) by (apply (inj_lt 0); lia).
      destruct neg; field; lra.
Qed.

(** ** There is only one nearest float *)

Lemma value_pos m e : 0 < value (S754_finite false m e).
Proof.
  rewrite value_sign. pose proof (pw_pos e). assert (0 < inject_Z (Zpos m)) by (apply (inj_lt 0); lia). nra.
Qed.

Lemma value_lt_exp m e n k :
  finite (S754_finite false m e) -> finite (S754_finite false n k) -> (e < k)%Z ->
  value (S754_finite false m e) + pw e <= value (S754_finite false n k).
Proof.
  intros F G L. rewrite !value_sign. cbv iota. rewrite !Qmult_1_l.
  cbn -[Z.pow] in F, G.
  assert (A : inject_Z (Zpos m) + 1 <= pw 53).
  { rewrite (pw_Z 53) by lia. change 1 with (inject_Z 1). rewrite <- inject_Z_plus. apply inj_le.
    assert (2 ^ 53 = 2 * 2 ^ 52)%Z by reflexivity. lia. }
  assert (B : pw 52 <= inject_Z (Zpos n)) by (rewrite (pw_Z 52) by lia; apply inj_le; lia).
  pose proof (pw_pos e). pose proof (pw_pos k).
  apply Qle_trans with (pw 53 * pw e).
  - setoid_replace (inject_Z (Zpos m) * pw e + pw e) with ((inject_Z (Zpos m) + 1) * pw e) by ring.
    apply Qmult_le_compat_r; lra.
  - apply Qle_trans with (pw 52 * pw k); [|apply Qmult_le_compat_r; lra].
    rewrite <- !pw_plus. apply pw_mono. lia.
Qed.

Lemma value_inj_pos m e n k :
  finite (S754_finite false m e) -> finite (S754_finite false n k) ->
  value (S754_finite false m e) == value (S754_finite false n k) -> m = n /\ e = k.
Proof.
  intros F G E. destruct (Z.lt_trichotomy e k) as [L|[->|L]].
  - pose proof (value_lt_exp m e n k F G L). pose proof (pw_pos e). lra.
  - split; [|reflexivity]. rewrite !value_sign in E. cbv iota in E. rewrite !Qmult_1_l in E.
    apply Qmult_inj_r in E; [|pose proof (pw_pos k); lra]. apply (proj1 (inj_eq _ _)) in E. congruence.
  - pose proof (value_lt_exp n k m e G F L). pose proof (pw_pos k). lra.
Qed.

(** Between two positive floats with even last digits there is another one. *)
Lemma float_between m e n k :
  finite (S754_finite false m e) -> finite (S754_finite false n k) ->
  Z.even (Zpos m) = true -> Z.even (Zpos n) = true ->
  value (S754_finite false m e) < value (S754_finite false n k) ->
  exists h, finite h /\ value (S754_finite false m e) < value h /\ value h < value (S754_finite false n k).
Proof.
  intros F G EM EN L. exists (S754_finite false (Pos.succ m) e).
  assert (V : value (S754_finite false (Pos.succ m) e) == value (S754_finite false m e) + pw e).
  { rewrite !value_sign. cbv iota. rewrite Pos2Z.inj_succ. unfold Z.succ. rewrite inject_Z_plus.
    change (inject_Z 1) with 1. ring. }
  pose proof (pw_pos e) as P. split; [|split; [lra|]].
  - cbn -[Z.pow] in F |- *. assert (Zpos m <> 2 ^ 53 - 1)%Z by (intros X; rewrite X in EM; discriminate).
    assert (2 ^ 53 = 2 * 2 ^ 52)%Z by reflexivity. rewrite !Pos2Z.inj_succ. lia.
  - destruct (Z.lt_trichotomy e k) as [LT|[EQ|LT]].
    + rewrite V. destruct (Qle_lt_or_eq _ _ (value_lt_exp m e n k F G LT)) as [|Q]; [assumption|].
      exfalso. (* then [n] would be [2 ^ 52] and [m] odd *)
      rewrite <- V in Q. 
      assert (F' : finite (S754_finite false (Pos.succ m) e)).
      { cbn -[Z.pow] in F |- *. assert (Zpos m <> 2 ^ 53 - 1)%Z by (intros X; rewrite X in EM; discriminate).
        assert (2 ^ 53 = 2 * 2 ^ 52)%Z by reflexivity. rewrite !Pos2Z.inj_succ. lia. }
      destruct (value_inj_pos _ _ _ _ F' G Q). lia.
    + subst k. rewrite V. rewrite !value_sign in *. cbv iota in *. rewrite !Qmult_1_l in *.
      assert (LM : (Zpos m < Zpos n)%Z).
      { apply inj_lt. apply Qmult_lt_r with (pw e); assumption. }
      assert (NE : (Zpos m + 1 <> Zpos n)%Z).
      { intros X. rewrite <- X in EN. rewrite Z.even_add, EM in EN. discriminate. }
      assert (B : inject_Z (Zpos m) + 1 < inject_Z (Zpos n)).
      { change 1 with (inject_Z 1). rewrite <- inject_Z_plus. apply inj_lt. lia. }
      nra.
    + pose proof (value_lt_exp n k m e G F LT). pose proof (pw_pos k). lra.
Qed.

Lemma between_nearer a b c q :
  a < b -> b < c -> Qabs (a - q) == Qabs (c - q) -> Qabs (b - q) < Qabs (a - q).
Proof.
  apply (Qabs_case (a - q)); apply (Qabs_case (b - q)); apply (Qabs_case (c - q)); intros; lra.
Qed.

Lemma limit_pos : 0 < limit.
Proof.
  rewrite limit_pw. pose proof (pw_pos 971).
  assert (2 <= pw 53) by (rewrite <- pw_1; apply pw_mono; lia). nra.
Qed.

(** Two floats with the same sign as [q], both nearest to [q]. *)
Lemma unique_pos q m e n k :
  rounded q (S754_finite false m e) -> rounded q (S754_finite false n k) ->
  m = n /\ e = k.
Proof.
  intros A B. inversion A as [|? ? ? F L1 NA TA|]; inversion B as [|? ? ? G L2 NB TB|]; subst.
  pose proof (NA _ G) as D1. pose proof (NB _ F) as D2.
  assert (D : Qabs (value (S754_finite false m e) - q) == Qabs (value (S754_finite false n k) - q)) by lra.
  destruct (Q_dec (value (S754_finite false m e)) (value (S754_finite false n k))) as [[L|L]|E];
    [| |now apply value_inj_pos].
  - exfalso. assert (EM : Z.even (Zpos m) = true) by (apply (TA _ G); [intros X; lra|now symmetry]).
    assert (EN : Z.even (Zpos n) = true) by (apply (TB _ F); [intros X; lra|assumption]).
    destruct (float_between m e n k F G EM EN L) as (h & FH & H1 & H2).
    pose proof (between_nearer _ _ _ q H1 H2 D). pose proof (NA h FH). lra.
  - exfalso. assert (EM : Z.even (Zpos m) = true) by (apply (TA _ G); [intros X; lra|now symmetry]).
    assert (EN : Z.even (Zpos n) = true) by (apply (TB _ F); [intros X; lra|assumption]).
    destruct (float_between n k m e G F EN EM L) as (h & FH & H1 & H2). symmetry in D.
    pose proof (between_nearer _ _ _ q H1 H2 D). pose proof (NB h FH). lra.
Qed.

Lemma zero_and_pos q s m e : rounded q (S754_zero s) -> rounded q (S754_finite false m e) -> False.
Proof.
  intros A B. inversion A as [? NA S1 S2| |]; inversion B as [|? ? ? G L2 NB TB|]; subst.
  pose proof (NA _ G) as D1. pose proof (NB (S754_zero false) I) as D2. pose proof (value_pos m e) as V.
  assert (E0 : Qabs (value (S754_zero false) - q) == Qabs q).
  { cbn [value]. rewrite <- Qabs_opp. apply Qabs_wd. ring. }
  assert (EM : Z.even (Zpos m) = true).
  { apply (TB (S754_zero false) I); [intros X; change (value (S754_zero false)) with 0 in X; lra|lra]. }
  assert (T : finite (S754_finite false 1 (-1074))) by (right; split; [reflexivity|reflexivity]).
  assert (H1 : 0 < value (S754_finite false 1 (-1074))) by apply value_pos.
  assert (H2 : value (S754_finite false 1 (-1074)) < value (S754_finite false m e)).
  { rewrite !value_sign. cbv iota. rewrite !Qmult_1_l. change (inject_Z 1) with 1.
    assert (E : (-1074 <= e)%Z) by (cbn in G; lia). apply pw_mono in E. pose proof (pw_pos (-1074)).
    assert (M : inject_Z 2 <= inject_Z (Zpos m)) by (apply inj_le; destruct m; try discriminate EM; lia).
    change (inject_Z 2) with 2 in M. nra. }
  pose proof (between_nearer _ _ _ q H1 H2) as X. change (value (S754_zero false)) with 0 in *.
  pose proof (NA _ T) as N1. specialize (X ltac:(lra)). lra.
Qed.

Lemma pos_and_neg q m e n k :
  rounded q (S754_finite false m e) -> rounded q (S754_finite true n k) -> False.
Proof.
  intros A B. inversion A as [|? ? ? F L1 NA TA|]; inversion B as [|? ? ? G L2 NB TB|]; subst.
  pose proof (NA _ G) as D1. pose proof (NB _ F) as D2. pose proof (value_pos m e) as V.
  pose proof (value_pos n k) as W. pose proof (value_opp (S754_finite false n k)) as O. cbn [SFopp negb] in O.
  assert (H1 : value (S754_finite true n k) < value (S754_zero false)) by (rewrite O; cbn [value] in *; lra).
  assert (H2 : value (S754_zero false) < value (S754_finite false m e)) by exact V.
  pose proof (between_nearer _ _ _ q H1 H2 ltac:(lra)). pose proof (NB (S754_zero false) I). lra.
Qed.

Lemma inf_and_zero q s t : rounded q (S754_infinity s) -> rounded q (S754_zero t) -> False.
Proof.
  assert (X : forall q, 0 < q -> limit <= Qabs q -> ~ forall g, finite g -> Qabs q <= Qabs (value g - q)).
  { clear q. intros q P L NA.
    assert (T : finite (S754_finite false 1 (-1074))) by (right; split; [reflexivity|reflexivity]).
    assert (V : 0 < value (S754_finite false 1 (-1074))) by apply value_pos.
    assert (V1 : value (S754_finite false 1 (-1074)) < limit).
    { rewrite limit_pw, value_sign. cbv iota. rewrite !Qmult_1_l. change (inject_Z 1) with 1.
      assert (pw (-1074) <= pw 971) by (apply pw_mono; lia). pose proof (pw_pos 971).
      assert (2 <= pw 53) by (rewrite <- pw_1; apply pw_mono; lia). nra. }
    specialize (NA _ T). rewrite (Qabs_pos q) in * by lra. revert NA.
    apply (Qabs_case (value (S754_finite false 1 (-1074)) - q)); intros; lra. }
  intros A B. inversion A as [| |? L S1 S2]; inversion B as [? NA T1 T2| |]; subst. pose proof limit_pos as LP.
  destruct (Q_dec 0 q) as [[P|P]|P].
  - exact (X q P L NA).
  - apply (X (- q)); [lra|now rewrite Qabs_opp|]. intros g G. rewrite Qabs_opp.
    specialize (NA (SFopp g) (finite_opp g G)). rewrite value_opp in NA.
    setoid_replace (value g - - q) with (- (- value g - q)) by ring. now rewrite Qabs_opp.
  - rewrite <- P in L. change (Qabs 0) with 0 in L. lra.
Qed.

(** The nearest float is determined, but for the sign of zero. *)
Theorem rounded_unique q f g : rounded q f -> rounded q g -> f = g \/ q == 0.
Proof.
  intros A B. pose proof limit_pos as LP.
  destruct f as [s|s| |s m e]; [| |inversion A|]; destruct g as [t|t| |t n k]; try solve [inversion B].
  - inversion A as [? NA S1 S2| |]; inversion B as [? NB T1 T2| |]; subst.
    destruct (Q_dec 0 q) as [[P|P]|P]; [left|left|right; now symmetry].
    + now rewrite S2, T2.
    + now rewrite S1, T1.
  - destruct (inf_and_zero q t s B A).
  - exfalso. destruct t.
    + apply rounded_opp in A. apply rounded_opp in B. exact (zero_and_pos _ _ _ _ A B).
    + exact (zero_and_pos _ _ _ _ A B).
  - destruct (inf_and_zero q s t A B).
  - inversion A as [| |? L1 S1 S2]; inversion B as [| |? L2 T1 T2]; subst.
    destruct (Q_dec 0 q) as [[P|P]|P]; [left|left|right; now symmetry].
    + now rewrite S2, T2.
    + now rewrite S1, T1.
  - inversion A as [| |? L1 S1 S2]; inversion B as [|? ? ? G L2 NB TB|]; subst. lra.
  - exfalso. destruct s.
    + apply rounded_opp in A. apply rounded_opp in B. exact (zero_and_pos _ _ _ _ B A).
    + exact (zero_and_pos _ _ _ _ B A).
  - inversion B as [| |? L1 S1 S2]; inversion A as [|? ? ? G L2 NB TB|]; subst. lra.
  - left. destruct s, t.
    + apply rounded_opp in A. apply rounded_opp in B. destruct (unique_pos _ _ _ _ _ A B). congruence.
    + destruct (pos_and_neg _ _ _ _ _ B A).
    + destruct (pos_and_neg _ _ _ _ _ A B).
    + destruct (unique_pos _ _ _ _ _ A B). congruence.
Qed.

Lemma rounded_finite_inv q f : rounded q f -> finite f \/ exists s, f = S754_infinity s.
Proof. destruct 1; [now left|now left|right; eauto]. Qed.
