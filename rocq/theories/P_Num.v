(** C96 to C98: shifts, absolute values, rounding. *)

From Coq Require Import String ZArith QArith Qround Qabs List Lia Lqa SpecFloat.
From Verif Require Import Base Syntax Host Ops ErrorFmt Text Monad Builtins Eval EvalSpec
  LibFacts LibSpec MapFacts EvalFacts CmdFacts TextFacts SysSpec P_Sys FloatSpec FloatFacts NumSpec Init Demo.
Import ListNotations.
Open Scope Z_scope.

(** ** C96: shifts *)

Lemma wrap64_truncated z : truncated z (wrap64 z).
Proof.
  unfold truncated, fits, wrap64. pose proof (Z.mod_pos_bound (z + 2 ^ 63) (2 ^ 64) ltac:(lia)).
  split; [lia|]. exists (- ((z + 2 ^ 63) / 2 ^ 64)).
  pose proof (Z.div_mod (z + 2 ^ 63) (2 ^ 64) ltac:(lia)). lia.
Qed.

Lemma truncated_unique z r r' : truncated z r -> truncated z r' -> r = r'.
Proof. unfold truncated, fits. intros [F (k & E)] [F' (k' & E')]. lia. Qed.

Lemma two_ints_calls H b name k a1 a2 s x y s1 s2 r s' :
  (forall ev args, run_builtin H ev b args = two_ints H ev name args k) ->
  gives H a1 s (EInteger x) s1 -> gives H a2 s1 (EInteger y) s2 ->
  k x y s2 = (r, s') -> r <> RFuel -> calls H b [a1; a2] s r s'.
Proof.
  intros R E1 E2 K N. apply sure_calls; [exact N|].
  apply (sure_ext _ _ (fun n => two_ints H (eval H n 0) name [a1; a2] k)); [intros; now rewrite R|].
  unfold two_ints. cbv zeta. sure_step. eapply sure_ev_arg; [reflexivity|exact E1|].
  eapply sure_ev_arg; [reflexivity|exact E2|]. now apply sure_const.
Qed.

(** The outcome of a shift by [n], which is between 0 and 63. *)
Lemma shift_result H b : In b [MLsh; MARsh; MLRsh] ->
  exists name f, (forall ev args, run_builtin H ev b args
     = two_ints H ev name args (fun a y => n <- shift_amount H y ;; ret (EInteger (f a n))))
   /\ forall a n, 0 <= n < 64 -> shifted b a n (f a n).
Proof.
  intros I. repeat destruct I as [<-|I]; [| | |destruct I].
  - do 2 eexists. split; [reflexivity|]. intros a n R. cbn [shifted].
    rewrite <- Z.shiftl_mul_pow2 by lia. apply wrap64_truncated.
  - do 2 eexists. split; [reflexivity|]. intros a n R. cbn [shifted].
    apply Z.shiftr_div_pow2. lia.
  - do 2 eexists. split; [reflexivity|]. intros a n R. cbn [shifted].
    exists (a mod 2 ^ 64). split; [apply Z.mod_pos_bound; lia|]. split.
    + exists (- (a / 2 ^ 64)). pose proof (Z.div_mod a (2 ^ 64) ltac:(lia)). lia.
    + rewrite Z.shiftr_div_pow2 by lia. apply wrap64_truncated.
Qed.

(** Shifts by 0 to 63 places. *)
Theorem C96_shift H b a1 a2 s x n s1 s2 :
  In b [MLsh; MARsh; MLRsh] ->
  gives H a1 s (EInteger x) s1 -> gives H a2 s1 (EInteger n) s2 -> 0 <= n < 64 ->
  exists r, shifted b x n r /\ calls H b [a1; a2] s (ROk (EInteger r)) s2.
Proof.
  intros I E1 E2 R. destruct (shift_result H b I) as (name & f & RB & F).
  exists (f x n). split; [apply F, R|]. eapply two_ints_calls; [exact RB|exact E1|exact E2| |discriminate].
  unfold shift_amount. replace ((0 <=? n) && (n <? 64))%Z%bool with true; [reflexivity|].
  symmetry. apply andb_true_intro. split; [apply Z.leb_le|apply Z.ltb_lt]; lia.
Qed.

(** The result is determined by this. *)
Theorem C96_determined b a n r r' : shifted b a n r -> shifted b a n r' -> r = r'.
Proof.
  destruct b; cbn [shifted]; try contradiction.
  - intros (u & R & (k & E) & T) (u' & R' & (k' & E') & T').
    assert (u = u') as <- by lia. eapply truncated_unique; eassumption.
  - congruence.
  - apply truncated_unique.
Qed.

(** Shifting to the right by more than no places never gives a negative number
    with [l-rsh], and shifting to the left is exact when the product fits. *)
Theorem C96_exact x n r : 0 <= n < 64 ->
  (shifted MLsh x n r -> fits (x * 2 ^ n) -> r = x * 2 ^ n)
  /\ (shifted MLRsh x n r -> 0 < n -> 0 <= r)
  /\ (shifted MLRsh x n r -> fits x -> 0 <= x -> r = x / 2 ^ n).
Proof.
  intros R. split; [|split].
  - intros T F. apply (truncated_unique (x * 2 ^ n)); [exact T|]. split; [exact F|exists 0; lia].
  - intros (u & U & _ & T) N. assert (Q : 0 <= u / 2 ^ n < 2 ^ 63).
    { split; [apply Z.div_pos; [lia|apply Z.pow_pos_nonneg; lia]|].
      apply Z.div_lt_upper_bound; [apply Z.pow_pos_nonneg; lia|].
      assert (2 ^ 1 <= 2 ^ n) by (apply Z.pow_le_mono_r; lia). lia. }
    unfold truncated, fits in T. destruct T as [T (k & E)]. lia.
  - intros (u & U & (k & E) & T) F P. unfold fits in F. assert (u = x) as -> by lia.
    apply (truncated_unique (x / 2 ^ n)); [exact T|]. split; [|exists 0; lia].
    assert (0 <= x / 2 ^ n) by (apply Z.div_pos; [lia|apply Z.pow_pos_nonneg; lia]).
    assert (x / 2 ^ n <= x).
    { apply Z.div_le_upper_bound; [apply Z.pow_pos_nonneg; lia|].
      assert (0 < 2 ^ n) by (apply Z.pow_pos_nonneg; lia). nia. }
    unfold fits. lia.
Qed.

(** Other amounts: the shell crashes, or they are taken modulo 64, as the shell
    was built. *)
Theorem C96_other_amounts H b a1 a2 s x n s1 s2 :
  In b [MLsh; MARsh; MLRsh] ->
  gives H a1 s (EInteger x) s1 -> gives H a2 s1 (EInteger n) s2 -> ~ 0 <= n < 64 ->
  match h_overflow H with
  | OvfPanic => calls H b [a1; a2] s (RPanic PArith) s2
  | OvfWrap => exists r, shifted b x (n mod 64) r /\ calls H b [a1; a2] s (ROk (EInteger r)) s2
  end.
Proof.
  intros I E1 E2 R. destruct (shift_result H b I) as (name & f & RB & F).
  assert (T : ((0 <=? n) && (n <? 64))%bool = false).
  { destruct (Z.leb_spec 0 n); [|reflexivity]. destruct (Z.ltb_spec n 64); [lia|reflexivity]. }
  destruct (h_overflow H) eqn:O.
  - eapply two_ints_calls; [exact RB|exact E1|exact E2| |discriminate].
    unfold shift_amount. rewrite T, O. reflexivity.
  - exists (f x (n mod 64)). split; [apply F, Z.mod_pos_bound; lia|].
    eapply two_ints_calls; [exact RB|exact E1|exact E2| |discriminate].
    unfold shift_amount. rewrite T, O. reflexivity.
Qed.

(** So a shift can give a wrong result, without error. *)
Theorem C96_error_refuted :
  value_of "math@lsh 1 64" = ROk (EInteger 1) /\ value_of "math@rsh 8 (0 - 1)" = ROk (EInteger 0)
  /\ value_of "math@lsh 1 65" = ROk (EInteger 2).
Proof. repeat split; vm_compute; reflexivity. Qed.

(** Values that are no integers. *)
Theorem C96_others H b a1 a2 s v s1 :
  In b [MLsh; MARsh; MLRsh] -> gives H a1 s v s1 -> (forall z, v <> EInteger z) ->
  exists m, calls H b [a1; a2] s (RErr (CustomError m)) s1.
Proof.
  intros I E1 N. destruct (shift_result H b I) as (name & f & RB & F).
  exists (lit "invalid " ++ name ++ lit " argument " ++ display H v). apply sure_calls; [discriminate|].
  eapply (sure_ext _ _ (fun n => two_ints H (eval H n 0) name [a1; a2] _)); [intros; now rewrite RB|].
  unfold two_ints. cbv zeta. sure_step. eapply sure_ev_arg; [reflexivity|exact E1|].
  destruct v; try (now destruct (N z)); apply sure_throw.
Qed.

Example C96_example :
  value_of "math@lsh 3 4" = ROk (EInteger 48)
  /\ value_of "math@rsh (0 - 5) 1" = ROk (EInteger (-3))
  /\ value_of "math@l-rsh (0 - 1) 60" = ROk (EInteger 15)
  /\ value_of "math@lsh 1 63" = ROk (EInteger (- 2 ^ 63))
  /\ shifted MARsh (-5) 1 (-3).
Proof. do 4 (split; [vm_compute; reflexivity|]). reflexivity. Qed.

(** ** C97: absolute values *)

Theorem C97_abs H a s s1 :
  (forall z, gives H a s (EInteger z) s1 -> fits (Z.abs z) -> calls H MAbs [a] s (ROk (EInteger (Z.abs z))) s1)
  /\ (forall f, gives H a s (EFloat f) s1 -> finite f ->
        exists g, calls H MAbs [a] s (ROk (EFloat g)) s1 /\ finite g /\ (value g == Qabs (value f))%Q)
  /\ (forall v, gives H a s v s1 -> (forall z, v <> EInteger z) -> (forall f, v <> EFloat f) ->
        exists m, calls H MAbs [a] s (RErr (CustomError m)) s1).
Proof.
  split; [|split].
  - intros z E F. call. unfold run_abs, exact1. sure_step. eapply sure_ev_arg; [reflexivity|exact E|]. cbv iota.
    unfold arith. replace (in_i64 (Z.abs z)) with true; [apply sure_const; reflexivity|].
    symmetry. unfold in_i64. apply andb_true_intro. unfold fits in F. split; [apply Z.leb_le|apply Z.leb_le]; unfold i64_min, i64_max; lia.
  - intros f E F. exists (SFabs f). split.
    + call. unfold run_abs, exact1. sure_step. eapply sure_ev_arg; [reflexivity|exact E|]. apply sure_ret.
    + destruct f as [t|t| |t m e]; [now split|destruct F|destruct F|].
      split; [exact F|]. cbn [SFabs]. pose proof (value_pos m e) as P. destruct t.
      * rewrite <- (Qabs_pos (value (S754_finite false m e))) by lra.
        rewrite <- Qabs_opp. apply Qabs_wd. now rewrite <- value_opp.
      * symmetry. apply Qabs_pos. lra.
  - intros v E N1 N2. exists (lit "invalid abs argument " ++ debug H v).
    call. unfold run_abs, exact1. sure_step. eapply sure_ev_arg; [reflexivity|exact E|].
    destruct v; try (now destruct (N1 z)); try (now destruct (N2 f)); apply sure_throw.
Qed.

(** The least integer has no absolute value: the shell crashes, or gives back a
    negative number. *)
Theorem C97_least_refuted H a s s1 :
  gives H a s (EInteger (- 2 ^ 63)) s1 ->
  match h_overflow H with
  | OvfPanic => calls H MAbs [a] s (RPanic PArith) s1
  | OvfWrap => calls H MAbs [a] s (ROk (EInteger (- 2 ^ 63))) s1
  end.
Proof.
  intros E. destruct (h_overflow H) eqn:O; call; unfold run_abs, exact1; sure_step;
    (eapply sure_ev_arg; [reflexivity|exact E|]); cbv iota; rewrite O; apply sure_const; reflexivity.
Qed.

Example C97_example :
  value_of "math@abs (0 - 5)" = ROk (EInteger 5)
  /\ value_of "math@abs (math@lsh 1 63)" = ROk (EInteger (- 2 ^ 63))
  /\ value_of "(math@abs (-1.5)) == 1.5" = ROk (EBoolean true).
Proof. repeat split; vm_compute; reflexivity. Qed.

(** ** C98: rounding to whole numbers *)

(** Whole numbers of at most 53 binary digits are floats. *)
Lemma small_int_float a : 0 < a < 2 ^ 53 -> exists g, finite g /\ (value g == inject_Z a)%Q.
Proof.
  intros R. set (d := Zdigits2 a). pose proof (digits_range a ltac:(lia)) as D. fold d in D.
  pose proof (digits_pos a ltac:(lia)) as D0. fold d in D0.
  assert (D1 : d <= 53) by (apply digits_le; lia).
  assert (P : 0 < a * 2 ^ (53 - d)) by (assert (0 < 2 ^ (53 - d)) by (apply Z.pow_pos_nonneg; lia); nia).
  destruct (a * 2 ^ (53 - d)) as [|p|p] eqn:E; [lia| |lia].
  exists (S754_finite false p (d - 53)). split.
  - left. split; [|lia]. rewrite <- E.
    assert (P2 : 0 < 2 ^ (53 - d)) by (apply Z.pow_pos_nonneg; lia).
    assert (A : 2 ^ 52 = 2 ^ (d - 1) * 2 ^ (53 - d)) by (rewrite <- Z.pow_add_r by lia; f_equal; lia).
    assert (B : 2 ^ 53 = 2 ^ d * 2 ^ (53 - d)) by (rewrite <- Z.pow_add_r by lia; f_equal; lia).
    nia.
  - cbn [value]. fold (pw (d - 53)). rewrite <- E, inject_Z_mult, <- pw_Z by lia.
    rewrite <- Qmult_assoc, pw_inv by lia. ring.
Qed.

(** A number that is a float is rounded to itself. *)
Lemma rounded_exact q f : rounded q f -> (exists g, finite g /\ (value g == q)%Q) -> (Qabs q < limit)%Q ->
  finite f /\ (value f == q)%Q.
Proof.
  intros R (g & G & V) L.
  assert (Z0 : (Qabs (value g - q) == 0)%Q) by (rewrite V; setoid_replace (q - q)%Q with 0%Q by ring; reflexivity).
  inversion R as [s A|s m e F _ A _|s L']; subst.
  - split; [exact I|]. specialize (A g G). rewrite Z0 in A. cbn [value]. revert A.
    apply (Qabs_case q); intros; lra.
  - split; [exact F|]. specialize (A g G). rewrite Z0 in A. revert A.
    apply (Qabs_case (value (S754_finite s m e) - q)); intros; lra.
  - lra.
Qed.

Lemma small_limit a : 0 < a < 2 ^ 53 -> (Qabs (inject_Z a) < limit)%Q.
Proof.
  intros R. rewrite Qabs_pos by (apply (inj_le 0); lia). rewrite limit_pw.
  assert (A : (inject_Z a <= pw 53 - 1)%Q).
  { rewrite (pw_Z 53) by lia. change 1%Q with (inject_Z 1). rewrite <- inject_Z_minus. apply inj_le. lia. }
  assert (B : (1 <= pw 971)%Q) by (rewrite <- pw_0; apply pw_mono; lia).
  assert (C : (0 < inject_Z a)%Q) by (apply (inj_lt 0); lia). nra.
Qed.

Lemma normalize_exact (s : bool) p : Zpos p < 2 ^ 53 ->
  let g := binary_normalize 53 1024 (if s then Zneg p else Zpos p) 0 s in
  finite g /\ (value g == inject_Z (if s then Zneg p else Zpos p))%Q.
Proof.
  intros L g. pose proof (normalize_rounded (if s then Zneg p else Zpos p) 0 s) as R. fold g in R.
  apply rounded_eq with (q' := inject_Z (if s then Zneg p else Zpos p)) in R; [|rewrite pw_0; ring].
  destruct (small_int_float (Zpos p) ltac:(lia)) as (h & F & V).
  apply rounded_exact; [exact R| |].
  - destruct s.
    + exists (SFopp h). split; [now apply finite_opp|]. rewrite value_opp, V.
      change (Zneg p) with (- Zpos p). now rewrite inject_Z_opp.
    + exists h. split; assumption.
  - destruct s; [change (Zneg p) with (- Zpos p); rewrite inject_Z_opp, Qabs_opp|]; apply small_limit; lia.
Qed.

Lemma floor_is q z : (inject_Z z <= q)%Q -> (q < inject_Z z + 1)%Q -> Qfloor q = z.
Proof.
  intros A B. pose proof (Qfloor_le q) as C. pose proof (Qlt_floor q) as D.
  rewrite inject_Z_plus in D. change (inject_Z 1) with 1%Q in D.
  assert (z < Qfloor q + 1) by (apply inj_lt; rewrite inject_Z_plus; change (inject_Z 1) with 1%Q; lra).
  assert (Qfloor q < z + 1) by (apply inj_lt; rewrite inject_Z_plus; change (inject_Z 1) with 1%Q; lra). lia.
Qed.

Lemma ceiling_is q z : (q <= inject_Z z)%Q -> (inject_Z z - 1 < q)%Q -> Qceiling q = z.
Proof.
  intros A B. unfold Qceiling. rewrite (floor_is (- q) (- z)); [lia| |]; rewrite inject_Z_opp; lra.
Qed.

Lemma whole_int fn q k z : (q == inject_Z k)%Q -> whole fn q z -> z = k.
Proof.
  intros E W. destruct W as [q|q|q P|q P|q P|q P];
    first [apply floor_is; lra | apply ceiling_is; lra].
Qed.

Lemma int_quot k n d : 0 < d -> (inject_Z k <= inject_Z n / inject_Z d)%Q <-> k * d <= n.
Proof.
  intros P. assert (D : (0 < inject_Z d)%Q) by now apply (inj_lt 0). split; intros A.
  - apply inj_le. rewrite inject_Z_mult. apply Qmult_le_compat_r with (z := inject_Z d) in A; [|lra].
    unfold Qdiv in A. rewrite <- Qmult_assoc, (Qmult_comm (/ _)), Qmult_inv_r, Qmult_1_r in A by lra. exact A.
  - apply Qle_shift_div_l; [exact D|]. rewrite <- inject_Z_mult. now apply inj_le.
Qed.

Lemma int_quot_lt k n d : 0 < d -> (inject_Z n / inject_Z d < inject_Z k)%Q <-> n < k * d.
Proof.
  intros P. pose proof (int_quot k n d P). split; intros A.
  - destruct (Z_lt_le_dec n (k * d)) as [L|L]; [exact L|]. apply (proj2 H) in L. lra.
  - destruct (Qlt_le_dec (inject_Z n / inject_Z d) (inject_Z k)) as [L|L]; [exact L|]. apply (proj1 H) in L. lia.
Qed.

(** The magnitude of the result and the whole number. *)
Lemma magnitude_whole fn (neg : bool) m d z : 0 < m -> 2 <= d ->
  whole fn ((if neg then -1 else 1) * (inject_Z m / inject_Z d))%Q z ->
  0 <= rounded_magnitude (lit fn) neg m d <= m
  /\ z = if neg then - rounded_magnitude (lit fn) neg m d else rounded_magnitude (lit fn) neg m d.
Proof.
  intros M D W. set (q := (inject_Z m / inject_Z d)%Q) in *.
  assert (down : 0 <= m / d /\ m / d * d <= m < (m / d + 1) * d).
  { split; [apply Z.div_pos; lia|]. pose proof (Z.div_mod m d ltac:(lia)). pose proof (Z.mod_pos_bound m d ltac:(lia)). lia. }
  assert (up : (- (- m / d) - 1) * d < m <= - (- m / d) * d).
  { pose proof (Z.div_mod (- m) d ltac:(lia)). pose proof (Z.mod_pos_bound (- m) d ltac:(lia)). lia. }
  assert (half : 0 <= (2 * m + d) / (2 * d) /\ (2 * m + d) / (2 * d) * (2 * d) <= 2 * m + d < ((2 * m + d) / (2 * d) + 1) * (2 * d)).
  { split; [apply Z.div_pos; lia|].
    pose proof (Z.div_mod (2 * m + d) (2 * d) ltac:(lia)). pose proof (Z.mod_pos_bound (2 * m + d) (2 * d) ltac:(lia)). lia. }
  set (lo := m / d) in *. set (hi := - (- m / d)) in *. set (ha := (2 * m + d) / (2 * d)) in *.
  assert (Q1 : (inject_Z lo <= q)%Q) by (apply int_quot; lia).
  assert (Q2 : (q < inject_Z lo + 1)%Q).
  { change 1%Q with (inject_Z 1). rewrite <- inject_Z_plus. apply int_quot_lt; lia. }
  assert (Q3 : (q <= inject_Z hi)%Q).
  { destruct (Qlt_le_dec (inject_Z hi) q) as [L|L]; [|exact L].
    assert (X : (inject_Z hi <= q)%Q) by lra. apply (proj1 (int_quot hi m d ltac:(lia))) in X.
    assert (E : m = hi * d) by lia. unfold q in L. rewrite E, inject_Z_mult in L.
    assert (0 < inject_Z d)%Q by (apply (inj_lt 0); lia).
    assert (inject_Z hi * inject_Z d / inject_Z d == inject_Z hi)%Q by (field; lra). lra. }
  assert (Q4 : (inject_Z hi - 1 < q)%Q).
  { destruct (Qlt_le_dec (inject_Z hi - 1) q) as [L|L]; [exact L|].
    destruct (Qlt_le_dec q (inject_Z (hi - 1))) as [L2|L2].
    - apply (proj1 (int_quot_lt (hi - 1) m d ltac:(lia))) in L2. lia.
    - assert (E : (q == inject_Z (hi - 1))%Q).
      { rewrite inject_Z_minus in *. change (inject_Z 1) with 1%Q in *. lra. }
      assert (X : (inject_Z m == inject_Z (hi - 1) * inject_Z d)%Q).
      { rewrite <- E. unfold q. assert (0 < inject_Z d)%Q by (apply (inj_lt 0); lia). field. lra. }
      rewrite <- inject_Z_mult in X. apply (proj1 (inj_eq _ _)) in X. lia. }
  assert (QH : (q + (1 # 2) == inject_Z (2 * m + d) / inject_Z (2 * d))%Q).
  { unfold q. rewrite inject_Z_plus, !inject_Z_mult. change (inject_Z 2) with 2%Q.
    assert (0 < inject_Z d)%Q by (apply (inj_lt 0); lia). field. lra. }
  assert (Q5 : (inject_Z ha <= q + (1 # 2))%Q) by (rewrite QH; apply int_quot; lia).
  assert (Q6 : (q + (1 # 2) < inject_Z ha + 1)%Q).
  { rewrite QH. change 1%Q with (inject_Z 1). rewrite <- inject_Z_plus. apply int_quot_lt; lia. }
  assert (Q0 : (0 < q)%Q).
  { unfold q. apply Qlt_shift_div_l; [apply (inj_lt 0); lia|]. rewrite Qmult_0_l. apply (inj_lt 0). lia. }
  assert (B1 : lo <= m) by nia. assert (B2 : 0 <= hi <= m) by nia. assert (B3 : ha <= m) by nia.
  assert (IO : forall k, (inject_Z (- k) == - inject_Z k)%Q) by (intros k; rewrite inject_Z_opp; reflexivity).
  inversion W; subst; destruct neg; try (exfalso; lra);
    match goal with
    | |- context[rounded_magnitude (lit ?x) ?n m d] =>
        let r := eval cbv in (str_eqb (lit x) (lit "floor"), str_eqb (lit x) (lit "ceil"), str_eqb (lit x) (lit "round")) in
        unfold rounded_magnitude;
        match r with
        | (?a, ?b, ?c) => change (str_eqb (lit x) (lit "floor")) with a; change (str_eqb (lit x) (lit "ceil")) with b;
            change (str_eqb (lit x) (lit "round")) with c
        end
    end; cbv iota; fold lo hi ha; (split; [lia|]);
    first [apply floor_is; rewrite ?IO; lra | apply ceiling_is; rewrite ?IO; lra].
Qed.

Lemma rounded_float fn f z : finite f -> whole fn (value f) z ->
  finite (f64_rounded (lit fn) f) /\ (value (f64_rounded (lit fn) f) == inject_Z z)%Q.
Proof.
  intros F W. destruct f as [s|s| |s m e]; [|destruct F|destruct F|].
  - cbn [f64_rounded]. split; [exact I|]. rewrite (whole_int fn 0 0 z); [reflexivity|reflexivity|exact W].
  - unfold f64_rounded. destruct (Z.leb_spec 0 e) as [L|L].
    + split; [exact F|]. assert (V : (value (S754_finite s m e) == inject_Z ((if s then Zneg m else Zpos m) * 2 ^ e))%Q).
      { unfold value. fold (pw e). rewrite inject_Z_mult, pw_Z by lia. reflexivity. }
      now rewrite (whole_int _ _ _ _ V W).
    + assert (P : 2 <= 2 ^ (- e)) by (change 2 with (2 ^ 1) at 1; apply Z.pow_le_mono_r; lia).
      assert (V : (value (S754_finite s m e) == (if s then -1 else 1) * (inject_Z (Zpos m) / inject_Z (2 ^ (- e))))%Q).
      { rewrite value_sign, <- pw_Z by lia. pose proof (pw_pos (- e)).
        pose proof (pw_inv e (- e) ltac:(lia)) as V.
        assert (E : (inject_Z (Zpos m) * pw e == inject_Z (Zpos m) / pw (- e))%Q).
        { apply Qmult_inj_r with (pw (- e)); [lra|]. rewrite <- Qmult_assoc, V. field. lra. }
        now rewrite E. }
      assert (W' : whole fn ((if s then -1 else 1) * (inject_Z (Zpos m) / inject_Z (2 ^ (- e))))%Q z).
      { clear - V W. remember (value (S754_finite s m e)) as q.
        destruct W; [rewrite (Qfloor_comp _ _ V)|rewrite (Qceiling_comp _ _ V)|rewrite (Qfloor_comp _ _ V)
          |rewrite (Qceiling_comp _ _ V)
          |rewrite (Qfloor_comp _ _ (Qplus_comp _ _ V _ _ (Qeq_refl (1 # 2))))
          |rewrite (Qceiling_comp _ _ (Qminus_comp _ _ V _ _ (Qeq_refl (1 # 2))))];
          constructor; now rewrite <- V. }
      destruct (magnitude_whole fn s (Zpos m) (2 ^ (- e)) z ltac:(lia) P W') as [R ->].
      assert (M : Zpos m < 2 ^ 53) by (cbn -[Z.pow] in F; assert (2 ^ 53 = 2 * 2 ^ 52) by reflexivity; lia).
      destruct (rounded_magnitude (lit fn) s (Zpos m) (2 ^ (- e))) as [|a|a]; [| |lia].
      * split; [exact I|]. destruct s; reflexivity.
      * destruct (normalize_exact s a ltac:(lia)) as [N1 N2]. split; [exact N1|]. rewrite N2. now destruct s.
Qed.

(** The rounding functions give exactly the whole numbers they should. *)
Theorem C98_rounding H fn a s f s1 z :
  gives H a s (EFloat f) s1 -> finite f -> whole fn (value f) z ->
  exists g, calls H (MRound (lit fn)) [a] s (ROk (EFloat g)) s1 /\ finite g /\ (value g == inject_Z z)%Q.
Proof.
  intros E F W. exists (f64_rounded (lit fn) f). split; [|now apply rounded_float].
  call. unfold run_round, exact1. sure_step. eapply sure_ev_arg; [reflexivity|exact E|]. apply sure_ret.
Qed.

(** Every number has a whole number for each of the four functions. *)
Theorem C98_total fn q : In fn ["floor"; "ceil"; "trunc"; "round"]%string ->
  exists z, whole fn q z /\ forall z', whole fn q z' -> z' = z.
Proof.
  intros I. destruct (Qlt_le_dec q 0) as [L|L];
    repeat destruct I as [<-|I]; try destruct I;
    (eexists; split; [solve [now constructor]|]); intros z' W; inversion W; subst; try reflexivity; exfalso; lra.
Qed.

(** Integers, infinities and NaN are kept; other values give an error. *)
Theorem C98_others H fn a s v s1 :
  gives H a s v s1 ->
  (In v [EFloat (S754_infinity true); EFloat (S754_infinity false); EFloat S754_nan] \/ (exists z, v = EInteger z) ->
     calls H (MRound (lit fn)) [a] s (ROk v) s1)
  /\ ((forall z, v <> EInteger z) -> (forall f, v <> EFloat f) ->
      exists m, calls H (MRound (lit fn)) [a] s (RErr (CustomError m)) s1).
Proof.
  intros E. split.
  - intros [I|(z & ->)].
    + repeat destruct I as [<-|I]; try destruct I; call; unfold run_round, exact1; sure_step;
        (eapply sure_ev_arg; [reflexivity|exact E|]); apply sure_ret.
    + call. unfold run_round, exact1. sure_step. eapply sure_ev_arg; [reflexivity|exact E|]. apply sure_ret.
  - intros N1 N2. exists (lit "invalid " ++ lit fn ++ lit " argument " ++ debug H v).
    call. unfold run_round, exact1. sure_step. eapply sure_ev_arg; [reflexivity|exact E|].
    destruct v; try (now destruct (N1 z)); try (now destruct (N2 f)); apply sure_throw.
Qed.

Example C98_example :
  value_of "(math@floor 2.5) == 2.0" = ROk (EBoolean true)
  /\ value_of "(math@round 2.5) == 3.0" = ROk (EBoolean true)
  /\ value_of "(math@round (-2.5)) == (-3.0)" = ROk (EBoolean true)
  /\ value_of "(math@ceil (-2.5)) == (-2.0)" = ROk (EBoolean true)
  /\ value_of "(math@trunc 123456789.75) == 123456789.0" = ROk (EBoolean true)
  /\ value_of "math@ceil 7" = ROk (EInteger 7)
  /\ whole "round" (5 # 2) 3 /\ whole "round" (-5 # 2) (-3).
Proof.
  do 6 (split; [vm_compute; reflexivity|]). split.
  - change 3 with (Qfloor ((5 # 2) + (1 # 2))). now constructor.
  - change (-3) with (Qceiling ((-5 # 2) - (1 # 2))). now constructor.
Qed.

Print Assumptions C96_shift.
Print Assumptions C96_determined.
Print Assumptions C96_exact.
Print Assumptions C96_other_amounts.
Print Assumptions C96_error_refuted.
Print Assumptions C96_others.
Print Assumptions C97_abs.
Print Assumptions C97_least_refuted.
Print Assumptions C98_rounding.
Print Assumptions C98_total.
Print Assumptions C98_others.
