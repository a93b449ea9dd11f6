(** Arithmetic of the calendar. *)

From Coq Require Import ZArith Lia List Bool.
From Verif Require Import CalendarSpec.
Import ListNotations.
Local Open Scope Z_scope.

(** A leap year, with remainders that have the sign of the year. *)
Definition is_leap (y : Z) : bool :=
  (Z.rem y 4 =? 0) && negb (Z.rem y 100 =? 0) || (Z.rem y 100 =? 0) && (Z.rem y 400 =? 0).

Lemma rem_divides y k : k <> 0 -> (Z.rem y k =? 0) = true <-> (k | y).
Proof. intros K. rewrite Z.eqb_eq. now apply Z.rem_divide. Qed.

Lemma is_leap_spec y : is_leap y = true <-> leap y.
Proof.
  unfold is_leap, leap. rewrite orb_true_iff, !andb_true_iff, negb_true_iff, <- not_true_iff_false.
  rewrite !rem_divides by lia. split.
  - intros [[A B] | [A B]]; split; auto. destruct B as [k ->]. exists (k * 100). lia.
  - intros [A [B | B]]; [now left |]. right. split; [| exact B]. destruct B as [k ->]. exists (k * 4). lia.
Qed.

(** The lengths of the months. *)
Definition month_days (y m : Z) : Z :=
  if m =? 2 then 28 + (if is_leap y then 1 else 0) else 31 - Z.rem (Z.rem (m - 1) 7) 2.

Lemma months m : 1 <= m <= 12 ->
  m = 1 \/ m = 2 \/ m = 3 \/ m = 4 \/ m = 5 \/ m = 6 \/ m = 7 \/ m = 8 \/ m = 9 \/ m = 10 \/ m = 11
  \/ m = 12.
Proof. lia. Qed.

Lemma month_length_days y m : 1 <= m <= 12 -> month_length y m (month_days y m).
Proof.
  intros M. apply months in M. repeat destruct M as [-> | M]; try subst m; try reflexivity.
  unfold month_length, month_days. cbn [Z.eqb Pos.eqb].
  destruct (is_leap y) eqn:L; [left | right]; (split; [| lia]).
  - now apply is_leap_spec.
  - rewrite <- is_leap_spec. congruence.
Qed.

Lemma month_length_range y m n : month_length y m n -> 1 <= m <= 12 /\ 28 <= n <= 31.
Proof.
  unfold month_length. intros L.
  destruct (Z_lt_le_dec m 1) as [A | A]; [destruct m as [| p | p]; try lia; contradiction |].
  destruct (Z_lt_le_dec 12 m) as [B | B].
  { exfalso. destruct m as [| p | p]; try lia.
    do 4 (destruct p as [p | p |]; try lia; try contradiction). }
  split; [lia |].
  pose proof (months m ltac:(lia)) as M. repeat destruct M as [-> | M]; try subst m; lia.
Qed.

Lemma month_length_unique y m n n' : month_length y m n -> month_length y m n' -> n = n'.
Proof.
  intros A B. destruct (month_length_range y m n A) as [M _]. apply months in M.
  repeat destruct M as [-> | M]; try subst m; cbn in A, B; try congruence.
  destruct A as [[? ?] | [? ?]], B as [[? ?] | [? ?]]; try lia; contradiction.
Qed.

Lemma month_days_length y m n : month_length y m n -> n = month_days y m.
Proof.
  intros L. apply (month_length_unique y m); [exact L |].
  apply month_length_days. apply (month_length_range y m n L).
Qed.

(** Days of the week. *)
Definition table : list Z := [0; 3; 2; 5; 0; 3; 5; 1; 4; 6; 2; 4].
Definition week_year (y m : Z) : Z := if m <? 3 then y - 1 else y.
Definition week_sum (y m d : Z) : Z :=
  week_year y m + week_year y m / 4 - week_year y m / 100 + week_year y m / 400
  + nth (Z.to_nat (m - 1)) table 0 + d.
Definition week_number (y m d : Z) : Z := Z.rem (week_sum y m d) 7.

Lemma table_small m : 0 <= nth (Z.to_nat (m - 1)) table 0 <= 6.
Proof.
  generalize (Z.to_nat (m - 1)). intros n.
  do 12 (destruct n as [| n]; [cbn; lia |]). cbn. destruct n; lia.
Qed.

Lemma div_step y k : 0 < k -> y / k = (y - 1) / k + (if Z.rem y k =? 0 then 1 else 0).
Proof.
  intros K. destruct (Z.rem y k =? 0) eqn:R.
  - apply rem_divides in R; [| lia]. destruct R as [q ->].
    rewrite Z.div_mul by lia. replace (q * k - 1) with ((k - 1) + (q - 1) * k) by lia.
    rewrite Z.div_add, (Z.div_small (k - 1) k) by lia. lia.
  - assert (N : y mod k <> 0).
    { intros N. apply Z.mod_divide in N; [| lia]. apply rem_divides in N; [congruence | lia]. }
    pose proof (Z.div_mod y k ltac:(lia)) as E. pose proof (Z.mod_pos_bound y k K) as B.
    rewrite Z.add_0_r. symmetry.
    replace (y - 1) with ((y mod k - 1) + (y / k) * k) by lia.
    rewrite Z.div_add, Z.div_small by lia. lia.
Qed.

Lemma leap_step y :
  y + y / 4 - y / 100 + y / 400
  = (y - 1) + (y - 1) / 4 - (y - 1) / 100 + (y - 1) / 400 + 1 + (if is_leap y then 1 else 0).
Proof.
  rewrite (div_step y 4), (div_step y 100), (div_step y 400) by lia.
  assert (A : (Z.rem y 100 =? 0) = true -> (Z.rem y 4 =? 0) = true).
  { rewrite !rem_divides by lia. intros [k ->]. exists (k * 25). lia. }
  assert (B : (Z.rem y 400 =? 0) = true -> (Z.rem y 100 =? 0) = true).
  { rewrite !rem_divides by lia. intros [k ->]. exists (k * 4). lia. }
  unfold is_leap.
  destruct (Z.rem y 4 =? 0), (Z.rem y 100 =? 0), (Z.rem y 400 =? 0); cbn [andb orb negb];
    try (specialize (A eq_refl); discriminate A); try (specialize (B eq_refl); discriminate B); lia.
Qed.

(** Going on by a day adds one. *)
Lemma week_next_month y m : 1 <= m < 12 ->
  (7 | week_sum y (m + 1) 1 - week_sum y m (month_days y m) - 1).
Proof.
  intros M. pose proof (months m ltac:(lia)) as C.
  assert (F2 : m = 2 \/ m <> 2) by lia. destruct F2 as [-> | F2].
  - exists (-4). unfold week_sum, week_year, month_days.
    change (2 + 1 <? 3) with false. change (2 <? 3) with true. change (2 =? 2) with true. cbv iota.
    change (nth (Z.to_nat (2 + 1 - 1)) table 0) with 2. change (nth (Z.to_nat (2 - 1)) table 0) with 3.
    pose proof (leap_step y) as L. destruct (is_leap y); lia.
  - assert (Y : week_year y (m + 1) = week_year y m).
    { unfold week_year. destruct (m + 1 <? 3) eqn:A, (m <? 3) eqn:B; try reflexivity; lia. }
    unfold week_sum. rewrite Y. generalize (week_year y m). intros u.
    generalize (u / 4), (u / 100), (u / 400). intros a b c. unfold month_days.
    repeat destruct C as [-> | C]; try lia; try subst m;
      match goal with |- context [nth (Z.to_nat (?m + 1 - 1)) table 0] =>
        let t := eval vm_compute in (nth (Z.to_nat (m + 1 - 1)) table 0) in
        change (nth (Z.to_nat (m + 1 - 1)) table 0) with t;
        let t := eval vm_compute in (nth (Z.to_nat (m - 1)) table 0) in
        change (nth (Z.to_nat (m - 1)) table 0) with t;
        change (m =? 2) with false; cbv iota;
        let t := eval vm_compute in (31 - Z.rem (Z.rem (m - 1) 7) 2) in
        change (31 - Z.rem (Z.rem (m - 1) 7) 2) with t
      end; first [exists (-4); lia | exists (-5); lia].
Qed.

Lemma week_next t u : next_day t u ->
  let '(y, m, d) := t in let '(y', m', d') := u in (7 | week_sum y' m' d' - week_sum y m d - 1).
Proof.
  intros [y m d n L D | y m n L M | y].
  - exists 0. unfold week_sum. lia.
  - apply month_days_length in L. subst n. now apply week_next_month.
  - exists (-5). unfold week_sum, week_year. cbn [Z.ltb Z.compare Pos.compare Pos.compare_cont].
    replace (y + 1 - 1) with y by lia.
    change (nth (Z.to_nat (1 - 1)) table 0) with 0. change (nth (Z.to_nat (12 - 1)) table 0) with 4. lia.
Qed.

Definition week_day (t : date) : Z := let '(y, m, d) := t in week_sum y m d mod 7.

Lemma week_day_next t u : next_day t u -> week_day u = (week_day t + 1) mod 7.
Proof.
  intros N. apply week_next in N. destruct t as [[y m] d], u as [[y' m'] d'].
  destruct N as [k E]. unfold week_day. rewrite Z.add_mod_idemp_l by lia.
  replace (week_sum y' m' d') with (week_sum y m d + 1 + k * 7) by lia. apply Z.mod_add. lia.
Qed.

Lemma weekday_day t w : weekday t w -> w = week_day t.
Proof.
  induction 1 as [| t u w N W IH | t u w N W IH].
  - reflexivity.
  - rewrite (week_day_next t u N). now subst w.
  - subst w. rewrite (week_day_next t u N). rewrite Zminus_mod_idemp_l.
    replace (week_day t + 1 - 1) with (week_day t) by lia. destruct t as [[y m] d]. unfold week_day.
    apply Z.mod_mod. lia.
Qed.

Lemma weekday_unique t w w' : weekday t w -> weekday t w' -> w = w'.
Proof. intros A B. apply weekday_day in A, B. congruence. Qed.

(** Every date has a day of the week. *)
Definition has_day (t : date) : Prop := exists w, weekday t w.

Lemma has_day_next t u : next_day t u -> has_day t <-> has_day u.
Proof.
  intros N. split; intros [w W].
  - eexists. eapply weekday_after; eassumption.
  - eexists. eapply weekday_before; eassumption.
Qed.

Lemma has_day_month y m n : month_length y m n ->
  forall k : nat, 1 + Z.of_nat k <= n -> has_day (y, m, 1) <-> has_day (y, m, 1 + Z.of_nat k).
Proof.
  intros L k. induction k as [| k IH]; intros B; [reflexivity |].
  rewrite IH by lia. replace (1 + Z.of_nat (S k)) with (1 + Z.of_nat k + 1) by lia.
  apply has_day_next. apply next_in_month with n; [exact L | lia].
Qed.

Lemma has_day_in_month y m n d : month_length y m n -> 1 <= d <= n ->
  has_day (y, m, 1) <-> has_day (y, m, d).
Proof.
  intros L D. rewrite (has_day_month y m n L (Z.to_nat (d - 1))) by lia.
  replace (1 + Z.of_nat (Z.to_nat (d - 1))) with d by lia. reflexivity.
Qed.

Lemma has_day_next_month y m : 1 <= m < 12 -> has_day (y, m, 1) <-> has_day (y, m + 1, 1).
Proof.
  intros M. pose proof (month_length_days y m ltac:(lia)) as L.
  destruct (month_length_range _ _ _ L).
  rewrite (has_day_in_month y m _ (month_days y m) L) by lia.
  apply has_day_next. now apply next_month.
Qed.

Lemma has_day_in_year y m : 1 <= m <= 12 -> has_day (y, 1, 1) <-> has_day (y, m, 1).
Proof.
  intros M. replace m with (1 + Z.of_nat (Z.to_nat (m - 1))) by lia.
  assert (K : (Z.to_nat (m - 1) <= 11)%nat) by lia. revert K. generalize (Z.to_nat (m - 1)).
  induction n as [| n IH]; intros K; [reflexivity |].
  rewrite IH by lia. replace (1 + Z.of_nat (S n)) with (1 + Z.of_nat n + 1) by lia.
  apply has_day_next_month. lia.
Qed.

Lemma has_day_next_year y : has_day (y, 1, 1) <-> has_day (y + 1, 1, 1).
Proof.
  rewrite (has_day_in_year y 12) by lia. rewrite (has_day_in_month y 12 31 31) by (cbn; lia).
  apply has_day_next. constructor.
Qed.

Lemma has_day_years y : has_day (y, 1, 1).
Proof.
  assert (K : forall n : nat, has_day (2000 + Z.of_nat n, 1, 1) /\ has_day (2000 - Z.of_nat n, 1, 1)).
  { induction n as [| n [A B]]; [split; exists 6; constructor |]. split.
    - replace (2000 + Z.of_nat (S n)) with (2000 + Z.of_nat n + 1) by lia. now apply -> has_day_next_year.
    - apply has_day_next_year. now replace (2000 - Z.of_nat (S n) + 1) with (2000 - Z.of_nat n) by lia. }
  destruct (K (Z.to_nat (Z.abs (y - 2000)))) as [A B].
  destruct (Z.le_ge_cases 2000 y).
  - now replace (2000 + Z.of_nat (Z.to_nat (Z.abs (y - 2000)))) with y in A by lia.
  - now replace (2000 - Z.of_nat (Z.to_nat (Z.abs (y - 2000)))) with y in B by lia.
Qed.

Theorem weekday_exists t : valid t -> weekday t (week_day t).
Proof.
  destruct t as [[y m] d]. intros (n & L & D). destruct (month_length_range _ _ _ L) as [M _].
  assert (X : has_day (y, m, d)).
  { rewrite <- (has_day_in_month y m n d L D). rewrite <- (has_day_in_year y m M). apply has_day_years. }
  destruct X as [w W]. now rewrite <- (weekday_day _ _ W).
Qed.

Lemma week_number_day y m d : 1 <= y -> 1 <= d -> week_number y m d = week_day (y, m, d).
Proof.
  intros Y D. unfold week_number, week_day. apply Z.rem_mod_nonneg; [| lia].
  unfold week_sum. pose proof (table_small m).
  assert (0 <= week_year y m) by (unfold week_year; destruct (m <? 3); lia).
  generalize dependent (week_year y m). intros u U.
  assert (u / 100 <= u) by (apply Z.div_le_upper_bound; lia).
  pose proof (Z.div_pos u 4 U ltac:(lia)). pose proof (Z.div_pos u 400 U ltac:(lia)). lia.
Qed.
