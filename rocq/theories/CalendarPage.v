(** The text of the calendar and its lines. *)

From Coq Require Import String Lia ZArith List.
From Verif Require Import Base LinesSpec WidgetSpec SysSpec CalendarSpec PageSpec GregorianFacts CalendarRun.
From Verif Require Builtins ListFacts LexFacts P_FloatFmt P_Sys.
Import ListNotations.

(** ** Cells of three characters *)

Definition cells (l : list str) : Prop := Forall (fun c => length c = 3 /\ single c) l.
Definition spaced (l : list str) : str := flat_map (fun c => c ++ [32%N]) l.

Lemma spaced_cons c l : spaced (c :: l) = (c ++ [32%N]) ++ spaced l.
Proof. reflexivity. Qed.

Lemma spaced_length l : cells l -> length (spaced l) = 4 * length l.
Proof.
  induction 1 as [| c l [A _] F IH]; [reflexivity |].
  rewrite spaced_cons. cbn [length]. rewrite !app_length, IH, A. cbn [length]. lia.
Qed.

Lemma spaced_cell l : cells l -> forall k c, nth_error l k = Some c ->
  firstn 3 (skipn (4 * k) (spaced l)) = c.
Proof.
  induction 1 as [| c l [A _] F IH]; intros k e E; [now destruct k |].
  destruct c as [| a0 [| a1 [| a2 [| ? ?]]]]; try discriminate A.
  destruct k as [| k]; cbn [nth_error] in E.
  - injection E as <-. reflexivity.
  - replace (4 * S k) with (4 + 4 * k) by lia. rewrite spaced_cons. cbn [List.app Nat.add skipn]. now apply IH.
Qed.

Lemma spaced_char l : cells l -> forall j x, nth_error (spaced l) j = Some x -> x <> 32%N ->
  exists k c i, nth_error l k = Some c /\ nth_error c i = Some x /\ j = 4 * k + i /\ i < 3.
Proof.
  induction 1 as [| c l [A _] F IH]; intros j x E N; [now destruct j |].
  destruct c as [| a0 [| a1 [| a2 [| ? ?]]]]; try discriminate A. rewrite spaced_cons in E. cbn [List.app] in E.
  destruct j as [| [| [| [| j]]]]; cbn [nth_error] in E.
  - exists 0, [a0; a1; a2], 0. auto with arith.
  - exists 0, [a0; a1; a2], 1. auto with arith.
  - exists 0, [a0; a1; a2], 2. auto with arith.
  - congruence.
  - destruct (IH j x E N) as (k & c & i & C & D & -> & L). exists (S k), c, i. repeat split; auto. lia.
Qed.

(** ** Seven cells in a line *)

Fixpoint flow (k : nat) (l : list str) : str :=
  match l with
  | [] => []
  | c :: r => c ++ (if Nat.eqb (S k mod 7) 0 then 10%N else 32%N) :: flow (S k) r
  end.

Lemma flow_period l : forall k, flow (7 + k) l = flow k l.
Proof.
  induction l as [| c l IH]; intros k; [reflexivity |]. cbn [flow].
  replace (S (7 + k)) with (S k + 1 * 7) by lia. rewrite Nat.mod_add by lia.
  f_equal. f_equal. replace (S k + 1 * 7) with (7 + S k) by lia. apply IH.
Qed.

Lemma flow_short l k : k + length l < 7 -> flow k l = spaced l.
Proof.
  revert k. induction l as [| c l IH]; intros k L; [reflexivity |]. cbn [length] in L.
  cbn [flow]. rewrite spaced_cons, Nat.mod_small by lia. cbn [Nat.eqb]. rewrite <- app_assoc. cbn [List.app].
  now rewrite IH by lia.
Qed.

Lemma single_app a b : single a -> single b -> single (a ++ b).
Proof. unfold single. rewrite in_app_iff. tauto. Qed.
Lemma spaced_single l : cells l -> single (spaced l).
Proof.
  induction 1 as [| c l [_ A] F IH]; [now intros [] |]. rewrite spaced_cons.
  repeat apply single_app; auto. intros [E | []]. discriminate.
Qed.

Definition table_of (l rows : list str) : Prop :=
  (forall k c, nth_error l k = Some c ->
     exists r, nth_error rows (k / 7) = Some r /\ firstn 3 (skipn (4 * (k mod 7)) r) = c)
  /\ (forall n r j x, nth_error rows n = Some r -> nth_error r j = Some x -> x <> 32%N ->
      exists k c i, nth_error l k = Some c /\ nth_error c i = Some x
                    /\ n = k / 7 /\ j = 4 * (k mod 7) + i /\ i < 3)
  /\ length rows = S (length l / 7)
  /\ Forall (fun r => length r <= 27) rows.

Lemma firstn_skipn_app A (a b : list A) n k : k + n <= length a ->
  firstn n (skipn k (a ++ b)) = firstn n (skipn k a).
Proof.
  intros L. rewrite skipn_app. replace (k - length a) with 0 by lia. cbn [skipn].
  rewrite firstn_app. rewrite skipn_length. replace (n - (length a - k)) with 0 by lia.
  cbn [firstn]. apply app_nil_r.
Qed.

Lemma flow_rows n : forall l, length l <= n -> cells l ->
  exists rows, stacked rows (flow 0 l) /\ rows <> [] /\ table_of l rows.
Proof.
  induction n as [n IH] using lt_wf_ind. intros l L C.
  destruct (le_lt_dec 7 (length l)) as [G | G].
  - destruct l as [| c0 [| c1 [| c2 [| c3 [| c4 [| c5 [| c6 l]]]]]]]; try (cbn in G; lia).
    assert (C7 : cells [c0; c1; c2; c3; c4; c5; c6] /\ cells l).
    { apply (proj1 (Forall_app _ [c0; c1; c2; c3; c4; c5; c6] l)). exact C. }
    destruct C7 as [C7 Cl].
    destruct (IH (length l) ltac:(cbn in L; lia) l (le_n _) Cl) as (rows & ST & N & T1 & T2 & T3 & T4).
    set (first := c0 ++ 32%N :: c1 ++ 32%N :: c2 ++ 32%N :: c3 ++ 32%N :: c4 ++ 32%N :: c5 ++ 32%N :: c6).
    assert (FE : spaced [c0; c1; c2; c3; c4; c5; c6] = first ++ [32%N]).
    { unfold spaced, first. cbn [flat_map]. rewrite <- !app_assoc. cbn [List.app].
      do 6 (f_equal; f_equal; rewrite <- ?app_assoc; cbn [List.app]). }
    assert (FL : length first = 27).
    { pose proof (spaced_length _ C7) as E. rewrite FE, app_length in E. cbn [length] in E. lia. }
    exists (first :: rows). split; [| split; [discriminate |]].
    + replace (flow 0 (c0 :: c1 :: c2 :: c3 :: c4 :: c5 :: c6 :: l)) with (first ++ 10%N :: flow 0 l).
      * destruct rows as [| r0 rows]; [congruence |]. apply stacked_more; [| exact ST].
        pose proof (spaced_single _ C7) as X. rewrite FE in X. intros I. apply X. apply in_or_app. now left.
      * change (flow 0 (c0 :: c1 :: c2 :: c3 :: c4 :: c5 :: c6 :: l))
          with (c0 ++ 32%N :: c1 ++ 32%N :: c2 ++ 32%N :: c3 ++ 32%N :: c4 ++ 32%N :: c5 ++ 32%N :: c6
                ++ 10%N :: flow (7 + 0) l).
        rewrite flow_period. unfold first. repeat (rewrite <- app_assoc; cbn [List.app]). reflexivity.
    + repeat split.
      * intros k c E. destruct (le_lt_dec 7 k) as [K | K].
        -- change (c0 :: c1 :: c2 :: c3 :: c4 :: c5 :: c6 :: l) with ([c0; c1; c2; c3; c4; c5; c6] ++ l) in E.
           rewrite nth_error_app2 in E by exact K. cbn [length] in E.
           destruct (T1 _ _ E) as (r & R1 & R2). exists r.
           replace k with (k - 7 + 1 * 7) at 1 2 by lia. rewrite Nat.div_add, Nat.mod_add by lia.
           rewrite Nat.add_1_r. split; assumption.
        -- exists first. rewrite Nat.div_small, Nat.mod_small by exact K. split; [reflexivity |].
           rewrite <- (firstn_skipn_app _ first [32%N]) by lia. rewrite <- FE.
           apply spaced_cell; [exact C7 |].
           change (c0 :: c1 :: c2 :: c3 :: c4 :: c5 :: c6 :: l) with ([c0; c1; c2; c3; c4; c5; c6] ++ l) in E.
           rewrite nth_error_app1 in E; [exact E | exact K].
      * intros q r j x R J X. destruct q as [| q]; cbn [nth_error] in R.
        -- injection R as <-.
           destruct (spaced_char _ C7 j x) as (k & c & i & K & I & E & B).
           { rewrite FE. rewrite nth_error_app1; [exact J |]. apply nth_error_Some. congruence. }
           { exact X. }
           assert (k < 7) by (change 7 with (length [c0; c1; c2; c3; c4; c5; c6]); apply nth_error_Some; congruence).
           exists k, c, i. rewrite Nat.div_small, Nat.mod_small by assumption. repeat split; auto.
           change (c0 :: c1 :: c2 :: c3 :: c4 :: c5 :: c6 :: l) with ([c0; c1; c2; c3; c4; c5; c6] ++ l).
           rewrite nth_error_app1; [exact K | assumption].
        -- destruct (T2 q r j x R J X) as (k & c & i & K & I & E & E' & B). exists (k + 1 * 7), c, i.
           rewrite Nat.div_add, Nat.mod_add by lia. repeat split; auto; [| lia].
           change (c0 :: c1 :: c2 :: c3 :: c4 :: c5 :: c6 :: l) with ([c0; c1; c2; c3; c4; c5; c6] ++ l).
           rewrite nth_error_app2 by (cbn [length]; lia). cbn [length].
           replace (k + 1 * 7 - 7) with k by lia. exact K.
      * cbn [length]. rewrite T3. replace (S (S (S (S (S (S (S (length l)))))))) with (length l + 1 * 7) by lia.
        rewrite Nat.div_add by lia. lia.
      * constructor; [lia | exact T4].
  - exists [spaced l]. rewrite flow_short by exact G. split; [apply stacked_one; now apply spaced_single |].
    split; [discriminate |]. repeat split.
    + intros k c E. assert (k < length l) by (apply nth_error_Some; congruence). exists (spaced l).
      rewrite Nat.div_small, Nat.mod_small by lia. split; [reflexivity |]. now apply spaced_cell.
    + intros q r j x R J X. destruct q as [| q]; cbn [nth_error] in R; [| now destruct q].
      injection R as <-. destruct (spaced_char _ C j x J X) as (k & c & i & K & I & E & B).
      assert (k < length l) by (apply nth_error_Some; congruence).
      exists k, c, i. rewrite Nat.div_small, Nat.mod_small by lia. repeat split; auto.
    + cbn [length]. rewrite Nat.div_small by exact G. reflexivity.
    + constructor; [| constructor]. rewrite spaced_length by exact C. lia.
Qed.

(** ** The text as cells *)

Definition slots (w n : nat) (d : Z) : list str :=
  repeat [32%N; 32%N; 32%N] w ++ map (day_text d) (Builtins.zrange 1 n).

Lemma flow_app a b : forall k, flow k (a ++ b) = flow k a ++ flow (k + length a) b.
Proof.
  induction a as [| c a IH]; intros k; cbn [List.app flow length]; [now rewrite Nat.add_0_r |].
  rewrite IH. replace (S k + length a) with (k + S (length a)) by lia. rewrite <- app_assoc. reflexivity.
Qed.

Lemma day_end_mod k : day_end (Z.of_nat (S k)) = if Nat.eqb (S k mod 7) 0 then 10%N else 32%N.
Proof.
  unfold day_end. change 7%Z with (Z.of_nat 7). rewrite Z.rem_mod_nonneg by lia. rewrite <- Nat2Z.inj_mod.
  destruct (Nat.eqb_spec (S k mod 7) 0) as [E | E]; destruct (Z.eqb_spec (Z.of_nat (S k mod 7)) 0); lia.
Qed.

Lemma flow_days d w n : forall j,
  flow (w + j) (map (day_text d) (map (fun i => 1 + Z.of_nat i)%Z (seq j n)))
  = flat_map (fun i => day_text d i ++ [day_end (i + Z.of_nat w)]) (map (fun i => 1 + Z.of_nat i)%Z (seq j n)).
Proof.
  induction n as [| n IH]; intros j; [reflexivity |]. cbn [seq map flow flat_map].
  rewrite <- app_assoc. cbn [List.app]. rewrite <- day_end_mod.
  replace (Z.of_nat (S (w + j))) with (1 + Z.of_nat j + Z.of_nat w)%Z by lia.
  do 2 f_equal. rewrite <- IH. now rewrite Nat.add_succ_r.
Qed.

Lemma flow_slots d w n : w <= 6 ->
  flow 0 (slots w n d)
  = repeat 32%N (4 * w) ++ flat_map (fun i => day_text d i ++ [day_end (i + Z.of_nat w)]) (Builtins.zrange 1 n).
Proof.
  intros W. unfold slots. rewrite flow_app. f_equal.
  - do 7 (destruct w as [| w]; [reflexivity |]). lia.
  - rewrite repeat_length. cbn [Nat.add]. unfold Builtins.zrange. rewrite <- flow_days. now rewrite Nat.add_0_r.
Qed.

Lemma slots_cells w n d : n <= 31 -> cells (slots w n d).
Proof.
  intros N. apply Forall_app. split.
  - apply Forall_forall. intros c I. apply repeat_spec in I. subst c. split; [reflexivity |].
    intros [E | [E | [E | []]]]; discriminate.
  - apply Forall_map, Forall_forall. intros i I. apply ListFacts.zrange_in in I. split.
    + unfold day_text. now destruct (i <? 10)%Z.
    + unfold day_text, mark, single. pose proof (Z.mod_pos_bound i 10 ltac:(lia)).
      assert (0 <= i / 10)%Z by (apply Z.div_pos; lia).
      destruct (i <? 10)%Z, (d =? i)%Z; intros [E | [E | [E | []]]]; unfold chr in *; lia.
Qed.

Lemma slots_blank w n d k c : nth_error (slots w n d) k = Some c -> k < w -> c = [32%N; 32%N; 32%N].
Proof.
  unfold slots. intros E K. rewrite nth_error_app1 in E by (rewrite repeat_length; exact K).
  apply nth_error_In in E. now apply repeat_spec in E.
Qed.
Lemma slots_day w n d k : w <= k < w + n ->
  nth_error (slots w n d) k = Some (day_text d (Z.of_nat (k - w) + 1)).
Proof.
  intros K. unfold slots. rewrite nth_error_app2; rewrite repeat_length; [| lia].
  rewrite nth_error_map. unfold Builtins.zrange. rewrite nth_error_map.
  replace (nth_error (seq 0 n) (k - w)) with (Some (k - w)).
  - cbn [option_map]. do 2 f_equal. lia.
  - rewrite (nth_error_nth' _ 0) by (rewrite seq_length; lia). rewrite seq_nth by lia. reflexivity.
Qed.
Lemma slots_length w n d : length (slots w n d) = w + n.
Proof.
  unfold slots, Builtins.zrange. now rewrite app_length, repeat_length, !map_length, seq_length.
Qed.

Lemma numeral_z_str z : (0 <= z)%Z -> numeral (z_str z) z.
Proof.
  intros Z0. destruct (P_FloatFmt.z_str_digits z Z0) as (D & N & HD & V).
  split; [exact N |]. split; [| intros E; apply HD; destruct (z_str z); [discriminate | now injection E as <-]].
  pose proof (P_Sys.written_z_str z) as W.
  inversion W as [a b A B C | a b A B C | a b A B C]; subst; [assumption | exfalso ..];
    rewrite <- C in D; inversion D; discriminate.
Qed.

Lemma day_text_cell d i : (1 <= i <= 31)%Z -> cell d i (day_text d i).
Proof.
  intros I. destruct (days i I) as [_ E]. pose proof (numeral_z_str i ltac:(lia)) as N. rewrite E in N.
  exists (if (i <? 10)%Z then 1 else 0), (mark d i),
    (if (i <? 10)%Z then [Z.to_N (48 + i)] else [Z.to_N (48 + i / 10); Z.to_N (48 + i mod 10)]).
  split; [exact N |]. unfold mark, day_text. split; [| split; [| now destruct (i <? 10)%Z]].
  - intros ->. now rewrite Z.eqb_refl.
  - intros X. now destruct (Z.eqb_spec d i); [congruence |].
Qed.

Lemma week_day_from y m i : week_day (y, m, i) = ((week_day (y, m, 1%Z) + i - 1) mod 7)%Z.
Proof.
  unfold week_day, week_sum. rewrite <- (Z.add_sub_assoc _ i 1), Zplus_mod_idemp_l. f_equal. lia.
Qed.

(** ** The page *)

Lemma calendar_page y m d : (1 <= y <= 2 ^ 53)%Z -> (1 <= m <= 12)%Z -> (1 <= d <= 31)%Z ->
  exists lines, stacked lines (calendar_text y m d) /\ page y m d lines.
Proof.
  intros Y M D.
  set (w := Z.to_nat (week_number y m 1)). set (n := Z.to_nat (month_days y m)).
  assert (W : week_number y m 1 = week_day (y, m, 1%Z)) by (apply week_number_day; lia).
  assert (WB : (0 <= week_day (y, m, 1%Z) < 7)%Z) by (apply Z.mod_pos_bound; lia).
  pose proof (month_length_days y m M) as ML.
  destruct (month_length_range y m _ ML) as [_ NB].
  assert (Ww : Z.of_nat w = week_day (y, m, 1%Z)) by (unfold w; lia).
  assert (Nn : Z.of_nat n = month_days y m) by (unfold n; lia).
  destruct (flow_rows _ (slots w n d) (le_n _) (slots_cells w n d ltac:(lia))) as (rows & ST & NE & T1 & T2 & T3 & T4).
  set (k := Z.to_nat (Z.quot (28 - Z.of_nat (length (title_text y m d))) 2 + 1)).
  set (words := nth (Z.to_nat (m - 1)) month_names [] ++ lit " " ++ z_str d ++ lit ", " ++ z_str y).
  assert (TT : title_text y m d = words ++ [10%N]).
  { unfold title_text, words. now rewrite <- !app_assoc. }
  exists ((repeat 32%N k ++ words) :: lit " Su  Mo  Tu  We  Th  Fr  Sa" :: rows). split.
  - replace (calendar_text y m d)
      with ((repeat 32%N k ++ words) ++ 10%N :: lit " Su  Mo  Tu  We  Th  Fr  Sa" ++ 10%N :: flow 0 (slots w n d)).
    + apply stacked_more.
      { apply single_app; [intros I; apply repeat_spec in I; discriminate |]. unfold words.
        assert (DG : forall z, (0 <= z)%Z -> single (z_str z)).
        { intros z Z0 I. destruct (P_FloatFmt.z_str_digits z Z0) as (X & _).
          unfold LexFacts.digits in X. rewrite Forall_forall in X. apply X in I. discriminate. }
        repeat apply single_app; try (apply DG; lia).
        - clear. generalize (Z.to_nat (m - 1)). intros q.
          do 12 (destruct q as [| q]; [vm_compute; intuition discriminate |]). vm_compute. destruct q; intuition discriminate.
        - vm_compute. intuition discriminate.
        - vm_compute. intuition discriminate. }
      destruct rows as [| r0 rows]; [congruence |]. apply stacked_more; [vm_compute; intuition discriminate | exact ST].
    + rewrite flow_slots by lia. unfold calendar_text. fold k. fold w. fold n. rewrite TT.
      replace (week_number y m 1) with (Z.of_nat w) by lia. unfold weekdays_text.
      rewrite <- !app_assoc. reflexivity.
  - split; [| split; [reflexivity | split; [| split; [| split]]]].
    + eexists. split; [reflexivity |].
      assert (NM : exists name, nth_error names_of_months (Z.to_nat (m - 1)) = Some name
                                /\ lit name = nth (Z.to_nat (m - 1)) month_names []).
      { apply months in M. repeat destruct M as [-> | M]; try (subst m); eexists; split; reflexivity. }
      destruct NM as (name & NM & NE').
      exists k, name, (z_str d), (z_str y), words, (28 - k - length words).
      split; [exact NM |]. split; [apply numeral_z_str; lia |]. split; [apply numeral_z_str; lia |].
      split; [unfold words; now rewrite NE' |]. split; [reflexivity |].
      intros L. unfold k. rewrite TT, app_length. cbn [length]. Z.to_euclidean_division_equations. lia.
    + intros i v first V WD WF. apply weekday_day in WD, WF. destruct V as (n' & ML' & V).
      apply month_days_length in ML'. subst n'.
      destruct (T1 (w + Z.to_nat (i - 1)) (day_text d i)) as (r & R1 & R2).
      { rewrite slots_day by lia. do 2 f_equal. lia. }
      exists r. subst v first. split.
      * cbn [Nat.add nth_error]. rewrite <- R1. f_equal.
        apply Nat2Z.inj. rewrite Nat2Z.inj_div, Z2Nat.id by (apply Z.div_pos; lia). f_equal. lia.
      * replace (Z.to_nat (4 * week_day (y, m, i))) with (4 * ((w + Z.to_nat (i - 1)) mod 7)).
        { rewrite R2. apply day_text_cell. lia. }
        rewrite week_day_from. pose proof (Z.mod_pos_bound (week_day (y, m, 1%Z) + i - 1) 7 ltac:(lia)) as B.
        apply Nat2Z.inj. rewrite Nat2Z.inj_mul, Nat2Z.inj_mod, Z2Nat.id by lia. do 2 f_equal. lia.
    + intros r l j x R J X. cbn [Nat.add nth_error] in R.
      destruct (T2 r l j x R J X) as (q & c & i0 & Q & I0 & E1 & E2 & B).
      assert (QL : q < w + n) by (rewrite <- (slots_length w n d); apply nth_error_Some; congruence).
      destruct (le_lt_dec w q) as [G | G].
      * exists (Z.of_nat (q - w) + 1)%Z. set (i := (Z.of_nat (q - w) + 1)%Z).
        assert (V : valid (y, m, i)) by (exists (month_days y m); split; [exact ML | lia]).
        exists (week_day (y, m, i)), (week_day (y, m, 1%Z)). split; [exact V |].
        split; [now apply weekday_exists |]. split; [apply weekday_exists; exists (month_days y m); split; [exact ML | lia] |].
        replace (week_day (y, m, 1%Z) + i - 1)%Z with (Z.of_nat q) by lia. split.
        -- apply Nat2Z.inj. rewrite E1, Nat2Z.inj_div, Z2Nat.id by (apply Z.div_pos; lia). reflexivity.
        -- rewrite week_day_from. replace (week_day (y, m, 1%Z) + i - 1)%Z with (Z.of_nat q) by lia.
           change 7%Z with (Z.of_nat 7). rewrite <- Nat2Z.inj_mod. lia.
      * apply (slots_blank w n d) in Q; [| exact G]. subst c. exfalso. apply X.
        destruct i0 as [| [| [| i0]]]; cbn in I0; try congruence. now destruct i0.
    + cbn [length]. rewrite T3, slots_length.
      assert ((w + n) / 7 < 6) by (apply Nat.div_lt_upper_bound; lia). lia.
    + cbn [tl]. constructor; [vm_compute; lia | exact T4].
Qed.
