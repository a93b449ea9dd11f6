(** C115 to C117: leap years, days of the week and the calendar of the start-up
    scripts. *)

From Coq Require Import String Lia ZArith List.
From Verif Require Import Base Syntax Host Ops Monad Builtins Eval Init EvalSpec EvalFacts LibFacts
  RunFacts MapFacts Parser Prelude PreludeFacts CalendarSpec LinesSpec WidgetSpec PageSpec GregorianFacts CalendarDefs
  CalendarFacts CalendarRun CalendarPage Demo.
From Verif Require P_Widget SysSpec CmdFacts P_FloatFmt LexFacts ListFacts.
Import ListNotations.

(** Both scripts contain the text of the definitions, and the parser reads the
    definitions in it. *)
Theorem C115_source_default : exists a b, default_prelude = a ++ calendar_source ++ b.
Proof. exists (firstn (N.to_nat 17853) default_prelude), (skipn (N.to_nat 19495) default_prelude). vm_compute. reflexivity. Qed.
Theorem C115_source_intro : exists a b, intro_prelude = a ++ calendar_source ++ b.
Proof. exists (firstn (N.to_nat 7943) intro_prelude), (skipn (N.to_nat 9585) intro_prelude). vm_compute. reflexivity. Qed.
Theorem C115_source_read : parse_script calendar_source = SOk (EDo calendar_definitions).
Proof. vm_compute. reflexivity. Qed.

(** ** What the definitions do *)

Lemma standard_kept e x v : standard e -> existsb (fun p => str_eqb (fst p) x) shell_names = false ->
  standard (env_define x v e).
Proof. intros S N y u. now apply names_kept. Qed.

Definition weekday_names : list str :=
  map lit ["Sunday"; "Monday"; "Tuesday"; "Wednesday"; "Thursday"; "Friday"; "Saturday"]%string.
Definition months_env (e : env) : env :=
  let e1 := env_define (lit "is-leapyear") (leap_function e) e in
  let e2 := env_define (lit "days-in-month") (month_function e1) e1 in
  let e3 := env_define (lit "day-of-week") (week_function e2) e2 in
  let e4 := env_define (lit "WEEKDAYS") (EList (map EString weekday_names)) e3 in
  env_define (lit "MONTHS") (EList (map EString month_names)) e4.
Definition final_env (e : env) : env :=
  env_define (lit "make-calendar") (calendar_function (months_env e)) (months_env e).

Lemma definitions_run H s :
  evaluates H 0 (EDo calendar_definitions) s (ROk ENone) (with_env (final_env (s_env s)) s).
Proof.
  unfold calendar_definitions. eapply run_exact; [run | reflexivity |].
  destruct s. reflexivity.
Qed.

Lemma months_env_ready e : standard e -> calendar_env (months_env e).
Proof.
  intros S. unfold months_env.
  set (e1 := env_define (lit "is-leapyear") _ e).
  assert (S1 : standard e1) by (apply standard_kept; [exact S | reflexivity]).
  set (e2 := env_define (lit "days-in-month") _ e1).
  assert (S2 : standard e2) by (apply standard_kept; [exact S1 | reflexivity]).
  split; [| split; [| split]].
  - repeat (apply standard_kept; [| reflexivity]). exact S.
  - exists e2. split; [exact S2 |]. run_lookup.
  - exists e1, e. split; [exact S1 |]. split; [exact S |]. split; [unfold e1; run_lookup |]. unfold e2. run_lookup.
  - run_lookup.
Qed.

(** What is known of a prepared shell. *)
Lemma prepared_parts H e : prepared H e ->
  (exists e0, standard e0 /\ env_get (lit "is-leapyear") e = Some (leap_function e0))
  /\ (exists e1 e2, standard e1 /\ standard e2 /\ env_get (lit "is-leapyear") e1 = Some (leap_function e2)
                    /\ env_get (lit "days-in-month") e = Some (month_function e1))
  /\ (exists e1, standard e1 /\ env_get (lit "day-of-week") e = Some (week_function e1))
  /\ (exists e1, calendar_env e1 /\ env_get (lit "make-calendar") e = Some (calendar_function e1)).
Proof.
  intros (s & v & s1 & S & E & K).
  destruct (evaluates_det _ _ _ _ _ _ _ _ E (definitions_run H s)) as [_ ->].
  cbn [s_env with_env] in K. pose proof (months_env_ready _ S) as R.
  set (e0 := s_env s) in *.
  set (e1 := env_define (lit "is-leapyear") (leap_function e0) e0).
  assert (S1 : standard e1) by (apply standard_kept; [exact S | reflexivity]).
  set (e2 := env_define (lit "days-in-month") (month_function e1) e1).
  assert (S2 : standard e2) by (apply standard_kept; [exact S1 | reflexivity]).
  split; [| split; [| split]].
  - exists e0. split; [exact S |]. rewrite K by (cbn; tauto). unfold final_env, months_env. run_lookup.
  - exists e1, e0. split; [exact S1 |]. split; [exact S |]. split; [unfold e1; run_lookup |].
    rewrite K by (cbn; tauto). unfold final_env, months_env. run_lookup.
  - exists e2. split; [exact S2 |]. rewrite K by (cbn; tauto). unfold final_env, months_env. run_lookup.
  - exists (months_env e0). split; [exact R |]. rewrite K by (cbn; tauto). unfold final_env. run_lookup.
Qed.

(** ** C115: leap years and the lengths of the months *)

(** The definitions can be evaluated in every shell that still has its
    operators, and do nothing else. *)
Theorem C115_definitions H s : standard (s_env s) ->
  exists v s1, evaluates H 0 (EDo calendar_definitions) s (ROk v) s1 /\ prepared H (s_env s1)
    /\ s_trace s1 = s_trace s /\ s_log s1 = s_log s
    /\ forall x, ~ In x calendar_names -> env_get x (s_env s1) = env_get x (s_env s).
Proof.
  intros S. exists ENone, (with_env (final_env (s_env s)) s). split; [apply definitions_run |].
  split; [| split; [reflexivity | split; [reflexivity |]]].
  - exists s, ENone, (with_env (final_env (s_env s)) s). split; [exact S |]. split; [apply definitions_run |]. reflexivity.
  - intros x N. cbn [s_env with_env]. unfold final_env, months_env. rewrite !env_get_define.
    assert (D : forall y, In y calendar_names -> str_eqb x y = false)
      by (intros y Y; apply str_eqb_neq; intros ->; now apply N).
    rewrite !D by (cbn; tauto). reflexivity.
Qed.

(** A new shell has them. *)
Theorem C115_new_shell m : standard (init m).
Proof. apply standard_new. Qed.

Theorem C115_leap H n a s y s1 :
  prepared H (s_env s) -> SysSpec.fits y -> (n + 20 <= MAX_DEPTH)%N ->
  evaluates H (n + 1) a s (ROk (EInteger y)) s1 ->
  exists b, evaluates H n (EApply (ESymbol (lit "is-leapyear")) [a]) s (ROk (EBoolean b)) s1
            /\ (b = true <-> leap y).
Proof.
  intros P F L E. destruct (prepared_parts _ _ P) as ((e & S & G) & _). exists (is_leap y).
  split; [| apply is_leap_spec]. eapply leap_run; [exact S | exact F | exact L | | exact E].
  eapply run_symbol; [lia | exact G].
Qed.

Theorem C115_month H n a b s y m s1 s2 :
  prepared H (s_env s) -> SysSpec.fits y -> (1 <= m <= 12)%Z -> (n + 40 <= MAX_DEPTH)%N ->
  evaluates H (n + 1) a s (ROk (EInteger m)) s1 -> evaluates H (n + 1 + 1) b s1 (ROk (EInteger y)) s2 ->
  exists k, evaluates H n (EApply (ESymbol (lit "days-in-month")) [a; b]) s (ROk (EInteger k)) s2
            /\ month_length y m k.
Proof.
  intros P F M L E1 E2. destruct (prepared_parts _ _ P) as (_ & (e1 & e2 & S1 & S2 & G1 & G2) & _).
  exists (month_days y m). split; [| now apply month_length_days].
  eapply month_run; [exact S1 | exact S2 | exact G1 | exact F | exact M | exact L | | exact E1 | exact E2].
  eapply run_symbol; [lia | exact G2].
Qed.

(** ** C116: days of the week *)

Theorem C116_weekday_partial H n a b c s y m d s1 s2 s3 :
  prepared H (s_env s) -> valid (y, m, d) -> (1 <= y <= 2 ^ 53)%Z -> (n + 40 <= MAX_DEPTH)%N ->
  evaluates H (n + 1) a s (ROk (EInteger m)) s1 -> evaluates H (n + 1 + 1) b s1 (ROk (EInteger d)) s2 ->
  evaluates H (n + 1 + 1 + 1) c s2 (ROk (EInteger y)) s3 ->
  exists w, evaluates H n (EApply (ESymbol (lit "day-of-week")) [a; b; c]) s (ROk (EInteger w)) s3
            /\ weekday (y, m, d) w.
Proof.
  intros P V Y L E1 E2 E3. destruct (prepared_parts _ _ P) as (_ & _ & (e1 & S1 & G1) & _).
  destruct V as (k & K & D). pose proof (month_length_range _ _ _ K) as [M B].
  exists (week_number y m d). split.
  - eapply week_run; [exact S1 | exact Y | exact M | lia | exact L | | exact E1 | exact E2 | exact E3].
    eapply run_symbol; [lia | exact G1].
  - rewrite week_number_day by lia. apply weekday_exists. now exists k.
Qed.

(** A date has only one day of the week. *)
Theorem C116_unique t w w' : weekday t w -> weekday t w' -> w = w' /\ (0 <= w <= 6)%Z.
Proof.
  intros A B. split; [now apply (weekday_unique t) |]. apply weekday_day in A. subst w. destruct t as [[y m] d].
  unfold week_day. pose proof (Z.mod_pos_bound (week_sum y m d) 7 ltac:(lia)). lia.
Qed.

(** A shell with the operators and the calendar only. *)
Definition small_env : env := final_env (fold_right (fun p e => env_define (fst p) (snd p) e) env_new shell_names).
Definition small_shell : st := St small_env [] 0.
Lemma small_prepared : prepared demo_host (s_env small_shell).
Proof.
  set (e0 := fold_right (fun p e => env_define (fst p) (snd p) e) env_new shell_names).
  exists (St e0 [] 0%Z), ENone, (with_env (final_env e0) (St e0 [] 0%Z)). split; [| split; [apply definitions_run |]].
  - intros x v I. unfold shell_names in I. cbn [In] in I.
    repeat (destruct I as [I | I]; [injection I as <- <-; vm_compute; reflexivity |]). contradiction.
  - intros x _. reflexivity.
Qed.
Definition call3 (f : string) (a b c : Z) : expr :=
  EApply (ESymbol (lit f)) [EInteger a; EInteger b; EInteger c].
Definition outcome (e : expr) : res expr := fst (eval demo_host 60 0 e small_shell).
Lemma outcome_evaluates e v : outcome e = ROk v -> exists s1, evaluates demo_host 0 e small_shell (ROk v) s1.
Proof.
  unfold outcome. intros E. destruct (eval demo_host 60 0 e small_shell) as [r s1] eqn:X. cbn in E. subst r.
  exists s1. split; [discriminate |]. now exists 60.
Qed.

(** Not so for the year 0 and years before it, and not for years beyond 2^53. *)
Theorem C116_early_refuted : exists H s y m d w w' s1,
  prepared H (s_env s) /\ valid (y, m, d) /\ weekday (y, m, d) w
  /\ evaluates H 0 (call3 "day-of-week" m d y) s (ROk (EInteger w')) s1 /\ w <> w'.
Proof.
  destruct (outcome_evaluates (call3 "day-of-week" 1 1 0) (EInteger 0)) as (s1 & E); [vm_compute; reflexivity |].
  exists demo_host, small_shell, 0%Z, 1%Z, 1%Z, 6%Z, 0%Z, s1.
  assert (V : valid (0, 1, 1)%Z) by (exists 31%Z; split; [reflexivity | lia]).
  split; [exact small_prepared |]. split; [exact V |]. split; [exact (weekday_exists _ V) |].
  split; [exact E | discriminate].
Qed.
Theorem C116_negative_refuted : exists H s y m d w' s1,
  prepared H (s_env s) /\ valid (y, m, d)
  /\ evaluates H 0 (call3 "day-of-week" m d y) s (ROk (EInteger w')) s1 /\ (w' < 0)%Z.
Proof.
  destruct (outcome_evaluates (call3 "day-of-week" 1 1 (-3)) (EInteger (-4))) as (s1 & E); [vm_compute; reflexivity |].
  exists demo_host, small_shell, (-3)%Z, 1%Z, 1%Z, (-4)%Z, s1.
  split; [exact small_prepared |]. split; [exists 31%Z; split; [reflexivity | lia] |].
  split; [exact E | lia].
Qed.
Theorem C116_late_refuted : exists H s y m d w w' s1,
  prepared H (s_env s) /\ y = (2 ^ 53 + 3)%Z /\ valid (y, m, d) /\ weekday (y, m, d) w
  /\ evaluates H 0 (call3 "day-of-week" m d y) s (ROk (EInteger w')) s1 /\ w <> w'.
Proof.
  destruct (outcome_evaluates (call3 "day-of-week" 3 1 (2 ^ 53 + 3)) (EInteger 1)) as (s1 & E); [vm_compute; reflexivity |].
  exists demo_host, small_shell, (2 ^ 53 + 3)%Z, 3%Z, 1%Z, 0%Z, 1%Z, s1.
  assert (V : valid (2 ^ 53 + 3, 3, 1)%Z) by (exists 31%Z; split; [reflexivity | lia]).
  split; [exact small_prepared |]. split; [reflexivity |]. split; [exact V |].
  split; [exact (weekday_exists _ V) |]. split; [exact E | discriminate].
Qed.

(** ** C117: the calendar *)

Lemma calendar_no_return y m d : (1 <= y)%Z -> (1 <= m <= 12)%Z -> (1 <= d <= 31)%Z -> ~ In 13%N (calendar_text y m d).
Proof.
  intros Y M D. unfold calendar_text, title_text. rewrite !in_app_iff.
  assert (DG : forall z, (0 <= z)%Z -> ~ In 13%N (z_str z)).
  { intros z Z0 I. destruct (P_FloatFmt.z_str_digits z Z0) as (X & _).
    unfold LexFacts.digits in X. rewrite Forall_forall in X. apply X in I. discriminate. }
  assert (RP : forall k, ~ In 13%N (repeat 32%N k)) by (intros k I; apply repeat_spec in I; discriminate).
  assert (MN : ~ In 13%N (nth (Z.to_nat (m - 1)) month_names [])).
  { apply months in M. repeat destruct M as [-> | M]; try (subst m); vm_compute; intuition discriminate. }
  assert (FM : ~ In 13%N (flat_map (fun i => day_text d i ++ [day_end (i + week_number y m 1)])
                           (zrange 1 (Z.to_nat (month_days y m))))).
  { rewrite in_flat_map. intros (i & I & X). apply ListFacts.zrange_in in I. rewrite in_app_iff in X.
    pose proof (month_length_range y m _ (month_length_days y m M)) as [_ B].
    pose proof (Z.mod_pos_bound i 10 ltac:(lia)). assert (0 <= i / 10)%Z by (apply Z.div_pos; lia).
    unfold day_text, mark, day_end in X.
    destruct (i <? 10)%Z, (d =? i)%Z, (Z.rem (i + week_number y m 1) 7 =? 0)%Z; cbn [In] in X; unfold chr in *; lia. }
  pose proof (DG y ltac:(lia)). pose proof (DG d ltac:(lia)).
  assert (~ In 13%N weekdays_text) by (vm_compute; intuition discriminate).
  pose proof (RP (Z.to_nat (Z.quot (28 - Z.of_nat (length (title_text y m d))) 2 + 1))).
  pose proof (RP (4 * Z.to_nat (week_number y m 1))). unfold title_text in *.
  cbn [In]. intuition discriminate.
Qed.

(** The text is a page of a calendar, and [widget@create] frames it. *)
Theorem C117_calendar_partial H n a b c s y m d s1 s2 s3 :
  prepared H (s_env s) -> valid (y, m, d) -> (1 <= y <= 2 ^ 53)%Z -> (n + 60 <= MAX_DEPTH)%N ->
  evaluates H (n + 1) a s (ROk (EInteger m)) s1 -> evaluates H (n + 1 + 1) b s1 (ROk (EInteger d)) s2 ->
  evaluates H (n + 1 + 1 + 1) c s2 (ROk (EInteger y)) s3 ->
  exists v text lines,
    evaluates H n (EApply (ESymbol (lit "make-calendar")) [a; b; c]) s (ROk v) s3
    /\ (forall t, calls H WCreate [EString (lit "Calendar"); EString text; EInteger 30; EInteger 10] t (ROk v) t)
    /\ stacked lines text /\ page y m d lines /\ ~ In 13%N text.
Proof.
  intros P V Y L E1 E2 E3. destruct (prepared_parts _ _ P) as (_ & _ & _ & (e1 & S1 & G1)).
  destruct V as (k & K & D). pose proof (month_length_range _ _ _ K) as [M B].
  destruct (calendar_page y m d Y M ltac:(lia)) as (lines & ST & PG).
  exists (calendar_value H y m d), (calendar_text y m d), lines. split; [| split; [| split; [exact ST | split; [exact PG | apply calendar_no_return; lia]]]].
  - eapply calendar_run; [exact S1 | exact Y | exact M | lia | exact L | | exact E1 | exact E2 | exact E3].
    eapply run_symbol; [lia | exact G1].
  - intros t. eapply run_exact_call.
    + eapply run_create_of; [run | run | run | run | lia | lia | cbn; lia].
    + unfold calendar_value. rewrite (proj2 (Nat.sub_0_le _ _)); [now rewrite app_nil_r |].
      unfold calendar_text. rewrite !app_length. change (length weekdays_text) with 28.
      change (Z.to_nat (30 - 2) * 2 / 3) with 18. lia.
Qed.

(** The frame has room for all lines: if the library that breaks lines leaves
    the lines of the page as they are, but for spaces at their ends, every line
    is in the widget. *)
Theorem C117_framed H y m d lines text lines' v s s1 :
  page y m d lines -> stacked lines text ->
  calls H WCreate [EString (lit "Calendar"); EString text; EInteger 30; EInteger 10] s (ROk v) s1 ->
  stacked lines' (h_wrap H text 28) -> Forall2 (fun l l' => exists k, l = l' ++ repeat 32%N k) lines lines' ->
  ~ In 13%N text ->
  (forall l, nth_error lines 0 = Some l -> length l <= 28) ->
  exists t rows, v = EString t /\ rectangle 30 10 t /\ stacked rows t
    /\ forall k l, nth_error lines k = Some l -> exists j, nth_error rows (S k) = Some (32%N :: l ++ repeat 32%N j).
Proof.
  intros (P1 & P2 & P3 & P4 & P5 & P6) ST C W TR N L.
  assert (LL : Forall (fun l => length l <= 28) lines).
  { destruct lines as [| l0 lines]; [constructor |]. constructor; [exact (L l0 eq_refl) |].
    cbn [tl] in P6. eapply Forall_impl; [| exact P6]. cbv beta. intros l X. lia. }
  assert (LL' : Forall (fun l => (Z.of_nat (length l) + 2 <= 30)%Z) lines').
  { clear - LL TR. induction TR as [| l l' ls ls' (k & ->) TR IH]; [constructor |].
    inversion LL as [| ? ? X Y]; subst. constructor; [rewrite app_length in X; unfold str, chr in *; lia | now apply IH]. }
  assert (NE : lines' <> []) by (intros ->; inversion TR; subst; discriminate P2).
  assert (LT : 28 <= length text).
  { destruct lines as [| l0 [| l1 lines]]; try discriminate P2.
    assert (X : length l1 = 27) by (now injection P2 as ->). clear P2.
    inversion ST as [| | ? ? ? t1 ? ST1]; subst. rewrite app_length. cbn [length].
    inversion ST1; subst; [| rewrite app_length]; lia. }
  assert (N' : ~ In 13%N (h_wrap H text 28)).
  { clear - ST W TR N. revert text W N ST. generalize (h_wrap H). intros h text W N ST. revert W. generalize (h text 28%N).
    intros u W. destruct (P_Widget.join_stacked _ _ W) as [-> _]. destruct (P_Widget.join_stacked _ _ ST) as [E _].
    rewrite E in N. clear - TR N. induction TR as [| l l' ls ls' (k & ->) TR IH]; [exact N |].
    destruct ls as [| l1 ls]; inversion TR; subst.
    - cbn in *. rewrite in_app_iff in N. tauto.
    - rewrite P_Widget.join_cons in * by discriminate. rewrite !in_app_iff in *. cbn [In] in *. 
      intros [X | [X | X]]; [tauto | discriminate | apply IH; tauto]. }
  destruct (P_Widget.C74_create_partial H (EString (lit "Calendar")) (EString text) (EInteger 30) (EInteger 10) s
    (EString (lit "Calendar")) s 30%Z s (EString text) s 10%Z s (lit "Calendar") text text lines')
    as (t & CT & FR & RE).
  1-4: apply run_value; [vm_compute; discriminate | exact I].
  1-2: apply CmdFacts.shown_display; reflexivity.
  1-3: cbn; lia.
  - vm_compute. intuition discriminate.
  - exists 0. rewrite app_nil_r. split; [reflexivity |]. split; [reflexivity |].
    change (Z.to_nat (30 - 2) * 2 / 3) with 18. lia.
  - change (Z.to_N (30 - 2)) with 28%N. revert W N'. generalize (h_wrap H text 28). intros u W N'.
    replace (filter (fun c => negb (c =? 13)%N) u) with u; [exact W |].
    clear - N'. induction u as [| c u IH]; [reflexivity |]. cbn [filter In] in *.
    destruct (N.eqb_spec c 13); [tauto |]. cbn [negb]. f_equal. tauto.
  - exact NE.
  - exact LL'.
  - destruct (calls_det _ _ _ _ _ _ _ _ C CT) as [E _]. injection E as ->. exists t.
    pose proof FR as (a & b & rows & A & B & R & RW & S). 
    exists (([9484%N] ++ repeat 9472%N a ++ lit "Calendar" ++ repeat 9472%N b ++ [9488%N])
             :: rows ++ [[9492%N] ++ repeat 9472%N (Z.to_nat 30 - 2) ++ [9496%N]]).
    split; [reflexivity |]. split; [exact RE |]. split; [exact S |].
    intros k l K. cbn [nth_error]. assert (KL : k < length lines) by (apply nth_error_Some; congruence).
    change (Z.to_nat 10) with 10 in R. rewrite nth_error_app1 by lia.
    destruct (nth_error rows k) as [r |] eqn:Q; [| apply nth_error_None in Q; lia].
    specialize (RW k r Q).
    assert (TK : exists l' j, nth_error lines' k = Some l' /\ l = l' ++ repeat 32%N j).
    { clear - TR K. revert k K. induction TR as [| x x' ls ls' (j & X) TR IH]; intros k K; [now destruct k |].
      destruct k as [| k]; [| now apply IH]. injection K as <-. exists x', j. now split. }
    destruct TK as (l' & j & K' & ->). rewrite K' in RW. destruct RW as (q & -> & LR).
    rewrite Forall_forall in LL. pose proof (LL _ (nth_error_In _ _ K)) as LK.
    rewrite app_length, repeat_length in LK. cbn [length] in LR. rewrite app_length, repeat_length in LR.
    change (Z.to_nat 30) with 30 in LR. exists (q - j). do 2 f_equal. rewrite <- app_assoc. f_equal.
    rewrite <- repeat_app. f_equal. lia.
Qed.

(** ** Cases *)

(** This page was drawn on 13 October 2021 (assets/dashboard.png). *)
Example october : calendar_text 2021 10 13 = lit
"      October 13, 2021
 Su  Mo  Tu  We  Th  Fr  Sa
                      1   2
  3   4   5   6   7   8   9
 10  11  12 *13  14  15  16
 17  18  19  20  21  22  23
 24  25  26  27  28  29  30
 31 "%string.
Proof. vm_compute. reflexivity. Qed.

(** What is asked of the arguments is met by numbers in a small shell, and the
    functions give there what they should. *)
Example small_calls :
  map (fun y => outcome (EApply (ESymbol (lit "is-leapyear")) [EInteger y])) [1900; 2000; 2023; 2024; -4; 0]%Z
    = map (fun b => ROk (EBoolean b)) [false; true; false; true; true; true]
  /\ map (fun m => outcome (EApply (ESymbol (lit "days-in-month")) [EInteger m; EInteger 2024])) [1; 2; 4; 8; 9]%Z
    = map (fun n => ROk (EInteger n)) [31; 29; 30; 31; 30]%Z
  /\ outcome (call3 "day-of-week" 7 20 1969) = ROk (EInteger 0).
Proof. vm_compute. repeat split. Qed.
Example moon_landing : weekday (1969, 7, 20)%Z 0%Z.
Proof. apply (weekday_exists (1969, 7, 20)%Z). exists 31%Z. split; [reflexivity | lia]. Qed.
Example number_argument n z : (n + 1 <= MAX_DEPTH)%N ->
  evaluates demo_host (n + 1) (EInteger z) small_shell (ROk (EInteger z)) small_shell.
Proof. intros L. apply run_value; [exact L | exact I]. Qed.

(** Not so for late years: the number of spaces before the heading becomes
    negative and the shell crashes. *)
Theorem C117_crash_refuted : exists H s y m d s1,
  prepared H (s_env s) /\ SysSpec.fits y /\ valid (y, m, d)
  /\ evaluates H 0 (call3 "make-calendar" m d y) s (RPanic PCapacity) s1.
Proof.
  destruct (eval demo_host 60 0 (call3 "make-calendar" 9 30 (10 ^ 16)) small_shell) as [r s1] eqn:E.
  assert (r = RPanic PCapacity) as ->.
  { change r with (fst (r, s1)). rewrite <- E. vm_compute. reflexivity. }
  exists demo_host, small_shell, (10 ^ 16)%Z, 9%Z, 30%Z, s1.
  split; [exact small_prepared |]. split; [vm_compute; split; [discriminate | reflexivity] |].
  split; [exists 30%Z; split; [reflexivity | lia] |].
  split; [discriminate |]. exists 60. exact E.
Qed.

Print Assumptions C115_source_default.
Print Assumptions C115_source_intro.
Print Assumptions C115_source_read.
Print Assumptions C115_definitions.
Print Assumptions C115_new_shell.
Print Assumptions C115_leap.
Print Assumptions C115_month.
Print Assumptions C116_weekday_partial.
Print Assumptions C116_unique.
Print Assumptions C116_early_refuted.
Print Assumptions C116_negative_refuted.
Print Assumptions C116_late_refuted.
Print Assumptions C117_calendar_partial.
Print Assumptions C117_framed.
Print Assumptions C117_crash_refuted.
