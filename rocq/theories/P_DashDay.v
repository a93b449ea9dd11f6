(** C132: the definitions of the dashboard, and two clocks in one picture. *)

From Coq Require Import String Lia ZArith List.
From Verif Require Import Base Syntax Host Ops Parser Monad Builtins Eval Init EvalSpec
  OpsSpec EvalFacts LibSpec LibFacts OpsFacts RunFacts MapFacts CoreFacts P_Start
  LinesSpec WidgetSpec CalendarSpec PageSpec Prelude PreludeFacts CalendarDefs GregorianFacts CalendarFacts CalendarRun
  SysSpec PrintSpec ReportSpec BannerSpec P_Banner DashSpec P_Dash Demo.
From Verif Require P_Calendar.
Import ListNotations.

(** ** The definitions *)

Lemma part_in {A} n k (l : list A) x : In x (firstn n (skipn k l)) -> In x l.
Proof.
  intros I. rewrite <- (firstn_skipn k l), <- (firstn_skipn n (skipn k l)), !in_app_iff. auto.
Qed.

Theorem C132_same : forall x, In x (cats_definition :: banner_definition :: calendar_definitions ++ [cal_definition; dash_definition]) ->
  In x default_program.
Proof.
  assert (T : (cats_definition :: banner_definition :: calendar_definitions ++ [cal_definition; dash_definition])
    = firstn 1 (skipn 24 default_program) ++ firstn 9 (skipn 32 default_program)) by (vm_compute; reflexivity).
  rewrite T. clear T. intros x I. apply in_app_iff in I as [I | I]; exact (part_in _ _ _ _ I).
Qed.
Print Assumptions C132_same.

Theorem C132_new m : standard (init m) /\ festive (init m) /\ env_get (lit "rand") (init m) = Some (EMap rand_module).
Proof.
  split; [apply standard_new|]. split; [apply C130_new|].
  destruct (init_parts m) as (w & a & b & math & ->). cbv zeta.
    rewrite (get_defines (fun kv => lit (fst kv)) snd). unfold define_all.
    rewrite (get_defines fst snd), env_get_define, (get_defines fst snd).
  generalize (define_dirs m), log_module, dict_module, (shell_module m), err_module, (os_module m),
      time_module, rand_module, fn_module, console_module, fmt_module, parse_module, string_module.
  intros. vm_compute. reflexivity.
Qed.
Print Assumptions C132_new.

Theorem C132_definitions H s :
  standard (s_env s) -> festive (s_env s) -> env_get (lit "rand") (s_env s) = Some (EMap rand_module) ->
  env_get (lit "WEATHER-API-KEY") (s_env s) = Some ENone ->
  exists s1, all_done H [cats_definition; banner_definition; EDo calendar_definitions; cal_definition; dash_definition] s s1
    /\ furnished H (s_env s1) /\ s_trace s1 = s_trace s /\ s_log s1 = s_log s.
Proof.
  intros SD FE RM WK.
  set (s1 := with_var (lit "CATS") (EList (map EString cats)) s).
  assert (E1 : evaluates H 0 cats_definition s (ROk ENone) s1).
  { change cats_definition with (EAssign (lit "CATS") (EList (map EString cats))).
    apply run_assign; [discriminate|]. apply run_list; [discriminate|].
    clear. induction cats as [|c l IH]; [constructor|]. cbn [map].
    eapply run_all_cons; [apply run_value; [discriminate | exact I] | exact IH]. }
  destruct (C130_definition H s1) as (s2 & E2 & B2 & T2 & L2 & K2).
  assert (K1 : forall x, x <> lit "CATS" -> env_get x (s_env s1) = env_get x (s_env s)).
  { intros x N. apply found_below; [now apply str_eqb_neq | reflexivity]. }
  assert (S2 : standard (s_env s2)).
  { intros x v I. rewrite K2, K1; [now apply SD | |]; intros ->; revert I; vm_compute; intuition discriminate. }
  destruct (P_Calendar.C115_definitions H s2 S2) as (v3 & s3 & E3 & P3 & T3 & L3 & K3).
  set (s4 := with_var (lit "cal") (match cal_definition with EAssign _ v => v | _ => ENone end) s3).
  assert (E4 : evaluates H 0 cal_definition s3 (ROk ENone) s4).
  { apply (run_assign H 0 (lit "cal") _ s3 _ s3); [discriminate|]. apply run_value; [discriminate | exact I]. }
  set (s5 := with_var (lit "dashboard") (match dash_definition with EAssign _ v => v | _ => ENone end) s4).
  assert (E5 : evaluates H 0 dash_definition s4 (ROk ENone) s5).
  { apply (run_assign H 0 (lit "dashboard") _ s4 _ s4); [discriminate|]. apply run_value; [discriminate | exact I]. }
  assert (K5 : forall x, x <> lit "dashboard" -> x <> lit "cal" -> env_get x (s_env s5) = env_get x (s_env s3)).
  { intros x N M. unfold s5, s4. cbn [with_var with_env s_env]. do 2 (apply found_below; [now apply str_eqb_neq|]). reflexivity. }
  assert (NC : forall x, existsb (str_eqb x) calendar_names = false -> ~ In x calendar_names).
  { intros x E I. rewrite <- not_true_iff_false in E. apply E, existsb_exists. exists x. split; [exact I | apply str_eqb_refl]. }
  assert (KA : forall x, existsb (str_eqb x) (lit "dashboard" :: lit "cal" :: lit "welcomebanner" :: lit "CATS" :: calendar_names) = false ->
    env_get x (s_env s5) = env_get x (s_env s)).
  { intros x E. cbn [existsb] in E. do 4 (apply orb_false_iff in E as [? E]).
    rewrite K5, K3, K2, K1; [reflexivity | | | | |]; first [now apply str_eqb_neq | exact (NC x E)]. }
  exists s5. split; [|split; [|split]].
  - repeat (econstructor; [eassumption|]). constructor.
  - clear - KA K1 K2 K3 K5 NC FE RM WK SD B2 P3. unfold furnished. split; [|split; [|split; [|split; [|split; [|split; [|split; [|split; [|split]]]]]]]].
    + intros x v I. rewrite KA; [now apply FE|]. revert I. unfold banner_names. cbn [In].
      intros I. repeat (destruct I as [I | I]; [injection I as <- _; reflexivity|]). contradiction.
    + unfold has_banner in *. cbn [banner_definition] in *. unfold banner_definition in *. rewrite K5, K3; [exact B2 | apply NC; reflexivity | discriminate | discriminate].
    + destruct P3 as (sa & v & sb & A1 & A2 & A3). exists sa, v, sb. split; [exact A1|]. split; [exact A2|].
      intros x I. rewrite K5; [now apply A3 | |]; intros ->; revert I; vm_compute; intuition discriminate.
    + unfold as_defined. unfold s5, s4. cbn [with_var with_env s_env]. unfold cal_definition. apply found_below; [reflexivity|]. apply found_here.
    + unfold as_defined, s5. cbn [with_var with_env s_env]. unfold dash_definition. apply found_here.
    + rewrite K5, K3, K2; [apply found_here | discriminate | apply NC; reflexivity | discriminate | discriminate].
    + rewrite KA; [exact WK | reflexivity].
    + rewrite KA; [apply SD; cbn; tauto | reflexivity].
    + rewrite KA; [apply SD; cbn; tauto | reflexivity].
    + rewrite KA; [exact RM | reflexivity].
  - unfold s5, s4. cbn [with_var with_env s_trace]. now rewrite T3, T2.
  - unfold s5, s4. cbn [with_var with_env s_log]. now rewrite L3, L2.
Qed.
Print Assumptions C132_definitions.

(** ** The calendar of today *)

Definition today : list expr :=
  [ EAssign (lit "now") (EApply (at_ "time" "now") [ENone]);
    EApply (ESymbol (lit "make-calendar")) [at_ "now" "month"; at_ "now" "day"; at_ "now" "year"] ].
Lemma cal_is : cal_definition
  = EAssign (lit "cal") (EMacro (lit "_") (EDo [EApply (EGroup (ELambda (lit "_") (EDo today) (Env [] None))) [ENone]])).
Proof. vm_compute. reflexivity. Qed.

(** [cal] asks for the time once and gives the calendar of the day. *)
Theorem C132_cal H d s y m dd h time date :
  furnished H (s_env s) -> keeps_short H -> (d + 100 <= MAX_DEPTH)%N ->
  h_answer H (s_trace s) RqNow = RsTime y m dd h time date ->
  (1 <= y <= 999999)%Z -> valid (y, m, dd) -> fits h ->
  exists t days days' e,
    evaluates H d (EApply (ESymbol (lit "cal")) [ENone]) s (ROk (EString t)) (with_env e (told H RqNow s))
    /\ page y m dd days /\ trimmed days days' /\ framed (lit "Calendar") days' 30 10 t /\ rectangle 30 10 t
    /\ forall x, x <> lit "_" -> env_get x e = env_get x (s_env s).
Proof.
  intros FU KS L A Y V HH.
  destruct (calendar_box H y m dd KS Y V) as (t & days & days' & CV & PG & TD & FD & RD & ND).
  destruct V as (k & K & D). pose proof (month_length_range _ _ _ K) as [M B].
  assert (FY : fits y /\ fits m /\ fits dd) by (unfold fits; lia). destruct FY as (FY & FM & FDD).
  destruct s as [e0 tr lg]. cbn [s_env s_trace] in *.
  set (e1 := env_define (lit "_") ENone e0).
  exists t, days, days', e1. split; [|split; [exact PG|]; split; [exact TD|]; split; [exact FD|]; split; [exact RD|]].
  2: { intros x N. apply found_below; [now apply str_eqb_neq | reflexivity]. }
  destruct FU as (F & _ & P & C & _). rewrite cal_is in C. unfold as_defined in C.
  assert (F1 : festive e1) by (now apply festive_kept).
  set (cp := capture e1 (lit "_") (EDo today) (Env [] None)).
  set (ci := call_env (lit "_") ENone cp e1).
  destruct (P_Calendar.prepared_parts _ _ P) as (_ & _ & _ & (ec & SC & GC)).
  assert (FI : env_get (lit "@") ci = Some (bi BIndex "@") /\ env_get (lit "time") ci = Some (EMap time_module)
               /\ env_get (lit "make-calendar") ci = Some (calendar_function ec)).
  { assert (GC1 : env_get (lit "make-calendar") e1 = Some (calendar_function ec)) by (apply found_below; [reflexivity | exact GC]).
    known F1. clear F F1. clearbody e1. unfold ci, call_env, cp. repeat split; run_lookup. }
  destruct FI as (AI & TI & GI).
  set (e2 := env_define (lit "now") (moment y m dd h time date) ci).
  set (tr1 := s_trace (told H RqNow (St e0 tr lg))).
  assert (A2 : env_get (lit "@") e2 = Some (bi BIndex "@")) by (apply found_below; [reflexivity | exact AI]).
  assert (G2 : env_get (lit "make-calendar") e2 = Some (calendar_function ec)) by (apply found_below; [reflexivity | exact GI]).
  assert (N2 : env_get (lit "now") e2 = Some (moment y m dd h time date)) by apply found_here.
  assert (AT : forall d e a b v r, (d + 1 <= MAX_DEPTH)%N -> env_get (lit "@") (s_env e) = Some (bi BIndex "@") ->
     env_get (lit a) (s_env e) = Some v -> expr_index v (ESymbol (lit b)) = r -> evaluates H d (at_ a b) e (ROk r) e).
  { clear. intros d e a b v r L F A R. unfold at_.
    eapply run_builtin_call; [lia | apply run_symbol; [lia | exact F] |].
    eapply run_at_name; [exact I | apply run_symbol; [discriminate | exact A] | exact R]. }
  assert (EQ : forall c, with_var (lit "now") (moment y m dd h time date) (told H RqNow (St c tr lg))
                 = St (env_define (lit "now") (moment y m dd h time date) c) tr1 lg) by (intros c; unfold with_var, told; cbn [s_env s_trace s_log with_env]; reflexivity).
  eapply run_end.
  - eapply (run_macro H _ _ (lit "_") _ _ (St e0 tr lg) (St e0 tr lg) ENone (St e0 tr lg));
      [lia | apply run_symbol; [lia | exact C] | apply run_value; [lia | exact I] |].
    change (with_var _ _ _) with (St e1 tr lg).
    eapply run_do_one; [lia|].
    eapply (run_call H _ _ (lit "_") (EDo today) cp ENone (St e1 tr lg) (St e1 tr lg) ENone (St e1 tr lg));
      [lia | apply run_group; [lia | apply run_lambda; lia] | apply run_value; [lia | exact I] |].
    change (with_env _ _) with (St ci tr lg). unfold today.
    eapply run_do_more; [lia | eapply (run_assign H _ _ _ (St ci tr lg) (moment y m dd h time date) (told H RqNow (St ci tr lg))); [lia|] |].
    + eapply (run_now_of H _ _ _ _ (St ci tr lg)); [lia | | exact A | exact FY | exact FM | exact FDD | exact HH].
      eapply AT; [lia | exact AI | exact TI | reflexivity].
    + rewrite EQ. fold e2. clearbody e2.
      eapply run_do_one; [lia|]. rewrite <- CV.
      eapply calendar_run; [exact SC | lia | exact M | lia | lia | | | |].
      * eapply run_symbol; [lia | exact G2].
      * eapply AT; [lia | exact A2 | exact N2 | reflexivity].
      * eapply AT; [lia | exact A2 | exact N2 | reflexivity].
      * eapply AT; [lia | exact A2 | exact N2 | reflexivity].
  - reflexivity.
Qed.
Print Assumptions C132_cal.

(** ** Midnight *)

(** The clock is read twice: at midnight the banner shows another day than the
    calendar under it. *)
Definition midnight : host := with_answer
  (fun tr rq => match rq with
                | RqNow => match tr with
                           | [] => RsTime 2024 2 29 23 (lit "11:59 PM") (lit "02/29/24")
                           | _ => RsTime 2024 3 1 0 (lit "12:00 AM") (lit "03/01/24")
                           end
                | _ => demo_answer tr rq
                end) demo_host.
Definition at_midnight : st := with_var (lit "WEATHER-API-KEY") ENone demo.

Lemma midnight_keeps : keeps_short midnight.
Proof.
  intros t ls w _ ST _. exists ls. split; [exact ST|]. clear. induction ls; constructor; [|assumption].
  exists 0. now rewrite app_nil_r.
Qed.

Theorem C132_one_day_refuted : exists H s cat rows e,
  furnished H (s_env s) /\ keeps_short H /\ In cat cats /\ dash_rows 2024 2 29 cat rows
  /\ evaluates H 0 (EApply (ESymbol (lit "dashboard")) [ENone]) s (ROk ENone)
       (with_env e (told H (RqPrint (with_feeds rows ++ [10%N])) (told H (RqRandom 0 6)
         (prints H (banner_texts [127747%N] (lit "12:00 AM") (lit "03/01/24")) (told H RqNow (told H RqNow s)))))).
Proof.
  destruct (C132_definitions midnight at_midnight) as (s & _ & F & T & _).
  - apply P_Calendar.standard_kept; [apply standard_new | reflexivity].
  - apply festive_kept; [apply C130_new | reflexivity].
  - apply found_below; [reflexivity|]. apply C132_new.
  - apply found_here.
  - destruct (C132_dashboard midnight 0 s 2024 2 29 23 (lit "11:59 PM") (lit "02/29/24") 2024 3 1 0 (lit "12:00 AM") (lit "03/01/24") [127747%N])
      as (cat & rows & e & IC & DR & E & _).
    + exact F.
    + exact midnight_keeps.
    + discriminate.
    + rewrite T. reflexivity.
    + lia.
    + exists 29%Z. split; [left; split; [split; [now exists 506%Z | left; intros (k & K); lia] | reflexivity] | lia].
    + unfold fits. lia.
    + cbn [told s_trace]. rewrite T. reflexivity.
    + unfold fits. lia.
    + unfold fits. lia.
    + unfold fits. lia.
    + unfold fits. lia.
    + constructor. lia.
    + exists midnight, s, cat, rows, e. split; [exact F|]. split; [exact midnight_keeps|]. split; [exact IC|]. split; [exact DR | exact E].
Qed.
Print Assumptions C132_one_day_refuted.
