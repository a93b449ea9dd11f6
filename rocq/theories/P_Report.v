(** C126 and C127: [report] and [help] of the start-up script for new users. *)

From Coq Require Import String Lia ZArith.
From Verif Require Import Base Syntax Host Ops Parser Monad ErrorFmt Text Builtins Eval Init EvalSpec
  OpsSpec EvalFacts LibSpec LibFacts OpsFacts RunFacts MapFacts CoreFacts CurryFacts SysSpec CmdFacts P_Eval P_Sys P_Start
  PrintSpec P_Print P_Main Prelude PreludeFacts GlobSpec P_Glob ReportSpec Demo.

(** ** A new shell *)

Theorem C126_new m : untold (init m).
Proof.
  assert (N : forall x v, In (x, v) [("==", BEq); ("+", BAdd); ("||", BOr); ("@", BIndex); ("echo", BPrintln);
                                     ("report", BReport); ("help", BHelp)]%string -> stands (init m) x v).
  { intros x v I. unfold stands. destruct (init_parts m) as (w & a & b & math & ->). cbv zeta.
    rewrite (get_defines (fun kv => lit (fst kv)) snd). unfold define_all.
    rewrite (get_defines fst snd), env_get_define, (get_defines fst snd).
    revert I.
    generalize (define_dirs m), log_module, dict_module, (shell_module m), err_module, (os_module m),
      time_module, rand_module, fn_module, console_module, fmt_module, parse_module, string_module,
      list_module, sys_module.
    intros. match goal with X : In _ _ |- _ => rename X into I; cbn [In] in I end.
    repeat (destruct I as [I | I]; [injection I as <- <-; eexists; vm_compute; reflexivity |]).
    contradiction. }
  assert (F : env_get (lit "fmt") (init m) = Some (EMap fmt_module)).
  { unfold init. set (math := math_module _). set (ops := operators _). clearbody ops math.
    rewrite (get_defines (fun kv => lit (fst kv)) snd). unfold define_all at 1.
    rewrite (get_defines fst snd).
    generalize (define_all ops (env_define (lit "fs") (EMap (fs_module m)) (define_dirs m))), log_module, dict_module, (shell_module m), err_module, (os_module m),
      time_module, rand_module, fn_module, console_module, fmt_module, parse_module, string_module,
      list_module, sys_module, (fs_module m), widget_module.
    intros. vm_compute. reflexivity. }
  repeat split; try (apply N; which);
    (exists fmt_module; eexists; split; [exact F | vm_compute; reflexivity]).
Qed.
Print Assumptions C126_new.

(** ** The definitions *)

Lemma basics_kept x v e : basics e ->
  existsb (str_eqb x) (map lit ["=="; "+"; "||"; "@"; "echo"; "fmt"]%string) = false ->
  basics (env_define x v e).
Proof.
  intros B N.
  assert (G : forall y, In y (map lit ["=="; "+"; "||"; "@"; "echo"; "fmt"]%string) ->
              env_get y (env_define x v e) = env_get y e).
  { intros y I. rewrite env_get_define. replace (str_eqb y x) with false; [reflexivity|]. symmetry.
    apply str_eqb_neq. intros ->. rewrite <- not_true_iff_false in N. apply N.
    apply existsb_exists. exists x. split; [exact I | apply str_eqb_refl]. }
  unfold basics, stands, member in *. rewrite !G by (cbn; tauto). exact B.
Qed.

Definition report_value (k : nat) : expr :=
  match nth k report_definitions ENone with EAssign _ v => v | _ => ENone end.

Record told_of (e : env) : Prop := ToldOf {
  to_donate : env_get (lit "donate") e = Some (report_value 0);
  to_old_report : stands e "old-report" BReport;
  to_report : env_get (lit "report") e = Some (report_value 3);
  to_old_help : stands e "old-help" BHelp;
  to_help : env_get (lit "help") e = Some (report_value 5)
}.

Lemma report_run H s : untold (s_env s) ->
  exists e, evaluates H 0 (EDo report_definitions) s (ROk ENone) (with_env e s)
    /\ told_of e /\ basics e /\ env_get (lit "REPORT_COUNT") e = Some (EInteger 0)
    /\ forall x, ~ In x report_names -> env_get x e = env_get x (s_env s).
Proof.
  intros (B & (n1 & R) & (n2 & L)). destruct s as [e0 tr lg]. cbn [s_env] in *.
  set (e1 := env_define (lit "donate") (report_value 0) e0).
  set (e2 := env_define (lit "old-report") (EBuiltin (Bi BReport n1)) e1).
  set (e3 := env_define (lit "REPORT_COUNT") (EInteger 0) e2).
  set (e4 := env_define (lit "report") (report_value 3) e3).
  set (e5 := env_define (lit "old-help") (EBuiltin (Bi BHelp n2)) e4).
  set (e6 := env_define (lit "help") (report_value 5) e5).
  assert (G : forall z x v e, str_eqb z x = false -> env_get z (env_define x v e) = env_get z e).
  { intros z x v e N. now rewrite env_get_define, N. }
  exists e6. split; [|split; [|split; [|split]]].
  - change (with_env e6 (St e0 tr lg)) with (St e6 tr lg). unfold report_definitions.
    eapply run_do_more; [discriminate | apply (run_assign H 1 _ _ (St e0 tr lg) (report_value 0) (St e0 tr lg)); [discriminate | apply run_value; [discriminate | exact I]] |].
    change (with_var _ _ _) with (St e1 tr lg).
    eapply run_do_more; [discriminate | apply (run_assign H 1 _ _ (St e1 tr lg) (EBuiltin (Bi BReport n1)) (St e1 tr lg)); [discriminate | apply run_symbol; [discriminate |]] |].
    { cbn [s_env]. unfold e1. rewrite G by reflexivity. exact R. }
    change (with_var _ _ _) with (St e2 tr lg).
    eapply run_do_more; [discriminate | apply (run_assign H 1 _ _ (St e2 tr lg) (EInteger 0) (St e2 tr lg)); [discriminate | apply run_value; [discriminate | exact I]] |].
    change (with_var _ _ _) with (St e3 tr lg).
    eapply run_do_more; [discriminate | apply (run_assign H 1 _ _ (St e3 tr lg) (report_value 3) (St e3 tr lg)); [discriminate | apply run_value; [discriminate | exact I]] |].
    change (with_var _ _ _) with (St e4 tr lg).
    eapply run_do_more; [discriminate | apply (run_assign H 1 _ _ (St e4 tr lg) (EBuiltin (Bi BHelp n2)) (St e4 tr lg)); [discriminate | apply run_symbol; [discriminate |]] |].
    { cbn [s_env]. unfold e4, e3, e2, e1. rewrite !G by reflexivity. exact L. }
    change (with_var _ _ _) with (St e5 tr lg).
    eapply run_do_one; [discriminate|]. apply (run_assign H 1 _ _ (St e5 tr lg) (report_value 5) (St e5 tr lg)); [discriminate | apply run_value; [discriminate | exact I]].
  - unfold e6, e5, e4, e3, e2, e1. split; [| exists n1 | | exists n2 |]; rewrite ?G by reflexivity; apply found_here.
  - unfold e6, e5, e4, e3, e2, e1. now do 6 (apply basics_kept; [|reflexivity]).
  - unfold e6, e5, e4, e3. rewrite !G by reflexivity. apply found_here.
  - intros x N. assert (Q : forall y, In y report_names -> str_eqb x y = false).
    { intros y I. apply str_eqb_neq. intros ->. now apply N. }
    unfold e6, e5, e4, e3, e2, e1. rewrite !G; [reflexivity | apply Q; cbn; tauto ..].
Qed.

Lemma reporting_told H k e : reporting H k e -> told_of e.
Proof.
  intros (B & _ & s & v & s1 & U & E & K). destruct (report_run H s U) as (e1 & E1 & [] & _).
  destruct (evaluates_det _ _ _ _ _ _ _ _ E E1) as [_ ->]. cbn [s_env with_env] in K.
  unfold stands in *. split; unfold stands; rewrite K; try assumption; try (cbn; tauto); discriminate.
Qed.

(** The definitions can be made in every shell that still has its functions,
    and do nothing else. *)
Theorem C126_definitions H s : untold (s_env s) ->
  exists s1, evaluates H 0 (EDo report_definitions) s (ROk ENone) s1 /\ reporting H 0 (s_env s1)
    /\ s_trace s1 = s_trace s /\ s_log s1 = s_log s
    /\ forall x, ~ In x report_names -> env_get x (s_env s1) = env_get x (s_env s).
Proof.
  intros U. destruct (report_run H s U) as (e & E & T & B & C & N). exists (with_env e s).
  split; [exact E|]. split; [|split; [reflexivity | split; [reflexivity | exact N]]].
  split; [exact B|]. split; [exact C|]. exists s, ENone, (with_env e s).
  split; [exact U|]. split; [exact E|]. reflexivity.
Qed.
Print Assumptions C126_definitions.

(** ** The message *)

Lemma shown_as H v : shown H v (display H v).
Proof. now apply shown_display. Qed.

Lemma donate_run H d s : told_of (s_env s) -> basics (s_env s) -> (d + 10 <= MAX_DEPTH)%N ->
  evaluates H d (EApply (ESymbol (lit "donate")) [ENone]) s (ROk ENone) (prints H donation (with_var (lit "_") ENone s)).
Proof.
  intros T B D. set (sg := with_var (lit "_") ENone s).
  assert (BG : basics (s_env sg)) by (now apply basics_kept).
  destruct BG as (_ & _ & _ & (ni & AT) & (ne & EC) & (m & n3 & F3 & G3) & (m' & n4 & F4 & G4)).
  rewrite F3 in F4. injection F4 as <-.
  assert (X3 : expr_index (EMap m) (ESymbol (lit "italics")) = EBuiltin (Bi (TStyle (lit "3")) n3)) by (cbn [expr_index]; now rewrite G3).
  assert (X4 : expr_index (EMap m) (ESymbol (lit "href")) = EBuiltin (Bi THref n4)) by (cbn [expr_index]; now rewrite G4).
  assert (ECHO : forall k args s1 s2, (k + 5 <= MAX_DEPTH)%N -> s_env s1 = s_env sg ->
             printing H [10%N] args s1 (ROk ENone) s2 ->
             evaluates H k (EApply (ESymbol (lit "echo")) args) s1 (ROk ENone) s2).
  { intros k args s1 s2 K E P. apply (run_builtin_call H k _ (Bi BPrintln ne) _ s1 s1); [lia | apply run_symbol; [lia | now rewrite E] |].
    apply (C93_printing H BPrintln [10%N]); [cbn; tauto | exact P]. }
  assert (AT2 : forall k x f s1, (k + 5 <= MAX_DEPTH)%N -> s_env s1 = s_env sg -> expr_index (EMap m) (ESymbol x) = f ->
             evaluates H k (EApply (ESymbol (lit "@")) [ESymbol (lit "fmt"); ESymbol x]) s1 (ROk f) s1).
  { intros k x f s1 K E X. apply (run_builtin_call H k _ (Bi BIndex ni) _ s1 s1); [lia | apply run_symbol; [lia | now rewrite E] |].
    eapply run_at_name; [exact I | apply run_symbol; [lia | now rewrite E, F3] | exact X]. }
  assert (TX : forall t s1, gives H (EString t) s1 (EString t) s1) by (intros; apply run_value; [discriminate | exact I]).
  assert (ST : forall t s1, s_env s1 = s_env sg -> gives H (EGroup (EApply (EApply (ESymbol (lit "@")) [ESymbol (lit "fmt"); ESymbol (lit "italics")]) [EString t])) s1
             (EString (ESC ++ lit "[" ++ lit "3" ++ lit "m" ++ t ++ RESET)) s1).
  { intros t s1 E. apply run_group; [discriminate|].
    apply (run_builtin_call H _ _ (Bi (TStyle (lit "3")) n3) _ s1 s1); [discriminate | apply AT2; [discriminate | exact E | exact X3] |].
    cbn [b_id]. call. unfold run_style. eapply sure_ev_arg; [reflexivity | apply TX |]. apply sure_ret. }
  assert (HR : forall u t s1, s_env s1 = s_env sg -> gives H (EGroup (EApply (EApply (ESymbol (lit "@")) [ESymbol (lit "fmt"); ESymbol (lit "href")]) [EString u; EString t])) s1
             (EString (ESC ++ lit "]8;;" ++ u ++ ESC ++ lit "\" ++ t ++ ESC ++ lit "]8;;" ++ ESC ++ lit "\")) s1).
  { intros u t s1 E. apply run_group; [discriminate|].
    apply (run_builtin_call H _ _ (Bi THref n4) _ s1 s1); [discriminate | apply AT2; [discriminate | exact E | exact X4] |].
    cbn [b_id]. call. unfold run_href, exact2. sure_step. eapply sure_ev_arg; [reflexivity | apply TX |].
    eapply sure_ev_arg; [reflexivity | apply TX |]. apply sure_ret. }
  eapply run_exact; [eapply run_macro; [lia | apply run_symbol; [lia | apply (to_donate _ T)] | apply run_value; [lia | exact I] |] | reflexivity |].
  - change (with_var _ _ _) with sg.
    eapply run_do_more; [lia | apply ECHO; [lia | reflexivity | eapply printing_last; [apply TX | apply shown_as]] |].
    eapply run_do_more; [lia | apply ECHO; [lia | reflexivity | eapply printing_more; [apply TX | apply shown_as | eapply printing_last; [apply ST; reflexivity | apply shown_as]]] |].
    eapply run_do_more; [lia | apply ECHO; [lia | reflexivity | eapply printing_more; [apply TX | apply shown_as | eapply printing_last; [apply HR; reflexivity | apply shown_as]]] |].
    eapply run_do_one; [lia | apply ECHO; [lia | reflexivity | eapply printing_last; [apply TX | apply shown_as]]].
  - reflexivity.
Qed.

(** ** C126 *)

Lemma prints_env H ts s : s_env (prints H ts s) = s_env s /\ s_log (prints H ts s) = s_log s.
Proof. revert s. induction ts as [|t ts IH]; intros s; [auto | apply (IH (told H (RqPrint t) s))]. Qed.
Lemma prints_trace H ts s s1 : s_trace s = s_trace s1 -> s_trace (prints H ts s) = s_trace (prints H ts s1).
Proof.
  revert s s1. induction ts as [|t ts IH]; intros s s1 E; [exact E|]. apply IH. cbn. now rewrite E.
Qed.
Lemma prints_app H a b s : prints H (a ++ b) s = prints H b (prints H a s).
Proof. unfold prints. apply fold_left_app. Qed.

Lemma builtin_report H a s v s1 :
  evaluates H 0 a s (ROk v) s1 -> calls H BReport [a] s (ROk ENone) (prints H (line_of H v) s1).
Proof.
  intros E. call. unfold run_report. eapply sure_ev_arg; [reflexivity | exact E |].
  destruct v; apply sure_const; reflexivity.
Qed.

Lemma reporting_kept H k k' e e' : reporting H k e -> basics e' ->
  env_get (lit "REPORT_COUNT") e' = Some (EInteger k') ->
  (forall x, ~ In x (map lit ["val"; "REPORT_COUNT"; "_"]%string) -> env_get x e' = env_get x e) ->
  reporting H k' e'.
Proof.
  intros (_ & _ & s & v & s1 & U & E & K) B C N. split; [exact B|]. split; [exact C|].
  exists s, v, s1. split; [exact U|]. split; [exact E|]. intros x I X. rewrite N; [now apply K|].
  intros Y. cbn [In map] in Y. destruct Y as [<- | [<- | [<- | []]]]; [|now apply X|];
    (revert I; vm_compute; intuition discriminate).
Qed.

(** One report: the value is printed as the built-in function prints it; the
    51st report is followed by the message. *)
Theorem C126_report H d a s v s1 k :
  reporting H k (s_env s) -> (d + 20 <= MAX_DEPTH)%N ->
  evaluates H (d + 1) a s (ROk v) s1 -> reporting H k (s_env s1) -> fits (k + 1) ->
  exists s', evaluates H d (EApply (ESymbol (lit "report")) [a]) s (ROk ENone) s'
    /\ reporting H (k + 1) (s_env s')
    /\ s_trace s' = s_trace (prints H (report_text H k v) s1) /\ s_log s' = s_log s1
    /\ env_get (lit "val") (s_env s') = Some v
    /\ forall x, ~ In x (map lit ["val"; "REPORT_COUNT"; "_"]%string) -> env_get x (s_env s') = env_get x (s_env s1).
Proof.
  intros R0 D A R F. pose proof (reporting_told _ _ _ R0) as T0. pose proof (reporting_told _ _ _ R) as T.
  pose proof R as (B & C & _).
  set (sv := with_var (lit "val") v s1). set (s2 := prints H (line_of H v) sv).
  assert (E2 : s_env s2 = env_define (lit "val") v (s_env s1)) by (apply (proj1 (prints_env H _ sv))).
  assert (B2 : basics (s_env s2)) by (rewrite E2; now apply basics_kept).
  assert (G2 : forall x, x <> lit "val" -> env_get x (s_env s2) = env_get x (s_env s1)).
  { intros x N. rewrite E2, env_get_define. now apply str_eqb_neq in N as ->. }
  assert (T2 : told_of (s_env s2)).
  { destruct T. unfold stands in *. split; unfold stands; rewrite G2 by discriminate; assumption. }
  set (s3 := if Z.eqb k 50 then prints H donation (with_var (lit "_") ENone s2) else s2).
  assert (G3 : forall x, x <> lit "val" -> x <> lit "_" -> env_get x (s_env s3) = env_get x (s_env s1)).
  { intros x N1 N2. unfold s3. destruct (Z.eqb k 50); [|now apply G2].
    rewrite (proj1 (prints_env H _ _)). cbn [s_env with_var with_env]. rewrite env_get_define.
    apply str_eqb_neq in N2 as ->. now apply G2. }
  assert (B3 : basics (s_env s3)).
  { unfold s3. destruct (Z.eqb k 50); [|exact B2]. rewrite (proj1 (prints_env H _ _)). now apply basics_kept. }
  set (s4 := with_var (lit "REPORT_COUNT") (EInteger (k + 1)) s3).
  exists s4. split; [|split; [|split; [|split; [|split]]]].
  - eapply run_macro; [lia | apply run_symbol; [lia | apply (to_report _ T0)] | exact A |].
    match goal with |- evaluates _ _ _ ?t _ _ => change t with sv end.
    destruct (to_old_report _ T) as [no O]. destruct B2 as ((nq & EQ) & _). destruct B3 as (_ & (np & PL) & _).
    eapply run_do_more; [lia | apply (run_builtin_call H _ _ (Bi BReport no) _ sv sv); [lia | apply run_symbol; [lia|] |] |].
    { cbn [sv s_env with_var with_env]. apply found_below; [reflexivity | exact O]. }
    { apply builtin_report. apply run_symbol; [discriminate | apply found_here]. }
    fold s2. eapply run_do_more; [lia | |].
    { apply (run_if H _ _ _ _ s2 (EBoolean (Z.eqb k 50)) s2 (ROk ENone) s3); [lia | |].
      - apply run_group; [lia|]. apply (run_builtin_call H _ _ (Bi BEq nq) _ s2 s2); [lia | apply run_symbol; [lia | exact EQ] |].
        eapply run_compare2; [reflexivity | apply run_symbol; [discriminate|] | apply run_value; [discriminate | exact I] | apply eq_ints].
        change (env_get (lit "REPORT_COUNT") (s_env s2) = Some (EInteger k)). rewrite G2 by discriminate. exact C.
      - unfold s3. cbn [is_truthy]. destruct (Z.eqb k 50).
        + eapply run_do_one; [lia|]. apply donate_run; [exact T2 | | lia]. rewrite E2. now apply basics_kept.
        + apply run_value; [lia | exact I]. }
    eapply run_do_one; [lia|]. apply run_assign; [lia|]. apply run_group; [lia|].
    apply (run_builtin_call H _ _ (Bi BAdd np) _ s3 s3); [lia | apply run_symbol; [lia | exact PL] |].
    eapply run_arith; [reflexivity | apply run_symbol; [discriminate|] | apply run_value; [discriminate | exact I]
      | apply value_int | apply value_int | apply add_ints; exact F | discriminate].
    change (env_get (lit "REPORT_COUNT") (s_env s3) = Some (EInteger k)). rewrite G3 by discriminate. exact C.
  - apply (reporting_kept H k (k + 1) (s_env s1)); [exact R | | apply found_here |].
    + unfold s4. cbn [s_env with_var with_env]. now apply basics_kept.
    + intros x N. unfold s4. cbn [s_env with_var with_env]. rewrite env_get_define.
      replace (str_eqb x (lit "REPORT_COUNT")) with false by (symmetry; apply str_eqb_neq; intros ->; apply N; cbn; tauto).
      apply G3; intros ->; apply N; cbn; tauto.
  - unfold report_text. rewrite prints_app. unfold s4. cbn [s_trace with_var with_env]. unfold s3.
    destruct (Z.eqb k 50).
    + apply prints_trace. cbn [s_trace with_var with_env]. now apply prints_trace.
    + change (s_trace s2 = s_trace (prints H (line_of H v) s1)). now apply prints_trace.
  - unfold s4, s3. cbn [s_log with_var with_env]. destruct (Z.eqb k 50); rewrite ?(proj2 (prints_env H _ _)); cbn [s_log with_var with_env];
      unfold s2; now rewrite (proj2 (prints_env H _ _)).
  - unfold s4, s3. cbn [s_env with_var with_env]. apply found_below; [reflexivity|].
    destruct (Z.eqb k 50); rewrite ?(proj1 (prints_env H _ _)); cbn [s_env with_var with_env];
      [apply found_below; [reflexivity|] |]; rewrite E2; apply found_here.
  - intros x N. unfold s4. cbn [s_env with_var with_env]. rewrite env_get_define.
    replace (str_eqb x (lit "REPORT_COUNT")) with false by (symmetry; apply str_eqb_neq; intros ->; apply N; cbn; tauto).
    apply G3; intros ->; apply N; cbn; tauto.
Qed.
Print Assumptions C126_report.

(** Any number of reports: the message appears exactly once, after the 51st. *)
Theorem C126_reports H vs s :
  reporting H 0 (s_env s) -> (Z.of_nat (length vs) < 2 ^ 62)%Z ->
  exists s', reports H vs s s' /\ s_log s' = s_log s
    /\ s_trace s' = s_trace (prints H (flat_map (line_of H) (firstn 51 vs)
                                       ++ (if 50 <? Z.of_nat (length vs) then donation else [])%Z
                                       ++ flat_map (line_of H) (skipn 51 vs)) s)
    /\ forall x, ~ In x (map lit ["val"; "REPORT_COUNT"; "_"]%string) -> env_get x (s_env s') = env_get x (s_env s).
Proof.
  intros R L.
  assert (X : forall vs k s, reporting H k (s_env s) -> (0 <= k)%Z -> (k + Z.of_nat (length vs) < 2 ^ 62)%Z ->
    exists s', reports H vs s s' /\ s_log s' = s_log s
      /\ s_trace s' = s_trace (prints H (flat_map (fun iv => report_text H (fst iv) (snd iv))
                                  (combine (map (fun i => k + Z.of_nat i)%Z (seq 0 (length vs))) vs)) s)
      /\ forall x, ~ In x (map lit ["val"; "REPORT_COUNT"; "_"]%string) -> env_get x (s_env s') = env_get x (s_env s)).
  { clear. induction vs as [|v vs IH]; intros k s R K L.
    - exists s. repeat split. constructor.
    - cbn [length] in L.
      destruct (C126_report H 0 (EQuote v) s v s k R ltac:(discriminate) ltac:(now apply run_quote) R) as (s1 & E & R1 & T1 & L1 & _ & N1).
      { unfold fits. lia. }
      destruct (IH (k + 1)%Z s1 R1 ltac:(lia) ltac:(lia)) as (s2 & RS & L2 & T2 & N2).
      exists s2. split; [econstructor; eassumption|]. split; [congruence|]. split; [|intros x I; now rewrite N2, N1].
      rewrite T2. cbn [length seq map combine flat_map fst snd]. rewrite prints_app, Z.add_0_r.
      rewrite <- seq_shift, map_map.
      replace (map (fun i => k + Z.of_nat (S i))%Z (seq 0 (length vs))) with (map (fun i => k + 1 + Z.of_nat i)%Z (seq 0 (length vs)))
        by (apply map_ext; intros; lia).
      now apply prints_trace. }
  destruct (X vs 0%Z s R ltac:(lia) L) as (s' & RS & LG & T & N). exists s'. split; [exact RS|]. split; [exact LG|].
  split; [|exact N]. rewrite T. f_equal. f_equal. clear.
  assert (Y : forall vs k, flat_map (fun iv => report_text H (fst iv) (snd iv)) (combine (map (fun i => k + Z.of_nat i)%Z (seq 0 (length vs))) vs)
     = if (50 <? k)%Z then flat_map (line_of H) vs
       else flat_map (line_of H) (firstn (Z.to_nat (51 - k)) vs)
            ++ (if 50 <? k + Z.of_nat (length vs) then donation else [])%Z
            ++ flat_map (line_of H) (skipn (Z.to_nat (51 - k)) vs)).
  { clear. induction vs as [|v vs IH]; intros k.
    - cbn [length seq map combine flat_map]. rewrite firstn_nil, skipn_nil, Z.add_0_r. now destruct (50 <? k)%Z.
    - cbn [length seq map combine flat_map fst snd]. rewrite Z.add_0_r, <- seq_shift, map_map.
      replace (map (fun i => k + Z.of_nat (S i))%Z (seq 0 (length vs))) with (map (fun i => (k + 1) + Z.of_nat i)%Z (seq 0 (length vs)))
        by (apply map_ext; intros; lia).
      rewrite IH. unfold report_text. destruct (Z.ltb_spec 50 k) as [K|K].
      + replace (50 <? k + 1)%Z with true by (symmetry; apply Z.ltb_lt; lia).
        replace (k =? 50)%Z with false by (symmetry; apply Z.eqb_neq; lia). now rewrite app_nil_r.
      + replace (Z.to_nat (51 - k)) with (S (Z.to_nat (50 - k))) by lia. cbn [firstn skipn flat_map].
        rewrite <- !app_assoc. f_equal. destruct (Z.ltb_spec 50 (k + 1)) as [K1|K1].
        * assert (k = 50)%Z as -> by lia. cbn [Z.eqb Pos.eqb Z.sub Z.to_nat]. change (Z.to_nat (50 - 50)) with 0%nat.
          cbn [firstn skipn flat_map]. replace (50 <? 50 + Z.of_nat (S (length vs)))%Z with true by (symmetry; apply Z.ltb_lt; lia).
          reflexivity.
        * replace (k =? 50)%Z with false by (symmetry; apply Z.eqb_neq; lia). cbn [app].
          replace (51 - (k + 1))%Z with (50 - k)%Z by lia.
          replace (k + 1 + Z.of_nat (length vs))%Z with (k + Z.of_nat (S (length vs)))%Z by lia. reflexivity. }
  rewrite (Y vs 0%Z). reflexivity.
Qed.
Print Assumptions C126_reports.

(** The reported value replaces the variable [val] of the user. *)
Theorem C126_val_refuted :
  exists H s s', reporting H 0 (s_env s) /\ env_get (lit "val") (s_env s) = Some (EInteger 5)
    /\ evaluates H 0 (EApply (ESymbol (lit "report")) [EQuote (EInteger 7)]) s (ROk ENone) s'
    /\ env_get (lit "val") (s_env s') = Some (EInteger 7).
Proof.
  destruct (C126_definitions demo_host (with_var (lit "val") (EInteger 5) demo)) as (s & _ & R & _ & _ & N).
  { destruct (C126_new (Machine (Some (lit "/home/me")) (Some (lit "/tmp")) None
      (Some (lit "/home/me/Documents")) None OsDebian (lit "12") (Some (lit "/usr/bin/dunesh"))
      (lit "Use the `fs` module!") false)) as (B & (n1 & R1) & (n2 & R2)).
    split; [now apply basics_kept|]. split; [exists n1 | exists n2]; apply found_below; (reflexivity || assumption). }
  destruct (C126_report demo_host 0 (EQuote (EInteger 7)) s (EInteger 7) s 0 R ltac:(discriminate)
              ltac:(now apply run_quote) R ltac:(unfold fits; lia)) as (s' & E & _ & _ & _ & V & _).
  exists demo_host, s, s'. split; [exact R|]. split; [|split; assumption].
  rewrite N; [apply found_here | vm_compute; intuition discriminate].
Qed.
Print Assumptions C126_val_refuted.

(** A shell in which the definitions ran. *)
Definition told_shell : st := Eval vm_compute in
  snd (eval demo_host 100 0 (EDo report_definitions) demo).
Example C126_case :
  exists s', reports demo_host [EInteger 3; ENone; EString (lit "a")] told_shell s'
    /\ rev (map fst (s_trace s')) = [RqPrint (lit "3" ++ [10%N]); RqPrint (lit "a" ++ [10%N])].
Proof.
  assert (S : forall v s s', eval demo_host 40 0 (EApply (ESymbol (lit "report")) [EQuote v]) s = (ROk ENone, s') ->
    evaluates demo_host 0 (EApply (ESymbol (lit "report")) [EQuote v]) s (ROk ENone) s').
  { intros v s s' E. split; [discriminate | now exists 40%nat]. }
  eexists. split.
  - eapply reports_next; [apply S; vm_compute; reflexivity|]. eapply reports_next; [apply S; vm_compute; reflexivity|].
    eapply reports_next; [apply S; vm_compute; reflexivity|]. apply reports_none.
  - vm_compute. reflexivity.
Qed.

(** ** C127 *)

Section Help.
  Variables (H : host) (d : N) (a : expr) (s : st) (v : expr) (s1 : st) (k k1 : Z) (cwd : str).
  Hypothesis R0 : reporting H k (s_env s).
  Hypothesis D : (d + 40 <= MAX_DEPTH)%N.
  Hypothesis A : evaluates H (d + 1) a s (ROk v) s1.
  Hypothesis R : reporting H k1 (s_env s1).
  Hypothesis CW : env_get CWD (s_env s1) = Some (EString cwd).
  Let sv := with_var (lit "val") v s1.

  Lemma is_topic_call n y : (n + 5 <= MAX_DEPTH)%N ->
    evaluates H n (EGroup (EApply (ESymbol (lit "==")) [ESymbol (lit "val"); EQuote (ESymbol y)])) sv
      (ROk (EBoolean (expr_eqb v (ESymbol y)))) sv.
  Proof.
    intros N. destruct R as (((nq & EQ) & _) & _). apply run_group; [lia|].
    apply (run_builtin_call H _ _ (Bi BEq nq) _ sv sv); [lia | apply run_symbol; [lia | now apply found_below] |].
    eapply run_compare2; [reflexivity | apply run_symbol; [discriminate | apply found_here] | now apply run_quote | reflexivity].
  Qed.
  Lemma is_me_call n : (n + 7 <= MAX_DEPTH)%N ->
    evaluates H n (EGroup (EApply (ESymbol (lit "||"))
        [EGroup (EApply (ESymbol (lit "==")) [ESymbol (lit "val"); ESymbol CWD]);
         EGroup (EApply (ESymbol (lit "==")) [ESymbol (lit "val"); EQuote (ESymbol (lit "me"))])])) sv
      (ROk (EBoolean (expr_eqb v (EString cwd) || expr_eqb v (ESymbol (lit "me"))))) sv.
  Proof.
    intros N. pose proof R as (((nq & EQ) & _ & (no & OR) & _) & _). apply run_group; [lia|].
    apply (run_builtin_call H _ _ (Bi BOr no) _ sv sv); [lia | apply run_symbol; [lia | now apply found_below] |].
    eapply run_logical; [reflexivity | |].
    - eapply run_all_cons; [|eapply run_all_cons; [apply is_topic_call; discriminate | apply run_all_nil]].
      apply run_group; [discriminate|].
      apply (run_builtin_call H _ _ (Bi BEq nq) _ sv sv); [discriminate | apply run_symbol; [discriminate | now apply found_below] |].
      eapply run_compare2; [reflexivity | apply run_symbol; [discriminate | apply found_here]
        | apply run_symbol; [discriminate | apply found_below; [reflexivity | exact CW]] | reflexivity].
    - cbn. now rewrite orb_false_r.
  Qed.
  Lemma old_help_call n args r s' : (n + 5 <= MAX_DEPTH)%N -> explaining H args sv r s' ->
    evaluates H n (EApply (ESymbol (lit "old-help")) args) sv r s'.
  Proof.
    intros N E. pose proof (to_old_help _ (reporting_told _ _ _ R)) as (no & O).
    apply (run_builtin_call H _ _ (Bi BHelp no) _ sv sv); [lia | apply run_symbol; [lia | now apply found_below] |].
    now apply C95_help.
  Qed.

  Ltac start_help :=
    eapply run_macro; [lia | apply run_symbol; [lia | apply (to_help _ (reporting_told _ _ _ R0))] | exact A |];
    match goal with |- evaluates _ _ _ ?t _ _ => change t with sv end;
    eapply run_do_one; [lia|].
  Ltac decide_if :=
    match goal with |- evaluates _ _ (if ?c then _ else _) _ _ _ =>
      let b := eval vm_compute in c in change c with b end; cbv iota.

  (** What is no topic: the value is explained if it is a builtin function. *)
  Theorem C127_function b : v = EBuiltin b ->
    exists s', evaluates H d (EApply (ESymbol (lit "help")) [a]) s (ROk ENone) s'
      /\ s_trace s' = s_trace (told H (RqHelp (b_name b)) s1) /\ s_log s' = s_log s1
      /\ forall x, x <> lit "val" -> env_get x (s_env s') = env_get x (s_env s1).
  Proof.
    intros V. exists (told H (RqHelp (b_name b)) sv). split; [|split; [|split]]; [| reflexivity | reflexivity |].
    - start_help. eapply run_if; [lia | apply is_me_call; lia | rewrite V; decide_if].
      repeat (apply run_group; [lia|]; eapply run_if; [lia | apply is_topic_call; lia | rewrite V; decide_if]).
      apply run_group; [lia|]. eapply run_do_one; [lia|]. apply old_help_call; [lia|].
      eapply explaining_builtin; [| | apply explaining_nothing].
      + intros (x & E & I). injection E as <-. revert I. vm_compute. intuition discriminate.
      + unfold gives. apply run_symbol; [discriminate|]. rewrite <- V. apply found_here.
    - intros x N. cbn [told s_env sv with_var with_env]. rewrite env_get_define. now apply str_eqb_neq in N as ->.
  Qed.

  (** Topics are explained by their names. *)
  Theorem C127_topic x : In x topics -> x <> lit "me" -> v = ESymbol x ->
    exists s', evaluates H d (EApply (ESymbol (lit "help")) [a]) s (ROk ENone) s'
      /\ s_trace s' = s_trace (told H (RqHelp x) s1) /\ s_log s' = s_log s1
      /\ forall x, x <> lit "val" -> env_get x (s_env s') = env_get x (s_env s1).
  Proof.
    intros I NM V. exists (told H (RqHelp x) sv). split; [|split; [|split]]; [| reflexivity | reflexivity |].
    - start_help. assert (X : explaining H [ESymbol x] sv (ROk ENone) (told H (RqHelp x) sv)).
      { apply explaining_topic; [exact I | apply explaining_nothing]. }
      eapply run_if; [lia | apply is_me_call; lia |]. unfold topics in I. cbn [map In] in I.
      repeat (destruct I as [I | I]; [try (exfalso; now apply NM) | ]); try contradiction; subst x; rewrite V; decide_if;
        repeat (apply run_group; [lia|]; eapply run_if; [lia | apply is_topic_call; lia | rewrite V; decide_if]);
        (eapply run_do_one; [lia|]); (apply old_help_call; [lia | exact X]).
    - intros y N. cbn [told s_env sv with_var with_env]. rewrite env_get_define. now apply str_eqb_neq in N as ->.
  Qed.

  (** [help me], and [help] alone, which is called with the directory: the
      message follows. *)
  Theorem C127_me : v = ESymbol (lit "me") \/ v = EString cwd ->
    exists s', evaluates H d (EApply (ESymbol (lit "help")) [a]) s (ROk ENone) s'
      /\ s_trace s' = s_trace (prints H ([10%N; 10%N] :: donation) (told H (RqHelp (lit "me")) s1)) /\ s_log s' = s_log s1
      /\ forall x, x <> lit "val" -> x <> lit "_" -> env_get x (s_env s') = env_get x (s_env s1).
  Proof.
    intros V. set (s2 := told H (RqHelp (lit "me")) sv). set (s3 := told H (RqPrint [10%N; 10%N]) s2).
    assert (B3 : basics (s_env s3)).
    { change (s_env s3) with (env_define (lit "val") v (s_env s1)). destruct R as (B & _). now apply basics_kept. }
    assert (T3 : told_of (s_env s3)).
    { change (s_env s3) with (env_define (lit "val") v (s_env s1)). destruct (reporting_told _ _ _ R).
      destruct to_old_report0 as [n1 Q1]. destruct to_old_help0 as [n2 Q2].
      split; [| exists n1 | | exists n2 |]; (apply found_below; [reflexivity | assumption]). }
    exists (prints H donation (with_var (lit "_") ENone s3)). split; [|split; [|split]].
    - start_help. eapply run_if; [lia | apply is_me_call; lia |].
      replace (is_truthy (EBoolean (expr_eqb v (EString cwd) || expr_eqb v (ESymbol (lit "me"))))) with true.
      2: { cbn [is_truthy]. destruct V as [-> | ->]; cbn [expr_eqb]; rewrite str_eqb_refl; [now rewrite orb_true_r | reflexivity]. }
      eapply run_do_more; [lia | apply old_help_call; [lia|]; apply explaining_topic; [cbn; tauto | apply explaining_nothing] |].
      fold s2. pose proof B3 as (_ & _ & _ & _ & (ne & EC) & _).
      eapply run_do_more; [lia | apply (run_builtin_call H _ _ (Bi BPrintln ne) _ s2 s2); [lia | apply run_symbol; [lia | exact EC] |] |].
      { apply (C93_printing H BPrintln [10%N]); [cbn; tauto|]. eapply printing_last; [apply run_value; [discriminate | exact I] | apply shown_as]. }
      change (told H (RqPrint _) s2) with s3. eapply run_do_one; [lia|]. apply donate_run; [exact T3 | exact B3 | lia].
    - cbn [prints fold_left]. change (fold_left (fun s t => told H (RqPrint t) s)) with (prints H).
      now apply prints_trace.
    - now rewrite (proj2 (prints_env H _ _)).
    - intros x N1 N2. rewrite (proj1 (prints_env H _ _)). cbn [told s3 s2 s_env sv with_var with_env]. rewrite !env_get_define.
      apply str_eqb_neq in N1 as ->. now apply str_eqb_neq in N2 as ->.
  Qed.
End Help.
Print Assumptions C127_function.
Print Assumptions C127_topic.
Print Assumptions C127_me.

(** A variable with the name of a topic hides the topic. *)
Theorem C127_hidden_refuted :
  exists H s s', basics (s_env s) /\ env_get (lit "help") (s_env s) = env_get (lit "help") (s_env told_shell)
    /\ In (lit "lib") topics
    /\ evaluates H 0 (EApply (ESymbol (lit "help")) [ESymbol (lit "lib")]) s (ROk ENone) s' /\ s_trace s' = s_trace s.
Proof.
  exists demo_host, (with_var (lit "lib") (EInteger 5) told_shell). eexists. split; [|split; [|split; [|split]]].
  - unfold basics, stands, member. repeat split; repeat eexists; vm_compute; reflexivity.
  - vm_compute. reflexivity.
  - vm_compute. tauto.
  - split; [discriminate|]. exists 60%nat. vm_compute. reflexivity.
  - reflexivity.
Qed.
Print Assumptions C127_hidden_refuted.

Example C127_case :
  exists s', evaluates demo_host 0 (EApply (ESymbol (lit "help")) [ESymbol (lit "types")]) told_shell (ROk ENone) s'
    /\ map fst (s_trace s') = [RqHelp (lit "types")].
Proof. eexists. split; [split; [discriminate|]; exists 60%nat; vm_compute; reflexivity | reflexivity]. Qed.
