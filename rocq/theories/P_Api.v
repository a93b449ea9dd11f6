(** C136: asking the weather service, and setting the key for it. *)

From Coq Require Import String Lia ZArith List.
From Verif Require Import Base Text Syntax Host Ops Parser Monad ErrorFmt Builtins Eval Init EvalSpec
  OpsSpec EvalFacts LibSpec LibFacts OpsFacts RunFacts MapFacts CoreFacts CmdFacts
  Prelude PreludeFacts SysSpec PrintSpec BannerSpec DashSpec ApiSpec P_Pipe Demo P_Hello.
From Verif Require P_Start P_Prompt P_Banner.
Import ListNotations.

(** The parts of [weather-api]: the function of the units, the function of the
    city, and the value the name gets.  src/.default-dune-prelude:283-296. *)
Definition api_body : expr := Eval vm_compute in
  match api_definition with EAssign _ (ELambda _ b _) => b | _ => ENone end.
Definition api_inner : expr := Eval vm_compute in
  match api_body with ELambda _ b _ => b | _ => ENone end.
Definition api_function (e : env) : expr :=
  ELambda (lit "units") api_body (capture e (lit "units") api_body (Env [] None)).
Lemma api_made H d s : (d + 2 <= MAX_DEPTH)%N ->
  evaluates H d api_definition s (ROk ENone) (with_var (lit "weather-api") (api_function (s_env s)) s).
Proof.
  intros L. change api_definition with (EAssign (lit "weather-api") (ELambda (lit "units") api_body (Env [] None))).
  apply run_assign; [lia|]. apply run_lambda. lia.
Qed.

Lemma curious_all e : curious e ->
  fold_right (fun p P => env_get (fst p) e = Some (snd p) /\ P) True api_names.
Proof.
  intros (S & _). revert S. induction api_names as [| [x v] l IH]; intros S; cbn; [exact I |].
  split; [apply S; now left | apply IH; intros; apply S; now right].
Qed.
Ltac known S :=
  let A := fresh in
  pose proof (curious_all _ S) as A;
  lazy beta iota zeta delta [fold_right api_names fst snd] in A;
  repeat match type of A with _ /\ _ => let B := fresh "KNOWN" in destruct A as [B A] end; clear A.

(** ** Inside of the function *)

(** The address as the script writes it.  src/.default-dune-prelude:290-292. *)
Definition plus (a b : expr) : expr := EGroup (EApply (sym "+") [a; b]).
Definition text_of (x : string) : expr := EGroup (EApply (sym "str") [sym x]).
Definition url_expr : expr :=
  plus (plus (plus (plus (plus (sym "BASE_URL") (text_of "city")) (EString (lit "&units="))) (text_of "units")) (EString (lit "&appid=")))
       (text_of "WEATHER-API-KEY").
Lemma inner_is : api_inner = EDo [EIf (EGroup (EApply (sym "==") [sym "WEATHER-API-KEY"; ENone]))
  (EDo [EApply (sym "echo") [EGroup (EApply (at_ "fmt" "italics") [EGroup (EApply (at_ "fmt" "red") [EString no_key])])]])
  (EGroup (EDo [EAssign (lit "BASE_URL") (EString (lit "http://api.openweathermap.org/data/2.5/weather?q=")); EAssign (lit "URL") url_expr;
    EGroup (EApply (sym "|") [EApply (sym "curl") [sym "--silent"; sym "URL"]; at_ "parse" "json"])]))].
Proof. vm_compute. reflexivity. Qed.

Lemma name_ne e x : curious e -> existsb (fun p => str_eqb (fst p) x) api_names = false -> str_eqb (lit "curl") x = false ->
  str_eqb (lit "--silent") x = false -> forall v, curious (env_define x v e).
Proof.
  intros (A & B & C) N N1 N2 v. split; [|split].
  - intros y u I. apply found_below; [|now apply A]. destruct (str_eqb y x) eqn:E; [|reflexivity].
    rewrite <- N. symmetry. apply existsb_exists. exists (y, u). now split.
  - apply found_below; assumption.
  - apply found_below; assumption.
Qed.

Lemma str_run H d s x t : (d + 4 <= MAX_DEPTH)%N -> env_get (lit "str") (s_env s) = Some (bi BStr "str") ->
  env_get (lit x) (s_env s) = Some (EString t) -> evaluates H d (text_of x) s (ROk (EString t)) s.
Proof.
  intros L S X. apply run_group; [lia|]. eapply (run_builtin_call H _ _ (Bi BStr (lit "str"))); [lia | apply run_name; [lia | exact S] |].
  cbn [b_id]. call. unfold run_str. eapply sure_ev_arg; [reflexivity | apply run_name; [discriminate | exact X] |]. apply sure_ret.
Qed.

Lemma no_key_run H d s : (d + 20 <= MAX_DEPTH)%N -> curious (s_env s) -> env_get (lit "WEATHER-API-KEY") (s_env s) = Some ENone ->
  evaluates H d api_inner s (ROk ENone) (told H (RqPrint (in_style "3" (in_style "91" no_key) ++ [10%N])) s).
Proof.
  intros L C K. rewrite inner_is. known C. apply run_do_one; [lia|]. eapply run_if; [lia | |].
  - apply run_group; [lia|]. eapply (run_builtin_call H _ _ (Bi BEq (lit "=="))); [lia | apply run_name; [lia | eassumption] |].
    eapply run_compare2; [reflexivity | apply run_name; [discriminate | exact K] | apply run_value; [discriminate | exact I] | reflexivity].
  - match goal with |- evaluates _ _ (if ?b then _ else _) _ _ _ => change b with true end. cbv iota.
    apply run_do_one; [lia|]. eapply P_Banner.run_echo; [lia | apply run_name; [lia | eassumption] |]. apply P_Banner.print_one.
    assert (ST : forall x nm code, expr_index (EMap fmt_module) (sym nm) = EBuiltin (Bi (TStyle (lit code)) (lit nm)) ->
              forall a d, (d + 10 <= MAX_DEPTH)%N -> evaluates H 0 a s (ROk (EString x)) s ->
              evaluates H d (EGroup (EApply (at_ "fmt" nm) [a])) s (ROk (EString (in_style code x))) s).
    { intros x nm code IX a d' D A. apply run_group; [lia|].
      eapply (P_Prompt.run_styled H _ _ (lit code) (lit nm) _ s s (EString x)); [lia | | exact A].
      eapply run_member; [lia | eassumption | eassumption | exact IX]. }
    apply ST; [vm_compute; reflexivity | discriminate |].
    apply ST; [vm_compute; reflexivity | discriminate | apply run_value; [discriminate | exact I]].
Qed.

(** The pipe: the program, and what is made of its output. *)
Lemma url_run H s u c k : curious (s_env s) -> env_get (lit "WEATHER-API-KEY") (s_env s) = Some (EString k) ->
  env_get (lit "units") (s_env s) = Some (EString u) -> env_get (lit "city") (s_env s) = Some (EString c) ->
  env_get (lit "BASE_URL") (s_env s) = Some (EString (lit "http://api.openweathermap.org/data/2.5/weather?q=")) ->
  forall d, (d + 10 <= MAX_DEPTH)%N -> evaluates H d url_expr s (ROk (EString (address u c k))) s.
Proof.
  intros C K U I' B d L. known C. unfold url_expr, plus, address.
  set (base := lit "http://api.openweathermap.org/data/2.5/weather?q=") in *.
  replace (base ++ c ++ lit "&units=" ++ u ++ lit "&appid=" ++ k) with (((((base ++ c) ++ lit "&units=") ++ u) ++ lit "&appid=") ++ k)
    by (now rewrite <- !app_assoc).
  repeat (apply text_plus; [assumption | | | run_depth]).
  - apply run_name; [discriminate | exact B].
  - apply str_run; [discriminate | assumption | exact I'].
  - apply run_value; [discriminate | exact I].
  - apply str_run; [discriminate | assumption | exact U].
  - apply run_value; [discriminate | exact I].
  - apply str_run; [discriminate | assumption | exact K].
Qed.

Lemma no_program_call e n l b p args : env_get n e = Some (EBuiltin b) -> ~ program_call e (EApply (ESymbol n) l) p args.
Proof. intros A X. inversion X as [| ? ? ? N | | | | |]; subst. inversion N; congruence. Qed.
Lemma no_program e a b p args : env_get (lit "@") e = Some (bi BIndex "@") -> ~ program_call e (at_ a b) p args.
Proof. intros A. apply (no_program_call e (lit "@") _ (Bi BIndex (lit "@"))). exact A. Qed.

(** Values and errors. *)
(** A run that ended with a value or an error.  src/expr.rs:562-585. *)
Definition settled (r : res expr) : Prop := (exists v, r = ROk v) \/ exists e, r = RErr e.

Lemma do_last H d x s r s' : (d <= MAX_DEPTH)%N -> settled r -> evaluates H (d + 1) x s r s' -> evaluates H d (EDo [x]) s r s'.
Proof.
  intros L [(v & ->) | (e & ->)] E; [now apply run_do_one|]. apply rule_do; [exact L|]. right. exists (RErr e). split; [|constructor].
  eapply io_first; [exact E | constructor].
Qed.
Lemma do_next H d x y l s v s1 r s' : (d <= MAX_DEPTH)%N -> settled r -> evaluates H (d + 1) x s (ROk v) s1 ->
  evaluates H d (EDo (y :: l)) s1 r s' -> evaluates H d (EDo (x :: y :: l)) s r s'.
Proof.
  intros L [(w & ->) | (e & ->)] E1 E2; [now apply (run_do_more H d x y l s v s1)|].
  apply rule_do in E2; [|exact L]. destruct E2 as [(vs & _ & X) | (r1 & A & F)]; [discriminate|].
  apply rule_do; [exact L|]. right. inversion F; subst. exists (RErr e). split; [|constructor].
  eapply io_later; [exact E1 | exact A | constructor].
Qed.
Lemma data_settled H t r : weather_data H t r -> settled r.
Proof. intros W. inversion W; [left | left | right]; now eexists. Qed.

Lemma json_run H s t r : env_get (lit "@") (s_env s) = Some (bi BIndex "@") -> env_get (lit "parse") (s_env s) = Some (EMap parse_module) ->
  weather_data H t r -> evaluates H 0 (EApply (at_ "parse" "json") [EString t]) s r s.
Proof.
  intros AT PA W. eapply (run_builtin_call H 0 _ (Bi PJson (lit "json")));
    [discriminate | eapply run_member; [discriminate | exact AT | exact PA | vm_compute; reflexivity] |].
  cbn [b_id].
  inversion W as [E | j N J | N J]; subst r; call;
    unfold run_json, exact1; sure_step; (eapply sure_ev_arg; [reflexivity | apply run_value; [discriminate | exact I] |]); cbv zeta; cbn [display].
  - subst t. apply sure_ret.
  - destruct t; [congruence|]. cbn [str_eqb]. rewrite J. apply sure_ret.
  - destruct t; [congruence|]. cbn [str_eqb]. rewrite J. apply sure_const. reflexivity.
Qed.

Lemma key_pipe H s u d out t r : (d + 20 <= MAX_DEPTH)%N -> curious (s_env s) -> env_get (lit "URL") (s_env s) = Some (EString u) ->
  let rq := RqStage (Command (lit "curl") [lit "--silent"; u] (env_get_cwd (s_env s)) (command_envs H (s_env s))) None true in
  h_answer H (s_trace s) rq = RsOutput out -> from_utf8 out = Some t -> weather_data H t r ->
  evaluates H d (EGroup (EApply (sym "|") [EApply (sym "curl") [sym "--silent"; sym "URL"]; at_ "parse" "json"])) s r (told H rq s).
Proof.
  intros L C U rq A T W. pose proof C as (_ & C1 & C2). known C. apply run_group; [lia|].
  eapply (run_builtin_call H _ _ (Bi BPipe (lit "|"))); [lia | apply run_name; [lia | assumption] |]. cbn [b_id].
  apply C48_pipeline. eapply (flows_program _ _ _ _ _ _ _ s out (EString t)).
  - exists (lit "curl"), [sym "--silent"; sym "URL"], [sym "--silent"; sym "URL"], [sym "--silent"; EString u].
    split; [apply pc_apply, name_unbound; exact C1|]. split; [repeat constructor; discriminate|]. split; [reflexivity|].
    split; [|reflexivity].
    eapply run_all_cons; [apply run_free; [discriminate | exact C2]|].
    eapply run_all_cons; [apply run_name; [discriminate | exact U] | constructor].
  - split; [symmetry; exact A | reflexivity].
  - now apply ov_text.
  - pose proof (json_run H (told H rq s) t r ltac:(assumption) ltac:(assumption) W) as J.
    replace (St (s_env s) ((_, RsOutput out) :: s_trace s) (s_log s)) with (told H rq s).
    2:{ unfold told. now rewrite A. }
    inversion W as [E | j N JJ | N JJ]; subst r.
    + eapply flows_function; [intros p args; now apply no_program | exact J | apply ib_other; discriminate | constructor].
    + eapply flows_function; [intros p args; now apply no_program | exact J | | constructor].
      apply ib_other. destruct j; discriminate.
    + eapply flows_function_fails; [intros p args; now apply no_program | exact J | constructor].
Qed.

Lemma api_key_run H d s u c k out t r : (d + 40 <= MAX_DEPTH)%N -> curious (s_env s) -> env_get (lit "WEATHER-API-KEY") (s_env s) = Some (EString k) ->
  env_get (lit "units") (s_env s) = Some (EString u) -> env_get (lit "city") (s_env s) = Some (EString c) ->
  (forall en tr, h_answer H tr (RqStage (Command (lit "curl") [lit "--silent"; address u c k] (env_get_cwd (s_env s)) en) None true) = RsOutput out) ->
  from_utf8 out = Some t -> weather_data H t r ->
  exists e en, evaluates H d api_inner s r
    (with_env e (told H (RqStage (Command (lit "curl") [lit "--silent"; address u c k] (env_get_cwd (s_env s)) en) None true) s)).
Proof.
  intros L C K U CI A T W. rewrite inner_is. pose proof C as C'. known C.
  set (base := lit "http://api.openweathermap.org/data/2.5/weather?q=").
  set (s1 := with_var (lit "BASE_URL") (EString base) s). set (s2 := with_var (lit "URL") (EString (address u c k)) s1).
  assert (C1 : curious (s_env s1)) by (apply name_ne; [exact C' | vm_compute; reflexivity ..]).
  assert (C2 : curious (s_env s2)) by (apply name_ne; [exact C1 | vm_compute; reflexivity ..]).
  assert (CW : env_get_cwd (s_env s2) = env_get_cwd (s_env s)).
  { unfold s2, s1, with_var. cbn [s_env with_env]. rewrite !cwd_kept by (vm_compute; reflexivity). reflexivity. }
  exists (s_env s2), (command_envs H (s_env s2)).
  assert (E3 : evaluates H (d + 1 + 1 + 1 + 1) (EGroup (EApply (sym "|") [EApply (sym "curl") [sym "--silent"; sym "URL"]; at_ "parse" "json"])) s2 r
     (told H (RqStage (Command (lit "curl") [lit "--silent"; address u c k] (env_get_cwd (s_env s)) (command_envs H (s_env s2))) None true) s2)).
  { rewrite <- CW. apply (key_pipe H s2 (address u c k) _ out t); [lia | exact C2 | apply found_here | rewrite CW; apply A | exact T | exact W]. }
  assert (E1 : evaluates H (d + 1 + 1 + 1 + 1) (EAssign (lit "BASE_URL") (EString base)) s (ROk ENone) s1).
  { apply run_assign; [lia|]. apply run_value; [lia | exact I]. }
  assert (E2 : evaluates H (d + 1 + 1 + 1 + 1) (EAssign (lit "URL") url_expr) s1 (ROk ENone) s2).
  { apply run_assign; [lia|]. apply url_run; [exact C1 | | | | apply found_here | lia]; apply found_below; first [reflexivity | assumption]. }
  assert (EI : forall x r', evaluates H (d + 1 + 1) x s r r' ->
     evaluates H (d + 1) (EIf (EGroup (EApply (sym "==") [sym "WEATHER-API-KEY"; ENone]))
       (EDo [EApply (sym "echo") [EGroup (EApply (at_ "fmt" "italics") [EGroup (EApply (at_ "fmt" "red") [EString no_key])])]]) x) s r r').
  { intros x r' X. eapply (run_if _ _ _ _ _ _ (EBoolean false)); [lia | | exact X].
    apply run_group; [lia|]. eapply (run_builtin_call H _ _ (Bi BEq (lit "=="))); [lia | apply run_name; [lia | assumption] |].
    eapply run_compare2; [reflexivity | apply run_name; [discriminate | exact K] | apply run_value; [discriminate | exact I] | reflexivity]. }
  pose proof (data_settled _ _ _ W) as SE.
  eapply run_end; [apply do_last; [lia | exact SE |]; apply EI; apply run_group; [lia|];
    eapply do_next; [lia | exact SE | exact E1 |]; eapply do_next; [lia | exact SE | exact E2 |]; apply do_last; [lia | exact SE | exact E3] |].
  reflexivity.
Qed.

(** ** Calls *)

Notation outer_env e0 u e := (call_env (lit "units") (EString u) (capture e0 (lit "units") api_body (Env [] None)) e).
Notation inner_env e0 u c e :=
  (call_env (lit "city") (EString c) (capture e (lit "city") api_inner (capture (outer_env e0 u e) (lit "city") api_inner (Env [] None))) e).

Lemma inner_lookups e0 u c e key : curious e0 -> env_get (lit "WEATHER-API-KEY") e0 = Some key ->
  env_get (lit "curl") e = None -> env_get (lit "--silent") e = None ->
  curious (inner_env e0 u c e) /\ env_get (lit "WEATHER-API-KEY") (inner_env e0 u c e) = Some key
  /\ env_get (lit "units") (inner_env e0 u c e) = Some (EString u) /\ env_get (lit "city") (inner_env e0 u c e) = Some (EString c)
  /\ env_get_cwd (inner_env e0 u c e) = env_get_cwd e.
Proof.
  intros C K N1 N2. pose proof C as (_ & C1 & C2). known C. clear C.
  unfold call_env.
  split; [|split; [|split; [|split]]].
  - split; [|split].
    + intros x v I. unfold api_names in I. cbn [In] in I.
      repeat (destruct I as [I | I]; [injection I as <- <-; run_lookup |]). destruct I.
    + run_lookup.
    + run_lookup.
  - run_lookup.
  - run_lookup.
  - run_lookup.
  - rewrite cwd_kept by (vm_compute; reflexivity). unfold env_set_cwd. unfold env_get_cwd at 1. rewrite found_here. reflexivity.
Qed.

Lemma call_two H d s n x1 x2 bo cap a1 u a2 c r s' : (d + 2 <= MAX_DEPTH)%N ->
  env_get n (s_env s) = Some (ELambda x1 (ELambda x2 bo (Env [] None)) cap) ->
  evaluates H (d + 1) a1 s (ROk u) s -> evaluates H (d + 1 + 1) a2 s (ROk c) s ->
  evaluates H (d + 1 + 1) bo (with_env (call_env x2 c (capture (s_env s) x2 bo (capture (call_env x1 u cap (s_env s)) x2 bo (Env [] None))) (s_env s)) s) r s' ->
  evaluates H d (EApply (ESymbol n) [a1; a2]) s r (with_env (s_env s) s').
Proof.
  intros L F A1 A2 B. destruct s as [e tr lg]. cbn [s_env] in *.
  eapply run_call_more; [lia | apply run_symbol; [lia | exact F] | exact A1 | apply run_lambda; lia |].
  change (with_env (s_env {| s_env := e; s_trace := tr; s_log := lg |}) (with_env (call_env x1 u cap e) (St e tr lg))) with (St e tr lg).
  eapply run_end; [eapply (run_call H (d + 1)); [lia | apply run_lambda; lia | exact A2 | exact B] | reflexivity].
Qed.

Lemma function_is e0 : api_function e0
  = ELambda (lit "units") (ELambda (lit "city") api_inner (Env [] None)) (capture e0 (lit "units") api_body (Env [] None)).
Proof. reflexivity. Qed.

Lemma call_api H d s e0 a1 u a2 c r s' : (d + 2 <= MAX_DEPTH)%N ->
  env_get (lit "weather-api") (s_env s) = Some (api_function e0) ->
  evaluates H (d + 1) a1 s (ROk (EString u)) s -> evaluates H (d + 1 + 1) a2 s (ROk (EString c)) s ->
  evaluates H (d + 1 + 1) api_inner (with_env (inner_env e0 u c (s_env s)) s) r s' ->
  evaluates H d (EApply (sym "weather-api") [a1; a2]) s r (with_env (s_env s) s').
Proof.
  intros L F A1 A2 B. rewrite function_is in F. unfold sym.
  revert F B. generalize (capture e0 (lit "units") api_body (Env [] None)). generalize api_inner. generalize (lit "weather-api"), (lit "units"), (lit "city").
  intros n x1 x2 bo cap F B. exact (call_two H d s _ _ _ _ _ a1 (EString u) a2 (EString c) r s' L F A1 A2 B).
Qed.

Lemma knows_function H key e : knows H key e -> exists e0, curious e0 /\ env_get (lit "WEATHER-API-KEY") e0 = Some key
  /\ env_get (lit "weather-api") e = Some (api_function e0).
Proof.
  intros (s & v & s1 & C & K & E & G). exists (s_env s). split; [exact C|]. split; [exact K|]. rewrite G.
  destruct (evaluates_det _ _ _ _ _ _ _ _ E (api_made H 0 s ltac:(discriminate))) as (_ & ->). apply found_here.
Qed.

(** ** C136 *)

(** With a key the program [curl] is asked for one address, and what it gives is
    read as JSON; nothing else is asked, and no variable changes. *)
Theorem C136_ask H d s k a1 u a2 c out t r :
  knows H (EString k) (s_env s) -> env_get (lit "curl") (s_env s) = None -> env_get (lit "--silent") (s_env s) = None ->
  (d + 50 <= MAX_DEPTH)%N ->
  evaluates H (d + 1) a1 s (ROk (EString u)) s -> evaluates H (d + 1 + 1) a2 s (ROk (EString c)) s ->
  (forall en tr, h_answer H tr (RqStage (Command (lit "curl") [lit "--silent"; address u c k] (env_get_cwd (s_env s)) en) None true) = RsOutput out) ->
  from_utf8 out = Some t -> weather_data H t r ->
  exists en, evaluates H d (EApply (ESymbol (lit "weather-api")) [a1; a2]) s r
    (told H (RqStage (Command (lit "curl") [lit "--silent"; address u c k] (env_get_cwd (s_env s)) en) None true) s).
Proof.
  intros KN N1 N2 L A1 A2 A T W. destruct (knows_function _ _ _ KN) as (e0 & C & K & F).
  destruct (inner_lookups e0 u c (s_env s) _ C K N1 N2) as (CI & KI & UI & II & WI).
  pose proof (fun r s' => call_api H d s e0 a1 u a2 c r s' ltac:(lia) F A1 A2) as CA.
  revert CA CI KI UI II WI. generalize (inner_env e0 u c (s_env s)). clear - L A T W. intros ie CA CI KI UI II WI.
  destruct (api_key_run H (d + 1 + 1) (with_env ie s) u c k out t r) as (e & en & E); try assumption; try lia.
  { cbn [s_env with_env]. rewrite WI. exact A. }
  cbn [s_env with_env] in E. rewrite WI in E. exists en.
  eapply run_end; [apply CA; exact E|]. reflexivity.
Qed.
Print Assumptions C136_ask.

(** Without a key nothing is asked: one line in red is shown. *)
Theorem C136_no_key H d s a1 u a2 c :
  knows H ENone (s_env s) -> env_get (lit "curl") (s_env s) = None -> env_get (lit "--silent") (s_env s) = None ->
  (d + 50 <= MAX_DEPTH)%N ->
  evaluates H (d + 1) a1 s (ROk (EString u)) s -> evaluates H (d + 1 + 1) a2 s (ROk (EString c)) s ->
  evaluates H d (EApply (ESymbol (lit "weather-api")) [a1; a2]) s (ROk ENone)
    (told H (RqPrint (in_style "3" (in_style "91" no_key) ++ [10%N])) s).
Proof.
  intros KN N1 N2 L A1 A2. destruct (knows_function _ _ _ KN) as (e0 & C & K & F).
  destruct (inner_lookups e0 u c (s_env s) _ C K N1 N2) as (CI & KI & UI & II & WI).
  pose proof (fun r s' => call_api H d s e0 a1 u a2 c r s' ltac:(lia) F A1 A2) as CA.
  revert CA CI KI UI II WI. generalize (inner_env e0 u c (s_env s)). clear - L. intros ie CA CI KI UI II WI.
  eapply run_end; [apply CA; apply (no_key_run H (d + 1 + 1) (with_env ie s)); [lia | exact CI | exact KI]|]. reflexivity.
Qed.
Print Assumptions C136_no_key.

(** ** Setting the key *)

(** The two definitions, and the body of [weather].
    src/.default-dune-prelude:282-349, 351-354. *)
Definition reload_definition : expr := Eval vm_compute in nth 18 default_program ENone.
Definition set_definition : expr := Eval vm_compute in nth 19 default_program ENone.
Definition weather_value : expr := Eval vm_compute in
  match reload_definition with EAssign _ (EMacro _ (EDo [_; EAssign _ (ELambda _ b _)])) => b | _ => ENone end.
Lemma reload_is : reload_definition = EAssign (lit "reload-weather-api")
  (EMacro (lit "_") (EDo [api_definition; EAssign (lit "weather") (ELambda (lit "units") weather_value (Env [] None))])).
Proof. vm_compute. reflexivity. Qed.
Lemma set_is : set_definition = EAssign (lit "set-weather-api-key")
  (EMacro (lit "WEATHER-API-KEY") (EMacro (lit "CITY") (EDo [EApply (sym "reload-weather-api") [ENone]]))).
Proof. vm_compute. reflexivity. Qed.

Lemma key_names_kept e x v : curious e -> existsb (str_eqb x) (map lit ["WEATHER-API-KEY"; "CITY"; "_"; "weather-api"; "weather"]%string) = true ->
  curious (env_define x v e).
Proof.
  intros C B. apply existsb_exists in B as (y & I & E). apply str_eqb_eq in E as ->. cbn [map In] in I.
  repeat (destruct I as [<- | I]; [apply name_ne; [exact C | vm_compute; reflexivity ..]|]). destruct I.
Qed.

Lemma reload_run H d s key : (d + 10 <= MAX_DEPTH)%N -> curious (s_env s) -> env_get (lit "WEATHER-API-KEY") (s_env s) = Some key ->
  as_defined reload_definition (s_env s) ->
  exists e, evaluates H d (EApply (sym "reload-weather-api") [ENone]) s (ROk ENone) (with_env e s) /\ knows H key e
    /\ forall x, existsb (str_eqb x) (map lit ["_"; "weather-api"; "weather"]%string) = false -> env_get x e = env_get x (s_env s).
Proof.
  intros L C K R. rewrite reload_is in R. unfold as_defined in R.
  set (s1 := with_var (lit "_") ENone s). set (s2 := with_var (lit "weather-api") (api_function (s_env s1)) s1).
  set (s3 := with_var (lit "weather") (ELambda (lit "units") weather_value (capture (s_env s2) (lit "units") weather_value (Env [] None))) s2).
  exists (s_env s3). split; [|split].
  - eapply run_macro; [lia | apply run_name; [lia | exact R] | apply run_value; [lia | exact I] |].
    eapply (run_do_more H _ _ _ _ s1 ENone s2); [lia | apply api_made; lia |]. apply run_do_one; [lia|].
    apply (run_assign H _ (lit "weather") _ s2 _ s2); [lia|]. apply run_lambda. lia.
  - exists s1, ENone, s2. split; [apply key_names_kept; [exact C | reflexivity]|].
    split; [apply found_below; [reflexivity | exact K]|]. split; [apply api_made; discriminate|].
    apply found_below; [reflexivity|]. reflexivity.
  - intros x N. cbn [map existsb] in N. apply orb_false_iff in N as [N1 N]. apply orb_false_iff in N as [N2 N]. apply orb_false_iff in N as [N3 _].
    unfold s3, s2, s1, with_var. cbn [s_env with_env]. do 3 (apply found_below; [assumption|]). reflexivity.
Qed.

Lemma run_macro_more H d f p b a a2 rest s s0 v s1 g s2 r s' :
  (d <= MAX_DEPTH)%N -> evaluates H (d + 1) f s (ROk (EMacro p b)) s0 ->
  evaluates H (d + 1) a s0 (ROk v) s1 -> evaluates H (d + 1) b (with_var p v s1) (ROk g) s2 ->
  evaluates H (d + 1) (EApply g (a2 :: rest)) s2 r s' ->
  evaluates H d (EApply f (a :: a2 :: rest)) s r s'.
Proof.
  intros L E A B R. apply rule_apply; [exact L |]. left. exists (EMacro p b), s0. split; [exact E |]. cbn [apply_value].
  rewrite (lim_bind _ _ _ (fun n x => define p x ;;; (r <- eval H n (d + 1) b ;; eval H n (d + 1) (EApply r (a2 :: rest)))));
    [| apply mono_eval | intros; apply mono_define, mono_bind; [apply mono_eval | intros; apply mono_eval]].
  left. exists v, s1. split; [exact A|]. apply lim_define.
  rewrite (lim_bind _ _ _ (fun n x => eval H n (d + 1) (EApply x (a2 :: rest)))); [| apply mono_eval | intros; apply mono_eval].
  left. exists g, s2. split; [exact B | exact R].
Qed.

(** With a key and a city both are set, and from then on [weather-api] uses this
    key; nothing is asked or shown. *)
Theorem C136_set H d s a key b city :
  as_defined reload_definition (s_env s) -> as_defined set_definition (s_env s) -> curious (s_env s) -> (d + 20 <= MAX_DEPTH)%N ->
  evaluates H (d + 1) a s (ROk key) s ->
  evaluates H (d + 1 + 1) b (with_var (lit "WEATHER-API-KEY") key s) (ROk city) (with_var (lit "WEATHER-API-KEY") key s) ->
  exists e, evaluates H d (EApply (ESymbol (lit "set-weather-api-key")) [a; b]) s (ROk ENone) (with_env e s)
    /\ knows H key e /\ env_get (lit "WEATHER-API-KEY") e = Some key /\ env_get (lit "CITY") e = Some city
    /\ forall x, ~ In x (map lit ["WEATHER-API-KEY"; "CITY"; "_"; "weather-api"; "weather"]%string) -> env_get x e = env_get x (s_env s).
Proof.
  intros R SD C L A B. rewrite set_is in SD. unfold as_defined in SD.
  set (s1 := with_var (lit "WEATHER-API-KEY") key s) in *. set (s2 := with_var (lit "CITY") city s1).
  destruct (reload_run H (d + 1 + 1 + 1) s2 key) as (e & E & KN & K).
  - lia.
  - apply key_names_kept; [apply key_names_kept; [exact C | reflexivity] | reflexivity].
  - apply found_below; [reflexivity | apply found_here].
  - rewrite reload_is in R |- *. unfold as_defined in *. do 2 (apply found_below; [reflexivity|]). exact R.
  - exists e. split; [|split; [exact KN|split; [|split]]].
    + eapply (run_macro_more H d _ _ _ _ _ _ s s key s); [lia | apply run_name; [lia | exact SD] | exact A | apply run_value; [lia | exact I] |].
      eapply run_macro; [lia | apply run_value; [lia | exact I] | exact B |]. apply run_do_one; [lia | exact E].
    + rewrite K by reflexivity. apply found_below; [reflexivity | apply found_here].
    + rewrite K by reflexivity. apply found_here.
    + intros x N. assert (D : forall y, In y (map lit ["WEATHER-API-KEY"; "CITY"; "_"; "weather-api"; "weather"]%string) -> str_eqb x y = false).
      { intros y I. apply str_eqb_neq. intros ->. now apply N. }
      rewrite K; [unfold s2, s1, with_var; cbn [s_env with_env]; do 2 (apply found_below; [apply D; cbn [map In]; tauto|]); reflexivity|].
      cbn [map existsb]. rewrite !D by (cbn [map In]; tauto). reflexivity.
Qed.
Print Assumptions C136_set.

(** With a key alone only the key is set: the functions wait for the city. *)
Theorem C136_key_alone H d s a key :
  as_defined set_definition (s_env s) -> (d + 5 <= MAX_DEPTH)%N -> evaluates H (d + 1) a s (ROk key) s ->
  exists p b, evaluates H d (EApply (ESymbol (lit "set-weather-api-key")) [a]) s (ROk (EMacro p b)) (with_var (lit "WEATHER-API-KEY") key s).
Proof.
  intros SD L A. rewrite set_is in SD. unfold as_defined in SD. do 2 eexists.
  eapply run_macro; [lia | apply run_name; [lia | exact SD] | exact A | apply run_value; [lia | exact I]].
Qed.
Print Assumptions C136_key_alone.

(** A new shell has what is needed. *)
Theorem C136_new m : curious (init m).
Proof.
  split; [|split].
  - intros x v I. destruct (P_Start.init_parts m) as (w & a & b & math & ->). cbv zeta.
    rewrite (P_Start.get_defines (fun kv => lit (fst kv)) snd). unfold define_all.
    rewrite (P_Start.get_defines fst snd), env_get_define, (P_Start.get_defines fst snd).
    unfold api_names in I. revert I.
    generalize (define_dirs m), log_module, dict_module, (shell_module m), err_module, (os_module m),
      time_module, rand_module, fn_module, console_module, fmt_module, parse_module, string_module,
      list_module, sys_module, widget_module.
    intros. cbn [In] in I.
    repeat (destruct I as [I | I]; [injection I as <- <-; vm_compute; reflexivity |]).
    contradiction.
  - rewrite P_Start.init_other; [|vm_compute; reflexivity | vm_compute; intuition discriminate ..].
    unfold define_dirs. destruct (m_home m), (m_down m), (m_docs m), (m_desk m), (m_cwd m); unfold env_set_cwd; cbv zeta; run_lookup.
  - rewrite P_Start.init_other; [|vm_compute; reflexivity | vm_compute; intuition discriminate ..].
    unfold define_dirs. destruct (m_home m), (m_down m), (m_docs m), (m_desk m), (m_cwd m); unfold env_set_cwd; cbv zeta; run_lookup.
Qed.
Print Assumptions C136_new.

(** A service that answers nothing, asked about Knoxville after the key was set in
    a shell that has the two definitions.  src/.default-dune-prelude:282-293, 351-354. *)
Definition mute : host :=
  with_answer (fun tr rq => match rq with RqStage _ _ _ => RsOutput [] | _ => demo_answer tr rq end) demo_host.

Example C136_case : exists s e en,
  evaluates mute 0 (EApply (ESymbol (lit "set-weather-api-key")) [EString (lit "k3y"); EString (lit "Knoxville")]) s (ROk ENone) (with_env e s)
  /\ env_get (lit "CITY") e = Some (EString (lit "Knoxville"))
  /\ evaluates mute 0 (EApply (ESymbol (lit "weather-api")) [EString (lit "metric"); EString (lit "Knoxville")]) (with_env e s) (ROk ENone)
       (told mute (RqStage (Command (lit "curl")
          [lit "--silent"; lit "http://api.openweathermap.org/data/2.5/weather?q=Knoxville&units=metric&appid=k3y"]
          (env_get_cwd e) en) None true) (with_env e s)).
Proof.
  set (reload := EMacro (lit "_") (EDo [api_definition; EAssign (lit "weather") (ELambda (lit "units") weather_value (Env [] None))])).
  set (setter := EMacro (lit "WEATHER-API-KEY") (EMacro (lit "CITY") (EDo [EApply (sym "reload-weather-api") [ENone]]))).
  assert (C0 : curious demo_env) by apply C136_new.
  generalize dependent demo_env. intros e0 C0.
  set (s := St (env_define (lit "set-weather-api-key") setter (env_define (lit "reload-weather-api") reload e0)) [] 0).
  assert (C : curious (s_env s)) by (cbn [s s_env]; apply name_ne; [apply name_ne; [exact C0 | reflexivity ..] | reflexivity ..]).
  destruct (C136_set mute 0 s (EString (lit "k3y")) (EString (lit "k3y")) (EString (lit "Knoxville")) (EString (lit "Knoxville")))
    as (e & E & KN & _ & CT & K).
  - rewrite reload_is. apply found_below; [reflexivity | apply found_here].
  - rewrite set_is. apply found_here.
  - exact C.
  - discriminate.
  - apply run_value; [discriminate | exact I].
  - apply run_value; [discriminate | exact I].
  - destruct (C136_ask mute 0 (with_env e s) (lit "k3y") (EString (lit "metric")) (lit "metric") (EString (lit "Knoxville")) (lit "Knoxville") [] [] (ROk ENone))
      as (en & A).
    + exact KN.
    + cbn [s_env with_env]. rewrite K by (vm_compute; intuition discriminate). apply C.
    + cbn [s_env with_env]. rewrite K by (vm_compute; intuition discriminate). apply C.
    + discriminate.
    + apply run_value; [discriminate | exact I].
    + apply run_value; [discriminate | exact I].
    + reflexivity.
    + reflexivity.
    + now apply wd_nothing.
    + exists s, e, en. split; [exact E|]. split; [exact CT | exact A].
Qed.

(** The same with [None] for the key. *)
Example C136_no_key_case : exists s e,
  evaluates mute 0 (EApply (ESymbol (lit "set-weather-api-key")) [ENone; EString (lit "Knoxville")]) s (ROk ENone) (with_env e s)
  /\ evaluates mute 0 (EApply (ESymbol (lit "weather-api")) [EString (lit "metric"); EString (lit "Knoxville")]) (with_env e s) (ROk ENone)
       (told mute (RqPrint (in_style "3" (in_style "91" no_key) ++ [10%N])) (with_env e s)).
Proof.
  set (reload := EMacro (lit "_") (EDo [api_definition; EAssign (lit "weather") (ELambda (lit "units") weather_value (Env [] None))])).
  set (setter := EMacro (lit "WEATHER-API-KEY") (EMacro (lit "CITY") (EDo [EApply (sym "reload-weather-api") [ENone]]))).
  assert (C0 : curious demo_env) by apply C136_new.
  generalize dependent demo_env. intros e0 C0.
  set (s := St (env_define (lit "set-weather-api-key") setter (env_define (lit "reload-weather-api") reload e0)) [] 0).
  assert (C : curious (s_env s)) by (cbn [s s_env]; apply name_ne; [apply name_ne; [exact C0 | reflexivity ..] | reflexivity ..]).
  destruct (C136_set mute 0 s ENone ENone (EString (lit "Knoxville")) (EString (lit "Knoxville")))
    as (e & E & KN & _ & CT & K).
  - rewrite reload_is. apply found_below; [reflexivity | apply found_here].
  - rewrite set_is. apply found_here.
  - exact C.
  - discriminate.
  - apply run_value; [discriminate | exact I].
  - apply run_value; [discriminate | exact I].
  - exists s, e. split; [exact E|].
    apply (C136_no_key mute 0 (with_env e s) (EString (lit "metric")) (lit "metric") (EString (lit "Knoxville")) (lit "Knoxville")).
    + exact KN.
    + cbn [s_env with_env]. rewrite K by (vm_compute; intuition discriminate). apply C.
    + cbn [s_env with_env]. rewrite K by (vm_compute; intuition discriminate). apply C.
    + discriminate.
    + apply run_value; [discriminate | exact I].
    + apply run_value; [discriminate | exact I].
Qed.
