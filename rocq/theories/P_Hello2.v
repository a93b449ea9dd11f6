(** C135, continued: the last statements of the script. *)

From Coq Require Import String Lia ZArith List Bool.
From Verif Require Import Base Text Syntax Host Ops Parser Monad ErrorFmt Builtins Eval Init EvalSpec
  OpsSpec EvalFacts LibSpec LibFacts OpsFacts RunFacts MapFacts CoreFacts
  LinesSpec WidgetSpec Prelude PreludeFacts SysSpec PrintSpec ReportSpec BannerSpec DashSpec ShrewSpec HelloSpec Demo P_Hello.
From Verif Require P_Start StartSpec CalendarDefs CalendarSpec P_Calendar P_Prompt P_Banner P_Dash P_DashDay P_Shrew HelperSpec P_Helpers Repl
  GregorianFacts CalendarSpec.
Import ListNotations.

Lemma tolds_app H a b s : tolds H (a ++ b) s = tolds H b (tolds H a s).
Proof. apply fold_left_app. Qed.
Lemma tolds_with H l e s : tolds H l (with_env e s) = with_env e (tolds H l s).
Proof. revert s. induction l as [|r l IH]; intros s; [reflexivity | apply (IH (told H r s))]. Qed.
Lemma prints_tolds H ts s : prints H ts s = tolds H (map RqPrint ts) s.
Proof. revert s. induction ts as [|t ts IH]; intros s; [reflexivity | apply (IH (told H (RqPrint t) s))]. Qed.
Lemma tolds_env H l s : s_env (tolds H l s) = s_env s.
Proof. revert s. induction l as [|r l IH]; intros s; [reflexivity | apply (IH (told H r s))]. Qed.

(** ** The names that change from here on *)

Definition late : list str := map lit ["_"; "now"; "logo"; "default-widgets"; "DUNE_SECRETS_FILE"; "CITY"]%string.
Definition calm (e e' : env) : Prop := forall x, existsb (str_eqb x) late = false -> env_get x e' = env_get x e.

Lemma calm_trans e1 e2 e3 : calm e1 e2 -> calm e2 e3 -> calm e1 e3.
Proof. intros A B x N. now rewrite B, A. Qed.
Lemma calm_define e x v : existsb (str_eqb x) late = true -> calm e (env_define x v e).
Proof.
  intros L y N. apply found_below; [|reflexivity]. apply not_true_iff_false. intros E. apply str_eqb_eq in E as ->.
  rewrite L in N. discriminate.
Qed.

Lemma calm_list e e' (l : list (str * expr)) : calm e e' ->
  forallb (fun p => negb (existsb (str_eqb (fst p)) late)) l = true ->
  (forall x v, In (x, v) l -> env_get x e = Some v) -> forall x v, In (x, v) l -> env_get x e' = Some v.
Proof.
  intros U B A x v I. rewrite U; [now apply A|]. rewrite forallb_forall in B. apply (B (x, v)) in I. cbn [fst] in I.
  now apply negb_true_iff.
Qed.

Lemma as_calm x stmt l k e e' : assigns x stmt l k -> existsb (str_eqb (lit x)) late = false -> calm e e' ->
  as_defined stmt e -> as_defined stmt e'.
Proof. intros (S & _) B K. rewrite S. unfold as_defined. now rewrite K. Qed.

Lemma furnished_calm H e e' : calm e e' -> furnished H e -> furnished H e'.
Proof.
  intros K (A1 & A2 & A3 & A4 & A5 & A6 & A7 & A8 & A9 & A10). unfold furnished.
  split; [|split; [|split; [|split; [|split; [|split; [|split; [|split; [|split]]]]]]]].
  - unfold festive in *. apply (calm_list e e' banner_names K); [vm_compute; reflexivity | exact A1].
  - eapply (as_calm _ _ _ _ _ _ banner_is); [vm_compute; reflexivity | exact K | exact A2].
  - destruct A3 as (sa & va & sb & B1 & B2 & B3). exists sa, va, sb. split; [exact B1|]. split; [exact B2|]. intros x I.
    rewrite <- (B3 x I). apply K. apply not_true_iff_false. intros X.
    assert (B : forallb (fun y => negb (existsb (str_eqb y) late)) CalendarDefs.calendar_names = true) by (vm_compute; reflexivity).
    rewrite forallb_forall in B. apply B in I. rewrite X in I. discriminate.
  - eapply (as_calm _ _ _ _ _ _ cal_is); [vm_compute; reflexivity | exact K | exact A4].
  - eapply (as_calm _ _ _ _ _ _ dash_is); [vm_compute; reflexivity | exact K | exact A5].
  - rewrite K; [exact A6 | vm_compute; reflexivity].
  - rewrite K; [exact A7 | vm_compute; reflexivity].
  - rewrite K; [exact A8 | vm_compute; reflexivity].
  - rewrite K; [exact A9 | vm_compute; reflexivity].
  - rewrite K; [exact A10 | vm_compute; reflexivity].
Qed.

Lemma shrew_calm H e e' : calm e e' -> says_shrew H e -> says_shrew H e'.
Proof.
  intros K (s & v & s1 & A & B & C & D). exists s, v, s1. split; [exact A|]. split; [exact B|]. split; [exact C|].
  rewrite K; [exact D | vm_compute; reflexivity].
Qed.

(** ** The statements *)

Definition secrets_set : expr := EAssign (lit "DUNE_SECRETS_FILE") (EGroup (EApply (sym "+") [sym "HOME"; EString (lit "/.dune-secrets")])).
Definition looked : expr := EGroup (EApply (at_ "fs" "exists?") [sym "DUNE_SECRETS_FILE"]).
Definition secrets_read : expr := EIf looked (EDo [EApply (sym "include") [sym "DUNE_SECRETS_FILE"]]) ENone.
Definition city_set : expr := EAssign (lit "CITY") (sym "Knoxville").
Definition hint_end : str := lit " to store" ++ 10%N :: lit "your secrets, tokens, and API keys!".
Definition secrets_hint : expr :=
  EIf (EGroup (EApply (sym "!") [looked]))
    (EDo [EApply (sym "shrewsay") [EGroup (EApply (sym "+") [EGroup (EApply (sym "+") [EString (lit "Create "); sym "DUNE_SECRETS_FILE"]); EString hint_end])]])
    ENone.
Definition key_red : str := lit "Please set your `openweathermap.org` API key and your city with the `set-weather-api-key` macro in your .dune-prelude or .dune-secrets file!".
Definition key_green : str := lit "You can remove these messages by editing your .dune-prelude!".
Definition key_hint : expr :=
  EIf (EGroup (EApply (sym "==") [sym "WEATHER-API-KEY"; ENone]))
    (EDo [EApply (sym "echo") [EGroup (EApply (at_ "fmt" "italics") [EGroup (EApply (at_ "fmt" "red") [EString key_red])])];
          EApply (sym "echo") [EGroup (EApply (at_ "fmt" "green") [EString key_green])]]) ENone.

Lemma last_parts : skipn 42 default_program =
  [secrets_set; EApply (sym "clear") [ENone]; secrets_read; city_set; EApply (sym "welcome") [ENone]; secrets_hint; key_hint].
Proof. vm_compute. reflexivity. Qed.

Definition clear_text : str := [27%N] ++ lit "[2J" ++ [27%N] ++ lit "[H".
Definition clear_macro : expr :=
  EMacro (lit "_") (EApply (EApply (ESymbol (lit "@")) [ESymbol (lit "console"); ESymbol (lit "clear")]) [ENone]).

Lemma clear_run H s : env_get (lit "@") (s_env s) = Some (bi BIndex "@") -> env_get (lit "console") (s_env s) = Some (EMap console_module) ->
  env_get (lit "clear") (s_env s) = Some clear_macro ->
  evaluates H 1 (EApply (sym "clear") [ENone]) s (ROk ENone) (told H (RqPrint clear_text) (with_var (lit "_") ENone s)).
Proof.
  intros AT CO CL. eapply run_macro; [discriminate | apply run_name; [discriminate | exact CL] | apply run_value; [discriminate | exact I] |].
  eapply (run_builtin_call H _ _ (Bi CClear (lit "clear"))); [discriminate | |].
  - apply (run_member H _ _ "console" "clear" (EMap console_module)); [discriminate | apply found_below; [reflexivity | exact AT] | apply found_below; [reflexivity | exact CO] | vm_compute; reflexivity].
  - cbn [b_id]. call. unfold run_clear. sure_step. unfold print.
    eapply sure_bind_const; [reflexivity|]. cbv beta. apply sure_ret.
Qed.

Lemma read_run H s w file path : env_get (lit "@") (s_env s) = Some (bi BIndex "@") ->
  env_get (lit "fs") (s_env s) = Some (EMap w) -> bm_get (lit "exists?") w = Some (bi KExists "exists") ->
  env_get (lit "DUNE_SECRETS_FILE") (s_env s) = Some (EString file) -> joined (env_get_cwd (s_env s)) file path -> missing H path ->
  forall d, (d + 10 <= MAX_DEPTH)%N -> evaluates H d looked s (ROk (EBoolean false)) (told H (RqTest (lit "exists") path) s).
Proof.
  intros AT FS EX F J M d L. apply run_group; [lia|]. pose proof (exists_run H (d + 1) s (sym "DUNE_SECRETS_FILE") file w path) as X.
  rewrite (M (s_trace s)) in X. apply X; [lia | exact AT | exact FS | exact EX | apply run_name; [discriminate | exact F] | exact J].
Qed.

Lemma hint_run H s w file path wd c ls :
  env_get (lit "@") (s_env s) = Some (bi BIndex "@") -> env_get (lit "+") (s_env s) = Some (bi BAdd "+") ->
  env_get (lit "!") (s_env s) = Some (bi BNot "!") ->
  env_get (lit "fs") (s_env s) = Some (EMap w) -> bm_get (lit "exists?") w = Some (bi KExists "exists") ->
  env_get (lit "DUNE_SECRETS_FILE") (s_env s) = Some (EString file) -> joined (env_get_cwd (s_env s)) file path -> missing H path ->
  says_shrew H (s_env s) -> keeps_short H -> terminal H wd ->
  let t := (lit "Create " ++ file) ++ hint_end in
  plain t -> LibSpec.storable t -> stacked ls t -> tidy ls -> Forall (fun l => length l <= N.to_nat wd) ls -> room wd ls c ->
  exists box rows, framed (lit "Wild Dune Shrew") ls (c + 2) (length ls + 2) box /\ lines box rows
    /\ length rows = length ls + 2 /\ Forall (fun r => length r = c + 2) rows
    /\ evaluates H 1 secrets_hint s (ROk ENone)
         (prints H (spoken rows) (told H RqSize (told H RqSize (told H (RqTest (lit "exists") path) s)))).
Proof.
  intros AT PL NO FS EX F J M SA KS TE t PT STO ST TI FW R. set (s1 := told H (RqTest (lit "exists") path) s).
  destruct (P_Shrew.C134_say H (1 + 1 + 1) s1 (EGroup (EApply (sym "+") [EGroup (EApply (sym "+") [EString (lit "Create "); sym "DUNE_SECRETS_FILE"]); EString hint_end]))
    t s1 ls wd c) as (box & rows & A1 & A2 & A3 & A4 & A5); try assumption; try discriminate.
  - apply text_plus; [exact PL | | apply run_value; [discriminate | exact I] | discriminate].
    apply text_plus; [exact PL | apply run_value; [discriminate | exact I] | apply run_name; [discriminate | exact F] | discriminate].
  - exists box, rows. do 4 (split; [assumption|]). unfold secrets_hint.
    eapply run_if; [discriminate | |].
    + apply run_group; [discriminate|]. eapply (run_builtin_call H _ _ (Bi BNot (lit "!"))); [discriminate | apply run_name; [discriminate | exact NO] |].
      eapply run_logical; [reflexivity | | reflexivity].
      eapply run_all_cons; [apply (read_run H s w file path AT FS EX F J M); discriminate | constructor].
    + cbn [forallb is_truthy negb andb]. apply run_do_one; [discriminate|]. exact A5.
Qed.

Lemma key_run H s :
  env_get (lit "@") (s_env s) = Some (bi BIndex "@") -> env_get (lit "==") (s_env s) = Some (bi BEq "==") ->
  env_get (lit "echo") (s_env s) = Some (bi BPrintln "println") -> env_get (lit "fmt") (s_env s) = Some (EMap fmt_module) ->
  env_get (lit "WEATHER-API-KEY") (s_env s) = Some ENone ->
  evaluates H 1 key_hint s (ROk ENone)
    (told H (RqPrint (in_style "92" key_green ++ [10%N])) (told H (RqPrint (in_style "3" (in_style "91" key_red) ++ [10%N])) s)).
Proof.
  intros AT EQ EC FM WK. unfold key_hint. eapply run_if; [discriminate | |].
  - apply run_group; [discriminate|]. eapply (run_builtin_call H _ _ (Bi BEq (lit "=="))); [discriminate | apply run_name; [discriminate | exact EQ] |].
    eapply run_compare2; [reflexivity | apply run_name; [discriminate | exact WK] | apply run_value; [discriminate | exact I] | reflexivity].
  - cbn [is_truthy].
    match goal with |- evaluates _ _ (if ?b then _ else _) _ _ _ => change b with true end. cbv iota.
    set (s1 := told H (RqPrint (in_style "3" (in_style "91" key_red) ++ [10%N])) s).
    assert (ST : forall u x nm code, s_env u = s_env s -> expr_index (EMap fmt_module) (sym nm) = EBuiltin (Bi (TStyle (lit code)) (lit nm)) ->
              forall a d, (d + 10 <= MAX_DEPTH)%N -> evaluates H 0 a u (ROk (EString x)) u ->
              evaluates H d (EGroup (EApply (at_ "fmt" nm) [a])) u (ROk (EString (in_style code x))) u).
    { intros u x nm code EU IX a d D A. apply run_group; [lia|].
      eapply (P_Prompt.run_styled H _ _ (lit code) (lit nm) _ u u (EString x)); [lia | | exact A].
      eapply run_member; [lia | rewrite EU; exact AT | rewrite EU; exact FM | exact IX]. }
    eapply (run_do_more H _ _ _ _ _ ENone s1); [discriminate | |].
    + eapply P_Banner.run_echo; [discriminate | apply run_name; [discriminate | exact EC] |]. apply P_Banner.print_one.
      apply ST; [reflexivity | vm_compute; reflexivity | discriminate |].
      apply ST; [reflexivity | vm_compute; reflexivity | discriminate | apply run_value; [discriminate | exact I]].
    + apply run_do_one; [discriminate|].
      eapply P_Banner.run_echo; [discriminate | apply run_name; [discriminate | exact EC] |]. apply P_Banner.print_one.
      apply ST; [reflexivity | vm_compute; reflexivity | discriminate | apply run_value; [discriminate | exact I]].
Qed.

Lemma welcome_end H a b ts e e' s :
  with_env e (told H b (told H a (prints H ts (told H RqNow (told H RqNow (with_env e' s))))))
  = with_env e (tolds H ([RqNow; RqNow] ++ map RqPrint ts ++ [a; b]) s).
Proof.
  rewrite !tolds_app, <- prints_tolds.
  change (told H RqNow (told H RqNow (with_env e' s))) with (with_env e' (tolds H [RqNow; RqNow] s)).
  rewrite P_Banner.prints_with. generalize (prints H ts (tolds H [RqNow; RqNow] s)). intros u. reflexivity.
Qed.

Lemma welcome_run H s y mo dd h time date pic :
  furnished H (s_env s) -> as_defined (nth 41 default_program ENone) (s_env s) -> keeps_short H ->
  stands H (RsTime y mo dd h time date) -> (1 <= y <= 999999)%Z -> CalendarSpec.valid (y, mo, dd) -> fits h -> sky h pic ->
  exists cat rows e, In cat cats /\ dash_rows y mo dd cat rows
    /\ evaluates H 1 (EApply (sym "welcome") [ENone]) s (ROk ENone)
         (with_env e (tolds H ([RqNow; RqNow] ++ map RqPrint (banner_texts pic time date) ++ [RqRandom 0 6; RqPrint (with_feeds rows ++ [10%N])]) s))
    /\ calm (s_env s) e /\ env_get (lit "DUNE_SECRETS_FILE") e = env_get (lit "DUNE_SECRETS_FILE") (s_env s).
Proof.
  intros FU WE KS ST Y V HH SK.
  assert (FY : fits y /\ fits mo /\ fits dd).
  { destruct V as (k & K & D). pose proof (GregorianFacts.month_length_range _ _ _ K) as [M B]. unfold fits. lia. }
  destruct FY as (FY & FM & FD). set (s1 := with_var (lit "_") ENone s).
  assert (K1 : calm (s_env s) (s_env s1)) by (apply calm_define; vm_compute; reflexivity).
  destruct (P_Dash.C132_dashboard H (1 + 1 + 1) s1 y mo dd h time date y mo dd h time date pic) as (cat & rows & e & IC & DR & E & K);
    try assumption; try discriminate; [exact (furnished_calm _ _ _ K1 FU) | apply ST | apply ST |].
  exists cat, rows, e. split; [exact IC|]. split; [exact DR|]. split; [|split].
  - eapply run_macro; [discriminate | apply run_name; [discriminate|] | apply run_value; [discriminate | exact I] |].
    + change (nth 41 default_program ENone) with (EAssign (lit "welcome") (EMacro (lit "_") (EDo [EApply (sym "dashboard") [ENone]]))) in WE.
      exact WE.
    + apply run_do_one; [discriminate|]. eapply run_end; [exact E|]. apply welcome_end.
  - eapply calm_trans; [exact K1|]. intros x N. apply K. intros I.
    assert (B : forallb (fun y => existsb (str_eqb y) late) (map lit ["_"; "now"; "logo"; "default-widgets"]%string) = true) by (vm_compute; reflexivity).
    rewrite forallb_forall in B. rewrite (B x I) in N. discriminate.
  - rewrite K; [now apply found_below|]. vm_compute. intuition discriminate.
Qed.

(** What the shrew says fits into its bubble. *)
Lemma hint_facts home wd : plain home -> single home -> (wd < 2 ^ 16)%N -> length home + 30 <= N.to_nat wd -> 35 <= N.to_nat wd ->
  let t := (lit "Create " ++ home ++ lit "/.dune-secrets") ++ hint_end in
  plain t /\ LibSpec.storable t /\ stacked (hint home) t /\ tidy (hint home)
  /\ Forall (fun l => length l <= N.to_nat wd) (hint home)
  /\ room wd (hint home) (Nat.max (Nat.div (N.to_nat wd) 2) (Nat.max (length home + 30) 35)).
Proof.
  intros PH SH W L1 L2 t.
  assert (A : t = (lit "Create " ++ home ++ lit "/.dune-secrets to store") ++ 10%N :: lit "your secrets, tokens, and API keys!").
  { unfold t, hint_end. rewrite <- !app_assoc. reflexivity. }
  assert (LA : length (lit "Create " ++ home ++ lit "/.dune-secrets to store") = length home + 30).
  { rewrite !app_length. cbn [length lit]. unfold str, chr in *. change (length (lit "Create ")) with 7. change (length (lit "/.dune-secrets to store")) with 23. lia. }
  assert (LB : length (lit "your secrets, tokens, and API keys!") = 35) by reflexivity.
  assert (PL : forall l, forallb (fun c => (c =? 10)%N || ((32 <=? c) && (c <? 127))%N) l = true -> plain l).
  { intros l B c I. rewrite forallb_forall in B. apply B, orb_true_iff in I as [I|I]; [left; now apply N.eqb_eq|].
    right. apply andb_true_iff in I as [I1 I2]. apply N.leb_le in I1. apply N.ltb_lt in I2. now split. }
  assert (SI : forall l, forallb (fun c => negb (c =? 10)%N) l = true -> single l).
  { intros l B I. rewrite forallb_forall in B. apply B in I. discriminate. }
  split; [|split; [|split; [|split; [|split]]]].
  - rewrite A. intros c I. repeat (apply in_app_or in I as [I|I]); [| now apply PH | |];
      revert I; apply (fun l B => PL l B c); vm_compute; reflexivity.
  - unfold LibSpec.storable, LibSpec.size. rewrite A, app_length. cbn [length]. unfold str, chr in *. rewrite LA, LB. lia.
  - rewrite A. unfold hint. apply stacked_more; [|apply stacked_one, SI; vm_compute; reflexivity].
    intros I. repeat (apply in_app_or in I as [I|I]); [| now apply SH |]; revert I; apply SI; vm_compute; reflexivity.
  - split; [discriminate|]. unfold hint. constructor; [|constructor; [|constructor]].
    + exists (lit "Create " ++ home ++ lit "/.dune-secrets to stor"), 101%N. split; [|discriminate]. rewrite <- !app_assoc. reflexivity.
    + exists (lit "your secrets, tokens, and API keys"), 33%N. split; [reflexivity | discriminate].
  - unfold hint. constructor; [|constructor; [|constructor]]; unfold str, chr in *; [rewrite LA; exact L1 | rewrite LB; exact L2].
  - unfold hint, room. exists (Nat.max (length home + 30) 35). unfold str, chr in *. split; [|split; [|lia]].
    + constructor; [rewrite LA; lia|]. constructor; [rewrite LB; lia | constructor].
    + destruct (Nat.le_ge_cases (length home + 30) 35); [apply Exists_cons_tl | apply Exists_cons_hd]; [apply Exists_cons_hd; rewrite LB; lia | rewrite LA; lia].
Qed.

Definition rest (secrets pic time date : str) (dash bubble : list str) : list request :=
  [RqPrint clear_text; RqTest (lit "exists") secrets]
  ++ ([RqNow; RqNow] ++ map RqPrint (banner_texts pic time date) ++ [RqRandom 0 6; RqPrint (with_feeds dash ++ [10%N])])
  ++ [RqTest (lit "exists") secrets; RqSize; RqSize] ++ map RqPrint (spoken bubble)
  ++ [RqPrint (in_style "3" (in_style "91" key_red) ++ [10%N]); RqPrint (in_style "92" key_green ++ [10%N])].

Lemma second_end H a b c x y e e' s l ts :
  told H y (told H x (prints H ts (told H RqSize (told H RqSize (told H c (with_env e (tolds H l (with_env e' (tolds H [a; b] s)))))))))
  = with_env e (tolds H ([a; b] ++ l ++ [c; RqSize; RqSize] ++ map RqPrint ts ++ [x; y]) s).
Proof.
  rewrite !tolds_app, <- prints_tolds, tolds_with. set (u := tolds H l (tolds H [a; b] s)).
  change (with_env e (with_env e' u)) with (with_env e u).
  change (told H RqSize (told H RqSize (told H c (with_env e u)))) with (with_env e (tolds H [c; RqSize; RqSize] u)).
  rewrite P_Banner.prints_with. generalize (prints H ts (tolds H [c; RqSize; RqSize] u)). intros w. reflexivity.
Qed.

Lemma second_part H m s home secrets wd y mo dd h time date pic :
  untouched m (s_env s) -> furnished H (s_env s) -> says_shrew H (s_env s) -> as_defined (nth 41 default_program ENone) (s_env s) ->
  env_get (lit "clear") (s_env s) = Some clear_macro -> m_home m = Some home ->
  joined (env_get_cwd (s_env s)) (home ++ lit "/.dune-secrets") secrets -> missing H secrets ->
  keeps_short H -> terminal H wd -> stands H (RsTime y mo dd h time date) ->
  (1 <= y <= 999999)%Z -> CalendarSpec.valid (y, mo, dd) -> fits h -> sky h pic ->
  plain home -> single home -> length home + 30 <= N.to_nat wd -> 35 <= N.to_nat wd ->
  exists cat rows box bubble e, In cat cats /\ dash_rows y mo dd cat rows
    /\ (let c := Nat.max (Nat.div (N.to_nat wd) 2) (Nat.max (length home + 30) 35) in
        framed (lit "Wild Dune Shrew") (hint home) (c + 2) 4 box /\ lines box bubble
        /\ length bubble = 4 /\ Forall (fun r => length r = c + 2) bubble)
    /\ evaluates H 0 (EDo (skipn 42 default_program)) s (ROk ENone) (with_env e (tolds H (rest secrets pic time date rows bubble) s)).
Proof.
  intros U FU SA WE CL HO J MI KS TE ST Y V HH SK PH SH L1 L2.
  set (file := home ++ lit "/.dune-secrets"). set (e0 := s_env s) in *.
  set (e1 := env_define (lit "DUNE_SECRETS_FILE") (EString file) e0).
  set (e2 := env_define (lit "_") ENone e1). set (e3 := env_define (lit "CITY") (sym "Knoxville") e2).
  assert (K1 : calm e0 e1) by (apply calm_define; vm_compute; reflexivity).
  assert (K2 : calm e0 e2) by (eapply calm_trans; [exact K1 | apply calm_define; vm_compute; reflexivity]).
  assert (K3 : calm e0 e3) by (eapply calm_trans; [exact K2 | apply calm_define; vm_compute; reflexivity]).
  assert (US : forall e, calm e0 e -> forall k x v, nth_error uses k = Some (x, v) -> existsb (str_eqb x) late = false -> env_get x e = Some v).
  { intros e K k x v N B. rewrite K by exact B. apply (uses_untouched m _ U), (nth_error_In _ k N). }
  destruct (fs_new m) as (w & FS & EX).
  assert (GF : forall e, calm e0 e -> env_get (lit "fs") e = Some (EMap w)).
  { intros e K. rewrite K, U; [exact FS | vm_compute; reflexivity ..]. }
  assert (CW : forall e, calm e0 e -> env_get_cwd e = env_get_cwd e0).
  { intros e K. unfold env_get_cwd. now rewrite K. }
  assert (F2 : env_get (lit "DUNE_SECRETS_FILE") e2 = Some (EString file)) by (apply found_below; [reflexivity | apply found_here]).
  set (tA := tolds H [RqPrint clear_text; RqTest (lit "exists") secrets] s).
  destruct (welcome_run H (with_env e3 tA) y mo dd h time date pic) as (cat & rows & e4 & IC & DR & E4 & K4' & F4); try assumption.
  { exact (furnished_calm H _ _ K3 FU). }
  { eapply (as_calm _ _ _ _ _ _ welcome_is); [vm_compute; reflexivity | exact K3 | exact WE]. }
  pose proof (calm_trans _ _ _ K3 K4') as K4. clear K4'.
  set (s5 := with_env e4 (tolds H ([RqNow; RqNow] ++ map RqPrint (banner_texts pic time date) ++ [RqRandom 0 6; RqPrint (with_feeds rows ++ [10%N])]) (with_env e3 tA))) in *.
  assert (S5 : s_env s5 = e4) by reflexivity.
  destruct TE as (W & TE). destruct (hint_facts home wd PH SH W L1 L2) as (P1 & P2 & P3 & P4 & P5 & P6).
  destruct (hint_run H s5 w file secrets wd (Nat.max (Nat.div (N.to_nat wd) 2) (Nat.max (length home + 30) 35)) (hint home))
    as (box & bubble & B1 & B2 & B3 & B4 & B5); try assumption; rewrite ?S5.
  { apply (US e4 K4 0); reflexivity. }
  { apply (US e4 K4 2); reflexivity. }
  { apply (US e4 K4 3); reflexivity. }
  { exact (GF e4 K4). }
  { rewrite F4. apply found_below; [reflexivity | exact F2]. }
  { rewrite (CW e4 K4). exact J. }
  { exact (shrew_calm H _ _ K4 SA). }
  { split; [exact W | exact TE]. }
  exists cat, rows, box, bubble, e4. split; [exact IC|]. split; [exact DR|]. split; [repeat split; assumption|].
  rewrite last_parts. unfold rest. rewrite <- (second_end H _ _ _ _ _ e4 e3). fold tA. fold s5.
  eapply (run_do_more H 0 _ _ _ s ENone (with_env e1 s)); [discriminate | |].
  { apply (run_assign H 1 (lit "DUNE_SECRETS_FILE") _ s (EString file) s); [discriminate|].
    apply text_plus; [| apply run_name; [discriminate|] | apply run_value; [discriminate | exact I] | discriminate].
    - apply (US e0 ltac:(now intros ? ?) 2); reflexivity.
    - change (s_env s) with e0. rewrite U; [now apply home_new | vm_compute; reflexivity]. }
  eapply (run_do_more H 0 _ _ _ _ ENone (with_env e2 (told H (RqPrint clear_text) s))); [discriminate | |].
  { apply (clear_run H (with_env e1 s)).
    - apply (US e1 K1 0); reflexivity.
    - apply (US e1 K1 6); reflexivity.
    - change (s_env (with_env e1 s)) with e1. rewrite K1; [exact CL | vm_compute; reflexivity]. }
  eapply (run_do_more H 0 _ _ _ _ ENone (with_env e2 tA)); [discriminate | |].
  { unfold secrets_read. eapply run_if; [discriminate | |].
    - apply (read_run H (with_env e2 (told H (RqPrint clear_text) s)) w file secrets); try assumption; try discriminate.
      + apply (US e2 K2 0); reflexivity.
      + exact (GF e2 K2).
      + change (s_env (with_env e2 (told H (RqPrint clear_text) s))) with e2. rewrite (CW e2 K2). exact J.
    - cbn [is_truthy]. apply run_value; [discriminate | exact I]. }
  eapply (run_do_more H 0 _ _ _ _ ENone (with_env e3 tA)); [discriminate | |].
  { apply (run_assign H 1 (lit "CITY") _ (with_env e2 tA) (sym "Knoxville") (with_env e2 tA)); [discriminate|].
    apply run_free; [discriminate|]. change (s_env (with_env e2 tA)) with e2.
    rewrite K2, U; [apply city_new | vm_compute; reflexivity ..]. }
  eapply (run_do_more H 0 _ _ _ _ ENone s5); [discriminate | exact E4 |].
  eapply run_do_more; [discriminate | exact B5 |]. apply run_do_one; [discriminate|].
  assert (SE : forall ts, s_env (prints H ts (told H RqSize (told H RqSize (told H (RqTest (lit "exists") secrets) s5)))) = e4).
  { intros ts. rewrite prints_tolds, tolds_env. reflexivity. }
  apply key_run; rewrite SE.
  - apply (US e4 K4 0); reflexivity.
  - apply (US e4 K4 1); reflexivity.
  - apply (US e4 K4 5); reflexivity.
  - apply (US e4 K4 7); reflexivity.
  - rewrite K4; [apply FU | vm_compute; reflexivity].
Qed.

(** ** C135: the whole script *)

(** The script is what the file included in the program says. *)
Theorem C135_script : parse_script default_prelude = SOk (EDo default_program).
Proof. vm_cast_no_check (@eq_refl _ (SOk (EDo default_program))). Qed.
Print Assumptions C135_script.

Theorem C135_start H m s home bat lsd secrets wd y mo dd h time date pic :
  ready m (s_env s) -> m_home m = Some home -> m_os m <> OsWindows ->
  joined (env_get_cwd (s_env s)) (home ++ lit "/.cargo/bin/bat") bat ->
  joined (env_get_cwd (s_env s)) (home ++ lit "/.cargo/bin/lsd") lsd ->
  joined (env_get_cwd (s_env s)) (home ++ lit "/.dune-secrets") secrets -> missing H secrets ->
  keeps_short H -> terminal H wd -> stands H (RsTime y mo dd h time date) ->
  (1 <= y <= 999999)%Z -> CalendarSpec.valid (y, mo, dd) -> fits h -> sky h pic ->
  plain home -> single home -> length home + 30 <= N.to_nat wd -> 35 <= N.to_nat wd ->
  exists cat rows box bubble e, In cat cats /\ dash_rows y mo dd cat rows
    /\ (let c := Nat.max (Nat.div (N.to_nat wd) 2) (Nat.max (length home + 30) 35) in
        framed (lit "Wild Dune Shrew") (hint home) (c + 2) 4 box /\ lines box bubble
        /\ length bubble = 4 /\ Forall (fun r => length r = c + 2) bubble)
    /\ evaluates H 0 (EDo default_program) s (ROk ENone)
         (with_env e (tolds H (start_requests bat lsd secrets pic time date rows bubble) s)).
Proof.
  intros R HO NW J1 J2 J3 MI KS TE ST Y V HH SK PH SH L1 L2.
  destruct (first_part H m s home bat lsd R HO NW J1 J2) as (e1 & G & FU & SA & WE & CL & U).
  set (s1 := with_env e1 (tolds H [RqTest (lit "exists") bat; RqTest (lit "exists") lsd; RqPrint title_text] s)) in *.
  destruct (second_part H m s1 home secrets wd y mo dd h time date pic) as (cat & rows & box & bubble & e & IC & DR & B & E); try assumption.
  - change (s_env s1) with e1. rewrite CL. apply R.
  - change (s_env s1) with e1. replace (env_get_cwd e1) with (env_get_cwd (s_env s)); [exact J3|].
    destruct R as (R & _). unfold env_get_cwd. rewrite U, R; [reflexivity | apply out_of; vm_compute; reflexivity | vm_compute; reflexivity].
  - exists cat, rows, box, bubble, e. split; [exact IC|]. split; [exact DR|]. split; [exact B|].
    replace (tolds H (start_requests bat lsd secrets pic time date rows bubble) s)
      with (tolds H (rest secrets pic time date rows bubble) (tolds H [RqTest (lit "exists") bat; RqTest (lit "exists") lsd; RqPrint title_text] s)).
    2:{ rewrite <- tolds_app. f_equal. }
    unfold s1 in E. rewrite tolds_with in E. fold s1 in E.
    rewrite <- (firstn_skipn 42 default_program). rewrite last_parts in E |- *.
    eapply goes_do; [exact G|]. exact E.
Qed.
Print Assumptions C135_start.

(** The shell is ready after its own definitions. *)
Import P_Prompt Repl.
Theorem C135_ready H m tr lg :
  exists e, lim (fun n => startup H n) (St (init m) tr lg) (ROk tt) (St e tr lg) /\ ready m e.
Proof.
  pose proof (opening_new m) as O. eexists. split; [|split].
  - apply sure_lim; [discriminate|]. unfold startup.
    apply (sure_foldM _ _ (fun n (_ : unit) source => run_text H n (lit source) ;;; ret tt)).
    unfold main_source.
    eapply fo_cons; [eapply definition_run; [apply (main_read_at 0); reflexivity | run]|].
    eapply fo_cons; [eapply definition_run; [apply (main_read_at 1); reflexivity | run]|].
    eapply fo_cons; [eapply definition_run; [apply (main_read_at 2); reflexivity | run]|].
    eapply fo_cons; [eapply definition_run; [apply (main_read_at 3); reflexivity | run]|].
    eapply fo_cons; [eapply definition_run; [apply (main_read_at 4); reflexivity | run]|].
    run_state. apply fo_nil.
  - intros x N. cbn [s_env with_var with_env].
    assert (Q : forall y, In y main_names -> str_eqb x y = false).
    { intros y I. apply str_eqb_neq. intros ->. now apply N. }
    do 5 (rewrite env_get_define, Q by (vm_compute; tauto); cbn [s_env with_var with_env]). reflexivity.
  - run_lookup.
Qed.
Print Assumptions C135_ready.

(** Running the text of the file, as the program does it.  src/bin.rs:535-537. *)
Theorem C135_run H m s home bat lsd secrets wd y mo dd h time date pic :
  ready m (s_env s) -> m_home m = Some home -> m_os m <> OsWindows ->
  SysSpec.joined (env_get_cwd (s_env s)) (home ++ lit "/.cargo/bin/bat") bat ->
  SysSpec.joined (env_get_cwd (s_env s)) (home ++ lit "/.cargo/bin/lsd") lsd ->
  SysSpec.joined (env_get_cwd (s_env s)) (home ++ lit "/.dune-secrets") secrets -> missing H secrets ->
  keeps_short H -> terminal H wd -> stands H (RsTime y mo dd h time date) ->
  (1 <= y <= 999999)%Z -> CalendarSpec.valid (y, mo, dd) -> fits h -> sky h pic ->
  plain home -> single home -> length home + 30 <= N.to_nat wd -> 35 <= N.to_nat wd ->
  exists cat rows box bubble e, In cat cats /\ dash_rows y mo dd cat rows
    /\ framed (lit "Wild Dune Shrew") (hint home) (Nat.max (Nat.div (N.to_nat wd) 2) (Nat.max (length home + 30) 35) + 2) 4 box
    /\ lines box bubble
    /\ lim (fun n => run_text H n default_prelude) s (ROk ENone)
         (with_env e (tolds H (start_requests bat lsd secrets pic time date rows bubble) s)).
Proof.
  intros R HO NW J1 J2 J3 MI KS TE ST Y V HH SK PH SH L1 L2.
  destruct (C135_start H m s home bat lsd secrets wd y mo dd h time date pic R HO NW J1 J2 J3 MI KS TE ST Y V HH SK PH SH L1 L2)
    as (cat & rows & box & bubble & e & IC & DR & (B1 & B2 & _) & E).
  exists cat, rows, box, bubble, e. split; [exact IC|]. split; [exact DR|]. split; [exact B1|]. split; [exact B2|].
  apply sure_lim; [discriminate|]. unfold run_text, parse_m. rewrite C135_script.
  eapply sure_bind_const; [reflexivity|]. unfold ev. apply sure_ev. exact E.
Qed.
Print Assumptions C135_run.

(** A new shell of a user at home, in a terminal of 80 columns, on the leap day:
    there is neither [bat] nor [lsd] and there are no secrets. *)
Definition bare : host := with_answer
  (fun tr rq => match rq with
                | RqNow => RsTime 2024 2 29 9 (lit "9:30 AM") (lit "02/29/24")
                | RqTest _ _ => RsBool false
                | _ => demo_answer tr rq
                end) demo_host.

Example C135_case : exists e cat rows box bubble e1,
  lim (fun n => startup bare n) demo (ROk tt) (with_env e demo) /\ In cat cats /\ dash_rows 2024 2 29 cat rows
  /\ framed (lit "Wild Dune Shrew") [lit "Create /home/me/.dune-secrets to store"; lit "your secrets, tokens, and API keys!"] 42 4 box
  /\ lines box bubble
  /\ lim (fun n => run_text bare n default_prelude) (with_env e demo) (ROk ENone)
       (with_env e1 (tolds bare (start_requests (lit "/home/me/.cargo/bin/bat") (lit "/home/me/.cargo/bin/lsd") (lit "/home/me/.dune-secrets")
          [127749%N] (lit "9:30 AM") (lit "02/29/24") rows bubble) (with_env e demo))).
Proof.
  unfold demo, demo_env. match goal with |- context [init ?x] => set (m := x) end.
  destruct (C135_ready bare m [] 0) as (e & S & R). exists e.
  change (with_env e (St (init m) [] 0)) with (St e [] 0).
  destruct (C135_run bare m (St e [] 0) (lit "/home/me") (lit "/home/me/.cargo/bin/bat") (lit "/home/me/.cargo/bin/lsd") (lit "/home/me/.dune-secrets")
    80 2024 2 29 9 (lit "9:30 AM") (lit "02/29/24") [127749%N]) as (cat & rows & box & bubble & e1 & IC & DR & B1 & B2 & E).
  - exact R.
  - reflexivity.
  - discriminate.
  - apply j_absolute.
  - apply j_absolute.
  - apply j_absolute.
  - intros u. reflexivity.
  - intros u us w _ X _. exists us. split; [exact X|]. clear. induction us; constructor; [|assumption].
    exists 0. now rewrite app_nil_r.
  - split; [reflexivity|]; intros u; exists 24%N; split; reflexivity.
  - intros u. reflexivity.
  - lia.
  - exists 29%Z. split; [left; split; [split; [now exists 506%Z | left; intros (k & K); lia] | reflexivity] | lia].
  - unfold fits. lia.
  - constructor. lia.
  - intros x I. vm_compute in I. repeat (destruct I as [<- | I]; [vm_compute; right; now split |]). destruct I.
  - intros I. vm_compute in I. repeat (destruct I as [I|I]; [discriminate|]). destruct I.
  - apply Nat.leb_le. reflexivity.
  - apply Nat.leb_le. reflexivity.
  - exists cat, rows, box, bubble, e1. split; [exact S|]. split; [exact IC|]. split; [exact DR|]. split; [exact B1|]. split; [exact B2 | exact E].
Qed.
