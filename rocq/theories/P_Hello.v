(** C135: the start-up script in a new shell. *)

From Coq Require Import String Lia ZArith List.
From Verif Require Import Base Text Syntax Host Ops Parser Monad ErrorFmt Builtins Eval Init EvalSpec
  OpsSpec EvalFacts LibSpec LibFacts OpsFacts RunFacts MapFacts CoreFacts
  LinesSpec WidgetSpec Prelude PreludeFacts SysSpec PrintSpec ReportSpec BannerSpec DashSpec ShrewSpec HelloSpec Demo.
From Verif Require P_Start StartSpec CalendarDefs CalendarSpec P_Calendar P_Prompt P_Banner P_Dash P_DashDay P_Shrew HelperSpec P_Helpers Repl
  CmdFacts CalendarRun P_Sys P_Mode P_Term P_Files P_Extreme GlobSpec RedirectSpec.
Import ListNotations.

(** ** Statements in order *)

Inductive goes (H : host) : list expr -> st -> st -> Prop :=
| goes_none s : goes H [] s s
| goes_more x l s v s1 s2 : evaluates H 1 x s (ROk v) s1 -> goes H l s1 s2 -> goes H (x :: l) s s2.

Lemma goes_app H a b s s1 s2 : goes H a s s1 -> goes H b s1 s2 -> goes H (a ++ b) s s2.
Proof. induction 1 as [|x l s v t1 t2 E G IH]; intros B; [exact B|]. cbn [app]. eapply goes_more; [exact E | now apply IH]. Qed.

Lemma goes_one H x s v s1 : evaluates H 1 x s (ROk v) s1 -> goes H [x] s s1.
Proof. intros E. eapply goes_more; [exact E | constructor]. Qed.

Lemma do_goes H l s w s1 : evaluates H 0 (EDo l) s (ROk w) s1 -> goes H l s s1.
Proof.
  intros E. apply rule_do in E; [|discriminate]. destruct E as [(vs & A & _) | (r & A & F)]; [|inversion F].
  remember (ROk vs) as r eqn:R. revert vs R. unfold evaluates_all in A. induction A; intros us R; try discriminate.
  - constructor.
  - eapply goes_more; [eassumption | eapply IHA; reflexivity].
  - match goal with F : fails _ _ |- _ => rewrite R in F; inversion F end.
  - match goal with F : fails _ _ |- _ => rewrite R in F; inversion F end.
Qed.

Lemma goes_do H a x b s s1 w s2 : goes H a s s1 -> evaluates H 0 (EDo (x :: b)) s1 (ROk w) s2 ->
  evaluates H 0 (EDo (a ++ x :: b)) s (ROk w) s2.
Proof.
  induction 1 as [|y l s v t1 t2 E G IH]; intros B; [exact B|]. cbn [app].
  specialize (IH B). destruct l as [|z l]; (eapply run_do_more; [discriminate | exact E | exact IH]).
Qed.

(** ** Definitions *)

(** Values that stand for themselves. *)
Definition constant (v : expr) : bool :=
  match v with
  | EString _ | EMacro _ _ => true
  | EList l => forallb (fun e => match e with EString _ => true | _ => false end) l
  | EMap m => forallb (fun p => match snd p with EString _ => true | _ => false end) m
  | _ => false
  end.
Definition quiet (x : expr) : bool :=
  match x with EAssign _ (ELambda _ _ _) => true | EAssign _ v => constant v | _ => false end.
Definition name_of (x : expr) : str := match x with EAssign y _ => y | _ => [] end.

Lemma texts_run H d l s : (d <= MAX_DEPTH)%N -> forallb (fun e => match e with EString _ => true | _ => false end) l = true ->
  evaluates_all H d l s (ROk l) s.
Proof.
  intros L. induction l as [|e l IH]; intros B; [constructor|]. cbn [forallb] in B. apply andb_true_iff in B as [B1 B2].
  eapply run_all_cons; [apply run_value; [exact L | now destruct e] | now apply IH].
Qed.

Lemma constant_run H d v s : (d + 2 <= MAX_DEPTH)%N -> constant v = true -> evaluates H d v s (ROk v) s.
Proof.
  intros L C. destruct v; try discriminate; try (apply run_value; [lia | exact I]).
  - apply run_list; [lia|]. apply texts_run; [lia | exact C].
  - cbn [constant] in C. rename m into m0.
    assert (X : m0 = combine (map fst m0) (map snd m0)) by (clear; induction m0 as [|[a b] m0 IH]; cbn; congruence).
    eapply run_exact; [apply (run_map H d m0 s (map snd m0) s); [lia|] | now rewrite <- X | reflexivity].
    apply texts_run; [lia|]. clear - C. induction m0 as [|[a b] m0 IH]; [reflexivity|]. cbn in *.
    apply andb_true_iff in C as [C1 C2]. now rewrite C1, IH.
Qed.

Lemma quiet_run H l : forallb quiet l = true -> forall s,
  exists e, goes H l s (with_env e s)
    /\ (forall x, existsb (str_eqb x) (map name_of l) = false -> env_get x e = env_get x (s_env s))
    /\ forall k x v, nth_error l k = Some (EAssign x v) -> constant v = true ->
         existsb (str_eqb x) (map name_of (skipn (S k) l)) = false -> env_get x e = Some v.
Proof.
  induction l as [|st l IH]; intros B s.
  - exists (s_env s). split; [destruct s; constructor|]. split; [reflexivity|]. intros [|] ? ? X; discriminate.
  - cbn [forallb] in B. apply andb_true_iff in B as [B1 B2].
    assert (X : exists y u w, st = EAssign y u /\ evaluates H 1 st s (ROk ENone) (with_var y w s) /\ (constant u = true -> w = u)).
    { destruct st; try discriminate. rename x into y. 
      assert (Y : (exists p b c, st = ELambda p b c) \/ constant st = true).
      { destruct st; cbn in B1; try discriminate; auto. left. eauto. }
      destruct Y as [(p & b & c & ->) | C].
      - do 3 eexists. split; [reflexivity|]. split; [apply run_assign; [discriminate | apply run_lambda; discriminate] | discriminate].
      - exists y, st, st. split; [reflexivity|]. split; [apply run_assign; [discriminate | apply constant_run; [discriminate | exact C]] | auto]. }
    destruct X as (y & u & w & -> & E & W). destruct (IH B2 (with_var y w s)) as (e & G & K & V).
    exists e. split; [eapply goes_more; [exact E | exact G]|]. split.
    + intros x N. cbn [map existsb name_of] in N. apply orb_false_iff in N as [N1 N2]. rewrite K by exact N2.
      apply found_below; [exact N1 | reflexivity].
    + intros [|k] x v Q C N.
      * injection Q as -> ->. rewrite K by exact N. rewrite (W C). apply found_here.
      * exact (V k x v Q C N).
Qed.

(** ** A new shell *)

Definition uses : list (str * expr) :=
  [ (lit "@", bi BIndex "@"); (lit "==", bi BEq "=="); (lit "+", bi BAdd "+"); (lit "!", bi BNot "!");
    (lit "!=", bi BNe "!="); (lit "echo", bi BPrintln "println"); (lit "console", EMap console_module);
    (lit "fmt", EMap fmt_module); (lit "widget", EMap widget_module); (lit "rand", EMap rand_module) ]%string.

Lemma uses_new m x v : In (x, v) uses -> env_get x (init m) = Some v.
Proof.
  intros I. destruct (P_Start.init_parts m) as (w & a & b & math & ->). cbv zeta.
  rewrite (P_Start.get_defines (fun kv => lit (fst kv)) snd). unfold define_all.
  rewrite (P_Start.get_defines fst snd), env_get_define, (P_Start.get_defines fst snd).
  unfold uses in I. revert I.
  generalize (define_dirs m), log_module, dict_module, (shell_module m), err_module, (os_module m),
    time_module, rand_module, fn_module, console_module, fmt_module, parse_module, string_module,
    list_module, sys_module, widget_module.
  intros. cbn [In] in I.
  repeat (destruct I as [I | I]; [injection I as <- <-; vm_compute; reflexivity |]).
  contradiction.
Qed.

Lemma os_new m : env_get (lit "os") (init m) = Some (EMap (os_module m)).
Proof.
  destruct (P_Start.init_parts m) as (w & a & b & math & ->). cbv zeta.
  rewrite (P_Start.get_defines (fun kv => lit (fst kv)) snd). unfold define_all.
  rewrite (P_Start.get_defines fst snd), env_get_define, (P_Start.get_defines fst snd).
  generalize (define_dirs m), log_module, dict_module, (shell_module m), err_module, (os_module m),
    time_module, rand_module, fn_module, console_module, fmt_module, parse_module, string_module,
    list_module, sys_module, widget_module.
  intros. vm_compute. reflexivity.
Qed.

Lemma fs_new m : exists w, env_get (lit "fs") (init m) = Some (EMap w) /\ bm_get (lit "exists?") w = Some (bi KExists "exists").
Proof.
  exists (fs_module m). split; [|vm_compute; reflexivity].
  unfold init. cbv zeta. rewrite (P_Start.get_defines (fun kv => lit (fst kv)) snd). unfold define_all.
  rewrite (P_Start.get_defines fst snd), env_get_define.
  generalize (operators (env_define (lit "fs") (EMap (fs_module m)) (define_dirs m))). intros ops.
  generalize (math_module (fold_left (fun (e : env) (kv : str * expr) => env_define (fst kv) (snd kv) e) ops
          (env_define (lit "fs") (EMap (fs_module m)) (define_dirs m)))).
  generalize (define_dirs m), log_module, dict_module, (shell_module m), err_module, (os_module m),
    time_module, rand_module, fn_module, console_module, fmt_module, parse_module, string_module,
    list_module, sys_module, widget_module, (fs_module m).
  intros. vm_compute. reflexivity.
Qed.

Lemma home_new m home : m_home m = Some home -> env_get (lit "HOME") (init m) = Some (EString home).
Proof.
  intros Hm. rewrite P_Start.init_other; [|vm_compute; reflexivity | vm_compute; intuition discriminate ..].
  unfold define_dirs. rewrite Hm. destruct (m_down m), (m_docs m), (m_desk m), (m_cwd m); unfold env_set_cwd; cbv zeta; run_lookup.
Qed.

Lemma city_new m : env_get (lit "Knoxville") (init m) = None.
Proof.
  rewrite P_Start.init_other; [|vm_compute; reflexivity | vm_compute; intuition discriminate ..].
  unfold define_dirs. destruct (m_home m), (m_down m), (m_docs m), (m_desk m), (m_cwd m); unfold env_set_cwd; cbv zeta; run_lookup.
Qed.

(** ** Steps *)

Definition sym (x : string) : expr := ESymbol (lit x).
Definition at_ (a b : string) : expr := EApply (sym "@") [sym a; sym b].

Lemma run_name H d s x v : (d <= MAX_DEPTH)%N -> env_get (lit x) (s_env s) = Some v -> evaluates H d (sym x) s (ROk v) s.
Proof. intros. now apply run_symbol. Qed.

Lemma run_member H d s a b v r : (d + 1 <= MAX_DEPTH)%N -> env_get (lit "@") (s_env s) = Some (bi BIndex "@") ->
  env_get (lit a) (s_env s) = Some v -> expr_index v (ESymbol (lit b)) = r -> evaluates H d (at_ a b) s (ROk r) s.
Proof.
  intros L AT A R. eapply run_builtin_call; [lia | apply run_symbol; [lia | exact AT] |].
  eapply run_at_name; [exact I | apply run_symbol; [discriminate | exact A] | exact R].
Qed.

Lemma path_arg_run H B args i a (k : nat -> str -> M B) s v s1 cwd r s' :
  nth_error args i = Some a -> evaluates H 0 a s (ROk v) s1 ->
  sure (fun n => k n (path_join cwd (display H v))) s1 r s' ->
  sure (fun n => bind (path_arg H (eval H n 0) args i cwd) (k n)) s r s'.
Proof.
  intros A E K. unfold path_arg.
  refine (sure_bind _ _ (fun n => bind (ev_arg (eval H n 0) args i) (fun v => ret (path_join cwd (display H v)))) k _ _ _ _ _ _ K).
  eapply sure_ev_arg; eauto. apply sure_ret.
Qed.

Lemma test_run H a s t path : evaluates H 0 a s (ROk (EString t)) s -> joined (env_get_cwd (s_env s)) t path ->
  calls H KExists [a] s (ROk (EBoolean (match h_answer H (s_trace s) (RqTest (lit "exists") path) with RsBool b => b | _ => false end)))
    (told H (RqTest (lit "exists") path) s).
Proof.
  intros E J. apply P_Sys.joined_path_join in J. subst path. call. unfold run_fs_test. sure_step.
  eapply sure_bind_const; [reflexivity|]; cbv beta.
  eapply path_arg_run; [reflexivity | exact E |]. cbv beta.
  eapply sure_bind_const; [reflexivity|]; cbv beta iota. apply sure_ret.
Qed.

Lemma exists_run H d s a t w path : (d + 3 <= MAX_DEPTH)%N ->
  env_get (lit "@") (s_env s) = Some (bi BIndex "@") ->
  env_get (lit "fs") (s_env s) = Some (EMap w) -> bm_get (lit "exists?") w = Some (bi KExists "exists") ->
  evaluates H 0 a s (ROk (EString t)) s -> joined (env_get_cwd (s_env s)) t path ->
  evaluates H d (EApply (at_ "fs" "exists?") [a]) s
    (ROk (EBoolean (match h_answer H (s_trace s) (RqTest (lit "exists") path) with RsBool b => b | _ => false end)))
    (told H (RqTest (lit "exists") path) s).
Proof.
  intros L AT FS EX E J. eapply (run_builtin_call H d _ (Bi KExists (lit "exists")));
    [lia | eapply run_member; [lia | exact AT | exact FS |] | now apply (test_run H a s t path)].
  cbn [expr_index]. rewrite EX. reflexivity.
Qed.

Lemma text_plus H s a b x y : env_get (lit "+") (s_env s) = Some (bi BAdd "+") ->
  evaluates H 0 a s (ROk (EString x)) s -> evaluates H 0 b s (ROk (EString y)) s -> forall d, (d + 2 <= MAX_DEPTH)%N ->
  evaluates H d (EGroup (EApply (sym "+") [a; b])) s (ROk (EString (x ++ y))) s.
Proof.
  intros P A B d L. apply run_group; [lia|]. eapply run_builtin_call; [lia | apply run_name; [lia | exact P] |].
  eapply run_arith; [reflexivity | exact A | exact B | apply value_string | apply value_string | reflexivity | discriminate].
Qed.

Definition if_statement : expr := Eval vm_compute in nth 21 default_program ENone.
Definition look (file x : string) (v : expr) : expr :=
  EIf (EGroup (EApply (at_ "fs" "exists?") [EGroup (EApply (sym "+") [sym "HOME"; EString (lit file)])]))
      (EDo [EAssign (lit x) (EQuote v)]) ENone.
Definition dir_body : list expr := Eval vm_compute in
  match if_statement with EIf _ (EDo l) _ => l | _ => [] end.
Lemma if_is : exists v1 v2, if_statement = EIf (EGroup (EApply (sym "==") [at_ "os" "name"; EString (lit "windows")])) (EDo dir_body)
    (EGroup (EDo [look "/.cargo/bin/bat" "cat" v1; look "/.cargo/bin/lsd" "ls" v2])).
Proof. do 2 eexists. vm_compute. reflexivity. Qed.

Lemma cwd_kept x v e : str_eqb CWD x = false -> env_get_cwd (env_define x v e) = env_get_cwd e.
Proof. intros N. apply env_get_cwd_define. intros ->. rewrite str_eqb_refl in N. discriminate. Qed.

Lemma look_run H d s file x v home w path : (d + 10 <= MAX_DEPTH)%N ->
  env_get (lit "@") (s_env s) = Some (bi BIndex "@") -> env_get (lit "+") (s_env s) = Some (bi BAdd "+") ->
  env_get (lit "fs") (s_env s) = Some (EMap w) -> bm_get (lit "exists?") w = Some (bi KExists "exists") ->
  env_get (lit "HOME") (s_env s) = Some (EString home) -> joined (env_get_cwd (s_env s)) (home ++ lit file) path ->
  str_eqb CWD (lit x) = false ->
  exists e, evaluates H d (look file x v) s (ROk ENone) (with_env e (told H (RqTest (lit "exists") path) s))
    /\ env_get_cwd e = env_get_cwd (s_env s)
    /\ forall y, str_eqb y (lit x) = false -> env_get y e = env_get y (s_env s).
Proof.
  intros L AT PL FS EX HO J N.
  set (b := match h_answer H (s_trace s) (RqTest (lit "exists") path) with RsBool b => b | _ => false end).
  set (s1 := told H (RqTest (lit "exists") path) s).
  assert (E : evaluates H (d + 1) (EGroup (EApply (at_ "fs" "exists?") [EGroup (EApply (sym "+") [sym "HOME"; EString (lit file)])])) s
    (ROk (EBoolean b)) s1).
  { apply run_group; [lia|]. eapply exists_run; [lia | exact AT | exact FS | exact EX | | exact J].
    apply text_plus; [exact PL | apply run_name; [discriminate | exact HO] | apply run_value; [discriminate | exact I] | discriminate]. }
  exists (if b then env_define (lit x) v (s_env s) else s_env s). split; [|split].
  - unfold look. eapply run_if; [lia | exact E |]. cbn [is_truthy]. destruct b.
    + apply run_do_one; [lia|]. apply (run_assign H _ (lit x) (EQuote v) s1 v s1); [lia|]. apply run_quote. lia.
    + eapply run_end; [apply run_value; [lia | exact I]|]. destruct s. reflexivity.
  - destruct b; [now apply cwd_kept | reflexivity].
  - intros y M. destruct b; [apply found_below; [exact M | reflexivity] | reflexivity].
Qed.

Lemma if_run H s m home w bat lsd :
  env_get (lit "@") (s_env s) = Some (bi BIndex "@") -> env_get (lit "+") (s_env s) = Some (bi BAdd "+") ->
  env_get (lit "==") (s_env s) = Some (bi BEq "==") ->
  env_get (lit "os") (s_env s) = Some (EMap (os_module m)) -> m_os m <> OsWindows ->
  env_get (lit "fs") (s_env s) = Some (EMap w) -> bm_get (lit "exists?") w = Some (bi KExists "exists") ->
  env_get (lit "HOME") (s_env s) = Some (EString home) ->
  joined (env_get_cwd (s_env s)) (home ++ lit "/.cargo/bin/bat") bat -> joined (env_get_cwd (s_env s)) (home ++ lit "/.cargo/bin/lsd") lsd ->
  exists e, evaluates H 1 if_statement s (ROk ENone) (with_env e (told H (RqTest (lit "exists") lsd) (told H (RqTest (lit "exists") bat) s)))
    /\ env_get_cwd e = env_get_cwd (s_env s)
    /\ forall y, existsb (str_eqb y) (map lit ["cat"; "ls"]%string) = false -> env_get y e = env_get y (s_env s).
Proof.
  intros AT PL EQ OS NW FS EX HO J1 J2. destruct if_is as (v1 & v2 & ->).
  destruct (look_run H 4 s "/.cargo/bin/bat" "cat" v1 home w bat ltac:(discriminate) AT PL FS EX HO J1 eq_refl) as (e1 & E1 & C1 & K1).
  set (s1 := with_env e1 (told H (RqTest (lit "exists") bat) s)) in *.
  destruct (look_run H 4 s1 "/.cargo/bin/lsd" "ls" v2 home w lsd) as (e2 & E2 & C2 & K2);
    [discriminate | change (s_env s1) with e1; rewrite ?C1; rewrite ?K1 by reflexivity; assumption .. | reflexivity |].
  exists e2. split; [|split].
  - eapply (run_if H 1 _ _ _ s (EBoolean false) s); [discriminate | |].
    + apply run_group; [discriminate|]. eapply run_builtin_call; [discriminate | apply run_name; [discriminate | exact EQ] |].
      eapply (run_compare2 H BEq expr_eqb); [reflexivity | eapply run_member; [discriminate | exact AT | exact OS | reflexivity]
        | apply run_value; [discriminate | exact I] |].
      destruct m as [? ? ? ? ? o ? ? ? ?]. cbn [m_os] in NW. destruct o; first [now destruct NW | vm_compute; reflexivity].
    + cbn [is_truthy]. apply run_group; [discriminate|].
      eapply run_do_more; [discriminate | exact E1 |]. apply run_do_one; [discriminate | exact E2].
  - rewrite C2. exact C1.
  - intros y N. cbn [map existsb] in N. apply orb_false_iff in N as [N1 N]. apply orb_false_iff in N as [N2 _].
    rewrite K2 by exact N2. exact (K1 y N1).
Qed.

(** ** The definitions of the script *)

(** Everything that the script may have defined, besides what the shell defined. *)
Definition part (a n : nat) : list expr := firstn n (skipn a default_program).
Definition names (l : list expr) : list str := map name_of l.

Lemma same_env s s1 : s_trace s1 = s_trace s -> s_log s1 = s_log s -> s1 = with_env (s_env s1) s.
Proof. destruct s, s1. cbn. now intros -> ->. Qed.

Definition title_text : str := [27%N] ++ lit "]2;Dune" ++ [27%N] ++ lit "[0m".

Lemma title_run H s : env_get (lit "@") (s_env s) = Some (bi BIndex "@") -> env_get (lit "console") (s_env s) = Some (EMap console_module) ->
  evaluates H 1 (EApply (at_ "console" "title") [EString (lit "Dune")]) s (ROk ENone) (told H (RqPrint title_text) s).
Proof.
  intros AT CO. eapply (run_builtin_call H 1 _ (Bi CTitle (lit "title")));
    [discriminate | eapply run_member; [discriminate | exact AT | exact CO | vm_compute; reflexivity] |].
  cbn [b_id]. call. unfold run_title, exact1. sure_step.
  eapply sure_ev_arg; [reflexivity | apply run_value; [discriminate | exact I] |]. unfold print.
  eapply sure_bind_const; [reflexivity|]. cbv beta. apply sure_ret.
Qed.

(** Names outside of this list are those of a new shell all the time. *)
Definition touched : list str :=
  own_names ++ HelperSpec.helper_names ++ names (part 13 7) ++ map lit ["WEATHER-API-KEY"; "cat"; "ls"]%string ++ names (part 23 6)
  ++ [lit "shrewsay"] ++ names (part 30 3) ++ CalendarDefs.calendar_names ++ names (part 39 3).

Definition untouched (m : machine) (e : env) : Prop :=
  forall x, existsb (str_eqb x) touched = false -> env_get x e = env_get x (init m).

Lemma out_of l x : existsb (str_eqb x) l = false -> ~ In x l.
Proof.
  intros B I. apply not_true_iff_false in B. apply B, existsb_exists. exists x. split; [exact I | apply str_eqb_refl].
Qed.

Lemma untouched_step m e e' l : untouched m e -> (forall x, existsb (str_eqb x) l = false -> env_get x e' = env_get x e) ->
  forallb (fun y => existsb (str_eqb y) touched) l = true -> untouched m e'.
Proof.
  intros U K B x N. rewrite K; [now apply U|]. apply not_true_iff_false. intros X. apply existsb_exists in X as (y & I & E).
  apply str_eqb_eq in E as <-. rewrite forallb_forall in B. rewrite (B x I) in N. discriminate.
Qed.

Lemma in_out (P : str -> Prop) l : (forall x, ~ In x l -> P x) -> forall x, existsb (str_eqb x) l = false -> P x.
Proof. intros A x N. apply A. now apply out_of. Qed.

Lemma untouched_list m e (l : list (str * expr)) : untouched m e ->
  forallb (fun p => negb (existsb (str_eqb (fst p)) touched)) l = true ->
  (forall x v, In (x, v) l -> env_get x (init m) = Some v) -> forall x v, In (x, v) l -> env_get x e = Some v.
Proof.
  intros U B A x v I. rewrite U; [now apply A|]. rewrite forallb_forall in B. apply (B (x, v)) in I. cbn [fst] in I.
  now apply negb_true_iff.
Qed.

Lemma standard_untouched m e : untouched m e -> CalendarDefs.standard e.
Proof.
  intros U. unfold CalendarDefs.standard.
  apply (untouched_list m e CalendarDefs.shell_names U); [vm_compute; reflexivity | exact (CalendarFacts.standard_new m)].
Qed.

Lemma festive_untouched m e : untouched m e -> festive e.
Proof.
  intros U. unfold festive. apply (untouched_list m e banner_names U); [vm_compute; reflexivity | exact (P_Banner.C130_new m)].
Qed.

Lemma uses_untouched m e : untouched m e -> forall x v, In (x, v) uses -> env_get x e = Some v.
Proof. intros U. apply (untouched_list m e uses U); [vm_compute; reflexivity | exact (uses_new m)]. Qed.

Lemma eloquent_untouched m e : untouched m e -> eloquent e.
Proof.
  intros U. destruct (P_Shrew.C134_new m) as (N1 & (m' & N2) & (w & N3 & N3')). split; [|split].
  - apply (untouched_list m e say_names U); [vm_compute; reflexivity | exact N1].
  - exists m'. rewrite U; [exact N2 | vm_compute; reflexivity].
  - exists w. split; [|exact N3']. rewrite U; [exact N3 | vm_compute; reflexivity].
Qed.

Lemma weather_is : exists p b, nth_error (part 13 7) 6
  = Some (EAssign (lit "set-weather-api-key") (EMacro (lit "WEATHER-API-KEY") (EMacro p b))).
Proof. do 2 eexists. vm_compute. reflexivity. Qed.

Lemma first_parts : firstn 42 default_program =
  HelperSpec.helper_definitions ++ part 13 7 ++ [EApply (sym "set-weather-api-key") [ENone]] ++ [if_statement]
  ++ [EApply (at_ "console" "title") [EString (lit "Dune")]] ++ part 23 6 ++ [say_definition] ++ part 30 3
  ++ CalendarDefs.calendar_definitions ++ part 39 3.
Proof. vm_compute. reflexivity. Qed.

Definition value_of (x : expr) : expr := match x with EAssign _ v => v | _ => ENone end.
Definition assigns (x : string) (stmt : expr) (l : list expr) (k : nat) : Prop :=
  stmt = EAssign (lit x) (value_of stmt) /\ nth_error l k = Some stmt /\ constant (value_of stmt) = true
  /\ existsb (str_eqb (lit x)) (map name_of (skipn (S k) l)) = false.
Lemma banner_is : assigns "welcomebanner" banner_definition (part 30 3) 2.
Proof. vm_compute. repeat split. Qed.
Lemma cal_is : assigns "cal" cal_definition (part 39 3) 0.
Proof. vm_compute. repeat split. Qed.
Lemma dash_is : assigns "dashboard" dash_definition (part 39 3) 1.
Proof. vm_compute. repeat split. Qed.
Lemma welcome_is : assigns "welcome" (nth 41 default_program ENone) (part 39 3) 2.
Proof. vm_compute. repeat split. Qed.
Lemma cats_is : assigns "CATS" (EAssign (lit "CATS") (EList (map EString cats))) (part 23 6) 1.
Proof. vm_compute. repeat split. Qed.
Lemma shrew_is : assigns "shrew" shrew_definition (part 23 6) 4.
Proof. vm_compute. repeat split. Qed.

Lemma as_value x stmt l k e e' : assigns x stmt l k ->
  (forall k x v, nth_error l k = Some (EAssign x v) -> constant v = true ->
     existsb (str_eqb x) (map name_of (skipn (S k) l)) = false -> env_get x e = Some v) ->
  env_get (lit x) e' = env_get (lit x) e -> as_defined stmt e'.
Proof.
  intros (S & N & C & F) V K. rewrite S. unfold as_defined. rewrite K. apply (V k); [now rewrite <- S | exact C | exact F].
Qed.

Lemma first_part H m s home bat lsd :
  ready m (s_env s) -> m_home m = Some home -> m_os m <> OsWindows ->
  joined (env_get_cwd (s_env s)) (home ++ lit "/.cargo/bin/bat") bat -> joined (env_get_cwd (s_env s)) (home ++ lit "/.cargo/bin/lsd") lsd ->
  exists e, goes H (firstn 42 default_program) s
      (with_env e (tolds H [RqTest (lit "exists") bat; RqTest (lit "exists") lsd; RqPrint title_text] s))
    /\ furnished H e /\ says_shrew H e /\ as_defined (nth 41 default_program ENone) e
    /\ env_get (lit "clear") e = env_get (lit "clear") (s_env s) /\ untouched m e.
Proof.
  intros (R & RC) HO NW J1 J2.
  (* names of the shell *)
  assert (U0 : untouched m (s_env s)).
  { intros x N. apply R. unfold touched in N. rewrite existsb_app in N. apply orb_false_iff in N as [N _]. now apply out_of. }
  (* helpers *)
  destruct (P_Helpers.C122_definitions H s) as (s1 & G1 & _ & T1 & L1 & K1).
  { destruct (P_Helpers.unhelped_new m) as (N1 & (w & N2 & N2') & N3 & N4). split; [|split; [|split]].
    - intros x v I. rewrite R; [now apply N1|]. apply out_of. revert I. unfold HelperSpec.helper_uses. cbn [In]. clear. intros I.
      repeat (destruct I as [I|I]; [injection I as <- _; vm_compute; reflexivity|]). destruct I.
    - exists w. split; [|exact N2']. rewrite U0; [exact N2 | vm_compute; reflexivity].
    - rewrite U0; [exact N3 | vm_compute; reflexivity].
    - rewrite U0; [exact N4 | vm_compute; reflexivity]. }
  assert (U1 : untouched m (s_env s1)).
  { eapply (untouched_step _ _ _ HelperSpec.helper_names U0); [exact (in_out _ _ K1) | vm_compute; reflexivity]. }
  apply do_goes in G1. pose proof (same_env _ _ T1 L1) as X1. set (e1 := s_env s1) in *.
  destruct (quiet_run H (part 13 7) ltac:(vm_compute; reflexivity) s1) as (e2 & G2 & K2 & V2).
  set (s2 := with_env e2 s1) in *.
  assert (U2 : untouched m (s_env s2)) by (eapply (untouched_step _ _ _ _ U1); [exact K2 | vm_compute; reflexivity]).
  set (s3 := with_var (lit "WEATHER-API-KEY") ENone s2).
  assert (G3 : goes H [EApply (sym "set-weather-api-key") [ENone]] s2 s3).
  { destruct weather_is as (p & b & W). eapply goes_one, run_macro; [discriminate | apply run_name; [discriminate|] | |].
    - change (s_env s2) with e2. eapply V2; [exact W | reflexivity | vm_compute; reflexivity].
    - apply run_value; [discriminate | exact I].
    - apply run_value; [discriminate | exact I]. }
  assert (U3 : untouched m (s_env s3)).
  { eapply (untouched_step _ _ _ [lit "WEATHER-API-KEY"] U2); [|vm_compute; reflexivity].
    intros x N. cbn [existsb] in N. rewrite orb_false_r in N. now apply found_below. }
  assert (CW : forall e, untouched m e -> env_get_cwd e = env_get_cwd (s_env s)).
  { intros e U. unfold env_get_cwd. rewrite U, U0; [reflexivity | vm_compute; reflexivity ..]. }
  destruct (fs_new m) as (w & FS & EX).
  destruct (if_run H s3 m home w bat lsd) as (e4 & E4 & C4 & K4).
  { apply (uses_untouched m _ U3), (nth_error_In _ 0). reflexivity. }
  { apply (uses_untouched m _ U3), (nth_error_In _ 2). reflexivity. }
  { apply (uses_untouched m _ U3), (nth_error_In _ 1). reflexivity. }
  { rewrite U3; [apply os_new | vm_compute; reflexivity]. }
  { exact NW. }
  { rewrite U3; [exact FS | vm_compute; reflexivity]. }
  { exact EX. }
  { rewrite U3; [now apply home_new | vm_compute; reflexivity]. }
  { now rewrite CW. }
  { now rewrite CW. }
  set (s4 := with_env e4 (told H (RqTest (lit "exists") lsd) (told H (RqTest (lit "exists") bat) s3))) in *.
  assert (U4 : untouched m (s_env s4)) by (eapply (untouched_step _ _ _ _ U3); [exact K4 | vm_compute; reflexivity]).
  set (s5 := told H (RqPrint title_text) s4).
  assert (G5 : goes H [EApply (at_ "console" "title") [EString (lit "Dune")]] s4 s5).
  { eapply goes_one. apply title_run; [apply (uses_untouched m _ U4), (nth_error_In _ 0) | apply (uses_untouched m _ U4), (nth_error_In _ 6)]; reflexivity. }
  assert (U5 : untouched m (s_env s5)) by exact U4.
  destruct (quiet_run H (part 23 6) ltac:(vm_compute; reflexivity) s5) as (e6 & G6 & K6 & V6).
  set (s6 := with_env e6 s5) in *.
  assert (U6 : untouched m (s_env s6)) by (eapply (untouched_step _ _ _ _ U5); [exact K6 | vm_compute; reflexivity]).
  set (s7 := with_var (lit "shrewsay") (ELambda (lit "text") (EDo P_Shrew.say_body) (capture (s_env s6) (lit "text") (EDo P_Shrew.say_body) (Env [] None))) s6).
  assert (G7 : goes H [say_definition] s6 s7) by (eapply goes_one; apply P_Shrew.say_made; discriminate).
  assert (K7 : forall x, existsb (str_eqb x) [lit "shrewsay"] = false -> env_get x (s_env s7) = env_get x (s_env s6)).
  { intros x N. cbn [existsb] in N. rewrite orb_false_r in N. now apply found_below. }
  assert (U7 : untouched m (s_env s7)) by (eapply (untouched_step _ _ _ _ U6); [exact K7 | vm_compute; reflexivity]).
  destruct (quiet_run H (part 30 3) ltac:(vm_compute; reflexivity) s7) as (e8 & G8 & K8 & V8).
  set (s8 := with_env e8 s7) in *.
  assert (U8 : untouched m (s_env s8)) by (eapply (untouched_step _ _ _ _ U7); [exact K8 | vm_compute; reflexivity]).
  destruct (P_Calendar.C115_definitions H s8) as (v9 & s9 & G9 & P9 & T9 & L9 & K9).
  { exact (standard_untouched m _ U8). }
  assert (U9 : untouched m (s_env s9)) by (eapply (untouched_step _ _ _ _ U8); [exact (in_out _ _ K9) | vm_compute; reflexivity]).
  apply do_goes in G9. pose proof (same_env _ _ T9 L9) as X9. set (e9 := s_env s9) in *.
  destruct (quiet_run H (part 39 3) ltac:(vm_compute; reflexivity) s9) as (e10 & G10 & K10 & V10).
  set (s10 := with_env e10 s9) in *.
  exists e10. split.
  { rewrite first_parts.
    eapply goes_app; [exact G1|]. eapply goes_app; [exact G2|]. eapply goes_app; [exact G3|].
    eapply goes_app; [eapply goes_one; exact E4|]. eapply goes_app; [exact G5|]. eapply goes_app; [exact G6|].
    eapply goes_app; [exact G7|]. eapply goes_app; [exact G8|]. eapply goes_app; [exact G9|].
    replace (with_env e10 (tolds H _ s)) with s10; [exact G10|].
    unfold s10. rewrite X9. unfold s8, s7, s6, s5, s4, s3, s2, with_var. rewrite X1. reflexivity. }
  assert (U10 : untouched m e10) by (eapply (untouched_step _ _ _ _ U9); [exact K10 | vm_compute; reflexivity]).
  split; [|split; [|split; [|split; [|exact U10]]]].
  - unfold furnished. split; [exact (festive_untouched m _ U10)|]. split; [|split; [|split; [|split; [|split; [|split; [|split; [|split]]]]]]].
    + eapply (as_value _ _ _ _ _ _ banner_is V8). rewrite K10, (in_out _ _ K9) by (vm_compute; reflexivity). reflexivity.
    + destruct P9 as (sa & va & sb & A1 & A2 & A3). exists sa, va, sb. split; [exact A1|]. split; [exact A2|]. intros x I.
      rewrite K10; [now apply A3|]. apply not_true_iff_false. intros X.
      assert (B : forallb (fun y => negb (existsb (str_eqb y) (map name_of (part 39 3)))) CalendarDefs.calendar_names = true) by (vm_compute; reflexivity).
      rewrite forallb_forall in B. apply B in I. rewrite X in I. discriminate.
    + eapply (as_value _ _ _ _ _ _ cal_is V10). reflexivity.
    + eapply (as_value _ _ _ _ _ _ dash_is V10). reflexivity.
    + apply (as_value _ _ _ _ _ e10 cats_is V6).
      rewrite K10, (in_out _ _ K9) by (vm_compute; reflexivity). change (s_env s8) with e8. rewrite K8, K7 by (vm_compute; reflexivity). reflexivity.
    + rewrite K10, (in_out _ _ K9) by (vm_compute; reflexivity). change (s_env s8) with e8. rewrite K8, K7 by (vm_compute; reflexivity).
      change (s_env s6) with e6. rewrite K6 by (vm_compute; reflexivity). change (s_env s5) with e4. rewrite K4 by (vm_compute; reflexivity).
      apply found_here.
    + apply (uses_untouched m _ U10), (nth_error_In _ 4). reflexivity.
    + apply (uses_untouched m _ U10), (nth_error_In _ 8). reflexivity.
    + apply (uses_untouched m _ U10), (nth_error_In _ 9). reflexivity.
  - exists s6, ENone, s7. split; [exact (eloquent_untouched m _ U6)|]. split; [|split].
    + eapply (as_value _ _ _ _ _ _ shrew_is V6). reflexivity.
    + apply P_Shrew.say_made. discriminate.
    + rewrite K10, (in_out _ _ K9) by (vm_compute; reflexivity). change (s_env s8) with e8. rewrite K8 by (vm_compute; reflexivity). reflexivity.
  - eapply (as_value _ _ _ _ _ _ welcome_is V10). reflexivity.
  - rewrite K10, (in_out _ _ K9) by (vm_compute; reflexivity). change (s_env s8) with e8. rewrite K8, K7 by (vm_compute; reflexivity).
    change (s_env s6) with e6. rewrite K6 by (vm_compute; reflexivity). change (s_env s5) with e4. rewrite K4 by (vm_compute; reflexivity).
    transitivity (env_get (lit "clear") (s_env s2)); [now apply found_below|]. change (s_env s2) with e2.
    rewrite K2, (in_out _ _ K1) by (vm_compute; reflexivity). reflexivity.
Qed.
