(** C120 and C121: the prompts and [join]. *)

From Coq Require Import String Lia ZArith.
From Verif Require Import Base Syntax Host Ops Parser Monad ErrorFmt Text Builtins Eval Init Repl EvalSpec
  OpsSpec EvalFacts LibSpec LibFacts OpsFacts RunFacts MapFacts CoreFacts P_List P_Start PromptSpec Demo.
From Verif Require CalendarRun.

(** The definitions of src/bin.rs:573-594 as the parser reads them. *)
Definition main_program : list expr := Eval vm_compute in map (fun s => script s) main_source.

Lemma main_read : map (fun s => parse_script (lit s)) main_source = map SOk main_program.
Proof. vm_compute. reflexivity. Qed.

Lemma main_read_at k source p : nth_error main_source k = Some source ->
  nth_error main_program k = Some p -> parse_script (lit source) = SOk p.
Proof.
  intros S P. assert (R := f_equal (fun l => nth_error l k) main_read). cbv beta in R.
  rewrite (map_nth_error _ _ _ S), (map_nth_error _ _ _ P) in R. congruence.
Qed.

Definition main_names : list str := map lit ["clear"; "pwd"; "join"; "prompt"; "incomplete_prompt"]%string.

Definition value_in (k : nat) : expr :=
  match nth k main_program ENone with EDo [EAssign _ v] => v | _ => ENone end.
Definition body_in (e : expr) : expr := match e with ELambda _ b _ => b | _ => ENone end.
Definition join_body : expr := Eval vm_compute in body_in (value_in 2).
Definition prompt_body : expr := Eval vm_compute in body_in (value_in 3).
Definition incomplete_body : expr := Eval vm_compute in body_in (value_in 4).

Definition join_function (e : env) : expr :=
  ELambda (lit "sep") join_body (capture e (lit "sep") join_body (Env [] None)).
Definition prompt_function (e : env) : expr :=
  ELambda (lit "cwd") prompt_body (capture e (lit "cwd") prompt_body (Env [] None)).
Definition incomplete_function (e : env) : expr :=
  ELambda (lit "cwd") incomplete_body (capture e (lit "cwd") incomplete_body (Env [] None)).

Lemma opening_new m : opening (init m).
Proof.
  intros x v I. destruct (init_parts m) as (w & a & b & math & ->). cbv zeta.
  rewrite (get_defines (fun kv => lit (fst kv)) snd). unfold define_all.
  rewrite (get_defines fst snd), env_get_define, (get_defines fst snd).
  unfold opening_names in I. revert I.
  generalize (define_dirs m), log_module, dict_module, (shell_module m), err_module, (os_module m),
    time_module, rand_module, fn_module, console_module, fmt_module, parse_module, string_module,
    list_module, sys_module.
  intros. cbn [In] in I.
  repeat (destruct I as [I | I]; [injection I as <- <-; vm_compute; reflexivity |]).
  contradiction.
Qed.

Lemma opening_all e : opening e ->
  fold_right (fun p P => env_get (fst p) e = Some (snd p) /\ P) True opening_names.
Proof.
  unfold opening. induction opening_names as [| [x v] l IH]; intros S; cbn; [exact I |].
  split; [apply S; now left | apply IH; intros; apply S; now right].
Qed.

Ltac known S :=
  let A := fresh in
  pose proof (opening_all _ S) as A;
  lazy beta iota zeta delta [fold_right opening_names fst snd] in A;
  repeat match type of A with _ /\ _ => let B := fresh "KNOWN" in destruct A as [B A] end; clear A.

Definition styled (code t : str) : str := ESC ++ lit "[" ++ code ++ lit "m" ++ t ++ RESET.

Lemma run_styled H d f code nm a s s0 v s1 :
  (d <= MAX_DEPTH)%N -> evaluates H (d + 1) f s (ROk (EBuiltin (Bi (TStyle code) nm))) s0 ->
  evaluates H 0 a s0 (ROk v) s1 ->
  evaluates H d (EApply f [a]) s (ROk (EString (styled code (display H v)))) s1.
Proof.
  intros D F A. eapply run_builtin_call; [exact D | exact F |]. cbn [b_id].
  call. unfold run_style. eapply sure_ev_arg; [reflexivity | exact A |]. apply sure_ret.
Qed.

Lemma run_at_names H d f a x y s s0 v s1 r :
  (d <= MAX_DEPTH)%N -> evaluates H (d + 1) f s (ROk (bi BIndex "@")) s0 ->
  evaluates H 0 a s0 (ROk v) s1 -> expr_index (expr_index v (ESymbol x)) (ESymbol y) = r ->
  evaluates H d (EApply f [a; ESymbol x; ESymbol y]) s (ROk r) s1.
Proof.
  intros D F A <-. eapply run_builtin_call; [exact D | exact F |]. cbn [b_id].
  call. unfold run_index. eapply sure_ev_arg; [reflexivity | exact A |].
  cbn [tl foldM]. apply sure_const. reflexivity.
Qed.

Ltac run_special ::=
  lazymatch goal with
  | |- evaluates _ _ (EApply _ [_; ESymbol _; ESymbol _]) _ _ _ =>
      eapply run_at_names; [run_depth | solve [run] | run | vm_compute; reflexivity]
  | |- _ => eapply run_styled; [run_depth | solve [run] | run]
  end.

Lemma prompt_run H d f a s t e s0 s1 :
  opening e -> (d + 20 <= MAX_DEPTH)%N ->
  evaluates H (d + 1) f s (ROk (prompt_function e)) s0 ->
  evaluates H (d + 1) a s0 (ROk (EString t)) s1 ->
  evaluates H d (EApply f [a]) s
    (ROk (EString (styled (lit "1") (styled (lit "34") (lit "(dune) ")
                                     ++ styled (lit "1") (styled (lit "32") t)
                                     ++ styled (lit "1") (styled (lit "34") (lit "$ ")))))) s1.
Proof.
  intros S L EF EA. eapply run_exact; [eapply run_call; [lia | exact EF | exact EA |] | |].
  - known S. unfold prompt_body at 1. run.
  - cbn. reflexivity.
  - now destruct s1.
Qed.

(** ** The prompt of further lines *)

Lemma run_short_len H d f a s s0 t s1 :
  (d <= MAX_DEPTH)%N -> evaluates H (d + 1) f s (ROk (bi BLen "len")) s0 ->
  evaluates H 0 a s0 (ROk (EString t)) s1 -> (Z.of_nat (length t) < 2 ^ 62)%Z ->
  evaluates H d (EApply f [a]) s (ROk (EInteger (Z.of_nat (length t)))) s1.
Proof.
  intros D F A L. eapply run_exact; [eapply run_builtin_call; [exact D | exact F |] | |].
  - cbn [b_id]. eapply run_len_of_text. exact A.
  - f_equal. apply CalendarRun.as_int_small. unfold fits. lia.
  - reflexivity.
Qed.

Lemma blanks_left n : (0 <= n < 2 ^ 63)%Z ->
  expr_mul (EInteger n) (EString [32%N]) = inl (EString (repeat 32%N (Z.to_nat n))).
Proof. exact (CalendarRun.blanks n). Qed.

Ltac run_special ::=
  lazymatch goal with
  | |- evaluates _ _ (EApply _ [_; ESymbol _; ESymbol _]) _ _ _ =>
      eapply run_at_names; [run_depth | solve [run] | run | vm_compute; reflexivity]
  | |- _ => first [ eapply run_styled; [run_depth | solve [run] | run]
                  | eapply run_short_len; [run_depth | solve [run] | run | cbn [length Z.of_nat]; try assumption; lia] ]
  end.

Ltac run_op ::=
  lazymatch goal with
  | |- pure_op expr_add (EInteger _) (EInteger _) = _ => apply add_ints; unfold fits, str, chr in *; cbn [length]; lia
  | |- expr_mul (EInteger _) (EString [32%N]) = _ => apply blanks_left; unfold str, chr in *; cbn [length]; lia
  | |- _ => reflexivity
  end.

Lemma incomplete_run H d f a s t e s0 s1 :
  opening e -> (d + 20 <= MAX_DEPTH)%N -> (Z.of_nat (length t) < 2 ^ 62)%Z ->
  evaluates H (d + 1) f s (ROk (incomplete_function e)) s0 ->
  evaluates H (d + 1) a s0 (ROk (EString t)) s1 ->
  evaluates H d (EApply f [a]) s
    (ROk (EString (repeat 32%N (length t + 7) ++ styled (lit "1") (styled (lit "33") (lit "> "))))) s1.
Proof.
  intros S L T EF EA. eapply run_exact; [eapply run_call; [lia | exact EF | exact EA |] | |].
  - known S. unfold incomplete_body at 1. run.
  - cbn [display length]. replace (Z.to_nat (Z.of_nat (length t) + Z.of_nat 7)) with (length t + 7) by lia.
    reflexivity.
  - now destruct s1.
Qed.

(** ** What is seen *)

Lemma shown_app a v b w : shown a v -> shown b w -> shown (a ++ b) (v ++ w).
Proof.
  intros A B. induction A as [|c t v C A IH|code t v D A IH]; [exact B| |].
  - cbn [List.app]. now constructor.
  - rewrite <- !app_assoc. now constructor.
Qed.

Lemma shown_plain t : ~ In 27%N t -> shown t t.
Proof.
  induction t as [|c t IH]; intros N; [constructor|]. constructor.
  - intros ->. apply N. now left.
  - apply IH. intros I. apply N. now right.
Qed.

Lemma shown_reset : shown RESET [].
Proof.
  apply (shown_code [] _ []); [constructor|]. apply (shown_code [48%N] [] []); [|constructor].
  constructor; [lia | constructor].
Qed.

Lemma shown_styled code t v : Forall (fun c => (48 <= c <= 57)%N) code -> shown t v ->
  shown (styled code t) v.
Proof.
  intros D T. apply (shown_code code (t ++ RESET) v D). rewrite <- (app_nil_r v).
  apply shown_app; [exact T | exact shown_reset].
Qed.

Lemma shown_spaces n t v : shown t v -> shown (repeat 32%N n ++ t) (repeat 32%N n ++ v).
Proof.
  intros T. apply shown_app; [|exact T]. apply shown_plain. intros I. apply repeat_spec in I. discriminate.
Qed.

Lemma prompt_shown t v : shown t v ->
  shown (styled (lit "1") (styled (lit "34") (lit "(dune) ")
                           ++ styled (lit "1") (styled (lit "32") t)
                           ++ styled (lit "1") (styled (lit "34") (lit "$ "))))
        (lit "(dune) " ++ v ++ lit "$ ").
Proof.
  intros T. apply shown_styled; [now repeat constructor|].
  apply shown_app; [|apply shown_app]; repeat (apply shown_styled; [now repeat constructor|]).
  - apply shown_plain. vm_compute. intuition discriminate.
  - exact T.
  - apply shown_plain. vm_compute. intuition discriminate.
Qed.

(** ** [join] *)

Definition line_body : expr :=
  Eval vm_compute in
    match join_body with
    | ELambda _ (EDo [_; EApply _ [EGroup (ELambda _ (ELambda _ b _) _); _; _]]) _ => b
    | _ => ENone
    end.

Definition step_function (e : env) : expr :=
  ELambda (lit "x") (ELambda (lit "y") line_body (Env [] None))
    (capture e (lit "x") (ELambda (lit "y") line_body (Env [] None)) (Env [] None)).

Lemma step_run H e c acc x s :
  env_get (lit "+") e = Some (bi BAdd "+") -> env_get (lit "str") e = Some (bi BStr "str") ->
  env_get (lit "sep") e = Some (EString c) ->
  (forall d s, (d <= 5)%N -> evaluates H d x s (ROk x) s) ->
  applies H (step_function e) [EString acc; x] s (ROk (EString (acc ++ c ++ display H x))) s.
Proof.
  intros P T C X. unfold applies.
  eapply run_exact; [eapply run_call_more; [run_depth | eapply run_lambda; run_depth | run | run |] | |].
  - run_state. eapply run_call; [run_depth | eapply run_lambda; run_depth | | ].
    + apply X. run_depth.
    + run_state. unfold line_body at 1. run.
  - cbn [expr_add]. now rewrite <- app_assoc.
  - now destruct s.
Qed.

Lemma joined H e c l : forall acc s,
  env_get (lit "+") e = Some (bi BAdd "+") -> env_get (lit "str") e = Some (bi BStr "str") ->
  env_get (lit "sep") e = Some (EString c) ->
  Forall (fun x => data x /\ (nesting x + 5 <= MAX_DEPTH)%N) l ->
  folds (fun acc x => applies H (step_function e) [acc; x]) (EString acc) l s
    (ROk (EString (separated c acc (map (display H) l)))) s.
Proof.
  induction l as [|x l IH]; intros acc s P T C F; [constructor|].
  inversion F as [|? ? [D L] F']; subst. econstructor.
  - apply step_run; [exact P | exact T | exact C |]. intros d t B.
    destruct (data_evaluates H x D d t) as (r & E & G & _). rewrite <- (G ltac:(lia)). exact E.
  - cbn [map separated]. 
    replace (acc ++ c ++ separated c (display H x) (map (display H) l))
      with (separated c (acc ++ c ++ display H x) (map (display H) l)); [now apply IH|].
    generalize (display H x) (map (display H) l). intros y ys. clear.
    destruct ys as [|z ys]; cbn [separated]; rewrite <- ?app_assoc; reflexivity.
Qed.

Lemma join_run H d f a b s sep x l e s0 s1 s2 :
  opening e -> (d + 20 <= MAX_DEPTH)%N ->
  Forall (fun x => data x /\ (nesting x + 5 <= MAX_DEPTH)%N) l ->
  evaluates H (d + 1) f s (ROk (join_function e)) s0 ->
  evaluates H (d + 1) a s0 (ROk sep) s1 -> evaluates H (d + 1 + 1) b s1 (ROk (EList (x :: l))) s2 ->
  evaluates H d (EApply f [a; b]) s
    (ROk (EString (separated (display H sep) (display H x) (map (display H) l)))) s2.
Proof.
  intros S L D EF EA EB.
  eapply run_exact; [eapply run_call_more; [lia | exact EF | exact EA | unfold join_body at 1; run |] | |].
  - known S. run_state. eapply run_call; [lia | eapply run_lambda; lia | | ].
    + replace (with_env (s_env s1) _) with s1 by (now destruct s1). exact EB.
    + run_state. run.
      eapply C38_reduce.
      * unfold gives. run. eapply C36_tail. unfold gives. run.
      * unfold gives. run.
      * unfold gives. run.
      * refine (joined H _ (display H sep) l _ _ _ _ _ D); run_state; run_lookup.
  - reflexivity.
  - now destruct s2.
Qed.

(** ** Starting up *)

(** The shell with the five definitions, made while the names they use had
    their first values. *)
Definition opened (e : env) : Prop :=
  exists e1 e2 e3, opening e1 /\ opening e2 /\ opening e3
    /\ env_get (lit "join") e = Some (join_function e1)
    /\ env_get (lit "prompt") e = Some (prompt_function e2)
    /\ env_get (lit "incomplete_prompt") e = Some (incomplete_function e3).

Lemma definition_run H source x v w s :
  parse_script (lit source) = SOk (EDo [EAssign x v]) ->
  evaluates H 2 v s (ROk w) s ->
  sure (fun n => run_text H n (lit source) ;;; ret tt) s (ROk tt) (with_var x w s).
Proof.
  intros P E. eapply sure_bind; [|apply sure_ret]. unfold run_text, parse_m. rewrite P.
  eapply sure_bind_const; [reflexivity|]. unfold ev. apply sure_ev.
  eapply run_do_one; [run_depth|]. eapply run_assign; [run_depth | exact E].
Qed.

Lemma opening_kept x v e : opening e -> existsb (fun p => str_eqb (fst p) x) opening_names = false ->
  opening (env_define x v e).
Proof. intros O N. exact (CalendarRun.names_kept opening_names x v e O N). Qed.

(** The definitions leave all other names alone, and cause nothing else. *)
Theorem C120_startup H s : opening (s_env s) ->
  exists e, lim (fun n => startup H n) s (ROk tt) (with_env e s) /\ opened e
    /\ forall x, ~ In x main_names -> env_get x e = env_get x (s_env s).
Proof.
  intros O. destruct s as [e0 tr lg]. cbn [s_env] in *. eexists. split; [|split].
  - apply sure_lim; [discriminate|]. unfold startup.
    apply (sure_foldM _ _ (fun n (_ : unit) source => run_text H n (lit source) ;;; ret tt)).
    unfold main_source.
    eapply fo_cons; [eapply definition_run; [apply (main_read_at 0); reflexivity | run]|].
    eapply fo_cons; [eapply definition_run; [apply (main_read_at 1); reflexivity | run]|].
    eapply fo_cons; [eapply definition_run; [apply (main_read_at 2); reflexivity | run]|].
    eapply fo_cons; [eapply definition_run; [apply (main_read_at 3); reflexivity | run]|].
    eapply fo_cons; [eapply definition_run; [apply (main_read_at 4); reflexivity | run]|].
    run_state. apply fo_nil.
  - do 3 eexists. split; [|split; [|split; [|split; [|split]]]].
    4:{ run_lookup. }
    4:{ run_lookup. }
    4:{ run_lookup. }
    1: do 2 (apply opening_kept; [|vm_compute; reflexivity]); exact O.
    1: do 3 (apply opening_kept; [|vm_compute; reflexivity]); exact O.
    do 4 (apply opening_kept; [|vm_compute; reflexivity]); exact O.
  - intros x N. cbn [s_env with_var with_env].
    assert (Q : forall y, In y main_names -> str_eqb x y = false).
    { intros y I. apply str_eqb_neq. intros ->. now apply N. }
    do 5 (rewrite env_get_define, Q by (vm_compute; tauto); cbn [s_env with_var with_env]). reflexivity.
Qed.
Print Assumptions C120_startup.

Theorem C120_new H m tr lg :
  exists e, lim (fun n => startup H n) (St (init m) tr lg) (ROk tt) (St e tr lg) /\ opened e.
Proof.
  destruct (C120_startup H (St (init m) tr lg) (opening_new m)) as (e & S & O & _).
  exists e. split; [exact S | exact O].
Qed.
Print Assumptions C120_new.

(** ** C120: the prompts *)

Lemma prompt_of H lines name s t :
  name = match lines with [] => lit "prompt" | _ => lit "incomplete_prompt" end ->
  evaluates H 0 (EApply (ESymbol name) [EString (env_get_cwd (s_env s))]) s (ROk (EString t)) s ->
  lim (fun n => prompt H n lines) s (ROk t) s.
Proof.
  intros -> [_ [n E]]. split; [discriminate|]. exists n. unfold prompt, ev, bind, get_env, catch.
  cbv beta iota zeta. rewrite E. reflexivity.
Qed.

(** The prompt reads "(dune) ", the working directory and "$ ", in colours; it
    has no effect. *)
Theorem C120_prompt H s v :
  opened (s_env s) -> shown (env_get_cwd (s_env s)) v ->
  exists t, lim (fun n => prompt H n []) s (ROk t) s /\ shown t (lit "(dune) " ++ v ++ lit "$ ").
Proof.
  intros (e1 & e2 & e3 & O1 & O2 & O3 & _ & P & _) V. eexists. split; [|apply prompt_shown; exact V].
  eapply prompt_of; [reflexivity|]. eapply prompt_run; [exact O2 | run_depth | | ].
  - eapply run_symbol; [run_depth | exact P].
  - apply run_value; [run_depth | exact I].
Qed.
Print Assumptions C120_prompt.

(** The prompt of further lines is as long as the first one, and shows spaces
    and "> " at its end. *)
Theorem C120_incomplete H s line lines :
  opened (s_env s) -> (Z.of_nat (length (env_get_cwd (s_env s))) < 2 ^ 62)%Z ->
  exists t, lim (fun n => prompt H n (line :: lines)) s (ROk t) s
    /\ shown t (repeat 32%N (length (lit "(dune) " ++ env_get_cwd (s_env s))) ++ lit "> ").
Proof.
  intros (e1 & e2 & e3 & O1 & O2 & O3 & _ & _ & P) V. eexists. split.
  - eapply prompt_of; [reflexivity|]. eapply incomplete_run; [exact O3 | run_depth | exact V | | ].
    + eapply run_symbol; [run_depth | exact P].
    + apply run_value; [run_depth | exact I].
  - replace (length (lit "(dune) " ++ env_get_cwd (s_env s))) with (length (env_get_cwd (s_env s)) + 7)
      by (rewrite app_length; change (length (lit "(dune) ")) with 7; lia).
    apply shown_spaces. repeat (apply shown_styled; [now repeat constructor|]).
    apply shown_plain. vm_compute. intuition discriminate.
Qed.
Print Assumptions C120_incomplete.

(** What a text with colour codes looks like is determined by it. *)
Lemma code_end a b t u : Forall (fun c => (48 <= c <= 57)%N) a -> Forall (fun c => (48 <= c <= 57)%N) b ->
  a ++ [109%N] ++ t = b ++ [109%N] ++ u -> a = b /\ t = u.
Proof.
  intros A. revert b. induction A as [|c a C A IH]; intros b B E.
  - destruct B as [|d b D B]; cbn in E; [now injection E as ->|]. injection E as <- _. lia.
  - destruct B as [|d b D B]; cbn in E; [injection E as -> _; lia|]. injection E as -> E.
    destruct (IH b B E) as [-> ->]. now split.
Qed.

Theorem C120_shown_unique t v w : shown t v -> shown t w -> v = w.
Proof.
  intros V. revert w. induction V as [|c t v C V IH|code t v D V IH]; intros w W.
  - now inversion W.
  - inversion W as [|c' t' w' C' W' E|code' t' w' D' W' E]; subst; [f_equal; now apply IH | now destruct C].
  - inversion W as [|c' t' w' C' W' E|code' t' w' D' W' E]; subst; [now destruct C'|].
    apply IH. apply (code_end code' code) in E; [|exact D'|exact D].
    destruct E as [_ <-]. exact W'.
Qed.
Print Assumptions C120_shown_unique.

(** ** C121: join *)

(** [join sep l] puts the text of the separator between the texts of the items. *)
Theorem C121_join H d a b s sep x l s1 s2 :
  opened (s_env s) -> (d + 20 <= MAX_DEPTH)%N ->
  evaluates H (d + 1) a s (ROk sep) s1 -> evaluates H (d + 2) b s1 (ROk (EList (x :: l))) s2 ->
  Forall (fun x => data x /\ (nesting x + 5 <= MAX_DEPTH)%N) l ->
  evaluates H d (EApply (ESymbol (lit "join")) [a; b]) s
    (ROk (EString (separated (display H sep) (display H x) (map (display H) l)))) s2.
Proof.
  intros (e1 & e2 & e3 & O1 & O2 & O3 & J & _ & _) D A B F.
  eapply join_run; [exact O1 | exact D | exact F | | exact A | now rewrite <- N.add_assoc].
  eapply run_symbol; [lia | exact J].
Qed.
Print Assumptions C121_join.

(** Joining an empty list gives the text "None" and not the empty text. *)
Theorem C121_empty_refuted H d a b s sep s1 s2 :
  opened (s_env s) -> (d + 20 <= MAX_DEPTH)%N ->
  evaluates H (d + 1) a s (ROk sep) s1 -> evaluates H (d + 2) b s1 (ROk (EList [])) s2 ->
  evaluates H d (EApply (ESymbol (lit "join")) [a; b]) s (ROk (EString (lit "None"))) s2.
Proof.
  intros (e1 & e2 & e3 & S & _ & _ & J & _ & _) D EA EB.
  eapply run_exact; [eapply run_call_more; [lia | eapply run_symbol; [lia | exact J] | exact EA
    | unfold join_body at 1; run |] | |].
  - known S. run_state. eapply run_call; [lia | eapply run_lambda; lia | | ].
    + replace (with_env (s_env s1) _) with s1 by (now destruct s1). rewrite <- N.add_assoc. exact EB.
    + run_state. run. eapply C38_reduce.
      * unfold gives. run. call. unfold run_tail. cbn [require_len].
        eapply sure_bind_const; [reflexivity|]. eapply sure_ev_arg; [reflexivity | run | apply sure_ret].
      * unfold gives. run.
      * unfold gives. run.
      * constructor.
  - reflexivity.
  - now destruct s2.
Qed.
Print Assumptions C121_empty_refuted.

(** ** Cases *)

Definition opened_demo : st :=
  match startup demo_host 200 demo with (_, s) => s end.

Example C120_case : opening demo_env /\ fst (startup demo_host 200 demo) = ROk tt.
Proof. split; [apply opening_new | vm_compute; reflexivity]. Qed.

Example C120_case_prompt :
  match prompt demo_host 200 [] opened_demo with
  | (ROk t, _) => strip_ansi t = lit "(dune) " ++ env_get_cwd (s_env opened_demo) ++ lit "$ "
  | _ => False
  end
  /\ match prompt demo_host 200 [lit "let x ="] opened_demo with
     | (ROk t, _) => strip_ansi t = repeat 32%N (7 + length (env_get_cwd (s_env opened_demo))) ++ lit "> "
     | _ => False
     end.
Proof. split; vm_compute; reflexivity. Qed.

Example C121_case :
  fst (eval demo_host 200 0 (script "join 0 [1, True, 2]") opened_demo) = ROk (EString (lit "10True02"))
  /\ fst (eval demo_host 200 0 (script "join 0 []") opened_demo) = ROk (EString (lit "None"))
  /\ Forall (fun x => data x /\ (nesting x + 5 <= MAX_DEPTH)%N) [EBoolean true; EString (lit "x")].
Proof.
  split; [vm_compute; reflexivity|]. split; [vm_compute; reflexivity|].
  repeat constructor; discriminate.
Qed.
