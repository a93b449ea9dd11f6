(** C60, C61, C62: scripts given on the command line, and how values are shown. *)

From Coq Require Import String List Lia Floats.SpecFloat.
From Verif Require Import Base Syntax Host Ops Parser Monad ErrorFmt Builtins Eval
  Init EvalSpec MapFacts Demo Repl ReplSpec P_ErrShow CrashFacts.
Import ListNotations.

(** The status the operating system sees: 0 when [main] returns [Ok], 1 when it
    returns [Err], 101 after a panic. *)
Definition status {A} (r : res A) : option Z :=
  match r with
  | ROk _ => Some 0%Z
  | RErr _ => Some 1%Z
  | RPanic _ => Some 101%Z
  | RExit c => Some c
  | RFuel => None
  end.

(** [demo_host] with a file of the given contents. *)
Definition file_host (text : str) : host :=
  with_answer
    (fun t rq => match rq with RqRead _ => RsOutput (utf8_bytes text) | _ => demo_answer t rq end)
    demo_host.

(** ** C60 *)

(** The state after a file was read. *)
Definition having_read (H : host) (path : str) (s : st) : st :=
  let rq := RqRead path in
  St (s_env s) ((rq, h_answer H (s_trace s) rq) :: s_trace s) (s_log s).

(** [dune FILE]: when the file is a text that parses, the shell ends with the
    state of one evaluation of its expression, started right after the
    definitions of [main], and with the status 0 even if that failed.  The
    messages are those that can be shown. *)
Theorem C60_file_runs_once_partial H n path home keys intro default s s1 b text e r s2 :
  startup H n s = (ROk tt, s1) ->
  h_answer H (s_trace s1) (RqRead path) = RsOutput b -> from_utf8 b = Some text ->
  accepted text e ->
  eval H n 0 e (having_read H path s1) = (r, s2) ->
  (forall err, r = RErr err -> exists m, error_display H err = inl m) ->
  exists r', main H n intro default (Some path) None false home keys s = (r', s2)
    /\ match r with
       | ROk _ | RErr _ => status r' = Some 0%Z
       | _ => status r' = status r
       end.
Proof.
  intros ST RD U A E D.
  assert (X : main H n intro default (Some path) None false home keys s
              = or_report H (run_path H n path) s1).
  { unfold main. unfold bind at 1. rewrite ST. cbn [negb].
    unfold bind. destruct (or_report H (run_path H n path) s1) as [[[] | | | |] s3]; reflexivity. }
  rewrite X. clear X.
  assert (P : run_path H n path s1 = (r, s2)).
  { unfold run_path, read_to_string, bind, ask. rewrite RD, U. cbn [ret].
    unfold having_read in E. rewrite RD in E.
    unfold run_text, parse_m. unfold accepted in A. rewrite A. unfold bind. cbn [ret].
    unfold ev. rewrite E. now destruct r. }
  unfold or_report, attempt, catch, bind. rewrite P.
  destruct r as [v | err | p | c |]; cbn [ret]; try (eexists; split; [reflexivity | reflexivity]).
  destruct (D err eq_refl) as [m M]. unfold eprint. rewrite M. cbn.
  eexists; split; reflexivity.
Qed.

(** A script with a syntax error: nothing of it is evaluated, and the status is
    0 again. *)
Theorem C60_syntax_error_partial H n path home keys intro default s s1 b text err m :
  startup H n s = (ROk tt, s1) ->
  h_answer H (s_trace s1) (RqRead path) = RsOutput b -> from_utf8 b = Some text ->
  rejected text err -> error_display H (SyntaxErr text err) = inl m ->
  main H n intro default (Some path) None false home keys s = (ROk tt, having_read H path s1).
Proof.
  intros ST RD U A M. unfold main. unfold bind at 1. rewrite ST. cbn [negb].
  assert (P : run_path H n path s1 = (RErr (SyntaxErr text err), having_read H path s1)).
  { unfold run_path, read_to_string, bind, ask, having_read. rewrite RD, U. cbn [ret].
    unfold run_text, parse_m. destruct A as [-> | ->]; reflexivity. }
  unfold or_report, attempt, catch, bind. rewrite P. cbn [ret]. unfold eprint. now rewrite M.
Qed.

(** Built without overflow checks every message can be shown: then nothing has
    to be assumed of the messages. *)
Theorem C60_file_runs_once H n path home keys intro default s s1 b text e r s2 :
  h_overflow H = OvfWrap ->
  startup H n s = (ROk tt, s1) ->
  h_answer H (s_trace s1) (RqRead path) = RsOutput b -> from_utf8 b = Some text ->
  accepted text e ->
  eval H n 0 e (having_read H path s1) = (r, s2) ->
  exists r', main H n intro default (Some path) None false home keys s = (r', s2)
    /\ match r with
       | ROk _ | RErr _ => status r' = Some 0%Z
       | _ => status r' = status r
       end.
Proof.
  intros W ST RD U A E. apply (C60_file_runs_once_partial H n path home keys intro default s s1 b text e r s2); auto.
  intros err X. subst r. pose proof (eval_error H n 0 e _ err s2 E) as O.
  destruct err; try (eexists; reflexivity). exact (C103_shown H _ _ W O).
Qed.

Theorem C60_syntax_error H n path home keys intro default s s1 b text err :
  h_overflow H = OvfWrap ->
  startup H n s = (ROk tt, s1) ->
  h_answer H (s_trace s1) (RqRead path) = RsOutput b -> from_utf8 b = Some text ->
  rejected text err ->
  main H n intro default (Some path) None false home keys s = (ROk tt, having_read H path s1).
Proof.
  intros W ST RD U A. destruct (C103_shown H text err W A) as [m M].
  exact (C60_syntax_error_partial H n path home keys intro default s s1 b text err m ST RD U A M).
Qed.

(** So the status does not say whether the script ran: here the file does not
    parse, and there its evaluation fails, and the status is 0. *)
Theorem C60_status_refuted :
  exists n text path,
    (exists err, rejected text err)
    /\ status (fst (main (file_host text) n [] [] (Some path) None false None [] demo)) = Some 0%Z.
Proof.
  exists 200%nat, (lit "echo {"), (lit "script").
  split.
  - destruct (parse_script (lit "echo {")) eqn:E; vm_compute in E; try discriminate E.
    eexists. right. exact E.
  - vm_compute. reflexivity.
Qed.

Theorem C60_evaluation_status_refuted :
  exists n text path e err,
    let H := file_host text in
    accepted text e
    /\ fst (startup H n demo) = ROk tt
    /\ fst (eval H n 0 e (having_read H path (snd (startup H n demo)))) = RErr err
    /\ status (fst (main H n [] [] (Some path) None false None [] demo)) = Some 0%Z.
Proof.
  exists 200%nat, (lit "for x in 1 {x}"), (lit "script"),
    (script "for x in 1 {x}"), (ForNonList (EInteger 1)).
  intros H. split; [vm_compute; reflexivity |]. split; [vm_compute; reflexivity |].
  split; vm_compute; reflexivity.
Qed.

(** The hypotheses of the two partial theorems for a script that prints. *)
Example C60_example :
  let H := file_host (lit "let a = 2; echo (a * 3)") in
  let r := main H 200 [] [] (Some (lit "script")) None false None [] demo in
  fst r = ROk tt
  /\ map fst (s_trace (snd r)) = [RqPrint (lit "6" ++ [10%N]); RqRead (lit "script")]
  /\ fst (startup H 200 demo) = ROk tt
  /\ from_utf8 (utf8_bytes (lit "let a = 2; echo (a * 3)")) = Some (lit "let a = 2; echo (a * 3)").
Proof. vm_compute. repeat split. Qed.

(** ** C61 *)

(** [dune -x TEXT] evaluates the expression once and then a call of [report] on
    the value: the value is evaluated a second time. *)
Theorem C61_exec_partial H n words home keys intro default s s1 e v s2 r s3 :
  startup H n s = (ROk tt, s1) ->
  accepted (join [32%N] words) e ->
  eval H n 0 e s1 = (ROk v, s2) ->
  eval H n 0 (EApply (ESymbol (lit "report")) [v]) s2 = (r, s3) ->
  exists r', main H n intro default None (Some words) false home keys s = (r', s3)
    /\ status r' = status r.
Proof.
  intros ST A E R. unfold main. unfold bind at 1. rewrite ST. cbn [negb].
  unfold bind at 1. cbn [ret]. unfold bind at 1.
  unfold bind at 1. unfold attempt, catch, bind at 1. unfold run_text, parse_m.
  unfold accepted in A. rewrite A. unfold bind at 1. cbn [ret]. unfold ev. rewrite E.
  cbn [ret]. unfold bind. rewrite R. destruct r; eexists; split; reflexivity.
Qed.

(** With the builtin [report], a value that evaluates to itself is shown once,
    on a line of its own, and nothing else happens. *)
Lemma report_call H n b v s w :
  env_get (lit "report") (s_env s) = Some (EBuiltin b) -> b_id b = BReport ->
  eval H (S n) 0 v s = (ROk w, s) -> w <> ENone ->
  eval H (S (S n)) 0 (EApply (ESymbol (lit "report")) [v]) s =
  (ROk ENone, let rq := RqPrint (display H w ++ NL) in
              St (s_env s) ((rq, h_answer H (s_trace s) rq) :: s_trace s) (s_log s)).
Proof.
  intros G B E N. remember (S n) as m.
  change (eval H (S m) 0 (EApply (ESymbol (lit "report")) [v]) s)
    with ((g <- eval H m 1 (ESymbol (lit "report")) ;;
           apply_value H (eval H m 1) (eval H m 0) g (ESymbol (lit "report")) [v]) s).
  subst m. unfold bind at 1.
  change (eval H (S n) 1 (ESymbol (lit "report")) s)
    with (ROk (A := expr) match env_get (lit "report") (s_env s) with
                          | Some x => x | None => ESymbol (lit "report") end, s).
  rewrite G. unfold apply_value. rewrite B. cbn [run_builtin].
  unfold run_report, ev_arg, arg. cbn [nth_error]. unfold bind at 1 2. cbn [ret]. rewrite E.
  destruct w; try now destruct N. all: reflexivity.
Qed.

(** Whether the program [prog] was started. *)
Definition started (prog : str) (t : trace) : Prop :=
  exists c rs, In (RqStatus c, rs) t /\ c_prog c = prog.

Lemma started_check prog t :
  existsb (fun ev => match fst ev with RqStatus c => str_eqb (c_prog c) prog | _ => false end) t
    = true -> started prog t.
Proof.
  intros X. apply existsb_exists in X as ([rq rs] & I & E).
  destruct rq; try discriminate E. exists c, rs. split; [exact I |]. now apply str_eqb_eq.
Qed.

(** The double evaluation shows: evaluating this text does nothing but give a
    value, and yet [dune -x] runs the program [rm]. *)
Theorem C61_evaluated_twice_refuted :
  exists H n text e v,
    accepted text e
    /\ (let s1 := snd (startup H n demo) in
        fst (eval H n 0 e s1) = ROk v /\ s_trace (snd (eval H n 0 e s1)) = s_trace s1)
    /\ ~ started (lit "rm") (s_trace (snd (startup H n demo)))
    /\ started (lit "rm") (s_trace (snd (main H n [] [] None (Some [text]) false None [] demo))).
Proof.
  exists demo_host, 200%nat, (lit "'(rm x)"), (script "'(rm x)"),
    (EGroup (EApply (ESymbol (lit "rm")) [ESymbol (lit "x")])).
  split; [vm_compute; reflexivity |].
  split; [split; vm_compute; reflexivity |].
  split; [| apply started_check; vm_compute; reflexivity].
  replace (s_trace (snd (startup demo_host 200 demo))) with (@nil event)
    by (vm_compute; reflexivity).
  intros (c & rs & [] & _).
Qed.

(** An ordinary call. *)
Example C61_example :
  let r := main demo_host 200 [] [] None (Some [lit "1"; lit "+"; lit "2"]) false None [] demo in
  fst r = ROk tt /\ map fst (s_trace (snd r)) = [RqPrint (lit "3" ++ [10%N])].
Proof. vm_compute. split; reflexivity. Qed.

(** ** C62 *)

(** The interactive loop shows the value of an input on one line and does not
    evaluate it: whatever it is, unless it is a symbol, a macro or [None], and
    as long as [report] is the builtin. *)
Theorem C62_value_shown_once H n b v s :
  env_get (lit "report") (s_env s) = Some (EBuiltin b) -> b_id b = BReport ->
  (forall x, v <> ESymbol x) -> (forall x y, v <> EMacro x y) -> v <> ENone ->
  show_value H (S (S n)) v s =
  (ROk tt, let rq := RqPrint (display H v ++ [10%N]) in
           St (s_env s) ((rq, h_answer H (s_trace s) rq) :: s_trace s) (s_log s)).
Proof.
  intros G B NS NM NN.
  assert (X : show_value H (S (S n)) v s =
    catch (ev H (S (S n)) (EApply (ESymbol (lit "report")) [EQuote v]) ;;; ret tt)
          (fun _ => ret tt) s).
  { destruct v; try reflexivity; exfalso;
      first [now apply NN | eapply NS; reflexivity | eapply NM; reflexivity]. }
  rewrite X. unfold catch, bind, ev.
  rewrite (report_call H n b (EQuote v) s v G B); [reflexivity | reflexivity | exact NN].
Qed.

(** [None] is not shown. *)
Theorem C62_none H n s : show_value H n ENone s = (ROk tt, s).
Proof. reflexivity. Qed.

(** A value that is itself a call, and is not made. *)
Example C62_example :
  let r := (startup demo_host 200 ;;; repl demo_host 200 false [] [Typed (lit "'(rm x)")]) demo in
  map fst (s_trace (snd r)) = [RqPrint (lit "(rm x)" ++ [10%N])]
  /\ env_get (lit "report") (s_env demo) = Some (EBuiltin (Bi BReport (lit "report"))).
Proof. vm_compute. split; reflexivity. Qed.

Print Assumptions C60_file_runs_once_partial.
Print Assumptions C60_syntax_error_partial.
Print Assumptions C60_file_runs_once.
Print Assumptions C60_syntax_error.
Print Assumptions C60_status_refuted.
Print Assumptions C60_evaluation_status_refuted.
Print Assumptions C61_exec_partial.
Print Assumptions C61_evaluated_twice_refuted.
Print Assumptions C62_value_shown_once.
Print Assumptions C62_none.
