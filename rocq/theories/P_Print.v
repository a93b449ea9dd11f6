(** C93 to C95: printing, input, help. *)

From Coq Require Import String List Lia NArith.
From Verif Require Import Base Syntax Host Ops ErrorFmt Text Monad Builtins Eval EvalSpec
  LibFacts LibSpec MapFacts EvalFacts CmdFacts TextFacts SysSpec P_Sys P_Math PrintSpec Init Demo.
Import ListNotations.

(** ** C93: printing *)

Lemma run_print_sure H last args s r s' :
  printing H last args s r s' ->
  sure (fun n => bind (run_print H (eval H n 0) (display H) last args) (fun _ => ret ENone)) s r s'.
Proof.
  induction 1 as [s|a s v t s1 G S|a b l s v t s1 r s' G S P IH|a l s r r' s1 E F].
  - apply sure_const. reflexivity.
  - apply (proj1 (shown_display _ _ _)) in S. subst t. cbn [run_print].
    eapply sure_bind; [|apply sure_ret].
    eapply sure_bind; [apply sure_ev; exact G|]. cbv beta. apply sure_const. reflexivity.
  - apply (proj1 (shown_display _ _ _)) in S. subst t.
    destruct IH as [n0 IH]. destruct (sure_ev H 0 a s (ROk v) s1 G) as [n1 G1]. exists (n0 + n1).
    intros n L. specialize (IH n ltac:(lia)). specialize (G1 n ltac:(lia)).
    change (run_print H (eval H n 0) (display H) last (a :: b :: l)) with
      (x <- eval H n 0 a ;; print H (display H x ++ lit " ") ;;; run_print H (eval H n 0) (display H) last (b :: l)).
    unfold bind at 1 2. rewrite G1. exact IH.
  - destruct (sure_ev H 0 a s _ s1 E) as [n1 G1]. exists n1. intros n L. specialize (G1 n L).
    destruct l; cbn [run_print]; unfold bind; rewrite G1; destruct F; reflexivity.
Qed.

(** [print], [println] and [echo] evaluate and print their arguments one after
    the other. *)
Theorem C93_printing H b last args s r s' :
  In (b, last) [(BPrint, []); (BPrintln, [10%N]); (GEcho, [10%N])] ->
  printing H last args s r s' -> calls H b args s r s'.
Proof.
  intros I P. assert (N : r <> RFuel).
  { induction P; try discriminate; auto. destruct H1; discriminate. }
  apply sure_calls; [exact N|]. apply run_print_sure in P.
  repeat destruct I as [E|I]; [injection E as <- <-; exact P..|destruct I].
Qed.

(** The output is the texts of the arguments with a space between them. *)
Theorem C93_text H b last args ts s :
  In (b, last) [(BPrint, []); (BPrintln, [10%N]); (GEcho, [10%N])] ->
  Forall2 (fun a t => exists v, shown H v t /\ forall s0, gives H a s0 v s0) args ts -> args <> [] ->
  exists s', calls H b args s (ROk ENone) s' /\ writes H s (join [32%N] ts ++ last) s'.
Proof.
  intros I F NE.
  assert (X : exists s', printing H last args s (ROk ENone) s' /\ writes H s (join [32%N] ts ++ last) s').
  { clear I. revert s. induction F as [|a t args ts (v & S & G) F IH]; [congruence|]. intros s.
    destruct args as [|a2 args].
    - inversion F; subst. cbn [join]. eexists. split.
      + eapply printing_last; [apply G|exact S].
      + apply (writes_one H s).
    - destruct (IH ltac:(discriminate) (told H (RqPrint (t ++ [32%N])) s)) as (s' & P & W). exists s'. split.
      + eapply printing_more; [apply G|exact S|exact P].
      + destruct ts as [|t2 ts]; [inversion F|]. rewrite join_cons by discriminate.
        rewrite <- app_assoc, <- app_assoc, (app_assoc t). apply (writes_print H s). exact W. }
  destruct X as (s' & P & W). exists s'. split; [|exact W]. now apply (C93_printing H b last).
Qed.

(** Without arguments [println] prints nothing, not even a line feed; nor can
    it be called without arguments by its name. *)
Theorem C93_empty_refuted :
  (forall H s, calls H BPrintln [] s (ROk ENone) s)
  /\ effects_of "fn@apply println []" = [] /\ effects_of "println" = [].
Proof.
  split.
  - intros H s. apply (C93_printing H BPrintln [10%N]); [right; now left|constructor].
  - split; vm_compute; reflexivity.
Qed.

Example C93_example :
  effects_of "println 1 ""a b"" True" = map RqPrint [lit "1 "; lit "a b "; lit "True" ++ [10%N]]
  /\ effects_of "print 1 2" = map RqPrint [lit "1 "; lit "2"]
  /\ effects_of "println 1 (math@fact (-1)) 2" = [RqPrint (lit "1 ")]
  /\ value_of "println 1 (math@fact (-1)) 2"
     = RErr (CustomError (lit "cannot take the factorial of a negative number"))
  /\ printing demo_host [10%N] [EInteger 1] demo (ROk ENone)
       (told demo_host (RqPrint (lit "1" ++ [10%N])) demo).
Proof.
  do 4 (split; [vm_compute; reflexivity|]).
  eapply printing_last; [apply value_evaluates, value_int | now apply shown_display].
Qed.

(** ** C94: input *)

(** [input] shows the arguments, separated by spaces, and gives the line that is
    typed, an empty text when the user interrupts; at the end of the input the
    shell ends. *)
Theorem C94_input H args s vs ts s' :
  evaluates_all H 0 args s (ROk vs) s' -> Forall2 (shown H) vs ts ->
  let rq := RqInput (join [32%N] ts) in
  (forall line, h_answer H (s_trace s') rq = RsText line ->
     calls H BInput args s (ROk (EString line)) (told H rq s'))
  /\ (h_answer H (s_trace s') rq = RsInterrupt -> calls H BInput args s (ROk (EString [])) (told H rq s'))
  /\ (h_answer H (s_trace s') rq = RsEnd -> calls H BInput args s (RExit 0) (told H rq s')).
Proof.
  intros E F rq.
  assert (D : map (display H) vs = ts).
  { clear E rq. induction F as [|v t vs ts S F IH]; [reflexivity|]. apply (proj1 (shown_display _ _ _)) in S.
    cbn [map]. now rewrite IH, <- S. }
  assert (X : sure (fun n => mapM (eval H n 0) args) s (ROk vs) s').
  { apply lim_sure; [apply mono_all|now apply lim_mapM_eval]. }
  split; [|split].
  - intros line A. call. unfold run_input. eapply sure_bind; [exact X|]. cbv beta. rewrite D.
    change (RqInput (join (lit " ") ts)) with rq. apply sure_ask. rewrite A. apply sure_ret.
  - intros A. call. unfold run_input. eapply sure_bind; [exact X|]. cbv beta. rewrite D.
    change (RqInput (join (lit " ") ts)) with rq. apply sure_ask. rewrite A. apply sure_ret.
  - intros A. call. unfold run_input. eapply sure_bind; [exact X|]. cbv beta. rewrite D.
    change (RqInput (join (lit " ") ts)) with rq. apply sure_ask. rewrite A. apply sure_const. reflexivity.
Qed.

(** The prompt is complete only if every argument can be evaluated: otherwise
    nothing is asked. *)
Theorem C94_fails H args s r r' s' :
  evaluates_all H 0 args s r s' -> fails r r' -> calls H BInput args s r' s'.
Proof.
  intros E F.
  assert (X : sure (fun n => mapM (eval H n 0) args) s r s')
    by (apply lim_sure; [apply mono_all|now apply lim_mapM_eval]).
  apply sure_calls; [destruct F; discriminate|]. cbn [run_builtin]. unfold run_input.
  eapply sure_bind_fails; [exact X|exact F].
Qed.

(** [read-line] and [read-password] give the text that is read, and crash when
    there is none to read. *)
Theorem C94_read H b rq args s :
  In (b, rq) [(CReadLine, RqReadLine); (CReadPassword, RqReadPassword)] ->
  (forall t, h_answer H (s_trace s) rq = RsText t -> calls H b args s (ROk (EString t)) (told H rq s))
  /\ ((forall t, h_answer H (s_trace s) rq <> RsText t) -> exists e, calls H b args s (RPanic e) (told H rq s)).
Proof.
  intros I. repeat destruct I as [E|I]; [injection E as <- <-..|destruct I];
    (split; [intros t A|intros A; exists PUnwrap]); call; unfold run_read_text; apply sure_ask;
    [rewrite A; apply sure_ret
    |destruct (h_answer H (s_trace s) RqReadLine) eqn:X; try (apply sure_const; reflexivity); now destruct (A s0)
    |rewrite A; apply sure_ret
    |destruct (h_answer H (s_trace s) RqReadPassword) eqn:X; try (apply sure_const; reflexivity); now destruct (A s0)].
Qed.

(** The end of the input is no error of [input] that a script could see. *)
Example C94_example :
  effects_of "input ""name:"" 1" = [RqInput (lit "name: 1")].
Proof. vm_compute. reflexivity. Qed.

(** ** C95: help *)

Lemma topic_decides x : existsb (str_eqb x) topics = true <-> In x topics.
Proof.
  rewrite existsb_exists. split.
  - intros (y & I & E). apply str_eqb_eq in E. now subst.
  - intros I. exists x. split; [exact I|]. now apply str_eqb_eq.
Qed.

Lemma not_topic (a : expr) : ~ is_topic a ->
  match a with ESymbol x => existsb (str_eqb x) topics | _ => false end = false.
Proof.
  intros N. destruct a; try reflexivity. apply Bool.not_true_is_false. intros T. apply N.
  eexists. split; [reflexivity|]. now apply topic_decides.
Qed.

Theorem C95_help H args s r s' : explaining H args s r s' -> calls H BHelp args s r s'.
Proof.
  intros P. assert (N : r <> RFuel).
  { induction P; try discriminate; auto. destruct H2; discriminate. }
  apply sure_calls; [exact N|]. cbn [run_builtin]. clear N.
  induction P as [s|x l s r s' I P IH|a l s b s1 r s' T G P IH|a l s v s1 r s' T G B P IH|a l s r r' s1 T E F].
  - apply sure_ret.
  - destruct IH as [n0 IH]. exists n0. intros n L. cbn [run_help]. fold topics.
    rewrite (proj2 (topic_decides x) I). apply (IH n L).
  - destruct IH as [n0 IH]. destruct (sure_ev H 0 a s _ s1 G) as [n1 G1]. exists (n0 + n1).
    intros n L. specialize (IH n ltac:(lia)). specialize (G1 n ltac:(lia)).
    cbn [run_help]. fold topics. rewrite (not_topic a T). unfold bind at 1 2. rewrite G1. exact IH.
  - destruct IH as [n0 IH]. destruct (sure_ev H 0 a s _ s1 G) as [n1 G1]. exists (n0 + n1).
    intros n L. specialize (IH n ltac:(lia)). specialize (G1 n ltac:(lia)).
    cbn [run_help]. fold topics. rewrite (not_topic a T). unfold bind at 1 2. rewrite G1.
    destruct v; try exact IH. now destruct (B b).
  - destruct (sure_ev H 0 a s _ s1 E) as [n1 G1]. exists n1. intros n L. specialize (G1 n L).
    cbn [run_help]. fold topics. rewrite (not_topic a T). unfold bind at 1 2. rewrite G1.
    destruct F; reflexivity.
Qed.

(** Not every function of the library is explained: those written in the
    language itself and the modules print nothing.  The name of a topic hides a
    builtin of that name. *)
Theorem C95_everything_refuted :
  (exists x body env, value_of "math@max" = ROk (ELambda x body env))
  /\ effects_of "help math@max" = [] /\ value_of "help math@max" = ROk ENone
  /\ effects_of "help fs" = []
  /\ effects_of "let lib = math@sin; help lib" = [RqHelp (lit "lib")]
  /\ effects_of "help math@sin" = [RqHelp (lit "sin")].
Proof.
  split; [do 3 eexists; vm_compute; reflexivity|]. repeat split; vm_compute; reflexivity.
Qed.

Example C95_example :
  effects_of "help me println 5 nothing types" = map RqHelp [lit "me"; lit "println"; lit "types"].
Proof. vm_compute. reflexivity. Qed.

Print Assumptions C93_printing.
Print Assumptions C93_text.
Print Assumptions C93_empty_refuted.
Print Assumptions C94_input.
Print Assumptions C94_fails.
Print Assumptions C94_read.
Print Assumptions C95_help.
Print Assumptions C95_everything_refuted.
