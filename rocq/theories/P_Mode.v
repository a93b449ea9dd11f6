(** C113, C114: modes and size of the terminal; texts of values, wrapping, and
    real paths. *)

From Coq Require Import String List Lia ZArith.
From Verif Require Import Base Syntax Host Ops ErrorFmt Text Monad Builtins Eval EvalSpec
  LibFacts LibSpec MapFacts EvalFacts CmdFacts TextFacts SysSpec P_Sys P_Math TermSpec P_Term ModeSpec Init Demo.
Import ListNotations.

(** ** C113: the terminal *)

Lemma sure_told B H rq (k : nat -> response -> M B) s r s' :
  sure (fun n => k n (h_answer H (s_trace s) rq)) (told H rq s) r s' ->
  sure (fun n => bind (ask H rq) (k n)) s r s'.
Proof. intros K. now apply (sure_bind_const _ _ _ _ s (h_answer H (s_trace s) rq) (told H rq s)). Qed.

(** The functions of the terminal that take no arguments, with what they do. *)
Inductive fixed : str -> bid -> (terminal -> terminal) -> Prop :=
| fixed_save : fixed (lit "save-position") (CFixed (lit "[s")) save_cursor
| fixed_restore : fixed (lit "restore-position") (CFixed (lit "[u")) restore_cursor
| fixed_hide : fixed (lit "hide") (CFixed (lit "[?25l")) (show_cursor false)
| fixed_show : fixed (lit "show") (CFixed (lit "[?25h")) (show_cursor true)
| fixed_alternate : fixed (lit "alternate") (CFixed (lit "[?1049h")) enter_alternate
| fixed_normal : fixed (lit "normal") (CFixed (lit "[?1049l")) leave_alternate.

Lemma fixed_calls H t args s :
  calls H (CFixed t) args s (ROk ENone) (told H (RqPrint (27%N :: t)) s).
Proof. call. unfold run_fixed, print. eapply sure_bind_const; [reflexivity|]. apply sure_ret. Qed.

(** They print the sequence for what their names say, and do not evaluate their
    arguments. *)
Theorem C113_fixed H name b f args s :
  fixed name b f ->
  exists t s', calls H b args s (ROk ENone) s' /\ writes H s t s' /\ forall d, obeys t d (f d).
Proof.
  intros F. destruct F; do 2 eexists; (split; [apply fixed_calls|]);
    (split; [apply writes_one|]); intros d.
  - apply (obeys_text _ d), reads_save, reads_end.
  - apply (obeys_text _ d), reads_restore, reads_end.
  - apply (obeys_hide d).
  - apply (obeys_show d).
  - apply (obeys_enter d).
  - apply (obeys_leave d).
Qed.

(** These are the functions in the library. *)
Theorem C113_library name b f : fixed name b f ->
  exists where_ m, In where_ [lit "mode"; lit "cursor"]
    /\ bm_get where_ console_module = Some (EMap m) /\ bm_get name m = Some (EBuiltin (Bi b name)).
Proof.
  intros F. destruct F;
    first [exists (lit "mode"); eexists; split; [now left|]; split; reflexivity
          |exists (lit "cursor"); eexists; split; [right; now left|]; split; reflexivity].
Qed.

(** Saving and restoring bring the cursor back, whatever was written between
    them unless it saved another place. *)
Theorem C113_cursor d d1 : saved (current d1) = cursor (current d) ->
  cursor (current (restore_cursor d1)) = cursor (current d).
Proof.
  intros E. unfold restore_cursor, current, set_current in *. cbv zeta.
  destruct (alternate d1); cbn in *; exact E.
Qed.

(** Whatever is written between [alternate] and [normal], afterwards the normal
    screen and its cursor are as before. *)
Theorem C113_alternate d l d1 :
  alternate d = None -> obeys_all l (enter_alternate d) d1 ->
  Forall (fun t => t <> csi (lit "?1049l")) l ->
  cell (current (leave_alternate d1)) = cell (current d)
  /\ cursor (current (leave_alternate d1)) = cursor (current d).
Proof.
  intros N O F.
  assert (K : forall l x y, obeys_all l x y -> Forall (fun t => t <> csi (lit "?1049l")) l ->
                alternate x <> None -> alternate y <> None /\ normal y = normal x).
  { clear. intros l x y O. induction O as [x|t l x y z OB OS IH]; intros F A; [now split|].
    inversion F as [|? ? NT F']; subst.
    assert (Y : alternate y <> None /\ normal y = normal x).
    { destruct OB as [t d c R|d|d|d|d]; unfold set_current, show_cursor, enter_alternate;
        destruct (alternate d) eqn:E; cbn; try congruence; try (split; congruence). }
    destruct (IH F' (proj1 Y)) as [A' B']. split; [exact A'|]. rewrite B'. apply Y. }
  assert (E : alternate (enter_alternate d) <> None) by (unfold enter_alternate; rewrite N; discriminate).
  destruct (K l _ _ O F E) as [A NO]. unfold leave_alternate, current at 1 3.
  destruct (alternate d1) as [c|]; [|congruence]. cbn [alternate]. rewrite NO.
  unfold enter_alternate, current. rewrite N. now split.
Qed.

(** [width] and [height] give the size of the terminal, or nothing when there is
    none; [flush], [raw] and [cooked] do what they ask for.  None of them
    evaluates its arguments. *)
Theorem C113_size H args s :
  let s' := told H RqSize s in
  (forall w h, h_answer H (s_trace s) RqSize = RsSize w h -> (w < 2 ^ 16)%N -> (h < 2 ^ 16)%N ->
     calls H CWidth args s (ROk (EInteger (Z.of_N w))) s'
     /\ calls H CHeight args s (ROk (EInteger (Z.of_N h))) s')
  /\ ((forall w h, h_answer H (s_trace s) RqSize <> RsSize w h) ->
     calls H CWidth args s (ROk ENone) s' /\ calls H CHeight args s (ROk ENone) s').
Proof.
  intros s'.
  assert (I : forall w, (w < 2 ^ 16)%N -> as_int (Z.of_N w) = Z.of_N w).
  { intros w L. unfold as_int, wrap64. rewrite Z.mod_small by lia. lia. }
  split.
  - intros w h E W X. split; (call; unfold run_size; apply sure_told; fold s'; rewrite E).
    + rewrite (I w W). apply sure_ret.
    + rewrite (I h X). apply sure_ret.
  - intros E. destruct (h_answer H (s_trace s) RqSize) as [] eqn:A; try (now destruct (E width height));
      split; (call; unfold run_size; apply sure_told; fold s'; rewrite A; apply sure_ret).
Qed.

Theorem C113_flush H args s :
  let s' := told H RqFlush s in
  (h_answer H (s_trace s) RqFlush = RsOk -> calls H CFlush args s (ROk ENone) s')
  /\ (h_answer H (s_trace s) RqFlush <> RsOk -> calls H CFlush args s (RPanic PUnwrap) s').
Proof.
  intros s'. split; intros E.
  - call. unfold run_flush. apply sure_told. fold s'. rewrite E. apply sure_ret.
  - call. unfold run_flush. apply sure_told. fold s'.
    destruct (h_answer H (s_trace s) RqFlush); try congruence; now apply sure_const.
Qed.

Theorem C113_mode H raw args s :
  let s' := told H (RqRaw raw) s in
  (h_answer H (s_trace s) (RqRaw raw) = RsOk -> calls H (CMode raw) args s (ROk ENone) s')
  /\ (h_answer H (s_trace s) (RqRaw raw) <> RsOk ->
      exists m, calls H (CMode raw) args s (RErr (CustomError m)) s').
Proof.
  intros s'. split; intros E.
  - call. unfold run_mode. apply sure_told. fold s'. rewrite E. apply sure_ret.
  - eexists. call. unfold run_mode. apply sure_told. fold s'.
    destruct (h_answer H (s_trace s) (RqRaw raw)); try congruence; apply sure_throw.
Qed.

Example C113_example :
  effects_of "console@cursor@hide (math@fact (0 - 1)); console@mode@alternate(); console@cursor@save-position()"
    = map RqPrint [csi (lit "?25l"); csi (lit "?1049h"); csi (lit "s")]
  /\ (exists w, value_of "console@width()" = ROk w)
  /\ (let d := Terminal (Screen (3, 4)%Z (1, 1)%Z (fun _ _ => Some 65%N)) None true in
      alternate d = None
      /\ obeys_all [csi (lit "H"); lit "x"] (enter_alternate d)
           (set_current (put 120%N (go 1 1 (current (enter_alternate d)))) (enter_alternate d))
      /\ Forall (fun t => t <> csi (lit "?1049l")) [csi (lit "H"); lit "x"]).
Proof.
  split; [vm_compute; reflexivity|]. split; [eexists; vm_compute; reflexivity|].
  intros d. split; [reflexivity|]. split.
  - eapply obeys_more; [apply obeys_text, reads_home, reads_end|].
    eapply obeys_more; [|apply obeys_none].
    apply (obeys_text (lit "x") (set_current (go 1 1 (current (enter_alternate d))) (enter_alternate d))).
    apply reads_visible; [vm_compute; intuition congruence|apply reads_end].
  - repeat constructor; discriminate.
Qed.

(** ** C114: texts of values, wrapping, real paths *)

(** [string@to-string] gives the text that is shown for a value. *)
Theorem C114_to_string H a s v t s' :
  gives H a s v s' -> shown H v t -> calls H SToString [a] s (ROk (EString t)) s'.
Proof.
  intros E S. apply (proj1 (shown_display _ _ _)) in S. subst t.
  call. unfold run_to_string, exact1. sure_step. eapply sure_ev_arg; [reflexivity|exact E|]. apply sure_ret.
Qed.

(** Texts are kept: nothing changes when it is done twice. *)
Theorem C114_twice H a b s v t s' s1 :
  gives H a s v s' -> shown H v t -> gives H b s1 (EString t) s1 ->
  calls H SToString [a] s (ROk (EString t)) s' /\ calls H SToString [b] s1 (ROk (EString t)) s1.
Proof.
  intros E S B. split; [exact (C114_to_string H a s v t s' E S)|].
  apply (C114_to_string H b s1 (EString t) t s1 B). constructor.
Qed.

(** [fmt@wrap] evaluates the width first; a width that is no integer is an error,
    and then the text is not evaluated. *)
Theorem C114_wrap H a w s n s1 v t s2 :
  gives H w s (EInteger n) s1 -> gives H a s1 v s2 -> shown H v t -> (0 <= n < 2 ^ 63)%Z ->
  calls H TWrap [a; w] s (ROk (EString (h_wrap H t (Z.to_N n)))) s2.
Proof.
  intros W E S N. apply (proj1 (shown_display _ _ _)) in S. subst t.
  assert (U : as_usize n = Z.to_N n) by (unfold as_usize; now rewrite Z.mod_small by lia).
  rewrite <- U. call. unfold run_wrap. sure_step. eapply sure_ev_arg; [reflexivity|exact W|].
  eapply sure_ev_arg; [reflexivity|exact E|]. apply sure_ret.
Qed.

Theorem C114_wrap_width H a w s v s1 :
  gives H w s v s1 -> (forall n, v <> EInteger n) ->
  exists m, calls H TWrap [a; w] s (RErr (CustomError m)) s1.
Proof.
  intros W N. eexists. call. unfold run_wrap. sure_step. eapply sure_ev_arg; [reflexivity|exact W|].
  destruct v; try (now destruct (N z)); apply sure_throw.
Qed.

(** A negative width is no error: it is taken for one of more than 2^63 columns. *)
Theorem C114_wrap_negative_refuted H a w s n s1 v t s2 :
  gives H w s (EInteger n) s1 -> gives H a s1 v s2 -> shown H v t -> (- 2 ^ 63 <= n < 0)%Z ->
  calls H TWrap [a; w] s (ROk (EString (h_wrap H t (Z.to_N (2 ^ 64 + n))))) s2.
Proof.
  intros W E S N. apply (proj1 (shown_display _ _ _)) in S. subst t.
  assert (U : as_usize n = Z.to_N (2 ^ 64 + n)).
  { unfold as_usize. f_equal. symmetry. apply (Z.mod_unique n (2 ^ 64) (-1)); lia. }
  rewrite <- U. call. unfold run_wrap. sure_step. eapply sure_ev_arg; [reflexivity|exact W|].
  eapply sure_ev_arg; [reflexivity|exact E|]. apply sure_ret.
Qed.

(** [fs@canon] gives the real path of a path in the working directory, which is
    looked up before the argument is evaluated; it changes nothing. *)
Theorem C114_canon H a s v t s1 :
  gives H a s v s1 -> shown H v t ->
  let p := path_join (env_get_cwd (s_env s)) t in let s2 := told H (RqCanon p) s1 in
  (forall c, h_answer H (s_trace s1) (RqCanon p) = RsPath c -> calls H KCanon [a] s (ROk (EString c)) s2)
  /\ ((forall c, h_answer H (s_trace s1) (RqCanon p) <> RsPath c) ->
      exists m, calls H KCanon [a] s (RErr (CustomError m)) s2).
Proof.
  intros E S p s2. apply (proj1 (shown_display _ _ _)) in S. subst t.
  assert (K : forall r s', r <> RFuel ->
    (rs <- ask H (RqCanon p) ;;
     match rs with RsPath c => ret (EString c) | _ => custom (lit "could not canonicalize path " ++ p) end) s1 = (r, s') ->
    calls H KCanon [a] s r s').
  { intros r s' N K. apply sure_calls; [exact N|].
    apply (sure_ext _ _ (fun n => run_canon H (eval H n 0) [a])); [reflexivity|].
    unfold run_canon. sure_step. eapply sure_bind_const; [reflexivity|]. cbv beta. unfold path_arg.
    eapply sure_bind; [eapply sure_ev_arg; [reflexivity|exact E|]; apply sure_ret|].
    cbv beta. fold p. apply sure_const. exact K. }
  split.
  - intros c A. apply K; [discriminate|]. unfold bind, ask, s2, told. rewrite A. reflexivity.
  - intros A. eexists. apply K; [discriminate|]. unfold bind, ask, s2, told.
    destruct (h_answer H (s_trace s1) (RqCanon p)); try reflexivity.
    exfalso. eapply A. reflexivity.
Qed.

(** [debug] evaluates and prints its arguments one after the other, in the form
    in which they can be read again (C10), with spaces between them and a line
    feed at the end. *)
Theorem C114_debug H args vs s :
  Forall2 (fun a v => forall s0, gives H a s0 v s0) args vs -> args <> [] ->
  exists s', calls H BDebug args s (ROk ENone) s'
    /\ writes H s (join [32%N] (map (debug H) vs) ++ [10%N]) s'.
Proof.
  intros F NE.
  assert (X : exists s', sure (fun n => bind (run_print H (eval H n 0) (debug H) NL args) (fun _ => ret ENone))
                s (ROk ENone) s' /\ writes H s (join [32%N] (map (debug H) vs) ++ [10%N]) s').
  { revert s. induction F as [|a v args vs G F IH]; [congruence|]. intros s.
    destruct args as [|a2 args].
    - inversion F; subst. cbn [map join]. eexists. split.
      + eapply sure_bind; [|apply sure_ret]. cbn [run_print].
        eapply sure_bind; [apply sure_ev; apply (G s)|]. cbv beta. apply sure_const. reflexivity.
      + apply (writes_one H s).
    - destruct (IH ltac:(discriminate) (told H (RqPrint (debug H v ++ [32%N])) s)) as (s' & P & W). exists s'. split.
      + destruct P as [n0 P]. destruct (sure_ev H 0 a s (ROk v) s (G s)) as [n1 G1]. exists (n0 + n1).
        intros n L. specialize (P n ltac:(lia)). specialize (G1 n ltac:(lia)).
        change (run_print H (eval H n 0) (debug H) NL (a :: a2 :: args)) with
          (x <- eval H n 0 a ;; print H (debug H x ++ lit " ") ;;; run_print H (eval H n 0) (debug H) NL (a2 :: args)).
        unfold bind at 1 2. rewrite G1. exact P.
      + destruct vs as [|v2 vs]; [inversion F|]. cbn [map]. cbn [map] in W. rewrite join_cons by discriminate.
        rewrite <- app_assoc, <- app_assoc, (app_assoc (debug H v)). apply (writes_print H s). exact W. }
  destruct X as (s' & P & W). exists s'. split; [|exact W].
  apply sure_calls; [discriminate|exact P].
Qed.

Example C114_example :
  value_of "string@to-string 12" = ROk (EString (lit "12"))
  /\ value_of "string@to-string ""a b""" = ROk (EString (lit "a b"))
  /\ effects_of "debug 1 ""a b""" = map RqPrint [lit "1 "; 34%N :: lit "a b" ++ [34; 10]%N]
  /\ (exists m, value_of "fmt@wrap (println 1) True" = RErr (CustomError m))
  /\ effects_of "fmt@wrap (println 1) True" = []
  /\ value_of "fs@canon ""x""" = ROk (EString (path_join (env_get_cwd (s_env demo)) (lit "x"))).
Proof. repeat split; try (eexists; vm_compute; reflexivity); vm_compute; reflexivity. Qed.

Print Assumptions C113_fixed.
Print Assumptions C113_library.
Print Assumptions C113_cursor.
Print Assumptions C113_alternate.
Print Assumptions C113_size.
Print Assumptions C113_flush.
Print Assumptions C113_mode.
Print Assumptions C114_to_string.
Print Assumptions C114_twice.
Print Assumptions C114_wrap.
Print Assumptions C114_wrap_width.
Print Assumptions C114_wrap_negative_refuted.
Print Assumptions C114_canon.
Print Assumptions C114_debug.
