(** C104: where the shell can crash. *)

From Coq Require Import String.
From Verif Require Import Base Syntax Host Ops Tokenizer Parser ErrorFmt Text Monad Builtins Eval
  EvalSpec EvalFacts MonoFacts LibFacts ReplSpec P_ErrShow CrashSpec CrashFacts Demo.

(** A builtin function crashes in the ways listed for it, or because the
    evaluation of something crashes. *)
Theorem C104_builtin H b args s p s' :
  calls H b args s (RPanic p) s' ->
  can_crash (h_overflow H) b (length args) p
  \/ exists x s1 s2, evaluates H 0 x s1 (RPanic p) s2.
Proof.
  intros [_ [n E]].
  destruct (builtin_from H (eval H n 0) (can_crash (h_overflow H) b (length args))
              (fun x s e s' X => eval_error H n 0 x s e s' X) b args (fun p C => C) s _ s' E)
    as [C|(x & s1 & s2 & X)]; [now left |].
  right. exists x, s1, s2. split; [discriminate | exists n; exact X].
Qed.

(** Whatever crash a program meets, it is one of those listed for some builtin
    function, in a call of that function. *)
Theorem C104_evaluation H d e s p s' :
  evaluates H d e s (RPanic p) s' ->
  exists b args s1 s2,
    can_crash (h_overflow H) b (length args) p /\ calls H b args s1 (RPanic p) s2.
Proof.
  intros [_ [n E]]. destruct (eval_crash H n d e s p s' E) as (m & b & args & s1 & s2 & C & X).
  exists b, args, s1, s2. split; [exact C |]. split; [discriminate | exists m; exact X].
Qed.

(** Built without overflow checks, no arithmetic overflow ends the shell. *)
Theorem C104_no_overflow_crash H d e s p s' :
  h_overflow H = OvfWrap -> evaluates H d e s (RPanic p) s' -> p <> PArith /\ p <> PNegOverflow.
Proof.
  intros W E. destruct (C104_evaluation H d e s p s' E) as (b & args & _ & _ & C & _). rewrite W in C.
  destruct C as [[-> _]|[I|[X _]]]; [split; discriminate | | discriminate].
  destruct b; cbn [crashes In] in I; try contradiction; destruct I as [<-|[]]; split; discriminate.
Qed.

(** A syntax error met while a program runs is one the parser reports for the
    text named in it, so it can be shown. *)
Theorem C104_errors_shown H d e s err s' :
  h_overflow H = OvfWrap -> evaluates H d e s (RErr err) s' -> exists m, error_display H err = inl m.
Proof.
  intros W [_ [n E]]. pose proof (eval_error H n d e s err s' E) as O.
  destruct err; try (eexists; reflexivity). exact (C103_shown H _ _ W O).
Qed.

(** ** The list is exact *)

(** Too few arguments are a crash, once those there are have been evaluated. *)
Theorem C104_too_few H b args vs s s1 :
  length args < needs b -> evaluates_all H 0 args s (ROk vs) s1 ->
  calls H b args s (RPanic PIndex) s1.
Proof.
  intros L E. destruct args as [|a args].
  - inversion E; subst. split; [discriminate |]. exists O. clear E.
    destruct b; cbn [needs length] in L; try lia; reflexivity.
  - assert (L' : args = [] /\ needs b = 2).
    { destruct b; cbn [needs length] in L |- *; try lia; destruct args; cbn [length] in L; try lia; now split. }
    destruct L' as [-> N]. clear L.
    assert (X : exists v, evaluates H 0 a s (ROk v) s1).
    { inversion E as [|x v t l ws u w A B| |]; subst; [| match goal with F : fails _ (ROk _) |- _ => inversion F end
                                                      | match goal with F : fails _ (ROk _) |- _ => inversion F end].
      inversion B; subst. exists v. exact A. }
    destruct X as [v [_ [n X]]]. split; [discriminate |]. exists n.
    destruct b; cbn [needs] in N; try discriminate N; cbn [run_builtin];
      unfold run_compare, ev_arg, bind, arg, ret; cbn [nth_error]; rewrite X; reflexivity.
Qed.

(** A host that answers everything with a failure. *)
Definition broken_host : host := with_answer (fun _ _ => RsNotFound) demo_host.

(** The same program built with overflow checks. *)
Definition checked (H : host) : host :=
  {| h_answer := h_answer H;
     h_float := h_float H; h_printable := h_printable H; h_table := h_table H;
     h_lossy := h_lossy H; h_alphabetic := h_alphabetic H; h_numeric := h_numeric H;
     h_lowercase := h_lowercase H; h_uppercase := h_uppercase H;
     h_to_lower := h_to_lower H; h_to_upper := h_to_upper H; h_overflow := OvfPanic;
     h_libm := h_libm H; h_path_debug := h_path_debug H; h_wrap := h_wrap H;
     h_json := h_json H; h_toml := h_toml H |}.

(** A host where every file has the contents [text]. *)
Definition a_file (text : str) : host :=
  with_answer
    (fun t rq => match rq with RqRead _ => RsOutput (utf8_bytes text) | _ => demo_answer t rq end)
    demo_host.

(** A text in front of a character of several bytes after a backslash. *)
Definition unreadable : str := [34; 92; 228; 34]%N.

(** Nothing is defined. *)
Definition bare : st := St env_new [] 0%Z.

(** Values for which the builtin function crashes. *)
Definition fatal (b : bid) : list expr :=
  match b with
  | BMul => [EString (lit "a"); EInteger (-1)]
  | FCurry => [EBuiltin (Bi BAdd []); EInteger (-1)]
  | BRem => [EInteger 7; EInteger 0]
  | BInsert => [EString [228%N]; EInteger 1; EInteger 5]
  | SSplitAt => [EString (lit "ab"); EInteger 3]
  | LNth => [EInteger 2; EList [EInteger 1; EInteger 2]]
  | YParse | PExpr => [EString unreadable]
  | YInclude | YImport => [EString (lit "f")]
  | KTree => [EString (lit "/")]
  | KGlob => [EString (lit "***")]
  | RInt => [EInteger 5; EInteger 5]
  | RChoose => [EList []]
  | WJoiny => [EString (lit " "); EString (lit "x")]
  | _ => []
  end.

(** Each crash listed happens. *)
Theorem C104_happens b p : In p (crashes b) ->
  exists H args s s', h_overflow H = OvfWrap /\ calls H b args s (RPanic p) s'.
Proof.
  intros I.
  exists (match b with
          | YInclude | YImport => a_file unreadable
          | _ => broken_host end), (fatal b), bare.
  destruct b; cbn [crashes In] in I; try contradiction; destruct I as [<-|[]];
    (eexists; split; [reflexivity |]; split; [discriminate |]; exists 20%nat; vm_compute; reflexivity).
Qed.

(** Values for which the builtin function overflows. *)
Definition too_much (b : bid) : list expr :=
  match b with
  | BSub => [EInteger (- 2 ^ 63)]
  | LNth => [EInteger (-3); EList [EInteger 1]]
  | SCaesar => [EString (lit "z"); EInteger 250]
  | MLRsh | MARsh | MLsh => [EInteger 1; EInteger 64]
  | MSum => [EInteger (2 ^ 63 - 1); EInteger 1]
  | MProduct => [EInteger (2 ^ 62); EInteger 2]
  | MFact => [EInteger 21]
  | MAbs => [EInteger (- 2 ^ 63)]
  | ETry => [EApply (EBuiltin (Bi PExpr []))
               [EString (lit "let " ++ [34; 10]%N ++ repeat 97%N 80 ++ [34%N])]; ENone]
  | KTree => [EInteger (- 2 ^ 63); EString (lit "d")]
  | CWrite => [EInteger 1; EInteger (2 ^ 63 - 1); EString (lit "a" ++ [10%N] ++ lit "b")]
  | _ => []
  end.

(** Each overflow listed happens. *)
Theorem C104_overflow_happens b p : In p (overflows b) ->
  exists H args s s', h_overflow H = OvfPanic /\ calls H b args s (RPanic p) s'.
Proof.
  intros I.
  exists (checked (with_answer
            (fun t rq => match rq with
                         | RqTree _ => RsTree (DtDir [(lit "x", DtDir [])])
                         | _ => demo_answer t rq end) demo_host)), (too_much b), bare.
  destruct b; cbn [overflows In] in I; try contradiction; destruct I as [<-|[]];
    (eexists; split; [reflexivity |]; split; [discriminate |]; exists 20%nat; vm_compute; reflexivity).
Qed.

(** So programs can crash the shell. *)
Theorem C104_refuted :
  exists source p, value_of source = RPanic p.
Proof. exists "7 % 0"%string, PRemZero. vm_compute. reflexivity. Qed.

(** The hypotheses: a crash inside of functions and loops, in a call with too
    few arguments, and a syntax error met by a running program. *)
Example C104_example :
  value_of "let f = x -> x % 0; for i in [1, 2] {f i}" = RPanic PRemZero
  /\ value_of "fn@map eval [1]" = ROk (EList [EInteger 1])
  /\ value_of "(fn@apply eval [])" = RPanic PIndex
  /\ (exists t e, value_of "parse@expr ""1 +""" = RErr (SyntaxErr t e)).
Proof.
  split; [vm_compute; reflexivity |]. split; [vm_compute; reflexivity |].
  split; [vm_compute; reflexivity |]. eexists _, _. vm_compute. reflexivity.
Qed.

Print Assumptions C104_builtin.
Print Assumptions C104_evaluation.
Print Assumptions C104_no_overflow_crash.
Print Assumptions C104_errors_shown.
Print Assumptions C104_too_few.
Print Assumptions C104_happens.
Print Assumptions C104_overflow_happens.
Print Assumptions C104_refuted.
