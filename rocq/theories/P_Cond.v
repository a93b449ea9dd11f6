(** C105: choosing between expressions, applying a function to a list, and the
    list builtin. *)

From Coq Require Import String List Lia NArith ZArith.
From Verif Require Import Base Syntax Host Ops ErrorFmt Text Monad Builtins Eval EvalSpec
  LibFacts LibSpec MapFacts CoreFacts EvalFacts CmdFacts OpsSpec OpsFacts StrSpec Init Demo.
Import ListNotations.

(** [fn@? c t f] evaluates the condition and then exactly one of the other two
    arguments, both with a fresh depth. *)
Theorem C105_choice H c t f s r s' :
  calls H FCond [c; t; f] s r s' <->
  (exists v s1, evaluates H 0 c s (ROk v) s1 /\ truthy v /\ evaluates H 0 t s1 r s')
  \/ (exists v s1, evaluates H 0 c s (ROk v) s1 /\ falsy v /\ evaluates H 0 f s1 r s')
  \/ (exists r1, evaluates H 0 c s r1 s' /\ fails r1 r).
Proof.
  unfold calls. cbn [run_builtin].
  rewrite (lim_ext _ _ (fun n => v <- eval H n 0 c ;;
             if is_truthy v then eval H n 0 t else eval H n 0 f)) by reflexivity.
  rewrite (lim_bind _ _ _ (fun n v => if is_truthy v then eval H n 0 t else eval H n 0 f));
    [| apply mono_eval | intros v; destruct (is_truthy v); apply mono_eval].
  split.
  - intros [(v & s1 & E1 & E2) | E]; [| auto]. destruct (is_truthy v) eqn:T;
      [apply is_truthy_iff in T | apply is_falsy in T]; eauto 10.
  - intros [(v & s1 & E1 & T & E2) | [(v & s1 & E1 & T & E2) | E]]; [left | left | auto];
      exists v, s1; [apply is_truthy_iff in T | apply is_falsy in T]; rewrite T; auto.
Qed.

(** [fn@apply f l] evaluates the function and the list and then the application
    of the one to the items of the other. *)
Theorem C105_apply H f l s r s' :
  calls H FApply [f; l] s r s' <->
  (exists g s1 vs s2, evaluates H 0 f s (ROk g) s1 /\ evaluates H 0 l s1 (ROk (EList vs)) s2
                      /\ evaluates H 0 (EApply g vs) s2 r s')
  \/ (exists g s1 v tv, evaluates H 0 f s (ROk g) s1 /\ evaluates H 0 l s1 (ROk v) s'
                        /\ (forall vs, v <> EList vs) /\ shown H v tv
                        /\ r = RErr (CustomError (lit "invalid arguments to apply: " ++ tv)))
  \/ (exists r1, evaluates H 0 f s r1 s' /\ fails r1 r)
  \/ (exists g s1 r1, evaluates H 0 f s (ROk g) s1 /\ evaluates H 0 l s1 r1 s' /\ fails r1 r).
Proof.
  unfold calls. cbn [run_builtin].
  set (k := fun g n v => match v with
             | EList vs => eval H n 0 (EApply g vs)
             | _ => custom (lit "invalid arguments to apply: " ++ display H v)
             end).
  rewrite (lim_ext _ _ (fun n => g <- eval H n 0 f ;; (fun n g => v <- eval H n 0 l ;; k g n v) n g))
    by reflexivity.
  assert (MK : forall g v, mono (fun n => k g n v)).
  { intros g v. unfold k. destruct v; try apply mono_const. apply mono_eval. }
  rewrite (lim_bind _ _ _ (fun n g => v <- eval H n 0 l ;; k g n v));
    [| apply mono_eval | intros g; apply (mono_bind _ _ _ (k g)); [apply mono_eval | apply MK]].
  assert (Q : forall g s1, lim (fun n => v <- eval H n 0 l ;; k g n v) s1 r s' <->
    (exists v s2, evaluates H 0 l s1 (ROk v) s2 /\ lim (fun n => k g n v) s2 r s')
    \/ (exists r1, evaluates H 0 l s1 r1 s' /\ fails r1 r)).
  { intros g s1. apply (lim_bind _ _ _ (k g)); [apply mono_eval | apply MK]. }
  split.
  - intros [(g & s1 & E1 & E2) | E]; [| auto]. apply Q in E2.
    destruct E2 as [(v & s2 & E2 & E3) | (r1 & E2 & F)]; [| eauto 12].
    destruct v as [| | | | | | | vs | | | | | | | | | | |]; try (left; exists g, s1, vs, s2; auto; fail);
      (right; left; unfold k in E3; apply lim_throw in E3; destruct E3 as [-> ->];
       eexists g, s1, _, _; split; [exact E1 |]; split; [exact E2 |]; split; [discriminate |];
       split; [apply shown_display; reflexivity | reflexivity]).
  - intros [(g & s1 & vs & s2 & E1 & E2 & E3) | [(g & s1 & v & tv & E1 & E2 & N & S & ->) |
      [E | (g & s1 & r1 & E1 & E2 & F)]]]; [left | left | auto | left]; exists g, s1;
      (split; [exact E1 |]); apply Q; [left | left | right; eauto].
    + exists (EList vs), s2. auto.
    + exists v, s'. split; [exact E2 |]. apply shown_display in S. subst tv. unfold k.
      destruct v; try (apply lim_throw; auto; fail). now destruct (N l0).
Qed.

(** Both builtins refuse any other number of arguments without evaluating
    anything. *)
Theorem C105_count H args s :
  (length args <> 3%nat ->
   calls H FCond args s (RErr (CustomError (lit "conditional requires exactly three arguments"))) s)
  /\ (length args <> 2%nat ->
      calls H FApply args s (RErr (CustomError (lit "apply requires exactly two arguments"))) s).
Proof.
  split; intros L; (split; [discriminate |]); exists 0%nat; cbn [run_builtin].
  - destruct args as [| ? [| ? [| ? [| ? ?]]]]; cbn in L; try lia; reflexivity.
  - destruct args as [| ? [| ? [| ? ?]]]; cbn in L; try lia; reflexivity.
Qed.

(** The builtin [list@list] returns its arguments as they were written; a list
    expression returns their values.  They agree if all arguments are values
    already. *)
Theorem C105_list H args s :
  calls H LList args s (ROk (EList args)) s
  /\ (evaluates H 0 (EList args) s (ROk (EList args)) s <->
      evaluates_all H 1 args s (ROk args) s).
Proof.
  split; [split; [discriminate | exists 0%nat; reflexivity] |].
  rewrite rule_list by discriminate. split.
  - intros [(vs & E & X) | (r1 & E & F)]; [now injection X as -> | inversion F].
  - intros E. left. eauto.
Qed.

(** [list@list (1 + 2)] is a list of code, not of numbers. *)
Theorem C105_list_refuted :
  value_of "list@list (1 + 2)"
  = ROk (EList [EGroup (EGroup (EApply (ESymbol (lit "+")) [EInteger 1; EInteger 2]))])
  /\ value_of "[(1 + 2)]" = ROk (EList [EInteger 3]).
Proof. split; vm_compute; reflexivity. Qed.

(** Applying a function to a list of arguments is not the same as applying it
    to the arguments: items that are code are evaluated once more. *)
Theorem C105_apply_refuted :
  value_of "{ let q = 5; (y -> y) 'q }" = ROk (ESymbol (lit "q"))
  /\ value_of "{ let q = 5; fn@apply (y -> y) ['q] }" = ROk (EInteger 5).
Proof. split; vm_compute; reflexivity. Qed.

Example C105_example :
  effects_of "fn@? 0 (echo 1) (echo 2)" = effects_of "echo 2"
  /\ value_of "fn@? [1] 7 (unknown 1)" = ROk (EInteger 7)
  /\ value_of "fn@apply (x -> y -> x - y) [7, 3]" = ROk (EInteger 4)
  /\ value_of "fn@apply (x -> x) 3"
     = RErr (CustomError (lit "invalid arguments to apply: 3"))
  /\ value_of "fn@? 1 2" = RErr (CustomError (lit "conditional requires exactly three arguments")).
Proof. repeat split; vm_compute; reflexivity. Qed.

Print Assumptions C105_choice.
Print Assumptions C105_apply.
Print Assumptions C105_count.
Print Assumptions C105_list.
Print Assumptions C105_list_refuted.
Print Assumptions C105_apply_refuted.
