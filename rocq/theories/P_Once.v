(** C53: the state in which an arithmetic operator fails. *)

From Coq Require Import String.
From Verif Require Import Base Syntax Host Ops Parser ErrorFmt Text Monad Builtins Eval
  EvalSpec EvalFacts MapFacts CoreFacts LibFacts OpsSpec OpsFacts LibSpec ListFacts Init Demo P_Ops.

(** The outcomes of arithmetic on values. *)
Definition settled (r : res expr) : Prop :=
  (exists w, r = ROk w) \/ (exists m, r = RErr (CustomError m)) \/ (exists p, r = RPanic p).

Lemma fold_arith_state H op verb rest : closed_op op -> forall v vs s s',
  value v -> Forall value vs -> evaluates_all H 0 rest s (ROk vs) s' ->
  exists done skipped r s1,
    rest = done ++ skipped /\ (rest <> [] -> done <> [])
    /\ evaluates_all H 0 done s (ROk (firstn (length done) vs)) s1
    /\ sure (fun n => fold_arith H (eval H n 0) op verb v rest) s r s1
    /\ settled r /\ (skipped <> [] -> forall w, r <> ROk w).
Proof.
  intros CL. induction rest as [|a rest IH]; intros v vs s s' V VS E; inversion E; subst;
    try match goal with X : fails _ (ROk _) |- _ => inversion X end.
  - exists [], [], (ROk v), s'. split; [reflexivity|]. split; [congruence|]. split; [constructor|].
    split; [apply sure_ret|]. split; [left; eauto|]. congruence.
  - inversion VS as [|v0' vs0' V0 VS0]; subst. rename v0 into y, vs0 into ys.
    assert (K : forall r t, sure (fun n =>
               r <- or_panic (op v y) ;;
               match r with
               | ENone => custom (lit "cannot " ++ verb ++ lit " " ++ debug H v
                   ++ lit " and " ++ debug H a)
               | _ => ret r
               end) s1 r t ->
             sure (fun n => x <- eval H n 0 v ;; y <- eval H n 0 a ;;
               r <- or_panic (op x y) ;;
               match r with
               | ENone => custom (lit "cannot " ++ verb ++ lit " " ++ debug H v
                   ++ lit " and " ++ debug H a)
               | _ => ret r
               end) s r t).
    { intros r t K. eapply sure_ev_bind; [apply value_evaluates; exact V|].
      eapply sure_ev_bind; [eassumption|exact K]. }
    assert (ONE : evaluates_all H 0 [a] s (ROk (firstn (length [a]) (y :: ys))) s1)
      by (econstructor; [eassumption|constructor]).
    destruct (op v y) as [w|p] eqn:OP; cbn [or_panic] in K.
    + assert (W := CL v y w V V0 OP).
      assert (GO : w <> ENone -> exists done skipped r s2,
        a :: rest = done ++ skipped /\ (a :: rest <> [] -> done <> [])
        /\ evaluates_all H 0 done s (ROk (firstn (length done) (y :: ys))) s2
        /\ sure (fun n => fold_arith H (eval H n 0) op verb v (a :: rest)) s r s2
        /\ settled r /\ (skipped <> [] -> forall w, r <> ROk w)).
      { intros NN. match goal with X : in_order _ rest _ _ _ |- _ =>
          destruct (IH w ys s1 s' W VS0 X) as (d & k & r & s2 & -> & _ & D & SU & ST & SK) end.
        exists (a :: d), k, r, s2. split; [reflexivity|]. split; [discriminate|].
        split; [econstructor; eassumption|]. split; [|auto].
        unfold fold_arith in SU |- *. cbn [foldM].
        eapply sure_bind; [apply K; apply sure_const|exact SU].
        destruct w; try reflexivity. contradiction. }
      destruct w; try (apply GO; discriminate). clear GO.
      eexists [a], rest, (RErr (CustomError _)), s1. split; [reflexivity|]. split; [discriminate|].
      split; [exact ONE|]. split; [|split; [right; left; eauto|intros _ w; discriminate]].
      unfold fold_arith. cbn [foldM].
      eapply sure_bind_fails; [apply K; apply sure_const; reflexivity|constructor].
    + exists [a], rest, (RPanic p), s1. split; [reflexivity|]. split; [discriminate|].
      split; [exact ONE|]. split; [|split; [right; right; eauto|intros _ w; discriminate]].
      unfold fold_arith. cbn [foldM].
      eapply sure_bind_fails; [apply K; now apply sure_const|constructor].
Qed.

(** An arithmetic operator whose operands have data as values evaluates them
    from left to right, each of them once, and does nothing else.  It evaluates
    all of them, or stops with a failure after two or more. *)
Theorem C53_arithmetic_once H b a1 a2 rest s vs s' :
  In b [BAdd; BSub; BMul; BDiv; BRem] ->
  evaluates_all H 0 (a1 :: a2 :: rest) s (ROk vs) s' -> Forall value vs ->
  exists done skipped r s1,
    rest = done ++ skipped
    /\ evaluates_all H 0 (a1 :: a2 :: done) s (ROk (firstn (2 + length done) vs)) s1
    /\ calls H b (a1 :: a2 :: rest) s r s1
    /\ settled r /\ (skipped <> [] -> forall w, r <> ROk w).
Proof.
  intros B E V.
  assert (A : exists op, arith_op b = Some op).
  { repeat destruct B as [<- | B]; try contradiction; eexists; reflexivity. }
  destruct A as [op A]. inversion E; subst; try match goal with X : fails _ (ROk _) |- _ => inversion X end.
  inversion V; subst.
  assert (CL : closed_op op).
  { destruct b; try discriminate A; injection A as <-;
      auto using closed_add, closed_sub, closed_mul, closed_div, closed_rem. }
  assert (R : exists verb, forall n,
     run_builtin H (eval H n 0) b (a1 :: a2 :: rest) =
     bind (ev_arg (eval H n 0) (a1 :: a2 :: rest) 0)
          (fun first => fold_arith H (eval H n 0) op verb first (a2 :: rest))).
  { destruct b; try discriminate A; injection A as <-; eexists; intros n; reflexivity. }
  destruct R as [verb R].
  match goal with X : in_order _ (a2 :: rest) _ (ROk ?ys) _ |- _ =>
    destruct (fold_arith_state H op verb (a2 :: rest) CL v ys s1 s' ltac:(assumption) ltac:(assumption) X)
      as (d & k & r & s2 & SP & NE & D & SU & ST & SK) end.
  destruct d as [|a d]; [exfalso; now apply NE|]. injection SP as <- ->.
  exists d, k, r, s2. split; [reflexivity|]. split; [|split; [|auto]].
  - cbn [plus firstn length]. econstructor; [eassumption|exact D].
  - apply sure_calls.
    + destruct ST as [[w ->]|[[m ->]|[p ->]]]; discriminate.
    + apply (sure_ext _ _ (fun n => bind (ev_arg (eval H n 0) (a1 :: a2 :: d ++ k) 0)
          (fun first => fold_arith H (eval H n 0) op verb first (a2 :: d ++ k))));
        [intros n; now rewrite R|].
      eapply sure_ev_arg; [reflexivity|eassumption|exact SU].
Qed.

(** The failure of the first two operands keeps the third from being evaluated. *)
Example C53_once_example :
  effects_of "try ((echo 1) + (echo 2) + (echo 3)) (x -> 0)"
    = [RqPrint (lit "1" ++ [10%N]); RqPrint (lit "2" ++ [10%N])].
Proof. vm_compute. reflexivity. Qed.

Print Assumptions C53_arithmetic_once.
