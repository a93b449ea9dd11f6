(** C109: maps keep their keys in order, and scopes do not nest. *)

From Coq Require Import String Sorted.
From Verif Require Import Base Syntax Host Parser Monad Builtins Eval EvalSpec LibSpec MapFacts DictFacts
  TidySpec TidyFacts Init Demo.
From Verif Require P_Range P_Names.

(** What a script means contains only maps in order and functions that have
    captured no enclosing scopes. *)
Theorem C109_accepted_scripts source e : parse_script source = SOk e -> orderly e.
Proof. apply parse_script_tidy. Qed.

(** A check that computes. *)
Fixpoint ascending (l : list str) : bool :=
  match l with
  | [] => true
  | x :: l => forallb (fun y => match str_cmp x y with Lt => true | _ => false end) l && ascending l
  end.
Definition checked_part (p : part) : bool :=
  match p with Dict ks => ascending ks | Scope ks enclosed => ascending ks && negb enclosed end.

Lemma ascending_increasing l : ascending l = true -> increasing l.
Proof.
  induction l as [| x l IH]; cbn [ascending]; intros A; [constructor |].
  apply andb_prop in A. destruct A as [F A]. constructor; [now apply IH |].
  rewrite forallb_forall in F. apply Forall_forall. intros y Y. specialize (F y Y).
  now destruct (str_cmp x y).
Qed.

Lemma checked_parts l : forallb checked_part l = true -> Forall proper l.
Proof.
  intros B. rewrite forallb_forall in B. apply Forall_forall. intros p P. specialize (B p P).
  destruct p as [ks | ks b]; cbn [checked_part proper] in *; [now apply ascending_increasing |].
  apply andb_prop in B. destruct B as [A N]. split; [now apply ascending_increasing |]. now destruct b.
Qed.

(** The environment in which the shell starts, with all its modules. *)
Theorem C109_start m : env_orderly (init m).
Proof.
  destruct m as [[h |] [c |] [d |] [o |] [w |] os v [x |] g [|]];
    unfold env_orderly; apply checked_parts; vm_compute; reflexivity.
Qed.

(** Evaluation, with whatever builtin functions and whatever the outside world
    answers: the variables and the value stay in order, and the variables do so
    when evaluation fails, too. *)
Theorem C109_evaluation H fuel depth e s :
  orderly e -> env_orderly (s_env s) ->
  env_orderly (s_env (snd (eval H fuel depth e s)))
  /\ forall v, fst (eval H fuel depth e s) = ROk v -> orderly v.
Proof.
  intros E S. destruct (safe_eval H fuel depth e E s S) as [S' V]. split; [exact S' |].
  intros v X. rewrite X in V. exact V.
Qed.

Lemma evaluates_orderly H e d s r s1 :
  orderly e -> env_orderly (s_env s) -> evaluates H d e s r s1 ->
  env_orderly (s_env s1) /\ forall v, r = ROk v -> orderly v.
Proof.
  intros E S [_ [n V]].
  pose proof (C109_evaluation H n d e s E S) as T. rewrite V in T. exact T.
Qed.

(** A map that an expression gives: its keys are in order, so each occurs only
    once, and looking a key up gives the one value it has. *)
Theorem C109_maps H e s m s1 :
  orderly e -> env_orderly (s_env s) -> gives H e s (EMap m) s1 ->
  increasing (map fst m) /\ NoDup (map fst m)
  /\ forall k v, In (k, v) m <-> bm_get k m = Some v.
Proof.
  intros E S G. destruct (evaluates_orderly _ _ _ _ _ _ E S G) as [_ V].
  specialize (V _ eq_refl). apply tidy_emap in V. destruct V as [O _].
  split; [now apply increasing_keys |]. split; [now apply sorted_keys_NoDup | now apply in_get].
Qed.

Lemma session_orderly H s s' : P_Range.session H s s' -> env_orderly (s_env s').
Proof.
  induction 1 as [m log | s s' n src e T IH P]; [apply C109_start |].
  apply C109_evaluation; [now apply (C109_accepted_scripts src) | exact IH].
Qed.

(** During a session all maps that variables contain are in order, no function
    has captured nested scopes, and the same holds for what the next script
    evaluates to. *)
Theorem C109_session H s s' fuel source e v :
  P_Range.session H s s' -> parse_script source = SOk e ->
  env_orderly (s_env s') /\ (fst (eval H fuel 0 e s') = ROk v -> orderly v).
Proof.
  intros T P. pose proof (session_orderly _ _ _ T) as O. split; [exact O |].
  apply C109_evaluation; [now apply (C109_accepted_scripts source) | exact O].
Qed.

(** So at every point of a session [vars ()] is the whole truth: it lists the
    variables that are defined, each once, and nothing else. *)
Theorem C109_all_variables H s s' b args :
  P_Range.session H s s' -> In b [BVars; YEnv] ->
  exists m, calls H b args s' (ROk (EMap m)) s'
    /\ (forall x v, In (x, v) m <-> env_get x (s_env s') = Some v)
    /\ NoDup (map fst m).
Proof.
  intros T I. pose proof (session_orderly _ _ _ T) as O.
  destruct (s_env s') as [bs p] eqn:E. apply tidy_Env in O. destruct O as (S & _ & ->).
  destruct (P_Names.C107_vars H b args s' I) as (m & C & A & B & N).
  { rewrite E. exact S. }
  rewrite E in A, B. exists m. split; [exact C |]. split; [| exact N].
  intros x v. split; [apply A |]. apply B. reflexivity.
Qed.

(** The keys of a literal come in order, the last of equal keys wins, and a
    function that has captured a map has no enclosing scope. *)
Example C109_example :
  match fst (eval demo_host 300 0 (script "let m = {b=1, a=2, b=3}; let f = x -> m; [m, f]") demo) with
  | ROk (EList [EMap m; ELambda p b c]) =>
      m = [(lit "a", EInteger 2); (lit "b", EInteger 3)]
      /\ env_parent c = None /\ env_get (lit "m") c = Some (EMap m)
  | _ => False
  end
  /\ ~ orderly (EMap [(lit "b", EInteger 1); (lit "a", EInteger 2)])
  /\ ~ orderly (EMap [(lit "a", EInteger 1); (lit "a", EInteger 2)])
  /\ ~ env_orderly (Env [] (Some (Env [] None))).
Proof.
  split; [vm_compute; repeat split |].
  split; [| split]; intros X; inversion X as [| ? ? Y]; cbn in Y.
  - inversion Y as [| ? ? _ F]; inversion F as [| ? ? L]; vm_compute in L; discriminate.
  - inversion Y as [| ? ? _ F]; inversion F as [| ? ? L]; vm_compute in L; discriminate.
  - destruct Y; discriminate.
Qed.

Print Assumptions C109_accepted_scripts.
Print Assumptions C109_start.
Print Assumptions C109_evaluation.
Print Assumptions C109_maps.
Print Assumptions C109_session.
Print Assumptions C109_all_variables.
