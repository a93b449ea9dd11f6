(** C28: enclosing scopes and past effects. *)

From Coq Require Import String.
From Verif Require Import Base Syntax Host Ops Parser Monad Builtins Eval
  EvalSpec MapFacts ScopeFacts Init Demo.

(** Whatever is evaluated, the enclosing scopes stay as they are, and requests
    to the outside world are only ever added to those made before. *)
Theorem C28_outer_scopes H d e s r s' :
  evaluates H d e s r s' ->
  env_parent (s_env s') = env_parent (s_env s)
  /\ exists later, s_trace s' = later ++ s_trace s.
Proof. intros (_ & n & E). pose proof (keeps_eval H n d e s) as K. now rewrite E in K. Qed.

(** The same for the call of any builtin function. *)
Theorem C28_builtins H b args s r s' :
  calls H b args s r s' ->
  env_parent (s_env s') = env_parent (s_env s)
  /\ exists later, s_trace s' = later ++ s_trace s.
Proof.
  intros (_ & n & E).
  pose proof (keeps_builtin H (eval H n 0) (keeps_eval H n 0) b args s) as K. now rewrite E in K.
Qed.

(** A variable that is found in an enclosing scope before an evaluation and
    not defined by it in the innermost one has the value it had. *)
Theorem C28_outer_variable H d e s r s' x :
  evaluates H d e s r s' ->
  bm_get x (env_bindings (s_env s)) = None -> bm_get x (env_bindings (s_env s')) = None ->
  env_get x (s_env s') = env_get x (s_env s).
Proof.
  intros E B B'. destruct (C28_outer_scopes _ _ _ _ _ _ E) as [P _].
  destruct (s_env s) as [m p], (s_env s') as [m' p']. cbn in *. subst p'.
  now rewrite B, B'.
Qed.

(** A state whose innermost scope is empty and whose enclosing scope is the
    initial one: the program sets [a], which the enclosing scope has as 1. *)
Definition inner_demo : st :=
  St (Env [] (Some (env_define (lit "a") (EInteger 1) demo_env))) [] 0.

Example C28_example :
  let r := eval demo_host 200 0 (script "let a = 2; echo a") inner_demo in
  fst r = ROk ENone
  /\ env_parent (s_env (snd r)) = env_parent (s_env inner_demo)
  /\ env_get (lit "a") (s_env inner_demo) = Some (EInteger 1)
  /\ env_get (lit "a") (s_env (snd r)) = Some (EInteger 2)
  /\ length (s_trace (snd r)) = 1%nat.
Proof. vm_compute. repeat split. Qed.

Print Assumptions C28_outer_scopes.
Print Assumptions C28_builtins.
Print Assumptions C28_outer_variable.
