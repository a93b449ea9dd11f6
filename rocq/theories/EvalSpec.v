(** What it means that an evaluation has an outcome: the vocabulary of the
    theorems about the evaluator. *)

From Coq Require Import String Floats.SpecFloat.
From Verif Require Import Base Syntax Host Ops Monad Builtins Eval.

(** An outcome of a family of computations indexed by fuel. *)
Definition lim {A} (f : nat -> M A) (s : st) (r : res A) (s' : st) : Prop :=
  r <> RFuel /\ exists n, f n s = (r, s').

(** [evaluates H d e s r s']: evaluating [e] at depth [d] in the state [s]
    finishes with the outcome [r] (a value, an error, a panic or the exit of
    the shell) in the state [s'].  [Expression::eval] is depth 0. *)
Definition evaluates (H : host) (d : N) (e : expr) (s : st) (r : res expr) (s' : st) : Prop :=
  lim (fun n => eval H n d e) s r s'.

(** [calls H b args s r s']: the builtin function [b] applied to the
    unevaluated arguments [args]. *)
Definition calls (H : host) (b : bid) (args : list expr) (s : st) (r : res expr) (s' : st)
  : Prop :=
  lim (fun n => run_builtin H (eval H n 0) b args) s r s'.

(** The same failure, of a computation with another type of results. *)
Inductive fails {A B} : res A -> res B -> Prop :=
| fails_err e : fails (RErr e) (RErr e)
| fails_panic p : fails (RPanic p) (RPanic p)
| fails_exit c : fails (RExit c) (RExit c).

(** The state [s] with another environment. *)
Definition with_env (e : env) (s : st) : st := St e (s_trace s) (s_log s).
(** The state [s] after [env.define(x, v)]. *)
Definition with_var (x : str) (v : expr) (s : st) : st :=
  with_env (env_define x v (s_env s)) s.

(** Doing [R] for every item of a list, from left to right, collecting the
    results and stopping at the first failure. *)
Inductive in_order {A B} (R : A -> st -> res B -> st -> Prop)
  : list A -> st -> res (list B) -> st -> Prop :=
| io_nil s : in_order R [] s (ROk []) s
| io_cons x v s1 l vs s s2 :
    R x s (ROk v) s1 ->
    in_order R l s1 (ROk vs) s2 ->
    in_order R (x :: l) s (ROk (v :: vs)) s2
| io_first x r r' l s s1 :
    R x s r s1 -> fails r r' -> in_order R (x :: l) s r' s1
| io_later x v s1 l r r' s s2 :
    R x s (ROk v) s1 ->
    in_order R l s1 r s2 -> fails r r' ->
    in_order R (x :: l) s r' s2.

(** Evaluating several expressions, at depth [d]. *)
Definition evaluates_all (H : host) (d : N) : list expr -> st -> res (list expr) -> st -> Prop :=
  in_order (evaluates H d).

(** Doing [R] for every item of a list, from left to right, handing a value
    from each step to the next. *)
Inductive folds {A B} (R : B -> A -> st -> res B -> st -> Prop)
  : B -> list A -> st -> res B -> st -> Prop :=
| fo_nil b s : folds R b [] s (ROk b) s
| fo_cons b x l s b1 s1 r s2 :
    R b x s (ROk b1) s1 -> folds R b1 l s1 r s2 -> folds R b (x :: l) s r s2
| fo_stop b x l s r r' s1 :
    R b x s r s1 -> fails r r' -> folds R b (x :: l) s r' s1.

(** ** Data *)

(** Values made of integers, floats, strings, bytes, booleans, none, macros and
    builtin functions with lists and maps. *)
Fixpoint data (e : expr) : Prop :=
  match e with
  | EInteger _ | EFloat _ | EBytes _ | EString _ | EBoolean _ | ENone
  | EMacro _ _ | EBuiltin _ => True
  | EList l => (fix all (l : list expr) := match l with [] => True | x :: r => data x /\ all r end) l
  | EMap m =>
      (fix all (m : list (str * expr)) :=
         match m with [] => True | (_, x) :: r => data x /\ all r end) m
  | _ => False
  end.

(** The values that count as false in a condition: none, false, zero, what is
    empty, and code that was not evaluated. *)
Inductive falsy : expr -> Prop :=
| falsy_none : falsy ENone
| falsy_false : falsy (EBoolean false)
| falsy_zero : falsy (EInteger 0)
| falsy_float sign : falsy (EFloat (S754_zero sign))
| falsy_string : falsy (EString [])
| falsy_bytes : falsy (EBytes [])
| falsy_list : falsy (EList [])
| falsy_map : falsy (EMap [])
| falsy_symbol x : falsy (ESymbol x)
| falsy_quote e : falsy (EQuote e)
| falsy_group e : falsy (EGroup e)
| falsy_apply f args : falsy (EApply f args)
| falsy_assign x e : falsy (EAssign x e)
| falsy_for x l e : falsy (EFor x l e)
| falsy_if c t f : falsy (EIf c t f)
| falsy_do l : falsy (EDo l).

Definition truthy (e : expr) : Prop := ~ falsy e.

(** How deep lists and maps are nested; 0 for everything else. *)
Fixpoint nesting (e : expr) : N :=
  match e with
  | EList l =>
      (fix go (l : list expr) : N :=
         match l with [] => 0%N | x :: r => N.max (1 + nesting x) (go r) end) l
  | EMap m =>
      (fix go (m : list (str * expr)) : N :=
         match m with [] => 0%N | (_, x) :: r => N.max (1 + nesting x) (go r) end) m
  | _ => 0%N
  end.

(** Data that the recursion limit allows to evaluate. *)
Definition value (e : expr) : Prop := data e /\ (nesting e <= MAX_DEPTH)%N.

(** ** Programs without some kinds of expressions *)

(** No application outside quotes and bodies of functions and macros. *)
Fixpoint app_free (e : expr) : Prop :=
  match e with
  | EApply _ _ => False
  | EGroup e | EAssign _ e => app_free e
  | EFor _ l b => app_free l /\ app_free b
  | EIf c t f => app_free c /\ app_free t /\ app_free f
  | EList l | EDo l =>
      (fix all (l : list expr) := match l with [] => True | x :: r => app_free x /\ all r end) l
  | EMap m =>
      (fix all (m : list (str * expr)) :=
         match m with [] => True | (_, x) :: r => app_free x /\ all r end) m
  | _ => True
  end.

(** No builtin function anywhere, including the variables of functions. *)
Fixpoint no_builtin (e : expr) : Prop :=
  let fix all (l : list expr) := match l with [] => True | x :: r => no_builtin x /\ all r end in
  match e with
  | EBuiltin _ => False
  | EGroup e | EAssign _ e | EQuote e | EMacro _ e => no_builtin e
  | EFor _ l b => no_builtin l /\ no_builtin b
  | EIf c t f => no_builtin c /\ no_builtin t /\ no_builtin f
  | EList l | EDo l => all l
  | EApply f l => no_builtin f /\ all l
  | EMap m =>
      (fix all (m : list (str * expr)) :=
         match m with [] => True | (_, x) :: r => no_builtin x /\ all r end) m
  | ELambda _ b c => no_builtin b /\ no_builtin_env c
  | ESymbol _ | EInteger _ | EFloat _ | EBytes _ | EString _ | EBoolean _ | ENone => True
  end
with no_builtin_env (e : env) : Prop :=
  match e with
  | Env b p =>
      (fix all (m : list (str * expr)) :=
         match m with [] => True | (_, x) :: r => no_builtin x /\ all r end) b
      /\ match p with Some p' => no_builtin_env p' | None => True end
  end.

(** ** Functions of several parameters *)

(** [b] is, possibly in parentheses, [p1 -> .. -> pn -> ..]. *)
Inductive takes : nat -> expr -> Prop :=
| takes_0 b : takes 0 b
| takes_lambda n p b c : takes n b -> takes (S n) (ELambda p b c)
| takes_group n b : takes n b -> takes n (EGroup b).

(** Evaluating [e] while the variables are [E] does not change them. *)
Definition keeps_vars (H : host) (E : env) (e : expr) : Prop :=
  forall d s r s', s_env s = E -> evaluates H d e s r s' -> s_env s' = E.

(** ** Arguments of programs *)

(** The leaves of a value: lists and groups dissolved, from left to right. *)
Inductive leaves : expr -> list expr -> Prop :=
| leaves_list l ls : all_leaves l ls -> leaves (EList l) ls
| leaves_group e ls : leaves e ls -> leaves (EGroup e) ls
| leaves_one e : (forall l, e <> EList l) -> (forall x, e <> EGroup x) -> leaves e [e]
with all_leaves : list expr -> list expr -> Prop :=
| leaves_nil : all_leaves [] []
| leaves_cons e l a b : leaves e a -> all_leaves l b -> all_leaves (e :: l) (a ++ b).

(** The text of a value.  Texts, names, integers (in decimal, see C11) and
    truth values are as expected; how the rest is written is left to the
    printer. *)
Inductive shown (H : host) : expr -> str -> Prop :=
| shown_string t : shown H (EString t) t
| shown_symbol x : shown H (ESymbol x) x
| shown_integer z : shown H (EInteger z) (z_str z)
| shown_true : shown H (EBoolean true) (lit "True")
| shown_false : shown H (EBoolean false) (lit "False")
| shown_none : shown H ENone (lit "None")
| shown_other e :
    match e with
    | EString _ | ESymbol _ | EInteger _ | EBoolean _ | ENone => False
    | _ => True
    end -> shown H e (display H e).

(** The word of a leaf on a command line; none gives no word. *)
Inductive word (H : host) : expr -> list str -> Prop :=
| word_none : word H ENone []
| word_bytes b : word H (EBytes b) [h_lossy H b]
| word_other e t :
    e <> ENone -> (forall b, e <> EBytes b) -> shown H e t -> word H e [t].

Inductive words (H : host) : list expr -> list str -> Prop :=
| words_nil : words H [] []
| words_cons e l a b : word H e a -> words H l b -> words H (e :: l) (a ++ b).

(** The environment variables given to a program: the variables of the
    innermost scope whose text has at most 1024 bytes. *)
Definition passed_variables (H : host) (e : env) (vars : list (str * str)) : Prop :=
  forall x t, In (x, t) vars <->
    exists v, In (x, v) (env_bindings e) /\ shown H v t /\ (utf8_len t <= 1024)%N.

(** What the operating system's answer means for the shell. *)
Inductive command_result (name : str) (f : expr) (args : list expr) : response -> res expr -> Prop :=
| result_not_found :
    command_result name f args RsNotFound (RErr (ProgramNotFound name))
| result_denied :
    command_result name f args RsPermission (RErr (PermissionDenied (EApply f args)))
| result_failed a :
    a = RsFailed \/ a = RsWriteFailed \/ a = RsWaitFailed \/ (exists x y z, a = RsErr x y z) ->
    command_result name f args a (RErr (CommandFailed name args))
| result_started a :
    a <> RsNotFound -> a <> RsPermission -> a <> RsFailed -> a <> RsWriteFailed ->
    a <> RsWaitFailed -> (forall x y z, a <> RsErr x y z) ->
    command_result name f args a (ROk ENone).
