(** Vocabulary of the theorems about library functions. *)

From Coq Require Import String.
From Verif Require Import Base Syntax Host Ops Monad Builtins Eval EvalSpec.

(** The expression that applies the builtin function [b]. *)
Definition app (b : bid) (args : list expr) : expr := EApply (EBuiltin (Bi b [])) args.

(** The expression [e], evaluated like an argument of a builtin function, has
    the value [v]. *)
Definition gives (H : host) (e : expr) (s : st) (v : expr) (s' : st) : Prop :=
  evaluates H 0 e s (ROk v) s'.

(** The length of a list as an integer. *)
Definition size {A} (l : list A) : Z := Z.of_nat (length l).

(** A list that the memory of the machine can hold. *)
Definition storable {A} (l : list A) : Prop := (size l < 2 ^ 63)%Z.

(** Everything but the last piece has length [n], the last one between 1 and
    [n]. *)
Inductive pieces_of {A} (n : Z) : list (list A) -> Prop :=
| pieces_nil : pieces_of n []
| pieces_last p : (1 <= size p <= n)%Z -> pieces_of n [p]
| pieces_cons p q ps : size p = n -> pieces_of n (q :: ps) -> pieces_of n (p :: q :: ps).

(** Applying the value [f] to the arguments. *)
Definition applies (H : host) (f : expr) (args : list expr) : st -> res expr -> st -> Prop :=
  evaluates H 0 (EApply f args).

(** The outcome of a computation of a list as the outcome of an expression. *)
Definition as_list (r : res (list expr)) : res expr :=
  match r with
  | ROk l => ROk (EList l)
  | RErr e => RErr e
  | RPanic p => RPanic p
  | RExit c => RExit c
  | RFuel => RFuel
  end.

(** The items of [l] whose partner in [vs] counts as true. *)
Inductive kept : list expr -> list expr -> list expr -> Prop :=
| kept_nil : kept [] [] []
| kept_yes x v l vs r : truthy v -> kept l vs r -> kept (x :: l) (v :: vs) (x :: r)
| kept_no x v l vs r : falsy v -> kept l vs r -> kept (x :: l) (v :: vs) r.

(** The items of nested lists and maps, from left to right, maps in the order
    of their keys. *)
Inductive contents : expr -> list expr -> Prop :=
| contents_list l ls : all_contents l ls -> contents (EList l) ls
| contents_map m ls : all_contents (map snd m) ls -> contents (EMap m) ls
| contents_one e : (forall l, e <> EList l) -> (forall m, e <> EMap m) -> contents e [e]
with all_contents : list expr -> list expr -> Prop :=
| contents_nil : all_contents [] []
| contents_cons e l a b : contents e a -> all_contents l b -> all_contents (e :: l) (a ++ b).

(** In states like [s], except for the variables, and up to depth [d], applying
    the value [g] to arguments with the values [vs] gives [w] and leaves a
    state like [s']. *)
Definition acts (H : host) (d : N) (g : expr) (vs : list expr) (s : st) (w : expr) (s' : st) : Prop :=
  forall E d' f args,
    env_get_cwd E = env_get_cwd (s_env s) -> (d' <= d)%N ->
    (forall d2, (d2 <= d + 10)%N -> evaluates H d2 f (with_env E s) (ROk g) (with_env E s)) ->
    Forall2 (fun a v => forall d2, (d2 <= d + 10)%N ->
                        evaluates H d2 a (with_env E s) (ROk v) (with_env E s)) args vs ->
    evaluates H d' (EApply f args) (with_env E s) (ROk w) (with_env E s').
