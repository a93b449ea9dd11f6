(** The float nearest to a square root. *)

From Coq Require Import ZArith QArith SpecFloat.
From Verif Require Import Base Host FloatSpec.

Open Scope Q_scope.

(** The square of a number. *)
Definition square (q : Q) : Q := q * q.

(** [f] is the float nearest to the root of [q].  Where the root is a fraction
    this is rounding as usual.  Where it is not, no two floats are equally near:
    the root is less than the middle of [f] and any greater float, and greater
    than the middle of [f] and any smaller one. *)
Inductive root_rounded (q : Q) (f : f64) : Prop :=
| root_fraction x : 0 <= x -> square x == q -> rounded x f -> root_rounded q f
| root_other :
    finite f -> 0 <= value f ->
    (forall g, finite g -> value f < value g -> q < square ((value f + value g) / 2)) ->
    (forall g, finite g -> 0 <= value g -> value g < value f -> square ((value f + value g) / 2) < q) ->
    root_rounded q f.
