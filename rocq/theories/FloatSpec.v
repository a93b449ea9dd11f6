(** The numbers that floats stand for, and rounding to the nearest float. *)

From Coq Require Import ZArith QArith Qabs SpecFloat.
From Verif Require Import Base Host.

Open Scope Q_scope.

(** The number of a float; of use only for those that are finite. *)
Definition value (f : f64) : Q :=
  match f with
  | S754_finite s m e => inject_Z (if s then Zneg m else Zpos m) * Qpower 2 e
  | _ => 0
  end.

(** Whole numbers. *)
Definition whole (q : Q) : Prop := exists z : Z, q == inject_Z z.

(** The finite floats: zeros, and numbers [m * 2 ^ e] with [m] of exactly 53
    binary digits, or of fewer if [e] is the least exponent. *)
Definition finite (f : f64) : Prop :=
  match f with
  | S754_zero _ => True
  | S754_finite _ m e =>
      (2 ^ 52 <= Zpos m < 2 ^ 53 /\ -1074 <= e <= 971 \/ Zpos m < 2 ^ 52 /\ e = -1074)%Z
  | _ => False
  end.

(** From the middle between the greatest float and the next power of two on,
    numbers are rounded to an infinity. *)
Definition limit : Q := inject_Z (2 ^ 1024 - 2 ^ 970).

(** [f] is the float nearest to [q]; of two equally near ones it is the one with
    the even last digit. *)
Inductive rounded (q : Q) : f64 -> Prop :=
| rounded_zero s :
    (forall g, finite g -> Qabs q <= Qabs (value g - q)) ->
    (q < 0 -> s = true) -> (0 < q -> s = false) -> rounded q (S754_zero s)
| rounded_finite s m e :
    finite (S754_finite s m e) -> Qabs q < limit ->
    (forall g, finite g -> Qabs (value (S754_finite s m e) - q) <= Qabs (value g - q)) ->
    (forall g, finite g -> ~ value g == value (S754_finite s m e) ->
       Qabs (value g - q) == Qabs (value (S754_finite s m e) - q) -> Z.even (Zpos m) = true) ->
    rounded q (S754_finite s m e)
| rounded_infinite s :
    limit <= Qabs q -> (q < 0 -> s = true) -> (0 < q -> s = false) -> rounded q (S754_infinity s).
