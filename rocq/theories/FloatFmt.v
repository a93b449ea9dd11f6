(** How floats are printed: [{}] of an [f64], as used by src/expr.rs:169,242. *)

From Coq Require Import String ZArith SpecFloat.
From Verif Require Import Base Syntax Host.

Open Scope Z_scope.

(** The float that the decimal number [d * 10 ^ k] is rounded to.  src/parser.rs:262. *)
Definition f64_nearest (d k : Z) : f64 :=
  if 0 <=? k then f64_of_decimal false (d * 10 ^ k) 0 else f64_of_decimal false d (- k).

(** Equality of positive finite floats, as data.  src/expr.rs:169,242. *)
Definition is_float (m : positive) (e : Z) (f : f64) : bool :=
  match f with
  | S754_finite false m' e' => Pos.eqb m m' && Z.eqb e e'
  | _ => false
  end.

(** The multiple of [10 ^ k] to print for the number [m * 2 ^ e]: of the
    neighbours below and above, one that is rounded to this number, if there is
    one; if both are, the nearer one, the upper one if equally near
    ([core::num::flt2dec::strategy::dragon::format_shortest], to which the
    faster strategy is equivalent).  src/expr.rs:169,242. *)
Definition digits_at (m : positive) (e k : Z) : option Z :=
  let num := Zpos m * 2 ^ Z.max e 0 * 10 ^ Z.max (- k) 0 in
  let den := 2 ^ Z.max (- e) 0 * 10 ^ Z.max k 0 in
  let d := num / den in
  let down := is_float m e (f64_nearest d k) in
  let up := is_float m e (f64_nearest (d + 1) k) in
  if down && up then Some (if den <=? 2 * (num - d * den) then d + 1 else d)
  else if down then Some d else if up then Some (d + 1) else None.

(** The first exponent that works, from [k] downwards.  src/expr.rs:169,242. *)
Fixpoint shortest (n : nat) (m : positive) (e k : Z) : Z * Z :=
  match n with
  | O => (0, 0)
  | S n => match digits_at m e k with
           | Some d => (d, k)
           | None => shortest n m e (k - 1)
           end
  end.

(** The number [d * 10 ^ k] without an exponent ([core::num::fmt],
    [digits_to_dec_str] with no minimal number of fractional digits).
    src/expr.rs:169,242. *)
Definition plain (d k : Z) : str :=
  if 0 <=? k then z_str (d * 10 ^ k)
  else
    let fraction := z_str (d mod 10 ^ (- k)) in
    z_str (d / 10 ^ (- k)) ++ lit "."
      ++ repeat 48%N (Z.to_nat (- k) - length fraction) ++ fraction.

(** [impl Display for f64] without precision, width or flags.  The sign of zero
    is shown (since Rust 1.53).  src/expr.rs:169,242. *)
Definition f64_display (f : f64) : str :=
  let signed (s : bool) (t : str) := if s then lit "-" ++ t else t in
  match f with
  | S754_nan => lit "NaN"
  | S754_infinity s => signed s (lit "inf")
  | S754_zero s => signed s (lit "0")
  | S754_finite s m e => let '(d, k) := shortest (Z.to_nat 1384) m e 309 in signed s (plain d k)
  end.

(** [H] with this way of printing floats.  src/expr.rs:169,242. *)
Definition with_floats (H : host) : host :=
  {| h_answer := h_answer H;
     h_float := f64_display; h_printable := h_printable H; h_table := h_table H;
     h_lossy := h_lossy H; h_alphabetic := h_alphabetic H; h_numeric := h_numeric H;
     h_lowercase := h_lowercase H; h_uppercase := h_uppercase H;
     h_to_lower := h_to_lower H; h_to_upper := h_to_upper H; h_overflow := h_overflow H;
     h_libm := h_libm H; h_path_debug := h_path_debug H; h_wrap := h_wrap H;
     h_json := h_json H; h_toml := h_toml H |}.
