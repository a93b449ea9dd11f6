(** Arithmetic on floats, and the text of a float. *)

From Coq Require Import ZArith QArith List SpecFloat.
From Verif Require Import Base Syntax Host FloatSpec.
Import ListNotations.

(** A number as an operand: integers beside floats are first rounded to floats. *)
Inductive operand : expr -> f64 -> Prop :=
| operand_float f : operand (EFloat f) f
| operand_integer z f : rounded (inject_Z z) f -> operand (EInteger z) f.

(** The sign of a float that is not NaN; [true] is minus. *)
Definition negative (f : f64) : bool :=
  match f with
  | S754_zero s | S754_infinity s | S754_finite s _ _ => s
  | S754_nan => false
  end.

(** The operations on NaN, infinities and with a zero divisor. *)
Inductive special : bid -> f64 -> f64 -> f64 -> Prop :=
| special_nan_left b g : special b S754_nan g S754_nan
| special_nan_right b f : special b f S754_nan S754_nan
| special_add_left s g : (g = S754_infinity s \/ finite g) ->
    special BAdd (S754_infinity s) g (S754_infinity s)
| special_add_right s f : finite f -> special BAdd f (S754_infinity s) (S754_infinity s)
| special_add_opposite s : special BAdd (S754_infinity s) (S754_infinity (negb s)) S754_nan
| special_sub_left s g : (g = S754_infinity (negb s) \/ finite g) ->
    special BSub (S754_infinity s) g (S754_infinity s)
| special_sub_right s f : finite f -> special BSub f (S754_infinity s) (S754_infinity (negb s))
| special_sub_same s : special BSub (S754_infinity s) (S754_infinity s) S754_nan
| special_mul_left s g : g <> S754_nan -> (forall t, g <> S754_zero t) ->
    special BMul (S754_infinity s) g (S754_infinity (xorb s (negative g)))
| special_mul_right s f : f <> S754_nan -> (forall t, f <> S754_zero t) ->
    special BMul f (S754_infinity s) (S754_infinity (xorb (negative f) s))
| special_mul_zero s t : special BMul (S754_infinity s) (S754_zero t) S754_nan
| special_zero_mul s t : special BMul (S754_zero s) (S754_infinity t) S754_nan
| special_div_left s g : finite g ->
    special BDiv (S754_infinity s) g (S754_infinity (xorb s (negative g)))
| special_div_right s f : finite f ->
    special BDiv f (S754_infinity s) (S754_zero (xorb (negative f) s))
| special_div_both s t : special BDiv (S754_infinity s) (S754_infinity t) S754_nan
| special_div_zero s f : f <> S754_nan -> (forall t, f <> S754_zero t) ->
    special BDiv f (S754_zero s) (S754_infinity (xorb (negative f) s))
| special_zero_zero s t : special BDiv (S754_zero s) (S754_zero t) S754_nan.
