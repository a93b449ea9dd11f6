(** Operators on expressions: src/expr.rs:354-366 and 680-809, and the derived
    equality. *)

From Coq Require Import String Floats.SpecFloat.
From Verif Require Import Base Syntax Host.

(** ** Equality: derived [PartialEq] (src/expr.rs:92, src/env.rs:6) and
    [PartialEq for Builtin] (src/expr.rs:157-160, by name only). *)

(** src/expr.rs:92,156-160 (derived and own [PartialEq]). *)
Fixpoint bytes_eqb (a b : list N) : bool :=
  match a, b with
  | [], [] => true
  | x :: a', y :: b' => (x =? y)%N && bytes_eqb a' b'
  | _, _ => false
  end.

(** src/expr.rs:92,156-160 (derived and own [PartialEq]). *)
Fixpoint expr_eqb (a b : expr) {struct a} : bool :=
  let fix list_eqb (l m : list expr) {struct l} : bool :=
    match l, m with
    | [], [] => true
    | x :: l', y :: m' => expr_eqb x y && list_eqb l' m'
    | _, _ => false
    end in
  let fix map_eqb (l m : list (str * expr)) {struct l} : bool :=
    match l, m with
    | [], [] => true
    | (k, x) :: l', (k', y) :: m' => str_eqb k k' && expr_eqb x y && map_eqb l' m'
    | _, _ => false
    end in
  match a, b with
  | EGroup x, EGroup y => expr_eqb x y
  | ESymbol s, ESymbol t => str_eqb s t
  | EInteger x, EInteger y => (x =? y)%Z
  | EFloat x, EFloat y => f64_eqb x y
  | EBytes x, EBytes y => bytes_eqb x y
  | EString s, EString t => str_eqb s t
  | EBoolean x, EBoolean y => Bool.eqb x y
  | EList l, EList m => list_eqb l m
  | EMap l, EMap m => map_eqb l m
  | ENone, ENone => true
  | EAssign x e, EAssign y f => str_eqb x y && expr_eqb e f
  | EFor x l b, EFor y m c => str_eqb x y && expr_eqb l m && expr_eqb b c
  | EIf c t f, EIf c' t' f' => expr_eqb c c' && expr_eqb t t' && expr_eqb f f'
  | EApply f l, EApply g m => expr_eqb f g && list_eqb l m
  | ELambda p b c, ELambda q d e => str_eqb p q && expr_eqb b d && env_eqb c e
  | EMacro p b, EMacro q d => str_eqb p q && expr_eqb b d
  | EDo l, EDo m => list_eqb l m
  | EBuiltin b, EBuiltin c => str_eqb (b_name b) (b_name c)
  | EQuote x, EQuote y => expr_eqb x y
  | _, _ => false
  end
(* src/expr.rs:92,156-160 (derived and own [PartialEq]). *)
with env_eqb (a b : env) {struct a} : bool :=
  let fix map_eqb (l m : list (str * expr)) {struct l} : bool :=
    match l, m with
    | [], [] => true
    | (k, x) :: l', (k', y) :: m' => str_eqb k k' && expr_eqb x y && map_eqb l' m'
    | _, _ => false
    end in
  match a, b with
  | Env l p, Env m q =>
      map_eqb l m
      && match p, q with
         | None, None => true
         | Some p', Some q' => env_eqb p' q'
         | _, _ => false
         end
  end.

(** ** Order: [PartialOrd for Expression] (src/expr.rs:354-366). *)

(** src/expr.rs:354-366 [PartialOrd]. *)
Fixpoint bytes_cmp (a b : list N) : comparison :=
  match a, b with
  | [], [] => Eq
  | [], _ :: _ => Lt
  | _ :: _, [] => Gt
  | x :: a', y :: b' =>
      match (x ?= y)%N with Eq => bytes_cmp a' b' | c => c end
  end.

(** Lists compare lexicographically ([Vec::partial_cmp]); maps compare as
    their sequences of key-value pairs ([BTreeMap::partial_cmp]).
    src/expr.rs:354-366 [PartialOrd]. *)
Fixpoint expr_cmp (a b : expr) {struct a} : option comparison :=
  match a, b with
  | EInteger x, EInteger y => Some (x ?= y)%Z
  | EFloat x, EFloat y => SFcompare x y
  | EString s, EString t => Some (str_cmp s t)
  | EBytes s, EBytes t => Some (bytes_cmp s t)
  | EList l, EList m =>
      (fix go (l m : list expr) {struct l} : option comparison :=
         match l, m with
         | [], [] => Some Eq
         | [], _ :: _ => Some Lt
         | _ :: _, [] => Some Gt
         | x :: l', y :: m' =>
             match expr_cmp x y with
             | Some Eq => go l' m'
             | o => o
             end
         end) l m
  | EMap l, EMap m =>
      (fix go (l m : list (str * expr)) {struct l} : option comparison :=
         match l, m with
         | [], [] => Some Eq
         | [], _ :: _ => Some Lt
         | _ :: _, [] => Some Gt
         | (k, x) :: l', (k', y) :: m' =>
             match str_cmp k k' with
             | Eq => match expr_cmp x y with
                     | Some Eq => go l' m'
                     | o => o
                     end
             | c => Some c
             end
         end) l m
  | _, _ => None
  end.

(** The provided methods [lt], [le], [gt], [ge] of [PartialOrd].
    src/expr.rs:354-366 [PartialOrd]. *)
Definition expr_lt a b := match expr_cmp a b with Some Lt => true | _ => false end.
(** src/expr.rs:354-366 [PartialOrd]. *)
Definition expr_le a b := match expr_cmp a b with Some (Lt | Eq) => true | _ => false end.
(** src/expr.rs:354-366 [PartialOrd]. *)
Definition expr_gt a b := match expr_cmp a b with Some Gt => true | _ => false end.
(** src/expr.rs:354-366 [PartialOrd]. *)
Definition expr_ge a b := match expr_cmp a b with Some (Gt | Eq) => true | _ => false end.

(** ** Arithmetic.  The result [inl] is a value, [inr] a panic. *)

(** src/expr.rs:684-687,709-712,742-745,768-771. *)
Inductive panic :=
| PRemZero              (* remainder by zero or MIN % -1: panics in every build *)
| PNegOverflow          (* - i64::MIN with overflow checks *)
| PCapacity             (* capacity overflow in str::repeat *)
| PIndex                (* index out of bounds *)
| PArith                (* arithmetic overflow with overflow checks *)
| PBoundary             (* str slice not on a character boundary or out of range *)
| PUnwrap               (* unwrap of None or Err *)
| PAssert.              (* a failed assertion in a library *)

(** src/expr.rs:684-687,709-712,742-745,768-771. *)
Definition checked (z : Z) : expr := if in_i64 z then EInteger z else ENone.

(** src/expr.rs:680-703 [impl Add]. *)
Definition expr_add (a b : expr) : expr :=
  match a, b with
  | EInteger m, EInteger n => checked (m + n)
  | EInteger m, EFloat n => EFloat (f64_add (f64_of_int m) n)
  | EFloat m, EInteger n => EFloat (f64_add m (f64_of_int n))
  | EFloat m, EFloat n => EFloat (f64_add m n)
  | EString m, EString n => EString (m ++ n)
  | EBytes m, EBytes n => EBytes (m ++ n)
  | EList m, EList n => EList (m ++ n)
  | _, _ => ENone
  end.

(** Removing position [n] of a vector ([Vec::remove]): the removed element.  src/expr.rs:720. *)
Definition nth_expr {A} (n : N) (l : list A) : option A := nth_error l (N.to_nat n).

(** src/expr.rs:705-724 [impl Sub].  [m.len() > n as usize] with a negative
    [n] compares with a number of at least 2^63, hence fails. *)
Definition expr_sub (a b : expr) : expr :=
  match a, b with
  | EInteger m, EInteger n => checked (m - n)
  | EInteger m, EFloat n => EFloat (f64_sub (f64_of_int m) n)
  | EFloat m, EInteger n => EFloat (f64_sub m (f64_of_int n))
  | EFloat m, EFloat n => EFloat (f64_sub m n)
  | EMap m, EString n => match bm_get n m with Some v => v | None => ENone end
  | EList m, EInteger n =>
      if (as_usize n <? N.of_nat (length m))%N
      then match nth_expr (as_usize n) m with Some v => v | None => ENone end
      else ENone
  | _, _ => ENone
  end.

(** src/expr.rs:726-736 [impl Neg]. *)
Definition expr_neg (ovf : overflow_mode) (a : expr) : expr + panic :=
  match a with
  | EInteger n =>
      if in_i64 (- n) then inl (EInteger (- n))
      else match ovf with
           | OvfPanic => inr PNegOverflow
           | OvfWrap => inl (EInteger (wrap64 (- n)))
           end
  | EBoolean b => inl (EBoolean (negb b))
  | EFloat n => inl (EFloat (f64_neg n))
  | _ => inl ENone
  end.

(** src/expr.rs:752-757. *)
Fixpoint repeat_list {A} (n : nat) (l : list A) : list A :=
  match n with O => [] | S n' => l ++ repeat_list n' l end.

(** [m.repeat(n as usize)]: panics when the byte length exceeds isize::MAX.
    Simplification: running out of memory below that bound is not modelled.
    src/expr.rs:749-751. *)
Definition str_repeat (m : str) (n : Z) : expr + panic :=
  if (utf8_len m * as_usize n <? 2 ^ 63)%N
  then inl (EString (if (utf8_len m =? 0)%N then [] else repeat_list (N.to_nat (as_usize n)) m))
  else inr PCapacity.

(** src/expr.rs:738-762 [impl Mul]. *)
Definition expr_mul (a b : expr) : expr + panic :=
  match a, b with
  | EInteger m, EInteger n => inl (checked (m * n))
  | EInteger m, EFloat n => inl (EFloat (f64_mul (f64_of_int m) n))
  | EFloat m, EInteger n => inl (EFloat (f64_mul m (f64_of_int n)))
  | EFloat m, EFloat n => inl (EFloat (f64_mul m n))
  | EString m, EInteger n | EInteger n, EString m => str_repeat m n
  | EList m, EInteger n | EInteger n, EList m =>
      inl (EList (repeat_list (Z.to_nat n) m))
  | _, _ => inl ENone
  end.

(** src/expr.rs:764-778 [impl Div]; [checked_div] is [None] for a zero divisor
    and for MIN / -1. *)
Definition expr_div (a b : expr) : expr :=
  match a, b with
  | EInteger m, EInteger n => if (n =? 0)%Z then ENone else checked (Z.quot m n)
  | EInteger m, EFloat n => EFloat (f64_div (f64_of_int m) n)
  | EFloat m, EInteger n => EFloat (f64_div m (f64_of_int n))
  | EFloat m, EFloat n => EFloat (f64_div m n)
  | _, _ => ENone
  end.

(** src/expr.rs:780-788 [impl Rem]: the plain [%], which panics for a zero
    divisor and for MIN % -1 in every build profile. *)
Definition expr_rem (a b : expr) : expr + panic :=
  match a, b with
  | EInteger m, EInteger n =>
      if (n =? 0)%Z then inr PRemZero
      else if in_i64 (Z.quot m n) then inl (EInteger (Z.rem m n)) else inr PRemZero
  | _, _ => inl ENone
  end.

(** src/expr.rs:790-809 [impl Index]. *)
Definition expr_index (a i : expr) : expr :=
  match a, i with
  | EMap m, ESymbol name | EMap m, EString name =>
      match bm_get name m with Some v => v | None => ENone end
  | EList l, EInteger n =>
      if (as_usize n <? N.of_nat (length l))%N
      then match nth_expr (as_usize n) l with Some v => v | None => ENone end
      else ENone
  | _, _ => ENone
  end.
