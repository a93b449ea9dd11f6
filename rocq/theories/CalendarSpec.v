(** The Gregorian calendar, for the functions in the start-up scripts. *)

From Coq Require Import ZArith List.
Import ListNotations.
Local Open Scope Z_scope.

(** A leap year. *)
Definition leap (y : Z) : Prop := (4 | y) /\ (~ (100 | y) \/ (400 | y)).

(** The lengths of the months. *)
Definition month_length (y m n : Z) : Prop :=
  match m with
  | 2 => leap y /\ n = 29 \/ ~ leap y /\ n = 28
  | 4 | 6 | 9 | 11 => n = 30
  | 1 | 3 | 5 | 7 | 8 | 10 | 12 => n = 31
  | _ => False
  end.

(** Dates: year, month and day. *)
Definition date : Type := (Z * Z * Z)%type.

Definition valid (t : date) : Prop :=
  let '(y, m, d) := t in exists n, month_length y m n /\ 1 <= d <= n.

(** The day after a date. *)
Inductive next_day : date -> date -> Prop :=
| next_in_month y m d n : month_length y m n -> 1 <= d < n -> next_day (y, m, d) (y, m, d + 1)
| next_month y m n : month_length y m n -> 1 <= m < 12 -> next_day (y, m, n) (y, m + 1, 1)
| next_year y : next_day (y, 12, 31) (y + 1, 1, 1).

(** The days of the week, Sunday is 0; 1 January 2000 was a Saturday. *)
Inductive weekday : date -> Z -> Prop :=
| weekday_known : weekday (2000, 1, 1) 6
| weekday_after t u w : next_day t u -> weekday t w -> weekday u ((w + 1) mod 7)
| weekday_before t u w : next_day t u -> weekday u w -> weekday t ((w - 1) mod 7).
