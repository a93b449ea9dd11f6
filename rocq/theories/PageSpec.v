(** What a page of a calendar looks like. *)

From Coq Require Import String ZArith List.
From Verif Require Import Base LinesSpec WidgetSpec SysSpec CalendarSpec.
Import ListNotations.
Local Open Scope Z_scope.

(** A number without sign and without needless zeros. *)
Definition numeral (t : str) (z : Z) : Prop :=
  t <> [] /\ denotes_from 0 t z /\ (hd_error t = Some 48%N -> t = [48%N]).

(** Day [i] in a calendar for day [d]: three characters, the number on the
    right, a star before it if it is the day [d]. *)
Definition cell (d i : Z) (c : str) : Prop :=
  exists k x t, numeral t i /\ (i = d -> x = 42%N) /\ (i <> d -> x = 32%N)
                /\ c = repeat 32%N k ++ x :: t /\ length c = 3%nat.

Definition names_of_months : list string :=
  ["January"; "February"; "March"; "April"; "May"; "June"; "July"; "August"; "September"; "October";
   "November"; "December"]%string.

(** The heading is in the middle of 28 columns. *)
Definition heading (y m d : Z) (l : str) : Prop :=
  exists k name td ty words right_,
    nth_error names_of_months (Z.to_nat (m - 1)) = Some name /\ numeral td d /\ numeral ty y
    /\ words = lit name ++ lit " " ++ td ++ lit ", " ++ ty /\ l = repeat 32%N k ++ words
    /\ ((length words <= 27)%nat ->
        (k + length words + right_ = 28 /\ right_ <= k <= S right_)%nat).

(** Every day of the month is in the column of its day of the week, in the row
    of its week, and there is nothing else. *)
Definition page (y m d : Z) (lines : list str) : Prop :=
  (exists l, nth_error lines 0 = Some l /\ heading y m d l)
  /\ nth_error lines 1 = Some (lit " Su  Mo  Tu  We  Th  Fr  Sa")
  /\ (forall i w first, valid (y, m, i) -> weekday (y, m, i) w -> weekday (y, m, 1) first ->
      exists l, nth_error lines (2 + Z.to_nat ((first + i - 1) / 7)) = Some l
                /\ cell d i (firstn 3 (skipn (Z.to_nat (4 * w)) l)))
  /\ (forall r l j x, nth_error lines (2 + r) = Some l -> nth_error l j = Some x -> x <> 32%N ->
      exists i w first, valid (y, m, i) /\ weekday (y, m, i) w /\ weekday (y, m, 1) first
                        /\ r = Z.to_nat ((first + i - 1) / 7) /\ 4 * w <= Z.of_nat j < 4 * w + 3)
  /\ (length lines <= 8)%nat
  /\ Forall (fun l => (length l <= 27)%nat) (tl lines).
