(** The lines of a text. *)

From Coq Require Import List.
From Verif Require Import Base.
Import ListNotations.

(** A text without a line feed. *)
Definition single (t : str) : Prop := ~ In 10%N t.

(** [l] is [x] without the carriage return at its end, if there is one. *)
Inductive without_return : str -> str -> Prop :=
| wr_return l : without_return (l ++ [13%N]) l
| wr_none l : (forall x, l <> x ++ [13%N]) -> without_return l l.

(** Each line ends with a line feed, which may follow a carriage return; the
    last line may go without, unless it is empty. *)
Inductive lines : str -> list str -> Prop :=
| lines_none : lines [] []
| lines_last t : t <> [] -> single t -> lines t [t]
| lines_line x l r ls :
    single x -> without_return x l -> lines r ls -> lines (x ++ 10%N :: r) (l :: ls).

(** Each of the lines with a line feed after it. *)
Definition with_feeds (ls : list str) : str := concat (map (fun l => l ++ [10%N]) ls).
