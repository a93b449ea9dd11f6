(** Vocabulary of the theorems about widgets. *)

From Coq Require Import List NArith.
From Verif Require Import Base LinesSpec.
Import ListNotations.

(** Lines with a line feed between each two. *)
Inductive stacked : list str -> str -> Prop :=
| stacked_none : stacked [] []
| stacked_one l : single l -> stacked [l] l
| stacked_more l m ls t :
    single l -> stacked (m :: ls) t -> stacked (l :: m :: ls) (l ++ 10%N :: t).

(** A text of [h] lines of [w] characters each. *)
Definition rectangle (w h : nat) (t : str) : Prop :=
  exists rows, stacked rows t /\ length rows = h /\ Forall (fun r => length r = w) rows.

(** [p] is [t], filled up with spaces at its end to [n] characters. *)
Definition filled (t : str) (n : nat) (p : str) : Prop :=
  exists k, p = t ++ repeat 32%N k /\ (n <= length t -> k = 0) /\ (length t <= n -> length p = n).

(** The line [l] of a text in a widget of width [w], and a row without text. *)
Definition row_of (w : nat) (l : option str) (r : str) : Prop :=
  match l with
  | Some l => exists k, r = 32%N :: l ++ repeat 32%N k /\ length r = w
  | None => r = repeat 32%N w
  end.

(** A widget: the title in the middle of the upper border, as many of the lines
    [ls] as there is room for, each in its row, and the lower border. *)
Definition framed (title : str) (ls : list str) (w h : nat) (t : str) : Prop :=
  exists a b rows,
    a + length title + b + 2 = w /\ (b = a \/ b = S a) /\ length rows + 2 = h /\
    (forall k r, nth_error rows k = Some r -> row_of w (nth_error ls k) r) /\
    stacked (([9484%N] ++ repeat 9472%N a ++ title ++ repeat 9472%N b ++ [9488%N])
             :: rows ++ [[9492%N] ++ repeat 9472%N (w - 2) ++ [9496%N]]) t.

(** Row [k] is made of the lines [k] of all blocks, without carriage returns. *)
Definition beside (n : nat) (blocks : list (list str)) (rows : list str) : Prop :=
  length rows = n /\
  forall k r, nth_error rows k = Some r ->
    exists parts,
      Forall2 (fun b p => exists l, nth_error b k = Some l /\ p = filter (fun c => negb (c =? 13)%N) l)
              blocks parts
      /\ r = concat parts.

(** Texts with a line feed between each two. *)
Inductive piled : list str -> str -> Prop :=
| piled_none : piled [] []
| piled_one l : piled [l] l
| piled_more l m ls t : piled (m :: ls) t -> piled (l :: m :: ls) (l ++ 10%N :: t).
