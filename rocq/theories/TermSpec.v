(** A terminal: what the escape sequences of ECMA-48 and DEC do to the screen. *)

From Coq Require Import String List.
From Verif Require Import Base SysSpec.
Import ListNotations.

(** Rows and columns count from 1; the screen has no right or lower border. *)
Record screen := Screen {
  cursor : Z * Z;                     (* row, column *)
  saved : Z * Z;
  cell : Z -> Z -> option chr         (* row, column *)
}.

Definition go (row col : Z) (c : screen) : screen := Screen (row, col) (saved c) (cell c).

(** A character at the cursor, which moves to the right. *)
Definition put (x : chr) (c : screen) : screen :=
  let (row, col) := cursor c in
  Screen (row, col + 1)%Z (saved c)
    (fun i j => if ((i =? row) && (j =? col))%Z then Some x else cell c i j).

Definition visible (x : chr) : Prop := (32 <= x)%N /\ x <> 127%N /\ ~ (128 <= x < 160)%N.

(** ESC and [ *)
Definition csi (t : str) : str := 27%N :: 91%N :: t.

(** The parameter 0 of a movement counts as 1. *)
Definition steps (n : Z) : Z := Z.max 1 n.

(** The terminal reads a text. *)
Inductive reads : str -> screen -> screen -> Prop :=
| reads_end c : reads [] c c
| reads_visible x t c c' : visible x -> reads t (put x c) c' -> reads (x :: t) c c'
| reads_save t c c' :
    reads t (Screen (cursor c) (cursor c) (cell c)) c' -> reads (csi (115%N :: t)) c c'
| reads_restore t c c' :
    reads t (Screen (saved c) (saved c) (cell c)) c' -> reads (csi (117%N :: t)) c c'
| reads_go rt row ct col f t c c' :                     (* ESC [ row ; column H (or f) *)
    written rt row -> written ct col -> (0 < row)%Z -> (0 < col)%Z -> f = 72%N \/ f = 102%N ->
    reads t (go row col c) c' -> reads (csi (rt ++ 59%N :: ct ++ f :: t)) c c'
| reads_home t c c' : reads t (go 1 1 c) c' -> reads (csi (72%N :: t)) c c'
| reads_clear t c c' :
    reads t (Screen (cursor c) (saved c) (fun _ _ => None)) c' -> reads (csi (50%N :: 74%N :: t)) c c'
| reads_up nt n t c c' :
    written nt n -> (0 <= n)%Z ->
    reads t (go (Z.max 1 (fst (cursor c) - steps n)) (snd (cursor c)) c) c' -> reads (csi (nt ++ 65%N :: t)) c c'
| reads_down nt n t c c' :
    written nt n -> (0 <= n)%Z ->
    reads t (go (fst (cursor c) + steps n) (snd (cursor c)) c) c' -> reads (csi (nt ++ 66%N :: t)) c c'
| reads_right nt n t c c' :
    written nt n -> (0 <= n)%Z ->
    reads t (go (fst (cursor c)) (snd (cursor c) + steps n) c) c' -> reads (csi (nt ++ 67%N :: t)) c c'
| reads_left nt n t c c' :
    written nt n -> (0 <= n)%Z ->
    reads t (go (fst (cursor c)) (Z.max 1 (snd (cursor c) - steps n)) c) c' -> reads (csi (nt ++ 68%N :: t)) c c'.

(** The lines [ls] stand on the screen [c'] from ([row], [col]) on, and everything
    else is as on the screen [c]. *)
Definition drawn (row col : Z) (ls : list str) (c c' : screen) : Prop :=
  (forall i l j x, nth_error ls i = Some l -> nth_error l j = Some x ->
     cell c' (row + Z.of_nat i)%Z (col + Z.of_nat j)%Z = Some x)
  /\ (forall a b,
        (forall i l j x, nth_error ls i = Some l -> nth_error l j = Some x ->
           (a, b) <> (row + Z.of_nat i, col + Z.of_nat j)%Z) ->
        cell c' a b = cell c a b).

(** The sequence that sets the title of a window, as xterm defines it: it ends with
    BEL or with ESC and a backslash. *)
Inductive sets_title : str -> str -> Prop :=
| title_bel t : Forall visible t -> sets_title t (27%N :: lit "]2;" ++ t ++ [7%N])
| title_st t : Forall visible t -> sets_title t (27%N :: lit "]2;" ++ t ++ [27; 92]%N).
