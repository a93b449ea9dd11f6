(** Vocabulary of the theorems about printed lists and maps. *)

From Coq Require Import List NArith ZArith.
From Verif Require Import Base Syntax Host LinesSpec.
Import ListNotations.

(** The columns a text takes on the terminal, [cw] giving those of a character. *)
Fixpoint seen (cw : chr -> nat) (t : str) : nat :=
  match t with
  | [] => 0
  | c :: r => cw c + seen cw r
  end.

(** Space and the characters of frames take one column. *)
Definition narrow_frames (cw : chr -> nat) : Prop :=
  cw 32%N = 1 /\ forall c, (9472 <= c < 9600)%N -> cw c = 1.

(** Lines that end at the same column [n]; there are at least two. *)
Definition even_lines (cw : chr -> nat) (n : nat) (t : str) : Prop :=
  exists a ls b, t = with_feeds (a :: ls ++ [b])
    /\ Forall (fun l => single l /\ seen cw l = n) (a :: ls ++ [b]).

(** A part of a frame: [l], then runs of [x] of the given lengths with [m]
    between them, then [r]. *)
Fixpoint runs (m x r : chr) (ns : list nat) : str :=
  match ns with
  | [] => [r]
  | n :: ns => m :: repeat x n ++ runs m x r ns
  end.
Definition edge (l m r x : chr) (ns : list nat) : str :=
  match ns with
  | [] => [l; r]
  | n :: ns => l :: repeat x n ++ runs m x r ns
  end.

(** The borders of lists (heavy strokes) and of maps, for runs of these lengths. *)
Definition list_top := edge 9487%N 9523%N 9491%N 9473%N.
Definition list_bottom := edge 9495%N 9531%N 9499%N 9473%N.
Definition map_top := edge 9554%N 9572%N 9557%N 9552%N.
Definition map_middle := edge 9500%N 9532%N 9508%N 9472%N.
Definition map_bottom := edge 9492%N 9524%N 9496%N 9472%N.

(** Texts with [bar] before, between and after them. *)
Definition barred (bar : chr) (ts : list str) : str :=
  concat (map (fun t => bar :: t) ts) ++ [bar].

(** A text with a space on either side, filled up to [n] columns. *)
Definition cell (cw : chr -> nat) (n : nat) (t : str) : str :=
  32%N :: t ++ repeat 32%N (n - seen cw t) ++ [32%N].

(** Lines with [sep] between each two. *)
Fixpoint ruled (sep : str) (rows : list str) : list str :=
  match rows with
  | [] => []
  | [r] => [r]
  | r :: rows => r :: sep :: ruled sep rows
  end.

(** A value that is printed in one piece. *)
Definition atom (e : expr) : Prop :=
  match e with EString _ | EList _ | EMap _ => False | _ => True end.

(** The text of an element of a list: strings in quotes, others as they are read. *)
Inductive item (H : host) : expr -> str -> Prop :=
| item_string s : item H (EString s) (debug_str H s)
| item_atom e : atom e -> item H e (debug H e).

(** A value that is printed in one piece, or a string. *)
Definition simple (e : expr) : Prop :=
  match e with EList _ | EMap _ | EBuiltin _ => False | _ => True end.

(** [n] is the largest of the numbers. *)
Definition largest (n : nat) (ns : list nat) : Prop := In n ns /\ forall k, In k ns -> k <= n.

(** The bytes of the texts, with one more for each and one more. *)
Fixpoint counted (ts : list str) : N :=
  match ts with
  | [] => 1
  | t :: ts => utf8_len t + 1 + counted ts
  end%N.

(** Somewhere in the value, a list stands under a key that leaves no room for
    it on a terminal of [w] columns. *)
Inductive cramped (w : N) : expr -> Prop :=
| cr_key m k l : In (k, EList l) m -> (w < utf8_len k + 3)%N -> cramped w (EMap m)
| cr_entry m k v : In (k, v) m -> cramped w v -> cramped w (EMap m)
| cr_item l v : In v l -> cramped w v -> cramped w (EList l).
