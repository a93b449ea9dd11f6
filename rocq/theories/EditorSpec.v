(** Vocabulary of the theorems about the line editor. *)

From Coq Require Import String List.
From Verif Require Import Base TextSpec.
Import ListNotations.

(** [s] begins with [p]; [p] is somewhere in [s]. *)
Definition begins (p s : str) : Prop := exists b, s = p ++ b.
Definition within (p s : str) : Prop := exists a b, s = a ++ p ++ b.

(** The commands that are proposed. *)
Definition proposals : list str :=
  map lit ["exit 0"; "ls "; "rm -ri "; "cp -r "; "head "; "tail "; "cd "; "clear"]%string.

(** Accepting a proposal, given as the byte where it starts and the text that is
    put there, when [before] and [after] are the parts of the line before and
    after the cursor: everything from the start to the cursor is replaced. *)
Inductive accepted (start : N) (text before after : str) : str -> Prop :=
| accepts a b : before = a ++ b -> utf8_len a = start ->
    accepted start text before after (a ++ text ++ after).

(** The last word of a line: what follows the last space, quote, semicolon,
    parenthesis or brace. *)
Definition ender (c : chr) : Prop := space c \/ In c (lit ";'(){}") \/ c = 34%N.
Definition last_word (line w : str) : Prop :=
  exists a, line = a ++ w /\ Forall (fun c => ~ ender c) w
    /\ (a = [] \/ exists b c, a = b ++ [c] /\ ender c).
