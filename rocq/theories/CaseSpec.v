(** Upper and lower case, bytes and columns. *)

From Coq Require Import List NArith ZArith.
From Verif Require Import Base TextSpec.
Import ListNotations.

(** Texts of characters up to 127. *)
Definition ascii_text (t : str) : Prop := Forall (fun c => (c < 128)%N) t.

Definition small_letter (c : chr) : Prop := (97 <= c <= 122)%N.
Definition capital_letter (c : chr) : Prop := (65 <= c <= 90)%N.

(** [d] is [c] as a capital letter, if [c] is a letter at all; as a small letter. *)
Definition capital (c d : chr) : Prop := (small_letter c /\ c = d + 32)%N \/ (~ small_letter c /\ d = c).
Definition small (c d : chr) : Prop := (capital_letter c /\ d = c + 32)%N \/ (~ capital_letter c /\ d = c).

(** The character at position [i] is the first one or follows a space. *)
Definition begins_word (t : str) (i : nat) : Prop :=
  i = 0 \/ exists j b, i = S j /\ nth_error t j = Some b /\ space b.

(** [u] is [t] with capitals at the beginning of words and small letters elsewhere. *)
Definition titled (t u : str) : Prop :=
  length u = length t
  /\ forall i c d, nth_error t i = Some c -> nth_error u i = Some d ->
       (begins_word t i -> capital c d) /\ (~ begins_word t i -> small c d).

(** How many bytes a text has in UTF-8. *)
Fixpoint bytes (t : str) : Z :=
  match t with
  | [] => 0
  | c :: r => (if (c <? 128)%N then 1 else if (c <? 2048)%N then 2 else if (c <? 65536)%N then 3 else 4) + bytes r
  end%Z.
