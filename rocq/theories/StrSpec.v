(** Words, paragraphs, replacing and case of texts. *)

From Coq Require Import List NArith.
From Verif Require Import Base Syntax TextSpec.
Import ListNotations.

(** The values that are texts: strings and symbols. *)
Inductive text : expr -> str -> Prop :=
| text_string t : text (EString t) t
| text_symbol t : text (ESymbol t) t.

(** A word is not empty and has no space in it. *)
Definition word (w : str) : Prop := w <> [] /\ Forall (fun c => ~ space c) w.

(** The words of a text: spaces around them, at least one between two. *)
Inductive words : str -> list str -> Prop :=
| words_none a : Forall space a -> words a []
| words_last a w : Forall space a -> word w -> words (a ++ w) [w]
| words_more a w c r ws :
    Forall space a -> word w -> space c -> words r ws -> words (a ++ w ++ c :: r) (w :: ws).

(** [p] is part of [t]. *)
Definition inside (p t : str) : Prop := exists x y, t = x ++ p ++ y.

(** [t] is [a], then [p], then [r], and [p] does not begin any earlier in [t]. *)
Definition first_at (p a r t : str) : Prop :=
  t = a ++ p ++ r /\ forall x y, t = x ++ p ++ y -> length a <= length x.

(** Cutting a text at the separators, from left to right. *)
Inductive cut (sep : str) : str -> list str -> Prop :=
| cut_none t : ~ inside sep t -> cut sep t [t]
| cut_first t a r ps : first_at sep a r t -> cut sep r ps -> cut sep t (a :: ps).

(** [u] is [t] with [new] in place of every [old], from left to right. *)
Inductive replaced (old new : str) : str -> str -> Prop :=
| replaced_none t : ~ inside old t -> replaced old new t t
| replaced_first t a r u :
    first_at old a r t -> replaced old new r u -> replaced old new t (a ++ new ++ u).

(** [u] is [t] with [new] before, between and after the characters. *)
Inductive spread (new : str) : str -> str -> Prop :=
| spread_end : spread new [] new
| spread_char c t u : spread new t u -> spread new (c :: t) (new ++ c :: u).
