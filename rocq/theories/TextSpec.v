(** Spaces at the ends of texts. *)

From Coq Require Import List NArith.
From Verif Require Import Base.
Import ListNotations.

(** The characters with the Unicode property White_Space. *)
Definition space (c : chr) : Prop :=
  (9 <= c <= 13)%N \/ (8192 <= c <= 8202)%N
  \/ In c [32; 133; 160; 5760; 8232; 8233; 8239; 8287; 12288]%N.

(** [t] neither begins nor ends with a space. *)
Definition begins_with_text (t : str) : Prop := forall c r, t = c :: r -> ~ space c.
Definition ends_with_text (t : str) : Prop := forall c r, t = r ++ [c] -> ~ space c.

(** [t] is [s] without the spaces at its beginning; at its end; at both. *)
Definition trimmed_start (s t : str) : Prop :=
  exists a, s = a ++ t /\ Forall space a /\ begins_with_text t.
Definition trimmed_end (s t : str) : Prop :=
  exists b, s = t ++ b /\ Forall space b /\ ends_with_text t.
Definition trimmed (s t : str) : Prop :=
  exists a b, s = a ++ t ++ b /\ Forall space a /\ Forall space b
              /\ begins_with_text t /\ ends_with_text t.
