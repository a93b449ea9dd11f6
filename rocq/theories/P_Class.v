(** C108: the kinds of characters in a text. *)

From Coq Require Import String List Lia NArith ZArith Bool.
From Verif Require Import Base Syntax Host Ops ErrorFmt Text Monad Builtins Eval EvalSpec
  LibFacts LibSpec MapFacts EvalFacts CmdFacts StrSpec Init Demo P_Str.
Import ListNotations.

(** Letters and digits of ASCII. *)
Definition letter (c : chr) : Prop := (65 <= c <= 90)%N \/ (97 <= c <= 122)%N.
Definition numeral (c : chr) : Prop := (48 <= c <= 57)%N.

(** The builtin, and what every character of the text has to be. *)
Inductive kind : bid -> (chr -> Prop) -> Prop :=
| kind_alpha : kind SIsAlpha letter
| kind_numeric : kind SIsNumeric numeral
| kind_both : kind SIsAlphanumeric (fun c => letter c \/ numeral c).

(** What the three builtins compute, with the classes of the model. *)
Lemma kinds_call H a s v t s' :
  gives H a s v s' -> text v t ->
  calls H SIsAlpha [a] s (ROk (EBoolean (forallb (chr_alphabetic H) t))) s'
  /\ calls H SIsNumeric [a] s (ROk (EBoolean (forallb (chr_numeric H) t))) s'
  /\ calls H SIsAlphanumeric [a] s (ROk (EBoolean (forallb (chr_alphanumeric H) t))) s'.
Proof.
  intros A T. split; [| split].
  - exact (on_text_calls H SIsAlpha (fun s => EBoolean (forallb (chr_alphabetic H) s)) a s v t s'
             (fun _ => eq_refl) A T).
  - exact (on_text_calls H SIsNumeric (fun s => EBoolean (forallb (chr_numeric H) s)) a s v t s'
             (fun _ => eq_refl) A T).
  - exact (on_text_calls H SIsAlphanumeric (fun s => EBoolean (forallb (chr_alphanumeric H) s)) a s v t s'
             (fun _ => eq_refl) A T).
Qed.

(** A text of ASCII characters is of a kind if every character is. *)
Theorem C108_ascii H b P a s v t s' :
  kind b P -> gives H a s v s' -> text v t -> Forall (fun c => (c < 128)%N) t ->
  exists q, calls H b [a] s (ROk (EBoolean q)) s' /\ (q = true <-> Forall P t).
Proof.
  intros K A T F.
  assert (LE : forall c, (c < 128)%N -> chr_alphabetic H c = true <-> letter c).
  { intros c L. unfold chr_alphabetic, letter. apply N.ltb_lt in L. rewrite L.
    unfold is_lower, is_upper. rewrite orb_true_iff, !andb_true_iff, !N.leb_le. lia. }
  assert (NU : forall c, (c < 128)%N -> chr_numeric H c = true <-> numeral c).
  { intros c L. unfold chr_numeric, numeral. apply N.ltb_lt in L. rewrite L.
    unfold is_digit. rewrite andb_true_iff, !N.leb_le. lia. }
  assert (ALL : forall f Q, (forall c, (c < 128)%N -> f c = true <-> Q c) ->
                            forallb f t = true <-> Forall Q t).
  { intros f Q E. rewrite forallb_forall, Forall_forall. rewrite Forall_forall in F.
    split; intros X c I; apply E; auto; now apply X. }
  destruct K;
    [exists (forallb (chr_alphabetic H) t) | exists (forallb (chr_numeric H) t)
    | exists (forallb (chr_alphanumeric H) t)];
    (split; [apply (kinds_call H a s v t s' A T) |]);
    apply ALL.
  - exact LE.
  - exact NU.
  - intros c L. unfold chr_alphanumeric. rewrite orb_true_iff, LE, NU by exact L. tauto.
Qed.

(** For every text, whatever characters it has: it is of a kind if each of its
    characters alone is, and a character is alphanumeric if it is alphabetic
    or numeric. *)
Theorem C108_each_character H b P :
  kind b P ->
  exists f, forall a s v t s', gives H a s v s' -> text v t ->
    exists q, calls H b [a] s (ROk (EBoolean q)) s' /\ (q = true <-> Forall (fun c => f [c] = true) t)
              /\ q = f t.
Proof.
  intros K. destruct K;
    [exists (forallb (chr_alphabetic H)) | exists (forallb (chr_numeric H))
    | exists (forallb (chr_alphanumeric H))]; intros a s v t s' A T;
    [exists (forallb (chr_alphabetic H) t) | exists (forallb (chr_numeric H) t)
    | exists (forallb (chr_alphanumeric H) t)];
    (split; [apply (kinds_call H a s v t s' A T)
            | split; [| reflexivity]]);
    rewrite forallb_forall, Forall_forall; cbn [forallb]; setoid_rewrite andb_true_r; reflexivity.
Qed.

Theorem C108_alphanumeric H a s v c s' q1 q2 :
  gives H a s v s' -> text v [c] ->
  calls H SIsAlpha [a] s (ROk (EBoolean q1)) s' -> calls H SIsNumeric [a] s (ROk (EBoolean q2)) s' ->
  calls H SIsAlphanumeric [a] s (ROk (EBoolean (q1 || q2))) s'.
Proof.
  intros A T C1 C2.
  destruct (kinds_call H a s v [c] s' A T) as (D1 & D2 & D3).
  destruct (calls_det _ _ _ _ _ _ _ _ C1 D1) as [X _]. injection X as ->.
  destruct (calls_det _ _ _ _ _ _ _ _ C2 D2) as [X _]. injection X as ->.
  cbn [forallb] in *. unfold chr_alphanumeric in D3. rewrite !andb_true_r in *. exact D3.
Qed.

(** The empty text is of every kind. *)
Theorem C108_empty H b P a s v s' :
  kind b P -> gives H a s v s' -> text v [] -> calls H b [a] s (ROk (EBoolean true)) s'.
Proof.
  intros K A T. destruct (C108_ascii H b P a s v [] s' K A T) as (q & C & E); [constructor |].
  now rewrite (proj2 E) in C by constructor.
Qed.

(** Other values are refused. *)
Theorem C108_others H b P a s v s' tv :
  kind b P -> gives H a s v s' -> shown H v tv -> (forall t, ~ text v t) ->
  calls H b [a] s (RErr (CustomError (lit "expected string, got value " ++ tv))) s'.
Proof.
  intros K A S T. destruct K; (eapply on_text_fails; [reflexivity | exact A | exact S | exact T]).
Qed.

Example C108_example :
  value_of "string@is-alpha? ""abC""" = ROk (EBoolean true)
  /\ value_of "string@is-alpha? ""ab1""" = ROk (EBoolean false)
  /\ value_of "string@is-alphanumeric? ""ab1""" = ROk (EBoolean true)
  /\ value_of "string@is-alphanumeric? ""a b""" = ROk (EBoolean false)
  /\ value_of "string@is-numeric? ""123""" = ROk (EBoolean true)
  /\ value_of "string@is-numeric? ""1.5""" = ROk (EBoolean false)
  /\ value_of "string@is-numeric? 5" = RErr (CustomError (lit "expected string, got value 5")).
Proof. repeat split; vm_compute; reflexivity. Qed.

Print Assumptions C108_ascii.
Print Assumptions C108_each_character.
Print Assumptions C108_alphanumeric.
Print Assumptions C108_empty.
Print Assumptions C108_others.
