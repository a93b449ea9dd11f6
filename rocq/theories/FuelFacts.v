(** More fuel does not change the result of the parser. *)

From Coq Require Import String.
From Verif Require Import Base Syntax Tokenizer Parser.

(** [s] is [r], unless [r] ran out of fuel. *)
Definition rle {A} (r s : pres A) : Prop := r = PFuel \/ r = s.
Definition ple {A} (p q : parser A) : Prop := forall i, rle (p i) (q i).

Lemma rle_refl {A} (r : pres A) : rle r r.
Proof. now right. Qed.

Lemma rle_bind {A B} (m m' : pres A) (k k' : list token -> A -> pres B) :
  rle m m' -> (forall i a, rle (k i a) (k' i a)) -> rle (pbind m k) (pbind m' k').
Proof.
  intros [->| ->] K; [now left |]. destruct m'; simpl; try apply rle_refl. apply K.
Qed.

Lemma rle_fail {A} e (m m' : pres A) : rle m m' -> rle (map_fail e m) (map_fail e m').
Proof. intros [->| ->]; [now left | now right]. Qed.

Lemma rle_alt_rest {A} (ps qs : list (parser A)) : Forall2 ple ps qs ->
  forall e i, rle (alt_rest ps e i) (alt_rest qs e i).
Proof.
  induction 1 as [|p q ps qs P F IH]; intros e i; simpl; [apply rle_refl |].
  destruct (P i) as [->| ->]; [now left |]. destruct (q i); try apply rle_refl. apply IH.
Qed.

Lemma ple_alt {A} (ps qs : list (parser A)) : Forall2 ple ps qs -> ple (alt ps) (alt qs).
Proof.
  intros F i. destruct F as [|p q ps qs P F]; simpl; [apply rle_refl |].
  destruct (P i) as [->| ->]; [now left |]. destruct (q i); try apply rle_refl. now apply rle_alt_rest.
Qed.

Lemma ple_opt {A} (p q : parser A) : ple p q -> ple (opt p) (opt q).
Proof. intros P i. unfold opt. destruct (P i) as [->| ->]; [now left | now right]. Qed.

Lemma ple_many0_loop {A} k fuel (p q : parser A) : ple p q -> ple (many0_loop k fuel p) (many0_loop k fuel q).
Proof.
  intros P. induction fuel as [|fuel IH]; intros i; simpl; [now left |].
  destruct (P i) as [->| ->]; [now left |]. destruct (q i) as [i1 a| | | |]; try apply rle_refl.
  destruct (Nat.eqb _ _); [apply rle_refl |]. apply rle_bind; [apply IH | intros; apply rle_refl].
Qed.

Lemma ple_many0 {A} (p q : parser A) : ple p q -> ple (many0 p) (many0 q).
Proof. intros P i. unfold many0. now apply ple_many0_loop. Qed.

Lemma ple_many1 {A} (p q : parser A) : ple p q -> ple (many1 p) (many1 q).
Proof.
  intros P i. unfold many1. destruct (P i) as [->| ->]; [now left |].
  destruct (q i) as [i1 a| | | |]; try apply rle_refl.
  apply rle_bind; [now apply ple_many0_loop | intros; apply rle_refl].
Qed.

Lemma ple_sep_loop {A B} fuel (s : parser B) (p q : parser A) :
  ple p q -> ple (sep_loop fuel s p) (sep_loop fuel s q).
Proof.
  intros P. induction fuel as [|fuel IH]; intros i; simpl; [now left |].
  destruct (s i) as [i1 a| | | |]; try apply rle_refl.
  destruct (Nat.eqb _ _); [apply rle_refl |].
  destruct (P i1) as [->| ->]; [now left |]. destruct (q i1) as [i2 b| | | |]; try apply rle_refl.
  apply rle_bind; [apply IH | intros; apply rle_refl].
Qed.

Lemma ple_separated {A B} (s : parser B) (p q : parser A) :
  ple p q -> ple (separated_list0 s p) (separated_list0 s q).
Proof.
  intros P i. unfold separated_list0. destruct (P i) as [->| ->]; [now left |].
  destruct (q i) as [i1 a| | | |]; try apply rle_refl.
  apply rle_bind; [now apply ple_sep_loop | intros; apply rle_refl].
Qed.

Lemma ple_refl {A} (p : parser A) : ple p p.
Proof. intros i. apply rle_refl. Qed.

Lemma ple_infix ops p q : ple p q -> ple (infix ops p) (infix ops q).
Proof.
  intros P i. unfold infix. apply rle_bind; [apply P |]. intros j h.
  apply rle_bind; [| intros; apply rle_refl]. apply ple_many0. intros k. unfold pair_p.
  apply rle_bind; [apply rle_refl |]. intros. apply rle_bind; [apply P | intros; apply rle_refl].
Qed.

Section Body.
  Variable slen : N.
  Variables call call' : nt -> parser expr.
  Hypothesis Call : forall n, ple (call n) (call' n).

  Ltac each := repeat (apply Forall2_cons || apply Forall2_nil); first [apply Call | apply ple_refl].
  Ltac r := apply rle_bind; [first [apply rle_refl | apply Call | apply rle_fail, Call] |]; intros.

  Lemma ple_body n : ple (body slen call n) (body slen call' n).
  Proof.
    intros i. destruct n; cbn [body].
    - apply rle_bind; [apply ple_many0, Call |]. intros.
      apply rle_bind; [| intros; apply rle_refl]. apply ple_opt. intros j. r. apply rle_refl.
    - r. apply rle_refl.
    - r. apply rle_bind; [apply ple_infix, Call |]. intros. apply rle_refl.
    - r. apply ple_alt. simpl. each.
    - r. r. r. apply rle_bind; [apply rle_fail, ple_alt; each |]. intros.
      r. apply rle_refl.
    - r. r. r. apply rle_bind; [| intros; apply rle_refl]. apply ple_opt. intros j. unfold preceded.
      r. apply ple_alt. each.
    - r. r. r. r. apply rle_refl.
    - r. r. r. apply rle_refl.
    - apply rle_bind; [apply ple_alt; each |]. intros.
      apply rle_bind; [apply ple_many1, Call | intros; apply rle_refl].
    - r. apply rle_bind; [apply ple_many0, Call | intros; apply rle_refl].
    - r. apply rle_bind; [apply ple_infix, Call | intros; apply rle_refl].
    - r. r. r. r. apply rle_refl.
    - r. apply rle_bind; [apply ple_infix, Call |]. intros j [h l]. destruct l; [| apply rle_refl].
      assert (N : rle match call NNot j with
                      | POk i2 e => POk i2 e | PPanic => PPanic | PFuel => PFuel | _ => POk j h end
                      match call' NNot j with
                      | POk i2 e => POk i2 e | PPanic => PPanic | PFuel => PFuel | _ => POk j h end)
        by (destruct (Call NNot j) as [->| ->]; [now left | apply rle_refl]).
      destruct (text _ j); try exact N. r. apply rle_refl.
    - r. r. apply rle_refl.
    - r. apply rle_bind; [apply ple_infix, Call | intros; apply rle_refl].
    - r. apply rle_bind; [apply ple_infix, Call | intros; apply rle_refl].
    - r. r. apply rle_bind; [| intros; apply rle_refl]. apply ple_many0. intros j. unfold preceded.
      r. apply ple_alt. each.
    - apply ple_alt. each.
    - r. r. apply rle_refl.
    - r. r. apply rle_refl.
    - r. apply rle_bind; [| intros; apply rle_refl]. apply ple_separated. intros j. unfold separated_pair.
      r. r. r. apply rle_refl.
    - r. r. apply rle_refl.
    - r. apply rle_bind; [apply ple_separated, Call | intros; apply rle_refl].
  Qed.
End Body.

Lemma parse_more slen fuel : forall n i, rle (parse slen fuel n i) (parse slen (S fuel) n i).
Proof.
  induction fuel as [|fuel IH]; intros n i; [now left |].
  cbn [parse]. apply ple_body. exact IH.
Qed.

Lemma parse_mono slen n i f g : f <= g -> parse slen f n i <> PFuel ->
  parse slen g n i = parse slen f n i.
Proof.
  intros L. induction L as [|g L IH]; intros NF; [reflexivity |].
  destruct (parse_more slen g n i) as [E|E]; specialize (IH NF); congruence.
Qed.
