(** The parser with enough fuel, as a solution of its recursive equations. *)

From Coq Require Import String.
From Verif Require Import Base Syntax Tokenizer Parser ParserFacts FuelFacts.

Section Lim.
  Variable slen : N.

  Definition lim (n : nt) (i : list token) : pres expr := parse slen (12 * S (length i)) n i.

  Lemma lim_good n i : good i (lim n i).
  Proof. apply parse_good. pose proof (rank_bound n). lia. Qed.

  Lemma lim_not_fuel n i : lim n i <> PFuel.
  Proof. intros E. pose proof (lim_good n i) as G. now rewrite E in G. Qed.

  Lemma parse_lim f n i : parse slen f n i <> PFuel -> parse slen f n i = lim n i.
  Proof.
    intros NF. unfold lim. destruct (Nat.le_ge_cases f (12 * S (length i))) as [L|L].
    - symmetry. now apply parse_mono.
    - apply parse_mono; [exact L | apply lim_not_fuel].
  Qed.

  Lemma parse_enough f n i : 12 * S (length i) <= f -> parse slen f n i = lim n i.
  Proof. intros L. apply parse_mono; [exact L | apply lim_not_fuel]. Qed.

  Lemma lim_eq n i : lim n i = body slen lim n i.
  Proof.
    rewrite <- (parse_enough (S (12 * S (length i))) n i) by lia. cbn [parse].
    assert (L : forall m, ple (parse slen (12 * S (length i)) m) (lim m)).
    { intros m j. destruct (parse slen (12 * S (length i)) m j) eqn:E; try (right; rewrite <- E; apply parse_lim; congruence).
      now left. }
    destruct (ple_body slen _ _ L n i) as [E|E]; [| exact E].
    exfalso. change (parse slen (S (12 * S (length i))) n i = PFuel) in E.
    rewrite parse_enough in E by lia. now apply lim_not_fuel in E.
  Qed.
End Lim.

(** ** Repetition *)

Inductive many {A} (p : parser A) : list token -> list token -> list A -> Prop :=
| many_stop i e : p i = PErr e -> many p i i []
| many_more i i1 a r l : p i = POk i1 a -> length i1 < length i -> many p i1 r l ->
    many p i r (a :: l).

Lemma many_loop {A} k (p : parser A) i r l : many p i r l ->
  forall fuel, length i < fuel -> many0_loop k fuel p i = POk r l.
Proof.
  induction 1 as [i e E|i i1 a r l E L M IH]; intros [|fuel] F; try lia; simpl; rewrite E.
  - reflexivity.
  - destruct (Nat.eqb_spec (length i1) (length i)); [lia |]. rewrite IH by lia. reflexivity.
Qed.

Lemma many0_many {A} (p : parser A) i r l : many p i r l -> many0 p i = POk r l.
Proof. intros M. unfold many0. apply (many_loop _ _ _ _ _ M). lia. Qed.

Lemma many1_many {A} (p : parser A) i i1 a r l :
  p i = POk i1 a -> many p i1 r l -> many1 p i = POk r (a :: l).
Proof. intros E M. unfold many1. rewrite E. rewrite (many_loop _ _ _ _ _ M) by lia. reflexivity. Qed.

(** Elements after the first one of [separated_list0]. *)
Inductive seps {A B} (s : parser B) (p : parser A) : list token -> list token -> list A -> Prop :=
| seps_stop i e : s i = PErr e -> seps s p i i []
| seps_more i i1 x i2 a r l : s i = POk i1 x -> length i1 < length i ->
    p i1 = POk i2 a -> length i2 <= length i1 -> seps s p i2 r l -> seps s p i r (a :: l).

Lemma seps_loop {A B} (s : parser B) (p : parser A) i r l : seps s p i r l ->
  forall fuel, length i < fuel -> sep_loop fuel s p i = POk r l.
Proof.
  induction 1 as [i e E|i i1 x i2 a r l E L F L2 S IH]; intros [|fuel] G; try lia; simpl; rewrite E.
  - reflexivity.
  - destruct (Nat.eqb_spec (length i1) (length i)); [lia |]. rewrite F, IH by lia. reflexivity.
Qed.

Lemma separated_seps {A B} (s : parser B) (p : parser A) i i1 a r l :
  p i = POk i1 a -> seps s p i1 r l -> separated_list0 s p i = POk r (a :: l).
Proof.
  intros E S. unfold separated_list0. rewrite E. rewrite (seps_loop _ _ _ _ _ S) by lia. reflexivity.
Qed.
