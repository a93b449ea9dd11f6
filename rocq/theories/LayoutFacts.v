(** The parser looks only at the kinds and texts of tokens. *)

From Coq Require Import String.
From Verif Require Import Base Syntax Tokenizer Parser.

(** Same kind and text, wherever in the source. *)
Definition same (t u : token) : Prop := t_kind t = t_kind u /\ t_text t = t_text u.

Definition sim (i j : list token) : Prop := Forall2 same i j.

Lemma sim_length i j : sim i j -> length i = length j.
Proof. induction 1; simpl; congruence. Qed.

(** Both succeed alike, or both fail in the same way; error values may differ. *)
Definition rsim {A} (R : A -> A -> Prop) (r s : pres A) : Prop :=
  match r, s with
  | POk i a, POk j b => sim i j /\ R a b
  | PErr _, PErr _ | PFail _, PFail _ | PPanic, PPanic | PFuel, PFuel => True
  | _, _ => False
  end.

Definition psim {A} (R : A -> A -> Prop) (p q : parser A) : Prop :=
  forall i j, sim i j -> rsim R (p i) (q j).

Lemma rsim_bind {A B} (R : A -> A -> Prop) (Q : B -> B -> Prop) m m' k k' :
  rsim R m m' -> (forall i j a b, sim i j -> R a b -> rsim Q (k i a) (k' j b)) ->
  rsim Q (pbind m k) (pbind m' k').
Proof. intros S K. destruct m, m'; simpl in *; try tauto. now apply K. Qed.

Lemma rsim_fail {A} (R : A -> A -> Prop) e e' m m' :
  rsim R m m' -> rsim R (map_fail e m) (map_fail e' m').
Proof. destruct m, m'; simpl; tauto. Qed.
Lemma rsim_expected {A} (R : A -> A -> Prop) e e' m m' :
  rsim R m m' -> rsim R (map_expected e m) (map_expected e' m').
Proof. destruct m, m'; simpl; tauto. Qed.

Lemma psim_pmap {A B} (R : A -> A -> Prop) (Q : B -> B -> Prop) f f' p p' :
  psim R p p' -> (forall a b, R a b -> Q (f a) (f' b)) -> psim Q (pmap f p) (pmap f' p').
Proof.
  intros P K i j S. unfold pmap. eapply rsim_bind; [now apply P |].
  intros i' j' a b S' AB. simpl. auto.
Qed.

Lemma rsim_alt_rest {A} (R : A -> A -> Prop) ps qs : Forall2 (psim R) ps qs ->
  forall e e' i j, sim i j -> rsim R (alt_rest ps e i) (alt_rest qs e' j).
Proof.
  induction 1 as [|p q ps qs P F IH]; intros e e' i j S; simpl; [exact I |].
  pose proof (P i j S) as X. destruct (p i), (q j); simpl in *; try tauto. now apply IH.
Qed.

Lemma psim_alt {A} (R : A -> A -> Prop) ps qs : Forall2 (psim R) ps qs -> psim R (alt ps) (alt qs).
Proof.
  intros F i j S. destruct F as [|p q ps qs P F]; simpl; [exact I |].
  pose proof (P i j S) as X. destruct (p i), (q j); simpl in *; try tauto.
  now apply rsim_alt_rest.
Qed.

Definition opt_rel {A} (R : A -> A -> Prop) (x y : option A) : Prop :=
  match x, y with Some a, Some b => R a b | None, None => True | _, _ => False end.

Lemma psim_opt {A} (R : A -> A -> Prop) p q : psim R p q -> psim (opt_rel R) (opt p) (opt q).
Proof.
  intros P i j S. unfold opt. pose proof (P i j S) as X.
  destruct (p i), (q j); simpl in *; try tauto.
Qed.

Lemma rsim_many0_loop {A} (R : A -> A -> Prop) k p q : psim R p q ->
  forall fuel i j, sim i j -> rsim (Forall2 R) (many0_loop k fuel p i) (many0_loop k fuel q j).
Proof.
  intros P. induction fuel as [|fuel IH]; intros i j S; simpl; [exact I |].
  pose proof (P i j S) as X.
  destruct (p i) as [i1 a| | | |], (q j) as [j1 b| | | |]; simpl in X; try tauto; try exact I.
  - destruct X as [S1 AB]. rewrite (sim_length _ _ S1), (sim_length _ _ S).
    destruct (Nat.eqb _ _); [exact I |].
    eapply rsim_bind; [now apply IH |]. intros. simpl. auto.
  - simpl. auto.
Qed.

Lemma psim_many0 {A} (R : A -> A -> Prop) p q : psim R p q -> psim (Forall2 R) (many0 p) (many0 q).
Proof.
  intros P i j S. unfold many0. rewrite (sim_length _ _ S). now apply rsim_many0_loop.
Qed.

Lemma psim_many1 {A} (R : A -> A -> Prop) p q : psim R p q -> psim (Forall2 R) (many1 p) (many1 q).
Proof.
  intros P i j S. unfold many1. pose proof (P i j S) as X.
  destruct (p i) as [i1 a| | | |], (q j) as [j1 b| | | |]; simpl in X; try tauto; try exact I.
  destruct X as [S1 AB]. rewrite (sim_length _ _ S1).
  eapply rsim_bind; [apply rsim_many0_loop; eassumption |]. intros. simpl. auto.
Qed.

Lemma rsim_sep_loop {A B} (R : A -> A -> Prop) (Q : B -> B -> Prop) s s' p p' :
  psim Q s s' -> psim R p p' ->
  forall fuel i j, sim i j -> rsim (Forall2 R) (sep_loop fuel s p i) (sep_loop fuel s' p' j).
Proof.
  intros Ps Pp. induction fuel as [|fuel IH]; intros i j S; simpl; [exact I |].
  pose proof (Ps i j S) as X.
  destruct (s i) as [i1 a| | | |], (s' j) as [j1 b| | | |]; simpl in X; try tauto; try exact I.
  - destruct X as [S1 AB]. rewrite (sim_length _ _ S1), (sim_length _ _ S).
    destruct (Nat.eqb _ _); [exact I |]. pose proof (Pp i1 j1 S1) as Y.
    destruct (p i1) as [i2 c| | | |], (p' j1) as [j2 d| | | |]; simpl in Y; try tauto; try exact I.
    + destruct Y as [S2 CD]. eapply rsim_bind; [now apply IH |]. intros. simpl. auto.
    + simpl. auto.
  - simpl. auto.
Qed.

Lemma psim_separated {A B} (R : A -> A -> Prop) (Q : B -> B -> Prop) s s' p p' :
  psim Q s s' -> psim R p p' ->
  psim (Forall2 R) (separated_list0 s p) (separated_list0 s' p').
Proof.
  intros Ps Pp i j S. unfold separated_list0. pose proof (Pp i j S) as Y.
  destruct (p i) as [i2 c| | | |], (p' j) as [j2 d| | | |]; simpl in Y; try tauto; try exact I.
  - destruct Y as [S2 CD]. rewrite (sim_length _ _ S2).
    eapply rsim_bind; [eapply rsim_sep_loop; eassumption |]. intros. simpl. auto.
  - simpl. auto.
Qed.

Lemma psim_kind k : psim same (kind k) (kind k).
Proof.
  intros i j S. unfold kind. destruct S as [|t u i j T S]; [exact I |]. destruct T as [K T].
  rewrite K. destruct (kind_eqb _ _); simpl; [| exact I]. split; [exact S | now split].
Qed.

Lemma psim_text s : psim same (text s) (text s).
Proof.
  intros i j S. unfold text. destruct S as [|t u i j T S]; [exact I |]. destruct T as [K T].
  rewrite T. destruct (str_eqb _ _); simpl; [| exact I]. split; [exact S | now split].
Qed.

Lemma psim_texts l : psim same (alt (map text l)) (alt (map text l)).
Proof. apply psim_alt. induction l; simpl; constructor; [apply psim_text | assumption]. Qed.

Lemma psim_empty : psim eq empty empty.
Proof. intros i j S. unfold empty. destruct S; simpl; [split; [constructor | reflexivity] | exact I]. Qed.

Lemma psim_symbol : psim eq parse_symbol parse_symbol.
Proof. apply (psim_pmap same); [apply psim_kind | now intros a b []]. Qed.
Lemma psim_operator : psim eq parse_operator parse_operator.
Proof. apply (psim_pmap same); [apply psim_kind | now intros a b []]. Qed.
Lemma psim_operator_symbol : psim eq parse_operator_as_symbol parse_operator_as_symbol.
Proof. apply (psim_pmap eq); [apply psim_operator | now intros a b ->]. Qed.
Lemma psim_boolean : psim eq parse_boolean parse_boolean.
Proof. apply (psim_pmap same); [apply psim_kind | now intros a b [_ ->]]. Qed.
Lemma psim_integer : psim eq parse_integer parse_integer.
Proof.
  intros i j S. unfold parse_integer. eapply rsim_bind; [apply psim_kind, S |].
  intros i' j' a b S' [_ ->]. destruct (parse_i64 _); simpl; auto.
Qed.
Lemma psim_float : psim eq parse_float parse_float.
Proof.
  intros i j S. unfold parse_float. eapply rsim_bind; [apply psim_kind, S |].
  intros i' j' a b S' [_ ->]. destruct (parse_f64 _); simpl; auto.
Qed.
Lemma psim_string : psim eq parse_string parse_string.
Proof.
  intros i j S. unfold parse_string. eapply rsim_bind; [apply psim_kind, S |].
  intros i' j' a b S' [_ ->]. destruct (unescape _); simpl; auto.
Qed.

Section Body.
  Variables slen slen' : N.

  Lemma psim_none : psim eq (parse_none slen) (parse_none slen').
  Proof.
    intros i j S. unfold parse_none. pose proof (psim_text (lit "None") i j S) as X.
    assert (Y : rsim eq
      match i with
      | a :: b :: r => if str_eqb (t_text a) (lit "(") && str_eqb (t_text b) (lit ")")
                       then POk r tt else PErr (exp_at slen i (lit "None or ()") None None)
      | _ => PErr (exp_at slen i (lit "None or ()") None None)
      end
      match j with
      | a :: b :: r => if str_eqb (t_text a) (lit "(") && str_eqb (t_text b) (lit ")")
                       then POk r tt else PErr (exp_at slen' j (lit "None or ()") None None)
      | _ => PErr (exp_at slen' j (lit "None or ()") None None)
      end).
    { destruct S as [|a a' i j [_ Ta] S]; [exact I |].
      destruct S as [|b b' i j [_ Tb] S]; [exact I |].
      rewrite Ta, Tb. destruct (_ && _); simpl; auto. }
    destruct (text _ i), (text _ j); simpl in X; try contradiction; try exact Y.
    simpl. tauto.
  Qed.

  Lemma psim_no_terminating : psim eq (no_terminating slen) (no_terminating slen').
  Proof.
    intros i j S. unfold no_terminating. destruct S as [|t u i j [K T] S]; simpl; [split; [constructor | reflexivity] |].
    rewrite K, T. destruct (_ && _); simpl; [exact I |]. split; [| reflexivity].
    constructor; [now split | exact S].
  Qed.

  Definition op_rel (x y : token * expr) : Prop := same (fst x) (fst y) /\ snd x = snd y.

  Lemma fold_ops_rel l l' : Forall2 op_rel l l' -> forall h, fold_ops h l = fold_ops h l'.
  Proof.
    unfold fold_ops. induction 1 as [|[t e] [t' e'] l l' [[_ T] E] F IH]; intros h; [reflexivity |].
    cbn [fst snd] in *. cbn [fold_left fst snd]. rewrite T, E. apply IH.
  Qed.

  Lemma pipe_args_rel l l' : Forall2 op_rel l l' -> forall a, pipe_args a l = pipe_args a l'.
  Proof.
    induction 1 as [|[t e] [t' e'] l l' [[_ T] E] F IH]; intros a; [reflexivity |].
    cbn [fst snd] in *. cbn [pipe_args]. rewrite T, E.
    repeat (destruct (str_eqb (t_text t') _)); try apply IH; try reflexivity.
    destruct (rev a); apply IH.
  Qed.

  Definition infix_rel (x y : expr * list (token * expr)) : Prop :=
    fst x = fst y /\ Forall2 op_rel (snd x) (snd y).

  Lemma psim_infix ops p q : psim eq p q -> psim infix_rel (infix ops p) (infix ops q).
  Proof.
    intros P i j S. unfold infix. eapply rsim_bind; [apply P, S |].
    intros i1 j1 a b S1 ->. eapply rsim_bind.
    - apply (psim_many0 op_rel); [| exact S1]. intros i2 j2 S2. unfold pair_p.
      eapply rsim_bind; [apply psim_texts, S2 |]. intros i3 j3 t u S3 T.
      eapply rsim_bind; [apply P, S3 |]. intros i4 j4 x y S4 E. simpl. split; [exact S4 |]. now split.
    - intros i2 j2 l l' S2 L. simpl. split; [exact S2 |]. now split.
  Qed.

  Variables call call' : nt -> parser expr.
  Hypothesis Call : forall n, psim eq (call n) (call' n).

  Lemma Forall2_eq {A} (l l' : list A) : Forall2 eq l l' -> l = l'.
  Proof. induction 1; congruence. Qed.

  Ltac t s := eapply rsim_bind; [apply (psim_text s); eassumption |]; intros ? ? ? ? ? _.
  Ltac nt_ := eapply rsim_bind; [apply psim_no_terminating; eassumption |]; intros ? ? ? ? ? _.
  Ltac c := eapply rsim_bind; [apply Call; eassumption |]; intros ? ? ? ? ? ->.
  Ltac cf := eapply rsim_bind; [apply rsim_fail, Call; eassumption |]; intros ? ? ? ? ? ->.
  Ltac tf s := eapply rsim_bind; [apply rsim_fail, (psim_text s); eassumption |]; intros ? ? ? ? ? _.
  Ltac done := simpl; split; [eassumption | reflexivity].

  Lemma psim_body n : psim eq (body slen call n) (body slen' call' n).
  Proof.
    intros i j S. destruct n; cbn [body].
    - eapply rsim_bind; [apply (psim_many0 eq); [apply Call | exact S] |].
      intros i1 j1 l l' S1 L. apply Forall2_eq in L. subst l'.
      eapply rsim_bind.
      + apply (psim_opt eq); [| exact S1]. intros i2 j2 S2. c.
        eapply rsim_bind; [apply (psim_opt same), H; apply psim_text |].
        intros. done.
      + intros i2 j2 o o' S2 O. assert (o = o') as -> by (destruct o, o'; simpl in O; congruence || tauto).
        done.
    - c. pose proof (psim_text (lit ";") _ _ H) as X.
      destruct (text _ i0), (text _ j0); simpl in X; try contradiction;
        [ simpl; tauto | | | |]; (destruct b; simpl; auto).
    - nt_. eapply rsim_bind; [apply psim_infix; [apply Call | eassumption] |].
      intros i2 j2 [h l] [h' l'] S2 [E L]. simpl in E, L. subst h'.
      destruct L as [|x y l l' XY L]; [done |].
      rewrite (pipe_args_rel (x :: l) (y :: l')) by now constructor.
      destruct (pipe_args [h] (y :: l')) as [[|? [|? ?]]|]; simpl; auto.
    - nt_. apply psim_alt; [| eassumption]. simpl. repeat constructor; apply Call.
    - t (lit "for"). eapply rsim_bind; [apply rsim_fail, psim_symbol; eassumption |]. intros ? ? ? ? ? ->.
      tf (lit "in"). eapply rsim_bind; [apply rsim_fail, psim_alt; [| eassumption] |].
      { repeat constructor; apply Call. }
      intros ? ? ? ? ? ->. cf. done.
    - t (lit "if"). cf. cf.
      eapply rsim_bind; [apply (psim_opt eq); [| eassumption] |].
      { intros i4 j4 S4. unfold preceded. t (lit "else"). apply psim_alt; [| eassumption].
        repeat constructor; apply Call. }
      intros ? ? o o' ? O. assert (o = o') as -> by (destruct o, o'; simpl in O; congruence || tauto).
      done.
    - t (lit "let"). eapply rsim_bind; [apply rsim_fail, psim_alt; [| eassumption] |].
      { repeat constructor; [apply psim_symbol | apply psim_operator]. }
      intros ? ? ? ? ? ->. tf (lit "="). c. done.
    - eapply rsim_bind; [apply psim_symbol; eassumption |]. intros ? ? ? ? ? ->.
      eapply rsim_bind; [apply (psim_texts [lit "->"; lit "~>"]); eassumption |].
      intros ? ? tk uk ? [_ T]. cf. rewrite T.
      repeat (destruct (str_eqb (t_text uk) _)); simpl; auto.
    - eapply rsim_bind; [apply psim_alt; [| eassumption] |].
      { repeat constructor; [apply Call | apply psim_operator_symbol]. }
      intros ? ? ? ? ? ->. eapply rsim_bind; [apply (psim_many1 eq); [apply Call | eassumption] |].
      intros ? ? l l' ? L. apply Forall2_eq in L. subst. done.
    - eapply rsim_bind; [apply psim_operator_symbol; eassumption |].
      intros ? ? ? ? ? ->. eapply rsim_bind; [apply (psim_many0 eq); [apply Call | eassumption] |].
      intros ? ? l l' ? L. apply Forall2_eq in L. subst. done.
    - nt_. eapply rsim_bind; [apply psim_infix; [apply Call | eassumption] |].
      intros i2 j2 [h l] [h' l'] S2 [E L]. simpl in E, L. subst h'. cbn [fst snd].
      rewrite (fold_ops_rel _ _ L). done.
    - nt_. c. t (lit "to"). cf. done.
    - nt_. eapply rsim_bind; [apply psim_infix; [apply Call | eassumption] |].
      intros i2 j2 [h l] [h' l'] S2 [E L]. simpl in E, L. subst h'.
      destruct L as [|x y l l' XY L].
      2:{ rewrite (fold_ops_rel (x :: l) (y :: l')) by now constructor. done. }
      pose proof (psim_text (lit "to") _ _ S2) as X.
      assert (Z : rsim eq
        match call NNot i2 with
        | POk i2 e => POk i2 e | PPanic => PPanic | PFuel => PFuel | _ => POk i2 h end
        match call' NNot j2 with
        | POk i2 e => POk i2 e | PPanic => PPanic | PFuel => PFuel | _ => POk j2 h end).
      { pose proof (Call NNot i2 j2 S2) as Y.
        destruct (call NNot i2), (call' NNot j2); simpl in *; try tauto; auto. }
      destruct (text _ i2) as [i3 ?| | | |], (text _ j2) as [j3 ?| | | |]; simpl in X;
        try contradiction; try exact Z.
      destruct X as [S3 _]. cf. done.
    - t (lit "!"). c. done.
    - nt_. eapply rsim_bind; [apply psim_infix; [apply Call | eassumption] |].
      intros i2 j2 [h l] [h' l'] S2 [E L]. simpl in E, L. subst h'. cbn [fst snd].
      rewrite (fold_ops_rel _ _ L). done.
    - nt_. eapply rsim_bind; [apply psim_infix; [apply Call | eassumption] |].
      intros i2 j2 [h l] [h' l'] S2 [E L]. simpl in E, L. subst h'. cbn [fst snd].
      rewrite (fold_ops_rel _ _ L). done.
    - nt_. c. eapply rsim_bind; [apply (psim_many0 eq); [| eassumption] |].
      { intros i4 j4 S4. unfold preceded. t (lit "@"). apply psim_alt; [| eassumption].
        repeat constructor; [apply Call | apply psim_operator_symbol]. }
      intros ? ? l l' ? L. apply Forall2_eq in L. subst. done.
    - apply psim_alt; [| exact S]. repeat constructor; try apply Call;
        try (eapply (psim_pmap eq); [| now intros ? ? ->]).
      + apply psim_boolean.
      + apply psim_none.
      + apply psim_float.
      + apply psim_integer.
      + apply psim_string.
      + apply psim_symbol.
    - t (lit "("). c. eapply rsim_bind; [apply rsim_fail, (psim_alt eq); [| eassumption] |].
      { repeat constructor; [| apply psim_empty]. apply (psim_pmap same); [apply psim_text | reflexivity]. }
      intros. done.
    - t (lit "'"). c. done.
    - t (lit "{"). eapply rsim_bind; [apply (psim_separated eq same); [apply psim_text | | eassumption] |].
      { intros i4 j4 S4. unfold separated_pair. eapply rsim_bind; [apply psim_alt; [| eassumption] |].
        { repeat constructor; [apply psim_symbol | apply psim_operator]. }
        intros ? ? ? ? ? ->. t (lit "="). c. done. }
      intros i5 j5 l l' S5 L. apply Forall2_eq in L. subst l'.
      eapply rsim_bind; [destruct l; [apply rsim_expected | apply rsim_fail]; apply psim_text; eassumption |].
      intros. done.
    - t (lit "{"). c. tf (lit "}"). done.
    - t (lit "["). eapply rsim_bind; [apply (psim_separated eq same); [apply psim_text | apply Call | eassumption] |].
      intros i5 j5 l l' S5 L. apply Forall2_eq in L. subst l'. tf (lit "]"). done.
  Qed.
End Body.

Lemma parse_sim slen slen' fuel : forall n, psim eq (parse slen fuel n) (parse slen' fuel n).
Proof.
  induction fuel as [|fuel IH]; intros n i j S; [exact I |].
  cbn [parse]. now apply psim_body.
Qed.
