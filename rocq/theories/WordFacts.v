(** Tokens accepted without complaint never pass a reserved text off as a name
    or a literal. *)

From Coq Require Import String.
From Verif Require Import Base Syntax Tokenizer TokFacts MapFacts.

Definition reserved : list str :=
  map lit ["to"; "=="; "!="; ">="; "<="; "&&"; "||"; "//"; "<<"; ">>"; ">>>";
           "("; ")"; "["; "]"; "{"; "}"; "'"; ","; ";"; "="; "->"; "~>";
           "None"; "then"; "else"; "let"; "for"; "if"; "in";
           "<"; ">"; "+"; "-"; "*"; "%"; "|"; "@"; "!"]%string.

(** Names and literals. *)
Definition operand_kind (k : token_kind) : bool :=
  match k with
  | TkBooleanLiteral | TkFloatLiteral | TkIntegerLiteral | TkStringLiteral | TkSymbol => true
  | _ => false
  end.

Definition fair (t : token) : Prop :=
  operand_kind (t_kind t) = true -> ~ In (t_text t) reserved.

Definition symbolic (s : str) : Prop := Forall (fun c => is_symbol_char c = true) s.

Lemma talt_err {A} (ps : list (input -> tres A)) i : talt ps i = TErr -> Forall (fun p => p i = TErr) ps.
Proof.
  induction ps as [|p ps IH]; intros E; [constructor |]. simpl in E.
  destruct (p i) eqn:X; try discriminate. constructor; auto.
Qed.

Lemma valid_err p k i : map_valid_token p k i = TErr -> p i = TErr.
Proof. unfold map_valid_token. destruct (p i); simpl; congruence. Qed.

Lemma valid_kind p k i i' t d : map_valid_token p k i = TOk i' (t, d) -> t_kind t = k.
Proof. unfold map_valid_token. destruct (p i); simpl; try discriminate. intros E. inversion E. reflexivity. Qed.

Definition next_plain (r : str) : Prop :=
  match r with c :: _ => is_symbol_char c = false | [] => True end.

Lemma span_next s : next_plain (snd (span is_symbol_char s)).
Proof.
  induction s as [|c s IH]; simpl; [exact I |].
  destruct (is_symbol_char c) eqn:E; [| simpl; now rewrite E].
  destruct (span is_symbol_char s); exact IH.
Qed.

Lemma keyword_takes k r off : next_plain r ->
  keyword_tag k (Inp off (k ++ r)) = TOk (Inp (off + utf8_len k) r) (Piece k (Slice off (off + utf8_len k))).
Proof.
  intros N. unfold keyword_tag. pose proof (tag_takes k r off) as T. unfold punctuation_tag in T.
  rewrite T. cbn [i_rest]. destruct r as [|c r]; [reflexivity |]. simpl in N. now rewrite N.
Qed.

Lemma symbol_takes i i' p : symbol i = TOk i' p ->
  symbolic (p_text p) /\ i_rest i = p_text p ++ i_rest i' /\ next_plain (i_rest i').
Proof.
  unfold symbol. destruct i as [off s]. cbn [i_rest].
  destruct (utf8_len _ =? 0)%N; [discriminate |].
  pose proof (span_app is_symbol_char s) as E. pose proof (span_all is_symbol_char s) as A.
  pose proof (span_next s) as N.
  destruct (span is_symbol_char s) as [a b]. simpl in *. subst s.
  rewrite split_at_ok. intros X. inversion X; subst. cbn [p_text i_rest]. auto.
Qed.

Definition has_digit (s : str) : Prop := exists c, In c s /\ is_digit c = true.

Lemma number_digit i :
  outcome (fun _ (x : token * diagnostic) => has_digit (t_text (fst x))) False (number_literal i).
Proof.
  unfold number_literal. eapply outcome_bind with (P := fun j _ => exists a, step i j a).
  { destruct (strip_prefix_i_spec (lit "-") i) as [(i' & S & ->)|[-> _]]; [simpl; eauto |].
    pose proof (split_at_ok [] (i_rest i) (i_off i)) as E. simpl in E.
    replace (Inp (i_off i) (i_rest i)) with i in E by now destruct i.
    rewrite E. simpl. exists []. split; [reflexivity |]. simpl. lia. }
  intros j _ [a Sa].
  eapply outcome_bind with (P := fun k _ => exists b, step i k b /\ has_digit b).
  { destruct (strip_prefix_i_spec (lit "0") j) as [(i' & S & ->)|[-> _]].
    - simpl. exists (a ++ lit "0"). split; [eapply step_trans; eassumption |].
      exists 48%N. split; [apply in_app_iff; right; now left | reflexivity].
    - destruct (N.ltb_spec 0 (N.of_nat (length (fst (span is_digit (i_rest j)))))) as [L|L];
        [| exact I].
      destruct j as [off s]. cbn [i_rest] in *. rewrite (span_len _ _ digit_ascii).
      pose proof (span_app is_digit s) as E. pose proof (span_all is_digit s) as A.
      destruct (span is_digit s) as [x y]. cbn [fst snd] in *. subst s. rewrite split_at_ok. simpl.
      exists (a ++ x). split.
      + eapply step_trans; [exact Sa |]. split; [reflexivity |]. reflexivity.
      + destruct x as [|c x]; [simpl in L; lia |]. exists c.
        split; [apply in_app_iff; right; now left | now inversion A]. }
  intros k _ (b & Sb & D).
  assert (DONE : forall k' c kd d, step k k' c ->
    outcome (fun _ (x : token * diagnostic) => has_digit (t_text (fst x))) False
      (tbind (split_until i k') (fun r p => TOk r (mk_token kd p, d (p_range p))))).
  { intros k' c kd d Sc. pose proof (step_trans _ _ _ _ _ Sb Sc) as S.
    rewrite (split_until_ok _ _ _ S). simpl. destruct D as (x & I & D). exists x.
    split; [apply in_app_iff; now left | exact D]. }
  destruct (strip_prefix_i_spec (lit ".") k) as [(k' & S & ->)|[-> _]].
  - destruct (N.eqb_spec (N.of_nat (length (fst (span is_digit (i_rest k'))))) 0) as [Z|Z].
    + apply (DONE k' _ TkFloatLiteral DInvalidNumber S).
    + eapply outcome_bind; [apply places_split |].
      { rewrite <- (span_len _ _ digit_ascii). lia. }
      intros k'' p [[S' _] _].
      apply (DONE k'' _ TkFloatLiteral (fun _ => DValid) (step_trans _ _ _ _ _ S S')).
  - apply (DONE k [] TkIntegerLiteral (fun _ => DValid) (step_refl k)).
Qed.

Lemma reserved_no_digit s : In s reserved -> ~ has_digit s.
Proof.
  intros I (c & J & D).
  assert (F : forallb (fun s => forallb (fun c => negb (is_digit c)) s) reserved = true)
    by (vm_compute; reflexivity).
  rewrite forallb_forall in F. specialize (F s I). rewrite forallb_forall in F.
  specialize (F c J). rewrite D in F. discriminate.
Qed.

Lemma reserved_no_quote s : In s reserved -> match s with c :: _ => c <> 34%N | [] => False end.
Proof.
  intros I.
  assert (F : forallb (fun s => match s with c :: _ => negb (c =? 34)%N | [] => false end) reserved = true)
    by (vm_compute; reflexivity).
  rewrite forallb_forall in F. specialize (F s I). destruct s as [|c s]; [discriminate |].
  destruct (N.eqb_spec c 34); [discriminate | assumption].
Qed.

Definition tagged (k : str) (i : input) : Prop := keyword_tag k i = TErr.

Lemma fair_token i i' t : parse_token i = TOk i' (t, DValid) -> fair t.
Proof.
  intros E K. pose proof (parse_token_ok i) as G. rewrite E in G.
  destruct G as ((S1 & S2) & NE & _ & _). cbn [fst] in *.
  unfold parse_token in E. destruct (i_rest i) as [|c r] eqn:R; [discriminate |].
  cbn [talt] in E.
  destruct (map_valid_token long_operator TkOperator i) as [j x| | |] eqn:A1; try discriminate.
  { inversion E; subst. apply valid_kind in A1. rewrite A1 in K. discriminate. }
  destruct (map_valid_token any_punctuation TkPunctuation i) as [j x| | |] eqn:A2; try discriminate.
  { inversion E; subst. apply valid_kind in A2. rewrite A2 in K. discriminate. }
  destruct (map_valid_token any_keyword TkKeyword i) as [j x| | |] eqn:A3; try discriminate.
  { inversion E; subst. apply valid_kind in A3. rewrite A3 in K. discriminate. }
  destruct (map_valid_token short_operator TkOperator i) as [j x| | |] eqn:A4; try discriminate.
  { inversion E; subst. apply valid_kind in A4. rewrite A4 in K. discriminate. }
  destruct (map_valid_token bool_literal TkBooleanLiteral i) as [j x| | |] eqn:A5; try discriminate.
  { inversion E; subst. intros I. revert A5. unfold map_valid_token, bool_literal. cbn [talt].
    unfold keyword_tag at 1.
    destruct (strip_prefix_i_spec (lit "True") i) as [(i1 & S & ->)|[-> _]];
      [destruct (match i_rest i1 with [] => false | c :: _ => is_symbol_char c end) eqn:Q |].
    - destruct (i_rest i1) as [|c0 r0] eqn:R1; [discriminate |]. rewrite Q.
      intros X. exfalso. revert X. unfold keyword_tag.
      destruct (strip_prefix_i_spec (lit "False") i) as [(i2 & S' & ->)|[-> _]]; [| discriminate].
      destruct S as [S _], S' as [S' _]. rewrite S in S'. discriminate.
    - destruct (i_rest i1) as [|c0 r0]; [| rewrite Q]; cbn [tbind]; intros X; inversion X; subst;
        cbn [mk_token t_text p_text] in I; vm_compute in I; intuition discriminate.
    - unfold keyword_tag.
      destruct (strip_prefix_i_spec (lit "False") i) as [(i2 & S' & ->)|[-> _]]; [| discriminate].
      destruct (i_rest i2) as [|c0 r0]; [| destruct (is_symbol_char c0)]; cbn [tbind]; intros X; inversion X; subst;
        cbn [mk_token t_text p_text] in I; vm_compute in I; intuition discriminate. }
  destruct (map_valid_token comment TkComment i) as [j x| | |] eqn:A6; try discriminate.
  { inversion E; subst. apply valid_kind in A6. rewrite A6 in K. discriminate. }
  destruct (string_literal i) as [j x| | |] eqn:A7; try discriminate.
  { inversion E; subst. intros I. apply reserved_no_quote in I.
    assert (Q : c = 34%N).
    { unfold string_literal in A7. unfold punctuation_tag at 1 in A7.
      destruct (strip_prefix_i_spec [34%N] i) as [(i1 & S & X)|[X _]]; rewrite X in A7; [| discriminate].
      destruct S as [S _]. rewrite R in S. now inversion S. }
    destruct (t_text t) as [|c0 s]; [contradiction |]. inversion S1. congruence. }
  destruct (number_literal i) as [j x| | |] eqn:A8; try discriminate.
  { inversion E; subst. intros I. pose proof (number_digit i) as D. rewrite A8 in D. simpl in D.
    exact (reserved_no_digit _ I D). }
  destruct (map_valid_token symbol TkSymbol i) as [j x| | |] eqn:A9; try discriminate.
  2:{ destruct (map_valid_token whitespace TkWhitespace i) as [j x| | |] eqn:A10; try discriminate.
      - inversion E; subst. apply valid_kind in A10. rewrite A10 in K. discriminate.
      - destruct (split_at (chr_len c) i); simpl in E; discriminate. }
  inversion E; subst. intros I.
  assert (Y : symbolic (t_text t) /\ i_rest i = t_text t ++ i_rest i' /\ next_plain (i_rest i')).
  { unfold map_valid_token in A9. destruct (symbol i) as [k p| | |] eqn:Y; try discriminate.
    cbn [tbind] in A9. inversion A9; subst. now apply symbol_takes. }
  destruct Y as (Y1 & Y2 & Y3).
  assert (KT : keyword_tag (t_text t) i <> TErr).
  { destruct i as [off s]. cbn [i_rest] in Y2. rewrite Y2. rewrite keyword_takes by exact Y3. discriminate. }
  apply valid_err, talt_err in A1, A2, A3, A4. clear - I A1 A2 A3 A4 Y1 KT.
  repeat match goal with H : Forall _ (_ :: _) |- _ => inversion H; clear H; subst end.
  unfold reserved in I. cbn [map In] in I.
  repeat destruct I as [I|I]; try (rewrite <- I in *; contradiction); try contradiction;
    rewrite <- I in Y1; exfalso; clear - Y1;
    repeat match goal with H : symbolic _ |- _ => unfold symbolic in H
           | H : Forall _ (_ :: _) |- _ => inversion H; clear H; subst
           | H : Forall _ (lit _) |- _ => vm_compute in H end; try discriminate.
Qed.

Lemma fair_tokens fuel : forall i ts ds, parse_tokens_loop fuel i = TokOk ts ds ->
  Forall (fun d => d = DValid) ds -> Forall fair ts.
Proof.
  induction fuel as [|fuel IH]; intros i ts ds E V; [discriminate |]. simpl in E.
  destruct (parse_token i) as [i' [t d]| | |] eqn:P; try discriminate.
  - destruct (parse_tokens_loop fuel i') as [ts' ds'| |] eqn:L; try discriminate.
    inversion E; subst. inversion V; subst. constructor; [eapply fair_token; eassumption |].
    eapply IH; eassumption.
  - inversion E. constructor.
Qed.
