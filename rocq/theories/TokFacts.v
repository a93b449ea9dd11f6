(** Lemmas about the tokenizer. *)

From Coq Require Import String.
From Verif Require Import Base Syntax Tokenizer.

(** ** Byte lengths and splitting *)

Lemma chr_len_pos c : (1 <= chr_len c)%N.
Proof. unfold chr_len. repeat destruct (_ <? _)%N; lia. Qed.

Lemma utf8_len_app a b : utf8_len (a ++ b) = (utf8_len a + utf8_len b)%N.
Proof. induction a; simpl; lia. Qed.

Lemma utf8_len_0 a : utf8_len a = 0%N -> a = [].
Proof. destruct a as [|c a]; simpl; [easy |]. pose proof (chr_len_pos c). lia. Qed.

Lemma split_bytes_app a b : split_bytes (utf8_len a) (a ++ b) = Some (a, b).
Proof.
  induction a as [|c a IH]; simpl.
  - destruct b; reflexivity.
  - pose proof (chr_len_pos c) as P.
    destruct (N.eqb_spec (chr_len c + utf8_len a) 0); [lia |].
    destruct (N.leb_spec (chr_len c) (chr_len c + utf8_len a)); [| lia].
    replace (chr_len c + utf8_len a - chr_len c)%N with (utf8_len a) by lia.
    now rewrite IH.
Qed.

Lemma split_bytes_some n s a b :
  split_bytes n s = Some (a, b) -> s = a ++ b /\ n = utf8_len a.
Proof.
  revert n a b. induction s as [|c s IH]; intros n a b; simpl.
  - destruct (N.eqb_spec n 0); intros E; inversion E; subst; auto.
  - destruct (N.eqb_spec n 0); intros E; [inversion E; subst; auto |].
    destruct (N.leb_spec (chr_len c) n); [| discriminate].
    destruct (split_bytes (n - chr_len c) s) as [[x y]|] eqn:F; [| discriminate].
    inversion E; subst. apply IH in F. destruct F as [-> F]. simpl. split; [reflexivity | lia].
Qed.

Lemma strip_prefix_app p s r : strip_prefix p s = Some r <-> s = p ++ r.
Proof.
  revert s. induction p as [|c p IH]; intros s; simpl.
  - split; [now inversion 1 | now intros ->].
  - destruct s as [|d s]; [split; discriminate |].
    destruct (N.eqb_spec c d) as [->|E].
    + rewrite IH. split; [now intros -> | now inversion 1].
    + split; [discriminate | intros F; inversion F; congruence].
Qed.

Lemma span_app f s : fst (span f s) ++ snd (span f s) = s.
Proof.
  induction s as [|c s IH]; [reflexivity |]. simpl.
  destruct (f c); [| reflexivity]. destruct (span f s); simpl in *. now rewrite IH.
Qed.

Lemma span_all f s : Forall (fun c => f c = true) (fst (span f s)).
Proof.
  induction s as [|c s IH]; simpl; [constructor |].
  destruct (f c) eqn:E; [| constructor]. destruct (span f s); simpl in *. now constructor.
Qed.

Lemma ascii_len s : Forall (fun c => c < 128)%N s -> utf8_len s = N.of_nat (length s).
Proof.
  induction 1 as [|c s L F IH]; [reflexivity |]. simpl utf8_len. simpl length.
  unfold chr_len. apply N.ltb_lt in L. rewrite L, IH. lia.
Qed.

Lemma digit_ascii c : is_digit c = true -> (c < 128)%N.
Proof. unfold is_digit. rewrite andb_true_iff, !N.leb_le. lia. Qed.

Lemma ws_ascii c : is_ascii_ws c = true -> (c < 128)%N.
Proof. unfold is_ascii_ws. rewrite !orb_true_iff, !N.eqb_eq. lia. Qed.

Lemma hexdigit_ascii c : is_hexdigit c = true -> (c < 128)%N.
Proof.
  unfold is_hexdigit. rewrite !orb_true_iff, !andb_true_iff, !N.leb_le.
  intros [[E|E]|E]; [now apply digit_ascii | |]; lia.
Qed.

Lemma span_len f s : (forall c, f c = true -> (c < 128)%N) ->
  N.of_nat (length (fst (span f s))) = utf8_len (fst (span f s)).
Proof.
  intros A. symmetry. apply ascii_len. eapply Forall_impl; [| apply span_all].
  exact A.
Qed.

(** ** Consuming a text *)

(** [i'] is [i] after the text [t]. *)
Definition step (i i' : input) (t : str) : Prop :=
  i_rest i = t ++ i_rest i' /\ i_off i' = (i_off i + utf8_len t)%N.

Definition took (i i' : input) (p : piece) : Prop :=
  step i i' (p_text p) /\ p_range p = Slice (i_off i) (i_off i').

Lemma step_refl i : step i i [].
Proof. split; [reflexivity | simpl; lia]. Qed.

Lemma step_trans i j k a b : step i j a -> step j k b -> step i k (a ++ b).
Proof.
  intros [E1 L1] [E2 L2]. split.
  - now rewrite E1, E2, app_assoc.
  - rewrite utf8_len_app. lia.
Qed.

Lemma split_at_ok a b off :
  split_at (utf8_len a) (Inp off (a ++ b))
  = TOk (Inp (off + utf8_len a) b) (Piece a (Slice off (off + utf8_len a))).
Proof. unfold split_at. simpl. now rewrite split_bytes_app. Qed.

Lemma split_at_one c r off :
  split_at (chr_len c) (Inp off (c :: r))
  = TOk (Inp (off + chr_len c) r) (Piece [c] (Slice off (off + chr_len c))).
Proof.
  pose proof (split_at_ok [c] r off) as E. cbn [utf8_len app] in E. now rewrite N.add_0_r in E.
Qed.

Lemma split_at_took n i i' p : split_at n i = TOk i' p -> took i i' p /\ utf8_len (p_text p) = n.
Proof.
  unfold split_at. destruct (split_bytes n (i_rest i)) as [[a b]|] eqn:E; [| discriminate].
  intros F. inversion F; subst. apply split_bytes_some in E. destruct E as [E ->].
  repeat split; simpl; auto.
Qed.

Lemma step_inp i i' t : step i i' t <-> exists off r, i = Inp off (t ++ r) /\ i' = Inp (off + utf8_len t) r.
Proof.
  split.
  - intros [E L]. destruct i, i'; simpl in *. subst. eauto.
  - intros (off & r & -> & ->). now split.
Qed.

Lemma split_until_ok i i' t : step i i' t ->
  split_until i i' = TOk i' (Piece t (Slice (i_off i) (i_off i'))).
Proof.
  intros S. apply step_inp in S. destruct S as (off & r & -> & ->).
  unfold split_until. simpl. rewrite utf8_len_app.
  replace (utf8_len t + utf8_len r - utf8_len r)%N with (utf8_len t) by lia.
  apply split_at_ok.
Qed.

Lemma strip_prefix_i_spec p i :
  (exists i', step i i' p /\ strip_prefix_i p i = TOk i' (Piece p (Slice (i_off i) (i_off i'))))
  \/ (strip_prefix_i p i = TErr /\ forall r, i_rest i <> p ++ r).
Proof.
  unfold strip_prefix_i. destruct (strip_prefix p (i_rest i)) as [r|] eqn:E.
  - left. apply strip_prefix_app in E. destruct i as [off s]. simpl in E. subst s.
    exists (Inp (off + utf8_len p) r). split; [now split |]. apply split_at_ok.
  - right. split; [reflexivity |]. intros r F. apply strip_prefix_app in F. congruence.
Qed.

Lemma tag_fails x p c r off : x <> c -> punctuation_tag (x :: p) (Inp off (c :: r)) = TErr.
Proof.
  intros D. unfold punctuation_tag, strip_prefix_i. cbn [i_rest strip_prefix].
  apply N.eqb_neq in D. now rewrite D.
Qed.

Lemma tag_takes p r off : punctuation_tag p (Inp off (p ++ r))
  = TOk (Inp (off + utf8_len p) r) (Piece p (Slice off (off + utf8_len p))).
Proof.
  unfold punctuation_tag, strip_prefix_i. cbn [i_rest].
  assert (E : strip_prefix p (p ++ r) = Some r) by now apply strip_prefix_app.
  rewrite E. apply split_at_ok.
Qed.

(** ** Outcomes *)

(** What a parser may return at [i]: a proper value, "not found", or, only if
    [bad], a panic. *)
Definition outcome {A} (P : input -> A -> Prop) (bad : Prop) (r : tres A) : Prop :=
  match r with TOk i a => P i a | TErr => True | TPanic => bad | TFuel => False end.

Lemma outcome_bind {A B} (P : input -> A -> Prop) (Q : input -> B -> Prop) bad r k :
  outcome P bad r -> (forall i a, P i a -> outcome Q bad (k i a)) ->
  outcome Q bad (tbind r k).
Proof. intros R K. destruct r; simpl in *; auto. Qed.

Lemma outcome_weaken {A} (P Q : input -> A -> Prop) (b c : Prop) r :
  outcome P b r -> (forall i a, P i a -> Q i a) -> (b -> c) -> outcome Q c r.
Proof. destruct r; simpl; auto. Qed.

Lemma outcome_alt {A} (P : input -> A -> Prop) bad ps i :
  Forall (fun p => outcome P bad (p i)) ps -> outcome P bad (talt ps i).
Proof.
  induction 1 as [|p ps R F IH]; simpl; [exact I |].
  destruct (p i); simpl in *; auto.
Qed.

(** A non-empty text was taken. *)
Definition takes (i : input) : input -> piece -> Prop :=
  fun i' p => took i i' p /\ p_text p <> [].

Lemma takes_split n i bad :
  (n <> 0)%N -> (exists a b, i_rest i = a ++ b /\ n = utf8_len a) ->
  outcome (takes i) bad (split_at n i).
Proof.
  intros Z (a & b & E & ->). destruct i as [off s]. simpl in E. subst s.
  rewrite split_at_ok. simpl. repeat split; simpl. intros ->. now apply Z.
Qed.

Lemma takes_tag p i : p <> [] -> outcome (takes i) False (punctuation_tag p i).
Proof.
  intros Z. unfold punctuation_tag.
  destruct (strip_prefix_i_spec p i) as [(i' & S & ->)|[-> _]]; simpl; [| exact I].
  repeat split; try apply S. exact Z.
Qed.

Lemma takes_keyword p i : p <> [] -> outcome (takes i) False (keyword_tag p i).
Proof.
  intros Z. unfold keyword_tag. pose proof (takes_tag p i Z) as T. unfold punctuation_tag in T.
  destruct (strip_prefix_i p i); auto. destruct (i_rest i0); [exact T |].
  destruct (is_symbol_char c); [exact I | exact T].
Qed.

Ltac tags :=
  apply outcome_alt; repeat constructor;
  (apply takes_tag || apply takes_keyword); discriminate.

Lemma takes_long_operator i : outcome (takes i) False (long_operator i).
Proof. tags. Qed.
Lemma takes_any_punctuation i : outcome (takes i) False (any_punctuation i).
Proof. tags. Qed.
Lemma takes_any_keyword i : outcome (takes i) False (any_keyword i).
Proof. tags. Qed.
Lemma takes_short_operator i : outcome (takes i) False (short_operator i).
Proof. tags. Qed.
Lemma takes_bool_literal i : outcome (takes i) False (bool_literal i).
Proof. tags. Qed.

Lemma takes_symbol i : outcome (takes i) False (symbol i).
Proof.
  unfold symbol. destruct (N.eqb_spec (utf8_len (fst (span is_symbol_char (i_rest i)))) 0);
    [exact I |].
  apply takes_split; [assumption |].
  exists (fst (span is_symbol_char (i_rest i))), (snd (span is_symbol_char (i_rest i))).
  now rewrite span_app.
Qed.

Lemma takes_whitespace i : outcome (takes i) False (whitespace i).
Proof.
  unfold whitespace. rewrite (span_len _ _ ws_ascii).
  destruct (N.eqb_spec (utf8_len (fst (span is_ascii_ws (i_rest i)))) 0); [exact I |].
  apply takes_split; [assumption |].
  exists (fst (span is_ascii_ws (i_rest i))), (snd (span is_ascii_ws (i_rest i))).
  now rewrite span_app.
Qed.

Lemma comment_form i :
  comment i = TErr \/
  exists r, i_rest i = 35%N :: r /\
    comment i = split_at (utf8_len (fst (span (fun c => negb ((c =? 13) || (c =? 10))%N) (i_rest i)))) i.
Proof.
  unfold comment. destruct (i_rest i) as [|c r]; [now left |].
  destruct (N.eq_dec c 35) as [->|E]; [right; eauto |].
  left. destruct c as [|c]; [reflexivity |].
  repeat (destruct c as [c|c|]; try reflexivity; try congruence).
Qed.

Lemma takes_comment i : outcome (takes i) False (comment i).
Proof.
  destruct (comment_form i) as [->|(r & E & ->)]; [exact I |].
  apply takes_split.
  - rewrite E. simpl. destruct (span _ r).
    intros Z. apply utf8_len_0 in Z. discriminate Z.
  - eexists _, _. split; [symmetry; apply span_app | reflexivity].
Qed.

(** ** String literals *)

(** A backslash followed by a character of several bytes. *)
Definition wide_escape (s : str) : Prop :=
  exists a c b, s = a ++ 92%N :: c :: b /\ (128 <= c)%N.

Lemma wide_escape_app a s : wide_escape s -> wide_escape (a ++ s).
Proof.
  intros (x & c & b & -> & L). exists (a ++ x), c, b. split; [| exact L].
  now rewrite app_assoc.
Qed.

Lemma wide_escape_step i i' t : step i i' t -> wide_escape (i_rest i') -> wide_escape (i_rest i).
Proof. intros [-> _]. apply wide_escape_app. Qed.

(** [r] is a non-empty range of bytes reached from [i] by whole characters and
    left again before [i']. *)
Definition inside (i i' : input) (r : slice) : Prop :=
  exists j k a t b, step i j a /\ step j k t /\ step k i' b /\ t <> []
    /\ r = Slice (i_off j) (i_off k).

Lemma hex_digits_ok n acc i j :
  match acc with None => j = i | Some p => takes j i p end ->
  outcome (fun i' o => match o with
                       | Some p => takes j i' p
                       | None => n = 0 /\ acc = None
                       end) False (hex_digits n acc i).
Proof.
  revert acc i. induction n as [|n IH]; intros acc i A; simpl.
  - destruct acc; [exact A | auto].
  - unfold parse_hex_digit. destruct (i_rest i) as [|c r] eqn:R.
    + destruct acc; simpl; [exact A | exact I].
    + destruct (is_hexdigit c) eqn:X; [| destruct acc; simpl; [exact A | exact I]].
      pose proof (hexdigit_ascii c X) as L.
      assert (L1 : utf8_len [c] = 1%N)
        by (simpl; unfold chr_len; apply N.ltb_lt in L; rewrite L; reflexivity).
      destruct i as [off s]. simpl in R. subst s.
      pose proof (split_at_ok [c] r off) as E. rewrite L1 in E. simpl app in E. rewrite E.
      assert (T : takes j (Inp (off + 1) r)
                    (match acc with
                     | Some a => piece_join a (Piece [c] (Slice off (off + 1)))
                     | None => Piece [c] (Slice off (off + 1)) end)).
      { assert (S0 : step (Inp off (c :: r)) (Inp (off + 1) r) [c])
          by (split; [reflexivity | simpl i_off; rewrite L1; reflexivity]).
        destruct acc as [p|].
        - destruct A as [[S1 R1] NE]. split; [split |]; simpl.
          + eapply step_trans; eassumption.
          + rewrite R1. reflexivity.
          + intros F. apply app_eq_nil in F. destruct F. now apply NE.
        - subst j. split; [split |]; simpl; [exact S0 | reflexivity | discriminate]. }
      eapply outcome_weaken; [exact (IH (Some _) _ T) | | auto].
      intros i' [p|]; [auto | intros [_ F]; discriminate F].
Qed.

Lemma escape_ok i : (exists r, i_rest i = 92%N :: r) ->
  outcome (fun i' d => exists t, step i i' t /\ t <> [] /\
             (d = DValid \/ exists r, d = DInvalidStringEscapes [r] /\ inside i i' r))
          (wide_escape (i_rest i)) (parse_escape i).
Proof.
  intros [r0 R0]. unfold parse_escape.
  eapply outcome_bind.
  { eapply outcome_weaken; [apply (takes_tag [92%N]); discriminate | | contradiction].
    intros i' a T. exact T. }
  intros j bs [[Sj Rj] BS].
  assert (A1 : outcome (takes j) False
    (talt [punctuation_tag [34%N]; punctuation_tag [92%N];
           punctuation_tag (lit "b"); punctuation_tag (lit "f");
           punctuation_tag (lit "n"); punctuation_tag (lit "r");
           punctuation_tag (lit "t")] j)) by tags.
  destruct (talt _ j) as [k p| | |] eqn:E1; simpl in A1; try contradiction.
  { destruct A1 as [[Sk _] NE]. exists (p_text bs ++ p_text p). split; [| split].
    - eapply step_trans; eassumption.
    - intros F. apply app_eq_nil in F. destruct F. contradiction.
    - now left. }
  assert (A2 : outcome (fun i' o => match o with
                                    | Some p => exists j' a, step j j' a /\ takes j' i' p
                                    | None => False end) False
     (tbind (punctuation_tag (lit "u{") j) (fun r _ => hex_digits 5 None r))).
  { eapply outcome_bind; [apply (takes_tag (lit "u{")); discriminate |].
    intros j' p [[T _] _].
    eapply outcome_weaken; [apply (hex_digits_ok 5 None j' j'); reflexivity | | auto].
    intros i' [q|]; [| now intros []]. intros Q. eauto. }
  assert (NE : forall a, p_text bs ++ a <> []).
  { intros a F. apply app_eq_nil in F. destruct F as [F _]. apply BS. exact F. }
  destruct (tbind _ _) as [k o| | |] eqn:E2; simpl in A2; try contradiction.
  - destruct o as [p|]; [| contradiction].
    destruct A2 as (j' & a & Sa & [[Sp Rp] NEp]).
    pose proof (step_trans _ _ _ _ _ Sj (step_trans _ _ _ _ _ Sa Sp)) as Sik.
    destruct (is_scalar (hex_num (p_text p))).
    + destruct (strip_prefix_i_spec (lit "}") k) as [(k' & Sk & E3)|[E3 _]];
        unfold punctuation_tag at 1; rewrite E3; simpl.
      * eexists. split; [eapply step_trans; eassumption |].
        split; [| now left]. rewrite <- app_assoc. apply NE.
      * rewrite (split_until_ok _ _ _ Sik). simpl.
        eexists. split; [exact Sik |]. split; [apply NE |]. right.
        eexists. split; [reflexivity |].
        exists i, k, [], (p_text bs ++ a ++ p_text p), []. repeat split; simpl;
          try apply Sik; auto; try lia.
    + simpl. eexists. split; [exact Sik |]. split; [apply NE |]. right.
      eexists. split; [reflexivity |].
      exists j', k, (p_text bs ++ a), (p_text p), [].
      split; [eapply step_trans; eassumption |]. split; [exact Sp |].
      split; [apply step_refl |]. split; [exact NEp | exact Rp].
  - clear E1 E2. unfold split_saturating.
    destruct i as [off s]. simpl in R0. subst s. simpl i_rest.
    destruct r0 as [|c r].
    + change (N.min 2 (utf8_len [92%N])) with (utf8_len [92%N]).
      rewrite (split_at_ok [92%N] [] off : split_at (utf8_len [92%N]) (Inp off [92%N]) = _).
      simpl. exists [92%N]. repeat split; try discriminate. right.
      eexists. split; [reflexivity |].
      exists (Inp off [92%N]), (Inp (off + utf8_len [92%N]) []), [], [92%N], []. split; [apply step_refl |].
      split; [split; reflexivity |]. split; [apply step_refl |].
      split; [discriminate | reflexivity].
    + destruct (N.lt_ge_cases c 128) as [L|L].
      * assert (L2 : utf8_len [92%N; c] = 2%N)
          by (cbn [utf8_len]; unfold chr_len; apply N.ltb_lt in L; rewrite L; reflexivity).
        replace (N.min 2 (utf8_len (92%N :: c :: r))) with (utf8_len [92%N; c]).
        2:{ rewrite L2. change (92%N :: c :: r) with ([92%N; c] ++ r).
            rewrite utf8_len_app, L2. lia. }
        rewrite (split_at_ok [92%N; c] r off
                 : split_at (utf8_len [92%N; c]) (Inp off (92%N :: c :: r)) = _).
        cbn [tbind outcome p_range]. exists [92%N; c]. repeat split; try discriminate. right.
        eexists. split; [reflexivity |].
        exists (Inp off (92%N :: c :: r)), (Inp (off + utf8_len [92%N; c]) r), [], [92%N; c], [].
        split; [apply step_refl |].
        split; [split; reflexivity |]. split; [apply step_refl |].
        split; [discriminate | reflexivity].
      * destruct (split_at _ _) eqn:E; simpl.
        -- apply split_at_took in E. destruct E as [[[Ea Eo] Er] El].
           exfalso. simpl in Ea.
           assert (M : N.min 2 (utf8_len (92%N :: c :: r)) = 2%N).
           { cbn [utf8_len]. pose proof (chr_len_pos c). change (chr_len 92%N) with 1%N. lia. }
           rewrite M in El. destruct (p_text a) as [|x [|y t]]; cbn [app utf8_len] in Ea, El.
           ++ lia.
           ++ inversion Ea; subst. change (chr_len 92%N) with 1%N in El. lia.
           ++ inversion Ea; subst. change (chr_len 92%N) with 1%N in El.
              unfold chr_len in El. apply N.ltb_ge in L. rewrite L in El.
              destruct (y <? 2048)%N; [lia |]. destruct (y <? 65536)%N; lia.
        -- exact I.
        -- exists [], c, r. auto.
        -- unfold split_at in E. destruct (split_bytes _ _) as [[]|]; discriminate.
Qed.

(** The ranges are in order, without overlap, between [i] and [i']. *)
Fixpoint ranges_in (i i' : input) (l : list slice) : Prop :=
  match l with
  | [] => exists a, step i i' a
  | r :: l => exists j a, step i j a /\ inside i j r /\ ranges_in j i' l
  end.

Lemma ranges_in_step i j i' a l : step i j a -> ranges_in j i' l -> ranges_in i i' l.
Proof.
  intros S. destruct l as [|r l]; simpl.
  - intros [b B]. eexists. eapply step_trans; eassumption.
  - intros (k & b & S1 & (x & y & p & t & q & S2 & S3 & S4 & NE & R) & L).
    exists k, (a ++ b). split; [eapply step_trans; eassumption |]. split; [| exact L].
    exists x, y, (a ++ p), t, q. split; [eapply step_trans; eassumption | auto].
Qed.

Lemma ranges_in_snoc i j k a l : ranges_in i j l -> step j k a -> ranges_in i k l.
Proof.
  revert i. induction l as [|r l IH]; intros i; simpl.
  - intros [b B] S. eexists. eapply step_trans; eassumption.
  - intros (x & b & S1 & I & R) S. exists x, b. eauto.
Qed.

Lemma ranges_in_add i j k a l r : ranges_in i j l -> step j k a -> inside j k r ->
  ranges_in i k (l ++ [r]).
Proof.
  revert i. induction l as [|r' l IH]; intros i; simpl.
  - intros [b B] S (x & y & p & t & q & S2 & S3 & S4 & NE & R).
    exists k, (b ++ a). split; [eapply step_trans; eassumption |]. split.
    + exists x, y, (b ++ p), t, q. split; [eapply step_trans; eassumption | auto].
    + exists []. apply step_refl.
  - intros (x & b & S1 & I & R) S J. exists x, b. eauto.
Qed.

Lemma string_loop_ok fuel i errors j :
  length (i_rest j) < fuel -> ranges_in i j errors ->
  outcome (fun i' errs => (exists t, step j i' t) /\ ranges_in i i' errs
              /\ (i_rest i' = [] \/ exists r, i_rest i' = 34%N :: r))
          (wide_escape (i_rest j)) (parse_string_loop fuel errors j).
Proof.
  revert errors j. induction fuel as [|fuel IH]; intros errors j L R; [lia |]. simpl.
  destruct (i_rest j) as [|c r] eqn:Ej.
  { simpl. split; [exists []; apply step_refl | auto]. }
  destruct (N.eqb_spec c 34) as [->|N1].
  { simpl. split; [exists []; apply step_refl |]. split; [exact R |]. right. eauto. }
  assert (CONT : forall k t errs, step j k t -> t <> [] -> ranges_in i k errs ->
    outcome (fun i' errs => (exists t, step j i' t) /\ ranges_in i i' errs
              /\ (i_rest i' = [] \/ exists r, i_rest i' = 34%N :: r))
          (wide_escape (c :: r)) (parse_string_loop fuel errs k)).
  { intros k t errs S NE RI. eapply outcome_weaken; [apply (IH errs k) | |].
    - destruct S as [S _]. rewrite Ej in S. apply (f_equal (@length _)) in S.
      rewrite app_length in S. destruct t; [congruence |]. simpl in S, L. lia.
    - exact RI.
    - intros i' es [[t' S'] Z]. split; [| exact Z]. eexists. eapply step_trans; eassumption.
    - rewrite <- Ej. eapply wide_escape_step; eassumption. }
  destruct (N.eqb_spec c 92) as [->|N2].
  - eapply outcome_bind.
    + rewrite <- Ej. apply escape_ok. eauto.
    + intros k d (t & S & NE & [->|(x & -> & IN)]).
      * eapply CONT; [eassumption | assumption |]. eapply ranges_in_snoc; eassumption.
      * eapply CONT; [eassumption | assumption |]. eapply ranges_in_add; eassumption.
  - destruct j as [off s]. simpl in Ej. subst s.
    pose proof (split_at_ok [c] r off) as E. simpl in E. rewrite N.add_0_r in E. rewrite E.
    cbn [tbind].
    assert (S : step (Inp off (c :: r)) (Inp (off + chr_len c) r) [c]).
    { split; [reflexivity |]. simpl. now rewrite N.add_0_r. }
    eapply CONT; [exact S | discriminate |]. eapply ranges_in_snoc; eassumption.
Qed.

(** ** Tokens *)

(** The diagnostic fits the token found between [i] and [i']. *)
Definition diag_in (i i' : input) (d : diagnostic) : Prop :=
  match d with
  | DValid => True
  | DInvalidStringEscapes l => l <> [] /\ ranges_in i i' l
  | DInvalidNumber r | DIllegalChar r => r = Slice (i_off i) (i_off i')
  | DNotTokenized _ => False
  end.

Definition good_token (i i' : input) (x : token * diagnostic) : Prop :=
  step i i' (t_text (fst x)) /\ t_text (fst x) <> []
  /\ t_range (fst x) = Slice (i_off i) (i_off i') /\ diag_in i i' (snd x).

Lemma valid_token_ok p k i : outcome (takes i) False (p i) ->
  outcome (good_token i) (wide_escape (i_rest i)) (map_valid_token p k i).
Proof.
  intros O. unfold map_valid_token. eapply outcome_bind.
  - eapply outcome_weaken; [exact O | intros i' a T; exact T | contradiction].
  - intros i' a [[S R] NE]. simpl. repeat split; simpl; auto; try apply S.
Qed.

Definition str_diag (i i' : input) (d : diagnostic) : Prop :=
  d = DValid \/ exists l, d = DInvalidStringEscapes l /\ l <> [] /\ ranges_in i i' l.

Lemma string_literal_ok i :
  outcome (good_token i) (wide_escape (i_rest i)) (string_literal i).
Proof.
  unfold string_literal. eapply outcome_bind.
  { eapply outcome_weaken; [apply (takes_tag [34%N]); discriminate | | contradiction].
    intros i' a T. exact T. }
  intros j q [[Sq _] NEq].
  eapply outcome_bind
    with (P := fun k d => (exists t, step j k t) /\ str_diag j k d
                 /\ (i_rest k = [] \/ exists r, i_rest k = 34%N :: r)).
  { unfold parse_string_inner. eapply outcome_bind.
    - eapply outcome_weaken;
        [apply (string_loop_ok (S (length (i_rest j))) j [] j); [lia | exists []; apply step_refl]
        | intros k e Z; exact Z |].
      eapply wide_escape_step; eassumption.
    - intros k e (S & R & Z). simpl. split; [exact S |]. split; [| exact Z].
      destruct e; [now left | right]. eexists. split; [reflexivity |].
      split; [discriminate | exact R]. }
  intros k d ([t St] & D & _).
  eapply outcome_bind with (P := fun k' _ => exists t', step k k' t').
  { apply outcome_alt. repeat constructor.
    - eapply outcome_weaken; [apply (takes_tag [34%N]); discriminate | | contradiction].
      intros i' a [[S _] _]. eauto.
    - destruct (i_rest k); simpl; [| exact I]. exists []. apply step_refl. }
  intros k' _ [t' St'].
  pose proof (step_trans _ _ _ _ _ Sq (step_trans _ _ _ _ _ St St')) as S.
  rewrite (split_until_ok _ _ _ S). simpl. split; [exact S |]. split.
  { simpl. intros F. apply app_eq_nil in F. destruct F. contradiction. }
  split; [reflexivity |]. simpl. destruct D as [->|(l & -> & D1 & D2)]; [exact I |].
  split; [exact D1 |].
  eapply ranges_in_step; [exact Sq |]. eapply ranges_in_snoc; eassumption.
Qed.

Lemma places_split j : (0 < utf8_len (fst (span is_digit (i_rest j))))%N ->
  outcome (takes j) False (split_at (N.of_nat (length (fst (span is_digit (i_rest j))))) j).
Proof.
  intros P. rewrite (span_len _ _ digit_ascii). apply takes_split; [lia |].
  eexists _, _. split; [symmetry; apply span_app | reflexivity].
Qed.

Lemma number_literal_ok i : outcome (good_token i) False (number_literal i).
Proof.
  unfold number_literal. eapply outcome_bind with (P := fun j _ => exists a, step i j a).
  { destruct (strip_prefix_i_spec (lit "-") i) as [(i' & S & ->)|[-> _]]; [simpl; eauto |].
    pose proof (split_at_ok [] (i_rest i) (i_off i)) as E. simpl in E.
    replace (Inp (i_off i) (i_rest i)) with i in E by now destruct i.
    rewrite E. simpl. exists []. split; [reflexivity |]. simpl. lia. }
  intros j _ [a Sa].
  eapply outcome_bind with (P := fun k _ => exists b, step i k b /\ b <> []).
  { assert (G : forall k p, takes j k p -> exists b, step i k b /\ b <> []).
    { intros k p [[S _] NE]. exists (a ++ p_text p).
      split; [eapply step_trans; eassumption |]. intros F. apply app_eq_nil in F. now destruct F. }
    pose proof (takes_tag (lit "0") j ltac:(discriminate)) as T. unfold punctuation_tag in T.
    destruct (strip_prefix_i (lit "0") j) as [k p| | |]; simpl in *; eauto.
    destruct (N.ltb_spec 0 (N.of_nat (length (fst (span is_digit (i_rest j)))))) as [L|L];
      [| exact I].
    eapply outcome_weaken; [apply places_split | exact G | auto].
    now rewrite <- (span_len _ _ digit_ascii). }
  intros k _ (b & Sb & NE).
  assert (DONE : forall k' c kd d, step k k' c ->
    diag_in i k' (d (Slice (i_off i) (i_off k'))) ->
    outcome (good_token i) False
      (tbind (split_until i k') (fun r p => TOk r (mk_token kd p, d (p_range p))))).
  { intros k' c kd d Sc D. pose proof (step_trans _ _ _ _ _ Sb Sc) as S.
    rewrite (split_until_ok _ _ _ S). simpl. split; [exact S |]. split; [| split; [reflexivity | exact D]].
    simpl. intros F. apply app_eq_nil in F. now destruct F. }
  destruct (strip_prefix_i_spec (lit ".") k) as [(k' & S & ->)|[-> _]].
  - destruct (N.eqb_spec (N.of_nat (length (fst (span is_digit (i_rest k'))))) 0) as [Z|Z].
    + apply (DONE k' _ TkFloatLiteral DInvalidNumber S). reflexivity.
    + eapply outcome_bind; [apply places_split |].
      { rewrite <- (span_len _ _ digit_ascii). lia. }
      intros k'' p [[S' _] _].
      apply (DONE k'' _ TkFloatLiteral (fun _ => DValid) (step_trans _ _ _ _ _ S S')). exact I.
  - apply (DONE k [] TkIntegerLiteral (fun _ => DValid) (step_refl k)). exact I.
Qed.

Lemma outcome_bad {A} (P : input -> A -> Prop) (b : Prop) r : outcome P False r -> outcome P b r.
Proof. destruct r; simpl; tauto. Qed.

Lemma parse_token_ok i :
  match parse_token i with
  | TOk i' x => good_token i i' x
  | TErr => i_rest i = []
  | TPanic => wide_escape (i_rest i)
  | TFuel => False
  end.
Proof.
  unfold parse_token. destruct (i_rest i) as [|c r] eqn:E; [reflexivity |].
  assert (O : outcome (good_token i) (wide_escape (c :: r))
    (talt [map_valid_token long_operator TkOperator;
                  map_valid_token any_punctuation TkPunctuation;
                  map_valid_token any_keyword TkKeyword;
                  map_valid_token short_operator TkOperator;
                  map_valid_token bool_literal TkBooleanLiteral;
                  map_valid_token comment TkComment;
                  string_literal;
                  number_literal;
                  map_valid_token symbol TkSymbol;
                  map_valid_token whitespace TkWhitespace] i)).
  { rewrite <- E. apply outcome_alt. repeat constructor;
      try apply valid_token_ok.
    - apply takes_long_operator.
    - apply takes_any_punctuation.
    - apply takes_any_keyword.
    - apply takes_short_operator.
    - apply takes_bool_literal.
    - apply takes_comment.
    - apply string_literal_ok.
    - apply outcome_bad, number_literal_ok.
    - apply takes_symbol.
    - apply takes_whitespace. }
  destruct (talt _ i); simpl in O; auto.
  destruct i as [off s]. simpl in E. subst s.
  pose proof (split_at_ok [c] r off) as F. simpl in F. rewrite N.add_0_r in F. rewrite F.
  simpl. split; [| split; [discriminate | split; reflexivity]].
  split; [reflexivity |]. simpl. now rewrite N.add_0_r.
Qed.

(** ** Token sequences *)

(** [ts] and [ds] describe [s], starting at byte [off]. *)
Inductive tiled : N -> str -> list token -> list diagnostic -> Prop :=
| tiled_nil off : tiled off [] [] []
| tiled_cons off s i' t d ts ds :
    good_token (Inp off s) i' (t, d) ->
    tiled (i_off i') (i_rest i') ts ds ->
    tiled off s (t :: ts) (d :: ds).

Lemma tokens_loop_ok fuel i : length (i_rest i) < fuel ->
  match parse_tokens_loop fuel i with
  | TokOk ts ds => tiled (i_off i) (i_rest i) ts ds
  | TokPanic => wide_escape (i_rest i)
  | TokFuel => False
  end.
Proof.
  revert i. induction fuel as [|fuel IH]; intros i L; [lia |]. simpl.
  pose proof (parse_token_ok i) as P. destruct (parse_token i) as [i' [t d]| | |]; auto.
  - assert (L' : length (i_rest i') < fuel).
    { destruct P as ([S _] & NE & _). simpl in *. apply (f_equal (@length _)) in S.
      rewrite app_length in S. destruct (t_text t); [congruence |]. simpl in S. lia. }
    specialize (IH i' L'). destruct (parse_tokens_loop fuel i') as [ts ds| |]; auto.
    + econstructor; [| exact IH]. destruct i; exact P.
    + destruct P as ([S _] & _). rewrite S. now apply wide_escape_app.
  - rewrite P. constructor.
Qed.

Lemma tokenize_ok s :
  match tokenize s with
  | TokOk ts ds => tiled 0 s ts ds
  | TokPanic => wide_escape s
  | TokFuel => False
  end.
Proof. apply (tokens_loop_ok (S (length s)) (Inp 0 s)). simpl. lia. Qed.
