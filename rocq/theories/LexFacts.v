(** What the tokenizer makes of well-formed input. *)

From Coq Require Import String.
From Verif Require Import Base Syntax Tokenizer TokFacts StringFacts MapFacts WordFacts.

(** Rewriting of [f i], up to conversion of [i]. *)
Ltac crw H :=
  let E := fresh in pose proof H as E;
  match type of E with
  | ?f ?i = _ => match goal with |- context [f ?j] => change (f j) with (f i); rewrite E; clear E end
  end.

(** [t], when followed by [rest], is one valid token. *)
Definition lexes (k : token_kind) (t rest : str) : Prop :=
  forall off, parse_token (Inp off (t ++ rest))
    = TOk (Inp (off + utf8_len t) rest) (Token k t (Slice off (off + utf8_len t)), DValid).

(** ** Words *)

Lemma span_plain f k r : (match r with c :: _ => f c = false | [] => True end) ->
  fst (span f (k ++ r)) = fst (span f k).
Proof.
  intros N. induction k as [|c k IH]; simpl.
  - destruct r as [|c r]; simpl in *; [reflexivity | now rewrite N].
  - destruct (f c); [| reflexivity]. destruct (span f (k ++ r)), (span f k). simpl in *. congruence.
Qed.

Lemma span_symbolic f x : Forall (fun c => f c = true) x -> fst (span f x) = x.
Proof. induction 1 as [|c x C F IH]; simpl; [reflexivity |]. rewrite C. destruct (span f x). simpl in *. congruence. Qed.

Definition stem (k : str) : str := fst (span is_symbol_char k).

Lemma keyword_fails k x rest off : symbolic x -> next_plain rest -> stem k <> x ->
  keyword_tag k (Inp off (x ++ rest)) = TErr.
Proof.
  intros S N NE. unfold keyword_tag.
  destruct (strip_prefix_i_spec k (Inp off (x ++ rest))) as [(i' & [E _] & ->)|[-> _]]; [| reflexivity].
  cbn [i_rest] in E. destruct (i_rest i') as [|c r] eqn:R; [| destruct (is_symbol_char c) eqn:C; [reflexivity |]];
    exfalso; apply NE; unfold stem.
  - rewrite <- (span_plain _ k []) by exact I. rewrite <- E. rewrite (span_plain _ x rest N).
    now apply span_symbolic.
  - rewrite <- (span_plain _ k (c :: r)) by exact C. rewrite <- E. rewrite (span_plain _ x rest N).
    now apply span_symbolic.
Qed.

Lemma punct_fails c p x rest off : is_symbol_char c = false -> x <> [] -> symbolic x ->
  punctuation_tag (c :: p) (Inp off (x ++ rest)) = TErr.
Proof.
  intros C NE S. destruct S as [|d x D S]; [congruence |]. apply tag_fails. congruence.
Qed.

Lemma talt_fails {A} (ps : list (input -> tres A)) i : Forall (fun p => p i = TErr) ps -> talt ps i = TErr.
Proof. induction 1 as [|p ps E F IH]; simpl; [reflexivity |]. now rewrite E. Qed.

Lemma talt_takes {A} (a : list (input -> tres A)) p b i j x : Forall (fun p => p i = TErr) a ->
  p i = TOk j x -> talt (a ++ p :: b) i = TOk j x.
Proof. intros F E. induction F as [|q a Q F IH]; simpl; [now rewrite E | now rewrite Q]. Qed.

Lemma talt_skip {A} (a b : list (input -> tres A)) i : Forall (fun p => p i = TErr) a ->
  talt (a ++ b) i = talt b i.
Proof. induction 1 as [|q a Q F IH]; simpl; [reflexivity | now rewrite Q]. Qed.

Definition long_ops : list str := map lit ["to"; "=="; "!="; ">="; "<="; "&&"; "||"; "//"; "<<"; ">>"; ">>>"]%string.
Definition puncts : list str := map lit ["("; ")"; "["; "]"; "{"; "}"; "'"; ","; ";"; "="]%string.
Definition keywords : list str := map lit ["None"; "then"; "else"; "let"; "for"; "if"; "in"]%string.
Definition short_ops : list str := map lit ["<"; ">"; "+"; "-"; "*"; "%"; "|"]%string.

Lemma kws_fail l x rest off : symbolic x -> next_plain rest -> ~ In x (map stem l) ->
  Forall (fun p => p (Inp off (x ++ rest)) = TErr) (map keyword_tag l).
Proof.
  intros S N NI. apply Forall_forall. intros p I. apply in_map_iff in I as (k & <- & I).
  apply keyword_fails; auto. intros E. apply NI. apply in_map_iff. eauto.
Qed.

Lemma puncts_fail x rest off : x <> [] -> symbolic x ->
  Forall (fun p => p (Inp off (x ++ rest)) = TErr) (map punctuation_tag puncts).
Proof.
  intros NE S. unfold puncts. cbn [map].
  repeat apply Forall_cons; try apply Forall_nil; apply punct_fails; auto.
Qed.

Section Word.
  Variables (x rest : str) (off : N).
  Hypothesis NE : x <> [].
  Hypothesis SY : symbolic x.
  Hypothesis NP : next_plain rest.

  Lemma long_fails : ~ In x (map stem long_ops) -> long_operator (Inp off (x ++ rest)) = TErr.
  Proof. intros N. apply talt_fails. now apply (kws_fail long_ops). Qed.

  Lemma arrows_fail : ~ In x (map stem [lit "->"; lit "~>"]) -> any_punctuation (Inp off (x ++ rest)) = TErr.
  Proof.
    intros N. apply talt_fails. pose proof (puncts_fail x rest off NE SY) as P.
    pose proof (kws_fail [lit "->"; lit "~>"] x rest off SY NP N) as K.
    exact (proj2 (Forall_app _ _ _) (conj P K)).
  Qed.

  Lemma keywords_fail : ~ In x (map stem keywords) -> any_keyword (Inp off (x ++ rest)) = TErr.
  Proof. intros N. apply talt_fails. now apply (kws_fail keywords). Qed.

  Lemma short_fails : ~ In x (map stem short_ops) -> short_operator (Inp off (x ++ rest)) = TErr.
  Proof.
    intros N. apply talt_fails. pose proof (kws_fail short_ops x rest off SY NP N) as K.
    assert (P : Forall (fun p => p (Inp off (x ++ rest)) = TErr) [punctuation_tag (lit "@"); punctuation_tag (lit "!")]).
    { repeat apply Forall_cons; try apply Forall_nil; apply punct_fails; auto. }
    exact (proj2 (Forall_app _ _ _) (conj K P)).
  Qed.

  Lemma bools_fail : ~ In x (map stem [lit "True"; lit "False"]) -> bool_literal (Inp off (x ++ rest)) = TErr.
  Proof. intros N. apply talt_fails. now apply (kws_fail [lit "True"; lit "False"]). Qed.
End Word.

Lemma valid_none p k i : p i = TErr -> map_valid_token p k i = TErr.
Proof. intros E. unfold map_valid_token. now rewrite E. Qed.

Lemma valid_some p k i j t r : p i = TOk j (Piece t r) -> map_valid_token p k i = TOk j (Token k t r, DValid).
Proof. intros E. unfold map_valid_token. now rewrite E. Qed.

Lemma keyword_in l k rest off : In k l -> symbolic k -> next_plain rest ->
  (forall y, In y l -> stem y = k -> y = k) ->
  talt (map keyword_tag l) (Inp off (k ++ rest))
  = TOk (Inp (off + utf8_len k) rest) (Piece k (Slice off (off + utf8_len k))).
Proof.
  intros I S N U. induction l as [|y l IH]; [destruct I |]. cbn [map talt].
  destruct (str_eqb y k) eqn:E.
  - apply str_eqb_eq in E. subst y. now rewrite keyword_takes.
  - apply str_eqb_neq in E. rewrite keyword_fails; auto.
    + apply IH; [destruct I; [congruence | assumption] |]. intros z J. apply U. now right.
    + intros Q. apply E. apply U; [now left | exact Q].
Qed.

Definition tok_alts : list (input -> tres (token * diagnostic)) :=
  [map_valid_token long_operator TkOperator;
                  map_valid_token any_punctuation TkPunctuation;
                  map_valid_token any_keyword TkKeyword;
                  map_valid_token short_operator TkOperator;
                  map_valid_token bool_literal TkBooleanLiteral;
                  map_valid_token comment TkComment;
                  string_literal;
                  number_literal;
                  map_valid_token symbol TkSymbol;
                  map_valid_token whitespace TkWhitespace].

Lemma parse_token_alts t rest off j x : t <> [] ->
  talt tok_alts (Inp off (t ++ rest)) = TOk j x -> parse_token (Inp off (t ++ rest)) = TOk j x.
Proof.
  intros N E. unfold parse_token. cbn [i_rest]. destruct t as [|c t]; [congruence |]. cbn [app] in *.
  fold tok_alts. now rewrite E.
Qed.

(** Finite checks over lists of texts. *)
Lemma all_texts (f : str -> bool) l k : forallb f l = true -> In k l -> f k = true.
Proof. intros F I. rewrite forallb_forall in F. now apply F. Qed.

Lemma texts_symbolic l k : forallb (forallb is_symbol_char) l = true -> In k l -> symbolic k.
Proof.
  intros F I. apply Forall_forall. intros c C. pose proof (all_texts _ _ _ F I) as G.
  rewrite forallb_forall in G. now apply G.
Qed.

Definition apart (l l' : list str) : bool := forallb (fun x => negb (existsb (str_eqb x) l')) l.
Lemma apart_not l l' x : apart l l' = true -> In x l -> ~ In x l'.
Proof.
  intros A I J. pose proof (all_texts _ _ _ A I) as G. apply negb_true_iff in G.
  rewrite <- not_true_iff_false in G. apply G. apply existsb_exists. exists x. split; [exact J | apply str_eqb_refl].
Qed.

Definition stems_ok (l : list str) (k : str) : bool :=
  forallb (fun y => implb (str_eqb (stem y) k) (str_eqb y k)) l.
Lemma stems_uniq l k : stems_ok l k = true -> forall y, In y l -> stem y = k -> y = k.
Proof.
  intros F y I E. pose proof (all_texts _ _ _ F I) as G. simpl in G. rewrite E, str_eqb_refl in G.
  now apply str_eqb_eq.
Qed.

Lemma texts_nonempty l (k : str) : forallb (fun s => match s with [] => false | _ => true end) l = true ->
  In k l -> k <> [].
Proof. intros F I ->. now pose proof (all_texts _ _ _ F I). Qed.

(** Keywords, word-like operators, arrows and truth values. *)
Lemma lex_keyword k rest : In k keywords -> next_plain rest -> lexes TkKeyword k rest.
Proof.
  intros I N off.
  assert (S : symbolic k) by (apply (texts_symbolic keywords); [reflexivity | exact I]).
  assert (NE : k <> []) by (apply (texts_nonempty keywords); [reflexivity | exact I]).
  apply parse_token_alts; [exact NE |].
  apply (talt_takes [_; _] _ [_; _; _; _; _; _; _]).
  - repeat apply Forall_cons; try apply Forall_nil; apply valid_none.
    + apply long_fails; auto. apply (apart_not keywords); [reflexivity | exact I].
    + apply arrows_fail; auto. apply (apart_not keywords); [reflexivity | exact I].
  - apply (valid_some any_keyword TkKeyword). apply (keyword_in keywords); auto.
    apply stems_uniq. apply (all_texts (stems_ok keywords) keywords); [reflexivity | exact I].
Qed.

Lemma lex_bool (b : bool) rest : next_plain rest -> lexes TkBooleanLiteral (if b then lit "True" else lit "False") rest.
Proof.
  intros N off. set (k := if b then lit "True" else lit "False").
  assert (I : In k [lit "True"; lit "False"]) by (destruct b; simpl; auto).
  assert (S : symbolic k) by (apply (texts_symbolic [lit "True"; lit "False"]); [reflexivity | exact I]).
  assert (NE : k <> []) by (destruct b; discriminate).
  apply parse_token_alts; [exact NE |].
  apply (talt_takes [_; _; _; _] _ [_; _; _; _; _]).
  - repeat apply Forall_cons; try apply Forall_nil; apply valid_none.
    + apply long_fails; auto. apply (apart_not [lit "True"; lit "False"]); [reflexivity | exact I].
    + apply arrows_fail; auto. apply (apart_not [lit "True"; lit "False"]); [reflexivity | exact I].
    + apply keywords_fail; auto. apply (apart_not [lit "True"; lit "False"]); [reflexivity | exact I].
    + apply short_fails; auto. apply (apart_not [lit "True"; lit "False"]); [reflexivity | exact I].
  - apply (valid_some bool_literal). apply (keyword_in [lit "True"; lit "False"]); auto.
    apply stems_uniq. now destruct b.
Qed.

Lemma lex_arrow k rest : In k [lit "->"; lit "~>"] -> next_plain rest -> lexes TkPunctuation k rest.
Proof.
  intros I N off.
  assert (S : symbolic k) by (apply (texts_symbolic [lit "->"; lit "~>"]); [reflexivity | exact I]).
  assert (NE : k <> []) by (apply (texts_nonempty [lit "->"; lit "~>"]); [reflexivity | exact I]).
  apply parse_token_alts; [exact NE |].
  apply (talt_takes [_] _ [_; _; _; _; _; _; _; _]).
  - repeat apply Forall_cons; try apply Forall_nil; apply valid_none.
    apply long_fails; auto. apply (apart_not [lit "->"; lit "~>"]); [reflexivity | exact I].
  - apply (valid_some any_punctuation). unfold any_punctuation.
    pose proof (puncts_fail k rest off NE S) as P.
    assert (K : talt (map keyword_tag [lit "->"; lit "~>"]) (Inp off (k ++ rest))
      = TOk (Inp (off + utf8_len k) rest) (Piece k (Slice off (off + utf8_len k)))).
    { apply keyword_in; auto. apply stems_uniq.
      apply (all_texts (stems_ok [lit "->"; lit "~>"]) [lit "->"; lit "~>"]); [reflexivity | exact I]. }
    change (talt (map punctuation_tag puncts ++ map keyword_tag [lit "->"; lit "~>"]) (Inp off (k ++ rest))
      = TOk (Inp (off + utf8_len k) rest) (Piece k (Slice off (off + utf8_len k)))).
    now rewrite talt_skip.
Qed.

(** A name: word characters, not reserved, neither a number nor a comment. *)
Definition number_like (x : str) : bool :=
  match x with
  | c :: r => is_digit c || ((c =? 45)%N && match r with d :: _ => is_digit d | [] => false end)
  | [] => false
  end.

Definition name (x : str) : Prop :=
  x <> [] /\ symbolic x /\ ~ In x (map lit ["True"; "False"]%string ++ reserved)
  /\ number_like x = false /\ hd 0%N x <> 35%N.

Lemma stem_reserved x l : forallb (fun y => existsb (str_eqb (stem y)) (map lit [""; "True"; "False"]%string ++ reserved)) l = true ->
  name x -> ~ In x (map stem l).
Proof.
  intros F (NE & _ & R & _) I. apply in_map_iff in I as (y & <- & I).
  pose proof (all_texts _ _ _ F I) as G. apply existsb_exists in G as (z & J & E). apply str_eqb_eq in E.
  rewrite E in *. change (In z (([] : str) :: (map lit ["True"; "False"]%string ++ reserved))) in J.
  destruct J as [J|J]; [now subst z | contradiction].
Qed.

Lemma comment_none c r off : c <> 35%N -> comment (Inp off (c :: r)) = TErr.
Proof.
  intros N. unfold comment. cbn [i_rest]. destruct c as [|p]; [reflexivity |].
  repeat (destruct p as [p|p|]; try reflexivity; try congruence).
Qed.

Lemma string_none c r off : c <> 34%N -> string_literal (Inp off (c :: r)) = TErr.
Proof. intros N. unfold string_literal. rewrite tag_fails; [reflexivity | congruence]. Qed.

Lemma digits_none r off : (match r with c :: _ => is_digit c = false | [] => True end) ->
  (match strip_prefix_i (lit "0") (Inp off r) with
   | TErr => if (0 <? N.of_nat (length (fst (span is_digit r))))%N
             then split_at (N.of_nat (length (fst (span is_digit r)))) (Inp off r) else TErr
   | r => r end) = TErr.
Proof.
  intros D. destruct r as [|c r]; [reflexivity |].
  assert (Z : strip_prefix_i (lit "0") (Inp off (c :: r)) = TErr).
  { apply (tag_fails 48%N [] c r off). intros <-. discriminate D. }
  rewrite Z. cbn [span]. now rewrite D.
Qed.

Lemma split_zero s off : split_at 0 (Inp off s) = TOk (Inp off s) (Piece [] (Slice off off)).
Proof. pose proof (split_at_ok [] s off) as E. cbn [utf8_len app] in E. rewrite N.add_0_r in E. exact E. Qed.

Lemma number_none x rest off : x <> [] -> symbolic x -> next_plain rest -> number_like x = false ->
  number_literal (Inp off (x ++ rest)) = TErr.
Proof.
  intros NE S NP L. unfold number_literal. destruct x as [|c x]; [congruence |]. cbn [app].
  destruct (N.eq_dec c 45) as [->|N45].
  - match goal with |- context [strip_prefix_i (lit "-") ?i] =>
      assert (T : strip_prefix_i (lit "-") i = TOk (Inp (off + utf8_len (lit "-")) (x ++ rest))
                 (Piece (lit "-") (Slice off (off + utf8_len (lit "-")))))
        by exact (tag_takes (lit "-") (x ++ rest) off) end.
    rewrite T. cbn [tbind i_rest].
    rewrite digits_none; [reflexivity |]. destruct x as [|d x]; cbn [app].
    + destruct rest as [|d rest]; [exact I |]. simpl in NP.
      destruct (is_digit d) eqn:D; [| reflexivity].
      unfold is_symbol_char in NP. rewrite D in NP. rewrite !orb_true_r in NP. discriminate.
    + simpl in L. exact L.
  - assert (T : strip_prefix_i (lit "-") (Inp off (c :: x ++ rest)) = TErr)
      by (apply (tag_fails 45%N [] c (x ++ rest) off); congruence).
    rewrite T, split_zero. cbn [tbind i_rest]. rewrite digits_none; [reflexivity |].
    simpl in L. apply orb_false_iff in L. apply L.
Qed.

Lemma lex_name x rest : name x -> next_plain rest -> lexes TkSymbol x rest.
Proof.
  intros X N off. pose proof X as (NE & S & R & L & H).
  apply parse_token_alts; [exact NE |].
  apply (talt_takes [_; _; _; _; _; _; _; _] _ [_]).
  - repeat apply Forall_cons; try apply Forall_nil; try apply valid_none.
    + apply long_fails; auto. now apply stem_reserved.
    + apply arrows_fail; auto. now apply stem_reserved.
    + apply keywords_fail; auto. now apply stem_reserved.
    + apply short_fails; auto. now apply stem_reserved.
    + apply bools_fail; auto. now apply stem_reserved.
    + destruct x as [|c x]; [congruence |]. apply comment_none. exact H.
    + destruct x as [|c x]; [congruence |]. apply string_none. intros ->. inversion S. discriminate.
    + now apply number_none.
  - apply (valid_some symbol). unfold symbol. cbn [i_rest].
    rewrite (span_plain _ x rest N), (span_symbolic _ x S).
    destruct (N.eqb_spec (utf8_len x) 0) as [Z|_]; [apply utf8_len_0 in Z; contradiction |].
    apply split_at_ok.
Qed.

(** ** Integers *)

Definition digits (d : str) : Prop := Forall (fun c => is_digit c = true) d.

Lemma digits_symbolic d : digits d -> symbolic d.
Proof.
  intros D. eapply Forall_impl; [| exact D]. intros c E. unfold is_symbol_char. rewrite E.
  rewrite !orb_true_r. reflexivity.
Qed.

Lemma digits_len d : digits d -> utf8_len d = N.of_nat (length d).
Proof. intros D. apply ascii_len. eapply Forall_impl; [| exact D]. intros c. apply digit_ascii. Qed.

(** [-]digits without leading zero. *)
Definition numeral (s : str) : Prop :=
  exists sign d, s = sign ++ d /\ (sign = [] \/ sign = lit "-") /\ d <> [] /\ digits d
    /\ (hd 0%N d = 48%N -> d = [48%N]).

Lemma numeral_symbolic s : numeral s -> symbolic s /\ s <> [] /\ has_digit s.
Proof.
  intros (sign & d & -> & G & NE & D & _). split; [| split].
  - apply Forall_app. split; [| now apply digits_symbolic]. destruct G as [-> | ->]; [constructor |].
    constructor; [reflexivity | constructor].
  - intros E. apply app_eq_nil in E. now destruct E.
  - destruct D as [|c d C D]; [congruence |]. exists c. split; [| exact C]. apply in_app_iff. right. now left.
Qed.

Lemma stem_no_digit s l : forallb (fun y => forallb (fun c => negb (is_digit c)) (stem y)) l = true ->
  has_digit s -> ~ In s (map stem l).
Proof.
  intros F (c & I & D) J. apply in_map_iff in J as (y & <- & J).
  pose proof (all_texts _ _ _ F J) as G. simpl in G. rewrite forallb_forall in G. specialize (G c I).
  rewrite D in G. discriminate.
Qed.

Lemma next_plain_not_digit rest : next_plain rest ->
  match rest with c :: _ => is_digit c = false | [] => True end.
Proof.
  destruct rest as [|c r]; [trivial |]. simpl. intros NP. destruct (is_digit c) eqn:D; [| reflexivity].
  unfold is_symbol_char in NP. rewrite D in NP. rewrite !orb_true_r in NP. discriminate.
Qed.

Lemma digits_take d rest off : d <> [] -> digits d -> (hd 0%N d = 48%N -> d = [48%N]) -> next_plain rest ->
  exists p, (match strip_prefix_i (lit "0") (Inp off (d ++ rest)) with
   | TErr => if (0 <? N.of_nat (length (fst (span is_digit (d ++ rest)))))%N
             then split_at (N.of_nat (length (fst (span is_digit (d ++ rest))))) (Inp off (d ++ rest)) else TErr
   | r => r end) = TOk (Inp (off + utf8_len d) rest) p.
Proof.
  intros NE D Z NP. destruct d as [|c d]; [congruence |].
  destruct (N.eq_dec c 48) as [->|C].
  - specialize (Z eq_refl). inversion Z; subst.
    match goal with |- context [strip_prefix_i (lit "0") ?i] =>
      assert (T : strip_prefix_i (lit "0") i = TOk (Inp (off + utf8_len (lit "0")) rest)
                 (Piece (lit "0") (Slice off (off + utf8_len (lit "0")))))
        by exact (tag_takes (lit "0") rest off) end.
    rewrite T. eexists; reflexivity.
  - assert (T : strip_prefix_i (lit "0") (Inp off ((c :: d) ++ rest)) = TErr)
      by (apply (tag_fails 48%N [] c (d ++ rest) off); congruence).
    rewrite T. rewrite (span_plain _ (c :: d) rest (next_plain_not_digit _ NP)), (span_symbolic is_digit (c :: d) D).
    rewrite <- (digits_len _ D), split_at_ok.
    destruct (N.ltb_spec 0 (utf8_len (c :: d))) as [_|L]; [eexists; reflexivity |].
    rewrite (digits_len _ D) in L. simpl in L. lia.
Qed.

Definition before_numbers : list (input -> tres (token * diagnostic)) :=
  [map_valid_token long_operator TkOperator;
                  map_valid_token any_punctuation TkPunctuation;
                  map_valid_token any_keyword TkKeyword;
                  map_valid_token short_operator TkOperator;
                  map_valid_token bool_literal TkBooleanLiteral;
                  map_valid_token comment TkComment;
                  string_literal].

Lemma digits_first x rest off : symbolic x -> next_plain rest -> has_digit x ->
  hd 0%N x <> 34%N -> hd 0%N x <> 35%N ->
  Forall (fun p => p (Inp off (x ++ rest)) = TErr) before_numbers.
Proof.
  intros S NP HD H1 H2. assert (NE : x <> []) by (intros ->; destruct HD as (? & [] & _)).
  repeat apply Forall_cons; try apply Forall_nil; try apply valid_none.
  - apply long_fails; auto. now apply stem_no_digit.
  - apply arrows_fail; auto. now apply stem_no_digit.
  - apply keywords_fail; auto. now apply stem_no_digit.
  - apply short_fails; auto. now apply stem_no_digit.
  - apply bools_fail; auto. now apply stem_no_digit.
  - destruct x as [|c x]; [congruence |]. now apply comment_none.
  - destruct x as [|c x]; [congruence |]. now apply string_none.
Qed.

Lemma signed_hd sign d : (sign = [] \/ sign = lit "-") -> d <> [] -> digits d ->
  hd 0%N (sign ++ d) <> 34%N /\ hd 0%N (sign ++ d) <> 35%N.
Proof.
  intros G NE D. destruct G as [-> | ->]; [| split; discriminate].
  destruct D as [|c d C D]; [congruence |]. cbn [app hd]. split; intros ->; discriminate C.
Qed.

Lemma lex_numeral s rest : numeral s -> next_plain rest -> lexes TkIntegerLiteral s rest.
Proof.
  intros M NP off. pose proof (numeral_symbolic s M) as (S & NE & HD).
  apply parse_token_alts; [exact NE |].
  apply (talt_takes before_numbers number_literal [_; _]).
  - destruct M as (sign & d & -> & G & Nd & D & _). destruct (signed_hd sign d G Nd D).
    now apply digits_first.
  - destruct M as (sign & d & -> & G & Nd & D & Z). unfold number_literal. rewrite <- app_assoc.
    assert (E1 : exists p, (match strip_prefix_i (lit "-") (Inp off (sign ++ d ++ rest)) with
                  TErr => split_at 0 (Inp off (sign ++ d ++ rest)) | r => r end)
                 = TOk (Inp (off + utf8_len sign) (d ++ rest)) p).
    { destruct G as [-> | ->].
      - destruct D as [|c d C D]; [congruence |]. cbn [app].
        assert (T : strip_prefix_i (lit "-") (Inp off (c :: d ++ rest)) = TErr).
        { apply (tag_fails 45%N [] c (d ++ rest) off). intros <-. discriminate C. }
        rewrite T, split_zero. cbn [utf8_len]. rewrite N.add_0_r. eexists; reflexivity.
      - pose proof (tag_takes (lit "-") (d ++ rest) off) as T. unfold punctuation_tag in T.
        rewrite T. eexists; reflexivity. }
    destruct E1 as [p1 E1]. rewrite E1. cbn [tbind i_rest].
    destruct (digits_take d rest (off + utf8_len sign) Nd D Z NP) as [p2 E2]. rewrite E2. cbn [tbind].
    assert (E3 : strip_prefix_i (lit ".") (Inp (off + utf8_len sign + utf8_len d) rest) = TErr).
    { destruct rest as [|c r]; [reflexivity |].
      apply (tag_fails 46%N [] c r). intros <-. discriminate NP. }
    rewrite E3.
    rewrite (split_until_ok _ _ (sign ++ d)).
    + cbn [tbind mk_token i_off p_text p_range]. rewrite utf8_len_app, N.add_assoc. reflexivity.
    + split; cbn [i_rest i_off]; [now rewrite <- app_assoc |]. rewrite utf8_len_app. lia.
Qed.

(** ** Strings *)

Lemma hex_digits_take n (d r : str) : forall acc off, length d <= n -> forallb is_hexdigit d = true ->
  (d <> [] \/ acc <> None) ->
  exists p, hex_digits n acc (Inp off (d ++ 125%N :: r)) = TOk (Inp (off + utf8_len d) (125%N :: r)) (Some p)
    /\ p_text p = match acc with Some a => p_text a | None => [] end ++ d.
Proof.
  revert d. induction n as [|n IH]; intros d acc off L F NE.
  - destruct d; [| simpl in L; lia]. destruct acc as [a|]; [| now destruct NE].
    exists a. cbn [hex_digits app utf8_len]. rewrite N.add_0_r, app_nil_r. auto.
  - destruct d as [|c d].
    + destruct acc as [a|]; [| now destruct NE]. exists a.
      cbn [hex_digits app utf8_len parse_hex_digit i_rest]. rewrite N.add_0_r, app_nil_r.
      unfold parse_hex_digit. cbn [i_rest]. change (is_hexdigit 125%N) with false. auto.
    + cbn [forallb] in F. apply andb_true_iff in F as [F1 F2]. cbn [length] in L.
      assert (Q : parse_hex_digit (Inp off ((c :: d) ++ 125%N :: r))
                = TOk (Inp (off + chr_len c) (d ++ 125%N :: r)) (Piece [c] (Slice off (off + chr_len c)))).
      { unfold parse_hex_digit. cbn [app i_rest]. rewrite F1.
        rewrite <- (split_at_one c (d ++ 125%N :: r) off). f_equal.
        pose proof (hexdigit_ascii c F1) as A. unfold chr_len. now rewrite (proj2 (N.ltb_lt c 128) A). }
      cbn [hex_digits]. rewrite Q.
      destruct (IH d (Some match acc with Some a => piece_join a (Piece [c] (Slice off (off + chr_len c)))
                      | None => Piece [c] (Slice off (off + chr_len c)) end) (off + chr_len c)%N) as (p & E & T);
        [lia | exact F2 | right; discriminate |].
      exists p. rewrite E, T. cbn [utf8_len]. rewrite N.add_assoc. split; [reflexivity |].
      destruct acc; cbn [piece_join p_text]; now rewrite <- ?app_assoc.
Qed.

Lemma escape_simple (c x : chr) (r : str) off :
  In (c, x) [(34, 34); (92, 92); (98, 8); (102, 12); (110, 10); (114, 13); (116, 9)]%N ->
  parse_escape (Inp off (92%N :: c :: r)) = TOk (Inp (off + utf8_len [92%N; c]) r) DValid.
Proof.
  intros I. unfold parse_escape.
  rewrite (tag_takes [92%N] (c :: r) off : punctuation_tag [92%N] (Inp off (92%N :: c :: r)) = _). cbn [tbind].
  set (off' := (off + utf8_len [92%N])%N).
  assert (T : exists p, talt [punctuation_tag [34%N]; punctuation_tag [92%N];
              punctuation_tag (lit "b"); punctuation_tag (lit "f");
              punctuation_tag (lit "n"); punctuation_tag (lit "r");
              punctuation_tag (lit "t")] (Inp off' (c :: r)) = TOk (Inp (off' + utf8_len [c]) r) p).
  { cbn [talt]. change (lit "b") with [98%N]. change (lit "f") with [102%N].
    change (lit "n") with [110%N]. change (lit "r") with [114%N]. change (lit "t") with [116%N].
    simpl in I. decompose [or] I; try contradiction;
      match goal with E : (_, _) = (_, _) |- _ => inversion E; subst end;
      repeat (rewrite tag_fails by discriminate);
      match goal with |- context [punctuation_tag [?c] ?i] =>
        let T := fresh in
        assert (T : punctuation_tag [c] i
                    = TOk (Inp (off' + utf8_len [c]) r) (Piece [c] (Slice off' (off' + utf8_len [c]))))
          by exact (tag_takes [c] r off'); rewrite T end;
      eexists; reflexivity. }
  destruct T as [p T]. rewrite T. unfold off'. cbn [utf8_len].
  rewrite !N.add_0_r, N.add_assoc. reflexivity.
Qed.

Lemma escape_hex (d r : str) off : 1 <= length d <= 5 -> forallb is_hexdigit d = true ->
  is_scalar (hex_num d) = true ->
  parse_escape (Inp off (92%N :: 117%N :: 123%N :: d ++ 125%N :: r))
  = TOk (Inp (off + utf8_len (92%N :: 117%N :: 123%N :: d ++ [125%N])) r) DValid.
Proof.
  intros L F S. unfold parse_escape.
  rewrite (tag_takes [92%N] (117%N :: 123%N :: d ++ 125%N :: r) off
           : punctuation_tag [92%N] (Inp off (92%N :: 117%N :: 123%N :: d ++ 125%N :: r)) = _). cbn [tbind].
  set (off' := (off + utf8_len [92%N])%N).
  assert (T : talt [punctuation_tag [34%N]; punctuation_tag [92%N];
              punctuation_tag (lit "b"); punctuation_tag (lit "f");
              punctuation_tag (lit "n"); punctuation_tag (lit "r");
              punctuation_tag (lit "t")] (Inp off' (117%N :: 123%N :: d ++ 125%N :: r)) = TErr).
  { cbn [talt]. change (lit "b") with [98%N]. change (lit "f") with [102%N].
    change (lit "n") with [110%N]. change (lit "r") with [114%N]. change (lit "t") with [116%N].
    repeat (rewrite tag_fails by discriminate). reflexivity. }
  rewrite T.
  rewrite (tag_takes (lit "u{") (d ++ 125%N :: r) off'
           : punctuation_tag (lit "u{") (Inp off' (117%N :: 123%N :: d ++ 125%N :: r)) = _). cbn [tbind].
  destruct (hex_digits_take 5 d r None (off' + utf8_len (lit "u{"))%N) as (p & E & Tp);
    [lia | exact F | left; destruct d; [simpl in L; lia | discriminate] |].
  cbn [app] in Tp. rewrite E, Tp, S.
  rewrite (tag_takes (lit "}") r _ : punctuation_tag (lit "}") (Inp _ (125%N :: r)) = _).
  f_equal. f_equal. unfold off'. change (lit "u{") with [117%N; 123%N]. change (lit "}") with [125%N].
  cbn [utf8_len app]. rewrite utf8_len_app. cbn [utf8_len]. lia.
Qed.

Lemma string_loop_body (b m rest : str) : str_body b m -> forall fuel errs off, length b < fuel ->
  parse_string_loop fuel errs (Inp off (b ++ 34%N :: rest))
  = TOk (Inp (off + utf8_len b) (34%N :: rest)) errs.
Proof.
  induction 1 as [|c a b Q B S IH|c x a b I S IH|d a b L F X S IH]; intros [|fuel] errs off G;
    try (simpl in G; lia); cbn [app parse_string_loop i_rest].
  - cbn [utf8_len]. rewrite N.add_0_r. reflexivity.
  - pose proof (proj2 (N.eqb_neq _ _) Q) as Q'. pose proof (proj2 (N.eqb_neq _ _) B) as B'. rewrite Q', B'.
    rewrite split_at_one. cbn [tbind]. rewrite IH by (simpl in G; lia). cbn [utf8_len].
    now rewrite N.add_assoc.
  - change (92 =? 34)%N with false. change (92 =? 92)%N with true. cbv iota.
    crw (escape_simple c x (a ++ 34%N :: rest) off I). cbn [tbind].
    rewrite IH by (simpl in G; lia). f_equal. f_equal. cbn [utf8_len]. lia.
  - change (92 =? 34)%N with false. change (92 =? 92)%N with true. cbv iota.
    rewrite <- app_assoc. cbn [app]. crw (escape_hex d (a ++ 34%N :: rest) off L F X). cbn [tbind].
    rewrite IH by (simpl in G; rewrite app_length in G; simpl in G; lia). f_equal. f_equal. cbn [utf8_len].
    rewrite !utf8_len_app. cbn [utf8_len]. lia.
Qed.

Lemma lex_string (b m rest : str) : str_body b m -> lexes TkStringLiteral (34%N :: b ++ [34%N]) rest.
Proof.
  intros B off. apply parse_token_alts; [discriminate |].
  apply (talt_takes [_; _; _; _; _; _] _ [_; _; _]).
  - repeat apply Forall_cons; try apply Forall_nil; apply valid_none; reflexivity.
  - unfold string_literal. cbn [app]. rewrite <- app_assoc.
    crw (tag_takes [34%N] (b ++ [34%N] ++ rest) off). cbn [tbind].
    unfold parse_string_inner. cbn [i_rest].
    crw (string_loop_body b m rest B (S (length (b ++ [34%N] ++ rest))) [] (off + utf8_len [34%N]) ltac:(rewrite app_length; simpl; lia)). cbn [tbind].
    cbn [talt]. crw (tag_takes [34%N] rest (off + utf8_len [34%N] + utf8_len b)). cbn [tbind].
    rewrite (split_until_ok _ _ (34%N :: b ++ [34%N])).
    + cbn [tbind mk_token i_off p_text p_range].
      assert (O : (off + utf8_len [34%N] + utf8_len b + utf8_len [34%N] = off + utf8_len (34%N :: b ++ [34%N]))%N)
        by (cbn [utf8_len]; rewrite utf8_len_app; cbn [utf8_len]; lia).
      rewrite O. reflexivity.
    + split; cbn [i_rest i_off]; [cbn [app]; now rewrite <- app_assoc |].
      cbn [utf8_len]. rewrite utf8_len_app. cbn [utf8_len]. lia.
Qed.

(** ** Punctuation and blanks *)

Lemma tags_in (l : list str) more (c : chr) (rest : str) off : In [c] l -> Forall (fun p => exists d, p = [d]) l ->
  talt (map punctuation_tag l ++ more) (Inp off ([c] ++ rest))
  = TOk (Inp (off + utf8_len [c]) rest) (Piece [c] (Slice off (off + utf8_len [c]))).
Proof.
  intros I F. induction F as [|p l [d ->] F IH]; [destruct I |]. cbn [map app talt].
  destruct (N.eq_dec d c) as [->|NE].
  - crw (tag_takes [c] rest off). reflexivity.
  - rewrite tag_fails by exact NE. apply IH. destruct I as [E|I]; [congruence | exact I].
Qed.

Lemma lex_punct (c : chr) (rest : str) : In [c] puncts -> (c = 61%N -> hd 0%N rest <> 61%N) -> lexes TkPunctuation [c] rest.
Proof.
  intros I NE off. apply parse_token_alts; [discriminate |].
  apply (talt_takes [_] _ [_; _; _; _; _; _; _; _]).
  - constructor; [| constructor]. apply valid_none.
    unfold puncts in I. simpl in I. decompose [or] I; try contradiction;
      match goal with E : [_] = [_] |- _ => inversion E; subst end; try reflexivity.
    specialize (NE eq_refl). destruct rest as [|d rest]; [reflexivity |]. simpl in NE.
    unfold long_operator. cbn [talt app]. unfold keyword_tag, strip_prefix_i. cbn -[N.eqb].
    change (61 =? 61)%N with true. cbv iota. apply not_eq_sym, N.eqb_neq in NE.
    change (lit "==") with [61%N; 61%N]. cbn [strip_prefix]. rewrite NE. reflexivity.
  - apply (valid_some any_punctuation).
    apply (tags_in puncts [keyword_tag (lit "->"); keyword_tag (lit "~>")] c rest off I).
    unfold puncts. cbn [map]. repeat apply Forall_cons; try apply Forall_nil; eexists; reflexivity.
Qed.

Lemma lex_space (rest : str) : (match rest with c :: _ => is_ascii_ws c = false | [] => True end) ->
  lexes TkWhitespace [32%N] rest.
Proof.
  intros W off. apply parse_token_alts; [discriminate |].
  apply (talt_takes [_; _; _; _; _; _; _; _; _] _ []).
  - repeat apply Forall_cons; try apply Forall_nil; reflexivity.
  - apply (valid_some whitespace). unfold whitespace. cbn [i_rest].
    rewrite (span_plain _ [32%N] rest W). apply (split_at_ok [32%N] rest off).
Qed.

(** ** Sequences *)

Inductive lexed : list (token_kind * str) -> str -> Prop :=
| lexed_nil : lexed [] []
| lexed_cons k t ws rest : t <> [] -> lexes k t rest -> lexed ws rest -> lexed ((k, t) :: ws) (t ++ rest).

Lemma lexed_one k t : t <> [] -> lexes k t [] -> lexed [(k, t)] t.
Proof.
  intros NE L. pose proof (lexed_cons k t [] [] NE L lexed_nil) as X. now rewrite app_nil_r in X.
Qed.

Lemma lexed_loop ws s : lexed ws s -> forall fuel off, length s < fuel ->
  exists ts, parse_tokens_loop fuel (Inp off s) = TokOk ts (map (fun _ => DValid) ts)
    /\ map (fun t => (t_kind t, t_text t)) ts = ws.
Proof.
  induction 1 as [|k t ws rest NE L S IH]; intros [|fuel] off F; try (simpl in F; lia).
  - exists []. split; reflexivity.
  - cbn [parse_tokens_loop]. rewrite L. rewrite app_length in F.
    destruct (IH fuel (off + utf8_len t)%N) as (ts & E & M).
    { destruct t; [congruence | simpl in F; lia]. }
    rewrite E. exists (Token k t (Slice off (off + utf8_len t)) :: ts). split; [reflexivity |]. cbn [map t_kind t_text]. now rewrite M.
Qed.

Lemma lexed_tokenize ws s : lexed ws s ->
  exists ts, tokenize s = TokOk ts (map (fun _ => DValid) ts)
    /\ map (fun t => (t_kind t, t_text t)) ts = ws.
Proof. intros L. apply (lexed_loop ws s L). lia. Qed.
