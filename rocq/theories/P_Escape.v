(** C63: escape sequences in string literals. *)

From Coq Require Import String List Lia.
From Verif Require Import Base Syntax Tokenizer Parser TokFacts StringFacts WordFacts LexFacts
  LimFacts ForwardFacts PrecFacts P_Literal.
Import ListNotations.

(** ** Specification *)

Inductive hex_digit : chr -> N -> Prop :=
| hex_figure c : (48 <= c <= 57)%N -> hex_digit c (c - 48)
| hex_capital c : (65 <= c <= 70)%N -> hex_digit c (c - 65 + 10)
| hex_small c : (97 <= c <= 102)%N -> hex_digit c (c - 97 + 10).

(** The value of hexadecimal digits. *)
Inductive hex_number : str -> N -> Prop :=
| hex_none : hex_number [] 0
| hex_more d n c v : hex_number d n -> hex_digit c v -> hex_number (d ++ [c]) (16 * n + v).

(** The numbers of Unicode characters: the surrogates are not among them. *)
Definition character (n : N) : Prop := (n < 0xD800 \/ 0xE000 <= n <= 0x10FFFF)%N.

(** The contents of a string literal and the text it stands for. *)
Inductive stands_for : str -> str -> Prop :=
| stands_nil : stands_for [] []
| stands_plain c a b :
    c <> 34%N -> c <> 92%N -> stands_for a b -> stands_for (c :: a) (c :: b)
| stands_escape e c a b :
    In (e, c) [(lit "\", 92%N); ([34%N], 34%N); (lit "b", 8%N); (lit "f", 12%N);
               (lit "n", 10%N); (lit "r", 13%N); (lit "t", 9%N)] ->
    stands_for a b -> stands_for (lit "\" ++ e ++ a) (c :: b)
| stands_code d n a b :
    (1 <= length d <= 5)%nat -> hex_number d n -> character n ->
    stands_for a b -> stands_for (lit "\u{" ++ d ++ lit "}" ++ a) (n :: b).

(** ** Agreement with the model *)

Lemma hex_digit_val c v : hex_digit c v <-> is_hexdigit c = true /\ hex_val c = v.
Proof.
  assert (D : forall x y z, (((x <=? y) && (y <=? z)) = true <-> x <= y <= z)%N).
  { intros x y z. rewrite Bool.andb_true_iff, !N.leb_le. tauto. }
  unfold is_hexdigit, hex_val, is_digit, is_upper. split.
  - intros X. destruct X as [c X | c X | c X].
    + pose proof (proj2 (D _ _ _) X) as ->. now split.
    + replace ((48 <=? c) && (c <=? 57))%N with false
        by (symmetry; apply Bool.not_true_iff_false; rewrite D; unfold chr in *; lia).
      pose proof (proj2 (D _ _ _) X) as ->.
      replace ((65 <=? c) && (c <=? 90))%N with true
        by (symmetry; apply D; unfold chr in *; lia).
      split; [reflexivity | unfold chr in *; lia].
    + replace ((48 <=? c) && (c <=? 57))%N with false
        by (symmetry; apply Bool.not_true_iff_false; rewrite D; unfold chr in *; lia).
      pose proof (proj2 (D _ _ _) X) as ->.
      replace ((65 <=? c) && (c <=? 90))%N with false
        by (symmetry; apply Bool.not_true_iff_false; rewrite D; unfold chr in *; lia).
      rewrite Bool.orb_true_r. split; [reflexivity | unfold chr in *; lia].
  - intros [X <-]. rewrite !Bool.orb_true_iff, !D in X. destruct X as [[X | X] | X].
    + pose proof (proj2 (D _ _ _) X) as ->. now constructor.
    + replace ((48 <=? c) && (c <=? 57))%N with false
        by (symmetry; apply Bool.not_true_iff_false; rewrite D; unfold chr in *; lia).
      replace ((65 <=? c) && (c <=? 90))%N with true
        by (symmetry; apply D; unfold chr in *; lia).
      replace (c - 55)%N with (c - 65 + 10)%N by (unfold chr in *; lia). now apply hex_capital.
    + replace ((48 <=? c) && (c <=? 57))%N with false
        by (symmetry; apply Bool.not_true_iff_false; rewrite D; unfold chr in *; lia).
      replace ((65 <=? c) && (c <=? 90))%N with false
        by (symmetry; apply Bool.not_true_iff_false; rewrite D; unfold chr in *; lia).
      replace (c - 87)%N with (c - 97 + 10)%N by (unfold chr in *; lia). now apply hex_small.
Qed.

Lemma hex_number_num d n : hex_number d n <-> forallb is_hexdigit d = true /\ hex_num d = n.
Proof.
  split.
  - induction 1 as [| d n c v _ [IH1 IH2] V]; [now split |].
    apply (proj1 (hex_digit_val _ _)) in V as [V1 V2].
    rewrite forallb_app. cbn [forallb]. rewrite IH1, V1. split; [reflexivity |].
    unfold hex_num in *. rewrite fold_left_app. cbn [fold_left]. now rewrite IH2, V2.
  - intros [F <-]. induction d as [| c d IH] using rev_ind; [constructor |].
    rewrite forallb_app in F. cbn [forallb] in F.
    apply Bool.andb_true_iff in F as [F1 F2]. rewrite Bool.andb_true_r in F2.
    unfold hex_num. rewrite fold_left_app. cbn [fold_left].
    apply (hex_more d (hex_num d) c (hex_val c)); [exact (IH F1) | now apply hex_digit_val].
Qed.

Lemma character_scalar n : character n <-> is_scalar n = true.
Proof.
  unfold character, is_scalar. rewrite Bool.orb_true_iff, Bool.andb_true_iff, N.leb_le, !N.ltb_lt. lia.
Qed.

Lemma stands_body a b : stands_for a b <-> str_body a b.
Proof.
  split.
  - induction 1 as [| c a b Q B _ IH | e c a b I _ IH | d n a b L N C _ IH].
    + constructor.
    + now constructor.
    + cbn in I. repeat destruct I as [I | I]; try contradiction; injection I as <- <-;
        apply body_simple; (exact IH || (cbn; tauto)).
    + apply (proj1 (hex_number_num _ _)) in N as [N <-].
      apply (body_hex d a b L N); [now apply character_scalar | exact IH].
  - induction 1 as [| c a b Q B _ IH | c x a b I _ IH | d a b L N C _ IH].
    + constructor.
    + now constructor.
    + apply (stands_escape [c]); [| exact IH]. cbn in *.
      repeat destruct I as [I | I]; try contradiction; injection I as <- <-; tauto.
    + apply (stands_code d (hex_num d) a b L); [now apply hex_number_num | now apply character_scalar | exact IH].
Qed.

(** ** C63 *)

(** A literal is accepted and denotes the text its contents stand for. *)
Theorem C63_denotes contents text :
  stands_for contents text ->
  parse_script ([34%N] ++ contents ++ [34%N]) = SOk (EDo [EString text]).
Proof.
  intros S. apply stands_body in S.
  apply (script_lexed _ [(TkStringLiteral, 34%N :: contents ++ [34%N])]).
  - apply lexed_one; [discriminate |]. eapply lex_string. exact S.
  - reflexivity.
  - cbn [filter fst]. apply op_one. constructor. now apply (unescape_literal _ text S).
Qed.

Lemma tokens_strings fuel : forall i ts ds, parse_tokens_loop fuel i = TokOk ts ds ->
  filter not_valid ds = [] -> forall t, In t ts -> t_kind t = TkStringLiteral ->
  exists b m, str_body b m /\ (t_text t = 34%N :: b ++ [34%N] \/ t_text t = 34%N :: b).
Proof.
  induction fuel as [| fuel IH]; intros i ts ds E V t I K; cbn [parse_tokens_loop] in E; [discriminate |].
  destruct (parse_token i) as [i' [t' d] | | |] eqn:T; try discriminate.
  - destruct (parse_tokens_loop fuel i') as [ts' ds' | |] eqn:L; try discriminate. injection E as <- <-.
    cbn [filter] in V. destruct d; try discriminate. destruct I as [<- | I].
    + eapply string_literal_valid, parse_token_string; eassumption.
    + exact (IH _ _ _ L V t I K).
  - injection E as <- _. destruct I.
Qed.

(** No other literals are accepted: in a script that parses, the contents of
    every string literal stand for a text.  The closing quote may be missing at
    the end of the script. *)
Theorem C63_no_others s e ts ds t :
  parse_script s = SOk e -> tokenize s = TokOk ts ds ->
  In t ts -> t_kind t = TkStringLiteral ->
  exists contents text, stands_for contents text
    /\ (t_text t = [34%N] ++ contents ++ [34%N] \/ t_text t = [34%N] ++ contents).
Proof.
  intros P T I K. unfold parse_script in P. rewrite T in P.
  destruct (filter not_valid ds) eqn:V; [| discriminate].
  destruct (tokens_strings _ _ _ _ T V t I K) as (b & m & B & X).
  exists b, m. split; [now apply stands_body | exact X].
Qed.

(** A text has at most one meaning. *)
Theorem C63_unique contents text text' :
  stands_for contents text -> stands_for contents text' -> text = text'.
Proof.
  intros A B. pose proof (C63_denotes _ _ A) as X. rewrite (C63_denotes _ _ B) in X.
  now injection X.
Qed.

(** The largest code with five digits, and the last before the surrogates. *)
Example C63_example :
  stands_for (lit "a\n\u{D7ff}\u{fFfFf}") [97; 10; 0xD7FF; 0xFFFFF]%N
  /\ (exists e, parse_script ([34%N] ++ lit "\u{D800}" ++ [34%N]) = SFailure e)
  /\ (exists e, parse_script ([34%N] ++ lit "\u{100000}" ++ [34%N]) = SFailure e)
  /\ (exists e, parse_script ([34%N] ++ lit "\x" ++ [34%N]) = SFailure e).
Proof.
  split; [| split; [| split]]; try (eexists; vm_compute; reflexivity).
  apply stands_body.
  apply body_plain; [discriminate | discriminate |].
  apply (body_simple 110 10); [cbn; tauto |].
  apply (body_hex (lit "D7ff")); [cbn; lia | reflexivity | reflexivity |].
  apply (body_hex (lit "fFfFf")); [cbn; lia | reflexivity | reflexivity | constructor].
Qed.

Print Assumptions C63_denotes.
Print Assumptions C63_no_others.
Print Assumptions C63_unique.
