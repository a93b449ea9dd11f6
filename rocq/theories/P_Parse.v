(** Properties of the parser: C05, C06, C07. *)

From Coq Require Import String.
From Verif Require Import Base Syntax Tokenizer Parser TokFacts ParserFacts StringFacts LayoutFacts FuelFacts.

(** ** C05 *)

(** Token kinds that carry no meaning. *)
Definition blank (k : token_kind) : Prop := k = TkWhitespace \/ k = TkComment.

(** The kinds and texts of the tokens of [s] that carry meaning. *)
Inductive words_of : list token -> list (token_kind * str) -> Prop :=
| words_nil : words_of [] []
| words_blank t ts ws : blank (t_kind t) -> words_of ts ws -> words_of (t :: ts) ws
| words_word t ts ws : ~ blank (t_kind t) -> words_of ts ws ->
    words_of (t :: ts) ((t_kind t, t_text t) :: ws).

Definition words (s : str) (ws : list (token_kind * str)) : Prop :=
  exists ts ds, tokenize s = TokOk ts ds /\ words_of ts ws.

(** [s] contains a malformed token. *)
Definition malformed (s : str) : Prop :=
  exists ts ds d, tokenize s = TokOk ts ds /\ In d ds /\ d <> DValid.

(** Two words, operators, numbers or keywords of [s] touch. *)
Definition wordlike (k : token_kind) : Prop :=
  In k [TkSymbol; TkKeyword; TkOperator; TkBooleanLiteral; TkFloatLiteral; TkIntegerLiteral].
Definition crowded (s : str) : Prop :=
  exists ts ds a t u b, tokenize s = TokOk ts ds /\ ts = a ++ t :: u :: b
    /\ wordlike (t_kind t) /\ wordlike (t_kind u)
    /\ t_text t <> lit "@" /\ t_text u <> lit "@".

Lemma words_filter ts ws : words_of ts ws ->
  map (fun t => (t_kind t, t_text t)) (filter significant ts) = ws.
Proof.
  induction 1 as [|t ts ws B W IH|t ts ws B W IH]; [reflexivity | |]; simpl;
    unfold significant at 1.
  - destruct B as [-> | ->]; exact IH.
  - destruct (t_kind t) eqn:K; try (simpl; rewrite K, IH; reflexivity);
      exfalso; apply B; rewrite ?K; [now left | now right].
Qed.

Lemma words_sim i j : map (fun t => (t_kind t, t_text t)) i = map (fun t => (t_kind t, t_text t)) j ->
  sim i j.
Proof.
  revert j. induction i as [|t i IH]; intros [|u j] E; simpl in E; try discriminate; [constructor |].
  inversion E. constructor; [now split | now apply IH].
Qed.

Lemma filter_not_valid ds : filter not_valid ds = [] \/ exists d, In d ds /\ d <> DValid.
Proof.
  induction ds as [|d ds IH]; [now left |]. simpl.
  destruct d; simpl; try (right; eexists; split; [now left | discriminate]).
  destruct IH as [IH|(d & I & N)]; [now left | right]. exists d. split; [now right | exact N].
Qed.

Lemma str_eqb_refl s : str_eqb s s = true.
Proof. induction s; simpl; [reflexivity |]. now rewrite N.eqb_refl. Qed.

Lemma adjacent_crowded ts : adjacent_error ts = None \/
  exists a t u b, ts = a ++ t :: u :: b /\ wordlike (t_kind t) /\ wordlike (t_kind u)
    /\ t_text t <> lit "@" /\ t_text u <> lit "@".
Proof.
  induction ts as [|t ts IH]; [now left |]. destruct ts as [|u ts]; [now left |].
  cbn [adjacent_error].
  destruct (is_symbol_like (t_kind t) && is_symbol_like (t_kind u)
         && negb (str_eqb (t_text t) (lit "@")) && negb (str_eqb (t_text u) (lit "@"))) eqn:E.
  - right. exists [], t, u, ts. rewrite !andb_true_iff, !negb_true_iff in E.
    destruct E as [[[K1 K2] T1] T2]. split; [reflexivity |].
    split; [| split; [| split]].
    + destruct (t_kind t); try discriminate; unfold wordlike; simpl; tauto.
    + destruct (t_kind u); try discriminate; unfold wordlike; simpl; tauto.
    + intros X. rewrite X, str_eqb_refl in T1. discriminate.
    + intros X. rewrite X, str_eqb_refl in T2. discriminate.
  - destruct IH as [IH|(a & x & y & b & -> & R)]; [now left | right].
    exists (t :: a), x, y, b. auto.
Qed.

Theorem C05_same_words s s' ws e :
  words s ws -> words s' ws -> parse_script s = SOk e ->
  parse_script s' = SOk e \/ malformed s' \/ crowded s'.
Proof.
  intros (ts & ds & T & W) (ts' & ds' & T' & W') P.
  unfold parse_script in *. rewrite T in P. rewrite T'.
  destruct (filter not_valid ds); [| discriminate].
  destruct (adjacent_error ts); [discriminate |].
  destruct (filter_not_valid ds') as [-> |(d & I & N)].
  2:{ right; left. exists ts', ds', d. auto. }
  destruct (adjacent_crowded ts') as [-> |(a & x & y & b & E & R)].
  2:{ right; right. exists ts', ds', a, x, y, b. auto. }
  left. assert (S : sim (filter significant ts) (filter significant ts')).
  { apply words_sim. now rewrite (words_filter _ _ W), (words_filter _ _ W'). }
  unfold parse_fuel in *. rewrite <- (sim_length _ _ S).
  pose proof (parse_sim (utf8_len s) (utf8_len s') (12 * Datatypes.S (length (filter significant ts)))
                NScript _ _ S) as X.
  destruct (parse (utf8_len s) _ _ _) as [[|]| | | |]; try discriminate.
  destruct (parse (utf8_len s') _ _ _) as [r'| | | |]; simpl in X; try contradiction.
  destruct X as [X1 <-]. inversion X1. subst. exact P.
Qed.

(** Hence two accepted texts with the same words mean the same. *)
Theorem C05_layout s s' ws e e' :
  words s ws -> words s' ws -> parse_script s = SOk e -> parse_script s' = SOk e' -> e = e'.
Proof.
  intros W W' P P'. destruct (C05_same_words s s' ws e W W' P) as [E|[M|C]].
  - congruence.
  - destruct M as (ts & ds & d & T & I & N). unfold parse_script in P'. rewrite T in P'.
    destruct (filter_not_valid ds) as [E|_]; [| idtac].
    + exfalso. assert (X : In d (filter not_valid ds)) by (apply filter_In; split; [exact I | now destruct d]).
      rewrite E in X. contradiction.
    + exfalso. assert (X : In d (filter not_valid ds)) by (apply filter_In; split; [exact I | now destruct d]).
      destruct (filter not_valid ds); [contradiction | discriminate].
  - destruct C as (ts & ds & a & t & u & b & T & -> & K1 & K2 & T1 & T2).
    unfold parse_script in P'. rewrite T in P'. destruct (filter not_valid ds); [| discriminate].
    assert (X : adjacent_error (a ++ t :: u :: b) <> None).
    { clear - K1 K2 T1 T2. assert (L : forall k, wordlike k -> is_symbol_like k = true)
        by (intros k K; unfold wordlike in K; simpl in K; decompose [or] K; subst; try reflexivity; contradiction).
      assert (Q : forall x y, x <> y -> str_eqb x y = false).
      { intros x y NE. destruct (str_eqb x y) eqn:E; [| reflexivity]. exfalso. apply NE. clear - E.
        revert y E. induction x as [|c x IH]; intros [|d y]; simpl; try discriminate; [reflexivity |].
        destruct (N.eqb_spec c d) as [->|]; [| discriminate]. simpl. intros E. f_equal. now apply IH. }
      induction a as [|x a IH]; cbn [app].
      - cbn [adjacent_error]. rewrite (L _ K1), (L _ K2), (Q _ _ T1), (Q _ _ T2). discriminate.
      - cbn [adjacent_error]. destruct (a ++ t :: u :: b) eqn:E; [destruct a; discriminate |].
        destruct (_ && _); [discriminate | exact IH]. }
    destruct (adjacent_error (a ++ t :: u :: b)); [discriminate | congruence].
Qed.

Example C05_example :
  let s := lit "let f = x -> x + 1; f 2" in
  let s'' := lit "let f=x -> x + 1" ++ [10%N] ++ lit ";f 2 #" in
  (exists ws, words s ws /\ words s'' ws) /\ s <> s''
  /\ (exists e, parse_script s = SOk e /\ parse_script s'' = SOk e)
  /\ crowded (lit "1+2").
Proof.
  cbv zeta. split; [| split; [discriminate | split]].
  - exists [(TkKeyword, lit "let"); (TkSymbol, lit "f"); (TkPunctuation, lit "=");
            (TkSymbol, lit "x"); (TkPunctuation, lit "->"); (TkSymbol, lit "x");
            (TkOperator, lit "+"); (TkIntegerLiteral, lit "1"); (TkPunctuation, lit ";");
            (TkSymbol, lit "f"); (TkIntegerLiteral, lit "2")].
    split; (eexists _, _; split; [vm_compute; reflexivity |]);
      repeat (first [ apply words_nil
                    | apply words_blank; [first [left; reflexivity | right; reflexivity] |]
                    | apply words_word; [intros [X|X]; discriminate X |] ]).
  - eexists. split; vm_compute; reflexivity.
  - eexists _, _, [], _, _, _. split; [vm_compute; reflexivity |].
    split; [reflexivity |]. unfold wordlike. simpl. repeat split; try tauto; discriminate.
Qed.

(** ** C06 *)

(** Depth of nested calls that parsing [i] may need. *)
Theorem C06_parser_finishes slen n i fuel :
  12 * length i + 12 <= fuel -> parse slen fuel n i <> PFuel.
Proof.
  intros L E. pose proof (parse_good slen fuel n i) as G. pose proof (rank_bound n).
  rewrite E in G. apply G. lia.
Qed.

(** The result does not depend on the bound. *)
Theorem C06_bound_irrelevant slen n i f g :
  12 * length i + 12 <= f -> 12 * length i + 12 <= g -> parse slen f n i = parse slen g n i.
Proof.
  intros F G. destruct (Nat.le_ge_cases f g) as [L|L].
  - symmetry. apply parse_mono; [exact L | now apply C06_parser_finishes].
  - apply parse_mono; [exact L | now apply C06_parser_finishes].
Qed.

(** What is left unparsed is an end piece of the input. *)
Theorem C06_consumes slen n i fuel r e :
  12 * length i + 12 <= fuel -> parse slen fuel n i = POk r e -> exists c, i = c ++ r.
Proof.
  intros L E. pose proof (parse_good slen fuel n i) as G. pose proof (rank_bound n).
  rewrite E in G. apply G. lia.
Qed.

Theorem C06_script_finishes s : parse_script s <> SFuel.
Proof.
  unfold parse_script. pose proof (tokenize_ok s) as T.
  destruct (tokenize s) as [ts ds| |]; [| discriminate | contradiction].
  destruct (filter not_valid ds); [| discriminate]. destruct (adjacent_error ts); [discriminate |].
  pose proof (parse_script_good (utf8_len s) (filter significant ts)) as G.
  destruct (parse _ _ _ _) as [[|]| | | |]; try discriminate. contradiction.
Qed.

Example C06_example : exists e, parse_script (lit "((((1))))") = SOk e.
Proof. eexists. vm_compute. reflexivity. Qed.

(** ** C07 *)

Theorem C07_no_crash s : tokenize s <> TokPanic -> parse_script s <> SPanic.
Proof.
  unfold parse_script. intros NP. destruct (tokenize s) as [ts ds| |] eqn:T; [| congruence | discriminate].
  destruct (filter not_valid ds) eqn:V; [| discriminate]. destruct (adjacent_error ts); [discriminate |].
  pose proof (parse_script_good (utf8_len s) (filter significant ts)) as G.
  destruct (parse _ _ _ _) as [[|]| | | |]; try discriminate.
  exfalso. apply G. apply tokens_loop_decodable in T; [| exact V].
  apply Forall_forall. intros t I. apply filter_In in I. eapply Forall_forall; [exact T | apply I].
Qed.

(** Together with C02: texts without a backslash in front of a non-ASCII
    character are parsed or rejected. *)
Theorem C07_parses_or_rejects s :
  (forall a c b, s = a ++ 92%N :: c :: b -> (c < 128)%N) ->
  (exists e, parse_script s = SOk e)
  \/ exists x, parse_script s = SError x \/ parse_script s = SFailure x.
Proof.
  intros W. pose proof (tokenize_ok s) as T.
  assert (NP : tokenize s <> TokPanic).
  { intros E. rewrite E in T. destruct T as (a & c & b & E' & L). specialize (W a c b E'). lia. }
  pose proof (C07_no_crash s NP). pose proof (C06_script_finishes s).
  destruct (parse_script s); eauto; congruence.
Qed.

Example C07_example :
  let s := [34; 92; 117; 123; 49; 102; 54; 48; 48; 125; 92; 110; 228; 34]%N in
  tokenize s <> TokPanic /\ parse_script s = SOk (EDo [EString [128512; 10; 228]%N]).
Proof. split; [vm_compute; discriminate | vm_compute; reflexivity]. Qed.

Print Assumptions C05_same_words.
Print Assumptions C05_layout.
Print Assumptions C06_parser_finishes.
Print Assumptions C06_bound_irrelevant.
Print Assumptions C06_consumes.
Print Assumptions C06_script_finishes.
Print Assumptions C07_no_crash.
Print Assumptions C07_parses_or_rejects.
