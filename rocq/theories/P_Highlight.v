(** Properties of syntax highlighting: C03. *)

From Coq Require Import String.
From Verif Require Import Base Syntax Tokenizer ErrorFmt Text TokFacts P_Tok Highlight.

Definition no_esc (s : str) : Prop := ~ In 27%N s.

Lemma strip_plain u b : no_esc u -> strip_ansi (u ++ b) = u ++ strip_ansi b.
Proof.
  unfold strip_ansi, no_esc. induction u as [|c u IH]; intros F; [reflexivity |].
  cbn [app strip_ansi_go]. destruct (N.eqb_spec c 27) as [->|_]; [destruct F; now left |].
  simpl. rewrite IH; [reflexivity |]. intros G. apply F. now right.
Qed.

(** [u] is shown as [v], whatever follows. *)
Definition shows (u v : str) : Prop := forall b, strip_ansi (u ++ b) = v ++ strip_ansi b.

Lemma shows_app u v u' v' : shows u v -> shows u' v' -> shows (u ++ u') (v ++ v').
Proof. intros A B b. now rewrite <- !app_assoc, A, B. Qed.
Lemma shows_plain u : no_esc u -> shows u u.
Proof. intros F b. now apply strip_plain. Qed.
Lemma shows_nil : shows [] [].
Proof. intros b. reflexivity. Qed.
Lemma shows_code u v w : shows u [] -> shows v w -> shows (u ++ v) w.
Proof. intros A B. apply (shows_app _ _ _ _ A B). Qed.
Lemma shows_reset (c : bool) : shows (if c then HL_RESET else []) [].
Proof. destruct c; intros b; reflexivity. Qed.

Lemma str_sub_covers s r t : covers s r t -> str_sub s (sl_start r) (sl_end r) = Some t.
Proof.
  intros (a & b & -> & A & B). unfold str_sub. rewrite A, B, split_bytes_app, utf8_len_app.
  destruct (N.leb_spec (utf8_len a) (utf8_len a + utf8_len t)); [| lia].
  replace (utf8_len a + utf8_len t - utf8_len a)%N with (utf8_len t) by lia.
  now rewrite split_bytes_app.
Qed.

Lemma no_esc_mid a t b : no_esc (a ++ t ++ b) -> no_esc t.
Proof. intros F I. apply F. rewrite !in_app_iff. auto. Qed.

Lemma no_esc_covers s r t : no_esc s -> covers s r t -> no_esc t.
Proof. intros F (a & b & -> & _). now apply no_esc_mid in F. Qed.

(** Ranges found by the tokenizer between [i] and [i']. *)
Lemma escapes_shown line : no_esc line -> forall l i i' a, line = a ++ i_rest i ->
  i_off i = utf8_len a -> ranges_in i i' l ->
  exists o e x y, hl_escapes line (i_off i) l = Some (o, e) /\ shows o x
    /\ str_sub line e (i_off i') = Some y /\ no_esc y /\ step i i' (x ++ y).
Proof.
  intros F. induction l as [|r l IH]; intros i i' a E O R.
  - destruct R as [b [S1 S2]]. exists [], (i_off i), [], b.
    assert (C : covers line (Slice (i_off i) (i_off i')) b).
    { exists a, (i_rest i'). simpl. rewrite utf8_len_app. split; [now rewrite E, S1 | lia]. }
    repeat split; auto.
    + apply (str_sub_covers _ _ _ C).
    + apply (no_esc_covers _ _ _ F C).
  - destruct R as (j & b & [S1 S2] & (m & k & p & t & q & [A1 A2] & [B1 B2] & [C1 C2] & NE & ->) & R).
    destruct (IH k i' (a ++ p ++ t)) as (o & e & x & y & H1 & H2 & H3 & H4 & H5 & H6).
    { rewrite E, A1, B1. now rewrite <- !app_assoc. }
    { rewrite !utf8_len_app. lia. }
    { eapply ranges_in_step; [| exact R]. split; [exact C1 | exact C2]. }
    assert (Cp : covers line (Slice (i_off i) (i_off m)) p).
    { exists a, (i_rest m). simpl. rewrite utf8_len_app. split; [now rewrite E, A1 | lia]. }
    assert (Ct : covers line (Slice (i_off m) (i_off k)) t).
    { exists (a ++ p), (i_rest k). simpl. rewrite !utf8_len_app.
      split; [rewrite E, A1, B1; now rewrite <- app_assoc | lia]. }
    exists (p ++ esc "[38;5;9m" ++ t ++ esc "[38;5;208m" ++ o), e, (p ++ t ++ x), y.
    cbn [hl_escapes sl_start sl_end].
    pose proof (str_sub_covers _ _ _ Cp) as Ep. pose proof (str_sub_covers _ _ _ Ct) as Et.
    cbn [sl_start sl_end] in Ep, Et. rewrite Ep, Et, H1.
    split; [reflexivity |]. split; [| split; [exact H3 | split; [exact H4 |]]].
    + apply shows_app; [apply shows_plain, (no_esc_covers _ _ _ F Cp) |].
      apply shows_code; [intros z; reflexivity |].
      apply shows_app; [apply shows_plain, (no_esc_covers _ _ _ F Ct) |].
      apply shows_code; [intros z; reflexivity | exact H2].
    + split.
      * rewrite A1, B1, H5. now rewrite <- !app_assoc.
      * rewrite !utf8_len_app in *. lia.
Qed.

Lemma token_shown line i i' t d a colored : no_esc line -> line = a ++ i_rest i ->
  i_off i = utf8_len a -> good_token i i' (t, d) ->
  exists o c, hl_token line t d colored = Some (o, c) /\ shows o (t_text t).
Proof.
  intros F E O ([S1 S2] & NE & R & D). cbn [fst snd] in *.
  assert (C : covers line (t_range t) (t_text t)).
  { exists a, (i_rest i'). rewrite R. simpl. rewrite utf8_len_app. split; [now rewrite E, S1 | lia]. }
  pose proof (str_sub_covers _ _ _ C) as X. pose proof (shows_plain _ (no_esc_covers _ _ _ F C)) as P.
  assert (PLAIN : forall c0 : bool, shows ((if c0 then HL_RESET else []) ++ t_text t) (t_text t))
    by (intros c0; apply shows_code; [apply shows_reset | exact P]).
  unfold hl_token. rewrite X.
  assert (WRONG : d = DInvalidNumber (t_range t) \/ d = DIllegalChar (t_range t)
     \/ (d = DValid \/ exists l, d = DInvalidStringEscapes l /\ ranges_in i i' l)).
  { destruct d; simpl in D; try rewrite <- R in D; subst; auto.
    - right; right; right. destruct D. eauto.
    - contradiction. }
  assert (BODY : (forall l, d = DInvalidStringEscapes l -> exists o e x,
     hl_escapes line (sl_start (t_range t)) l = Some (o, e)
     /\ str_sub line e (sl_end (t_range t)) = Some x /\ shows (o ++ x) (t_text t))).
  { intros l ->. destruct D as [_ D].
    destruct (escapes_shown line F l i i' a E O D) as (o & e & x & y & H1 & H2 & H3 & H4 & [H5 _]).
    rewrite R. exists o, e, y. simpl. split; [exact H1 |]. split; [exact H3 |].
    assert (T : t_text t = x ++ y) by (rewrite S1 in H5; now apply app_inv_tail in H5).
    rewrite T. apply shows_app; [exact H2 | now apply shows_plain]. }
  destruct (t_kind t);
    try (eexists _, _; split; [reflexivity |]; exact P);
    try (eexists _, _; split; [reflexivity |]; apply shows_code; [intros z; reflexivity | exact P]).
  - destruct (colored_punctuation (t_text t)); eexists _, _; split; try reflexivity; [| apply PLAIN].
    apply shows_code; [intros z; reflexivity | exact P].
  - destruct d; try (eexists _, _; split; [reflexivity |];
      apply shows_code; [intros z; reflexivity | exact P]).
    destruct (BODY _ eq_refl) as (o & e & x & H1 & H2 & H3). rewrite H1, H2.
    eexists _, _. split; [reflexivity |]. apply shows_code; [intros z; reflexivity | exact H3].
  - destruct WRONG as [->|[->|[->|(l & -> & _)]]]; rewrite ?X;
      eexists _, _; (split; [reflexivity |]); try apply PLAIN.
    apply shows_code; [intros z; reflexivity | exact P].
  - destruct WRONG as [->|[->|[->|(l & -> & _)]]]; rewrite ?X;
      eexists _, _; (split; [reflexivity |]); try apply PLAIN.
    apply shows_code; [intros z; reflexivity | exact P].
  - assert (G : exists o c, (if str_eqb (t_text t) (lit "None")
       then Some (esc "[91m" ++ t_text t, true)
       else if colored_command (t_text t)
            then Some (esc "[94m" ++ t_text t, true)
            else Some ((if colored then HL_RESET else []) ++ t_text t, false)) = Some (o, c)
       /\ shows o (t_text t)).
    { destruct (str_eqb _ _); [| destruct (colored_command _)]; eexists _, _;
        (split; [reflexivity |]); try apply PLAIN;
        apply shows_code; [intros z; reflexivity | exact P | intros z; reflexivity | exact P]. }
    destruct WRONG as [->|[->|[->|(l & -> & _)]]]; rewrite ?X; try exact G.
    eexists _, _; split; [reflexivity |]; apply shows_code; [intros z; reflexivity | exact P].
Qed.

Lemma tokens_shown line : no_esc line -> forall off s ts ds, tiled off s ts ds ->
  forall a colored, line = a ++ s -> off = utf8_len a ->
  exists o c, hl_tokens line ts ds colored = Some (o, c) /\ shows o s.
Proof.
  intros F. induction 1 as [|off s i' t d ts ds G T IH]; intros a colored E O.
  - eexists _, _. split; [reflexivity | apply shows_nil].
  - destruct (token_shown line (Inp off s) i' t d a colored F E O G) as (o & c & H1 & H2).
    destruct G as ([S1 S2] & _). cbn [fst i_rest i_off] in *.
    destruct (IH (a ++ t_text t) c) as (o' & c' & H3 & H4).
    { rewrite E, S1. now rewrite <- app_assoc. }
    { rewrite utf8_len_app. lia. }
    cbn [hl_tokens]. rewrite H1, H3. eexists _, _. split; [reflexivity |].
    rewrite S1. now apply shows_app.
Qed.

(** Removing the escape sequences from the highlighted line gives the line. *)
Theorem C03_same_text line :
  no_esc line -> tokenize line <> TokPanic ->
  exists shown, syntax_highlight line = Some shown /\ strip_ansi shown = line.
Proof.
  intros F NP. unfold syntax_highlight. pose proof (tokenize_ok line) as T.
  destruct (tokenize line) as [ts ds| |]; [| now destruct NP | contradiction].
  destruct (tokens_shown line F 0%N line ts ds T [] false eq_refl eq_refl) as (o & c & H1 & H2).
  rewrite H1. destruct (tiled_texts _ _ _ _ T) as (_ & _ & L & _).
  rewrite <- L, skipn_all. cbn [hl_leftover app].
  eexists. split; [reflexivity |]. rewrite H2.
  destruct c; apply app_nil_r.
Qed.

Example C03_example :
  let line := lit "echo ""a\q"" 1. ` None @ 'x # ok" in
  no_esc line /\ tokenize line <> TokPanic
  /\ exists shown, syntax_highlight line = Some shown /\ shown <> line /\ strip_ansi shown = line.
Proof.
  split; [intros F; vm_compute in F; decompose [or] F; (discriminate || contradiction) |].
  split; [vm_compute; discriminate |].
  eexists. split; [vm_compute; reflexivity |]. split; [discriminate | vm_compute; reflexivity].
Qed.

Print Assumptions C03_same_text.
