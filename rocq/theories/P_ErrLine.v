(** C52: the lines shown with a syntax error. *)

From Coq Require Import String.
From Verif Require Import Base Syntax Host Ops Tokenizer Parser ErrorFmt Text TokFacts TextFacts
  P_Highlight Demo.

(** A text without line feed. *)
Definition one_line (s : str) : Prop := ~ In 10%N s.
(** A text made of complete lines. *)
Definition whole_lines (s : str) : Prop := s = [] \/ exists x, s = x ++ [10%N].
(** What can follow a line. *)
Definition next_lines (s : str) : Prop := s = [] \/ exists x, s = 10%N :: x.

(** Number of lines of a text made of complete lines. *)
Definition feeds (s : str) : nat := count_occ N.eq_dec s 10%N.

Definition rule : str := lit "      |" ++ [10%N].
Definition numbered (n : nat) : str := pad5 (n_str (N.of_nat n)) ++ lit " | ".

(** ** Lines of a text *)

Lemma split_nl_one s : one_line s -> split_nl s = [s].
Proof.
  induction s as [|c s IH]; intros O; [reflexivity |]. cbn [split_nl].
  destruct (N.eqb_spec c 10) as [->|C]; [destruct O; now left |].
  now rewrite IH by (intros I; apply O; now right).
Qed.

Lemma split_nl_feed s r : split_nl (s ++ 10%N :: r) = split_nl s ++ split_nl r.
Proof.
  induction s as [|c s IH]; [reflexivity |]. cbn [app split_nl].
  destruct (c =? 10)%N; rewrite IH; [reflexivity |].
  destruct (split_nl s) as [|p ps] eqn:E; [| reflexivity].
  destruct s as [|d s]; [discriminate |]. simpl in E. destruct (d =? 10)%N; [discriminate |].
  destruct (split_nl s); discriminate.
Qed.

Lemma split_nl_length s : length (split_nl s) = S (feeds s).
Proof.
  unfold feeds. induction s as [|c s IH]; [reflexivity |]. cbn [split_nl count_occ].
  destruct (N.eqb_spec c 10) as [->|C].
  - destruct (N.eq_dec 10 10); [| congruence]. cbn [length]. now rewrite IH.
  - destruct (N.eq_dec c 10); [congruence |]. destruct (split_nl s); [discriminate | exact IH].
Qed.

Lemma lines_of_app l : forall x, l <> [] -> lines_of (l ++ [x]) = map strip_cr l ++ lines_of [x].
Proof.
  induction l as [|p l IH]; intros x NE; [congruence |]. cbn [app map].
  destruct l as [|q l]; [reflexivity |].
  change (lines_of (p :: (q :: l) ++ [x])) with (strip_cr p :: lines_of ((q :: l) ++ [x])).
  now rewrite IH by discriminate.
Qed.

Lemma lines_whole x p : one_line p ->
  str_lines (x ++ 10%N :: p) = map strip_cr (split_nl x) ++ match p with [] => [] | _ => [p] end.
Proof.
  intros O. unfold str_lines. rewrite split_nl_feed, (split_nl_one p O). apply lines_of_app.
  intros E. apply (f_equal (@length str)) in E. rewrite split_nl_length in E. discriminate.
Qed.

Lemma feeds_app a b : feeds (a ++ b) = feeds a + feeds b.
Proof. apply count_occ_app. Qed.
Lemma feeds_one p : one_line p -> feeds p = 0.
Proof. intros O. now apply count_occ_not_In. Qed.

(** Number of lines before a position, and the last of them. *)
Lemma lines_before p0 p : whole_lines p0 -> one_line p ->
  Nat.max (length (str_lines (p0 ++ p))) 1
    = match p, p0 with [], _ :: _ => feeds p0 | _, _ => S (feeds p0) end
  /\ (p <> [] \/ p0 = [] -> last (str_lines (p0 ++ p)) [] = p).
Proof.
  intros [-> | [x ->]] O.
  - cbn [app]. unfold str_lines. rewrite split_nl_one by exact O.
    destruct p as [|c p]; split; reflexivity.
  - rewrite <- app_assoc. cbn [app]. rewrite lines_whole by exact O.
    rewrite app_length, map_length, split_nl_length, feeds_app.
    change (feeds [10%N]) with 1. destruct p as [|c p].
    + cbn [length]. split; [destruct x; cbn [app]; lia | intros [E|E]; [congruence | destruct x; discriminate]].
    + split; [cbn [length]; lia |]. intros _. apply last_last.
Qed.

Lemma line_after q a : one_line q -> next_lines a -> (a <> [] -> last q 0%N <> 13%N) ->
  hd [] (str_lines (q ++ a)) = q.
Proof.
  intros O [-> | [x ->]] L.
  - rewrite app_nil_r. unfold str_lines. rewrite split_nl_one by exact O. now destruct q.
  - unfold str_lines. rewrite split_nl_feed, split_nl_one by exact O. cbn [app].
    assert (NE : split_nl x <> []).
    { intros E. apply (f_equal (@length str)) in E. rewrite split_nl_length in E. discriminate. }
    destruct (split_nl x) as [|y ys]; [congruence |].
    change (strip_cr q = q). specialize (L ltac:(discriminate)). clear - L.
    induction q as [|c q IH]; [reflexivity |]. destruct q as [|d q].
    + cbn [strip_cr]. destruct (N.eqb_spec c 13) as [->|C]; [now destruct L | reflexivity].
    + change (c :: strip_cr (d :: q) = c :: d :: q). f_equal. apply IH. exact L.
Qed.

Lemma slices (p0 p t b : str) :
  str_sub (p0 ++ p ++ t ++ b) (utf8_len (p0 ++ p)) (utf8_len (p0 ++ p ++ t)) = Some t
  /\ split_bytes (utf8_len (p0 ++ p)) (p0 ++ p ++ t ++ b) = Some (p0 ++ p, t ++ b)
  /\ split_bytes (utf8_len (p0 ++ p ++ t)) (p0 ++ p ++ t ++ b) = Some (p0 ++ p ++ t, b).
Proof.
  assert (E1 : p0 ++ p ++ t ++ b = (p0 ++ p) ++ t ++ b) by (now rewrite <- app_assoc).
  assert (E2 : p0 ++ p ++ t = (p0 ++ p) ++ t) by (now rewrite <- app_assoc).
  rewrite E1, E2. generalize (p0 ++ p). intros a.
  split; [| split; [apply split_bytes_app | rewrite app_assoc; apply split_bytes_app]].
  unfold str_sub. rewrite split_bytes_app, utf8_len_app.
  destruct (N.leb_spec (utf8_len a) (utf8_len a + utf8_len t)); [| lia].
  replace (utf8_len a + utf8_len t - utf8_len a)%N with (utf8_len t) by lia.
  now rewrite split_bytes_app.
Qed.

(** ** The excerpt *)

(** An offending text [t] within one line [p ++ t ++ q], preceded by the lines
    [p0] and followed by the lines [a].  The text is not at the start of a line
    other than the first. *)
Theorem C52_line_shown_partial H p0 p t q a :
  whole_lines p0 -> one_line p -> one_line t -> one_line q -> next_lines a ->
  p <> [] \/ p0 = [] -> (a <> [] -> last q 0%N <> 13%N) ->
  print_error_lines H (p0 ++ p ++ t ++ q ++ a) (Slice (utf8_len (p0 ++ p)) (utf8_len (p0 ++ p ++ t)))
  = inl (rule ++ numbered (S (feeds p0))
         ++ take_n 72 p ++ RED_START ++ t ++ RESET ++ take_n (72 - N.of_nat (length (take_n 72 p))) q
         ++ [10%N] ++ rule).
Proof.
  intros W Op Ot Oq Na S L. unfold print_error_lines. cbn [sl_start sl_end].
  destruct (slices p0 p t (q ++ a)) as (E1 & E2 & E3). rewrite E1, E2, E3. cbn [or_boundary bindp fst snd].
  destruct (lines_before p0 p W Op) as [B1 B2]. rewrite B1, (B2 S), (line_after q a Oq Na L).
  assert (T : match str_lines t with [] => [[]] | l => l end = [t]).
  { unfold str_lines. rewrite split_nl_one by exact Ot. now destruct t. }
  rewrite T.
  assert (K : (N.of_nat (length (take_n 72 p)) <= 72)%N).
  { unfold take_n. destruct (N.leb_spec (N.of_nat (length p)) 72); [lia |].
    rewrite firstn_length. lia. }
  rewrite N.min_l by exact K. unfold usize_sub.
  destruct (N.leb_spec (N.of_nat (length (take_n 72 p))) 72); [| lia]. cbn [bindp].
  replace (match p, p0 with [], _ :: _ => feeds p0 | _, _ => Datatypes.S (feeds p0) end)
    with (Datatypes.S (feeds p0)).
  - unfold rule, numbered, NL. rewrite <- !app_assoc. reflexivity.
  - destruct p as [|c p]; [| reflexivity]. destruct S as [S| ->]; [congruence | reflexivity].
Qed.

(** Seen without the escape sequences, a line of at most 72 characters is
    shown as it is. *)
Theorem C52_line_visible_partial H p0 p t q a :
  whole_lines p0 -> one_line (p ++ t ++ q) -> next_lines a ->
  p <> [] \/ p0 = [] -> (a <> [] -> last q 0%N <> 13%N) ->
  (length (p ++ t ++ q) <= 72)%nat -> ~ In 27%N (p ++ t ++ q) ->
  exists shown,
    print_error_lines H (p0 ++ p ++ t ++ q ++ a) (Slice (utf8_len (p0 ++ p)) (utf8_len (p0 ++ p ++ t)))
    = inl (rule ++ numbered (S (feeds p0)) ++ shown ++ [10%N] ++ rule)
    /\ strip_ansi shown = p ++ t ++ q.
Proof.
  intros W O Na S L Le E.
  assert (Op : one_line p) by (intros I; apply O, in_app_iff; auto).
  assert (Ot : one_line t) by (intros I; apply O; rewrite !in_app_iff; auto).
  assert (Oq : one_line q) by (intros I; apply O; rewrite !in_app_iff; auto).
  assert (Ep : no_esc p) by (intros I; apply E, in_app_iff; auto).
  assert (Et : no_esc t) by (intros I; apply E; rewrite !in_app_iff; auto).
  assert (Eq : no_esc q) by (intros I; apply E; rewrite !in_app_iff; auto).
  rewrite !app_length in Le.
  exists (take_n 72 p ++ RED_START ++ t ++ RESET ++ take_n (72 - N.of_nat (length (take_n 72 p))) q).
  split.
  - rewrite C52_line_shown_partial by auto. now rewrite <- !app_assoc.
  - unfold take_n at 1.
    destruct (N.leb_spec (N.of_nat (length p)) 72); [| lia].
    unfold take_n at 2. rewrite (proj2 (N.leb_le _ _)) by lia.
    unfold take_n. rewrite (proj2 (N.leb_le _ _)) by lia.
    rewrite strip_plain by exact Ep. f_equal.
    change (strip_ansi (t ++ RESET ++ q) = t ++ q).
    rewrite strip_plain by exact Et. f_equal. change (strip_ansi q = q). now apply strip_clean.
Qed.

(** A concrete case. *)
Example C52_example :
  let s := lit "echo 1;" ++ [10%N] ++ lit "let x 5;" ++ [10%N] ++ lit "echo x" in
  exists at_, parse_script s = SFailure (Expected at_ (lit "`=`") None (Some (lit "let expressions must use an `=` sign")))
  /\ at_ = Slice (utf8_len ((lit "echo 1;" ++ [10%N]) ++ lit "let x "))
                 (utf8_len ((lit "echo 1;" ++ [10%N]) ++ lit "let x " ++ lit "5"))
  /\ print_error_lines demo_host s at_
     = inl (rule ++ lit "    2 | let x " ++ RED_START ++ lit "5" ++ RESET ++ lit ";" ++ [10%N] ++ rule).
Proof. eexists. split; [vm_compute; reflexivity |]. split; vm_compute; reflexivity. Qed.

(** The number printed, exactly: one too small when the offending text starts
    at the beginning of a line other than the first. *)
Theorem C52_number_exact H p0 p t b out :
  whole_lines p0 -> one_line p ->
  print_error_lines H (p0 ++ p ++ t ++ b) (Slice (utf8_len (p0 ++ p)) (utf8_len (p0 ++ p ++ t))) = inl out ->
  exists rest,
    out = rule ++ numbered (if match p, p0 with [], _ :: _ => true | _, _ => false end
                            then feeds p0 else S (feeds p0)) ++ rest.
Proof.
  intros W Op. unfold print_error_lines. cbn [sl_start sl_end].
  destruct (slices p0 p t b) as (E1 & E2 & E3). rewrite E1, E2, E3. cbn [or_boundary bindp fst snd].
  destruct (lines_before p0 p W Op) as [B1 _]. rewrite B1.
  replace (match p, p0 with [], _ :: _ => feeds p0 | _, _ => S (feeds p0) end)
    with (if match p, p0 with [], _ :: _ => true | _, _ => false end then feeds p0 else S (feeds p0))
    by (destruct p, p0; reflexivity).
  generalize (if match p, p0 with [], _ :: _ => true | _, _ => false end then feeds p0 else S (feeds p0)).
  intros n X.
  destruct (match str_lines t with [] => [[]] | l => l end) as [|l0 [|l1 ls]];
    match goal with H : bindp ?u _ = _ |- _ => destruct u eqn:?; cbn [bindp] in H; [| discriminate] end;
    injection X as <-; unfold rule, numbered, NL; eexists; rewrite <- !app_assoc; reflexivity.
Qed.

(** The script "echo 1;<LF>5x" fails at the second line; the report says 1. *)
Theorem C52_refuted :
  exists s e at_ w f h out,
    parse_script s = SFailure e /\ e = Expected at_ w f h
    /\ s = (lit "echo 1;" ++ [10%N]) ++ lit "5" ++ lit "x"
    /\ sl_start at_ = utf8_len (lit "echo 1;" ++ [10%N])
    /\ feeds (lit "echo 1;" ++ [10%N]) = 1
    /\ print_error_lines demo_host s at_ = inl out
    /\ out = rule ++ lit "    1 | echo 1;" ++ RED_START ++ lit "5x" ++ RESET ++ [10%N] ++ rule.
Proof.
  exists ((lit "echo 1;" ++ [10%N]) ++ lit "5" ++ lit "x").
  eexists _, _, _, _, _, _. split; [vm_compute; reflexivity |].
  split; [reflexivity | split; [reflexivity |]].
  split; [vm_compute; reflexivity |]. split; [vm_compute; reflexivity |].
  split; [vm_compute; reflexivity | vm_compute; reflexivity].
Qed.

(** Reporting a text of several lines whose last line is longer than 72
    characters panics in a build with overflow checks. *)
Theorem C52_long_line_crashes H : h_overflow H = OvfPanic ->
  exists s e at_ w f h,
    parse_script s = SFailure e /\ e = Expected at_ w f h
    /\ print_error_lines H s at_ = inr PArith.
Proof.
  intros O.
  exists (lit "let x " ++ [34; 10]%N ++ repeat 97%N 80 ++ [34%N]).
  eexists _, _, _, _, _. split; [vm_compute; reflexivity |]. split; [reflexivity |].
  unfold print_error_lines, usize_sub. rewrite O. vm_compute. reflexivity.
Qed.

Print Assumptions C52_line_shown_partial.
Print Assumptions C52_line_visible_partial.
Print Assumptions C52_number_exact.
Print Assumptions C52_refuted.
Print Assumptions C52_long_line_crashes.
