(** C103: showing a syntax error. *)

From Coq Require Import String.
From Verif Require Import Base Syntax Host Ops Tokenizer Parser ErrorFmt Text Monad Builtins Eval
  TokFacts P_Tok ErrPosFacts ReplSpec P_ErrLine Demo.

(** ** Vocabulary *)

(** The error points at the range [r] of the source text. *)
Inductive points : syntax_error -> slice -> Prop :=
| points_token ds d r : In d ds -> In r (mentioned d) -> points (TokenizationErrors ds) r
| points_expected r a b c : points (Expected r a b c) r
| points_here k r c : points (NomError k (Some r) c) r
| points_cause k a c r : points c r -> points (NomError k a (Some c)) r.

(** A text of several lines with a line of more than 72 characters that is not
    the first. *)
Definition long_later_line (t : str) : Prop :=
  exists x y z, t = x ++ 10%N :: y ++ z /\ one_line y /\ 72 < length y.

(** ** Positions *)

Lemma err_ok_points G e r : err_ok G e -> points e r -> G r.
Proof.
  intros E P. induction P as [ds d r D R| | |k a c r P IH]; cbn [err_ok] in E.
  - rewrite Forall_forall in E. specialize (E d D). rewrite Forall_forall in E. now apply E.
  - exact E.
  - apply E.
  - apply IH, E.
Qed.

(** Whatever a syntax error points at is a piece of the text that starts and
    ends between characters. *)
Theorem C103_points_into_text s e r :
  rejected s e -> points e r -> exists u, covers s r u.
Proof. intros R P. exact (err_ok_points _ e r (script_positions s e R) P). Qed.

(** ** The message *)

Lemma last_feed u : one_line u \/ exists x p, u = x ++ 10%N :: p /\ one_line p.
Proof.
  induction u as [|c u [O|(x & p & -> & O)]].
  - left. intros [].
  - destruct (N.eq_dec c 10) as [->|C].
    + right. now exists [], u.
    + left. intros [E|I]; [congruence | now apply O].
  - right. now exists (c :: x), p.
Qed.

Lemma strip_cr_prefix q : exists z, q = strip_cr q ++ z.
Proof.
  induction q as [|c q [z IH]]; [now exists [] |]. destruct q as [|d q].
  - cbn [strip_cr]. destruct (c =? 13)%N; [now exists [c] | now exists []].
  - exists z. change (c :: d :: q = c :: (strip_cr (d :: q) ++ z)). now rewrite <- IH.
Qed.

Lemma last_line u l0 l1 ls : str_lines u = l0 :: l1 :: ls ->
  exists x z, u = x ++ 10%N :: last (l1 :: ls) [] ++ z /\ one_line (last (l1 :: ls) []).
Proof.
  intros E. assert (L : last (l1 :: ls) [] = last (str_lines u) []) by (now rewrite E).
  rewrite L. destruct (last_feed u) as [O|(x & p & -> & O)].
  - unfold str_lines in E. rewrite split_nl_one in E by exact O. destruct u; discriminate.
  - rewrite (lines_whole x p O) in E |- *. destruct p as [|c p].
    + rewrite app_nil_r in *. destruct (last_feed x) as [Ox|(y & q & -> & Oq)].
      * rewrite split_nl_one in E by exact Ox. discriminate.
      * rewrite split_nl_feed, (split_nl_one q Oq), map_app. cbn [map]. rewrite last_last.
        destruct (strip_cr_prefix q) as [z Z]. exists y, (z ++ [10%N]). split.
        -- rewrite <- app_assoc. cbn [app]. rewrite (app_assoc (strip_cr q)), <- Z. reflexivity.
        -- intros I. apply Oq. rewrite Z. apply in_or_app. now left.
    + rewrite last_last. exists x, []. now rewrite app_nil_r.
Qed.

Section Shown.
  Variable H : host.
  Variable s : str.

  (** The outcome of showing an error that points at the ranges [D]. *)
  Definition shows (D : slice -> Prop) (x : str + panic) : Prop :=
    match x with
    | inl _ => True
    | inr p => p = PArith /\ h_overflow H = OvfPanic
               /\ exists r u, D r /\ covers s r u /\ long_later_line u
    end.

  Lemma shows_bind A D (x : A + panic) (k : A -> str + panic) :
    (exists a, x = inl a) -> (forall a, shows D (k a)) -> shows D (bindp x k).
  Proof. intros [a ->] K. apply K. Qed.
  Lemma shows_then D x (k : str -> str + panic) :
    shows D x -> (forall a, shows D (k a)) -> shows D (bindp x k).
  Proof. intros X K. destruct x as [a|p]; [apply K | exact X]. Qed.
  Lemma shows_weaken (D D' : slice -> Prop) x : (forall r, D r -> D' r) -> shows D x -> shows D' x.
  Proof.
    intros W X. destruct x as [a|p]; [exact I |]. destruct X as (P & O & r & u & Y & Z).
    split; [exact P |]. split; [exact O |]. exists r, u. split; [now apply W | exact Z].
  Qed.

  Lemma print_shows (D : slice -> Prop) r u : covers s r u -> D r -> shows D (print_error_lines H s r).
  Proof.
    intros C Dr. pose proof C as (a & b & E & Sa & Sb). unfold print_error_lines.
    assert (X := slices [] a u b). cbn [app] in X. rewrite <- E, <- Sa, <- Sb in X.
    destruct X as (E1 & E2 & E3). rewrite E1, E2, E3. cbn [or_boundary bindp fst snd].
    destruct (str_lines u) as [|l0 [|l1 ls]] eqn:L.
    - unfold usize_sub. rewrite (proj2 (N.leb_le _ _) (N.le_min_r _ _)). exact I.
    - unfold usize_sub. rewrite (proj2 (N.leb_le _ _) (N.le_min_r _ _)). exact I.
    - unfold usize_sub. change (last (l0 :: l1 :: ls) []) with (last (l1 :: ls) ([] : str)).
      destruct (N.leb_spec (N.of_nat (length (last (l1 :: ls) ([] : str)))) 72) as [B|B]; [exact I |].
      destruct (h_overflow H) eqn:O; [| exact I].
      split; [reflexivity |]. split; [exact O |]. exists r, u. split; [exact Dr |]. split; [exact C |].
      destruct (last_line u l0 l1 ls L) as (x & z & U & Ol).
      exists x, (last (l1 :: ls) []), z. split; [exact U |]. split; [exact Ol |].
      set (n := length (last (l1 :: ls) ([] : str))) in B. change (72 < n). clearbody n. clear - B. lia.
  Qed.

  Lemma sub_ok r u : covers s r u -> or_boundary (str_sub s (sl_start r) (sl_end r)) = inl u.
  Proof.
    intros (a & b & E & Sa & Sb). assert (X := slices [] a u b). cbn [app] in X. rewrite <- E, <- Sa, <- Sb in X.
    destruct X as (E1 & _). now rewrite E1.
  Qed.

  Lemma token_shows (D : slice -> Prop) d : (forall r, In r (mentioned d) -> selects s r /\ D r) ->
    shows D (fmt_token_error H s d).
  Proof.
    intros M.
    assert (ONE : forall start r msg, In r (mentioned d) ->
      shows D (bindp (or_boundary (str_sub s (sl_start r) (sl_end r))) (fun txt =>
               bindp (print_error_lines H s r) (fun p =>
               inl (headline start ++ lit ": " ++ msg txt ++ NL ++ p))))).
    { intros start r msg I. destruct (M r I) as [[u U] Dr]. rewrite (sub_ok r u U). cbn [bindp].
      apply shows_then; [exact (print_shows D r u U Dr) | intros; exact Logic.I]. }
    destruct d as [|l|r|r|r]; cbn [fmt_token_error]; try (apply ONE; now left); [exact I |].
    cbn [mentioned] in *. revert M ONE. induction l as [|r l IH]; intros M ONE; [exact I |].
    apply shows_then; [apply ONE; now left | intros a].
    apply shows_then; [apply IH | intros; exact I].
    - intros q Q. apply M. now right.
    - intros start q msg Q. apply ONE. now right.
  Qed.

  Lemma error_shows : forall e, err_ok (selects s) e -> shows (points e) (fmt_syntax_error H s e).
  Proof.
    fix IH 1. intros e E. destruct e as [ds|r a b c|k at_ cause|]; cbn [fmt_syntax_error].
    - assert (X : forall r d, In d ds -> In r (mentioned d) ->
          selects s r /\ points (TokenizationErrors ds) r).
      { intros r d I J. split; [| now apply (points_token ds d r)].
        cbn [err_ok] in E. rewrite Forall_forall in E. specialize (E d I). rewrite Forall_forall in E. now apply E. }
      clear E IH. revert X. generalize (points (TokenizationErrors ds)). intros D X.
      induction ds as [|d ds IH]; [exact I |].
      apply shows_then; [apply token_shows; intros r J; apply (X r d); [now left | exact J] | intros a].
      apply shows_then; [apply IH; intros r d' I J; apply (X r d'); [now right | exact J] | intros; exact I].
    - destruct E as [u U]. apply shows_then; [| intros; exact I].
      apply (print_shows _ r u U). constructor.
    - destruct E as [E1 E2].
      apply shows_then.
      { destruct at_ as [r|]; [| exact I]. destruct E1 as [u U]. apply (print_shows _ r u U). constructor. }
      intros p. apply shows_then; [| intros; exact I].
      destruct cause as [c|]; [| exact I].
      eapply shows_weaken; [| exact (IH c E2)]. intros r P. now apply points_cause.
    - exact I.
  Qed.
End Shown.

(** Built without overflow checks, every syntax error can be shown. *)
Theorem C103_shown H s e : h_overflow H = OvfWrap -> rejected s e ->
  exists m, error_display H (SyntaxErr s e) = inl m.
Proof.
  intros W R. pose proof (error_shows H s e (script_positions s e R)) as X. cbn [error_display].
  destruct (fmt_syntax_error H s e) as [m|p]; [now exists m |].
  destruct X as (_ & O & _). rewrite W in O. discriminate.
Qed.

(** With overflow checks the only crash is the subtraction of the length of the
    last line of a piece of several lines. *)
Theorem C103_crash H s e p : rejected s e -> error_display H (SyntaxErr s e) = inr p ->
  p = PArith /\ h_overflow H = OvfPanic
  /\ exists r u, points e r /\ covers s r u /\ long_later_line u.
Proof.
  intros R E. pose proof (error_shows H s e (script_positions s e R)) as X. cbn [error_display] in E.
  rewrite E in X. exact X.
Qed.

(** Such an error is met with a string literal of two lines where a variable
    name is expected. *)
Theorem C103_refuted H : h_overflow H = OvfPanic ->
  exists s e, rejected s e /\ error_display H (SyntaxErr s e) = inr PArith.
Proof.
  intros O. exists (lit "let " ++ [34; 10]%N ++ repeat 97%N 80 ++ [34%N]).
  eexists. split; [right; vm_compute; reflexivity |].
  cbn [error_display]. unfold fmt_syntax_error, print_error_lines, usize_sub. rewrite O.
  vm_compute. reflexivity.
Qed.

(** The hypotheses: a missing brace, an error of the tokenizer, an error with a
    cause. *)
Example C103_example :
  (exists e r, rejected (lit "echo {1; 2") e /\ points e r)
  /\ (exists e r, rejected (lit "1x" ++ [34; 92; 113; 34]%N) e /\ points e r)
  /\ h_overflow demo_host = OvfWrap.
Proof.
  split; [| split].
  - eexists _, _. split; [right; vm_compute; reflexivity | constructor].
  - eexists _, _. split; [right; vm_compute; reflexivity |]. eapply points_token; [now left | now left].
  - reflexivity.
Qed.

Print Assumptions C103_points_into_text.
Print Assumptions C103_shown.
Print Assumptions C103_crash.
Print Assumptions C103_refuted.
