(** C87 to C89: trimming, words and paragraphs, searching and replacing. *)

From Coq Require Import String List Lia NArith.
From Verif Require Import Base Syntax Host Ops ErrorFmt Text Monad Builtins Eval EvalSpec
  LibFacts LibSpec MapFacts EvalFacts TokFacts CmdFacts TextFacts TextSpec TrimFacts OpsSpec OpsFacts
  StrSpec Init Demo.
Import ListNotations.

(** ** C87: trimming *)

Lemma on_text_calls H b k a s v t s' :
  (forall m, run_builtin H (eval H m 0) b [a] = on_text H (eval H m 0) [a] k) ->
  gives H a s v s' -> text v t -> calls H b [a] s (ROk (k t)) s'.
Proof.
  intros K A T. unfold gives in *. apply sure_calls; [discriminate|].
  apply (sure_ext _ _ (fun m => on_text H (eval H m 0) [a] k)); [intros m; now rewrite K|]. unfold on_text. destruct T; repeat sure_step.
Qed.

Lemma on_text_fails H b k a s v s' tv :
  (forall m, run_builtin H (eval H m 0) b [a] = on_text H (eval H m 0) [a] k) ->
  gives H a s v s' -> shown H v tv -> (forall t, ~ text v t) ->
  calls H b [a] s (RErr (CustomError (lit "expected string, got value " ++ tv))) s'.
Proof.
  intros K A S T. apply (proj1 (shown_display _ _ _)) in S. subst tv.
  unfold gives in *. apply sure_calls; [discriminate|].
  apply (sure_ext _ _ (fun m => on_text H (eval H m 0) [a] k)); [intros m; now rewrite K|]. unfold on_text. repeat sure_step.
  destruct v; try (apply sure_throw); exfalso; eapply T; constructor.
Qed.

(** Every text can be trimmed in exactly one way. *)
Theorem C87_one_way t :
  (exists u, trimmed t u /\ forall u', trimmed t u' -> u' = u)
  /\ (exists u, trimmed_start t u /\ forall u', trimmed_start t u' -> u' = u)
  /\ (exists u, trimmed_end t u /\ forall u', trimmed_end t u' -> u' = u).
Proof.
  split; [|split].
  - exists (trim t). split; [apply trim_spec|]. intros u' T. eapply trimmed_unique; [exact T|apply trim_spec].
  - exists (trim_start t). split; [apply trim_start_spec|]. intros u' T.
    eapply trimmed_start_unique; [exact T|apply trim_start_spec].
  - exists (trim_end t). split; [apply trim_end_spec|]. intros u' T.
    assert (U := trim_end_spec t). rewrite trimmed_end_rev in T, U.
    assert (E := trimmed_start_unique _ _ _ T U). apply (f_equal (@rev chr)) in E.
    now rewrite !rev_involutive in E.
Qed.

(** [trim], [trim-start] and [trim-end] trim. *)
Theorem C87_trim H a s v t s' :
  gives H a s v s' -> text v t ->
  (forall u, trimmed t u -> calls H STrim [a] s (ROk (EString u)) s')
  /\ (forall u, trimmed_start t u -> calls H STrimStart [a] s (ROk (EString u)) s')
  /\ (forall u, trimmed_end t u -> calls H STrimEnd [a] s (ROk (EString u)) s').
Proof.
  intros A T. destruct (C87_one_way t) as ((u1 & _ & U1) & (u2 & _ & U2) & (u3 & _ & U3)).
  split; [|split]; intros u X.
  - rewrite (U1 _ X), <- (U1 _ (trim_spec t)).
    now apply (on_text_calls H STrim (fun s => EString (trim s)) a s v).
  - rewrite (U2 _ X), <- (U2 _ (trim_start_spec t)).
    now apply (on_text_calls H STrimStart (fun s => EString (trim_start s)) a s v).
  - rewrite (U3 _ X), <- (U3 _ (trim_end_spec t)).
    now apply (on_text_calls H STrimEnd (fun s => EString (trim_end s)) a s v).
Qed.

(** Other values are refused. *)
Theorem C87_others H b a s v s' tv :
  In b [STrim; STrimStart; STrimEnd; SIsWhitespace] ->
  gives H a s v s' -> shown H v tv -> (forall t, ~ text v t) ->
  calls H b [a] s (RErr (CustomError (lit "expected string, got value " ++ tv))) s'.
Proof.
  intros I A S T. repeat destruct I as [<-|I]; [..|destruct I];
    (eapply on_text_fails; [reflexivity|exact A|exact S|exact T]).
Qed.

(** Trimming again changes nothing. *)
Theorem C87_again t u : trimmed t u -> trimmed u u /\ trimmed_start u u /\ trimmed_end u u.
Proof.
  intros (a & b & _ & _ & _ & B & E). split; [|split].
  - exists [], []. rewrite app_nil_r. repeat split; auto.
  - exists []. repeat split; auto.
  - exists []. rewrite app_nil_r. repeat split; auto.
Qed.

(** [is-whitespace?] holds just of the texts that trimming makes empty. *)
Theorem C87_whitespace H a s v t s' :
  gives H a s v s' -> text v t ->
  exists b, calls H SIsWhitespace [a] s (ROk (EBoolean b)) s'
            /\ (b = true <-> Forall space t) /\ (b = true <-> trimmed t []).
Proof.
  intros A T. exists (forallb is_ws t). split.
  { now apply (on_text_calls H SIsWhitespace (fun s => EBoolean (forallb is_ws s)) a s v). }
  assert (F : forallb is_ws t = true <-> Forall space t).
  { rewrite forallb_forall, Forall_forall. split; intros X c I; apply space_is_ws; now apply X. }
  split; [exact F|]. rewrite F. split.
  - intros X. exists t, []. rewrite app_nil_r. repeat split; auto; intros c r E; destruct r; discriminate.
  - intros (x & y & -> & X & Y & _). cbn [List.app]. now apply Forall_app.
Qed.

Example C87_example :
  value_of "string@trim ""  a b	 """ = ROk (EString (lit "a b"))
  /\ value_of "string@trim-start ""  a b """ = ROk (EString (lit "a b "))
  /\ value_of "string@trim-end ""  a b """ = ROk (EString (lit "  a b"))
  /\ value_of "string@is-whitespace? ""  """ = ROk (EBoolean true)
  /\ trimmed (lit "  a b ") (lit "a b").
Proof.
  do 4 (split; [vm_compute; reflexivity|]). apply trimmed_trim. vm_compute. reflexivity.
Qed.

(** ** C88: words, paragraphs, characters *)

Lemma words_go_word w r cur :
  Forall (fun c => is_ws c = false) w -> words_go (w ++ r) cur = words_go r (rev w ++ cur).
Proof.
  revert cur. induction w as [|c w IH]; intros cur F; [reflexivity|]. inversion F; subst.
  cbn [List.app words_go]. rewrite H1, IH by assumption. cbn [rev]. now rewrite <- app_assoc.
Qed.

Lemma words_go_spaces a r :
  Forall (fun c => is_ws c = true) a -> words_go (a ++ r) [] = words_go r [].
Proof.
  induction a as [|c a IH]; intros F; [reflexivity|]. inversion F; subst.
  cbn [List.app words_go]. now rewrite H1, IH.
Qed.

Lemma not_space c : ~ space c <-> is_ws c = false.
Proof. rewrite space_is_ws. now destruct (is_ws c). Qed.

Lemma word_no_ws w : word w -> Forall (fun c => is_ws c = false) w.
Proof. intros [_ F]. eapply Forall_impl; [|exact F]. intros c. apply not_space. Qed.

Lemma words_split t ws : words t ws -> split_whitespace t = ws.
Proof.
  unfold split_whitespace. induction 1 as [a A|a w A W|a w c r ws A W C X IH].
  - apply spaces_is_ws in A. rewrite <- (app_nil_r a), words_go_spaces by exact A. reflexivity.
  - apply spaces_is_ws in A. rewrite words_go_spaces by exact A.
    rewrite <- (app_nil_r w) at 1. rewrite words_go_word by now apply word_no_ws. cbn [words_go].
    rewrite app_nil_r. destruct (rev w) eqn:E.
    { destruct W as [N _]. destruct N. apply (f_equal (@rev chr)) in E. now rewrite rev_involutive in E. }
    rewrite <- E. now rewrite rev_involutive.
  - apply spaces_is_ws in A. rewrite words_go_spaces by exact A.
    rewrite words_go_word by now apply word_no_ws. cbn [words_go].
    apply space_is_ws in C. rewrite C, app_nil_r, IH. destruct (rev w) eqn:E.
    { destruct W as [N _]. destruct N. apply (f_equal (@rev chr)) in E. now rewrite rev_involutive in E. }
    rewrite <- E. now rewrite rev_involutive.
Qed.

Lemma words_exist_len n : forall t, length t <= n -> exists ws, words t ws.
Proof.
  induction n as [|n IH]; intros t L.
  - destruct t; [|cbn in L; lia]. exists []. now constructor.
  - assert (A := span_app is_ws t). assert (F := span_all is_ws t). assert (B := span_begins is_ws t).
    destruct (span is_ws t) as [a r]. cbn [fst snd] in *. apply spaces_is_ws in F. subst t.
    destruct r as [|x r].
    { exists []. rewrite app_nil_r. now constructor. }
    specialize (B x r eq_refl). apply not_space in B.
    set (f := fun c => negb (is_ws c)).
    assert (A2 := span_app f (x :: r)). assert (F2 := span_all f (x :: r)).
    assert (B2 := span_begins f (x :: r)).
    assert (NE : fst (span f (x :: r)) <> []).
    { cbn [span]. unfold f at 1. rewrite (proj1 (not_space x) B). cbn [negb].
      destruct (span f r). discriminate. }
    destruct (span f (x :: r)) as [w q]. cbn [fst snd] in *.
    assert (W : word w).
    { split; [exact NE|]. eapply Forall_impl; [|exact F2]. intros c E. apply not_space. unfold f in E.
      now destruct (is_ws c). }
    rewrite <- A2. destruct q as [|c q].
    { exists [w]. rewrite app_nil_r. now constructor. }
    specialize (B2 c q eq_refl).
    assert (C : space c) by (apply space_is_ws; unfold f in B2; now destruct (is_ws c)).
    destruct (IH q) as [ws X].
    { apply (f_equal (@length chr)) in A2. rewrite app_length in L, A2. cbn [length] in L, A2.
      destruct w; [congruence|]. cbn [length] in A2. unfold str, chr in *. lia. }
    exists (w :: ws). now constructor.
Qed.

(** Every text has words, and only one list of them. *)
Theorem C88_words_unique t : exists ws, words t ws /\ forall ws', words t ws' -> ws' = ws.
Proof.
  destruct (words_exist_len (length t) t (le_n _)) as [ws W]. exists ws. split; [exact W|].
  intros ws' W'. apply words_split in W, W'. congruence.
Qed.

Theorem C88_words H a s v t s' ws :
  gives H a s v s' -> text v t -> words t ws ->
  calls H SWords [a] s (ROk (EList (map EString ws))) s'.
Proof.
  intros A T W. apply words_split in W. subst ws. unfold gives in *. call.
  unfold run_pieces, exact1. destruct T; repeat sure_step.
Qed.

(** The words put together again with one space between have the same words. *)
Theorem C88_words_again t ws c :
  words t ws -> space c -> words (join [c] ws) ws.
Proof.
  intros W C.
  assert (F : Forall word ws).
  { induction W; constructor; auto. }
  clear W. induction F as [|w ws Ww F IH]; [apply words_none; constructor|].
  destruct ws as [|x ws].
  - cbn [join]. apply (words_last []); [constructor|exact Ww].
  - rewrite join_cons by discriminate. apply (words_more [] w c); [constructor|exact Ww|exact C|exact IH].
Qed.

(** [chars] gives the characters. *)
Theorem C88_chars H a s v t s' :
  gives H a s v s' -> text v t ->
  exists l, calls H SChars [a] s (ROk (EList (map EString l))) s'
            /\ concat l = t /\ Forall (fun p => length p = 1) l.
Proof.
  intros A T. exists (map (fun c => [c]) t). split; [|split].
  - unfold gives in *. call. unfold run_chars, exact1. destruct T; repeat sure_step.
  - clear A T. induction t as [|c t IH]; [reflexivity|]. cbn. now rewrite IH.
  - apply Forall_forall. intros p I. apply in_map_iff in I. now destruct I as (c & <- & _).
Qed.

Lemma no_inside p t : free_of p t <-> ~ inside p t.
Proof.
  split.
  - intros F (x & y & E). now apply (F x y).
  - intros N x y E. apply N. now exists x, y.
Qed.

Lemma split_go_until sep : sep <> [] -> forall a r cur,
  (forall x y, a ++ sep ++ r = x ++ sep ++ y -> length a <= length x) ->
  split_go sep 0 (a ++ sep ++ r) cur = (rev cur ++ a) :: split_go sep 0 r [].
Proof.
  intros NE. induction a as [|c a IH]; intros r cur M.
  - cbn [List.app]. destruct sep as [|p sep]; [congruence|]. cbn [List.app split_go].
    rewrite (proj2 (starts_with_spec (p :: sep) (p :: sep ++ r))) by (now exists r).
    rewrite app_nil_r. f_equal. rewrite split_go_skip by (rewrite app_length; cbn [length]; lia).
    cbn [length]. rewrite Nat.sub_succ, Nat.sub_0_r.
    rewrite skipn_app, skipn_all, Nat.sub_diag. reflexivity.
  - cbn [List.app split_go]. destruct (starts_with sep (c :: a ++ sep ++ r)) eqn:E.
    + apply starts_with_spec in E as [y E]. specialize (M [] y E). cbn in M. lia.
    + rewrite IH.
      * cbn [rev]. now rewrite <- app_assoc.
      * intros x y X. specialize (M (c :: x) y). cbn [List.app length] in M.
        assert (Q : S (length a) <= S (length x)) by (apply M; f_equal; exact X). lia.
Qed.

Lemma split_go_free_one sep s : sep <> [] -> ~ inside sep s ->
  forall cur, split_go sep 0 s cur = [rev cur ++ s].
Proof.
  intros NE. induction s as [|c s IH]; intros N cur; [cbn; now rewrite app_nil_r|].
  cbn [split_go]. destruct (starts_with sep (c :: s)) eqn:E.
  - apply starts_with_spec in E as [y E]. destruct N. now exists [], y.
  - rewrite IH; [cbn [rev]; now rewrite <- app_assoc|]. intros (x & y & X). apply N. exists (c :: x), y.
    cbn [List.app]. now rewrite X.
Qed.

Lemma cut_split sep t ps : sep <> [] -> cut sep t ps -> str_split sep t = ps.
Proof.
  intros NE C. assert (X : split_go sep 0 t [] = ps).
  { induction C as [t N|t a r ps [-> M] C IH].
    - rewrite split_go_free_one by assumption. reflexivity.
    - rewrite split_go_until by assumption. cbn [rev List.app]. now rewrite IH. }
  destruct sep; [congruence|exact X].
Qed.

Lemma first_exists sep t : inside sep t -> exists a r, first_at sep a r t.
Proof.
  intros I. remember (length t) as n. revert t Heqn I.
  induction n as [n IH] using lt_wf_ind. intros t -> I.
  destruct (starts_with sep t) eqn:E.
  - apply starts_with_spec in E as [r E]. exists [], r. split; [exact E|]. intros. cbn. lia.
  - assert (N : forall y, t <> sep ++ y).
    { intros y Y. assert (starts_with sep t = true) by (apply starts_with_spec; now exists y). congruence. }
    destruct t as [|c t].
    { destruct I as (x & y & X). symmetry in X. apply app_eq_nil in X as [-> X]. symmetry in X. now destruct (N y). }
    assert (I2 : inside sep t).
    { destruct I as (x & y & X). destruct x as [|d x]; [now destruct (N y)|]. injection X as _ X. now exists x, y. }
    destruct (IH (length t) (Nat.lt_succ_diag_r _) t eq_refl I2) as (a & r & A & M).
    exists (c :: a), r. split; [cbn; now rewrite <- A|].
    intros x y X. destruct x as [|d x]; [now destruct (N y)|]. injection X as _ X. cbn [length].
    apply le_n_S. now apply (M x y).
Qed.

Lemma inside_dec sep t : inside sep t \/ ~ inside sep t.
Proof.
  induction t as [|c t IH].
  - destruct sep as [|p sep]; [left; now exists [], []|]. right. intros (x & y & E). destruct x; discriminate.
  - destruct IH as [(x & y & ->)|N]; [left; now exists (c :: x), y|].
    destruct (starts_with sep (c :: t)) eqn:E.
    + left. apply starts_with_spec in E as [r E]. now exists [], r.
    + right. intros (x & y & X). destruct x as [|d x].
      * assert (starts_with sep (c :: t) = true) by (apply starts_with_spec; now exists y). congruence.
      * injection X as _ X. apply N. now exists x, y.
Qed.

Lemma first_shorter sep a r t : sep <> [] -> first_at sep a r t -> length r < length t.
Proof.
  intros NE [-> _]. rewrite !app_length. destruct sep; [congruence|]. cbn [length]. unfold str, chr in *. lia.
Qed.

Lemma cut_exists sep : sep <> [] -> forall t, exists ps, cut sep t ps.
Proof.
  intros NE t. remember (length t) as n. revert t Heqn. induction n as [n IH] using lt_wf_ind. intros t ->.
  destruct (inside_dec sep t) as [I|I].
  - destruct (first_exists _ _ I) as (a & r & F). assert (L := first_shorter _ _ _ _ NE F).
    destruct (IH _ L r eq_refl) as [ps C]. exists (a :: ps). now apply (cut_first sep t a r).
  - exists [t]. now constructor.
Qed.

(** [paragraphs] cuts at every two line feeds; nothing else is lost, and no
    paragraph has two line feeds in a row. *)
Theorem C88_paragraphs_partial H a s v t s' :
  gives H a s v s' -> text v t ->
  exists ps, calls H SParagraphs [a] s (ROk (EList (map EString ps))) s'
             /\ cut [10; 10]%N t ps /\ (forall ps', cut [10; 10]%N t ps' -> ps' = ps)
             /\ join [10; 10]%N ps = t
             /\ Forall (fun p => ~ inside [10; 10]%N p) ps.
Proof.
  intros A T. assert (NE : [10; 10]%N <> []) by discriminate.
  destruct (cut_exists _ NE t) as [ps C]. exists ps.
  assert (E := cut_split _ _ _ NE C). split; [|split; [exact C|split; [|split]]].
  - subst ps. unfold gives in *. call. unfold run_pieces, exact1. destruct T; repeat sure_step.
  - intros ps' C'. rewrite <- E. symmetry. now apply cut_split.
  - rewrite <- E. apply split_join.
  - rewrite <- E. eapply Forall_impl; [|apply split_free, NE]. intros p. apply no_inside.
Qed.

(** More than one blank line makes empty paragraphs and paragraphs that begin
    with a line feed. *)
Theorem C88_paragraphs_refuted :
  exists t ps, calls demo_host SParagraphs [EString t] demo (ROk (EList (map EString ps))) demo
               /\ In [] ps /\ In (10%N :: lit "b") ps /\ ~ In (lit "b") ps.
Proof.
  exists (lit "a" ++ [10; 10; 10; 10; 10]%N ++ lit "b"), [lit "a"; []; 10%N :: lit "b"].
  split; [compute_outcome 10%nat|]. split; [now right; left|]. split; [now right; right; left|].
  intros I. vm_compute in I. repeat destruct I as [I|I]; discriminate || contradiction.
Qed.

Example C88_example :
  value_of "string@words ""  ab  c d """ = ROk (EList (map EString [lit "ab"; lit "c"; lit "d"]))
  /\ value_of "string@chars ""abc""" = ROk (EList (map EString [lit "a"; lit "b"; lit "c"]))
  /\ value_of "string@paragraphs ""a\nb\n\nc""" = ROk (EList (map EString [lit "a" ++ [10%N] ++ lit "b"; lit "c"]))
  /\ words (lit " ab c") [lit "ab"; lit "c"].
Proof.
  do 3 (split; [vm_compute; reflexivity|]).
  destruct (C88_words_unique (lit " ab c")) as (ws & W & _). assert (E := words_split _ _ W).
  vm_compute in E. now subst ws.
Qed.

(** ** C89: searching and replacing *)

Theorem C89_tests H a b s v t s1 w p s2 :
  gives H a s v s1 -> gives H b s1 w s2 -> text v t -> shown H w p ->
  (exists r, calls H SStartsWith [a; b] s (ROk (EBoolean r)) s2 /\ (r = true <-> exists y, t = p ++ y))
  /\ (exists r, calls H SEndsWith [a; b] s (ROk (EBoolean r)) s2 /\ (r = true <-> exists x, t = x ++ p))
  /\ (exists r, calls H SContains [a; b] s (ROk (EBoolean r)) s2 /\ (r = true <-> inside p t)).
Proof.
  intros A B T S. apply (proj1 (shown_display _ _ _)) in S. subst p. unfold gives in *.
  split; [|split].
  - exists (starts_with (display H w) t). split; [|apply starts_with_spec].
    call. unfold run_test, exact2. destruct T; repeat sure_step.
  - exists (ends_with (display H w) t). split.
    + call. unfold run_test, exact2. destruct T; repeat sure_step.
    + unfold ends_with. rewrite starts_with_spec. split; intros (r & E).
      * exists (rev r). apply (f_equal (@rev chr)) in E. rewrite rev_app_distr, !rev_involutive in E. exact E.
      * exists (rev r). subst t. now rewrite rev_app_distr.
  - exists (str_contains (display H w) t). split.
    + call. unfold run_test, exact2. destruct T; repeat sure_step.
    + generalize (display H w). intros p. clear. induction t as [|c t IH]; cbn [str_contains].
      * rewrite Bool.orb_false_r, starts_with_spec. split; [intros (y & E); now exists [], y|].
        intros (x & y & E). destruct x; [now exists y|discriminate].
      * rewrite Bool.orb_true_iff, IH, starts_with_spec. split.
        { intros [(y & E)|(x & y & ->)]; [now exists [], y|now exists (c :: x), y]. }
        { intros (x & y & E). destruct x as [|d x]; [left; now exists y|]. injection E as _ E. right. now exists x, y. }
Qed.

Lemma cut_replaced old new t ps : cut old t ps -> replaced old new t (join new ps).
Proof.
  induction 1 as [t N|t a r ps F C IH]; [now constructor|].
  rewrite join_cons by (destruct C; discriminate). now apply (replaced_first old new t a r).
Qed.

Lemma replaced_split old new t u : old <> [] -> replaced old new t u -> u = str_replace old new t.
Proof.
  intros NE R. unfold str_replace.
  assert (X : u = join new (split_go old 0 t [])).
  { induction R as [t N|t a r u [-> M] R IH].
    - rewrite split_go_free_one by assumption. reflexivity.
    - rewrite split_go_until by assumption. cbn [rev List.app].
      rewrite join_cons by apply split_go_nonempty. now rewrite IH. }
  destruct old; [congruence|exact X].
Qed.

Lemma spread_split new t u : spread new t u <-> u = str_replace [] new t.
Proof.
  unfold str_replace, str_split.
  assert (K : forall t, join new ([] :: map (fun c => [c]) t ++ [[]])
              = new ++ join new (map (fun c => [c]) t ++ [[]])).
  { intros x. rewrite join_cons by (destruct x; discriminate). reflexivity. }
  assert (L : forall t, spread new t (join new ([] :: map (fun c => [c]) t ++ [[]]))).
  { intros x. rewrite K. induction x as [|c x IH].
    - cbn. rewrite app_nil_r. constructor.
    - cbn [map List.app]. rewrite join_cons by (destruct x; discriminate).
      cbn [List.app]. now constructor. }
  split; [|intros ->; apply L].
  intros S. assert (L0 := L t). revert S L0. generalize (join new ([] :: map (fun c => [c]) t ++ [[]])).
  intros w S. revert w. induction S; intros w W; inversion W; subst; [reflexivity|].
  repeat f_equal. now apply IHS.
Qed.

(** [replace] replaces; every text has exactly one replacement. *)
Theorem C89_replace H a b c s v t s1 x old s2 y new s3 :
  gives H a s v s1 -> gives H b s1 x s2 -> gives H c s2 y s3 ->
  text v t -> shown H x old -> shown H y new ->
  exists u, calls H SReplace [a; b; c] s (ROk (EString u)) s3
    /\ (old <> [] -> replaced old new t u /\ forall u', replaced old new t u' -> u' = u)
    /\ (old = [] -> spread new t u /\ forall u', spread new t u' -> u' = u).
Proof.
  intros A B C T X Y. apply (proj1 (shown_display _ _ _)) in X. apply (proj1 (shown_display _ _ _)) in Y.
  exists (str_replace old new t). split; [|split].
  - subst old new. unfold gives in *. call. unfold run_replace, exact3. destruct T; repeat sure_step.
  - intros NE. split.
    + destruct (cut_exists old NE t) as [ps P]. unfold str_replace. rewrite (cut_split _ _ _ NE P).
      now apply cut_replaced.
    + intros u'. now apply replaced_split.
  - intros ->. split; [now apply spread_split|]. intros u' U. now apply spread_split in U.
Qed.

(** Nothing happens where there is nothing to replace, or where a text is
    replaced by itself. *)
Theorem C89_same old new t u :
  old <> [] -> replaced old new t u -> ~ inside old t \/ new = old -> u = t.
Proof.
  intros NE R [N| ->].
  - destruct R as [t N'|t a r u [-> M] R]; [reflexivity|]. destruct N. now exists a, r.
  - rewrite (replaced_split _ _ _ _ NE R). unfold str_replace. apply split_join.
Qed.

(** The replaced text may come up again. *)
Theorem C89_gone_refuted :
  exists t old new u, calls demo_host SReplace [EString t; EString old; EString new] demo (ROk (EString u)) demo
                      /\ old <> [] /\ ~ inside old new /\ inside old u.
Proof.
  exists (lit "aabb"), (lit "ab"), [], (lit "ab"). split; [compute_outcome 10%nat|].
  split; [discriminate|]. split.
  - intros (x & y & E). destruct x; discriminate.
  - now exists [], [].
Qed.

Lemma app_split (A : Type) (a b x y : list A) :
  a ++ b = x ++ y ->
  (exists m, x = a ++ m /\ b = m ++ y) \/ (exists m, a = x ++ m /\ y = m ++ b).
Proof.
  revert x. induction a as [|c a IH]; intros x E.
  - left. now exists x.
  - destruct x as [|d x].
    + right. exists (c :: a). split; [reflexivity|]. now cbn in E.
    + injection E as -> E. destruct (IH x E) as [(m & -> & M)|(m & -> & M)].
      * left. now exists m.
      * right. now exists m.
Qed.

(** It does not come up again when it has no character in common with the new
    text, which is not empty. *)
Theorem C89_gone_partial old new t u :
  new <> [] -> old <> [] -> (forall c, In c old -> ~ In c new) -> replaced old new t u -> ~ inside old u.
Proof.
  intros NN NO D R. induction R as [t N|t a r u [-> M] R IH]; [exact N|].
  intros (x & y & E).
  assert (FA : forall p q, a <> p ++ old ++ q).
  { intros p q Q. subst a. specialize (M p (q ++ old ++ r)).
    rewrite <- !app_assoc in M. specialize (M eq_refl). rewrite !app_length in M.
    destruct old; [congruence|]. cbn [length] in M. unfold str, chr in *. lia. }
  destruct (app_split _ _ _ _ _ E) as [(m & -> & Q)|(m & -> & Q)].
  - (* old begins after [a] *)
    destruct (app_split _ _ _ _ _ Q) as [(n & -> & P)|(n & -> & P)].
    + apply IH. now exists n, y.
    + destruct n as [|k n].
      { apply IH. exists [], y. now rewrite P. }
      destruct old as [|o old]; [congruence|]. cbn [List.app] in P. injection P as -> P.
      apply (D k); [now left|]. apply in_or_app. right. now left.
  - (* old begins in [a] *)
    destruct (app_split _ _ _ _ _ Q) as [(n & -> & P)|(n & -> & P)].
    + apply (FA x n). reflexivity.
    + destruct n as [|k n].
      * apply (FA x []). now rewrite !app_nil_r.
      * destruct new as [|z new]; [congruence|]. cbn [List.app] in P. injection P as -> P.
        apply (D k); [apply in_or_app; right; now left|now left].
Qed.

Example C89_example :
  value_of "string@replace ""banana"" ""an"" ""<>""" = ROk (EString (lit "b<><>a"))
  /\ value_of "string@replace ""aaa"" ""aa"" ""b""" = ROk (EString (lit "ba"))
  /\ value_of "string@replace ""ab"" """" ""-""" = ROk (EString (lit "-a-b-"))
  /\ value_of "string@starts-with? ""banana"" ""ba""" = ROk (EBoolean true)
  /\ value_of "string@ends-with? ""banana"" ""nan""" = ROk (EBoolean false)
  /\ value_of "string@contains? ""banana"" ""nan""" = ROk (EBoolean true)
  /\ replaced (lit "an") (lit "<>") (lit "banana") (lit "b<><>a").
Proof.
  do 6 (split; [vm_compute; reflexivity|]).
  assert (NE : lit "an" <> []) by discriminate.
  destruct (cut_exists _ NE (lit "banana")) as [ps P]. assert (E := cut_split _ _ _ NE P).
  apply (cut_replaced _ (lit "<>")) in P. rewrite <- E in P. exact P.
Qed.

Print Assumptions C87_one_way.
Print Assumptions C87_trim.
Print Assumptions C87_others.
Print Assumptions C87_again.
Print Assumptions C87_whitespace.
Print Assumptions C88_words_unique.
Print Assumptions C88_words.
Print Assumptions C88_words_again.
Print Assumptions C88_chars.
Print Assumptions C88_paragraphs_partial.
Print Assumptions C88_paragraphs_refuted.
Print Assumptions C89_tests.
Print Assumptions C89_replace.
Print Assumptions C89_same.
Print Assumptions C89_gone_refuted.
Print Assumptions C89_gone_partial.
