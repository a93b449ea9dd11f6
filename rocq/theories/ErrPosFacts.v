(** The positions in the errors of the parser are positions of tokens. *)

From Coq Require Import String.
From Verif Require Import Base Syntax Host Tokenizer Parser P_Tok.

Section Positions.
  Variable G : slice -> Prop.
  Variable slen : N.
  Hypothesis at_end : G (Slice slen slen).

  (** Every position in the error is good. *)
  Fixpoint err_ok (e : syntax_error) : Prop :=
    match e with
    | TokenizationErrors ds => Forall (fun d => Forall G (mentioned d)) ds
    | Expected r _ _ _ => G r
    | NomError _ r c =>
        match r with Some x => G x | None => True end
        /\ match c with Some x => err_ok x | None => True end
    | InternalError => True
    end.

  Definition toks_ok (i : list token) : Prop := Forall (fun t => G (t_range t)) i.

  Definition res_ok {A} (r : pres A) : Prop :=
    match r with
    | POk i _ => toks_ok i
    | PErr e | PFail e => err_ok e
    | PPanic | PFuel => True
    end.

  Definition fine {A} (p : parser A) : Prop := forall i, toks_ok i -> res_ok (p i).

  Lemma first_ok i k c : toks_ok i -> match c with Some x => err_ok x | None => True end ->
    err_ok (NomError k (first_range i) c).
  Proof. intros T C. destruct T; (split; [| exact C]); [exact I | assumption]. Qed.

  Lemma exp_ok i a b c : toks_ok i -> err_ok (exp_at slen i a b c).
  Proof. intros T. destruct T; [exact at_end | assumption]. Qed.

  Lemma bind_ok A B (r : pres A) (k : list token -> A -> pres B) :
    res_ok r -> (forall i a, toks_ok i -> res_ok (k i a)) -> res_ok (pbind r k).
  Proof. intros R K. destruct r; simpl in *; auto. Qed.

  Lemma map_fail_ok A e (r : pres A) : res_ok r -> err_ok e -> res_ok (map_fail e r).
  Proof. intros R E. destruct r; simpl in *; auto. Qed.
  Lemma map_expected_ok A e (r : pres A) : res_ok r -> err_ok e -> res_ok (map_expected e r).
  Proof. intros R E. destruct r; simpl in *; auto. Qed.

  Lemma pmap_ok A B (f : A -> B) p : fine p -> fine (pmap f p).
  Proof. intros F i T. apply bind_ok; [now apply F | intros; assumption]. Qed.

  Lemma err_or_ok a b : err_ok a -> err_ok b -> err_ok (err_or a b).
  Proof. intros A B. destruct a; assumption. Qed.

  Lemma alt_rest_ok A (ps : list (parser A)) : Forall fine ps ->
    forall e i, err_ok e -> toks_ok i -> res_ok (alt_rest ps e i).
  Proof.
    induction 1 as [|p ps F _ IH]; intros e i E T; cbn [alt_rest].
    - now apply first_ok.
    - specialize (F i T). destruct (p i) as [r a|e'|e'| |]; try exact F.
      apply IH; [now apply err_or_ok | exact T].
  Qed.

  Lemma alt_ok A (ps : list (parser A)) : Forall fine ps -> fine (alt ps).
  Proof.
    intros [|p l F R] i T; [exact I |]. cbn [alt].
    specialize (F i T). destruct (p i) as [r a|e'|e'| |]; try exact F.
    now apply alt_rest_ok.
  Qed.

  Lemma opt_ok A (p : parser A) : fine p -> fine (opt p).
  Proof. intros F i T. unfold opt. specialize (F i T). destruct (p i); simpl in *; auto. Qed.

  Lemma many0_loop_ok A k (p : parser A) : fine p -> forall n, fine (many0_loop k n p).
  Proof.
    intros F. induction n as [|n IH]; intros i T; cbn [many0_loop]; [exact I |].
    specialize (F i T). destruct (p i) as [r a|e'|e'| |]; simpl in *; auto.
    destruct (Nat.eqb _ _); [now apply (first_ok i k None) |].
    apply bind_ok; [now apply IH | intros; assumption].
  Qed.
  Lemma many0_ok A (p : parser A) : fine p -> fine (many0 p).
  Proof. intros F i T. now apply many0_loop_ok. Qed.
  Lemma many1_ok A (p : parser A) : fine p -> fine (many1 p).
  Proof.
    intros F i T. unfold many1. pose proof (F i T) as X. destruct (p i) as [r a|e'|e'| |]; try exact X.
    - apply bind_ok; [now apply many0_loop_ok | intros; assumption].
    - now apply (first_ok i KMany1 (Some e')).
  Qed.
  Lemma pair_ok A B (p : parser A) (q : parser B) : fine p -> fine q -> fine (pair_p p q).
  Proof.
    intros F Q i T. apply bind_ok; [now apply F | intros j a J].
    apply bind_ok; [now apply Q | intros; assumption].
  Qed.
  Lemma preceded_ok A B (p : parser A) (q : parser B) : fine p -> fine q -> fine (preceded p q).
  Proof. intros F Q i T. apply bind_ok; [now apply F | intros j a J; now apply Q]. Qed.
  Lemma separated_pair_ok A B C (p : parser A) (s : parser B) (q : parser C) :
    fine p -> fine s -> fine q -> fine (separated_pair p s q).
  Proof.
    intros F S Q i T. apply bind_ok; [now apply F | intros j a J].
    apply bind_ok; [now apply S | intros k b K]. apply bind_ok; [now apply Q | intros; assumption].
  Qed.
  Lemma sep_loop_ok A B (s : parser B) (p : parser A) : fine s -> fine p -> forall n, fine (sep_loop n s p).
  Proof.
    intros S F. induction n as [|n IH]; intros i T; cbn [sep_loop]; [exact I |].
    pose proof (S i T) as X. destruct (s i) as [r a|e'|e'| |]; simpl in *; auto.
    destruct (Nat.eqb _ _); [now apply (first_ok r KSeparatedList None) |].
    pose proof (F r X) as Y. destruct (p r) as [r' a'|e'|e'| |]; simpl in *; auto.
    apply bind_ok; [now apply IH | intros; assumption].
  Qed.
  Lemma separated_list0_ok A B (s : parser B) (p : parser A) :
    fine s -> fine p -> fine (separated_list0 s p).
  Proof.
    intros S F i T. unfold separated_list0. pose proof (F i T) as X.
    destruct (p i) as [r a|e'|e'| |]; try exact X; try exact T.
    apply bind_ok; [now apply sep_loop_ok | intros; assumption].
  Qed.

  Lemma kind_ok k : fine (kind k).
  Proof. intros i T. unfold kind. destruct T; [exact I |]. destruct (kind_eqb _ _); [assumption | exact I]. Qed.
  Lemma text_ok s : fine (text s).
  Proof. intros i T. unfold text. destruct T; [exact I |]. destruct (str_eqb _ _); [assumption | exact I]. Qed.
  Lemma empty_ok : fine empty.
  Proof. intros i T. unfold empty. destruct T; [constructor | exact I]. Qed.
  Lemma texts_ok l : Forall fine (map text l).
  Proof. induction l; constructor; auto using text_ok. Qed.

  Lemma no_terminating_ok : fine (no_terminating slen).
  Proof.
    intros i T. unfold no_terminating. destruct i as [|t i]; [constructor |].
    destruct (_ && _); [now apply exp_ok | exact T].
  Qed.
  Lemma symbol_ok : fine parse_symbol.
  Proof. apply pmap_ok, kind_ok. Qed.
  Lemma operator_ok : fine parse_operator.
  Proof. apply pmap_ok, kind_ok. Qed.
  Lemma operator_symbol_ok : fine parse_operator_as_symbol.
  Proof. apply pmap_ok, operator_ok. Qed.
  Lemma boolean_ok : fine parse_boolean.
  Proof. apply pmap_ok, kind_ok. Qed.

  Lemma kind_then A k (f : list token -> token -> pres A) i :
    toks_ok i -> (forall j t, toks_ok j -> G (t_range t) -> res_ok (f j t)) -> res_ok (pbind (kind k i) f).
  Proof.
    intros T F. unfold kind. destruct T as [|t i R T]; [exact I |].
    destruct (kind_eqb _ _); [now apply F | exact I].
  Qed.
  Lemma integer_ok : fine parse_integer.
  Proof.
    intros i T. apply kind_then; [exact T |]. intros j t J R. destruct (parse_i64 _); [exact J | exact R].
  Qed.
  Lemma float_ok : fine parse_float.
  Proof.
    intros i T. apply kind_then; [exact T |]. intros j t J R. destruct (parse_f64 _); [exact J | exact R].
  Qed.
  Lemma string_ok : fine parse_string.
  Proof.
    intros i T. apply kind_then; [exact T |]. intros j t J R. destruct (unescape _); [exact J | exact I].
  Qed.
  Lemma none_ok : fine (parse_none slen).
  Proof.
    intros i T. unfold parse_none. pose proof (text_ok (lit "None") i T) as X.
    assert (Y : res_ok (match i with
          | a :: b :: r =>
              if str_eqb (t_text a) (lit "(") && str_eqb (t_text b) (lit ")")
              then POk r tt
              else PErr (exp_at slen i (lit "None or ()") None None)
          | _ => PErr (exp_at slen i (lit "None or ()") None None)
          end)).
    { destruct i as [|a [|b r]]; try (now apply exp_ok). destruct (_ && _); [| now apply exp_ok].
      inversion T as [|? ? _ T']; subst. now inversion T'. }
    destruct (text _ i); [exact X | exact Y | exact Y | exact Y | exact Y].
  Qed.
  Lemma infix_ok ops p : fine p -> fine (infix ops p).
  Proof.
    intros F i T. apply bind_ok; [now apply F | intros j a J]. apply bind_ok; [| intros; assumption].
    apply many0_ok; [| exact J]. apply pair_ok; [apply alt_ok, texts_ok | exact F].
  Qed.

  Ltac fine_step :=
    match goal with
    | H : forall n, fine (_ n) |- fine (?c ?n) => apply H
    | |- fine (pmap _ _) => apply pmap_ok
    | |- fine (opt _) => apply opt_ok
    | |- fine (alt _) => apply alt_ok; repeat constructor
    | |- fine (many0 _) => apply many0_ok
    | |- fine (many1 _) => apply many1_ok
    | |- fine (preceded _ _) => apply preceded_ok
    | |- fine (separated_pair _ _ _) => apply separated_pair_ok
    | |- fine (separated_list0 _ _) => apply separated_list0_ok
    | |- fine (infix _ _) => apply infix_ok
    | |- fine (text _) => apply text_ok
    | |- fine empty => apply empty_ok
    | |- fine parse_symbol => apply symbol_ok
    | |- fine parse_operator => apply operator_ok
    | |- fine parse_operator_as_symbol => apply operator_symbol_ok
    | |- fine parse_boolean => apply boolean_ok
    | |- fine (parse_none _) => apply none_ok
    | |- fine parse_float => apply float_ok
    | |- fine parse_integer => apply integer_ok
    | |- fine parse_string => apply string_ok
    | |- fine (no_terminating _) => apply no_terminating_ok
    | |- fine (fun i => _) => intros ? ?
    | |- err_ok (exp_at _ _ _ _ _) => apply exp_ok; assumption
    | |- res_ok (POk _ _) => assumption
    | |- res_ok PPanic => exact I
    | |- res_ok PFuel => exact I
    | |- res_ok (PErr _) => apply exp_ok; assumption
    | |- res_ok (pbind _ _) => apply bind_ok; [|intros ? ? ?]
    | |- res_ok (map_fail _ _) => apply map_fail_ok
    | |- res_ok (map_expected _ _) => apply map_expected_ok
    end.

  Ltac use :=
    match goal with
    | T : toks_ok ?i |- res_ok (?p ?i) =>
        lazymatch p with
        | pbind _ => fail
        | _ => let F := fresh in assert (F : fine p); [| exact (F i T)]
        end
    end.

  Lemma body_ok call : (forall n, fine (call n)) -> forall n, fine (body slen call n).
  Proof.
    intros C n.
    destruct n; cbn [body]; repeat (fine_step || use).
    - pose proof (text_ok (lit ";") i0 H0) as X.
      assert (Y : res_ok (match a with
         | EFor _ _ _ | EIf _ _ _ => POk i0 a
         | _ => PErr (exp_at slen i0 (lit ";") None (hint "try adding a semicolon"))
         end)) by (destruct a; repeat fine_step).
      destruct (text _ i0); [exact X | exact Y | exact Y | exact Y | exact Y].
    - destruct a0 as [head [|x l]]; [assumption |].
      destruct (pipe_args _ _) as [[|y [|z args]]|]; repeat fine_step.
    - destruct (str_eqb _ _); [assumption |]. destruct (str_eqb _ _); [assumption | exact I].
    - destruct a0 as [head [|x l]]; [| assumption].
      pose proof (text_ok (lit "to") i1 H1) as X.
      assert (Y : res_ok (match call NNot i1 with
            | POk i2 e => POk i2 e
            | PPanic => PPanic
            | PFuel => PFuel
            | _ => POk i1 head
            end)).
      { pose proof (C NNot i1 H1) as Z. destruct (call NNot i1); auto. }
      destruct (text _ i1); try exact Y. cbn [res_ok] in X. repeat (fine_step || use).
    - destruct a0; repeat (fine_step || use).
  Qed.

  Lemma parse_ok fuel : forall n, fine (parse slen fuel n).
  Proof.
    induction fuel as [|f IH]; intros n i T; [exact I |]. cbn [parse]. now apply body_ok.
  Qed.
End Positions.

(** The text of [s] at [r] starts and ends between characters. *)
Definition selects (s : str) (r : slice) : Prop := exists u, covers s r u.

Lemma selects_end s : selects s (Slice (utf8_len s) (utf8_len s)).
Proof. exists [], s, []. now rewrite !app_nil_r. Qed.

Lemma adjacent_ok s ts e :
  (forall a t b, ts = a ++ t :: b ->
        t_range t = Slice (utf8_len (concat (map t_text a)))
                          (utf8_len (concat (map t_text (a ++ [t]))))) ->
  concat (map t_text ts) = s ->
  forall pre l, ts = pre ++ l -> adjacent_error l = Some e -> err_ok (selects s) e.
Proof.
  intros R C pre l. revert pre. induction l as [|a l IH]; intros pre E A; [discriminate |].
  destruct l as [|b l]; [discriminate |]. cbn [adjacent_error] in A.
  destruct (_ && _).
  - injection A as <-. cbn [err_ok].
    rewrite (R pre a (b :: l) E).
    rewrite (R (pre ++ [a]) b l) by (now rewrite <- app_assoc).
    unfold slice_join. cbn [sl_start sl_end].
    exists (t_text a ++ t_text b), (concat (map t_text pre)), (concat (map t_text l)).
    rewrite E in C. rewrite <- C. clear.
    repeat rewrite ?map_app, ?concat_app. cbn [map concat sl_start sl_end].
    rewrite ?app_nil_r, <- ?app_assoc. repeat split.
  - apply (IH (pre ++ [a])); [now rewrite <- app_assoc | exact A].
Qed.

Lemma script_positions s e : parse_script s = SError e \/ parse_script s = SFailure e ->
  err_ok (selects s) e.
Proof.
  intros P. unfold parse_script in P. destruct (tokenize s) as [ts ds| |] eqn:T; [|now destruct P|now destruct P].
  destruct (filter not_valid ds) as [|d bad] eqn:F.
  - destruct (C01_lossless s ts ds T) as (C & _ & R & _).
    destruct (adjacent_error ts) as [x|] eqn:A.
    + destruct P as [P|P]; [discriminate |]. injection P as <-.
      exact (adjacent_ok s ts x R C [] ts eq_refl A).
    + assert (K : toks_ok (selects s) (filter significant ts)).
      { apply Forall_forall. intros t I. apply filter_In in I. exists (t_text t).
        exact (C01_ranges_select s ts ds t T (proj1 I)). }
      pose proof (parse_ok (selects s) (utf8_len s) (selects_end s)
                    (parse_fuel (filter significant ts)) NScript _ K) as X.
      destruct (parse _ _ _ _) as [[|t r] a|x|x| |]; try (now destruct P).
      * destruct P as [P|P]; [|discriminate]. injection P as <-.
        apply exp_ok; [apply selects_end | exact X].
      * destruct P as [P|P]; [|discriminate]. injection P as <-. exact X.
      * destruct P as [P|P]; [discriminate |]. injection P as <-. exact X.
  - destruct P as [P|P]; [discriminate |]. injection P as <-. cbn [err_ok]. rewrite <- F.
    apply Forall_forall. intros x I. apply filter_In in I. destruct I as [I _].
    pose proof (C04_diagnostics_in_token s ts ds T) as D.
    assert (Y : Forall (fun d => Forall (selects s) (mentioned d)) ds).
    { clear - D. induction D as [|t d ts ds [A _] D IH]; constructor; [| exact IH].
      eapply Forall_impl; [| exact A]. intros r [_ [u [U _]]]. now exists u. }
    rewrite Forall_forall in Y. now apply Y.
Qed.
