(** The expression of the tokens of a printed expression. *)

From Coq Require Import String.
From Verif Require Import Base Syntax Tokenizer Parser TokFacts MapFacts StringFacts WordFacts ParserFacts
  LexFacts LimFacts ForwardFacts PrecFacts Host RoundSpec P_Parse P_Literal RoundLex.
From Verif Require P_FloatFmt.

Definition sigw (w : word) : bool :=
  match fst w with TkWhitespace | TkComment => false | _ => true end.

Definition closers : list str := [lit ","; lit "]"; lit ")"; lit ";"; lit "}"].

(** The end, or a token that ends an expression. *)
Definition closing (r : list token) : Prop :=
  match r with [] => True | t :: _ => t_kind t = TkPunctuation /\ In (t_text t) closers end.

Lemma closing_not l r : apart closers l = true -> closing r -> hd_not l r.
Proof. destruct r as [|t r]; [trivial |]. intros A [_ I]. now apply (apart_not closers). Qed.

Lemma closing_no_atom r : closing r -> no_atom r.
Proof.
  destruct r as [|t r]; [trivial |]. intros [K I]. split; [now rewrite K |].
  apply (apart_not closers openers); [reflexivity | exact I].
Qed.

Definition arrows : list str := [lit "->"; lit "~>"].

(** The start of an operand. *)
Definition starts (i : list token) : Prop :=
  i <> [] /\ plain_hd i /\ hd_not (stops 6 ++ pipes ++ arrows ++ [lit "="; lit "else"; lit "}"]) i.

Lemma starts_app i r : starts i -> starts (i ++ r).
Proof. destruct i as [|t i]; intros (NE & P & N); [congruence |]. split; [discriminate |]. split; assumption. Qed.

Lemma starts_not l i : listed l (stops 6 ++ pipes ++ arrows ++ [lit "="; lit "else"; lit "}"]) = true -> starts i -> hd_not l i.
Proof. intros L (_ & _ & N). eapply hd_not_incl; [| exact N]. now apply listed_incl. Qed.

(** No operand starts with a brace that closes. *)
Lemma starts_brace i : starts i -> match i with t :: _ => t_text t <> lit "}" | [] => True end.
Proof.
  destruct i as [|t r]; [trivial |]. intros (_ & _ & N) E. apply N. rewrite E. vm_compute. tauto.
Qed.

Definition no_equals (i : list token) : Prop :=
  match i with
  | t :: r => t_text t <> lit "}" /\ (t_kind t = TkSymbol \/ t_kind t = TkOperator -> hd_not [lit "="] r)
  | [] => False
  end.

Lemma no_equals_app i r : no_equals i -> closing r -> no_equals (i ++ r).
Proof.
  intros N C. destruct i as [|t [|u i]]; [contradiction | |]; cbn [app] in *; [| exact N].
  split; [apply N |]. intros _. now apply closing_not.
Qed.

Lemma existsb_str x l : existsb (str_eqb x) l = true -> In x l.
Proof. intros E. apply existsb_exists in E as (y & I & Q). apply str_eqb_eq in Q. now subst y. Qed.

Lemma reads_integer z : (i64_min <= z <= i64_max)%Z -> parse_i64 (z_str z) = Some z.
Proof.
  intros R.
  assert (IN : in_i64 z = true).
  { unfold in_i64. destruct (Z.leb_spec i64_min z), (Z.leb_spec z i64_max); try lia; reflexivity. }
  unfold z_str. destruct (Z.ltb_spec z 0) as [L|L].
  - destruct (n_str_numeral (Z.to_N (- z))) as (D & NE & X).
    refine (eq_trans (parse_i64_digits true _ D NE) _). unfold signed. rewrite n_str_value, Z2N.id by lia.
    rewrite Z.opp_involutive, IN. reflexivity.
  - destruct (n_str_numeral (Z.to_N z)) as (D & NE & X).
    refine (eq_trans (parse_i64_digits false _ D NE) _). unfold signed. rewrite n_str_value, Z2N.id by lia.
    now rewrite IN.
Qed.

Section Round.
  Variable slen : N.
  Variable H : host.
  Notation lim := (lim slen).
  Notation words := (words H).

  Definition stoks (e : expr) : list word := filter sigw (words e).

  Lemma joinw_filter sep l : filter sigw (joinw sep (map words l)) = joinw (filter sigw sep) (map stoks l).
  Proof.
    induction l as [|e l IH]; [reflexivity |]. destruct l as [|e' l]; [reflexivity |].
    change (filter sigw (words e ++ sep ++ joinw sep (map words (e' :: l)))
      = stoks e ++ filter sigw sep ++ joinw (filter sigw sep) (map stoks (e' :: l))).
    now rewrite !filter_app, IH.
  Qed.

  Definition opd (e : expr) : Prop := forall i, map word_of i = stoks e -> Forall fair i ->
    starts i /\ parses slen NP1 i [lit "@"] (reread e).

  Definition full (e : expr) : Prop := forall i, map word_of i = stoks e -> Forall fair i ->
    no_equals i /\ forall r, closing r -> lim NExpr (i ++ r) = POk r (reread e).

  Definition cond (e : expr) : Prop := forall i, map word_of i = stoks e -> Forall fair i ->
    (match i with t :: _ => t_kind t = TkKeyword /\ t_text t = lit "if" | [] => False end)
    /\ forall r, closing r -> lim NIf (i ++ r) = POk r (reread e).

  (** ** Operands at each level *)

  Lemma opd_level e i : opd e -> map word_of i = stoks e -> Forall fair i ->
    forall lv, 2 <= lv <= 6 -> parses slen (nt_of lv) i (stops lv) (reread e).
  Proof.
    intros O E F. destruct (O i E F) as ((NE & P & _) & N).
    assert (G : forall k, k <= 4 -> parses slen (nt_of (2 + k)) i (stops (2 + k)) (reread e)).
    { induction k as [|k IH]; intros L.
      - intros r R. apply np2_ok; [now apply plain_app | now apply N | exact R].
      - apply (climbs slen (2 + k)); [exact P | lia | lia |]. apply IH. lia. }
    intros lv L. replace lv with (2 + (lv - 2)) by lia. apply G. lia.
  Qed.

  Lemma stops_listed lv : 2 <= lv <= 6 -> listed (stops lv) (stops 6 ++ pipes ++ arrows ++ [lit "="; lit "else"; lit "}"]) = true.
  Proof. intros L. destruct lv as [|[|[|[|[|[|[|lv]]]]]]]; try lia; reflexivity. Qed.

  Lemma starts_stops lv i : 2 <= lv <= 6 -> starts i -> hd_not (stops lv) i.
  Proof. intros L. apply starts_not. now apply stops_listed. Qed.

  Lemma stops_apart lv : 2 <= lv <= 6 -> apart closers (stops lv) = true.
  Proof. intros L. destruct lv as [|[|[|[|[|[|[|lv]]]]]]]; try lia; reflexivity. Qed.

  (** An operand alone is an expression. *)
  Lemma opd_full e : opd e -> (forall i, map word_of i = stoks e ->
      match i with t :: r => t_kind t = TkSymbol \/ t_kind t = TkOperator -> r = [] | [] => True end) ->
    full e.
  Proof.
    intros O S i E F. pose proof (O i E F) as (ST & N). pose proof (S i E) as S1. split.
    - destruct i as [|t r]; [now apply ST |]. split; [| intros K; rewrite (S1 K); exact I].
      now apply (starts_brace (t :: r)).
    - intros r C. pose proof (starts_app i r ST) as ST'. destruct ST' as (NE' & P' & _).
      apply expr_of_np7; [now left | | now apply closing_not].
      eapply (np7_operand slen _ r (reread e)); [exact P' | | | now apply closing_no_atom |].
      + destruct i as [|t i]; [exfalso; now apply ST |]. cbn [app]. intros K. rewrite (S1 (or_introl K)).
        now apply closing_not.
      + apply (opd_level e i O E F 2); [lia |]. now apply closing_not.
      + apply (opd_level e i O E F 6); [lia |]. now apply closing_not.
  Qed.

  (** ** Arguments *)

  Lemma args_many l : Forall opd l -> forall i, map word_of i = joinw [] (map stoks l) -> Forall fair i ->
    (l <> [] -> starts i) /\ forall r, closing r -> many (lim NP5) (i ++ r) r (map reread l).
  Proof.
    induction 1 as [|e l O F IH]; intros i E FA.
    - apply map_eq_nil in E. subst i. split; [congruence |]. intros r C. cbn [app map].
      destruct (np5_no slen r (closing_no_atom r C)) as [x X]. eapply many_stop. exact X.
    - assert (E' : map word_of i = stoks e ++ joinw [] (map stoks l)).
      { rewrite E. destruct l as [|e' l]; [cbn [map joinw]; now rewrite app_nil_r | reflexivity]. }
      apply map_eq_app in E' as (a & b & -> & Ea & Eb). apply Forall_app in FA as [Fa Fb].
      pose proof (O a Ea Fa) as (ST & _). destruct (IH b Eb Fb) as (SB & M).
      split; [intros _; now apply starts_app |]. intros r C. rewrite <- app_assoc. cbn [map].
      eapply many_more; [| | apply M, C].
      + apply (opd_level e a O Ea Fa 5); [lia |]. destruct l as [|e' l].
        * apply map_eq_nil in Eb. subst b. now apply closing_not.
        * apply starts_not; [reflexivity |]. apply starts_app. apply SB. discriminate.
      + destruct ST as (NE & _). destruct a; [congruence |]. rewrite !app_length. simpl. lia.
  Qed.

  (** ** Sequences *)

  Lemma seq_split (sep : string) e e' l i : map word_of i = joinw [pun sep] (map stoks (e :: e' :: l)) ->
    exists a t b, i = a ++ t :: b /\ map word_of a = stoks e /\ word_of t = pun sep
      /\ map word_of b = joinw [pun sep] (map stoks (e' :: l)).
  Proof. intros E. apply (map_split i word_of (stoks e) (pun sep) _ E). Qed.

  Lemma sep_loop_full l : Forall full l -> l <> [] -> forall i, map word_of i = joinw [pun ","] (map stoks l) ->
    Forall fair i -> forall r, closing r -> hd_not [lit ","] r ->
    forall p, separated_list0 (text (lit ",")) (lim NExpr) (i ++ r) = POk r (map reread l)
    /\ (word_of p = pun "," -> forall fuel, length (i ++ r) < fuel ->
          sep_loop (S fuel) (text (lit ",")) (lim NExpr) (p :: i ++ r) = POk r (map reread l)).
  Proof.
    induction 1 as [|e l Fe F IH]; intros NE i E FA r C N p; [congruence |].
    assert (R : exists i1, lim NExpr (i ++ r) = POk i1 (reread e) /\ length i1 <= length (i ++ r)
                /\ forall fuel, length i1 < fuel ->
                     sep_loop fuel (text (lit ",")) (lim NExpr) i1 = POk r (map reread l)).
    { destruct l as [|e' l].
      - exists r. split; [now apply Fe |]. split; [rewrite app_length; lia |].
        intros [|fuel] L; [lia |]. cbn [sep_loop]. now rewrite text_no.
      - apply seq_split in E as (a & t & b & -> & Ea & Et & Eb). apply Forall_app in FA as [Fa Fb].
        inversion Fb as [|? ? _ Fb']; subst. exists (t :: b ++ r). rewrite <- app_assoc. cbn [app].
        assert (Ct : closing (t :: b ++ r)).
        { injection Et as K T. split; [exact K |]. rewrite T. simpl. tauto. }
        split; [now apply Fe |]. split; [rewrite (app_length a); lia |].
        intros [|fuel] L; [lia |].
        apply (IH ltac:(discriminate) b Eb Fb' r C N t); [exact Et | simpl in L; lia]. }
    destruct R as (i1 & R1 & R2 & R3). split.
    - unfold separated_list0. rewrite R1, R3 by lia. reflexivity.
    - intros P fuel L. cbn [sep_loop]. injection P as K T. rewrite text_yes by exact T.
      assert (NQ : Nat.eqb (length (i ++ r)) (length (p :: i ++ r)) = false) by (apply Nat.eqb_neq; simpl; lia).
      rewrite NQ, R1. rewrite R3 by lia. reflexivity.
  Qed.

  (** Statements up to a closing brace. *)
  Lemma brace_no r t : word_of t = pun "}" -> refuses (lim NExpr) (t :: r) /\ refuses (lim NStatement) (t :: r).
  Proof.
    intros T. injection T as K T.
    assert (R : refuses (lim NExpr) (t :: r)).
    { unfold refuses. setoid_rewrite lim_eq. cbn [body]. unfold no_terminating. rewrite K, T.
      eexists. reflexivity. }
    split; [exact R |]. destruct R as [x X]. unfold refuses. setoid_rewrite lim_eq. cbn [body]. rewrite X.
    eexists; reflexivity.
  Qed.

  Lemma statement_last i e r t : word_of t = pun "}" -> lim NExpr i = POk (t :: r) e ->
    refuses (lim NStatement) i \/ lim NStatement i = POk (t :: r) e.
  Proof.
    intros T E. injection T as K T. unfold refuses. rewrite lim_eq. cbn [body]. rewrite E. cbn [pbind].
    rewrite text_no by (cbn [hd_not]; rewrite T; simpl; intuition discriminate).
    destruct e; eauto.
  Qed.

  Lemma script_full l : Forall full l -> forall i, map word_of i = joinw [pun ";"] (map stoks l) ->
    Forall fair i -> forall t r, word_of t = pun "}" ->
    exists i1 a b, many (lim NStatement) (i ++ t :: r) i1 a /\ map reread l = a ++ b
      /\ (b = [] /\ i1 = t :: r \/ exists e, b = [e] /\ lim NExpr i1 = POk (t :: r) e).
  Proof.
    induction 1 as [|e l Fe F IH]; intros i E FA t r T; destruct (brace_no r t T) as ([x X] & y & Y).
    - apply map_eq_nil in E. subst i. exists (t :: r), [], []. split; [eapply many_stop; exact Y |]. auto.
    - destruct l as [|e' l].
      + assert (Ct : closing (t :: r)).
        { injection T as K T. split; [exact K |]. rewrite T. simpl. tauto. }
        destruct (Fe i E FA) as [NQ PE]. pose proof (PE (t :: r) Ct) as P.
        destruct (statement_last _ _ _ _ T P) as [[z Z]|Z].
        * exists (i ++ t :: r), [], [reread e]. split; [eapply many_stop; exact Z |]. split; [reflexivity |].
          right. eauto.
        * exists (t :: r), [reread e], []. split; [| split; [reflexivity | now left]].
          eapply many_more; [exact Z | | eapply many_stop; exact Y].
          destruct i; [contradiction |]. rewrite app_length. simpl. lia.
      + apply seq_split in E as (a & u & b & -> & Ea & Eu & Eb). apply Forall_app in FA as [Fa Fb].
        inversion Fb as [|? ? _ Fb']; subst. rewrite <- app_assoc. cbn [app].
        assert (Cu : closing (u :: b ++ t :: r)).
        { injection Eu as K U. split; [exact K |]. rewrite U. simpl. tauto. }
        destruct (Fe a Ea Fa) as [NQ PE]. pose proof (PE _ Cu) as P.
        destruct (IH b Eb Fb' t r T) as (i1 & a1 & b1 & M & EQ & D).
        exists i1, (reread e :: a1), b1. split; [| split; [cbn [map] in *; rewrite EQ; reflexivity | exact D]].
        eapply many_more; [| | exact M].
        * rewrite lim_eq. cbn [body]. rewrite P. cbn [pbind]. injection Eu as K U. now rewrite text_yes.
        * rewrite (app_length a). simpl. lia.
  Qed.

  Lemma block_full l i t r : Forall full l -> map word_of i = joinw [pun ";"] (map stoks l) ->
    Forall fair i -> word_of t = pun "}" -> lim NScript (i ++ t :: r) = POk (t :: r) (EDo (map reread l)).
  Proof.
    intros F E FA T. destruct (script_full l F i E FA t r T) as (i1 & a & b & M & -> & D).
    destruct (brace_no r t T) as ([x X] & _). rewrite lim_eq. cbn [body].
    rewrite (many0_many _ _ _ _ M). cbn [pbind]. unfold opt at 1.
    destruct D as [[-> ->]|(e & -> & P)].
    - rewrite X. reflexivity.
    - rewrite P. cbn [pbind]. unfold opt. injection T as K T.
      rewrite text_no by (cbn [hd_not]; rewrite T; simpl; intuition discriminate). reflexivity.
  Qed.

  (** ** Tokens of each form *)

  Lemma stoks_list l : stoks (EList l) = pun "[" :: joinw [pun ","] (map stoks l) ++ [pun "]"].
  Proof. unfold stoks at 1. cbn [RoundLex.words filter sigw fst pun]. rewrite filter_app, joinw_filter. reflexivity. Qed.
  Lemma stoks_group e : stoks (EGroup e) = pun "(" :: stoks e ++ [pun ")"].
  Proof. unfold stoks at 1. cbn [RoundLex.words filter sigw fst pun]. rewrite filter_app. reflexivity. Qed.
  Lemma stoks_quote e : stoks (EQuote e) = pun "'" :: stoks e.
  Proof. reflexivity. Qed.
  Lemma stoks_do l : stoks (EDo l) = pun "{" :: joinw [pun ";"] (map stoks l) ++ [pun "}"].
  Proof.
    destruct l as [|e l]; [reflexivity |].
    change (filter sigw ([pun "{"; wsp] ++ joinw [pun ";"; wsp] (map words (e :: l)) ++ [wsp; pun "}"])
      = pun "{" :: joinw [pun ";"] (map stoks (e :: l)) ++ [pun "}"]).
    rewrite !filter_app, joinw_filter. reflexivity.
  Qed.
  Lemma stoks_apply f l : stoks (EApply f l) = stoks f ++ joinw [] (map stoks l).
  Proof.
    unfold stoks at 1. cbn [RoundLex.words]. rewrite filter_app. cbn [filter sigw fst wsp].
    now rewrite joinw_filter.
  Qed.
  Lemma name_sig x : sigw (name_word x) = true.
  Proof. unfold name_word, sigw. cbn [fst]. now destruct (existsb _ _). Qed.
  Lemma stoks_symbol x : stoks (ESymbol x) = [name_word x].
  Proof. unfold stoks. cbn [RoundLex.words filter]. now rewrite name_sig. Qed.
  Lemma stoks_assign x e : stoks (EAssign x e) = key "let" :: name_word x :: pun "=" :: stoks e.
  Proof. unfold stoks at 1. cbn [RoundLex.words filter app]. rewrite name_sig. reflexivity. Qed.
  Lemma stoks_lambda x e c : stoks (ELambda x e c) = name_word x :: pun "->" :: stoks e.
  Proof. unfold stoks at 1. cbn [RoundLex.words filter app]. rewrite name_sig. reflexivity. Qed.
  Lemma stoks_macro x e : stoks (EMacro x e) = name_word x :: pun "~>" :: stoks e.
  Proof. unfold stoks at 1. cbn [RoundLex.words filter app]. rewrite name_sig. reflexivity. Qed.
  Lemma stoks_for x l b : stoks (EFor x l b) = key "for" :: name_word x :: key "in" :: stoks l ++ stoks b.
  Proof.
    unfold stoks at 1. cbn [RoundLex.words filter app]. rewrite name_sig. cbn [filter sigw fst key wsp].
    rewrite filter_app. reflexivity.
  Qed.
  Lemma stoks_if c t f : stoks (EIf c t f) = key "if" :: stoks c ++ stoks t ++ key "else" :: stoks f.
  Proof.
    unfold stoks at 1. cbn [RoundLex.words filter app]. cbn [filter sigw fst key wsp]. rewrite filter_app.
    cbn [filter sigw fst wsp]. rewrite filter_app. reflexivity.
  Qed.

  (** ** Operands *)

  Lemma starts_value w e t r : value w e -> word_of t = w -> fair t -> starts (t :: r).
  Proof.
    intros V E F. split; [discriminate |]. split; [now apply (value_plain w e) |].
    unfold word_of in E.
    assert (K : operand_kind (t_kind t) = true \/ t_text t = lit "None").
    { destruct V; injection E as K T; rewrite K, ?T; auto. }
    destruct K as [K|K].
    - eapply (hd_not_incl reserved); [apply listed_incl; vm_compute; reflexivity | now apply F].
    - cbn [hd_not]. rewrite K. vm_compute. intuition discriminate.
  Qed.

  Lemma starts_pun s t r : In s ["("; "["; "{"; "'"]%string -> word_of t = pun s -> starts (t :: r).
  Proof.
    intros I E. injection E as K T. split; [discriminate |]. split.
    - cbn [plain_hd]. unfold plain. rewrite K, T. split; [discriminate |].
      destruct I as [<-|[<-|[<-|[<-|[]]]]]; (split; [| intros _]); vm_compute; intuition discriminate.
    - cbn [hd_not]. rewrite T. destruct I as [<-|[<-|[<-|[<-|[]]]]]; vm_compute; intuition discriminate.
  Qed.

  Lemma opd_value w e : stoks e = [w] -> value w (reread e) -> opd e.
  Proof.
    intros S V i E F. rewrite S in E. apply map_eq_cons in E as (t & i' & -> & Et & Ei).
    apply map_eq_nil in Ei. subst i'. inversion F; subst. split; [now apply (starts_value (word_of t) (reread e)) |].
    intros r _. now apply (value_np1 slen (word_of t)).
  Qed.

  Ltac differs T := cbn [hd_not]; rewrite T; vm_compute; intuition discriminate.

  Lemma opd_quote e : opd e -> opd (EQuote e).
  Proof.
    intros O i E F. rewrite stoks_quote in E. apply map_eq_cons in E as (t & i' & -> & Et & Ei).
    inversion F as [|? ? _ F']; subst. split; [apply (starts_pun "'"); [simpl; tauto | exact Et] |].
    intros r R. cbn [app]. injection Et as K T. rewrite lim_eq. cbn [body].
    match goal with |- alt (?a :: ?b :: ?l) ?i = _ => apply (alt_yes [a] b l) end.
    - constructor; [| constructor]. apply group_no. differs T.
    - rewrite lim_eq. cbn [body]. rewrite text_yes by exact T. cbn [pbind].
      pose proof (opd_level e i' O Ei F' 2 ltac:(lia) r R) as P. cbn [nt_of] in P. rewrite P. reflexivity.
  Qed.

  Lemma opd_group e : full e -> opd (EGroup e).
  Proof.
    intros O i E F. rewrite stoks_group in E. apply map_eq_cons in E as (t & i' & -> & Et & Ei).
    apply map_split in Ei as (x & u & y & -> & Ex & Eu & Ey). apply map_eq_nil in Ey. subst y.
    inversion F as [|? ? _ F']; subst. apply Forall_app in F' as [Fx _].
    split; [apply (starts_pun "("); [simpl; tauto | exact Et] |].
    intros r R. cbn [app]. rewrite <- app_assoc. cbn [app]. injection Et as K T. injection Eu as Ku U.
    apply paren_np1; [exact T | exact U |]. apply (O x Ex Fx). split; [exact Ku | rewrite U; simpl; tauto].
  Qed.

  Lemma opd_list l : Forall full l -> opd (EList l).
  Proof.
    intros O i E F. rewrite stoks_list in E. apply map_eq_cons in E as (t & i' & -> & Et & Ei).
    apply map_split in Ei as (x & u & y & -> & Ex & Eu & Ey). apply map_eq_nil in Ey. subst y.
    inversion F as [|? ? _ F']; subst. apply Forall_app in F' as [Fx _].
    split; [apply (starts_pun "["); [simpl; tauto | exact Et] |].
    intros r R. cbn [app]. rewrite <- app_assoc. cbn [app]. injection Et as K T. injection Eu as Ku U.
    rewrite lim_eq. cbn [body].
    match goal with |- alt (?a :: ?b :: ?c :: ?d :: ?e :: ?l) ?i = _ => apply (alt_yes [a; b; c; d] e l) end.
    - repeat apply Forall_cons; try apply Forall_nil.
      + apply group_no. differs T.
      + apply quote_no. differs T.
      + apply map_no. differs T.
      + apply block_no. differs T.
    - rewrite lim_eq. cbn [body]. rewrite text_yes by exact T. cbn [pbind].
      assert (S : separated_list0 (text (lit ",")) (lim NExpr) (x ++ u :: r) = POk (u :: r) (map reread l)).
      { destruct l as [|e l].
        - apply map_eq_nil in Ex. subst x. cbn [app]. unfold separated_list0.
          assert (X : refuses (lim NExpr) (u :: r)).
          { unfold refuses. setoid_rewrite lim_eq. cbn [body]. unfold no_terminating. rewrite Ku, U. eexists; reflexivity. }
          destruct X as [z X]. now rewrite X.
        - apply (sep_loop_full (e :: l) O ltac:(discriminate) x Ex Fx (u :: r)); [| | exact u].
          + split; [exact Ku | rewrite U; simpl; tauto].
          + differs U. }
      rewrite S. cbn [pbind]. rewrite text_yes by exact U. reflexivity.
  Qed.

  Lemma map_refuses t i : t_text t = lit "{" -> no_equals i -> refuses (lim NMap) (t :: i).
  Proof.
    intros T N. unfold refuses. setoid_rewrite lim_eq. cbn [body]. rewrite text_yes by exact T. cbn [pbind].
    assert (P : refuses (separated_pair (alt [parse_symbol; parse_operator]) (text (lit "=")) (lim NExpr)) i).
    { unfold refuses, separated_pair. destruct i as [|u i]; [contradiction |]. destruct N as [_ N].
      destruct (kind_eqb (t_kind u) TkSymbol) eqn:K1; [| destruct (kind_eqb (t_kind u) TkOperator) eqn:K2].
      - assert (K : t_kind u = TkSymbol) by (destruct (t_kind u); try discriminate; reflexivity).
        rewrite (alt_first _ _ _ i (t_text u)); [| unfold parse_symbol, pmap; now rewrite kind_yes].
        cbn [pbind]. rewrite text_no by auto. eexists; reflexivity.
      - assert (K : t_kind u = TkOperator) by (destruct (t_kind u); try discriminate; reflexivity).
        rewrite (alt_yes [parse_symbol] parse_operator [] _ i (t_text u)).
        + cbn [pbind]. rewrite text_no by auto. eexists; reflexivity.
        + constructor; [| constructor]. apply pmap_no, kind_refuses. congruence.
        + unfold parse_operator, pmap. now rewrite kind_yes.
      - destruct (alt_no [parse_symbol; parse_operator] (u :: i)) as [x X]; [discriminate | |].
        + repeat apply Forall_cons; try apply Forall_nil; apply pmap_no, kind_refuses;
            intros E; rewrite E in *; discriminate.
        + rewrite X. eexists; reflexivity. }
    destruct P as [x X]. unfold separated_list0. rewrite X. cbn [pbind].
    rewrite text_no; [eexists; reflexivity |]. destruct i as [|u i]; [exact I |]. destruct N as [N _].
    intros [E|[]]. now apply N.
  Qed.

  Lemma block_np t x u r l : word_of t = pun "{" -> word_of u = pun "}" -> Forall full l ->
    map word_of x = joinw [pun ";"] (map stoks l) -> Forall fair x ->
    lim NBlock (t :: x ++ u :: r) = POk r (EDo (map reread l)).
  Proof.
    intros Et Eu O Ex Fx. injection Et as K T. rewrite lim_eq. cbn [body]. rewrite text_yes by exact T. cbn [pbind].
    rewrite (block_full l x u r O Ex Fx Eu). cbn [pbind]. injection Eu as Ku U. rewrite text_yes by exact U. reflexivity.
  Qed.

  Lemma opd_block l : l <> [] -> Forall full l -> opd (EDo l).
  Proof.
    intros NE O i E F. rewrite stoks_do in E. apply map_eq_cons in E as (t & i' & -> & Et & Ei).
    apply map_split in Ei as (x & u & y & -> & Ex & Eu & Ey). apply map_eq_nil in Ey. subst y.
    inversion F as [|? ? _ F']; subst. apply Forall_app in F' as [Fx _].
    split; [apply (starts_pun "{"); [simpl; tauto | exact Et] |].
    intros r R. cbn [app]. rewrite <- app_assoc. cbn [app]. pose proof Et as Et'. injection Et' as K T.
    pose proof (block_np t x u r l Et Eu O Ex Fx) as B.
    rewrite lim_eq. cbn [body].
    match goal with |- alt (?a :: ?b :: ?c :: ?d :: ?l) ?i = _ => apply (alt_yes [a; b; c] d l) end; [| exact B].
    repeat apply Forall_cons; try apply Forall_nil.
    - apply group_no. differs T.
    - apply quote_no. differs T.
    - apply map_refuses; [exact T |]. injection Eu as Ku U.
      destruct l as [|e [|e' l]]; [congruence | |].
      + inversion O as [|? ? Fe _]; subst. apply no_equals_app; [now apply Fe |].
        split; [exact Ku | rewrite U; simpl; tauto].
      + inversion O as [|? ? Fe _]; subst.
        apply seq_split in Ex as (a & v & b & -> & Ea & Ev & Eb). apply Forall_app in Fx as [Fa _].
        rewrite <- app_assoc. cbn [app]. injection Ev as Kv V. apply no_equals_app; [now apply Fe |].
        split; [exact Kv | rewrite V; simpl; tauto].
  Qed.

  Lemma opd_no_map : opd (EMap []).
  Proof.
    intros i E F. apply map_eq_cons in E as (t & i' & -> & Et & Ei). apply map_eq_cons in Ei as (u & i & -> & Eu & Ei).
    apply map_eq_nil in Ei. subst i. split; [apply (starts_pun "{"); [simpl; tauto | exact Et] |].
    intros r R. cbn [app]. injection Et as K T. injection Eu as Ku U. rewrite lim_eq. cbn [body].
    match goal with |- alt (?a :: ?b :: ?c :: ?l) ?i = _ => apply (alt_yes [a; b] c l) end.
    - repeat apply Forall_cons; try apply Forall_nil; [apply group_no | apply quote_no]; differs T.
    - rewrite lim_eq. cbn [body]. rewrite text_yes by exact T. cbn [pbind].
      unfold separated_list0, separated_pair at 1.
      destruct (alt_no [parse_symbol; parse_operator] (u :: r)) as [x X]; [discriminate | |].
      + repeat apply Forall_cons; try apply Forall_nil; apply pmap_no, kind_refuses; rewrite Ku; discriminate.
      + rewrite X. cbn [pbind]. rewrite text_yes by exact U. reflexivity.
  Qed.

  (** ** Expressions *)

  Lemma noterm_kind t r : t_kind t <> TkPunctuation -> no_terminating slen (t :: r) = POk (t :: r) tt.
  Proof. intros K. unfold no_terminating. destruct (t_kind t); try reflexivity; congruence. Qed.

  Lemma name_tok x t : identifier x -> word_of t = name_word x -> t_kind t = TkSymbol /\ t_text t = x.
  Proof.
    intros N E. rewrite name_word_name in E by now apply identifier_name. injection E as K T. now split.
  Qed.
  Lemma op_token x t : operator x -> word_of t = name_word x -> t_kind t = TkOperator /\ t_text t = x.
  Proof. intros N E. rewrite name_word_operator in E by exact N. injection E as K T. now split. Qed.

  Lemma full_assign x e : identifier x \/ operator x -> full e -> full (EAssign x e).
  Proof.
    intros X O i E F. rewrite stoks_assign in E.
    apply map_eq_cons in E as (t & i1 & -> & Et & E). apply map_eq_cons in E as (u & i2 & -> & Eu & E).
    apply map_eq_cons in E as (v & i3 & -> & Ev & E).
    inversion F as [|? ? _ F1]; subst. inversion F1 as [|? ? _ F2]; subst. inversion F2 as [|? ? _ F3]; subst.
    injection Et as K T. injection Ev as Kv V. split.
    - split; [rewrite T; discriminate |]. intros [Q|Q]; rewrite Q in K; discriminate.
    - intros r C. cbn [app].
      assert (NT : no_terminating slen (t :: u :: v :: i3 ++ r) = POk (t :: u :: v :: i3 ++ r) tt)
        by (apply noterm_kind; rewrite K; discriminate).
      apply expr_of_np7; [right; exact NT | | now apply closing_not].
      rewrite lim_eq. cbn [body]. rewrite NT. cbn [pbind map].
      match goal with |- alt (?a :: ?b :: ?c :: ?l) ?i = _ => apply (alt_yes [a; b] c l) end.
      + repeat apply Forall_cons; try apply Forall_nil; [apply for_no | apply if_no]; differs T.
      + rewrite lim_eq. cbn [body]. rewrite text_yes by exact T. cbn [pbind].
        assert (A : alt [parse_symbol; parse_operator] (u :: v :: i3 ++ r) = POk (v :: i3 ++ r) x).
        { destruct X as [X|X].
          - destruct (name_tok x u X Eu) as [Ku U]. apply alt_first. unfold parse_symbol, pmap.
            rewrite kind_yes by exact Ku. cbn [pbind]. now rewrite U.
          - destruct (op_token x u X Eu) as [Ku U]. apply (alt_yes [parse_symbol] parse_operator []).
            + constructor; [| constructor]. apply pmap_no, kind_refuses. rewrite Ku. discriminate.
            + unfold parse_operator, pmap. rewrite kind_yes by exact Ku. cbn [pbind]. now rewrite U. }
        rewrite A. cbn [map_fail pbind]. rewrite text_yes by exact V. cbn [map_fail pbind].
        rewrite (proj2 (O i3 E F3) r C). reflexivity.
  Qed.

  (** Functions and macros. *)
  Lemma full_callable x s e g : identifier x -> In s ["->"; "~>"]%string ->
    (g = ELambda x (reread e) env_new /\ s = "->"%string \/ g = EMacro x (reread e) /\ s = "~>"%string) ->
    full e -> forall i, map word_of i = name_word x :: pun s :: stoks e -> Forall fair i ->
    no_equals i /\ forall r, closing r -> lim NExpr (i ++ r) = POk r g.
  Proof.
    intros X S G O i E F.
    apply map_eq_cons in E as (t & i1 & -> & Et & E). apply map_eq_cons in E as (u & i2 & -> & Eu & E).
    inversion F as [|? ? Ft F1]; subst. inversion F1 as [|? ? _ F2]; subst.
    destruct (name_tok x t X Et) as [K T]. injection Eu as Ku U.
    assert (NR : ~ In (t_text t) reserved) by (apply Ft; now rewrite K).
    assert (NOT : forall s, In s reserved -> hd_not [s] (t :: u :: i2)).
    { intros y Y [Q|[]]. apply NR. now rewrite <- Q. }
    split.
    - split; [intros Q; apply NR; rewrite Q; apply existsb_str; reflexivity |]. intros _. cbn [hd_not]. rewrite U.
      destruct S as [<-|[<-|[]]]; vm_compute; intuition discriminate.
    - intros r C. cbn [app].
      assert (NT : no_terminating slen (t :: u :: i2 ++ r) = POk (t :: u :: i2 ++ r) tt)
        by (apply noterm_kind; rewrite K; discriminate).
      apply expr_of_np7; [right; exact NT | | now apply closing_not].
      rewrite lim_eq. cbn [body]. rewrite NT. cbn [pbind map].
      match goal with |- alt (?a :: ?b :: ?c :: ?d :: ?l) ?i = _ => apply (alt_yes [a; b; c] d l) end.
      + repeat apply Forall_cons; try apply Forall_nil; [apply for_no | apply if_no | apply assign_no];
          apply NOT, existsb_str; reflexivity.
      + rewrite lim_eq. cbn [body]. unfold parse_symbol, pmap. rewrite kind_yes by exact K. cbn [pbind].
        assert (A : alt [text (lit "->"); text (lit "~>")] (u :: i2 ++ r) = POk (i2 ++ r) u).
        { apply (ops_yes [lit "->"; lit "~>"]). rewrite U. destruct S as [<-|[<-|[]]]; simpl; tauto. }
        rewrite A. cbn [pbind]. rewrite (proj2 (O i2 E F2) r C). cbn [map_fail pbind]. rewrite T, U.
        destruct G as [[-> ->]|[-> ->]]; reflexivity.
  Qed.

  Lemma full_apply f args : opd f -> (forall i, map word_of i = stoks f ->
      match i with t :: r => t_kind t = TkSymbol \/ t_kind t = TkOperator -> r = [] | [] => True end) ->
    args <> [] -> Forall opd args -> full (EApply f args).
  Proof.
    intros O S NE A i E F. rewrite stoks_apply in E. apply map_eq_app in E as (a & b & -> & Ea & Eb).
    apply Forall_app in F as [Fa Fb]. pose proof (O a Ea Fa) as (ST & N). pose proof (S a Ea) as S1.
    destruct (args_many args A b Eb Fb) as (SB & M). specialize (SB NE).
    split.
    - destruct a as [|t a]; [exfalso; now apply ST |]. cbn [app]. split; [now apply (starts_brace (t :: a)) |].
      intros K. rewrite (S1 K). cbn [app]. now apply starts_not.
    - intros r C. rewrite <- app_assoc. pose proof (starts_app a (b ++ r) ST) as (_ & P & _).
      apply expr_of_np7; [now left | | now apply closing_not].
      apply (np7_call slen _ (b ++ r) (reread f) r (map reread args)); [exact P | | | | now apply M].
      + destruct a as [|t a]; [exfalso; now apply ST |]. cbn [app]. intros K. rewrite (S1 (or_introl K)). cbn [app].
        apply starts_not; [reflexivity |]. now apply starts_app.
      + apply (opd_level f a O Ea Fa 2); [lia |]. apply starts_not; [reflexivity |]. now apply starts_app.
      + destruct args; [congruence | discriminate].
  Qed.

  (** An operator, alone or applied. *)
  Lemma full_operator o args : operator o -> Forall opd args -> forall i,
    map word_of i = name_word o :: joinw [] (map stoks args) -> Forall fair i ->
    no_equals i /\ forall r, closing r ->
      lim NExpr (i ++ r) = POk r (match args with [] => ESymbol o | _ => EApply (ESymbol o) (map reread args) end).
  Proof.
    intros O A i E F. apply map_eq_cons in E as (t & b & -> & Et & Eb).
    inversion F as [|? ? _ Fb]; subst. destruct (op_token o t O Et) as [K T].
    destruct (args_many args A b Eb Fb) as (SB & M).
    assert (NOT : forall s r, existsb (str_eqb s) operators = false -> hd_not [s] (t :: r)).
    { intros s r N [Q|[]]. rewrite Q in N. rewrite T in N. rewrite <- not_true_iff_false in N. apply N.
      apply existsb_exists. exists o. split; [exact O | apply str_eqb_refl]. }
    split.
    - split.
      + intros Q. apply (NOT (lit "}") [] eq_refl). now left.
      + intros _. destruct args as [|e args]; [apply map_eq_nil in Eb; now subst b |].
        apply starts_not; [reflexivity |]. apply SB. discriminate.
    - intros r C. cbn [app].
      assert (NT : no_terminating slen (t :: b ++ r) = POk (t :: b ++ r) tt)
        by (apply noterm_kind; rewrite K; discriminate).
      apply expr_of_np7; [right; exact NT | | now apply closing_not].
      assert (OP : parse_operator_as_symbol (t :: b ++ r) = POk (b ++ r) (ESymbol o)).
      { unfold parse_operator_as_symbol, parse_operator, pmap. rewrite kind_yes by exact K. cbn [pbind]. now rewrite T. }
      assert (N2 : refuses (lim NP2) (t :: b ++ r)).
      { apply np2_no. split; [now rewrite K |]. rewrite T. intros Q. revert Q. apply (apart_not operators); [reflexivity | exact O]. }
      assert (PRE : Forall (fun p => refuses p (t :: b ++ r)) [lim NFor; lim NIf; lim NAssign; lim NCallable]).
      { repeat apply Forall_cons; try apply Forall_nil.
        - apply for_no, NOT. reflexivity.
        - apply if_no, NOT. reflexivity.
        - apply assign_no, NOT. reflexivity.
        - apply callable_no. rewrite K. discriminate. }
      rewrite lim_eq. cbn [body]. rewrite NT. cbn [pbind map].
      destruct args as [|e args].
      + apply map_eq_nil in Eb. subst b. cbn [app] in *.
        match goal with |- alt (?a :: ?b :: ?c :: ?d :: ?e :: ?f :: ?l) ?i = _ => apply (alt_yes [a; b; c; d; e] f l) end.
        * apply (Forall_app _ [_; _; _; _] [_]). split; [exact PRE |]. constructor; [| constructor].
          unfold refuses. setoid_rewrite lim_eq. cbn [body].
          assert (AL : alt [(lim NP2 : parser expr); parse_operator_as_symbol] (t :: r) = POk r (ESymbol o)).
          { apply (alt_yes [lim NP2] parse_operator_as_symbol []); [now constructor | exact OP]. }
          rewrite AL. cbn [pbind]. destruct (np5_no slen r (closing_no_atom r C)) as [x X]. unfold many1. rewrite X.
          eexists; reflexivity.
        * rewrite lim_eq. cbn [body]. rewrite OP. cbn [pbind].
          rewrite (many0_many _ r r []); [reflexivity |]. exact (M r C).
      + match goal with |- alt (?a :: ?b :: ?c :: ?d :: ?e :: ?l) ?i = _ => apply (alt_yes [a; b; c; d] e l) end; [exact PRE |].
        rewrite lim_eq. cbn [body].
        assert (AL : alt [(lim NP2 : parser expr); parse_operator_as_symbol] (t :: b ++ r) = POk (b ++ r) (ESymbol o)).
        { apply (alt_yes [lim NP2] parse_operator_as_symbol []); [now constructor | exact OP]. }
        rewrite AL. cbn [pbind]. specialize (M r C). cbn [map] in M. inversion M as [|? i1 ? ? ? X L M']; subst.
        rewrite (many1_many _ _ _ _ _ _ X M'). reflexivity.
  Qed.

  Lemma full_for x l b : identifier x -> opd l -> Forall full b -> full (EFor x l (EDo b)).
  Proof.
    intros X O B i E F. rewrite stoks_for, stoks_do in E.
    apply map_eq_cons in E as (t & i1 & -> & Et & E). apply map_eq_cons in E as (u & i2 & -> & Eu & E).
    apply map_eq_cons in E as (v & i3 & -> & Ev & E). apply map_eq_app in E as (a & i4 & -> & Ea & E).
    apply map_eq_cons in E as (w & i5 & -> & Ew & E). apply map_split in E as (c & z & i6 & -> & Ec & Ez & E).
    apply map_eq_nil in E. subst i6.
    inversion F as [|? ? _ F1]; subst. inversion F1 as [|? ? _ F2]; subst. inversion F2 as [|? ? _ F3]; subst.
    apply Forall_app in F3 as [Fa F4]. inversion F4 as [|? ? _ F5]; subst. apply Forall_app in F5 as [Fc _].
    injection Et as K T. injection Ev as Kv V. destruct (name_tok x u X Eu) as [Ku U]. split.
    - split; [rewrite T; discriminate |]. intros [Q|Q]; rewrite Q in K; discriminate.
    - intros r C. cbn [app]. rewrite <- app_assoc. cbn [app]. rewrite <- app_assoc. cbn [app].
      set (tail := w :: c ++ z :: r).
      assert (NT : no_terminating slen (t :: u :: v :: a ++ tail) = POk (t :: u :: v :: a ++ tail) tt)
        by (apply noterm_kind; rewrite K; discriminate).
      apply expr_of_np7; [right; exact NT | | now apply closing_not].
      rewrite lim_eq. cbn [body]. rewrite NT. cbn [pbind map]. apply alt_first.
      rewrite lim_eq. cbn [body]. rewrite text_yes by exact T. cbn [pbind].
      unfold parse_symbol, pmap. rewrite kind_yes by exact Ku. cbn [pbind map_fail]. rewrite text_yes by exact V. cbn [pbind map_fail].
      assert (W : starts tail) by (apply (starts_pun "{"); [simpl; tauto | exact Ew]).
      pose proof (opd_level l a O Ea Fa 4 ltac:(lia) tail (starts_stops 4 _ ltac:(lia) W)) as P4. cbn [nt_of] in P4.
      assert (R : refuses (lim NRange) (a ++ tail)).
      { unfold refuses. setoid_rewrite lim_eq. cbn [body]. destruct (O a Ea Fa) as (ST & _).
        rewrite noterm_plain by (apply starts_app; exact ST). cbn [pbind]. rewrite P4. cbn [pbind].
        rewrite text_no; [eexists; reflexivity |]. now apply starts_not. }
      assert (AL : alt [(lim NRange : parser expr); lim NP4] (a ++ tail) = POk tail (reread l)).
      { apply (alt_yes [lim NRange] (lim NP4) []); [now constructor | exact P4]. }
      match goal with |- context [alt ?p ?j] => change (alt p j) with (alt [(lim NRange : parser expr); lim NP4] (a ++ tail)) end.
      rewrite AL. cbn [map_fail pbind]. unfold tail. rewrite (block_np w c z r b Ew Ez B Ec Fc).
      cbn [map_fail pbind]. now rewrite U.
  Qed.

  Lemma cond_if c t f : opd c -> opd t -> opd f \/ cond f -> cond (EIf c t f).
  Proof.
    intros Oc Ot Of i E F. rewrite stoks_if in E.
    apply map_eq_cons in E as (k & i1 & -> & Ek & E). apply map_eq_app in E as (a & i2 & -> & Ea & E).
    apply map_eq_app in E as (b & i3 & -> & Eb & E). apply map_eq_cons in E as (el & d & -> & Ee & Ed).
    inversion F as [|? ? _ F1]; subst. apply Forall_app in F1 as [Fa F2]. apply Forall_app in F2 as [Fb F3].
    inversion F3 as [|? ? _ Fd]; subst. injection Ek as K T. injection Ee as Ke L. split; [now split |].
    intros r C. cbn [app]. rewrite <- !app_assoc. cbn [app]. rewrite lim_eq. cbn [body].
    rewrite text_yes by exact T. cbn [pbind].
    pose proof (Ot b Eb Fb) as (SB & _).
    rewrite (opd_level c a Oc Ea Fa 6 ltac:(lia) (b ++ el :: d ++ r)
      (starts_stops 6 _ ltac:(lia) (starts_app b _ SB)) : lim NP6 _ = _).
    cbn [map_fail pbind].
    rewrite (opd_level t b Ot Eb Fb 4 ltac:(lia) (el :: d ++ r) ltac:(differs L) : lim NP4 _ = _).
    cbn [map_fail pbind].
    assert (AL : alt [(lim NIf : parser expr); lim NP4] (d ++ r) = POk r (reread f)).
    { destruct Of as [Of|Of].
      - pose proof (Of d Ed Fd) as (SD & _). apply (alt_yes [lim NIf] (lim NP4) []).
        + constructor; [| constructor]. apply if_no. apply plain_not; [simpl; tauto |]. apply starts_app. exact SD.
        + apply (opd_level f d Of Ed Fd 4 ltac:(lia)). now apply closing_not.
      - apply alt_first. now apply Of. }
    unfold opt, preceded. rewrite text_yes by exact L. cbn [pbind].
    match goal with |- context [alt ?p ?j] => change (alt p j) with (alt [(lim NIf : parser expr); lim NP4] (d ++ r)) end.
    rewrite AL. reflexivity.
  Qed.

  Lemma cond_full e : cond e -> full e.
  Proof.
    intros O i E F. destruct (O i E F) as (S & P). destruct i as [|t i]; [contradiction |]. destruct S as [K T].
    split.
    - split; [rewrite T; discriminate |]. intros [Q|Q]; rewrite Q in K; discriminate.
    - intros r C.
      assert (NT : no_terminating slen ((t :: i) ++ r) = POk ((t :: i) ++ r) tt)
        by (apply noterm_kind; rewrite K; discriminate).
      apply expr_of_np7; [right; exact NT | | now apply closing_not].
      rewrite lim_eq. cbn [body]. rewrite NT. cbn [pbind map].
      match goal with |- alt (?a :: ?b :: ?l) ?i = _ => apply (alt_yes [a] b l) end; [| now apply P].
      constructor; [| constructor]. apply for_no. cbn [app]. differs T.
  Qed.

  (** ** All together *)

  Lemma operand_words e : operand H e -> forall i, map word_of i = stoks e ->
      match i with t :: r => t_kind t = TkSymbol \/ t_kind t = TkOperator -> r = [] | [] => True end.
  Proof.
    intros O i E. destruct i as [|t r]; [trivial |].
    assert (G : forall w ws, stoks e = w :: ws -> ws = [] \/ fst w = TkPunctuation ->
      t_kind t = TkSymbol \/ t_kind t = TkOperator -> r = []).
    { intros w ws S D K. rewrite S in E. injection E as E1 E2. destruct D as [->|D]; [now apply map_eq_nil in E2 |].
      rewrite <- E1 in D. cbn [fst word_of] in D. destruct K as [K|K]; rewrite K in D; discriminate. }
    destruct O as [x X|z Z|f Ff Wf Hf|b| |s S|l F| |e R|e Q|l NE F].
    - eapply G; [apply stoks_symbol | now left].
    - eapply G; [reflexivity | now left].
    - eapply G; [reflexivity | now left].
    - eapply G; [reflexivity | now left].
    - eapply G; [reflexivity | now left].
    - eapply G; [reflexivity | now left].
    - eapply G; [apply stoks_list | now right].
    - eapply G; [reflexivity | now right].
    - eapply G; [apply stoks_group | now right].
    - eapply G; [apply stoks_quote | now right].
    - eapply G; [apply stoks_do | now right].
  Qed.

  Lemma readable_full n : forall e, weight e <= n ->
    (operand H e -> opd e) /\ (readable H e -> full e) /\ (conditional H e -> cond e).
  Proof.
    induction n as [|n IH]; intros e W; [exfalso; destruct e; simpl in W; lia |].
    assert (IHo : forall e', weight e' < weight e -> operand H e' -> opd e') by (intros e' L; apply IH; lia).
    assert (IHr : forall e', weight e' < weight e -> readable H e' -> full e') by (intros e' L; apply IH; lia).
    assert (IHc : forall e', weight e' < weight e -> conditional H e' -> cond e') by (intros e' L; apply IH; lia).
    assert (ALL : forall l, list_sum (map weight l) < weight e -> Forall (readable H) l -> Forall full l).
    { intros l L F. rewrite Forall_forall in *. intros x I. apply IHr; [| now apply F].
      pose proof (weight_in x l I). lia. }
    assert (ALLO : forall l, list_sum (map weight l) < weight e -> Forall (operand H) l -> Forall opd l).
    { intros l L F. rewrite Forall_forall in *. intros x I. apply IHo; [| now apply F].
      pose proof (weight_in x l I). lia. }
    assert (O : operand H e -> opd e).
    { intros O. destruct O as [x X|z Z|f Ff Wf Hf|b| |s S|l F| |e R|e Q|l NE F]; cbn [weight] in *.
      - eapply opd_value; [apply stoks_symbol |]. rewrite name_word_name by now apply identifier_name. constructor.
      - eapply opd_value; [reflexivity |]. constructor. now apply reads_integer.
      - eapply opd_value; [reflexivity |]. constructor. rewrite Hf.
        destruct (P_FloatFmt.fraction_read f Ff Wf) as (neg & a & d & E & (A1 & A2 & A3 & B1 & B2) & P). rewrite E. exact P.
      - eapply opd_value; [reflexivity |]. destruct b; constructor.
      - eapply opd_value; [reflexivity |]. constructor.
      - eapply opd_value; [reflexivity |]. constructor. unfold debug_str.
        now apply (unescape_literal _ s (debug_body H s S)).
      - apply opd_list. apply ALL; [lia | exact F].
      - apply opd_no_map.
      - apply opd_group. apply IHr; [lia | exact R].
      - apply opd_quote. apply IHo; [lia | exact Q].
      - apply opd_block; [exact NE |]. apply ALL; [lia | exact F]. }
    assert (C : conditional H e -> cond e).
    { intros C. destruct C as [c t f Oc Ot Of]. cbn [weight] in *. apply cond_if.
      - apply IHo; [lia | exact Oc].
      - apply IHo; [lia | exact Ot].
      - destruct Of as [Of|Of]; [left; apply IHo | right; apply IHc]; auto; lia. }
    split; [exact O |]. split; [| exact C].
    intros R. destruct R as [e Oe|o Oo|f args Hf NE F|x e X R|x e X R|x e X R|x l b X Ol F|e Ce].
    - apply opd_full; [now apply O | now apply operand_words].
    - intros i E FA. rewrite stoks_symbol in E. apply (full_operator o []); auto.
    - cbn [weight] in *. destruct Hf as [Of|(o & Oo & ->)].
      + apply full_apply; [apply IHo; [lia | exact Of] | now apply operand_words | exact NE |].
        apply ALLO; [lia | exact F].
      + intros i E FA. rewrite stoks_apply, stoks_symbol in E.
        assert (A : Forall opd args) by (apply ALLO; [lia | exact F]).
        destruct (full_operator o args Oo A i E FA) as (NQ & P). split; [exact NQ |]. intros r Cl.
        rewrite P by exact Cl. destruct args; [congruence | reflexivity].
    - apply full_assign; [exact X |]. apply IHr; [cbn [weight]; lia | exact R].
    - intros i E FA. rewrite stoks_lambda in E. apply (full_callable x "->" e); [exact X | simpl; tauto | now left | | exact E | exact FA].
      apply IHr; [cbn [weight]; lia | exact R].
    - intros i E FA. rewrite stoks_macro in E. apply (full_callable x "~>" e); [exact X | simpl; tauto | now right | | exact E | exact FA].
      apply IHr; [cbn [weight]; lia | exact R].
    - apply full_for; [exact X | |].
      + apply IHo; [cbn [weight]; lia | exact Ol].
      + apply ALL; [cbn [weight]; lia | exact F].
    - apply cond_full. now apply C.
  Qed.
End Round.
