(** The tokens of printed expressions. *)

From Coq Require Import String.
From Verif Require Import Base Syntax Tokenizer Parser TokFacts MapFacts StringFacts WordFacts LexFacts
  LimFacts ForwardFacts PrecFacts Host RoundSpec P_Parse P_Literal.
From Verif Require FloatSpec FloatFmt P_Float P_FloatFmt.

(** ** Size *)

Fixpoint weight (e : expr) : nat :=
  match e with
  | EQuote e | EGroup e | EAssign _ e | ELambda _ e _ | EMacro _ e => S (weight e)
  | EList l | EDo l => S (list_sum (map weight l))
  | EApply f l => S (weight f + list_sum (map weight l))
  | EFor _ l b => S (weight l + weight b)
  | EIf c t f => S (weight c + weight t + weight f)
  | _ => 1
  end.

Lemma weight_in e l : In e l -> weight e <= list_sum (map weight l).
Proof. induction l as [|x l IH]; [intros [] |]. intros [-> | I]; simpl; [lia | specialize (IH I); lia]. Qed.

(** ** Words *)

Lemma word_char_symbol c : word_char c -> is_symbol_char c = true.
Proof.
  unfold word_char, between, is_symbol_char, is_lower, is_upper, is_digit. intros W.
  destruct W as [W|[W|[W|W]]].
  - now rewrite (proj2 (N.leb_le _ _) (proj1 W)), (proj2 (N.leb_le _ _) (proj2 W)).
  - rewrite (proj2 (N.leb_le _ _) (proj1 W)), (proj2 (N.leb_le _ _) (proj2 W)). now rewrite orb_true_r.
  - rewrite (proj2 (N.leb_le _ _) (proj1 W)), (proj2 (N.leb_le _ _) (proj2 W)). now rewrite orb_true_r.
  - apply orb_true_iff. right. apply existsb_exists. exists c. split; [exact W | apply N.eqb_refl].
Qed.

Lemma not_digit c : ~ between 48%N 57%N c -> is_digit c = false.
Proof.
  unfold between, is_digit. intros N.
  destruct (N.leb_spec 48 c), (N.leb_spec c 57); try reflexivity. exfalso. apply N. now split.
Qed.

Lemma symbolic_reserved x : symbolic x -> In x (map lit ["True"; "False"]%string ++ reserved) -> In x taken \/ x = [].
Proof.
  intros S I.
  assert (F : forallb (fun y => negb (forallb is_symbol_char y) || existsb (str_eqb y) taken)
                (map lit ["True"; "False"]%string ++ reserved) = true) by (vm_compute; reflexivity).
  rewrite forallb_forall in F. specialize (F x I). left.
  assert (T : forallb is_symbol_char x = true) by (apply forallb_forall; unfold symbolic in S; rewrite Forall_forall in S; exact S).
  rewrite T in F. cbn [negb orb] in F. apply existsb_exists in F as (y & J & E). apply str_eqb_eq in E. now subst y.
Qed.

Lemma identifier_name x : identifier x -> name x.
Proof.
  intros (W & T & M).
  assert (S : symbolic x) by (eapply Forall_impl; [| exact W]; exact word_char_symbol).
  assert (NE : x <> []) by (intros ->; exact M).
  split; [exact NE |]. split; [exact S |]. split; [| split].
  - intros I. apply symbolic_reserved in I; [tauto | exact S].
  - destruct x as [|c r]; [reflexivity |]. destruct M as (_ & D & Q). cbn [number_like].
    rewrite (not_digit c D). cbn [orb]. destruct r as [|d r]; [now rewrite andb_false_r |].
    destruct (N.eqb_spec c 45) as [E|_]; [| reflexivity]. cbn [andb]. apply not_digit. now apply Q.
  - destruct x as [|c r]; [discriminate |]. apply M.
Qed.

(** ** Strings *)

Lemma hex_digit_ok n : (n < 16)%N -> is_hexdigit (Host.hex_digit n) = true /\ hex_val (Host.hex_digit n) = n.
Proof.
  intros L.
  assert (F : forallb (fun n => is_hexdigit (Host.hex_digit n) && (hex_val (Host.hex_digit n) =? n)%N)
                (map N.of_nat (seq 0 16)) = true) by (vm_compute; reflexivity).
  rewrite forallb_forall in F. specialize (F n).
  assert (I : In n (map N.of_nat (seq 0 16))).
  { apply in_map_iff. exists (N.to_nat n). split; [apply N2Nat.id |]. apply in_seq. lia. }
  apply F in I. apply andb_prop in I as [A B]. apply N.eqb_eq in B. auto.
Qed.

Lemma hex_aux_ok k : forall f n acc, (k <= f)%nat -> (1 <= k)%nat -> (n < 16 ^ N.of_nat k)%N ->
  exists d, hex_aux f n acc = d ++ acc /\ 1 <= length d <= k /\ forallb is_hexdigit d = true
    /\ forall a, fold_left (fun a c => 16 * a + hex_val c)%N d a = (a * 16 ^ N.of_nat (length d) + n)%N.
Proof.
  induction k as [|k IH]; intros f n acc F K L; [lia |]. destruct f as [|f]; [lia |]. cbn [hex_aux].
  assert (M : (n mod 16 < 16)%N) by (apply N.mod_lt; discriminate).
  destruct (hex_digit_ok _ M) as [HD HV].
  pose proof (N.div_mod n 16 ltac:(discriminate)) as DM.
  destruct (N.eqb_spec (n / 16) 0) as [Z|Z].
  - exists [Host.hex_digit (n mod 16)]. split; [reflexivity |]. split; [simpl; lia |]. split; [cbn [forallb]; now rewrite HD |].
    intros a. cbn [fold_left length]. rewrite HV. change (16 ^ N.of_nat 1)%N with 16%N. lia.
  - assert (L' : (n / 16 < 16 ^ N.of_nat k)%N).
    { apply N.div_lt_upper_bound; [discriminate |]. rewrite <- N.pow_succ_r'. now rewrite <- Nat2N.inj_succ. }
    assert (K' : (1 <= k)%nat).
    { destruct k; [| lia]. change (16 ^ N.of_nat 0)%N with 1%N in L'. lia. }
    destruct (IH f (n / 16)%N (Host.hex_digit (n mod 16) :: acc)) as (d & E & Ld & Fd & V); auto; [lia |].
    exists (d ++ [Host.hex_digit (n mod 16)]). rewrite E, <- app_assoc. split; [reflexivity |].
    rewrite app_length. split; [simpl; lia |]. split.
    + rewrite forallb_app, Fd. cbn [forallb]. now rewrite HD.
    + intros a. rewrite fold_left_app, V. cbn [fold_left length]. rewrite HV.
      rewrite Nat.add_1_r, Nat2N.inj_succ, N.pow_succ_r'. lia.
Qed.

Lemma hex_str_ok n : (n < 1048576)%N ->
  1 <= length (hex_str n) <= 5 /\ forallb is_hexdigit (hex_str n) = true /\ hex_num (hex_str n) = n.
Proof.
  intros L. destruct (hex_aux_ok 5 8 n []) as (d & E & Ld & Fd & V); [lia | lia | exact L |].
  unfold hex_str. rewrite E, app_nil_r. split; [exact Ld |]. split; [exact Fd |]. unfold hex_num. rewrite V. lia.
Qed.

Lemma debug_body H s : Forall (writable H) s -> str_body (flat_map (esc_chr H) s) s.
Proof.
  induction 1 as [|c s (NZ & SC & PR) F IH]; [constructor |]. cbn [flat_map]. unfold esc_chr at 1.
  destruct (N.eqb_spec c 0); [contradiction |].
  destruct (N.eqb_spec c 9) as [->|]; [apply (body_simple 116%N 9%N); [simpl; auto 10 | exact IH] |].
  destruct (N.eqb_spec c 10) as [->|]; [apply (body_simple 110%N 10%N); [simpl; auto 10 | exact IH] |].
  destruct (N.eqb_spec c 13) as [->|]; [apply (body_simple 114%N 13%N); [simpl; auto 10 | exact IH] |].
  destruct (N.eqb_spec c 34) as [->|]; [apply (body_simple 34%N 34%N); [simpl; auto 10 | exact IH] |].
  destruct (N.eqb_spec c 92) as [->|]; [apply (body_simple 92%N 92%N); [simpl; auto 10 | exact IH] |].
  match goal with |- context [if ?b then [c] else _] => destruct b eqn:P end.
  - now apply body_plain.
  - assert (L : (c < 1048576)%N).
    { destruct PR as [L|PR]; [exact L |]. destruct (N.ltb_spec c 128) as [|G]; [lia |]. congruence. }
    destruct (hex_str_ok c L) as (Ld & Fd & V).
    rewrite <- V at 2. change (lit "\u{") with [92; 117; 123]%N. change (lit "}") with [125]%N. cbn [app].
    rewrite <- app_assoc. cbn [app]. apply body_hex; auto. rewrite V. unfold is_scalar.
    unfold between in SC.
    destruct (N.ltb_spec c 55296), (N.leb_spec 57344 c), (N.ltb_spec c 1114112); try reflexivity; lia.
Qed.

(** ** Operators *)

(** What may follow a printed expression. *)
Definition edge (rest : str) : Prop :=
  match rest with [] => True | c :: _ => In c [32; 44; 41; 93; 59]%N end.

Lemma edge_plain rest : edge rest -> next_plain rest.
Proof.
  destruct rest as [|c r]; [trivial |]. simpl. intros E.
  decompose [or] E; subst; try reflexivity; contradiction.
Qed.

Lemma lex_operator o rest : operator o -> edge rest -> lexes TkOperator o rest.
Proof.
  intros O E off. unfold operator, operators in O. cbn [map In] in O.
  decompose [or] O; try contradiction; subst o; (destruct rest as [|c r];
    [| cbn [edge In] in E; decompose [or] E; try contradiction; subst c]); vm_compute; reflexivity.
Qed.

(** ** Sequences of tokens *)

Definition wsp : word := (TkWhitespace, [32%N]).
Definition pun (s : string) : word := (TkPunctuation, lit s).
Definition key (s : string) : word := (TkKeyword, lit s).

Fixpoint joinw (sep : list word) (l : list (list word)) : list word :=
  match l with
  | [] => []
  | [x] => x
  | x :: r => x ++ sep ++ joinw sep r
  end.

Definition name_word (x : str) : word :=
  (if existsb (str_eqb x) operators then TkOperator else TkSymbol, x).

Section Words.
  Variable H : host.

  (** The tokens of [debug H e]. *)
  Fixpoint words (e : expr) : list word :=
    match e with
    | EQuote e => pun "'" :: words e
    | EGroup e => pun "(" :: words e ++ [pun ")"]
    | ESymbol x => [name_word x]
    | EInteger z => [(TkIntegerLiteral, z_str z)]
    | EFloat f => [(TkFloatLiteral, h_float H f)]
    | EString s => [(TkStringLiteral, debug_str H s)]
    | EBoolean b => [(TkBooleanLiteral, if b then lit "True" else lit "False")]
    | EList l => pun "[" :: joinw [pun ","; wsp] (map words l) ++ [pun "]"]
    | EMap _ => [pun "{"; pun "}"]
    | ENone => [key "None"]
    | ELambda p b _ => [name_word p; wsp; pun "->"; wsp] ++ words b
    | EMacro p b => [name_word p; wsp; pun "~>"; wsp] ++ words b
    | EFor x l b => [key "for"; wsp; name_word x; wsp; key "in"; wsp] ++ words l ++ wsp :: words b
    | EDo [] => [pun "{"; (TkWhitespace, [32; 32]%N); pun "}"]
    | EDo l => [pun "{"; wsp] ++ joinw [pun ";"; wsp] (map words l) ++ [wsp; pun "}"]
    | EAssign x e => [key "let"; wsp; name_word x; wsp; pun "="; wsp] ++ words e
    | EIf c t f => [key "if"; wsp] ++ words c ++ wsp :: words t ++ [wsp; key "else"; wsp] ++ words f
    | EApply g args => words g ++ wsp :: joinw [wsp] (map words args)
    | _ => []
    end.

  (** [ws] are the tokens of [s] when [B] holds of what follows. *)
  Definition splits (B : str -> Prop) (ws : list word) (s : str) : Prop :=
    forall ws' rest, B rest -> lexed ws' rest -> lexed (ws ++ ws') (s ++ rest).

  Definition dark (rest : str) : Prop :=
    match rest with c :: _ => is_ascii_ws c = false | [] => True end.
  Definition any (rest : str) : Prop := True.

  Lemma splits_app (B1 B2 : str -> Prop) ws1 s1 ws2 s2 : splits B1 ws1 s1 ->
    (forall rest, B2 rest -> B1 (s2 ++ rest)) -> splits B2 ws2 s2 -> splits B2 (ws1 ++ ws2) (s1 ++ s2).
  Proof. intros S1 I S2 ws' rest B L. rewrite <- !app_assoc. apply S1; auto. Qed.

  Lemma splits_weaken (B1 B2 : str -> Prop) ws s : (forall r, B2 r -> B1 r) -> splits B1 ws s -> splits B2 ws s.
  Proof. intros I S ws' rest B. apply S. auto. Qed.

  Lemma splits_one (B : str -> Prop) k t : t <> [] -> (forall rest, B rest -> lexes k t rest) -> splits B [(k, t)] t.
  Proof. intros NE L ws' rest B' X. cbn [app]. constructor; auto. Qed.

  Lemma splits_pun c : In [c] puncts -> c <> 61%N -> splits any [(TkPunctuation, [c])] [c].
  Proof. intros I N. apply splits_one; [discriminate |]. intros rest _. apply lex_punct; [exact I | congruence]. Qed.

  Lemma splits_space : splits dark [wsp] [32%N].
  Proof. apply splits_one; [discriminate |]. intros rest D. now apply lex_space. Qed.

  Lemma splits_key k : In k keywords -> splits edge [(TkKeyword, k)] k.
  Proof.
    intros I. apply splits_one; [now apply (texts_nonempty keywords) |]. intros rest E.
    apply lex_keyword; [exact I | now apply edge_plain].
  Qed.

  Lemma name_word_name x : name x -> name_word x = (TkSymbol, x).
  Proof.
    intros (_ & _ & R & _). unfold name_word. destruct (existsb _ _) eqn:E; [| reflexivity]. exfalso.
    apply existsb_exists in E as (y & I & Q). apply str_eqb_eq in Q. subst y. apply R. apply in_app_iff. right.
    apply (listed_incl operators reserved); [vm_compute; reflexivity | exact I].
  Qed.

  Lemma name_word_operator x : operator x -> name_word x = (TkOperator, x).
  Proof.
    intros O. unfold name_word. destruct (existsb _ _) eqn:E; [reflexivity |].
    rewrite <- not_true_iff_false in E. exfalso. apply E. apply existsb_exists. exists x.
    split; [exact O | apply str_eqb_refl].
  Qed.

  Lemma splits_name x : identifier x \/ operator x -> splits edge [name_word x] x.
  Proof.
    intros [I|O].
    - apply identifier_name in I. rewrite name_word_name by exact I. apply splits_one; [apply I |].
      intros rest E. apply lex_name; [exact I | now apply edge_plain].
    - rewrite name_word_operator by exact O. apply splits_one.
      + intros ->. vm_compute in O. intuition discriminate.
      + intros rest E. now apply lex_operator.
  Qed.

  Lemma lex_spaces (rest : str) : dark rest -> lexes TkWhitespace [32; 32]%N rest.
  Proof.
    intros W off. apply parse_token_alts; [discriminate |].
    apply (talt_takes [_; _; _; _; _; _; _; _; _] _ []).
    - repeat apply Forall_cons; try apply Forall_nil; reflexivity.
    - apply (valid_some whitespace). unfold whitespace. cbn [i_rest].
      rewrite (span_plain _ [32; 32]%N rest W). apply (split_at_ok [32; 32]%N rest off).
  Qed.

  (** A text that starts with something else than a blank. *)
  Definition visible (s : str) : Prop := match s with c :: _ => is_ascii_ws c = false | [] => False end.

  Lemma visible_dark s rest : visible s -> dark (s ++ rest).
  Proof. destruct s; [contradiction | trivial]. Qed.

  Lemma visible_app s rest : visible s -> visible (s ++ rest).
  Proof. destruct s; [contradiction | trivial]. Qed.

  (** ** No two words touch *)

  Fixpoint calm (p : bool) (ws : list word) : option bool :=
    match ws with
    | [] => Some p
    | w :: r => if p && is_symbol_like (fst w) then None else calm (is_symbol_like (fst w)) r
    end.

  Lemma calm_app a : forall p b, calm p (a ++ b) = match calm p a with Some q => calm q b | None => None end.
  Proof. induction a as [|w a IH]; intros p b; simpl; [reflexivity |]. destruct (_ && _); auto. Qed.

  Lemma calm_false ws : forall p q, calm p ws = Some q -> exists q', calm false ws = Some q'.
  Proof.
    destruct ws as [|w ws]; intros p q; simpl; [eauto |]. destruct (_ && _); [discriminate | eauto].
  Qed.

  Lemma calm_adjacent ws : calm false ws <> None ->
    adjacent_error (map (fun w => Token (fst w) (snd w) (Slice 0 0)) ws) = None.
  Proof.
    assert (G : forall ws p, calm p ws <> None -> adjacent_error (map (fun w => Token (fst w) (snd w) (Slice 0 0)) ws) = None).
    { clear. induction ws as [|a ws IH]; intros p C; [reflexivity |]. cbn [calm] in C.
      destruct (p && _); [congruence |]. destruct ws as [|b ws]; [reflexivity |].
      cbn [map adjacent_error t_kind t_text fst snd] in *. cbn [calm] in C.
      destruct (is_symbol_like (fst a) && is_symbol_like (fst b)) eqn:E; [congruence |]. cbn [andb].
      apply (IH (is_symbol_like (fst a))). cbn [calm]. now rewrite E. }
    apply G.
  Qed.

  Definition fine (e : expr) : Prop :=
    splits edge (words e) (debug H e) /\ visible (debug H e) /\ exists q, calm false (words e) = Some q.

  Definition parts (ws : list word) (s : str) : Prop :=
    splits edge ws s /\ visible s /\ exists q, calm false ws = Some q.

  (** Separators between expressions. *)
  Definition separates (ws : list word) (s : str) : Prop :=
    splits dark ws s /\ (forall r, edge (s ++ r)) /\ forall q, calm q ws = Some false.

  Lemma parts_join wsep sep l : separates wsep sep -> l <> [] -> Forall fine l ->
    parts (joinw wsep (map words l)) (join sep (map (debug H) l)).
  Proof.
    intros (S & E & C) NE F. induction F as [|e l (P & V & q & Q) F IH]; [congruence |].
    destruct l as [|e' l]; [split; [exact P |]; split; [exact V | eauto] |].
    destruct (IH ltac:(discriminate)) as (P' & V' & q' & Q').
    change (joinw wsep (map words (e :: e' :: l))) with (words e ++ wsep ++ joinw wsep (map words (e' :: l))).
    change (join sep (map (debug H) (e :: e' :: l))) with (debug H e ++ sep ++ join sep (map (debug H) (e' :: l))).
    split; [| split; [now apply visible_app |]].
    - eapply splits_app; [exact P | |].
      + intros rest _. rewrite <- app_assoc. apply E.
      + eapply splits_app; [exact S | | exact P']. intros rest _. now apply visible_dark.
    - exists q'. now rewrite calm_app, Q, calm_app, C.
  Qed.

  Lemma sep_comma : separates [pun ","; wsp] (lit ", ").
  Proof.
    split; [| split; [intros r; simpl; tauto | intros []; reflexivity]].
    apply (splits_app any dark [pun ","] (lit ",") [wsp] [32%N]); [| exact (fun _ _ => I) | apply splits_space].
    apply splits_pun; [simpl; tauto | discriminate].
  Qed.
  Lemma sep_semi : separates [pun ";"; wsp] (lit "; ").
  Proof.
    split; [| split; [intros r; simpl; tauto | intros []; reflexivity]].
    apply (splits_app any dark [pun ";"] (lit ";") [wsp] [32%N]); [| exact (fun _ _ => I) | apply splits_space].
    apply splits_pun; [simpl; tauto | discriminate].
  Qed.
  Lemma sep_space : separates [wsp] (lit " ").
  Proof.
    split; [| split; [intros r; simpl; tauto | intros []; reflexivity]]. apply splits_space.
  Qed.

  Lemma parts_sep ws1 s1 wsep sep ws2 s2 : parts ws1 s1 -> separates wsep sep -> parts ws2 s2 ->
    parts (ws1 ++ wsep ++ ws2) (s1 ++ sep ++ s2).
  Proof.
    intros (P & V & q & Q) (S & E & C) (P' & V' & q' & Q'). split; [| split; [now apply visible_app |]].
    - eapply splits_app; [exact P | |].
      + intros rest _. rewrite <- app_assoc. apply E.
      + eapply splits_app; [exact S | | exact P']. intros rest _. now apply visible_dark.
    - exists q'. now rewrite calm_app, Q, calm_app, C.
  Qed.

  Lemma parts_open c ws s : In [c] puncts -> c <> 61%N -> is_ascii_ws c = false -> parts ws s ->
    parts ((TkPunctuation, [c]) :: ws) (c :: s).
  Proof.
    intros I N D (P & V & q & Q). split; [| split; [exact D |]].
    - apply (splits_app any edge [_] [c]); [now apply splits_pun | exact (fun _ _ => Logic.I) | exact P].
    - exists q. exact Q.
  Qed.

  Lemma parts_close c ws s : In [c] puncts -> In c [41; 93]%N -> parts ws s ->
    parts (ws ++ [(TkPunctuation, [c])]) (s ++ [c]).
  Proof.
    intros I J (P & V & q & Q). split; [| split; [now apply visible_app |]].
    - eapply splits_app; [exact P | |].
      + intros rest _. simpl in *. intuition.
      + apply (splits_weaken any); [exact (fun _ _ => Logic.I) |]. apply splits_pun; [exact I |].
        intros ->. simpl in J. intuition discriminate.
    - exists false. rewrite calm_app, Q. cbn [calm fst is_symbol_like]. now rewrite andb_false_r.
  Qed.

  (** Inside braces. *)
  Lemma parts_braces ws s : parts ws s -> parts ([pun "{"; wsp] ++ ws ++ [wsp; pun "}"]) (lit "{ " ++ s ++ lit " }").
  Proof.
    intros (P & V & q & Q). split; [| split; [reflexivity |]].
    - apply (splits_app dark edge [pun "{"; wsp] (lit "{ ")).
      + apply (splits_app any dark [pun "{"] (lit "{") [wsp] [32%N]); [| exact (fun _ _ => I) | apply splits_space].
        apply splits_pun; [simpl; tauto | discriminate].
      + intros rest _. apply visible_dark. now apply visible_app.
      + eapply splits_app; [exact P | intros rest _; simpl; tauto |].
        apply (splits_app dark edge [wsp] [32%N] [pun "}"] [125%N]); [apply splits_space | intros rest _; reflexivity |].
        apply (splits_weaken any); [exact (fun _ _ => I) |]. apply splits_pun; [simpl; tauto | discriminate].
    - exists false. cbn [app calm fst is_symbol_like pun wsp andb]. rewrite calm_app, Q.
      cbn [calm fst is_symbol_like pun wsp]. now rewrite andb_false_r.
  Qed.

  Lemma parts_key k : In k keywords -> parts [(TkKeyword, k)] k.
  Proof.
    intros I. split; [now apply splits_key |]. split; [| eexists; reflexivity].
    simpl in I. decompose [or] I; try contradiction; subst k; reflexivity.
  Qed.

  Lemma operators_visible x : operator x -> visible x.
  Proof.
    intros O. unfold operator, operators in O. cbn [map In] in O.
    decompose [or] O; try contradiction; subst x; reflexivity.
  Qed.

  Lemma symbol_visible c : is_symbol_char c = true -> is_ascii_ws c = false.
  Proof.
    intros S. unfold is_ascii_ws.
    destruct (N.eqb_spec c 32) as [->|]; [discriminate S |]. destruct (N.eqb_spec c 9) as [->|]; [discriminate S |].
    destruct (N.eqb_spec c 10) as [->|]; [discriminate S |]. destruct (N.eqb_spec c 12) as [->|]; [discriminate S |].
    destruct (N.eqb_spec c 13) as [->|]; [discriminate S |]. reflexivity.
  Qed.

  Lemma symbolic_visible x : symbolic x -> x <> [] -> visible x.
  Proof. intros [|c r C F] NE; [congruence |]. now apply symbol_visible. Qed.

  Lemma parts_name x : identifier x \/ operator x -> parts [name_word x] x.
  Proof.
    intros X. split; [now apply splits_name |]. split; [| eexists; reflexivity].
    destruct X as [I|O]; [| now apply operators_visible].
    apply identifier_name in I. apply symbolic_visible; apply I.
  Qed.

  Lemma parts_pun1 k : In k [lit "->"; lit "~>"; lit "="] -> parts [(TkPunctuation, k)] k.
  Proof.
    intros I. split; [| split; [| eexists; reflexivity]].
    - apply splits_one; [intros ->; simpl in I; intuition discriminate |]. intros rest E.
      simpl in I. destruct I as [<-|[<-|[<-|[]]]].
      + apply lex_arrow; [simpl; tauto | now apply edge_plain].
      + apply lex_arrow; [simpl; tauto | now apply edge_plain].
      + apply lex_punct; [simpl; tauto |]. intros _. destruct rest as [|c r]; [discriminate |]. simpl in E.
        cbn [hd]. intros ->. intuition discriminate.
    - simpl in I. destruct I as [<-|[<-|[<-|[]]]]; reflexivity.
  Qed.

  Lemma parts_integer z : parts [(TkIntegerLiteral, z_str z)] (z_str z).
  Proof.
    assert (N : numeral (z_str z)).
    { unfold z_str. destruct (z <? 0)%Z.
      - destruct (n_str_numeral (Z.to_N (- z))) as (D & NE & X). now apply (numeral_minus true).
      - destruct (n_str_numeral (Z.to_N z)) as (D & NE & X). now apply (numeral_minus false). }
    destruct (numeral_symbolic _ N) as (S & NE & _).
    split; [| split; [now apply symbolic_visible | eexists; reflexivity]].
    apply splits_one; [exact NE |]. intros rest E. apply lex_numeral; [exact N | now apply edge_plain].
  Qed.

  Lemma parts_float f : FloatSpec.finite f -> ~ FloatSpec.whole (FloatSpec.value f) ->
    h_float H f = FloatFmt.f64_display f ->
    parts [(TkFloatLiteral, h_float H f)] (h_float H f).
  Proof.
    intros F W ->. destruct (P_FloatFmt.fraction_read f F W) as (neg & a & b & E & (A1 & A2 & A3 & B1 & B2) & _).
    rewrite E. change (lit "." ++ b) with ((46%N : chr) :: b).
    split; [| split; [| eexists; reflexivity]].
    - apply splits_one; [destruct neg, a; discriminate |]. intros rest X. apply P_Float.lex_float; auto. now apply edge_plain.
    - destruct (numeral_symbolic _ (numeral_minus neg a A1 A2 A3)) as (Y & NE & _).
      pose proof (symbolic_visible _ Y NE) as V. destruct neg; [reflexivity |]. destruct a as [|c a]; [congruence |]. exact V.
  Qed.

  Lemma parts_string s : Forall (writable H) s -> parts [(TkStringLiteral, debug_str H s)] (debug_str H s).
  Proof.
    intros W. split; [| split; [reflexivity | eexists; reflexivity]].
    apply splits_one; [discriminate |]. intros rest _. unfold debug_str. eapply lex_string. now apply debug_body.
  Qed.

  Lemma parts_boolean (b : bool) :
    parts [(TkBooleanLiteral, if b then lit "True" else lit "False")] (if b then lit "True" else lit "False").
  Proof.
    split; [| split; [destruct b; reflexivity | eexists; reflexivity]].
    apply splits_one; [destruct b; discriminate |]. intros rest E. apply lex_bool. now apply edge_plain.
  Qed.

  Lemma parts_pair c d : In [c] puncts -> In [d] puncts -> c <> 61%N -> d <> 61%N -> is_ascii_ws c = false ->
    parts [(TkPunctuation, [c]); (TkPunctuation, [d])] [c; d].
  Proof.
    intros I J N M W. split; [| split; [exact W | eexists; reflexivity]].
    apply (splits_app any edge [_] [c] [_] [d]); [now apply splits_pun | exact (fun _ _ => Logic.I) |].
    apply (splits_weaken any); [exact (fun _ _ => Logic.I) |]. now apply splits_pun.
  Qed.

  Lemma parts_empty_block : parts (words (EDo [])) (debug H (EDo [])).
  Proof.
    split; [| split; [reflexivity | eexists; reflexivity]]. cbn [words].
    change (debug H (EDo [])) with (lit "{" ++ [32; 32]%N ++ lit "}").
    apply (splits_app any edge [pun "{"] (lit "{") [_; _] ([32; 32]%N ++ lit "}")); [| exact (fun _ _ => I) |].
    { apply splits_pun; [simpl; tauto | discriminate]. }
    apply (splits_app dark edge [_] [32; 32]%N [pun "}"] (lit "}")).
    - apply splits_one; [discriminate |]. exact lex_spaces.
    - intros rest _. reflexivity.
    - apply (splits_weaken any); [exact (fun _ _ => I) |]. apply splits_pun; [simpl; tauto | discriminate].
  Qed.

  Lemma readable_fine n : forall e, weight e <= n ->
    (operand H e -> fine e) /\ (readable H e -> fine e) /\ (conditional H e -> fine e).
  Proof.
    induction n as [|n IH]; intros e W; [exfalso; destruct e; simpl in W; lia |].
    assert (IHo : forall e', weight e' < weight e -> operand H e' -> fine e') by (intros e' L; apply IH; lia).
    assert (IHr : forall e', weight e' < weight e -> readable H e' -> fine e') by (intros e' L; apply IH; lia).
    assert (IHc : forall e', weight e' < weight e -> conditional H e' -> fine e') by (intros e' L; apply IH; lia).
    assert (ALL : forall l, list_sum (map weight l) < weight e -> Forall (readable H) l -> Forall fine l).
    { intros l L F. rewrite Forall_forall in *. intros x I. apply IHr; [| now apply F].
      pose proof (weight_in x l I). lia. }
    assert (ALLO : forall l, list_sum (map weight l) < weight e -> Forall (operand H) l -> Forall fine l).
    { intros l L F. rewrite Forall_forall in *. intros x I. apply IHo; [| now apply F].
      pose proof (weight_in x l I). lia. }
    assert (O : operand H e -> fine e).
    { intros O. destruct O as [x X|z Z|f Ff Wf Hf|b| |s S|l F| |e R|e Q|l NE F]; cbn [weight] in *.
      - apply parts_name. now left.
      - apply parts_integer.
      - now apply parts_float.
      - apply parts_boolean.
      - apply (parts_key (lit "None")). simpl. tauto.
      - now apply parts_string.
      - destruct l as [|x l]; [apply (parts_pair 91%N 93%N); simpl; (tauto || discriminate || reflexivity) |].
        apply (parts_open 91%N); [simpl; tauto | discriminate | reflexivity |].
        apply (parts_close 93%N); [simpl; tauto | simpl; tauto |].
        apply parts_join; [apply sep_comma | discriminate |]. apply ALL; [lia | exact F].
      - apply (parts_pair 123%N 125%N); simpl; (tauto || discriminate || reflexivity).
      - apply (parts_open 40%N); [simpl; tauto | discriminate | reflexivity |].
        apply (parts_close 41%N); [simpl; tauto | simpl; tauto |]. apply IHr; [lia | exact R].
      - apply (parts_open 39%N); [simpl; tauto | discriminate | reflexivity |]. apply IHo; [lia | exact Q].
      - destruct l as [|x l]; [congruence |]. apply parts_braces.
        apply parts_join; [apply sep_semi | discriminate |]. apply ALL; [lia | exact F]. }
    assert (C : conditional H e -> fine e).
    { intros C. destruct C as [c t f Oc Ot Of]. cbn [weight] in *.
      apply (parts_sep [key "if"] (lit "if") [wsp] (lit " ")); [apply parts_key; simpl; tauto | apply sep_space |].
      apply (parts_sep (words c) (debug H c) [wsp] (lit " ")); [apply IHo; [lia | exact Oc] | apply sep_space |].
      apply (parts_sep (words t) (debug H t) [wsp] (lit " ")); [apply IHo; [lia | exact Ot] | apply sep_space |].
      apply (parts_sep [key "else"] (lit "else") [wsp] (lit " ")); [apply parts_key; simpl; tauto | apply sep_space |].
      destruct Of as [Of|Of]; [apply IHo | apply IHc]; auto; lia. }
    split; [exact O |]. split; [| exact C].
    intros R. destruct R as [e Oe|o Oo|f args Hf NE F|x e X R|x e X R|x e X R|x l b X Ol F|e Ce].
    - now apply O.
    - apply parts_name. now right.
    - cbn [weight] in *.
      apply (parts_sep (words f) (debug H f) [wsp] (lit " ")).
      + destruct Hf as [Of|(o & Oo & ->)]; [apply IHo; [lia | exact Of] |]. apply parts_name. now right.
      + apply sep_space.
      + apply parts_join; [apply sep_space | exact NE |]. apply ALLO; [lia | exact F].
    - cbn [weight] in *.
      apply (parts_sep [key "let"] (lit "let") [wsp] (lit " ")); [apply parts_key; simpl; tauto | apply sep_space |].
      apply (parts_sep [name_word x] x [wsp] (lit " ")); [now apply parts_name | apply sep_space |].
      apply (parts_sep [pun "="] (lit "=") [wsp] (lit " ")); [apply parts_pun1; simpl; tauto | apply sep_space |].
      apply IHr; [lia | exact R].
    - cbn [weight] in *.
      apply (parts_sep [name_word x] x [wsp] (lit " ")); [apply parts_name; now left | apply sep_space |].
      apply (parts_sep [pun "->"] (lit "->") [wsp] (lit " ")); [apply parts_pun1; simpl; tauto | apply sep_space |].
      apply IHr; [lia | exact R].
    - cbn [weight] in *.
      apply (parts_sep [name_word x] x [wsp] (lit " ")); [apply parts_name; now left | apply sep_space |].
      apply (parts_sep [pun "~>"] (lit "~>") [wsp] (lit " ")); [apply parts_pun1; simpl; tauto | apply sep_space |].
      apply IHr; [lia | exact R].
    - cbn [weight] in *.
      apply (parts_sep [key "for"] (lit "for") [wsp] (lit " ")); [apply parts_key; simpl; tauto | apply sep_space |].
      apply (parts_sep [name_word x] x [wsp] (lit " ")); [apply parts_name; now left | apply sep_space |].
      apply (parts_sep [key "in"] (lit "in") [wsp] (lit " ")); [apply parts_key; simpl; tauto | apply sep_space |].
      apply (parts_sep (words l) (debug H l) [wsp] (lit " ")); [apply IHo; [lia | exact Ol] | apply sep_space |].
      destruct b as [|s b]; [apply parts_empty_block |]. apply parts_braces.
      apply parts_join; [apply sep_semi | discriminate |]. apply ALL; [simpl in *; lia | exact F].
    - now apply C.
  Qed.
End Words.
