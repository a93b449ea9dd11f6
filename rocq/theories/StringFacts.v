(** String literals: what the tokenizer accepts and what it denotes. *)

From Coq Require Import String.
From Verif Require Import Base Syntax Tokenizer Parser TokFacts ParserFacts.

(** The part of a string literal between the quotes, with its meaning. *)
Inductive str_body : str -> str -> Prop :=
| body_nil : str_body [] []
| body_plain c a b : c <> 34%N -> c <> 92%N -> str_body a b -> str_body (c :: a) (c :: b)
| body_simple c x a b :
    In (c, x) [(34, 34); (92, 92); (98, 8); (102, 12); (110, 10); (114, 13); (116, 9)]%N ->
    str_body a b -> str_body (92%N :: c :: a) (x :: b)
| body_hex d a b :
    1 <= length d <= 5 -> forallb is_hexdigit d = true -> is_scalar (hex_num d) = true ->
    str_body a b ->
    str_body (92%N :: 117%N :: 123%N :: d ++ 125%N :: a) (hex_num d :: b).

(** ** Meaning *)

Lemma opt_map_map {A B C} (f : B -> C) (g : A -> B) o :
  opt_map f (opt_map g o) = opt_map (fun x => f (g x)) o.
Proof. destruct o; reflexivity. Qed.

Lemma hex_not_brace c : is_hexdigit c = true -> (c =? 125)%N = false.
Proof.
  intros E. apply N.eqb_neq. intros ->. discriminate E.
Qed.

Lemma unescape_hex d e r : forallb is_hexdigit d = true ->
  unescape_from (UHex e) (d ++ 125%N :: r)
  = match unicode_chr (e ++ d) with
    | Some x => opt_map (cons x) (unescape_from UDouble r)
    | None => None
    end.
Proof.
  revert e. induction d as [|c d IH]; intros e F.
  - rewrite app_nil_r. reflexivity.
  - simpl in F. apply andb_true_iff in F. destruct F as [F1 F2].
    cbn [app unescape_from]. change (ch "}") with 125%N. rewrite (hex_not_brace c F1), IH by exact F2.
    now rewrite <- app_assoc.
Qed.

Lemma hex_val_bound c : is_hexdigit c = true -> (hex_val c < 16)%N.
Proof.
  unfold is_hexdigit, hex_val. intros E.
  destruct (is_digit c) eqn:D.
  - unfold is_digit in D. rewrite andb_true_iff, !N.leb_le in D. lia.
  - simpl in E. rewrite orb_true_iff, !andb_true_iff, !N.leb_le in E.
    unfold is_upper. destruct (N.leb_spec 65 c), (N.leb_spec c 90); simpl; lia.
Qed.

Lemma hex_num_bound d : forall a, forallb is_hexdigit d = true ->
  (fold_left (fun a c => 16 * a + hex_val c) d a < (a + 1) * 16 ^ N.of_nat (length d))%N.
Proof.
  induction d as [|c d IH]; intros a F.
  - simpl. lia.
  - simpl in F. apply andb_true_iff in F. destruct F as [F1 F2].
    specialize (IH (16 * a + hex_val c)%N F2). cbn [fold_left length].
    rewrite Nat2N.inj_succ, N.pow_succ_r'. pose proof (hex_val_bound c F1).
    eapply N.lt_le_trans; [exact IH |].
    rewrite N.mul_assoc. apply N.mul_le_mono_r. lia.
Qed.

Lemma hex_u32_ok d : 1 <= length d <= 5 -> forallb is_hexdigit d = true -> hex_u32 d = Some (hex_num d).
Proof.
  intros L F. unfold hex_u32.
  cbv zeta. match goal with |- context [forallb is_hexdigit ?x] => assert (E : x = d) end.
  { destruct d as [|c [|c' d]]; try reflexivity.
    - destruct c as [|p]; try reflexivity. repeat (destruct p as [p|p|]; try reflexivity).
    - destruct (N.eq_dec c 43) as [->|NE]; [discriminate F |].
      destruct c as [|p]; try reflexivity.
      repeat (destruct p as [p|p|]; try reflexivity; try congruence). }
  rewrite E, F. clear E.
  assert (B : (hex_num d < 4294967296)%N).
  { eapply N.lt_le_trans; [apply (hex_num_bound d 0 F) |].
    change 4294967296%N with (1 * 16 ^ 8)%N. apply N.mul_le_mono; [lia |].
    apply N.pow_le_mono_r; lia. }
  apply N.ltb_lt in B. rewrite B. destruct d; [simpl in L; lia | reflexivity].
Qed.

Lemma unescape_body t m r : str_body t m ->
  unescape_from UDouble (t ++ r) = opt_map (app m) (unescape_from UDouble r).
Proof.
  induction 1 as [|c a b Q B S IH|c x a b I S IH|d a b L F X S IH].
  - simpl. destruct (unescape_from UDouble r); reflexivity.
  - cbn [app unescape_from]. apply N.eqb_neq in Q, B. rewrite Q, B, IH, opt_map_map. reflexivity.
  - cbn [app]. simpl in I.
    decompose [or] I; try contradiction;
      match goal with E : (_, _) = (_, _) |- _ => inversion E; subst end;
      cbn; rewrite IH, opt_map_map; reflexivity.
  - cbn [app]. rewrite <- app_assoc. cbn [app].
    change (unescape_from UDouble (92%N :: 117%N :: 123%N :: d ++ 125%N :: a ++ r))
      with (unescape_from (UHex []) (d ++ 125%N :: a ++ r)).
    rewrite unescape_hex by exact F. cbn [app]. unfold unicode_chr.
    rewrite hex_u32_ok, X by assumption. rewrite IH, opt_map_map. reflexivity.
Qed.

Lemma unescape_literal t m : str_body t m ->
  unescape (34%N :: t ++ [34%N]) = Some m /\ unescape (34%N :: t) = Some m.
Proof.
  intros S. split; unfold unescape.
  - change (unescape_from UDouble (t ++ [34%N]) = Some m).
    rewrite (unescape_body _ _ _ S). simpl. now rewrite app_nil_r.
  - change (unescape_from UDouble t = Some m).
    rewrite <- (app_nil_r t), (unescape_body _ _ _ S). simpl. now rewrite app_nil_r.
Qed.

(** ** What the tokenizer accepts *)

Lemma tag_ok p i i' x : punctuation_tag p i = TOk i' x -> step i i' p.
Proof.
  unfold punctuation_tag. destruct (strip_prefix_i_spec p i) as [(k & S & ->)|[-> _]]; [| discriminate].
  intros E. inversion E; subst. exact S.
Qed.

Lemma tags_ok {A} (f : piece -> A) ps i i' x : talt (map punctuation_tag ps) i = TOk i' x ->
  exists p, In p ps /\ step i i' p.
Proof.
  induction ps as [|p ps IH]; simpl; [discriminate |].
  destruct (punctuation_tag p i) eqn:E; intros F; try discriminate.
  - inversion F; subst. exists p. split; [now left | now apply tag_ok in E].
  - destruct (IH F) as (q & Q & S). eauto.
Qed.

Lemma hex_digits_ok2 n : forall acc i i' p,
  hex_digits n acc i = TOk i' (Some p) ->
  exists d, step i i' d /\ forallb is_hexdigit d = true /\ length d <= n
    /\ p_text p = match acc with Some a => p_text a | None => [] end ++ d
    /\ (acc = None -> 1 <= length d).
Proof.
  induction n as [|n IH]; intros acc i i' p; simpl.
  - intros E. inversion E; subst. exists []. split; [apply step_refl |]. split; [reflexivity |].
    split; [simpl; lia |]. split; [now rewrite app_nil_r | discriminate].
  - unfold parse_hex_digit. destruct (i_rest i) as [|c r] eqn:R.
    + destruct acc; intros E; inversion E; subst. exists []. split; [apply step_refl |]. split; [reflexivity |].
      split; [simpl; lia |]. split; [now rewrite app_nil_r | discriminate].
    + destruct (is_hexdigit c) eqn:X.
      * pose proof (hexdigit_ascii c X) as L. destruct i as [off s]. simpl in R. subst s.
        assert (L1 : chr_len c = 1%N) by (unfold chr_len; apply N.ltb_lt in L; now rewrite L).
        pose proof (split_at_one c r off) as SA. rewrite L1 in SA. rewrite SA.
        intros E. apply IH in E. destruct E as (d & [S1 S2] & F & LE & P & _).
        exists (c :: d). repeat split.
        -- simpl in *. now rewrite S1.
        -- cbn [utf8_len i_off] in *. rewrite L1. lia.
        -- simpl. now rewrite X.
        -- simpl. lia.
        -- rewrite P. destruct acc; simpl; [now rewrite <- app_assoc | reflexivity].
        -- simpl. lia.
      * destruct acc; intros E; inversion E; subst. exists []. split; [apply step_refl |]. split; [reflexivity |].
        split; [simpl; lia |]. split; [now rewrite app_nil_r | discriminate].
Qed.

Lemma escape_valid i i' : parse_escape i = TOk i' DValid ->
  exists t m, step i i' t /\ forall a b, str_body a b -> str_body (t ++ a) (m ++ b).
Proof.
  unfold parse_escape. destruct (punctuation_tag [92%N] i) as [j p| | |] eqn:E0; cbn [tbind]; try discriminate.
  apply tag_ok in E0.
  destruct (talt _ j) as [k q| | |] eqn:E1; try discriminate.
  - intros E. inversion E; subst. clear E.
    change (talt (map punctuation_tag [[34%N]; [92%N]; lit "b"; lit "f"; lit "n"; lit "r"; lit "t"]) j
            = TOk i' q) in E1.
    apply (tags_ok (fun x => x)) in E1. destruct E1 as (s & I & S).
    assert (X : exists c x, s = [c] /\
      In (c, x) [(34, 34); (92, 92); (98, 8); (102, 12); (110, 10); (114, 13); (116, 9)]%N).
    { simpl in I. decompose [or] I; subst; try contradiction;
        (eexists _, _; split; [reflexivity | simpl; tauto]). }
    destruct X as (c & x & -> & IN).
    exists [92%N; c], [x]. split; [apply (step_trans _ _ _ _ _ E0 S) |].
    intros a b B. apply (body_simple c x a b IN B).
  - clear E1. destruct (punctuation_tag (lit "u{") j) as [j1 p1| | |] eqn:E1; cbn [tbind]; try discriminate.
    2:{ unfold split_saturating. destruct (split_at _ i); simpl; discriminate. }
    apply tag_ok in E1.
    destruct (hex_digits 5 None j1) as [k [range|]| | |] eqn:E2; try discriminate.
    2:{ unfold split_saturating. destruct (split_at _ i); simpl; discriminate. }
    apply hex_digits_ok2 in E2. destruct E2 as (d & S & F & L & P & M). simpl in P.
    destruct (is_scalar (hex_num (p_text range))) eqn:X; [| discriminate].
    destruct (punctuation_tag (lit "}") k) as [k' p'| | |] eqn:E3; try discriminate.
    + apply tag_ok in E3. intros E. inversion E; subst k'. clear E. rewrite P in X. clear P.
      exists (92%N :: 117%N :: 123%N :: d ++ [125%N]), [hex_num d]. split.
      * apply (step_trans _ _ _ _ _ E0 (step_trans _ _ _ _ _ E1 (step_trans _ _ _ _ _ S E3))).
      * intros a b B. cbn [app]. rewrite <- app_assoc. cbn [app].
        apply body_hex; auto.
    + destruct (split_until i k); simpl; discriminate.
Qed.

Lemma string_loop_valid fuel : forall errors i i' es,
  parse_string_loop fuel errors i = TOk i' es ->
  (exists x, es = errors ++ x) /\
  (es = errors -> exists t m, step i i' t /\ str_body t m).
Proof.
  induction fuel as [|fuel IH]; intros errors i i' es; simpl; [discriminate |].
  assert (DONE : TOk i errors = TOk i' es -> (exists x, es = errors ++ x) /\
                 (es = errors -> exists t m, step i i' t /\ str_body t m)).
  { intros E. inversion E; subst. split; [exists []; now rewrite app_nil_r |].
    intros _. exists [], []. split; [apply step_refl | constructor]. }
  destruct (i_rest i) as [|c r] eqn:R; [exact DONE |].
  destruct (N.eqb_spec c 34) as [->|Q]; [exact DONE |].
  destruct (N.eqb_spec c 92) as [->|B].
  - pose proof (escape_ok i (ex_intro _ r R)) as O.
    destruct (parse_escape i) as [k d| | |] eqn:E; simpl; try discriminate.
    simpl in O. destruct O as (_ & _ & _ & [->|(y & -> & _)]).
    + intros F. apply IH in F. destruct F as [F1 F2]. split; [exact F1 |].
      intros X. destruct (F2 X) as (t & m & S & SB).
      apply escape_valid in E. destruct E as (t' & m' & S' & K).
      exists (t' ++ t), (m' ++ m). split; [eapply step_trans; eassumption | now apply K].
    + intros F. apply IH in F. destruct F as [[x ->] F2]. split.
      * exists (y :: x). now rewrite <- app_assoc.
      * intros X. exfalso. apply (f_equal (@length _)) in X. rewrite !app_length in X. simpl in X. lia.
  - destruct i as [off s]. simpl in R. subst s. rewrite split_at_one. cbn [tbind].
    intros F. apply IH in F. destruct F as [F1 F2]. split; [exact F1 |].
    intros X. destruct (F2 X) as (t & m & [S1 S2] & SB). exists (c :: t), (c :: m). split.
    + split; cbn [i_rest i_off utf8_len app] in *; [now rewrite S1 | lia].
    + now constructor.
Qed.

Lemma string_literal_valid i i' t : string_literal i = TOk i' (t, DValid) ->
  exists b m, str_body b m /\ (t_text t = 34%N :: b ++ [34%N] \/ t_text t = 34%N :: b).
Proof.
  unfold string_literal. destruct (punctuation_tag [34%N] i) as [j p| | |] eqn:E0; simpl; try discriminate.
  apply tag_ok in E0. unfold parse_string_inner.
  destruct (parse_string_loop _ [] j) as [k es| | |] eqn:E1; simpl; try discriminate.
  apply string_loop_valid in E1. destruct E1 as [_ E1].
  match goal with |- tbind ?x _ = _ -> _ => destruct x as [k' q| | |] eqn:E2 end;
    simpl; try discriminate.
  destruct (split_until i k') as [n x| | |] eqn:E3; simpl; try discriminate.
  intros E. inversion E as [[H1 H2 H3]]. destruct es; [| discriminate].
  destruct (E1 eq_refl) as (b & m & S & SB). exists b, m. split; [exact SB |].
  pose proof (step_trans _ _ _ _ _ E0 S) as S0.
  assert (T : step k k' [34%N] \/ step k k' []).
  { destruct (punctuation_tag [34%N] k) as [k2 q2| | |] eqn:E4; simpl in E2; try discriminate.
    - inversion E2; subst. left. now apply tag_ok in E4.
    - destruct (i_rest k) eqn:R; [| discriminate]. inversion E2; subst. right. apply step_refl. }
  destruct T as [T|T]; pose proof (step_trans _ _ _ _ _ S0 T) as ST;
    rewrite (split_until_ok _ _ _ ST) in E3; inversion E3; subst; simpl.
  - left. reflexivity.
  - right. now rewrite app_nil_r.
Qed.

Lemma valid_token_kind p k i i' t d : map_valid_token p k i = TOk i' (t, d) -> t_kind t = k.
Proof.
  unfold map_valid_token. destruct (p i); simpl; try discriminate. intros E. inversion E. reflexivity.
Qed.

Lemma number_kind i i' t d : number_literal i = TOk i' (t, d) ->
  t_kind t = TkIntegerLiteral \/ t_kind t = TkFloatLiteral.
Proof.
  unfold number_literal.
  repeat match goal with
  | |- tbind ?x _ = _ -> _ => destruct x; simpl tbind; try discriminate
  | |- match ?x with _ => _ end = _ -> _ => destruct x; try discriminate
  | |- (if ?x then _ else _) = _ -> _ => destruct x; try discriminate
  | |- TOk _ _ = _ -> _ => intros E; inversion E; subst; simpl; auto
  end.
Qed.

Lemma parse_token_string i i' t : parse_token i = TOk i' (t, DValid) ->
  t_kind t = TkStringLiteral -> string_literal i = TOk i' (t, DValid).
Proof.
  intros E K. unfold parse_token in E. destruct (i_rest i); [discriminate |].
  { cbn [talt] in E.
    repeat match type of E with
    | match match map_valid_token ?p ?k i with _ => _ end with _ => _ end = _ =>
        destruct (map_valid_token p k i) as [? []| | |] eqn:M;
        [ exfalso; inversion E; subst; apply valid_token_kind in M; congruence
        | clear M | discriminate | discriminate ]
    | match match string_literal i with _ => _ end with _ => _ end = _ =>
        destruct (string_literal i) as [? []| | |] eqn:M;
        [ congruence | clear M | discriminate | discriminate ]
    | match match number_literal i with _ => _ end with _ => _ end = _ =>
        destruct (number_literal i) as [? []| | |] eqn:M;
        [ exfalso; inversion E; subst; apply number_kind in M; destruct M; congruence
        | clear M | discriminate | discriminate ]
    end.
    destruct (split_at _ i); simpl in E; try discriminate. }
Qed.

Lemma parse_token_decodable i i' t d : parse_token i = TOk i' (t, d) -> d = DValid -> decodable t.
Proof.
  intros E -> K. pose proof (parse_token_string _ _ _ E K) as X.
  apply string_literal_valid in X. destruct X as (b & m & SB & [-> | ->]);
    destruct (unescape_literal _ _ SB) as [U1 U2]; congruence.
Qed.

Lemma tokens_loop_decodable fuel : forall i ts ds, parse_tokens_loop fuel i = TokOk ts ds ->
  filter not_valid ds = [] -> Forall decodable ts.
Proof.
  induction fuel as [|fuel IH]; intros i ts ds; simpl; [discriminate |].
  destruct (parse_token i) as [i' [t d]| | |] eqn:E; try discriminate.
  - destruct (parse_tokens_loop fuel i') as [ts' ds'| |] eqn:F; try discriminate.
    intros X. inversion X; subst. simpl. destruct d; simpl; try discriminate.
    intros V. constructor; [now apply (parse_token_decodable i i' t DValid E) | eauto].
  - intros X. inversion X; subst. constructor.
Qed.
