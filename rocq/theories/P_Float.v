(** C99 to C101: arithmetic on floats, float literals, comparison of floats. *)

From Coq Require Import String ZArith QArith Qabs List Lia Lqa SpecFloat.
From Verif Require Import Base Syntax Host Ops ErrorFmt Text Tokenizer Parser Monad Builtins Eval EvalSpec
  LibFacts LibSpec MapFacts EvalFacts CmdFacts TextFacts TokFacts WordFacts LexFacts OpsSpec OpsFacts P_Ops P_Literal
  FloatSpec FloatFacts FloatOpSpec Init Demo.
Import ListNotations.
Open Scope Z_scope.

(** ** C99: arithmetic *)

Lemma rounded_value q f g : rounded q f -> rounded q g -> (value f == value g)%Q.
Proof.
  intros F G. destruct (rounded_unique q f g F G) as [->|Z]; [reflexivity|].
  assert (K : forall h, rounded q h -> (value h == 0)%Q).
  { intros h R. inversion R as [s A|s m e Fi L A T|s L]; subst; [reflexivity| |reflexivity].
    specialize (A (S754_zero false) I). rewrite Z in A.
    change (value (S754_zero false)) with 0%Q in A.
    setoid_replace (0 - 0)%Q with 0%Q in A by ring. change (Qabs 0) with 0%Q in A.
    setoid_replace (value (S754_finite s m e) - 0)%Q with (value (S754_finite s m e)) in A by ring.
    pose proof (Qabs_nonneg (value (S754_finite s m e))) as P.
    destruct (Qlt_le_dec (value (S754_finite s m e)) 0) as [L0|L0].
    - rewrite Qabs_neg in A by lra. lra.
    - rewrite Qabs_pos in A by lra. lra. }
  now rewrite (K f F), (K g G).
Qed.

Definition as_float (v : expr) : f64 :=
  match v with EFloat f => f | EInteger z => f64_of_int z | _ => S754_nan end.

Lemma operand_value v f : operand v f -> (value (as_float v) == value f)%Q.
Proof.
  intros O. destruct O as [f|z f R]; [reflexivity|]. cbn [as_float].
  eapply rounded_value; [apply of_int_rounded|exact R].
Qed.

Lemma operand_finite v f : operand v f -> finite f -> finite (as_float v).
Proof.
  intros O F. destruct O as [f|z f R]; [exact F|]. cbn [as_float].
  destruct (rounded_unique _ _ _ R (of_int_rounded z)) as [<-|Z]; [exact F|].
  apply (proj1 (inj_eq z 0)) in Z. subst z. exact I.
Qed.

Definition float_op (b : bid) : f64 -> f64 -> f64 :=
  match b with BAdd => f64_add | BSub => f64_sub | BMul => f64_mul | _ => f64_div end.

Lemma float_calls H b a1 a2 s v1 v2 s' :
  In b [BAdd; BSub; BMul; BDiv] -> evaluates_all H 0 [a1; a2] s (ROk [v1; v2]) s' ->
  (exists f, operand v1 f) -> (exists f, operand v2 f) -> (exists f, v1 = EFloat f) \/ (exists f, v2 = EFloat f) ->
  calls H b [a1; a2] s (ROk (EFloat (float_op b (as_float v1) (as_float v2)))) s'.
Proof.
  intros I E (f & F) (g & G) K.
  assert (V : Forall EvalSpec.value [v1; v2]).
  { constructor; [|constructor; [|constructor]]; [destruct F|destruct G]; solve [apply value_float|apply value_int]. }
  assert (N : forall z1 z2, v1 = EInteger z1 -> v2 = EInteger z2 -> False).
  { intros z1 z2 -> ->. now destruct K as [[? K]|[? K]]. }
  repeat destruct I as [<-|I]; try destruct I;
    (match goal with |- calls _ ?b _ _ _ _ =>
       pose proof (arith_operator H b _ a1 a2 [] s v1 [v2] s' eq_refl E V) as C end);
    destruct F; destruct G; try (exfalso; now eapply N); exact C.
Qed.

(** The result is the exact one, rounded to the nearest float. *)
Theorem C99_arithmetic H b op a1 a2 s v1 v2 f g s' :
  In (b, op) [(BAdd, Qplus); (BSub, Qminus); (BMul, Qmult); (BDiv, Qdiv)] ->
  evaluates_all H 0 [a1; a2] s (ROk [v1; v2]) s' ->
  operand v1 f -> operand v2 g -> (exists h, v1 = EFloat h) \/ (exists h, v2 = EFloat h) ->
  finite f -> finite g -> (b = BDiv -> ~ (value g == 0)%Q) ->
  exists r, rounded (op (value f) (value g)) r /\ calls H b [a1; a2] s (ROk (EFloat r)) s'.
Proof.
  intros I E O1 O2 K F G NZ. exists (float_op b (as_float v1) (as_float v2)).
  pose proof (operand_finite _ _ O1 F) as F'. pose proof (operand_finite _ _ O2 G) as G'.
  pose proof (operand_value _ _ O1) as E1. pose proof (operand_value _ _ O2) as E2. split.
  - repeat destruct I as [I|I]; [| | | |destruct I]; injection I as <- <-; cbn [float_op].
    + eapply rounded_eq; [|now apply add_rounded]. now rewrite E1, E2.
    + eapply rounded_eq; [|now apply sub_rounded]. now rewrite E1, E2.
    + eapply rounded_eq; [|now apply mul_rounded]. now rewrite E1, E2.
    + eapply rounded_eq; [|apply div_rounded; [assumption|assumption|]]; [now rewrite E1, E2|].
      rewrite E2. now apply NZ.
  - apply float_calls; try assumption; [|now exists f|now exists g].
    repeat destruct I as [I|I]; [| | | |destruct I]; injection I as <- <-; cbn; tauto.
Qed.

(** There is only one such float, apart from the sign of zero. *)
Theorem C99_determined q r r' : rounded q r -> rounded q r' -> r = r' \/ (q == 0)%Q.
Proof. apply rounded_unique. Qed.

(** Infinities, NaN and zero divisors. *)
Theorem C99_special H b a1 a2 s f g r s' :
  special b f g r -> In b [BAdd; BSub; BMul; BDiv] ->
  evaluates_all H 0 [a1; a2] s (ROk [EFloat f; EFloat g]) s' ->
  calls H b [a1; a2] s (ROk (EFloat r)) s'.
Proof.
  intros Sp I E. assert (R : float_op b f g = r).
  { clear E. assert (XF : forall (t : bool), xorb t false = t) by (now intros []).
    destruct Sp; cbn [negative];
      repeat match goal with
      | X : _ = _ \/ finite _ |- _ => destruct X as [-> |X]
      | X : finite ?f |- _ => is_var f; destruct f; try (now destruct X); clear X
      | X : ?f <> S754_nan |- _ => is_var f; destruct f; try (now destruct X); clear X
      | X : forall t, S754_zero ?s <> S754_zero t |- _ => now destruct (X s)
      | X : In ?b _ |- _ => is_var b; repeat destruct X as [<-|X]; try (now destruct X)
      end;
      repeat match goal with s : bool |- _ => destruct s end; try reflexivity;
      repeat match goal with f : f64 |- _ => destruct f end;
      repeat match goal with s : bool |- _ => destruct s end; reflexivity. }
  subst r. apply (float_calls H b a1 a2 s (EFloat f) (EFloat g) s'); try assumption.
  - exists f; constructor.
  - exists g; constructor.
  - left. now exists f.
Qed.

(** No other case is left. *)
Theorem C99_complete b f g :
  In b [BAdd; BSub; BMul; BDiv] ->
  (finite f \/ (exists s, f = S754_infinity s) \/ f = S754_nan) ->
  (finite g \/ (exists s, g = S754_infinity s) \/ g = S754_nan) ->
  (finite f /\ finite g /\ (b = BDiv -> ~ (value g == 0)%Q)) \/ exists r, special b f g r.
Proof.
  intros I F G.
  destruct F as [F|[[s ->]| ->]]; [| |right; eexists; constructor];
  destruct G as [G|[[t ->]| ->]]; try (right; eexists; constructor).
  - assert (D : b = BDiv \/ b <> BDiv) by (destruct b; try (now left); now right).
    destruct D as [->|D]; [|left; repeat split; try assumption; congruence].
    destruct g as [t|t| |t m e]; [|destruct G|destruct G|].
    + right. destruct f as [u|u| |u m e]; [|destruct F|destruct F|]; eexists; constructor; congruence.
    + left. repeat split; try assumption. intros _ Z.
      rewrite value_sign in Z. pose proof (pw_pos e) as P.
      assert (0 < inject_Z (Zpos m))%Q by (apply (inj_lt 0); lia). destruct t; nra.
  - right. repeat destruct I as [<-|I]; try destruct I.
    + exists (S754_infinity t). now constructor.
    + exists (S754_infinity (negb t)). now constructor.
    + destruct f as [u|u| |u m e]; [|destruct F|destruct F|].
      * exists S754_nan. constructor.
      * eexists. apply special_mul_right; congruence.
    + eexists. now apply special_div_right.
  - right. repeat destruct I as [<-|I]; try destruct I.
    + exists (S754_infinity s). constructor. now right.
    + exists (S754_infinity s). constructor. now right.
    + destruct g as [u|u| |u m e]; [|destruct G|destruct G|].
      * exists S754_nan. constructor.
      * eexists. apply special_mul_left; congruence.
    + eexists. now apply special_div_left.
  - right. assert (B : t = s \/ t = negb s) by (destruct s, t; auto).
    repeat destruct I as [<-|I]; try destruct I.
    + destruct B as [-> | ->]; [exists (S754_infinity s); constructor; now left|eexists; apply special_add_opposite].
    + destruct B as [-> | ->]; [eexists; apply special_sub_same|exists (S754_infinity s); constructor; now left].
    + eexists. apply special_mul_left; congruence.
    + eexists. apply special_div_both.
Qed.

Example C99_example :
  value_of "(0.5 + 0.25) == 0.75" = ROk (EBoolean true)
  /\ value_of "(1 + 0.5) == 1.5" = ROk (EBoolean true)
  /\ value_of "(0.1 + 0.2) == 0.3" = ROk (EBoolean false)
  /\ value_of "(0.1 + 0.2) == 0.30000000000000004" = ROk (EBoolean true)
  /\ value_of "1.0 // 0.0" = ROk (EFloat (S754_infinity false))
  /\ value_of "0.0 // 0.0" = ROk (EFloat S754_nan)
  /\ finite (f64_of_decimal false 1 1).
Proof. repeat split; try (vm_compute; reflexivity). left. vm_compute. split; [split; congruence|split; congruence]. Qed.

(** ** C100: float literals *)

(** Digits at the start of a text are taken up to the point. *)
Lemma digits_take_point d rest off : d <> [] -> digits d -> (hd 0%N d = 48%N -> d = [48%N]) ->
  exists p, (match strip_prefix_i (lit "0") (Inp off (d ++ (46%N : chr) :: rest)) with
   | TErr => if (0 <? N.of_nat (length (fst (span is_digit (d ++ (46%N : chr) :: rest)))))%N
             then split_at (N.of_nat (length (fst (span is_digit (d ++ (46%N : chr) :: rest))))) (Inp off (d ++ (46%N : chr) :: rest)) else TErr
   | r => r end) = TOk (Inp (off + utf8_len d) ((46%N : chr) :: rest)) p.
Proof.
  intros NE D Z. destruct d as [|c d]; [congruence |].
  destruct (N.eq_dec c 48) as [->|C].
  - specialize (Z eq_refl). inversion Z; subst.
    match goal with |- context [strip_prefix_i (lit "0") ?i] =>
      assert (T : strip_prefix_i (lit "0") i = TOk (Inp (off + utf8_len (lit "0")) ((46%N : chr) :: rest))
                 (Piece (lit "0") (Slice off (off + utf8_len (lit "0")))))
        by exact (tag_takes (lit "0") ((46%N : chr) :: rest) off) end.
    rewrite T. eexists; reflexivity.
  - assert (T : strip_prefix_i (lit "0") (Inp off ((c :: d) ++ (46%N : chr) :: rest)) = TErr)
      by (apply (tag_fails 48%N [] c (d ++ (46%N : chr) :: rest) off); congruence).
    rewrite T. rewrite (span_plain is_digit (c :: d) ((46%N : chr) :: rest) eq_refl), (span_symbolic is_digit (c :: d) D).
    rewrite <- (digits_len _ D), split_at_ok.
    destruct (N.ltb_spec 0 (utf8_len (c :: d))) as [_|L]; [eexists; reflexivity |].
    rewrite (digits_len _ D) in L. simpl in L. lia.
Qed.

Lemma lex_point neg d fr rest : digits d -> d <> [] -> (hd 0%N d = 48%N -> d = [48%N]) ->
  digits fr -> next_plain rest -> forall off,
  let t := minus neg (d ++ (46%N : chr) :: fr) in let range := Slice off (off + utf8_len t) in
  parse_token (Inp off (t ++ rest)) = TOk (Inp (off + utf8_len t) rest)
    (Token TkFloatLiteral t range, match fr with [] => DInvalidNumber range | _ => DValid end).
Proof.
  intros D Nd Z F NP off t range. subst range t.
  set (sign := if neg then lit "-" else []).
  assert (G : sign = [] \/ sign = lit "-") by (destruct neg; auto).
  assert (E : minus neg (d ++ (46%N : chr) :: fr) = (sign ++ d) ++ (46%N : chr) :: fr) by (destruct neg; reflexivity).
  rewrite E. clearbody sign. clear E.
  assert (SY : symbolic ((sign ++ d) ++ (46%N : chr) :: fr)).
  { apply Forall_app. split; [apply Forall_app; split|].
    - destruct G as [-> | ->]; repeat constructor.
    - now apply digits_symbolic.
    - constructor; [reflexivity|now apply digits_symbolic]. }
  assert (HD : has_digit ((sign ++ d) ++ (46%N : chr) :: fr)).
  { destruct d as [|c d]; [congruence|]. inversion D; subst. exists c. split; [|assumption].
    apply in_app_iff. left. apply in_app_iff. right. now left. }
  apply parse_token_alts; [destruct (sign ++ d); discriminate |].
  apply (talt_takes before_numbers number_literal [_; _]).
  - destruct (signed_hd sign d G Nd D) as [S1 S2].
    assert (HE : hd 0%N ((sign ++ d) ++ (46%N : chr) :: fr) = hd 0%N (sign ++ d)).
    { destruct (sign ++ d) eqn:X; [|reflexivity]. apply app_eq_nil in X. now destruct X. }
    apply digits_first; try assumption; now rewrite HE.
  - unfold number_literal. rewrite <- !app_assoc. cbn [List.app].
    assert (E1 : exists p, (match strip_prefix_i (lit "-") (Inp off (sign ++ d ++ (46%N : chr) :: fr ++ rest)) with
                  TErr => split_at 0 (Inp off (sign ++ d ++ (46%N : chr) :: fr ++ rest)) | r => r end)
                 = TOk (Inp (off + utf8_len sign) (d ++ (46%N : chr) :: fr ++ rest)) p).
    { destruct G as [-> | ->].
      - destruct D as [|c d C D]; [congruence |]. cbn [List.app].
        assert (T : strip_prefix_i (lit "-") (Inp off (c :: d ++ (46%N : chr) :: fr ++ rest)) = TErr).
        { apply (tag_fails 45%N [] c (d ++ (46%N : chr) :: fr ++ rest) off). intros <-. discriminate C. }
        rewrite T, split_zero. cbn [utf8_len]. rewrite N.add_0_r. eexists; reflexivity.
      - pose proof (tag_takes (lit "-") (d ++ (46%N : chr) :: fr ++ rest) off) as T. unfold punctuation_tag in T.
        rewrite T. eexists; reflexivity. }
    destruct E1 as [p1 E1]. rewrite E1. cbn [tbind i_rest].
    destruct (digits_take_point d (fr ++ rest) (off + utf8_len sign) Nd D Z) as [p2 E2]. rewrite E2. cbn [tbind].
    pose proof (tag_takes (lit ".") (fr ++ rest) (off + utf8_len sign + utf8_len d)) as E3.
    unfold punctuation_tag in E3. change (lit "." ++ fr ++ rest) with ((46%N : chr) :: fr ++ rest) in E3. rewrite E3.
    cbn [i_rest].
    rewrite (span_plain is_digit fr rest (next_plain_not_digit _ NP)), (span_symbolic is_digit fr F).
    rewrite <- (digits_len _ F).
    destruct fr as [|c fr].
    { cbn [utf8_len N.eqb].
      rewrite (split_until_ok _ _ (sign ++ d ++ [46%N : chr])).
      - cbn [tbind mk_token i_off p_text p_range].
        assert (O : (off + utf8_len sign + utf8_len d + utf8_len (lit ".")
                     = off + utf8_len (sign ++ d ++ [46%N : chr]))%N)
          by (rewrite !utf8_len_app; cbn [utf8_len]; change (utf8_len (lit ".")) with 1%N; change (chr_len 46%N) with 1%N; lia).
        rewrite O. reflexivity.
      - split; cbn [i_rest i_off]; [rewrite <- !app_assoc; reflexivity|].
        rewrite !utf8_len_app. cbn [utf8_len]. change (utf8_len (lit ".")) with 1%N; change (chr_len 46%N) with 1%N. lia. }
    set (fr' := c :: fr) in *. assert (Nf : fr' <> []) by discriminate.
    clearbody fr'. clear fr. rename fr' into fr.
    destruct (N.eqb_spec (utf8_len fr) 0) as [Z0|_]; [apply utf8_len_0 in Z0; contradiction|].
    rewrite split_at_ok. cbn [tbind].
    rewrite (split_until_ok _ _ (sign ++ d ++ (46%N : chr) :: fr)).
    + cbn [tbind mk_token i_off p_text p_range].
      assert (O : (off + utf8_len sign + utf8_len d + utf8_len (lit ".") + utf8_len fr
                   = off + utf8_len (sign ++ d ++ (46%N : chr) :: fr))%N)
        by (rewrite !utf8_len_app; cbn [utf8_len]; change (utf8_len (lit ".")) with 1%N; change (chr_len 46%N) with 1%N; lia).
      rewrite O. reflexivity.
    + split; cbn [i_rest i_off]; [rewrite <- !app_assoc; reflexivity|].
      rewrite !utf8_len_app. cbn [utf8_len]. change (utf8_len (lit ".")) with 1%N; change (chr_len 46%N) with 1%N. lia.
Qed.

Lemma lex_float neg d fr rest : digits d -> d <> [] -> (hd 0%N d = 48%N -> d = [48%N]) ->
  digits fr -> fr <> [] -> next_plain rest ->
  lexes TkFloatLiteral (minus neg (d ++ (46%N : chr) :: fr)) rest.
Proof.
  intros D Nd Z F Nf NP off. rewrite lex_point by assumption. destruct fr; [congruence|reflexivity].
Qed.

Lemma span_digits d r : digits d -> span is_digit (d ++ (46%N : chr) :: r) = (d, (46%N : chr) :: r).
Proof.
  intros D. induction D as [|c d C D IH]; [reflexivity|]. cbn [List.app span]. now rewrite C, IH.
Qed.

Lemma parse_f64_digits neg d fr : digits d -> d <> [] -> digits fr ->
  parse_f64 (minus neg (d ++ (46%N : chr) :: fr)) = Some (f64_of_decimal neg (decimal (d ++ fr)) (Z.of_nat (length fr))).
Proof.
  intros D Nd F.
  assert (E : (match minus neg (d ++ (46%N : chr) :: fr) with 45%N :: r => (true, r) | _ => (false, minus neg (d ++ (46%N : chr) :: fr)) end)
              = (neg, d ++ (46%N : chr) :: fr)).
  { destruct neg; [reflexivity|]. cbn [minus]. destruct D as [|c d C D]; [congruence|]. cbn [List.app].
    destruct c as [|p]; [reflexivity |]. destruct (N.eq_dec (N.pos p) 45) as [X|NE']; [rewrite X in C; discriminate |].
    repeat (destruct p as [p|p|]; try reflexivity; try congruence). }
  unfold parse_f64. rewrite E, (span_digits d fr D).
  replace (forallb is_digit fr) with true by (symmetry; apply forallb_forall; now apply Forall_forall).
  destruct (d ++ fr) eqn:X; [apply app_eq_nil in X; now destruct X|]. rewrite <- X.
  cbn [andb negb]. now rewrite digits_val_decimal.
Qed.

Lemma decimal_nonneg d : digits d -> 0 <= decimal d.
Proof.
  intros D. induction D as [|c d C D IH]; [cbn; lia|]. cbn [decimal].
  assert (48 <= c)%N by (apply andb_prop in C as [C _]; now apply N.leb_le in C).
  assert (0 < 10 ^ Z.of_nat (length d)) by (apply Z.pow_pos_nonneg; lia). nia.
Qed.

(** Digits with a point denote the float nearest to the decimal number. *)
Theorem C100_exact neg d fr : digits d -> d <> [] -> (hd 0%N d = 48%N -> d = [48%N]) ->
  digits fr -> fr <> [] ->
  exists f, parse_script (minus neg (d ++ lit "." ++ fr)) = SOk (EDo [EFloat f])
    /\ rounded (inject_Z (signed neg (decimal (d ++ fr))) / inject_Z (10 ^ Z.of_nat (length fr))) f.
Proof.
  intros D Nd Z F Nf. eexists. split.
  - apply (script_lexed _ [(TkFloatLiteral, minus neg (d ++ (46%N : chr) :: fr))]).
    + apply lexed_one; [destruct neg, d; discriminate |]. now apply lex_float.
    + reflexivity.
    + cbn [filter fst]. apply op_one. constructor. now apply parse_f64_digits.
  - eapply rounded_eq; [|apply of_decimal_rounded].
    + destruct neg; cbn [signed]; [rewrite inject_Z_opp|]; unfold Qdiv; ring.
    + apply decimal_nonneg. now apply Forall_app.
    + lia.
Qed.

(** A point without digits after it is an error, whatever follows (the second
    case are strings that crash the tokenizer, see C02). *)
Theorem C100_rejected neg d rest : digits d -> d <> [] -> (hd 0%N d = 48%N -> d = [48%N]) -> next_plain rest ->
  let t := minus neg (d ++ lit ".") in
  (exists l, parse_script (t ++ rest) = SFailure (TokenizationErrors (DInvalidNumber (Slice 0 (utf8_len t)) :: l)))
  \/ wide_escape rest.
Proof.
  intros D Nd Z NP t. pose proof (lex_point neg d [] rest D Nd Z (Forall_nil _) NP 0) as L. cbv zeta in L.
  change (minus neg (d ++ [46%N : chr])) with t in L. cbn [N.add] in L.
  assert (NE : t <> []) by (subst t; destruct neg, d; discriminate). clearbody t.
  unfold parse_script, tokenize. cbn [parse_tokens_loop]. rewrite L.
  pose proof (tokens_loop_ok (length (t ++ rest)) (Inp (utf8_len t) rest)) as K. cbn [i_rest] in K.
  assert (LT : (length rest < length (t ++ rest))%nat)
    by (rewrite app_length; destruct t; [congruence|cbn [length]; lia]).
  specialize (K LT). destruct (parse_tokens_loop _ _) as [ts ds| |]; [|right; exact K|destruct K].
  left. cbn [filter not_valid]. eexists. reflexivity.
Qed.

Definition literal_value (s : string) : option f64 :=
  match parse_script (lit s) with SOk (EDo [EFloat f]) => Some f | _ => None end.

(** One tenth is not a float; the least positive float; a number that is too
    great becomes an infinity without an error. *)
Example C100_example :
  literal_value "0.5" = Some (S754_finite false (2 ^ 52) (-53))
  /\ literal_value "-12.375" = Some (S754_finite true (99 * 2 ^ 46) (-49))
  /\ literal_value "0.1" = Some (S754_finite false 7205759403792794 (-56))
  /\ literal_value "0.000" = Some (S754_zero false)
  /\ (exists l, parse_script (lit "12. + 1") = SFailure (TokenizationErrors (DInvalidNumber (Slice 0 3) :: l))).
Proof. repeat split; try (vm_compute; reflexivity). eexists. vm_compute. reflexivity. Qed.

(** ** C101: comparison *)

Lemma compare_pos m e n k :
  finite (S754_finite false m e) -> finite (S754_finite false n k) ->
  SFcompare (S754_finite false m e) (S754_finite false n k)
  = Some (value (S754_finite false m e) ?= value (S754_finite false n k))%Q.
Proof.
  intros F G. cbn [SFcompare]. f_equal. symmetry.
  destruct (Z.compare_spec e k) as [->|L|L].
  - change (Pos.compare_cont Eq m n) with (Pos.compare m n). destruct (Pos.compare_spec m n) as [->|L|L].
    + apply (proj1 (Qeq_alt _ _)). reflexivity.
    + apply (proj1 (Qlt_alt _ _)). rewrite !value_sign. cbv iota. rewrite !Qmult_1_l.
      apply Qmult_lt_r; [apply pw_pos|]. apply (proj2 (inj_lt _ _)). lia.
    + apply (proj1 (Qgt_alt _ _)). rewrite !value_sign. cbv iota. rewrite !Qmult_1_l.
      apply Qmult_lt_r; [apply pw_pos|]. apply (proj2 (inj_lt _ _)). lia.
  - apply (proj1 (Qlt_alt _ _)). pose proof (value_lt_exp m e n k F G L). pose proof (pw_pos e). lra.
  - apply (proj1 (Qgt_alt _ _)). pose proof (value_lt_exp n k m e G F L). pose proof (pw_pos k). lra.
Qed.

Lemma compare_neg m e n k :
  SFcompare (S754_finite true m e) (S754_finite true n k)
  = match SFcompare (S754_finite false m e) (S754_finite false n k) with
    | Some c => Some (CompOpp c) | None => None end.
Proof. cbn [SFcompare]. destruct (Z.compare e k); try reflexivity. Qed.

Lemma value_neg m e : (value (S754_finite true m e) == - value (S754_finite false m e))%Q.
Proof. apply (value_opp (S754_finite false m e)). Qed.

Lemma compare_finite f g : finite f -> finite g -> SFcompare f g = Some (value f ?= value g)%Q.
Proof.
  intros F G. destruct f as [s|s| |s m e]; [|destruct F|destruct F|];
    destruct g as [t|t| |t n k]; try solve [destruct G].
  - reflexivity.
  - pose proof (value_pos n k). change (value (S754_zero s)) with 0%Q. destruct t; cbn [SFcompare]; f_equal; symmetry.
    + apply (proj1 (Qgt_alt _ _)). rewrite value_neg. lra.
    + apply (proj1 (Qlt_alt _ _)). lra.
  - pose proof (value_pos m e). change (value (S754_zero t)) with 0%Q. destruct s; cbn [SFcompare]; f_equal; symmetry.
    + apply (proj1 (Qlt_alt _ _)). rewrite value_neg. lra.
    + apply (proj1 (Qgt_alt _ _)). lra.
  - assert (F0 : finite (S754_finite false m e)) by exact F.
    assert (G0 : finite (S754_finite false n k)) by exact G.
    pose proof (value_pos m e). pose proof (value_pos n k). destruct s, t.
    + rewrite compare_neg, compare_pos by assumption. f_equal.
      rewrite value_neg, value_neg. symmetry. rewrite <- Qopp_compare || idtac.
      destruct (Qcompare_spec (value (S754_finite false m e)) (value (S754_finite false n k))) as [E|L|L]; cbn [CompOpp].
      * apply (proj1 (Qeq_alt _ _)). now rewrite E.
      * apply (proj1 (Qgt_alt _ _)). lra.
      * apply (proj1 (Qlt_alt _ _)). lra.
    + cbn [SFcompare]. f_equal. symmetry. apply (proj1 (Qlt_alt _ _)). rewrite value_neg. lra.
    + cbn [SFcompare]. f_equal. symmetry. apply (proj1 (Qgt_alt _ _)). rewrite value_neg. lra.
    + now apply compare_pos.
Qed.

Definition comparisons : list (bid * (Q -> Q -> Prop)) :=
  [(BLt, Qlt); (BLe, Qle); (BGt, fun p q => q < p)%Q; (BGe, fun p q => q <= p)%Q;
   (BEq, Qeq); (BNe, fun p q => ~ p == q)%Q].

(** Finite floats are compared as the numbers they stand for. *)
Theorem C101_finite H b R a1 a2 s f s1 g s2 :
  In (b, R) comparisons -> finite f -> finite g ->
  gives H a1 s (EFloat f) s1 -> gives H a2 s1 (EFloat g) s2 ->
  exists answer, calls H b [a1; a2] s (ROk (EBoolean answer)) s2 /\ (answer = true <-> R (value f) (value g)).
Proof.
  intros I F G E1 E2. pose proof (compare_finite f g F G) as C.
  pose proof (fun b f I => compare_answers H b f a1 a2 s _ s1 _ s2 I E1 E2) as K.
  assert (T : forall b f0, In (b, f0) [(BEq, expr_eqb); (BNe, fun a b => negb (expr_eqb a b)); (BLt, expr_lt);
             (BLe, expr_le); (BGt, expr_gt); (BGe, expr_ge)] -> forall P,
             (f0 (EFloat f) (EFloat g) = true <-> P) ->
     exists answer, calls H b [a1; a2] s (ROk (EBoolean answer)) s2 /\ (answer = true <-> P)).
  { intros b0 f0 I0 P E. eexists. split; [now apply (K b0 f0 I0)|exact E]. }
  unfold comparisons in I.
  repeat destruct I as [I|I]; [| | | | | |destruct I]; injection I as <- <-.
  - apply (T BLt expr_lt); [cbn; tauto|]. unfold expr_lt, expr_cmp. rewrite C, Qlt_alt.
    destruct (_ ?= _)%Q; split; congruence.
  - apply (T BLe expr_le); [cbn; tauto|]. unfold expr_le, expr_cmp. rewrite C, Qle_alt.
    destruct (_ ?= _)%Q; split; congruence.
  - apply (T BGt expr_gt); [cbn; tauto|]. unfold expr_gt, expr_cmp. rewrite C, Qgt_alt.
    destruct (_ ?= _)%Q; split; congruence.
  - apply (T BGe expr_ge); [cbn; tauto|]. unfold expr_ge, expr_cmp. rewrite C, Qge_alt.
    destruct (_ ?= _)%Q; split; congruence.
  - apply (T BEq expr_eqb); [cbn; tauto|]. cbn [expr_eqb]. unfold f64_eqb, SFeqb. rewrite C, Qeq_alt.
    destruct (_ ?= _)%Q; split; congruence.
  - apply (T BNe (fun a b => negb (expr_eqb a b))); [cbn; tauto|]. cbn [expr_eqb]. unfold f64_eqb, SFeqb.
    rewrite C, Qeq_alt. destruct (_ ?= _)%Q; cbn [negb]; split; congruence.
Qed.

(** The infinities are beyond all others. *)
Theorem C101_infinite H a1 a2 s f s1 g s2 t :
  gives H a1 s (EFloat f) s1 -> gives H a2 s1 (EFloat g) s2 ->
  (f = S754_infinity t /\ (finite g \/ g = S754_infinity (negb t))
   \/ (finite f \/ f = S754_infinity t) /\ g = S754_infinity (negb t)) ->
  forall b answer, In (b, answer) [(BLt, t); (BLe, t); (BGt, negb t); (BGe, negb t); (BEq, false); (BNe, true)] ->
  calls H b [a1; a2] s (ROk (EBoolean answer)) s2.
Proof.
  intros E1 E2 K b answer I.
  pose proof (fun b f I => compare_answers H b f a1 a2 s _ s1 _ s2 I E1 E2) as A.
  assert (C : SFcompare f g = Some (if t then Lt else Gt)).
  { destruct K as [[-> [G| ->]]|[[F| ->] ->]].
    - destruct g as [u|u| |u m e]; [|destruct G|destruct G|]; destruct t; reflexivity.
    - destruct t; reflexivity.
    - destruct f as [u|u| |u m e]; [|destruct F|destruct F|]; destruct t; reflexivity.
    - destruct t; reflexivity. }
  assert (T : forall b f0, In (b, f0) [(BEq, expr_eqb); (BNe, fun a b => negb (expr_eqb a b)); (BLt, expr_lt);
             (BLe, expr_le); (BGt, expr_gt); (BGe, expr_ge)] -> forall x,
             f0 (EFloat f) (EFloat g) = x -> calls H b [a1; a2] s (ROk (EBoolean x)) s2).
  { intros b0 f0 I0 x <-. now apply (A b0 f0 I0). }
  repeat destruct I as [I|I]; [| | | | | |destruct I]; injection I as <- <-.
  - apply (T BLt expr_lt); [cbn; tauto|]. unfold expr_lt, expr_cmp. rewrite C. now destruct t.
  - apply (T BLe expr_le); [cbn; tauto|]. unfold expr_le, expr_cmp. rewrite C. now destruct t.
  - apply (T BGt expr_gt); [cbn; tauto|]. unfold expr_gt, expr_cmp. rewrite C. now destruct t.
  - apply (T BGe expr_ge); [cbn; tauto|]. unfold expr_ge, expr_cmp. rewrite C. now destruct t.
  - apply (T BEq expr_eqb); [cbn; tauto|]. cbn [expr_eqb]. unfold f64_eqb, SFeqb. rewrite C. now destruct t.
  - apply (T BNe (fun a b => negb (expr_eqb a b))); [cbn; tauto|]. cbn [expr_eqb]. unfold f64_eqb, SFeqb.
    rewrite C. now destruct t.
Qed.

(** Nothing but [!=] holds of NaN, nor of an integer and a float. *)
Theorem C101_others H a1 a2 s x s1 y s2 :
  gives H a1 s x s1 -> gives H a2 s1 y s2 ->
  (x = EFloat S754_nan /\ (exists f, y = EFloat f)) \/ ((exists f, x = EFloat f) /\ y = EFloat S754_nan)
  \/ (exists z f, x = EInteger z /\ y = EFloat f) \/ (exists z f, x = EFloat f /\ y = EInteger z) ->
  forall b answer, In (b, answer) [(BLt, false); (BLe, false); (BGt, false); (BGe, false); (BEq, false); (BNe, true)] ->
  calls H b [a1; a2] s (ROk (EBoolean answer)) s2.
Proof.
  intros E1 E2 K b answer I.
  pose proof (fun b f I => compare_answers H b f a1 a2 s _ s1 _ s2 I E1 E2) as A.
  assert (C : expr_cmp x y = None /\ expr_eqb x y = false).
  { destruct K as [[-> [f ->]]|[[[f ->] ->]|[(z & f & -> & ->)|(z & f & -> & ->)]]]; split; try reflexivity;
      destruct f as [[]|[]| |[]]; reflexivity. }
  destruct C as [C1 C2].
  assert (T : forall b f0, In (b, f0) [(BEq, expr_eqb); (BNe, fun a b => negb (expr_eqb a b)); (BLt, expr_lt);
             (BLe, expr_le); (BGt, expr_gt); (BGe, expr_ge)] -> forall v,
             f0 x y = v -> calls H b [a1; a2] s (ROk (EBoolean v)) s2).
  { intros b0 f0 I0 v <-. now apply (A b0 f0 I0). }
  repeat destruct I as [I|I]; [| | | | | |destruct I]; injection I as <- <-.
  - apply (T BLt expr_lt); [cbn; tauto|]. unfold expr_lt. now rewrite C1.
  - apply (T BLe expr_le); [cbn; tauto|]. unfold expr_le. now rewrite C1.
  - apply (T BGt expr_gt); [cbn; tauto|]. unfold expr_gt. now rewrite C1.
  - apply (T BGe expr_ge); [cbn; tauto|]. unfold expr_ge. now rewrite C1.
  - apply (T BEq expr_eqb); [cbn; tauto|exact C2].
  - apply (T BNe (fun a b => negb (expr_eqb a b))); [cbn; tauto|]. now rewrite C2.
Qed.

(** So numbers of the two kinds are neither equal nor different in size. *)
Theorem C101_mixed_refuted :
  value_of "1 < 1.5" = ROk (EBoolean false) /\ value_of "1 > 1.5" = ROk (EBoolean false)
  /\ value_of "1 == 1.0" = ROk (EBoolean false) /\ value_of "1 <= 1.0" = ROk (EBoolean false)
  /\ value_of "1.0 * 1 == 1.0" = ROk (EBoolean true).
Proof. vm_compute. repeat split. Qed.

Example C101_example :
  value_of "0.1 < 0.2" = ROk (EBoolean true) /\ value_of "0.1 >= 0.2" = ROk (EBoolean false)
  /\ value_of "0.30 == 0.3" = ROk (EBoolean true)
  /\ value_of "(0.0 // 0.0) == (0.0 // 0.0)" = ROk (EBoolean false)
  /\ value_of "100.0 < (1.0 // 0.0)" = ROk (EBoolean true).
Proof. vm_compute. repeat split. Qed.

Print Assumptions C99_arithmetic.
Print Assumptions C99_special.
Print Assumptions C99_complete.
Print Assumptions C100_exact.
Print Assumptions C100_rejected.
Print Assumptions C101_finite.
Print Assumptions C101_infinite.
Print Assumptions C101_others.
