(** Properties of literals: C11 and C12. *)

From Coq Require Import String Decimal DecimalFacts DecimalPos DecimalN.
From Verif Require Import Base Syntax Tokenizer Parser TokFacts StringFacts WordFacts LexFacts
  LimFacts ForwardFacts PrecFacts P_Parse.

(** A text of known tokens that form an operator expression. *)
Lemma script_lexed s ws e : lexed ws s ->
  adjacent_error (map (fun w => Token (fst w) (snd w) (Slice 0 0)) ws) = None ->
  op_expr 6 (filter (fun w => match fst w with TkWhitespace | TkComment => false | _ => true end) ws) e ->
  parse_script s = SOk (EDo [e]).
Proof.
  intros L A D. destruct (lexed_tokenize ws s L) as (ts & T & M).
  unfold parse_script. rewrite T.
  assert (V : filter not_valid (map (fun _ => DValid) ts) = []) by (clear; induction ts; auto).
  rewrite V.
  assert (AE : adjacent_error ts = None).
  { rewrite <- M in A. clear - A. induction ts as [|t ts IH]; [reflexivity |].
    destruct ts as [|u ts]; [reflexivity |]. cbn [map adjacent_error t_kind t_text fst snd] in *.
    destruct (_ && _); [discriminate | exact (IH A)]. }
  rewrite AE.
  assert (F : Forall fair ts).
  { eapply fair_tokens; [exact T |]. clear. induction ts; constructor; auto. }
  assert (P : lim (utf8_len s) NScript (filter significant ts) = POk [] (EDo [e])).
  { apply (prec_script _ _ e _ D).
    - rewrite <- M. clear. induction ts as [|t ts IH]; [reflexivity |]. cbn [filter map fst].
      unfold significant at 1. destruct (t_kind t) eqn:K; cbn [map]; rewrite ?IH; try reflexivity; unfold word_of at 1; now rewrite K.
    - apply Forall_forall. intros t I. apply filter_In in I as [I _]. rewrite Forall_forall in F. now apply F. }
  unfold lim in P. unfold parse_fuel. rewrite P. reflexivity.
Qed.

(** ** C12 *)

(** The text with a backslash in front of each quote and backslash. *)
Fixpoint escaped (s : str) : str :=
  match s with
  | [] => []
  | c :: r => (if (c =? 34) || (c =? 92) then [92; c] else [c])%N ++ escaped r
  end.

Lemma escaped_body s : str_body (escaped s) s.
Proof.
  induction s as [|c s IH]; [constructor |]. cbn [escaped].
  destruct (N.eqb_spec c 34) as [->|Q]; [| destruct (N.eqb_spec c 92) as [->|B]]; cbn [orb app].
  - apply (body_simple 34%N 34%N); [simpl; auto | exact IH].
  - apply (body_simple 92%N 92%N); [simpl; auto | exact IH].
  - now apply body_plain.
Qed.

Lemma op_one w e : value w e -> op_expr 6 [w] e.
Proof. intros V. do 5 (apply op_tighter; [| lia]). now constructor. Qed.

Theorem C12_string_literal s :
  parse_script ([34%N] ++ escaped s ++ [34%N]) = SOk (EDo [EString s]).
Proof.
  pose proof (escaped_body s) as B.
  apply (script_lexed _ [(TkStringLiteral, 34%N :: escaped s ++ [34%N])]).
  - apply lexed_one; [discriminate |]. eapply lex_string. exact B.
  - reflexivity.
  - cbn [filter fst]. apply op_one. constructor. now apply (unescape_literal _ s B).
Qed.

Example C12_example :
  escaped [97; 34; 92; 228; 10]%N = [97; 92; 34; 92; 92; 228; 10]%N
  /\ parse_script [34; 97; 92; 34; 92; 92; 228; 10; 34]%N
     = SOk (EDo [EString [97; 34; 92; 228; 10]%N]).
Proof. split; vm_compute; reflexivity. Qed.

(** ** C11 *)

(** Value of a digit sequence: the sum of digit times power of ten. *)
Fixpoint decimal (d : str) : Z :=
  match d with
  | [] => 0
  | c :: r => (Z.of_N c - 48) * 10 ^ Z.of_nat (length r) + decimal r
  end%Z.

Lemma digits_val_from d : forall a,
  fold_left (fun acc c => (10 * acc + (Z.of_N c - 48))%Z) d a = (a * 10 ^ Z.of_nat (length d) + decimal d)%Z.
Proof.
  induction d as [|c d IH]; intros a; [simpl; lia |]. cbn [fold_left decimal length]. rewrite IH.
  rewrite Nat2Z.inj_succ, Z.pow_succ_r by lia. unfold chr. ring.
Qed.

Lemma digits_val_decimal d : digits_val d = decimal d.
Proof. unfold digits_val. rewrite digits_val_from. lia. Qed.

Definition minus (neg : bool) (d : str) : str := if neg then 45%N :: d else d.
Definition signed (neg : bool) (z : Z) : Z := if neg then (- z)%Z else z.

Lemma parse_i64_digits neg d : digits d -> d <> [] ->
  parse_i64 (minus neg d)
  = if in_i64 (signed neg (decimal d)) then Some (signed neg (decimal d)) else None.
Proof.
  intros D NE. unfold parse_i64, minus, signed. destruct neg.
  - now rewrite digits_val_decimal.
  - destruct D as [|c d C D]; [congruence |]. rewrite <- digits_val_decimal.
    destruct c as [|p]; [reflexivity |]. destruct (N.eq_dec (N.pos p) 45) as [E|NE']; [rewrite E in C; discriminate |].
    repeat (destruct p as [p|p|]; try reflexivity; try congruence).
Qed.

Lemma numeral_minus neg d : digits d -> d <> [] -> (hd 0%N d = 48%N -> d = [48%N]) -> numeral (minus neg d).
Proof.
  intros D NE Z. exists (if neg then lit "-" else []), d. destruct neg; auto 6.
Qed.

(** A literal without leading zeros. *)
Theorem C11_exact neg d : digits d -> d <> [] -> (hd 0%N d = 48%N -> d = [48%N]) ->
  let z := signed neg (decimal d) in
  (i64_min <= z <= i64_max)%Z -> parse_script (minus neg d) = SOk (EDo [EInteger z]).
Proof.
  intros D NE Z z R. apply (script_lexed _ [(TkIntegerLiteral, minus neg d)]).
  - apply lexed_one; [destruct neg; [discriminate | exact NE] |].
    apply lex_numeral; [now apply numeral_minus | exact I].
  - reflexivity.
  - cbn [filter fst]. apply op_one. constructor. rewrite parse_i64_digits by assumption.
    fold z. unfold in_i64. destruct (Z.leb_spec i64_min z), (Z.leb_spec z i64_max); try lia. reflexivity.
Qed.

(** The parser on an integer literal outside the range. *)
Lemma overflow_fails slen t : t_kind t = TkIntegerLiteral -> fair t -> parse_i64 (t_text t) = None ->
  exists x, lim slen NScript [t] = PFail x.
Proof.
  intros K F P.
  assert (R : ~ In (t_text t) reserved) by (apply F; now rewrite K).
  assert (T : forall s, In s reserved -> hd_not [s] [t]) by (intros s I [E|[]]; subst s; contradiction).
  assert (PL : plain_hd [t]).
  { simpl. unfold plain. rewrite K. split; [discriminate |]. split; [| discriminate].
    intros I. apply R. now apply (listed_incl heads reserved); [vm_compute; reflexivity |]. }
  assert (N1 : exists x, lim slen NP1 [t] = PFail x).
  { eexists. rewrite lim_eq. cbn [body].
    apply (alt_fail [lim slen NGroup; lim slen NQuote; lim slen NMap; lim slen NBlock; lim slen NList;
      pmap EBoolean parse_boolean; pmap (fun _ => ENone) (parse_none slen); pmap EFloat parse_float]
      (pmap EInteger parse_integer)).
    - repeat apply Forall_cons; try apply Forall_nil.
      + apply group_no, T. unfold reserved. simpl. tauto.
      + apply quote_no, T. unfold reserved. simpl. tauto.
      + apply map_no, T. unfold reserved. simpl. tauto.
      + apply block_no, T. unfold reserved. simpl. tauto.
      + apply list_no, T. unfold reserved. simpl. tauto.
      + apply bool_refuses. congruence.
      + now apply none_refuses.
      + apply lit_refuses. congruence.
    - unfold pmap, parse_integer. rewrite kind_yes by exact K. cbn [pbind]. rewrite P. reflexivity. }
  destruct N1 as [x N1].
  assert (N2 : lim slen NP2 [t] = PFail x).
  { rewrite lim_eq. cbn [body]. rewrite noterm_plain by exact PL. cbn [pbind]. now rewrite N1. }
  assert (N7 : lim slen NP7 [t] = PFail x).
  { rewrite lim_eq. cbn [body]. rewrite noterm_plain by exact PL. cbn [pbind].
    apply (alt_fail (map (lim slen) [NFor; NIf; NAssign; NCallable]) (lim slen NApply) (map (lim slen) [NApplyOp; NP6])).
    - cbn [map]. repeat apply Forall_cons; try apply Forall_nil.
      + apply for_no, plain_not; [simpl; tauto | exact PL].
      + apply if_no, plain_not; [simpl; tauto | exact PL].
      + apply assign_no, plain_not; [simpl; tauto | exact PL].
      + apply callable_no. congruence.
    - rewrite lim_eq. cbn [body alt]. now rewrite N2. }
  assert (NE : lim slen NExpr [t] = PFail x).
  { rewrite lim_eq. cbn [body]. rewrite noterm_plain by exact PL. cbn [pbind]. unfold infix. now rewrite N7. }
  exists x. rewrite lim_eq. cbn [body]. unfold many0. cbn [many0_loop length].
  assert (NS : lim slen NStatement [t] = PFail x) by (rewrite lim_eq; cbn [body]; now rewrite NE).
  now rewrite NS.
Qed.

Theorem C11_rejected neg d : digits d -> d <> [] -> (hd 0%N d = 48%N -> d = [48%N]) ->
  let z := signed neg (decimal d) in
  ~ (i64_min <= z <= i64_max)%Z -> exists x, parse_script (minus neg d) = SFailure x.
Proof.
  intros D NE Z z R.
  assert (L : lexed [(TkIntegerLiteral, minus neg d)] (minus neg d)).
  { apply lexed_one; [destruct neg; [discriminate | exact NE] |].
    apply lex_numeral; [now apply numeral_minus | exact I]. }
  destruct (lexed_tokenize _ _ L) as (ts & T & M). unfold parse_script. rewrite T.
  destruct ts as [|t [|u ts]]; try discriminate. injection M as K X.
  cbn [map filter not_valid adjacent_error]. unfold significant. rewrite K. unfold parse_fuel.
  destruct (overflow_fails (utf8_len (minus neg d)) t K) as [x E].
  - assert (F : Forall fair [t]) by (eapply fair_tokens; [exact T | constructor; [reflexivity | constructor]]).
    now inversion F.
  - rewrite X, parse_i64_digits by assumption. fold z. unfold in_i64.
    destruct (Z.leb_spec i64_min z), (Z.leb_spec z i64_max); try lia; reflexivity.
  - unfold lim in E. rewrite E. eauto.
Qed.

(** Literals with superfluous zeros are rejected, too. *)
Lemma zero_token (d : str) off sign : digits d -> d <> [] -> sign = [] \/ sign = lit "-" ->
  exists i' t, parse_token (Inp off (sign ++ 48%N :: d)) = TOk i' (t, DValid)
    /\ t_kind t = TkIntegerLiteral /\ t_text t = sign ++ [48%N] /\ i_rest i' = d.
Proof.
  intros D NE G.
  assert (D' : digits (48%N :: d)) by (constructor; [reflexivity | exact D]).
  assert (S : symbolic (sign ++ 48%N :: d)).
  { apply Forall_app. split; [| now apply digits_symbolic].
    destruct G as [-> | ->]; [constructor | constructor; [reflexivity | constructor]]. }
  assert (E1 : exists p, (match strip_prefix_i (lit "-") (Inp off (sign ++ 48%N :: d)) with
                TErr => split_at 0 (Inp off (sign ++ 48%N :: d)) | r => r end)
               = TOk (Inp (off + utf8_len sign) (48%N :: d)) p).
  { destruct G as [-> | ->].
    - cbn [app]. change (strip_prefix_i (lit "-") (Inp off (48%N :: d))) with (TErr (A := piece)).
      cbv iota. rewrite split_zero. cbn [utf8_len]. rewrite N.add_0_r. eexists; reflexivity.
    - crw (tag_takes (lit "-") (48%N :: d) off : strip_prefix_i _ _ = _). eexists; reflexivity. }
  destruct E1 as [p1 E1].
  set (i' := Inp (off + utf8_len sign + utf8_len (lit "0")) d).
  assert (E2 : number_literal (Inp off (sign ++ 48%N :: d))
    = TOk i' (Token TkIntegerLiteral (sign ++ [48%N]) (Slice off (i_off i')), DValid)).
  { unfold number_literal. rewrite E1. cbn [tbind i_rest].
    crw (tag_takes (lit "0") d (off + utf8_len sign) : strip_prefix_i _ _ = _). cbn [tbind].
    assert (E3 : strip_prefix_i (lit ".") (Inp (off + utf8_len sign + utf8_len (lit "0")) d) = TErr).
    { destruct D as [|c d C D]; [congruence |].
      apply (tag_fails 46%N [] c d). intros <-. discriminate C. }
    rewrite E3. fold i'.
    rewrite (split_until_ok _ _ (sign ++ [48%N])); [reflexivity |].
    split; cbn [i_rest i_off i']; [now rewrite <- app_assoc |]. rewrite utf8_len_app.
    change (utf8_len (lit "0")) with (utf8_len [48%N]). unfold i'. cbn [i_off]. change (lit "0") with [48%N]. lia. }
  exists i', (Token TkIntegerLiteral (sign ++ [48%N]) (Slice off (i_off i'))).
  split; [| split; [reflexivity | split; reflexivity]].
  rewrite <- (app_nil_r (sign ++ 48%N :: d)). apply parse_token_alts.
  { intros E. apply app_eq_nil in E. now destruct E. }
  rewrite app_nil_r. apply (talt_takes before_numbers number_literal [_; _]); [| exact E2].
  destruct (signed_hd sign (48%N :: d) G ltac:(discriminate) D') as [H1 H2].
  rewrite <- (app_nil_r (sign ++ 48%N :: d)). apply digits_first; auto; [exact I |].
  exists 48%N. split; [apply in_app_iff; right; now left | reflexivity].
Qed.

Theorem C11_leading_zeros neg d : digits d -> d <> [] ->
  exists x, parse_script (minus neg (48%N :: d)) = SFailure x.
Proof.
  intros D NE. set (s := minus neg (48%N :: d)).
  set (sign := if neg then lit "-" else []).
  assert (ES : s = sign ++ 48%N :: d) by (unfold s, sign; destruct neg; reflexivity).
  assert (G : sign = [] \/ sign = lit "-") by (unfold sign; destruct neg; auto).
  (* the tokenizer finishes without panic *)
  pose proof (tokenize_ok s) as OK.
  assert (NB : ~ In 92%N s).
  { rewrite ES. intros I. apply in_app_iff in I as [I|[I|I]]; [| discriminate |].
    - destruct G as [E|E]; rewrite E in I; [destruct I | destruct I as [I|[]]; discriminate].
    - unfold digits in D. rewrite Forall_forall in D. specialize (D _ I). discriminate. }
  destruct (tokenize s) as [ts ds| |] eqn:T; [| | contradiction].
  2:{ exfalso. destruct OK as (a & c & b & E & _). apply NB. rewrite E. apply in_app_iff. right. now left. }
  unfold parse_script. rewrite T.
  destruct (filter not_valid ds) eqn:V; [| eauto].
  (* the first two tokens are integer literals *)
  assert (A : adjacent_error ts <> None).
  { unfold tokenize in T. cbn [parse_tokens_loop] in T.
    destruct (zero_token d 0 sign D NE G) as (i1 & t1 & P1 & K1 & X1 & R1).
    rewrite ES in T. rewrite P1 in T.
    destruct (length (sign ++ 48%N :: d)) as [|n] eqn:L; [rewrite app_length in L; simpl in L; lia |].
    cbn [parse_tokens_loop] in T.
    assert (P2 : exists i2 t2, parse_token i1 = TOk i2 (t2, DValid) /\ t_kind t2 = TkIntegerLiteral
                   /\ has_digit (t_text t2)).
    { destruct i1 as [off1 r1]. cbn [i_rest] in R1. subst r1.
      destruct (Bool.bool_dec (match d with c :: _ :: _ => (c =? 48)%N | _ => false end) true) as [Z|Z].
      - destruct d as [|c [|e d]]; try discriminate. apply N.eqb_eq in Z. subst c.
        destruct (zero_token (e :: d) off1 [] ltac:(now inversion D) ltac:(discriminate) (or_introl eq_refl))
          as (i2 & t2 & P2 & K2 & X2 & _).
        exists i2, t2. split; [exact P2 |]. split; [exact K2 |]. rewrite X2. exists 48%N. split; [now left | reflexivity].
      - assert (NM : numeral d).
        { exists [], d. split; [reflexivity |]. split; [now left |]. split; [exact NE |]. split; [exact D |].
          destruct d as [|c [|e d]]; [congruence | |]; cbn [hd]; intros ->; [reflexivity | now destruct Z]. }
        pose proof (lex_numeral d [] NM I off1) as P. rewrite app_nil_r in P.
        eexists _, _. split; [exact P |]. split; [reflexivity |]. now apply numeral_symbolic. }
    destruct P2 as (i2 & t2 & P2 & K2 & X2). rewrite P2 in T.
    destruct (parse_tokens_loop n i2) as [ts' ds'| |]; try discriminate.
    injection T as <- <-. cbn [adjacent_error]. rewrite K1, K2. cbn [is_symbol_like andb].
    rewrite (proj2 (MapFacts.str_eqb_neq _ _)), (proj2 (MapFacts.str_eqb_neq _ _)); [discriminate | |].
    - intros E. rewrite E in X2. destruct X2 as (c & [<-|[]] & C). discriminate.
    - rewrite X1. destruct G as [E|E]; rewrite E; discriminate. }
  destruct (adjacent_error ts); [eauto | congruence].
Qed.

(** Printing an integer and reading it back. *)
Lemma uint_digits u : digits (uint_str u).
Proof. induction u; simpl; constructor; (reflexivity || assumption). Qed.

Lemma uint_value_acc u : forall p,
  fold_left (fun acc c => (10 * acc + (Z.of_N c - 48))%Z) (uint_str u) (Z.pos p)
  = Z.pos (Pos.of_uint_acc u p).
Proof.
  induction u; intros p; cbn [uint_str fold_left Pos.of_uint_acc]; [reflexivity | ..];
    rewrite <- IHu; f_equal; lia.
Qed.

Lemma uint_value u : digits_val (uint_str u) = Z.of_N (Pos.of_uint u).
Proof.
  unfold digits_val. induction u; cbn [uint_str fold_left Pos.of_uint]; [reflexivity | exact IHu | ..];
    apply (uint_value_acc u).
Qed.

Lemma n_str_value n : decimal (n_str n) = Z.of_N n.
Proof.
  rewrite <- digits_val_decimal. unfold n_str. rewrite uint_value.
  change (Pos.of_uint (N.to_uint n)) with (N.of_uint (N.to_uint n)). now rewrite DecimalN.Unsigned.of_to.
Qed.

Lemma n_str_numeral n :
  digits (n_str n) /\ n_str n <> [] /\ (hd 0%N (n_str n) = 48%N -> n_str n = [48%N]).
Proof.
  split; [apply uint_digits |]. unfold n_str.
  assert (U : N.to_uint n = unorm (N.to_uint n)).
  { rewrite <- DecimalN.Unsigned.to_of. now rewrite DecimalN.Unsigned.of_to. }
  rewrite U. unfold unorm. pose proof (nzhead_nonzero (N.to_uint n)) as Z.
  destruct (nzhead (N.to_uint n)) eqn:E; try (split; discriminate).
  - split; [discriminate | reflexivity].
  - exfalso. now apply (Z u).
Qed.

Theorem C11_reads_back z : (i64_min <= z <= i64_max)%Z -> parse_script (z_str z) = SOk (EDo [EInteger z]).
Proof.
  intros R. unfold z_str. destruct (Z.ltb_spec z 0) as [L|L].
  - destruct (n_str_numeral (Z.to_N (- z))) as (D & NE & H).
    assert (E : signed true (decimal (n_str (Z.to_N (- z)))) = z).
    { unfold signed. rewrite n_str_value, Z2N.id; lia. }
    rewrite <- E at 2. apply (C11_exact true); auto. now rewrite E.
  - destruct (n_str_numeral (Z.to_N z)) as (D & NE & H).
    assert (E : signed false (decimal (n_str (Z.to_N z))) = z).
    { unfold signed. rewrite n_str_value, Z2N.id; lia. }
    rewrite <- E at 2. apply (C11_exact false); auto. now rewrite E.
Qed.

Example C11_example :
  parse_script (lit "-9223372036854775808") = SOk (EDo [EInteger i64_min])
  /\ decimal (lit "9223372036854775808") = (i64_max + 1)%Z
  /\ (exists x, parse_script (lit "9223372036854775808") = SFailure x)
  /\ (exists x, parse_script (lit "-007") = SFailure x)
  /\ z_str i64_min = lit "-9223372036854775808".
Proof.
  split; [| split; [| split; [| split]]]; try (vm_compute; reflexivity).
  - eexists; vm_compute; reflexivity.
  - eexists; vm_compute; reflexivity.
Qed.

Print Assumptions C11_exact.
Print Assumptions C11_rejected.
Print Assumptions C11_leading_zeros.
Print Assumptions C11_reads_back.
Print Assumptions C12_string_literal.
