(** Printing and reading back. *)

From Coq Require Import String.
From Verif Require Import Base Syntax Tokenizer Parser TokFacts MapFacts StringFacts WordFacts ParserFacts
  LexFacts LimFacts ForwardFacts PrecFacts Host RoundSpec P_Parse P_Literal RoundLex RoundParse.

(** A text of known tokens. *)
Lemma script_tokens s ws e : lexed ws s -> calm false ws <> None ->
  (forall slen i, map word_of i = filter sigw ws -> Forall fair i -> lim slen NScript i = POk [] e) ->
  parse_script s = SOk e.
Proof.
  intros L A D. apply calm_adjacent in A. destruct (lexed_tokenize ws s L) as (ts & T & M).
  unfold parse_script. rewrite T.
  assert (V : filter not_valid (map (fun _ => DValid) ts) = []) by (clear; induction ts; auto).
  rewrite V.
  assert (AE : adjacent_error ts = None).
  { rewrite <- M in A. clear - A. induction ts as [|t ts IH]; [reflexivity |].
    destruct ts as [|u ts]; [reflexivity |]. cbn [map adjacent_error t_kind t_text fst snd] in *.
    destruct (_ && _); [discriminate | exact (IH A)]. }
  rewrite AE.
  assert (F : Forall fair ts).
  { eapply fair_tokens; [exact T |]. clear. induction ts; constructor; auto. }
  assert (P : lim (utf8_len s) NScript (filter significant ts) = POk [] e).
  { apply D.
    - rewrite <- M. clear. induction ts as [|t ts IH]; [reflexivity |]. cbn [filter map].
      unfold significant at 1, sigw at 1. cbn [fst].
      destruct (t_kind t) eqn:K; cbn [map]; rewrite ?IH; try reflexivity; unfold word_of at 1; now rewrite K.
    - apply Forall_forall. intros t I. apply filter_In in I as [I _]. rewrite Forall_forall in F. now apply F. }
  unfold lim in P. unfold parse_fuel. rewrite P. reflexivity.
Qed.

Lemma readable_reread H e : readable H e -> parse_script (debug H e) = SOk (EDo [reread e]).
Proof.
  intros R. destruct (readable_fine H (weight e) e (le_n _)) as (_ & FI & _).
  destruct (FI R) as (S & V & q & Q).
  apply (script_tokens _ (words H e)).
  - pose proof (S [] [] I lexed_nil) as L. now rewrite !app_nil_r in L.
  - rewrite Q. discriminate.
  - intros slen i E F. destruct (readable_full slen H (weight e) e (le_n _)) as (_ & FU & _).
    destruct (FU R i E F) as (NQ & P). pose proof (P [] Logic.I) as X. rewrite app_nil_r in X.
    apply script_single; [exact X |]. intros ->. exact NQ.
Qed.

(** ** When the expression is the same *)

Lemma same_size e : weight e <= weight (reread e)
  /\ (weight (reread e) = weight e -> no_if e) /\ (no_if e -> reread e = e).
Proof.
  remember (weight e) as n eqn:N. assert (L : weight e <= n) by lia. revert N.
  assert (G : forall n e, weight e <= n -> weight e <= weight (reread e)
    /\ (weight (reread e) = weight e -> no_if e) /\ (no_if e -> reread e = e)).
  { clear. induction n as [|n IH]; intros e L; [exfalso; destruct e; simpl in L; lia |].
    assert (LS : forall l, list_sum (map weight l) <= n ->
      list_sum (map weight l) <= list_sum (map weight (map reread l))
      /\ (list_sum (map weight (map reread l)) = list_sum (map weight l) ->
          fold_right (fun e P => no_if e /\ P) True l)
      /\ (fold_right (fun e P => no_if e /\ P) True l -> map reread l = l)).
    { induction l as [|x l IHl]; intros S; [repeat split; auto |]. simpl in S.
      change (list_sum (map weight (map reread (x :: l)))) with (weight (reread x) + list_sum (map weight (map reread l))).
      change (list_sum (map weight (x :: l))) with (weight x + list_sum (map weight l)).
      destruct (IHl ltac:(lia)) as (A & B & C). destruct (IH x ltac:(lia)) as (A' & B' & C').
      split; [lia |]. split.
      - intros E. cbn [fold_right]. split; [apply B' | apply B]; lia.
      - cbn [fold_right map]. intros [X Y]. f_equal; auto. }
    destruct e as [e|x|z|f|bs|s|b|l|m| |x e|x l b|c t f|f args|p b c|p b|l|b|e]; cbn [weight reread no_if] in *;
      try (repeat split; auto; fail).
    - destruct (IH _ (le_S_n _ _ L)) as (A & B & C). split; [lia |]. split; [intros; apply B; lia | intros; f_equal; auto].
    - destruct (LS l ltac:(lia)) as (A & B & C). split; [lia |]. split; [intros; apply B; lia | intros; f_equal; auto].
    - destruct (IH _ (le_S_n _ _ L)) as (A & B & C). split; [lia |]. split; [intros; apply B; lia | intros; f_equal; auto].
    - destruct (IH l ltac:(lia)) as (A & B & C), (IH b ltac:(lia)) as (A' & B' & C'). split; [lia |].
      split; [intros; split; [apply B | apply B']; lia | intros [X Y]; f_equal; auto].
    - destruct (IH c ltac:(lia)) as (A & B & C), (IH t ltac:(lia)) as (A' & B' & C'),
        (IH f ltac:(lia)) as (A'' & B'' & C''). split; [lia |]. split; [intros; lia | contradiction].
    - destruct (IH f ltac:(lia)) as (A & B & C), (LS args ltac:(lia)) as (A' & B' & C'). split; [lia |].
      split; [intros; split; [apply B | apply B']; lia | intros [X Y]; f_equal; auto].
    - destruct (IH _ (le_S_n _ _ L)) as (A & B & C). split; [lia |]. split; [intros; apply B; lia | intros; f_equal; auto].
    - destruct (IH _ (le_S_n _ _ L)) as (A & B & C). split; [lia |]. split; [intros; apply B; lia | intros; f_equal; auto].
    - destruct (LS l ltac:(lia)) as (A & B & C). split; [lia |]. split; [intros; apply B; lia | intros; f_equal; auto].
    - destruct (IH _ (le_S_n _ _ L)) as (A & B & C). split; [lia |]. split; [intros; apply B; lia | intros; f_equal; auto]. }
  intros ->. now apply (G (weight e)).
Qed.

(** ** Deciding the side conditions *)

Definition digit (c : N) : bool := ((48 <=? c) && (c <=? 57))%N.
Definition identifier_b (x : str) : bool :=
  forallb is_symbol_char x && negb (existsb (str_eqb x) taken)
  && match x with
     | [] => false
     | c :: r => negb (c =? 35)%N && negb (digit c)
                 && match r with d :: _ => negb ((c =? 45)%N && digit d) | [] => true end
     end.

Lemma symbol_word_char c : is_symbol_char c = true -> word_char c.
Proof.
  unfold is_symbol_char, word_char, between, is_lower, is_upper, is_digit. intros E.
  apply orb_prop in E as [E|E]; [apply orb_prop in E as [E|E]; [apply orb_prop in E as [E|E] |] |].
  - apply andb_prop in E as [A B]. apply N.leb_le in A, B. left. now split.
  - apply andb_prop in E as [A B]. apply N.leb_le in A, B. right; left. now split.
  - apply andb_prop in E as [A B]. apply N.leb_le in A, B. right; right; left. now split.
  - apply existsb_exists in E as (d & I & Q). apply N.eqb_eq in Q. subst d. now right; right; right.
Qed.

Lemma digit_between c : digit c = false -> ~ between 48%N 57%N c.
Proof.
  unfold digit, between. intros E [A B]. apply N.leb_le in A, B. rewrite A, B in E. discriminate.
Qed.

Lemma identifier_ok x : identifier_b x = true -> identifier x.
Proof.
  intros E. apply andb_prop in E as [E M]. apply andb_prop in E as [W T]. split; [| split].
  - apply Forall_forall. intros c I. rewrite forallb_forall in W. apply symbol_word_char, W, I.
  - intros I. apply negb_true_iff in T. rewrite <- not_true_iff_false in T. apply T.
    apply existsb_exists. exists x. split; [exact I | apply str_eqb_refl].
  - destruct x as [|c r]; [discriminate |]. apply andb_prop in M as [M R]. apply andb_prop in M as [A B].
    apply negb_true_iff in A, B. split; [now apply N.eqb_neq |]. split; [now apply digit_between |].
    destruct r as [|d r]; [exact I |]. intros ->. apply negb_true_iff in R. cbn [N.eqb andb] in R.
    now apply digit_between.
Qed.

Lemma operator_ok x : existsb (str_eqb x) operators = true -> operator x.
Proof. exact (existsb_str x operators). Qed.
