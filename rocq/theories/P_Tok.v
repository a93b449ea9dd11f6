(** Properties of the tokenizer: C01, C02, C04. *)

From Coq Require Import String.
From Verif Require Import Base Syntax Tokenizer TokFacts.

(** ** Vocabulary *)

(** The text of [s] from byte [sl_start r] to byte [sl_end r] is [t]; both ends
    are between characters. *)
Definition covers (s : str) (r : slice) (t : str) : Prop :=
  exists a b, s = a ++ t ++ b /\ sl_start r = utf8_len a
              /\ sl_end r = utf8_len (a ++ t).

(** [r] lies within [o]. *)
Definition within (o r : slice) : Prop :=
  (sl_start o <= sl_start r)%N /\ (sl_end r <= sl_end o)%N.

(** The ranges follow one another without overlap. *)
Fixpoint in_order (l : list slice) : Prop :=
  match l with
  | x :: (y :: _) as r => (sl_end x <= sl_start y)%N /\ in_order r
  | _ => True
  end.

(** The ranges a diagnostic mentions. *)
Definition mentioned (d : diagnostic) : list slice :=
  match d with
  | DValid => []
  | DInvalidStringEscapes l => l
  | DInvalidNumber r | DIllegalChar r | DNotTokenized r => [r]
  end.

(** ** C01 *)

Lemma tiled_texts off s ts ds : tiled off s ts ds ->
  concat (map t_text ts) = s /\ Forall (fun t => t_text t <> []) ts
  /\ length ds = length ts
  /\ Forall (fun d => match d with DNotTokenized _ => False | _ => True end) ds.
Proof.
  induction 1 as [|off s i' t d ts ds G T (IH1 & IH2 & IH3 & IH4)]; [repeat constructor |].
  destruct G as ([S _] & NE & _ & D). simpl in *. repeat split.
  - rewrite IH1. now rewrite S.
  - now constructor.
  - now rewrite IH3.
  - constructor; [| exact IH4]. destruct d; auto.
Qed.

Lemma tiled_ranges off s ts ds : tiled off s ts ds -> forall a t b, ts = a ++ t :: b ->
  t_range t = Slice (off + utf8_len (concat (map t_text a)))
                    (off + utf8_len (concat (map t_text (a ++ [t])))).
Proof.
  induction 1 as [|off s i' t d ts ds G T IH]; intros a u b E; [destruct a; discriminate |].
  destruct G as ([S O] & NE & R & D). simpl in *.
  destruct a as [|x a]; simpl in E; inversion E; subst.
  - rewrite R. simpl. rewrite app_nil_r, N.add_0_r. now rewrite O.
  - rewrite (IH a u b eq_refl). simpl. rewrite O, !utf8_len_app. f_equal; lia.
Qed.

(** Tokens are non-empty, follow one another and make up the whole text; the
    recorded range of a token is where its text stands; there is one diagnostic
    for each token and none that reports leftover text. *)
Theorem C01_lossless s ts ds :
  tokenize s = TokOk ts ds ->
  concat (map t_text ts) = s
  /\ Forall (fun t => t_text t <> []) ts
  /\ (forall a t b, ts = a ++ t :: b ->
        t_range t = Slice (utf8_len (concat (map t_text a)))
                          (utf8_len (concat (map t_text (a ++ [t])))))
  /\ length ds = length ts
  /\ Forall (fun d => match d with DNotTokenized _ => False | _ => True end) ds.
Proof.
  intros E. pose proof (tokenize_ok s) as T. rewrite E in T.
  destruct (tiled_texts _ _ _ _ T) as (A & B & C & D).
  repeat split; auto. intros a t b F.
  now rewrite (tiled_ranges _ _ _ _ T a t b F).
Qed.

(** Hence every recorded range selects the text of its token. *)
Theorem C01_ranges_select s ts ds t :
  tokenize s = TokOk ts ds -> In t ts -> covers s (t_range t) (t_text t).
Proof.
  intros E I. destruct (C01_lossless s ts ds E) as (A & _ & B & _).
  apply in_split in I. destruct I as (a & b & ->). rewrite (B a t b eq_refl).
  exists (concat (map t_text a)), (concat (map t_text b)). simpl. repeat split.
  - rewrite <- A, map_app, concat_app. reflexivity.
  - now rewrite map_app, concat_app, <- app_nil_end || (rewrite map_app, concat_app; simpl; now rewrite app_nil_r).
Qed.

Example C01_example : exists ts ds,
  tokenize (lit "let x = [1.5, a] # note") = TokOk ts ds
  /\ length ts = 14.
Proof. eexists _, _. split; vm_compute; reflexivity. Qed.

(** ** C02 *)

(** The only crash is a backslash in front of a character of several bytes. *)
Theorem C02_no_crash_partial s :
  (forall a c b, s = a ++ 92%N :: c :: b -> (c < 128)%N) ->
  exists ts ds, tokenize s = TokOk ts ds.
Proof.
  intros W. pose proof (tokenize_ok s) as T. destruct (tokenize s) as [ts ds| |]; [eauto | | easy].
  destruct T as (a & c & b & E & L). specialize (W a c b E). lia.
Qed.

(** It never loops. *)
Theorem C02_finishes s : tokenize s <> TokFuel.
Proof. intros E. pose proof (tokenize_ok s) as T. now rewrite E in T. Qed.

Example C02_partial_example :
  let s := [34; 228; 92; 110; 34; 10; 8364]%N in
  (forall a c b, s = a ++ 92%N :: c :: b -> (c < 128)%N)
  /\ exists ts ds, tokenize s = TokOk ts ds /\ length ts = 3.
Proof.
  split; [| eexists _, _; split; vm_compute; reflexivity].
  intros a c b E. do 7 (destruct a as [|? a]; [inversion E; subst; lia || discriminate |];
    injection E as <- E). destruct a; discriminate.
Qed.

(** A text that consists of a quote, any characters other than quotes and
    backslashes, a backslash and a character of several bytes. *)
Lemma plain_run (body rest : str) : Forall (fun c => c <> 34 /\ c <> 92)%N body ->
  forall off errors n, parse_string_loop (length body + n) errors (Inp off (body ++ rest))
    = parse_string_loop n errors (Inp (off + utf8_len body) rest).
Proof.
  induction 1 as [|c body [Q B] F IH]; intros off errors n.
  - simpl. now rewrite N.add_0_r.
  - change ((c :: body) ++ rest) with (c :: (body ++ rest)).
    cbn [length plus parse_string_loop i_rest].
    apply N.eqb_neq in Q, B. rewrite Q, B.
    rewrite split_at_one. cbn [tbind]. rewrite IH. cbn [utf8_len]. now rewrite N.add_assoc.
Qed.

Lemma wide_escape_panics (c : chr) (r : str) off : (128 <= c)%N -> parse_escape (Inp off (92%N :: c :: r)) = TPanic.
Proof.
  intros L. unfold parse_escape.
  rewrite (tag_takes [92%N] (c :: r) off : punctuation_tag [92%N] (Inp off (92%N :: c :: r)) = _).
  cbn [tbind].
  assert (E : talt [punctuation_tag [34%N]; punctuation_tag [92%N];
              punctuation_tag (lit "b"); punctuation_tag (lit "f");
              punctuation_tag (lit "n"); punctuation_tag (lit "r");
              punctuation_tag (lit "t")] (Inp (off + utf8_len [92%N]) (c :: r)) = TErr).
  { cbn [talt]. change (lit "b") with [98%N]. change (lit "f") with [102%N].
    change (lit "n") with [110%N]. change (lit "r") with [114%N]. change (lit "t") with [116%N].
    repeat (rewrite tag_fails by (intros <-; now apply L)). reflexivity. }
  rewrite E. change (lit "u{") with [117; 123]%N. rewrite tag_fails by (intros <-; now apply L). cbn [tbind].
  unfold split_saturating. cbn [i_rest utf8_len].
  pose proof (chr_len_pos c) as P. change (chr_len 92%N) with 1%N.
  replace (N.min 2 (1 + (chr_len c + utf8_len r))) with 2%N by lia.
  unfold split_at. cbn [i_rest split_bytes]. change (chr_len 92%N) with 1%N.
  assert (Q : (chr_len c <=? 1)%N = false).
  { apply N.leb_gt. unfold chr_len. apply N.ltb_ge in L. rewrite L.
    destruct (c <? 2048)%N; [lia |]. destruct (c <? 65536)%N; lia. }
  change (2 =? 0)%N with false. change (1 <=? 2)%N with true. change (2 - 1)%N with 1%N.
  change (1 =? 0)%N with false. cbv iota. rewrite Q. reflexivity.
Qed.

Theorem C02_crashes (body : str) (c : chr) (r : str) :
  Forall (fun x => x <> 34 /\ x <> 92)%N body -> (128 <= c)%N ->
  tokenize (34%N :: body ++ 92%N :: c :: r) = TokPanic.
Proof.
  intros F L. unfold tokenize. cbn [parse_tokens_loop].
  assert (E : parse_token (Inp 0 (34%N :: body ++ 92%N :: c :: r)) = TPanic).
  { unfold parse_token. cbn [i_rest talt].
    replace (string_literal (Inp 0 (34%N :: body ++ 92%N :: c :: r))) with
      (@TPanic (token * diagnostic)); [reflexivity |].
    unfold string_literal.
    rewrite (tag_takes [34%N] _ 0 : punctuation_tag [34%N] (Inp 0 (34%N :: body ++ 92%N :: c :: r)) = _).
    cbn [tbind]. unfold parse_string_inner. cbn [i_rest].
    replace (S (length (body ++ 92%N :: c :: r))) with (length body + S (S (S (length r))))
      by (rewrite app_length; simpl; lia).
    match goal with |- context [parse_string_loop ?n ?e ?i] =>
      replace (parse_string_loop n e i) with (@TPanic (list slice)); [reflexivity |] end.
    rewrite (plain_run _ _ F). cbn [parse_string_loop i_rest N.eqb Pos.eqb].
    rewrite wide_escape_panics by exact L. reflexivity. }
  rewrite E. reflexivity.
Qed.

Theorem C02_no_crash_refuted : exists s, tokenize s = TokPanic.
Proof. exists [34; 92; 228; 34]%N. vm_compute. reflexivity. Qed.

(** ** C04 *)

Lemma inside_covers s i i' a r : s = a ++ i_rest i -> i_off i = utf8_len a ->
  inside i i' r ->
  (exists t, covers s r t /\ t <> []) /\ within (Slice (i_off i) (i_off i')) r.
Proof.
  intros E O (j & k & p & t & q & [A1 A2] & [B1 B2] & [C1 C2] & NE & ->).
  split.
  - exists t. split; [| exact NE]. exists (a ++ p), (i_rest k). simpl. split; [| split].
    + rewrite E, A1, B1. now rewrite <- app_assoc.
    + rewrite utf8_len_app. lia.
    + rewrite !utf8_len_app. lia.
  - split; simpl; lia.
Qed.

Lemma ranges_in_covers s i' l : forall i a, s = a ++ i_rest i -> i_off i = utf8_len a ->
  ranges_in i i' l ->
  Forall (fun r => (exists t, covers s r t /\ t <> []) /\ within (Slice (i_off i) (i_off i')) r) l
  /\ in_order l /\ (i_off i <= i_off i')%N.
Proof.
  induction l as [|r l IH]; intros i a E O; simpl.
  - intros [b [_ B]]. repeat split; [constructor | lia].
  - intros (j & b & [S1 S2] & IN & R).
    destruct (IH j (a ++ b)) as (F & IO & LE).
    { rewrite E, S1. now rewrite <- app_assoc. }
    { rewrite utf8_len_app. lia. }
    { exact R. }
    destruct (inside_covers s i j a r E O IN) as (C & W).
    repeat split; [| | lia].
    + constructor.
      * split; [exact C |]. destruct W as [W1 W2]; simpl in *. split; simpl; lia.
      * eapply Forall_impl; [| exact F]. intros x [X [W1 W2]]. split; [exact X |].
        simpl in *. split; simpl; lia.
    + destruct l as [|y l]; [exact I |]. split; [| exact IO].
      inversion F as [|? ? [_ [Y _]] _]; subst. destruct W as [_ W]. simpl in *. lia.
Qed.

(** Every range reported for a token is a non-empty piece of that token between
    characters, and the ranges of one diagnostic do not overlap. *)
Theorem C04_diagnostics_in_token s ts ds :
  tokenize s = TokOk ts ds ->
  Forall2 (fun t d =>
    Forall (fun r => within (t_range t) r /\ exists u, covers s r u /\ u <> []) (mentioned d)
    /\ in_order (mentioned d)) ts ds.
Proof.
  intros E. pose proof (tokenize_ok s) as T. rewrite E in T. clear E.
  assert (G : forall off r ts ds, tiled off r ts ds -> forall a, s = a ++ r -> off = utf8_len a ->
    Forall2 (fun t d =>
    Forall (fun r => within (t_range t) r /\ exists u, covers s r u /\ u <> []) (mentioned d)
    /\ in_order (mentioned d)) ts ds).
  { clear. induction 1 as [|off r i' t d ts ds G T IH]; intros a E O; [constructor |].
    destruct G as ([S1 S2] & NE & R & D). cbn [fst snd i_rest i_off] in *.
    constructor.
    - assert (W : covers s (t_range t) (t_text t)).
      { exists a, (i_rest i'). rewrite R. simpl. rewrite utf8_len_app.
        split; [now rewrite E, S1 | lia]. }
      assert (ONE : forall r, r = t_range t ->
        Forall (fun r => within (t_range t) r /\ exists u, covers s r u /\ u <> []) [r]
        /\ in_order [r]).
      { intros x ->. split; [| exact I]. constructor; [| constructor].
        split; [split; lia |]. eauto. }
      destruct d as [|l|x|x|x]; simpl in *; try (apply ONE; congruence); try contradiction.
      + split; [constructor | exact I].
      + destruct D as [_ D].
        destruct (ranges_in_covers s i' l (Inp off r) a E O D) as (F & IO & _).
        split; [| exact IO]. eapply Forall_impl; [| exact F].
        intros x [X Y]. rewrite R. simpl in *. auto.
    - apply (IH (a ++ t_text t)); [rewrite E, S1; now rewrite app_assoc |].
      rewrite utf8_len_app. lia. }
  apply (G 0%N s ts ds T []); reflexivity.
Qed.

Example C04_example :
  let s := lit "f ""\x\u{d800}\q"" 1." in
  exists ts ds, tokenize s = TokOk ts ds
  /\ map mentioned ds = [ []; []; [Slice 3 5; Slice 8 12; Slice 13 15]; []; [Slice 17 19] ].
Proof. eexists _, _. split; vm_compute; reflexivity. Qed.

Print Assumptions C01_lossless.
Print Assumptions C01_ranges_select.
Print Assumptions C02_no_crash_partial.
Print Assumptions C02_finishes.
Print Assumptions C02_crashes.
Print Assumptions C02_no_crash_refuted.
Print Assumptions C04_diagnostics_in_token.
