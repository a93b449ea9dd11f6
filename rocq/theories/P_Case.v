(** C90 to C92: case, splitting at a byte, width of a text. *)

From Coq Require Import String List Lia NArith ZArith.
From Verif Require Import Base Syntax Host Ops ErrorFmt Text Monad Builtins Eval EvalSpec
  LibFacts LibSpec MapFacts EvalFacts TokFacts CmdFacts TextFacts TextSpec TrimFacts OpsSpec OpsFacts ListFacts
  StrSpec P_Str CaseSpec Init Demo.
Import ListNotations.

(** ** C90: upper, lower and title case *)

Lemma upper_one H c : (c < 128)%N -> exists d, chr_to_upper H c = [d] /\ capital c d.
Proof.
  intros L. unfold chr_to_upper. rewrite (proj2 (N.ltb_lt _ _) L). eexists. split; [reflexivity|].
  unfold capital, small_letter. rewrite <- lower_range. destruct (is_lower c) eqn:E; [left|right]; split; auto.
  apply lower_range in E. lia.
Qed.

Lemma lower_one H c : (c < 128)%N -> exists d, chr_to_lower H c = [d] /\ small c d.
Proof.
  intros L. unfold chr_to_lower. rewrite (proj2 (N.ltb_lt _ _) L). eexists. split; [reflexivity|].
  unfold small, capital_letter. rewrite <- upper_range. destruct (is_upper c) eqn:E; [left|right]; split; auto.
Qed.

Lemma capital_det c d d' : capital c d -> capital c d' -> d = d'.
Proof. unfold capital, small_letter. lia. Qed.
Lemma small_det c d d' : small c d -> small c d' -> d = d'.
Proof. unfold small, capital_letter. lia. Qed.

Lemma Forall2_det (P : chr -> chr -> Prop) t : (forall c d d', P c d -> P c d' -> d = d') ->
  forall u u', Forall2 P t u -> Forall2 P t u' -> u = u'.
Proof.
  intros D. induction t as [|c t IH]; intros u u' U U'; inversion U; inversion U'; subst; [reflexivity|].
  f_equal; [eapply D; eassumption | now apply IH].
Qed.

Lemma to_uppercase_spec H t : ascii_text t -> Forall2 capital t (to_uppercase H t).
Proof.
  induction 1 as [|c t C F IH]; [constructor|]. unfold to_uppercase. cbn [flat_map].
  destruct (upper_one H c C) as (d & -> & D). cbn [List.app]. now constructor.
Qed.

Lemma to_lowercase_spec H t : ascii_text t -> Forall2 small t (to_lowercase H t).
Proof.
  induction 1 as [|c t C F IH]; [constructor|]. unfold to_lowercase. cbn [flat_map].
  destruct (lower_one H c C) as (d & -> & D). cbn [List.app]. now constructor.
Qed.

(** Every letter becomes a capital (a small letter), nothing else changes. *)
Theorem C90_upper_lower H a s v t s' u :
  gives H a s v s' -> text v t -> ascii_text t ->
  (Forall2 capital t u -> calls H SToUpper [a] s (ROk (EString u)) s')
  /\ (Forall2 small t u -> calls H SToLower [a] s (ROk (EString u)) s').
Proof.
  intros A T C. split; intros U.
  - rewrite (Forall2_det capital t capital_det _ _ U (to_uppercase_spec H t C)).
    now apply (on_text_calls H SToUpper (fun s => EString (to_uppercase H s)) a s v).
  - rewrite (Forall2_det small t small_det _ _ U (to_lowercase_spec H t C)).
    now apply (on_text_calls H SToLower (fun s => EString (to_lowercase H s)) a s v).
Qed.

(** Doing the same again changes nothing; of two changes of case the last one
    counts. *)
Theorem C90_again t u w :
  (Forall2 capital t u -> Forall2 capital u w -> w = u)
  /\ (Forall2 small t u -> Forall2 small u w -> w = u)
  /\ (Forall2 capital t u -> Forall2 small u w -> Forall2 small t w)
  /\ (Forall2 small t u -> Forall2 capital u w -> Forall2 capital t w).
Proof.
  repeat split; revert u w; induction t as [|c t IH]; intros u w U W; inversion U; subst; inversion W; subst;
    try constructor; try (apply IHt + eapply IH; eassumption).
  all: try (f_equal; [|eapply IH; eassumption]).
  all: unfold capital, small, small_letter, capital_letter in *; lia.
Qed.

Lemma titled_cons_first H c : (c < 128)%N ->
  capital c (hd c (chr_to_upper H c)) /\ small c (hd c (chr_to_lower H c)).
Proof.
  intros C. destruct (upper_one H c C) as (d & -> & D). destruct (lower_one H c C) as (e & -> & E). now split.
Qed.

Lemma title_go_length H t : forall b, length (title_go H b t) = length t.
Proof. induction t as [|c t IH]; intros b; cbn [title_go length]; [reflexivity|]. now rewrite IH. Qed.

Lemma title_go_spec H t : ascii_text t -> forall b i c d,
  nth_error t i = Some c -> nth_error (title_go H b t) i = Some d ->
  ((b = true /\ i = 0) \/ (exists j x, i = S j /\ nth_error t j = Some x /\ space x) -> capital c d)
  /\ (~ ((b = true /\ i = 0) \/ (exists j x, i = S j /\ nth_error t j = Some x /\ space x)) -> small c d).
Proof.
  induction 1 as [|x t X F IH]; intros b i c d C D; [now destruct i|].
  destruct (titled_cons_first H x X) as [T1 T2]. destruct i as [|i]; cbn [nth_error title_go] in C, D.
  - injection C as <-. injection D as <-. split.
    + intros [[-> _]|(j & y & E & _)]; [exact T1|discriminate].
    + intros N. destruct b; [|exact T2]. destruct N. now left.
  - destruct (IH _ _ _ _ C D) as [I1 I2]. split.
    + intros [[_ E]|(j & y & E & Y & SP)]; [discriminate|]. injection E as <-. apply I1.
      destruct i as [|i].
      * cbn [nth_error] in Y. injection Y as <-. left. split; [now apply space_is_ws|reflexivity].
      * right. now exists i, y.
    + intros N. apply I2. intros [[B ->]|(j & y & -> & Y & SP)]; apply N; right.
      * exists 0, x. split; [reflexivity|]. split; [reflexivity|]. now apply space_is_ws.
      * now exists (S j), y.
Qed.

Lemma to_title_spec H t : ascii_text t -> titled t (to_title H t).
Proof.
  intros A. split; [apply title_go_length|]. intros i c d C D.
  destruct (title_go_spec H t A true i c d C D) as [T1 T2]. unfold begins_word. split; intros X.
  - apply T1. destruct X as [->|X]; [now left|now right].
  - apply T2. intros Y. apply X. destruct Y as [[_ ->]|Y]; [now left|now right].
Qed.

Lemma begins_word_dec t i : begins_word t i \/ ~ begins_word t i.
Proof.
  destruct i as [|j]; [now left; left|]. destruct (nth_error t j) as [b|] eqn:E.
  - destruct (is_ws b) eqn:W.
    + left. right. exists j, b. split; [reflexivity|]. split; [exact E|]. now apply space_is_ws.
    + right. intros [X|(k & x & X & Y & Z)]; [discriminate|]. injection X as <-. apply space_is_ws in Z. congruence.
  - right. intros [X|(k & x & X & Y & Z)]; [discriminate|]. injection X as <-. congruence.
Qed.

Lemma titled_det t u u' : titled t u -> titled t u' -> u = u'.
Proof.
  intros [L T] [L' T']. apply nth_ext with (d := 0%N) (d' := 0%N); [congruence|].
  intros i I. assert (X : i < length t) by (unfold str, chr in *; lia). assert (X' : i < length u') by (unfold str, chr in *; lia).
  destruct (nth_error t i) as [c|] eqn:C; [|apply nth_error_None in C; unfold str, chr in *; lia].
  destruct (nth_error u i) as [d|] eqn:D; [|apply nth_error_None in D; unfold str, chr in *; lia].
  destruct (nth_error u' i) as [d'|] eqn:D'; [|apply nth_error_None in D'; unfold str, chr in *; lia].
  rewrite (nth_error_nth _ _ _ D), (nth_error_nth _ _ _ D').
  destruct (T i c d C D) as [P Q]. destruct (T' i c d' C D') as [P' Q'].
  destruct (begins_word_dec t i) as [B|B].
  - exact (capital_det c d d' (P B) (P' B)).
  - exact (small_det c d d' (Q B) (Q' B)).
Qed.

(** [to-title] writes the first letter of every word as a capital and all
    others small; [is-title] holds just when that changes nothing. *)
Theorem C90_title H a s v t s' u :
  gives H a s v s' -> text v t -> ascii_text t -> titled t u ->
  calls H SToTitle [a] s (ROk (EString u)) s'
  /\ exists b, calls H SIsTitle [a] s (ROk (EBoolean b)) s' /\ (b = true <-> u = t).
Proof.
  intros A T C U. rewrite (titled_det _ _ _ U (to_title_spec H t C)). split.
  - now apply (on_text_calls H SToTitle (fun s => EString (to_title H s)) a s v).
  - exists (str_eqb t (to_title H t)). split.
    + now apply (on_text_calls H SIsTitle (fun s => EBoolean (str_eqb s (to_title H s))) a s v).
    + rewrite str_eqb_eq. split; intros E; now symmetry.
Qed.

(** There is such a text, and its own title is itself. *)
Theorem C90_title_again t :
  ascii_text t -> exists u, titled t u /\ (forall u', titled t u' -> u' = u) /\ titled u u.
Proof.
  intros A. exists (to_title demo_host t). assert (T := to_title_spec demo_host t A). split; [exact T|].
  split; [intros u' U; now apply (titled_det t)|]. set (u := to_title demo_host t) in *. clearbody u.
  destruct T as [L T]. split; [reflexivity|]. intros i d d' D D'. rewrite D in D'. injection D' as <-.
  destruct (nth_error t i) as [c|] eqn:C.
  2:{ apply nth_error_None in C. assert (i < length u) by (apply nth_error_Some; congruence). unfold str, chr in *. lia. }
  destruct (T i c d C D) as [P Q].
  assert (B : begins_word u i <-> begins_word t i).
  { unfold begins_word. split; (intros [->|(j & b & -> & N & S)]; [now left|right]).
    - destruct (nth_error t j) as [x|] eqn:X.
      2:{ apply nth_error_None in X. assert (j < length u) by (apply nth_error_Some; congruence). unfold str, chr in *. lia. }
      exists j, x. split; [reflexivity|]. split; [exact X|]. destruct (T j x b X N) as [P' Q'].
      destruct (begins_word_dec t j) as [B|B]; [specialize (P' B)|specialize (Q' B)];
        unfold capital, small, small_letter, capital_letter, space in *; cbn [In] in *; lia.
    - destruct (nth_error u j) as [x|] eqn:X.
      2:{ apply nth_error_None in X. assert (j < length t) by (apply nth_error_Some; congruence). unfold str, chr in *. lia. }
      exists j, x. split; [reflexivity|]. split; [exact X|]. destruct (T j b x N X) as [P' Q'].
      destruct (begins_word_dec t j) as [B|B]; [specialize (P' B)|specialize (Q' B)];
        unfold capital, small, small_letter, capital_letter, space in *; cbn [In] in *; lia. }
  rewrite B. split; intros W; [specialize (P W)|specialize (Q W)];
    unfold capital, small, small_letter, capital_letter in *; lia.
Qed.

(** [is-upper] and [is-lower] ask for letters throughout. *)
Theorem C90_is_upper_partial H a s v t s' :
  gives H a s v s' -> text v t -> ascii_text t ->
  (exists b, calls H SIsUpper [a] s (ROk (EBoolean b)) s' /\ (b = true <-> Forall capital_letter t))
  /\ (exists b, calls H SIsLower [a] s (ROk (EBoolean b)) s' /\ (b = true <-> Forall small_letter t)).
Proof.
  intros A T C. split.
  - exists (forallb (chr_uppercase H) t). split.
    { now apply (on_text_calls H SIsUpper (fun s => EBoolean (forallb (chr_uppercase H) s)) a s v). }
    clear A T. induction C as [|c t C F IH]; cbn [forallb]; [split; auto|].
    unfold chr_uppercase at 1. rewrite (proj2 (N.ltb_lt _ _) C), Bool.andb_true_iff, IH, upper_range.
    split; [intros [X Y]; now constructor | intros X; now inversion X].
  - exists (forallb (chr_lowercase H) t). split.
    { now apply (on_text_calls H SIsLower (fun s => EBoolean (forallb (chr_lowercase H) s)) a s v). }
    clear A T. induction C as [|c t C F IH]; cbn [forallb]; [split; auto|].
    unfold chr_lowercase at 1. rewrite (proj2 (N.ltb_lt _ _) C), Bool.andb_true_iff, IH, lower_range.
    split; [intros [X Y]; now constructor | intros X; now inversion X].
Qed.

(** The result of [to-upper] need not satisfy [is-upper], nor that of
    [to-lower] [is-lower]. *)
Theorem C90_is_upper_refuted :
  exists t, value_of "string@is-upper (string@to-upper ""a b"")" = ROk (EBoolean false)
            /\ value_of "string@is-lower (string@to-lower ""A B"")" = ROk (EBoolean false)
            /\ calls demo_host SToUpper [EString t] demo (ROk (EString t)) demo
            /\ calls demo_host SIsUpper [EString t] demo (ROk (EBoolean false)) demo.
Proof.
  exists (lit "A B"). split; [vm_compute; reflexivity|]. split; [vm_compute; reflexivity|].
  split; compute_outcome 10%nat.
Qed.

Example C90_example :
  value_of "string@to-upper ""aB 1""" = ROk (EString (lit "AB 1"))
  /\ value_of "string@to-lower ""aB 1""" = ROk (EString (lit "ab 1"))
  /\ value_of "string@to-title ""the eND of it""" = ROk (EString (lit "The End Of It"))
  /\ value_of "string@is-title ""The End""" = ROk (EBoolean true)
  /\ Forall2 capital (lit "aB 1") (lit "AB 1")
  /\ titled (lit "a bC") (lit "A Bc").
Proof.
  do 4 (split; [vm_compute; reflexivity|]).
  assert (A : ascii_text (lit "aB 1")) by (vm_compute; repeat constructor).
  assert (B : ascii_text (lit "a bC")) by (vm_compute; repeat constructor).
  split; [exact (to_uppercase_spec demo_host _ A) | exact (to_title_spec demo_host _ B)].
Qed.

(** ** C91: splitting at a byte *)

Lemma bytes_len t : bytes t = Z.of_N (utf8_len t).
Proof. induction t as [|c t IH]; [reflexivity|]. cbn [bytes utf8_len]. rewrite IH. unfold chr_len. destruct (c <? 128)%N, (c <? 2048)%N, (c <? 65536)%N; lia. Qed.

(** [split-at] cuts a text after the given number of bytes, and crashes if that
    is inside a character or after the end. *)
Theorem C91_split_at_partial H a b s v t s1 i s2 :
  gives H a s v s1 -> gives H b s1 (EInteger i) s2 -> text v t ->
  (- 2 ^ 63 <= i < 2 ^ 63)%Z -> (bytes t < 2 ^ 63)%Z ->
  (forall x y, t = x ++ y -> bytes x = i ->
     calls H SSplitAt [a; b] s (ROk (EList [EString x; EString y])) s2)
  /\ ((forall x y, t = x ++ y -> bytes x <> i) -> calls H SSplitAt [a; b] s (RPanic PBoundary) s2).
Proof.
  intros A B T I L. unfold gives in *. split.
  - intros x y -> X. call. unfold run_string_split_at, exact2. repeat sure_step.
    assert (E : split_bytes (as_usize i) (x ++ y) = Some (x, y)).
    { replace (as_usize i) with (utf8_len x); [apply split_bytes_app|]. unfold as_usize.
      rewrite bytes_len in X. rewrite Z.mod_small by lia. lia. }
    destruct T; rewrite E; apply sure_ret.
  - intros N. call. unfold run_string_split_at, exact2. repeat sure_step.
    assert (E : split_bytes (as_usize i) t = None).
    { destruct (split_bytes (as_usize i) t) as [[x y]|] eqn:E; [|reflexivity]. apply split_bytes_some in E as [-> E].
      exfalso. apply (N x y eq_refl). rewrite bytes_len. rewrite <- E. unfold as_usize.
      assert (X : (bytes x <= bytes (x ++ y))%Z) by (rewrite !bytes_len, utf8_len_app; lia).
      assert (B0 : (0 <= bytes x)%Z) by (rewrite bytes_len; lia).
      assert (Z.of_N (as_usize i) < 2 ^ 63)%Z by (rewrite E, <- bytes_len; lia).
      unfold as_usize in *. rewrite Z2N.id in * by (apply Z.mod_pos_bound; lia).
      destruct (Z_lt_le_dec i 0) as [M|M].
      - rewrite <- (Z_mod_plus_full i 1), Z.mod_small in H0 by lia. lia.
      - now rewrite Z.mod_small by lia. }
    destruct T; rewrite E; now exists 0%nat.
Qed.

(** Every length in characters cannot be used as a position. *)
Theorem C91_split_at_refuted :
  exists t i, (0 <= i <= Z.of_nat (length t))%Z
              /\ calls demo_host SSplitAt [EString t; EInteger i] demo (RPanic PBoundary) demo.
Proof. exists [228%N], 1%Z. split; [cbn; lia|compute_outcome 10%nat]. Qed.

Example C91_example :
  value_of "string@split-at ""abcd"" 1" = ROk (EList (map EString [lit "a"; lit "bcd"]))
  /\ value_of "string@split-at ""abcd"" 5" = RPanic PBoundary
  /\ value_of "string@split-at ""abcd"" (0 - 1)" = RPanic PBoundary
  /\ bytes (lit "a") = 1%Z /\ bytes [228%N] = 2%Z.
Proof. repeat split; vm_compute; reflexivity. Qed.

(** ** C92: width of a text *)

Lemma width_go_line p r : ~ In 10%N p -> forall w m,
  width_go (p ++ r) w m = width_go r (w + N.of_nat (length p)) m.
Proof.
  induction p as [|c p IH]; intros N w m.
  - cbn [List.app length]. f_equal. lia.
  - cbn [List.app width_go]. destruct (N.eqb_spec c 10) as [->|E]; [destruct N; now left|].
    rewrite IH by (intros I; apply N; now right). f_equal. cbn [length]. lia.
Qed.

Lemma first_feed a r t : first_at [10%N] a r t -> ~ In 10%N a /\ t = a ++ 10%N :: r.
Proof.
  intros [-> M]. split; [|reflexivity]. intros I. apply in_split in I as (x & y & ->).
  specialize (M x (y ++ 10%N :: r)). rewrite app_length in M. cbn [length] in M.
  assert (Q : length x + S (length y) <= length x) by (apply M; rewrite <- app_assoc; reflexivity).
  unfold str, chr in *. lia.
Qed.

Lemma width_go_cut t ps : cut [10%N] t ps -> forall w m,
  exists n, width_go t w m = n
    /\ (m <= n)%N
    /\ (forall p q, ps = p :: q -> (w + N.of_nat (length p) <= n)%N
          /\ Forall (fun p => (N.of_nat (length p) <= n)%N) q
          /\ (n = m \/ n = (w + N.of_nat (length p))%N \/ Exists (fun p => n = N.of_nat (length p)) q)).
Proof.
  induction 1 as [t N|t a r ps F C IH]; intros w m.
  - assert (I : ~ In 10%N t) by (intros X; apply N; apply in_split in X as (x & y & ->); now exists x, y).
    replace (width_go t w m) with (width_go (t ++ []) w m) by now rewrite app_nil_r. rewrite width_go_line by exact I. cbn [width_go].
    eexists. split; [reflexivity|].
    unfold str, chr in *; destruct (N.ltb_spec m (w + N.of_nat (length t))); (split; [lia|]);
      intros p q E; injection E as <- <-; (split; [lia|]); (split; [constructor|]); auto.
  - apply first_feed in F as [I ->]. rewrite width_go_line by exact I. cbn [width_go N.eqb]. 
    set (m' := if (m <? w + N.of_nat (length a))%N then (w + N.of_nat (length a))%N else m).
    assert (M' : (m <= m' /\ w + N.of_nat (length a) <= m' /\ (m' = m \/ m' = w + N.of_nat (length a)))%N).
    { unfold m'. unfold str, chr in *. destruct (N.ltb_spec m (w + N.of_nat (length a))); lia. }
    destruct (IH 0%N m') as (n & E & L & K). exists n. split; [exact E|]. split; [lia|].
    intros p q X. injection X as <- <-. split; [lia|].
    destruct ps as [|p ps]; [inversion C|]. destruct (K p ps eq_refl) as (K1 & K2 & K3). split.
    + constructor; [lia|exact K2].
    + destruct K3 as [K3|[K3|K3]].
      * destruct M' as (_ & _ & [M'|M']); [left|right; left]; congruence.
      * right. right. constructor. lia.
      * right. right. now constructor 2.
Qed.

(** [get-width] is the length of the longest line. *)
Theorem C92_width H a s v t s' ps :
  gives H a s v s' -> text v t -> storable t -> cut [10%N] t ps ->
  exists n, calls H SGetWidth [a] s (ROk (EInteger n)) s'
            /\ Forall (fun p => (size p <= n)%Z) ps /\ Exists (fun p => size p = n) ps.
Proof.
  intros A T S C. destruct (width_go_cut t ps C 0%N 0%N) as (n & E & _ & K).
  destruct ps as [|p q]; [inversion C|]. destruct (K p q eq_refl) as (K1 & K2 & K3).
  assert (B : (Z.of_N n <= size t)%Z).
  { assert (LL : forall x, In x (p :: q) -> (size x <= size t)%Z).
    { clear - C. induction C as [t N|t a r ps F C IH]; intros x [<-|I].
      - lia.
      - destruct I.
      - destruct F as [-> _]. unfold size. rewrite app_length. lia.
      - specialize (IH x I). destruct F as [-> _]. unfold size in *. rewrite !app_length. lia. }
    destruct K3 as [K3|[K3|K3]].
    - unfold size. lia.
    - specialize (LL p (or_introl eq_refl)). unfold size in *. lia.
    - apply Exists_exists in K3 as (x & I & X). specialize (LL x (or_intror I)). unfold size in *. lia. }
  exists (Z.of_N n). split; [|split].
  - unfold gives in *. call. unfold run_get_width, exact1.
    assert (G : as_int (Z.of_N (get_width t)) = Z.of_N n).
    { unfold get_width. rewrite E. unfold storable in S.
      replace (Z.of_N n) with (Z.of_nat (N.to_nat n)) by lia.
      assert (Q := as_int_size _ (repeat 0%N (N.to_nat n))). unfold storable, size in Q. rewrite repeat_length in Q.
      apply Q. lia. }
    destruct T; repeat sure_step; rewrite G; apply sure_ret.
  - constructor; [unfold size; lia|]. eapply Forall_impl; [|exact K2]. intros x X. unfold size, str, chr in *. lia.
  - destruct K3 as [K3|[K3|K3]].
    + constructor. unfold size, str, chr in *. lia.
    + constructor. unfold size, str, chr in *. lia.
    + right. eapply Exists_impl; [|exact K3]. intros x X. unfold size, str, chr in *. lia.
Qed.

Example C92_example :
  value_of "string@get-width ""ab\nabcd\na""" = ROk (EInteger 4)
  /\ value_of "string@get-width """"" = ROk (EInteger 0)
  /\ cut [10%N] (lit "ab" ++ [10%N] ++ lit "c") [lit "ab"; lit "c"].
Proof.
  do 2 (split; [vm_compute; reflexivity|]).
  assert (NE : [10%N] <> []) by discriminate.
  destruct (cut_exists _ NE (lit "ab" ++ [10%N] ++ lit "c")) as [ps P]. assert (E := cut_split _ _ _ NE P).
  rewrite <- E in P. exact P.
Qed.

Print Assumptions C90_upper_lower.
Print Assumptions C90_again.
Print Assumptions C90_title.
Print Assumptions C90_title_again.
Print Assumptions C90_is_upper_partial.
Print Assumptions C90_is_upper_refuted.
Print Assumptions C91_split_at_partial.
Print Assumptions C91_split_at_refuted.
Print Assumptions C92_width.
