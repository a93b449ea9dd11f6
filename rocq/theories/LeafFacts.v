(** The parser keeps the operands. *)

From Coq Require Import String Floats.SpecFloat Permutation.
From Verif Require Import Base Syntax Tokenizer Parser MapFacts LeafSpec TokFacts WordFacts LexFacts.

(** ** Kinds and texts of tokens *)

(** Texts that fit the kind. *)
Definition well (t : token) : Prop :=
  match t_kind t with
  | TkOperator => In (t_text t) operator_words
  | TkPunctuation => In (t_text t) (openers ++ closers)
  | TkKeyword => In (t_text t) key_words
  | TkWhitespace | TkComment => True
  | _ => ~ In (t_text t) no_names
  end.

Lemma existsb_str s l : existsb (str_eqb s) l = true <-> In s l.
Proof.
  rewrite existsb_exists. split.
  - intros (x & I & E). apply str_eqb_eq in E. now subst.
  - intros I. exists s. split; [exact I | apply str_eqb_refl].
Qed.
Lemma existsb_str_not s l : existsb (str_eqb s) l = false <-> ~ In s l.
Proof. rewrite <- existsb_str. destruct (existsb _ _); intuition congruence. Qed.

Lemma name_leaf_word s : In s no_names -> name_leaf s = [].
Proof. intros I. unfold name_leaf. now rewrite (proj2 (existsb_str _ _) I). Qed.
Lemma name_leaf_name s : ~ In s no_names -> name_leaf s = [LName s].
Proof. intros I. unfold name_leaf. now rewrite (proj2 (existsb_str_not _ _) I). Qed.

Lemma word_leaf t : well t -> In (t_text t) no_names -> token_leaf t = [].
Proof.
  unfold well, token_leaf. intros W I. destruct (t_kind t); try reflexivity; contradiction.
Qed.
Lemma operator_word s : In s operator_words -> In s no_names.
Proof. intros I. unfold no_names. apply in_or_app. now left. Qed.

(** ** Segments of the input *)

Definition proper (c : list token) : Prop :=
  Forall well c /\ not_leads c /\ ~ repeated_key c.

Lemma proper_app a b : proper (a ++ b) -> proper a /\ proper b.
Proof.
  intros (W & N & R). apply Forall_app in W. destruct W as [WA WB]. split; (split; [assumption | split]).
  - intros x t u y E. apply (N x t u (y ++ b)). rewrite E, <- app_assoc. reflexivity.
  - intros (x & o & k & q & mid & cm & k' & q' & y & E & H). apply R.
    exists x, o, k, q, mid, cm, k', q', (y ++ b). split; [| exact H].
    rewrite E. rewrite <- app_assoc. cbn [app]. rewrite <- app_assoc. reflexivity.
  - intros x t u y E. apply (N (a ++ x) t u y). rewrite E, <- app_assoc. reflexivity.
  - intros (x & o & k & q & mid & cm & k' & q' & y & E & H). apply R.
    exists (a ++ x), o, k, q, mid, cm, k', q', y. split; [| exact H].
    rewrite E, <- app_assoc. reflexivity.
Qed.

Lemma level_app a : forall d b, level d (a ++ b) = match level d a with Some d' => level d' b | None => None end.
Proof.
  induction a as [| t a IH]; intros d b; [reflexivity |]. cbn [level app].
  destruct (existsb _ _); [apply IH |]. destruct (existsb _ _); [| apply IH].
  destruct d; [reflexivity | apply IH].
Qed.
Lemma level_shift a : forall d k x, level d a = Some k -> level (d + x) a = Some (k + x).
Proof.
  induction a as [| t a IH]; intros d k x E; cbn [level] in *; [congruence |].
  destruct (existsb _ _); [apply (IH (S d)), E |]. destruct (existsb _ _); [| now apply IH].
  destruct d; [discriminate | now apply IH].
Qed.
Lemma balanced_nil : balanced []. Proof. reflexivity. Qed.
Lemma balanced_app a b : balanced a -> balanced b -> balanced (a ++ b).
Proof. unfold balanced. intros A B. now rewrite level_app, A. Qed.
Lemma balanced_wrap o a c :
  In (t_text o) (map lit ["("; "["; "{"]%string) -> In (t_text c) closers ->
  balanced a -> balanced (o :: a ++ [c]).
Proof.
  unfold balanced. intros O C A. cbn [level]. rewrite (proj2 (existsb_str _ _) O).
  rewrite level_app. pose proof (level_shift a 0 0 1 A) as S. cbn [Nat.add] in S. rewrite S. cbn [level].
  rewrite (proj2 (existsb_str _ _) C).
  replace (existsb (str_eqb (t_text c)) _) with false; [reflexivity |]. symmetry.
  destruct C as [<- | [<- | [<- | []]]]; reflexivity.
Qed.
Lemma balanced_one t : ~ In (t_text t) (map lit ["("; "["; "{"]%string) -> ~ In (t_text t) closers -> balanced [t].
Proof.
  unfold balanced. intros O C. cbn [level].
  now rewrite (proj2 (existsb_str_not _ _) O), (proj2 (existsb_str_not _ _) C).
Qed.

(** [i] is a segment with the operands [L], followed by [r]. *)
Definition seg (L : list leaf) (i r : list token) : Prop :=
  exists c, i = c ++ r /\ (proper c -> (r = [] \/ balanced c) /\ Permutation L (written c)).

Lemma seg_refl i : seg [] i i.
Proof. exists []. split; [reflexivity |]. intros _. split; [right; reflexivity | constructor]. Qed.
Lemma seg_perm L L' i r : Permutation L L' -> seg L i r -> seg L' i r.
Proof.
  intros P (c & E & W). exists c. split; [exact E |]. intros X. destruct (W X) as [B Q].
  split; [exact B |]. now rewrite <- P.
Qed.
Lemma written_app a b : written (a ++ b) = written a ++ written b.
Proof. apply flat_map_app. Qed.
Lemma seg_trans L L' i j r : seg L i j -> seg L' j r -> seg (L ++ L') i r.
Proof.
  intros (c & E & W) (c' & E' & W'). exists (c ++ c'). subst.
  split; [now rewrite app_assoc |].
  intros P. apply proper_app in P. destruct P as [P P'].
  destruct (W P) as [B Q]. destruct (W' P') as [B' Q']. split.
  - destruct B' as [-> | B']; [now left |]. destruct B as [B | B].
    + apply app_eq_nil in B. destruct B as [_ ->]. now left.
    + right. now apply balanced_app.
  - rewrite written_app. now apply Permutation_app.
Qed.
Lemma bracket_word s : In s (map lit ["("; "["; "{"]%string) -> In s no_names.
Proof.
  intros O. unfold no_names. apply in_or_app. right. apply in_or_app. left.
  destruct O as [<- | [<- | [<- | []]]]; cbn; tauto.
Qed.
Lemma closer_word s : In s closers -> In s no_names.
Proof.
  intros O. unfold no_names. apply in_or_app. right. apply in_or_app. right. apply in_or_app. now left.
Qed.
(** A bracketed segment. *)
Lemma seg_wrap L i r o c :
  In (t_text o) (map lit ["("; "["; "{"]%string) -> In (t_text c) closers ->
  seg L i (c :: r) -> seg L (o :: i) r.
Proof.
  intros O C (x & E & W). exists (o :: x ++ [c]). split.
  { subst. cbn [app]. now rewrite <- app_assoc. }
  intros P. change (o :: x ++ [c]) with ([o] ++ x ++ [c]) in *.
  apply proper_app in P. destruct P as [PO P]. apply proper_app in P. destruct P as [PX PC].
  destruct (W PX) as [[B | B] Q]; [discriminate |]. split; [right; now apply balanced_wrap |].
  rewrite !written_app. cbn [written flat_map].
  destruct PO as (PO & _). inversion_clear PO. destruct PC as (PC & _). inversion_clear PC.
  rewrite (word_leaf o), (word_leaf c); auto using bracket_word, closer_word.
  cbn. now rewrite app_nil_r.
Qed.
Lemma seg_open L i o :
  In (t_text o) (map lit ["("; "["; "{"]%string) -> seg L i [] -> seg L (o :: i) [].
Proof.
  intros O (x & E & W). exists (o :: x). split; [now subst |].
  intros P. change (o :: x) with ([o] ++ x) in *. apply proper_app in P. destruct P as [PO P].
  destruct (W P) as [_ Q]. split; [now left |].
  rewrite written_app. cbn [written flat_map]. destruct PO as (PO & _). inversion_clear PO.
  rewrite (word_leaf o); [exact Q | assumption | now apply bracket_word].
Qed.
(** One token. *)
Lemma seg_one L t r : (well t -> balanced [t] /\ L = token_leaf t) -> seg L (t :: r) r.
Proof.
  intros W. exists [t]. split; [reflexivity |]. intros (X & _).
  inversion_clear X. destruct W as [B ->]; [assumption |]. split; [now right |].
  cbn [written flat_map]. now rewrite app_nil_r.
Qed.

(** ** Parsers *)

Definition keep {A} (w : A -> list leaf) (p : parser A) : Prop :=
  forall i r a, p i = POk r a -> seg (w a) i r.

Lemma text_inv s i r t : text s i = POk r t -> i = t :: r /\ t_text t = s.
Proof.
  destruct i as [| u i]; cbn [text]; [discriminate |]. destruct (str_eqb _ _) eqn:E; [| discriminate].
  intros X. injection X as -> ->. apply str_eqb_eq in E. now split.
Qed.
Lemma kind_inv k i r t : kind k i = POk r t -> i = t :: r /\ t_kind t = k.
Proof.
  destruct i as [| u i]; cbn [kind]; [discriminate |]. destruct (kind_eqb _ _) eqn:E; [| discriminate].
  intros X. injection X as -> ->. split; [reflexivity |]. destruct (t_kind t), k; try discriminate; reflexivity.
Qed.
Lemma bind_inv {A B} (m : pres A) (k : list token -> A -> pres B) r b :
  pbind m k = POk r b -> exists j a, m = POk j a /\ k j a = POk r b.
Proof. destruct m; cbn; try discriminate. eauto. Qed.
Lemma fail_inv {A} e (m : pres A) r a : map_fail e m = POk r a -> m = POk r a.
Proof. destruct m; cbn; congruence. Qed.

Lemma expected_inv {A} e (m : pres A) r a : map_expected e m = POk r a -> m = POk r a.
Proof. destruct m; cbn; congruence. Qed.

Lemma keep_bracketless_text s : In s no_names ->
  existsb (str_eqb s) (map lit ["("; "["; "{"]%string ++ closers) = false ->
  keep (fun _ => []) (text s).
Proof.
  intros I N i r t E. apply text_inv in E. destruct E as [-> E]. apply seg_one. intros W. split.
  - apply existsb_str_not in N. rewrite in_app_iff in N. subst s. apply balanced_one; tauto.
  - rewrite word_leaf; auto. now rewrite E.
Qed.

Lemma alt_rest_inv {A} (ps : list (parser A)) i r a : forall e,
  alt_rest ps e i = POk r a -> exists p, In p ps /\ p i = POk r a.
Proof.
  induction ps as [| p ps IH]; intros e; cbn [alt_rest]; [discriminate |].
  destruct (p i) eqn:E; try discriminate.
  - intros X. exists p. split; [now left |]. congruence.
  - intros X. destruct (IH _ X) as (q & Q & Y). exists q. split; [now right | exact Y].
Qed.
Lemma alt_inv {A} (ps : list (parser A)) i r a :
  alt ps i = POk r a -> exists p, In p ps /\ p i = POk r a.
Proof.
  destruct ps as [| p ps]; cbn [alt]; [discriminate |]. destruct (p i) eqn:E; try discriminate.
  - intros X. exists p. split; [now left |]. congruence.
  - intros X. destruct (alt_rest_inv _ _ _ _ _ X) as (q & Q & Y). exists q. split; [now right | exact Y].
Qed.
Lemma keep_alt {A} (w : A -> list leaf) ps : Forall (keep w) ps -> keep w (alt ps).
Proof.
  intros F i r a E. apply alt_inv in E. destruct E as (p & I & E).
  rewrite Forall_forall in F. now apply (F p I).
Qed.
Definition wopt {A} (w : A -> list leaf) (o : option A) : list leaf :=
  match o with Some a => w a | None => [] end.
Lemma keep_opt {A} (w : A -> list leaf) p : keep w p -> keep (wopt w) (opt p).
Proof.
  intros K i r a E. unfold opt in E. destruct (p i) eqn:X; try discriminate; injection E as <- <-.
  - now apply K.
  - apply seg_refl.
Qed.
Lemma keep_many0_loop {A} (w : A -> list leaf) p k : keep w p ->
  forall fuel, keep (flat_map w) (many0_loop k fuel p).
Proof.
  intros K. induction fuel as [| fuel IH]; intros i r a E; cbn [many0_loop] in E; [discriminate |].
  destruct (p i) as [j x | | | |] eqn:X; try discriminate.
  - destruct (Nat.eqb _ _); [discriminate |]. apply bind_inv in E. destruct E as (j' & l & E & Y).
    injection Y as <- <-. cbn [flat_map]. eapply seg_trans; [exact (K _ _ _ X) | exact (IH _ _ _ E)].
  - injection E as <- <-. apply seg_refl.
Qed.
Lemma keep_many0 {A} (w : A -> list leaf) p : keep w p -> keep (flat_map w) (many0 p).
Proof. intros K i. now apply keep_many0_loop. Qed.
Lemma keep_many1 {A} (w : A -> list leaf) p : keep w p -> keep (flat_map w) (many1 p).
Proof.
  intros K i r a E. unfold many1 in E. destruct (p i) as [j x | | | |] eqn:X; try discriminate.
  apply bind_inv in E. destruct E as (j' & l & E & Y). injection Y as <- <-. cbn [flat_map].
  eapply seg_trans; [exact (K _ _ _ X) | eapply keep_many0_loop; eauto].
Qed.
Lemma keep_sep_loop {A B} (w : A -> list leaf) (s : parser B) p : keep (fun _ => []) s -> keep w p ->
  forall fuel, keep (flat_map w) (sep_loop fuel s p).
Proof.
  intros S K. induction fuel as [| fuel IH]; intros i r a E; cbn [sep_loop] in E; [discriminate |].
  destruct (s i) as [j x | | | |] eqn:X; try discriminate.
  - destruct (Nat.eqb _ _); [discriminate |].
    destruct (p j) as [j1 y | | | |] eqn:Y; try discriminate.
    + apply bind_inv in E. destruct E as (j' & l & E & Z).
      injection Z as <- <-. cbn [flat_map]. change (w y ++ flat_map w l) with ([] ++ w y ++ flat_map w l).
      eapply seg_trans; [eapply S; eauto |]. eapply seg_trans; [exact (K _ _ _ Y) | exact (IH _ _ _ E)].
    + injection E as <- <-. apply seg_refl.
  - injection E as <- <-. apply seg_refl.
Qed.
Lemma keep_separated {A B} (w : A -> list leaf) (s : parser B) p : keep (fun _ => []) s -> keep w p ->
  keep (flat_map w) (separated_list0 s p).
Proof.
  intros S K i r a E. unfold separated_list0 in E. destruct (p i) as [j x | | | |] eqn:X; try discriminate.
  - apply bind_inv in E. destruct E as (j' & l & E & Y). injection Y as <- <-. cbn [flat_map].
    eapply seg_trans; [exact (K _ _ _ X) | eapply keep_sep_loop; eauto].
  - injection E as <- <-. apply seg_refl.
Qed.

Definition wpairs (l : list (token * expr)) : list leaf := flat_map (fun p => operands (snd p)) l.

Definition plain_words (ops : list str) : bool :=
  forallb (fun s => existsb (str_eqb s) operator_words) ops.

Lemma plain_text s : In s operator_words -> keep (fun _ => []) (text s).
Proof.
  intros I. apply keep_bracketless_text; [now apply operator_word |].
  apply existsb_str_not. apply existsb_str in I. intros J.
  assert (F : forallb (fun s => negb (existsb (str_eqb s) operator_words))
                (map lit ["("; "["; "{"]%string ++ closers) = true) by reflexivity.
  rewrite forallb_forall in F. specialize (F _ J). now rewrite I in F.
Qed.

Lemma ops_inv ops i r t : alt (map text ops) i = POk r t -> i = t :: r /\ In (t_text t) ops.
Proof.
  intros E. apply alt_inv in E. destruct E as (p & I & E). apply in_map_iff in I.
  destruct I as (s & <- & I). apply text_inv in E. destruct E as [-> <-]. now split.
Qed.

Lemma keep_op_pair ops p : plain_words ops = true -> keep operands p ->
  keep (fun x => operands (snd x)) (pair_p (alt (map text ops)) p).
Proof.
  intros O K i r [t e] E. unfold pair_p in E. apply bind_inv in E. destruct E as (j & u & X & E).
  apply bind_inv in E. destruct E as (k & y & Y & E). injection E as -> -> ->. cbn [snd].
  change (operands e) with ([] ++ operands e). eapply seg_trans; [| exact (K _ _ _ Y)].
  refine (keep_alt (fun _ => []) (map text ops) _ _ _ _ X). apply Forall_forall. intros q Q.
  apply in_map_iff in Q. destruct Q as (s & <- & S). apply plain_text.
  unfold plain_words in O. rewrite forallb_forall in O. now apply existsb_str, O.
Qed.

(** The operators of the pairs are operators. *)
Lemma pairs_ops ops (p : parser expr) : forall fuel k i r l,
  many0_loop k fuel (pair_p (alt (map text ops)) p) i = POk r l ->
  Forall (fun x => In (t_text (fst x)) ops) l.
Proof.
  induction fuel as [| fuel IH]; intros k i r l E; cbn [many0_loop] in E; [discriminate |].
  destruct (pair_p _ _ i) as [j x | | | |] eqn:X; try discriminate.
  - destruct (Nat.eqb _ _); [discriminate |]. apply bind_inv in E. destruct E as (j' & l' & E & Y).
    injection Y as <- <-. constructor; [| eapply IH; eauto].
    unfold pair_p in X. apply bind_inv in X. destruct X as (j1 & u & X & Z).
    apply bind_inv in Z. destruct Z as (j2 & v & Z & Y). injection Y as <- <-.
    apply ops_inv in X. cbn [fst]. tauto.
  - injection E as <- <-. constructor.
Qed.

Lemma infix_inv ops p i r h l : plain_words ops = true -> keep operands p -> infix ops p i = POk r (h, l) ->
  exists j, p i = POk j h /\ seg (wpairs l) j r /\ Forall (fun x => In (t_text (fst x)) operator_words) l
            /\ (l = [] -> r = j).
Proof.
  intros O K E. unfold infix in E. apply bind_inv in E. destruct E as (j & x & X & E).
  apply bind_inv in E. destruct E as (k & y & Y & E). injection E as -> -> ->. exists j.
  split; [exact X |]. split; [| split].
  - exact (keep_many0 _ _ (keep_op_pair ops p O K) _ _ _ Y).
  - apply (pairs_ops ops p) in Y. eapply Forall_impl; [| exact Y]. intros [t e] I. cbn [fst] in *.
    unfold plain_words in O. rewrite forallb_forall in O. now apply existsb_str, O.
  - intros ->. unfold many0 in Y. cbn [many0_loop] in Y.
    destruct (pair_p _ _ j) as [j1 x1 | | | |]; try discriminate.
    + destruct (Nat.eqb _ _); [discriminate |]. apply bind_inv in Y. destruct Y as (? & ? & _ & Y). discriminate.
    + congruence.
Qed.

Lemma fold_ops_leaves l : Forall (fun x => In (t_text (fst x)) operator_words) l ->
  forall h, Permutation (operands (fold_ops h l)) (operands h ++ wpairs l).
Proof.
  induction 1 as [| [t e] l O F IH]; intros h; cbn [fold_ops fold_left wpairs flat_map].
  - now rewrite app_nil_r.
  - fold (fold_ops (EGroup (EApply (ESymbol (t_text (fst (t, e)))) [h; snd (t, e)])) l).
    rewrite IH. cbn [operands flat_map fst snd] in *.
    rewrite (name_leaf_word (t_text t)) by (now apply operator_word). cbn [app].
    rewrite app_nil_r, <- app_assoc. reflexivity.
Qed.

Lemma pipe_leaves l : Forall (fun x => In (t_text (fst x)) operator_words) l ->
  forall a a', pipe_args a l = Some a' ->
  Permutation (flat_map operands a') (flat_map operands a ++ wpairs l).
Proof.
  induction 1 as [| [t e] l O F IH]; intros a a' E; cbn [pipe_args wpairs flat_map fst snd] in *.
  - injection E as ->. now rewrite app_nil_r.
  - cbv zeta in E.
    assert (ST : operands (EApply (ESymbol (t_text t)) [e]) = operands e).
    { cbn [operands flat_map]. rewrite (name_leaf_word (t_text t)) by (now apply operator_word). apply app_nil_r. }
    destruct (str_eqb _ (lit "<<")).
    { destruct (rev a) as [| z b] eqn:R.
      - apply IH in E. cbn [flat_map] in E. rewrite ST, app_nil_r in E.
        apply (f_equal (@rev expr)) in R. rewrite rev_involutive in R. subst a. exact E.
      - apply (f_equal (@rev expr)) in R. rewrite rev_involutive in R. cbn [rev] in R.
        apply IH in E. rewrite R. rewrite E, !flat_map_app. cbn [flat_map]. rewrite ST, !app_nil_r, <- !app_assoc.
        apply Permutation_app_head. rewrite !app_assoc. apply Permutation_app_tail, Permutation_app_comm. }
    destruct (str_eqb _ (lit "|")).
    { apply IH in E. rewrite E, flat_map_app. cbn [flat_map]. now rewrite app_nil_r, <- app_assoc. }
    destruct (str_eqb _ (lit ">>")).
    { apply IH in E. rewrite E, flat_map_app. cbn [flat_map]. now rewrite ST, app_nil_r, <- app_assoc. }
    destruct (str_eqb _ (lit ">>>")); [| discriminate].
    apply IH in E. rewrite E, flat_map_app. cbn [flat_map]. now rewrite ST, app_nil_r, <- app_assoc.
Qed.

(** ** Where a segment ends *)

Definition ends (i r : list token) : Prop :=
  r = [] \/ exists c t, i = c ++ t :: r /\ (well t -> ~ In (t_text t) openers).
Definition suffix (i r : list token) : Prop := exists c, i = c ++ r.
Definition endp {A} (p : parser A) : Prop :=
  forall i r a, p i = POk r a -> suffix i r /\ ends i r.

Lemma suffix_refl i : suffix i i. Proof. now exists []. Qed.
Lemma suffix_trans i j r : suffix i j -> suffix j r -> suffix i r.
Proof. intros [c ->] [c' ->]. exists (c ++ c'). now rewrite app_assoc. Qed.
Lemma ends_after i j r : suffix i j -> ends j r -> ends i r.
Proof.
  intros [c ->] [-> | (c' & t & -> & N)]; [now left |]. right. exists (c ++ c'), t.
  split; [now rewrite app_assoc | exact N].
Qed.
Lemma seg_suffix L i r : seg L i r -> suffix i r. Proof. intros (c & E & _). now exists c. Qed.
Lemma suffix_cons t i : suffix (t :: i) i. Proof. now exists [t]. Qed.

Lemma endp_many {A} (p : parser A) k : endp p -> forall fuel i r l,
  many0_loop k fuel p i = POk r l -> suffix i r /\ (r = i \/ ends i r).
Proof.
  intros P. induction fuel as [| fuel IH]; intros i r l E; cbn [many0_loop] in E; [discriminate |].
  destruct (p i) as [j x | | | |] eqn:X; try discriminate.
  - destruct (Nat.eqb _ _); [discriminate |]. apply bind_inv in E. destruct E as (j' & l' & E & Y).
    injection Y as <- <-. destruct (P _ _ _ X) as [S N].
    destruct (IH _ _ _ E) as [S' D]. split; [eapply suffix_trans; eauto |]. right.
    destruct D as [-> | D]; [exact N | eapply ends_after; eauto].
  - injection E as <- <-. split; [apply suffix_refl | now left].
Qed.
Lemma endp_then {A} (p : parser A) i j r : suffix i j -> ends i j ->
  suffix j r -> r = j \/ ends j r -> suffix i r /\ ends i r.
Proof.
  intros S N S' D. split; [eapply suffix_trans; eauto |].
  destruct D as [-> | D]; [exact N | eapply ends_after; eauto].
Qed.
Lemma endp_alt {A} (ps : list (parser A)) : Forall endp ps -> endp (alt ps).
Proof.
  intros F i r a E. apply alt_inv in E. destruct E as (p & I & E).
  rewrite Forall_forall in F. exact (F p I _ _ _ E).
Qed.
Lemma endp_infix ops p : endp p -> endp (infix ops p).
Proof.
  intros P i r a E. unfold infix in E. apply bind_inv in E. destruct E as (j & x & X & E).
  apply bind_inv in E. destruct E as (k & y & Y & E). injection E as -> _.
  destruct (P _ _ _ X) as [S N].
  refine (endp_then p _ _ _ S N _ _); (eapply endp_many; [| exact Y]).
  all: intros i1 r1 a1 E1; unfold pair_p in E1; apply bind_inv in E1; destruct E1 as (j1 & t & T & E1);
    apply bind_inv in E1; destruct E1 as (j2 & e & E2 & E1); injection E1 as -> _;
    apply ops_inv in T; destruct T as [-> _];
    destruct (P _ _ _ E2) as [S2 N2];
    split; [eapply suffix_trans; [apply suffix_cons | exact S2] | eapply ends_after; [apply suffix_cons | exact N2]].
Qed.
Lemma ends_one t r : (well t -> ~ In (t_text t) openers) -> suffix (t :: r) r /\ ends (t :: r) r.
Proof. intros N. split; [apply suffix_cons |]. right. now exists [], t. Qed.
Lemma endp_kind k : k <> TkPunctuation -> k <> TkWhitespace -> k <> TkComment -> endp (kind k).
Proof.
  intros K1 K2 K3 i r t E. apply kind_inv in E. destruct E as [-> E]. apply ends_one.
  intros X. unfold well in X. rewrite E in X.
  assert (Y : forall l l', forallb (fun s => negb (existsb (str_eqb s) l')) l = true -> In (t_text t) l -> ~ In (t_text t) l').
  { intros l l' F I J. rewrite forallb_forall in F. specialize (F _ I). apply existsb_str in J. now rewrite J in F. }
  destruct k; try congruence.
  all: try (intros J; apply X; unfold no_names; apply in_or_app; right; apply in_or_app; now left).
  - apply (Y operator_words); [reflexivity | exact X].
  - apply (Y key_words); [reflexivity | exact X].
Qed.
Lemma endp_pmap {A B} (f : A -> B) p : endp p -> endp (pmap f p).
Proof.
  intros P i r a E. unfold pmap in E. apply bind_inv in E. destruct E as (j & x & X & E).
  injection E as -> _. exact (P _ _ _ X).
Qed.

(** ** Map literals *)

Lemma bm_insert_perm (k : str) (x : expr) m : ~ In k (map fst m) -> Permutation (bm_insert k x m) ((k, x) :: m).
Proof.
  induction m as [| [k' y] m IH]; intros N; cbn [bm_insert]; [reflexivity |].
  destruct (str_cmp k k') eqn:E.
  - apply str_cmp_eq in E. subst. destruct N. now left.
  - reflexivity.
  - rewrite IH by (intros J; apply N; now right). apply perm_swap.
Qed.
Lemma bm_of_list_perm (l : list (str * expr)) : NoDup (map fst l) -> Permutation (bm_of_list l) l.
Proof.
  unfold bm_of_list.
  assert (G : forall l m : list (str * expr), NoDup (map fst (m ++ l)) ->
            Permutation (fold_left (fun m kv => bm_insert (fst kv) (snd kv) m) l m) (m ++ l)).
  { clear. induction l as [| [k x] l IH]; intros m N; cbn [fold_left fst snd]; [now rewrite app_nil_r |].
    rewrite map_app in N. cbn [map fst] in N.
    assert (P : Permutation (bm_insert k x m) ((k, x) :: m)).
    { apply bm_insert_perm. intros J. apply NoDup_remove_2 in N. apply N. apply in_or_app. now left. }
    rewrite IH.
    - rewrite P. cbn [app]. apply Permutation_middle.
    - eapply Permutation_NoDup; [| exact N]. rewrite map_app.
      rewrite (Permutation_map fst P). cbn [map fst app]. symmetry. apply Permutation_middle. }
  intros N. now apply (G l []).
Qed.

(** The entries of a map literal. *)
Inductive entries : list (str * expr) -> list token -> Prop :=
| entries_one k q c e :
    t_text q = lit "=" -> balanced [k] -> balanced c -> entries [(t_text k, e)] (k :: q :: c)
| entries_cons k q c e comma m ts :
    t_text q = lit "=" -> balanced [k] -> balanced c -> t_text comma = lit "," -> entries m ts ->
    entries ((t_text k, e) :: m) (k :: q :: c ++ comma :: ts).

Lemma balanced_plain q s : t_text q = s -> existsb (str_eqb s) (map lit ["("; "["; "{"]%string ++ closers) = false ->
  balanced [q].
Proof. intros <- N. apply existsb_str_not in N. rewrite in_app_iff in N. apply balanced_one; tauto. Qed.
Lemma balanced_entry k q c : balanced [k] -> t_text q = lit "=" -> balanced c -> balanced (k :: q :: c).
Proof.
  intros K Q C. apply (balanced_app [k] (q :: c) K). apply (balanced_app [q] c); [| exact C].
  now apply (balanced_plain q _ Q).
Qed.

(** An entry is first or follows a comma. *)
Lemma entries_in m ts key : entries m ts -> In key (map fst m) ->
  exists x k q y, ts = x ++ k :: q :: y /\ t_text k = key /\ t_text q = lit "="
  /\ (x = [] \/ exists x' comma, x = x' ++ [comma] /\ t_text comma = lit "," /\ balanced x').
Proof.
  induction 1 as [k q c e Q K C | k q c e comma m ts Q K C CM E IH]; intros I; cbn [map fst] in I.
  - destruct I as [I | []]. exists [], k, q, c. auto.
  - destruct I as [I | I].
    + exists [], k, q, (c ++ comma :: ts). auto.
    + destruct (IH I) as (x & k1 & q1 & y & -> & K1 & Q1 & D).
      exists (k :: q :: c ++ comma :: x), k1, q1, y.
      split. { cbn [app]. now rewrite <- app_assoc. }
      split; [exact K1 |]. split; [exact Q1 |]. right.
      pose proof (balanced_entry k q c K Q C) as B.
      destruct D as [-> | (x' & cm & -> & CM' & B')].
      * exists (k :: q :: c), comma. auto.
      * exists (k :: q :: c ++ comma :: x'), cm. split.
        { cbn [app]. now rewrite <- app_assoc. }
        split; [exact CM' |]. apply (balanced_app (k :: q :: c) (comma :: x') B).
        apply (balanced_app [comma] x'); [| exact B']. now apply (balanced_plain comma _ CM).
Qed.

(** Equal keys are a repeated key. *)
Lemma entries_nodup m ts : entries m ts -> forall o b, t_text o = lit "{" \/ t_text o = lit "," ->
  ~ repeated_key (o :: ts ++ b) -> NoDup (map fst m).
Proof.
  induction 1 as [k q c e Q K C | k q c e comma m ts Q K C CM E IH]; intros o b O N; cbn [map fst].
  - constructor; [intros [] | constructor].
  - constructor.
    + intros I. apply N. destruct (entries_in m ts _ E I) as (x & k1 & q1 & y & -> & K1 & Q1 & D).
      destruct D as [-> | (x' & cm & -> & CM' & B')].
      * exists [], o, k, q, c, comma, k1, q1, (y ++ b). split.
        { cbn [app]. rewrite <- app_assoc. reflexivity. }
        auto 10.
      * exists [], o, k, q, (c ++ comma :: x'), cm, k1, q1, (y ++ b). split.
        { cbn [app]. rewrite <- !app_assoc. cbn [app]. rewrite <- !app_assoc. reflexivity. }
        split; [exact O |]. split; [exact Q |]. split; [| auto].
        apply balanced_app; [exact C |]. apply (balanced_app [comma] x'); [| exact B'].
        now apply (balanced_plain comma _ CM).
    + apply (IH comma b); [now right |]. intros (a & o1 & k1 & q1 & mid & cm & k2 & q2 & y & X & H). apply N.
      exists (o :: k :: q :: c ++ a), o1, k1, q1, mid, cm, k2, q2, y. split; [| exact H].
      cbn [app]. do 3 f_equal. rewrite <- !app_assoc. f_equal. exact X.
Qed.

Lemma seg_when L L' i r : seg L i r -> (forall c, i = c ++ r -> proper c -> Permutation L' L) -> seg L' i r.
Proof.
  intros (c & E & W) U. exists c. split; [exact E |]. intros P. destruct (W P) as [B Q].
  split; [exact B |]. now rewrite (U c E P).
Qed.

Lemma not_word t : well t -> t_kind t <> TkPunctuation -> t_kind t <> TkWhitespace -> t_kind t <> TkComment ->
  balanced [t].
Proof.
  intros W K1 K2 K3. unfold well in W.
  assert (Y : forall l l', forallb (fun s => negb (existsb (str_eqb s) l')) l = true -> In (t_text t) l -> ~ In (t_text t) l').
  { intros l l' F I J. rewrite forallb_forall in F. specialize (F _ I). apply existsb_str in J. now rewrite J in F. }
  apply balanced_one.
  - destruct (t_kind t); try congruence; try (intros J; apply W; now apply bracket_word);
      [apply (Y operator_words) | apply (Y key_words)]; try reflexivity; exact W.
  - destruct (t_kind t); try congruence; try (intros J; apply W; now apply closer_word);
      [apply (Y operator_words) | apply (Y key_words)]; try reflexivity; exact W.
Qed.

Lemma keep_symbol : keep name_leaf parse_symbol.
Proof.
  intros i r s E. unfold parse_symbol, pmap in E. apply bind_inv in E. destruct E as (j & t & T & E).
  injection E as -> <-. apply kind_inv in T. destruct T as [-> K]. apply seg_one. intros W. split.
  - apply not_word; [exact W | congruence ..].
  - unfold well in W. rewrite K in W. unfold token_leaf. rewrite K. now apply name_leaf_name.
Qed.
Lemma keep_operator : keep name_leaf parse_operator.
Proof.
  intros i r s E. unfold parse_operator, pmap in E. apply bind_inv in E. destruct E as (j & t & T & E).
  injection E as -> <-. apply kind_inv in T. destruct T as [-> K]. apply seg_one. intros W. split.
  - apply not_word; [exact W | congruence ..].
  - unfold well in W. rewrite K in W. unfold token_leaf. rewrite K. now apply name_leaf_word, operator_word.
Qed.
Lemma keep_pmap {A B} (w : B -> list leaf) (f : A -> B) p : keep (fun a => w (f a)) p -> keep w (pmap f p).
Proof.
  intros K i r b E. unfold pmap in E. apply bind_inv in E. destruct E as (j & a & X & E).
  injection E as -> <-. now apply K.
Qed.
Lemma keep_operator_symbol : keep operands parse_operator_as_symbol.
Proof. apply keep_pmap. exact keep_operator. Qed.
Lemma keep_name : keep name_leaf (alt [parse_symbol; parse_operator]).
Proof. apply keep_alt. repeat constructor; [apply keep_symbol | apply keep_operator]. Qed.

Lemma keep_integer : keep (fun z => [LInt z]) parse_integer.
Proof.
  intros i r z E. unfold parse_integer in E. apply bind_inv in E. destruct E as (j & t & T & E).
  destruct (parse_i64 _) eqn:V; [| discriminate]. injection E as -> ->. apply kind_inv in T. destruct T as [-> K].
  apply seg_one. intros W. split; [apply not_word; [exact W | congruence ..] |].
  unfold token_leaf. now rewrite K, V.
Qed.
Lemma keep_float : keep (fun z => [LFloat z]) parse_float.
Proof.
  intros i r z E. unfold parse_float in E. apply bind_inv in E. destruct E as (j & t & T & E).
  destruct (parse_f64 _) eqn:V; [| discriminate]. injection E as -> ->. apply kind_inv in T. destruct T as [-> K].
  apply seg_one. intros W. split; [apply not_word; [exact W | congruence ..] |].
  unfold token_leaf. now rewrite K, V.
Qed.
Lemma keep_string : keep (fun z => [LText z]) parse_string.
Proof.
  intros i r z E. unfold parse_string in E. apply bind_inv in E. destruct E as (j & t & T & E).
  destruct (unescape _) eqn:V; [| discriminate]. injection E as -> ->. apply kind_inv in T. destruct T as [-> K].
  apply seg_one. intros W. split; [apply not_word; [exact W | congruence ..] |].
  unfold token_leaf. now rewrite K, V.
Qed.
Lemma keep_boolean : keep (fun z => [LBool z]) parse_boolean.
Proof.
  apply keep_pmap. intros i r t T. apply kind_inv in T. destruct T as [-> K].
  apply seg_one. intros W. split; [apply not_word; [exact W | congruence ..] |].
  unfold token_leaf. now rewrite K.
Qed.
Lemma word_bracketless s : existsb (str_eqb s) no_names = true ->
  existsb (str_eqb s) (map lit ["("; "["; "{"]%string ++ closers) = false -> keep (fun _ => []) (text s).
Proof. intros N. apply keep_bracketless_text. now apply existsb_str. Qed.

Lemma none_inv slen i r u : parse_none slen i = POk r u ->
  (exists t, i = t :: r /\ t_text t = lit "None") \/
  (exists a b, i = a :: b :: r /\ t_text a = lit "(" /\ t_text b = lit ")").
Proof.
  unfold parse_none. intros E.
  assert (D : (exists t, text (lit "None") i = POk r t) \/
              match i with
              | a :: b :: r' =>
                  if str_eqb (t_text a) (lit "(") && str_eqb (t_text b) (lit ")")
                  then POk r' tt else PErr (exp_at slen i (lit "None or ()") None None)
              | _ => PErr (exp_at slen i (lit "None or ()") None None)
              end = POk r u).
  { destruct (text _ i) as [r' t | | | |] eqn:T; auto. left. exists t. congruence. }
  destruct D as [[t T] | D].
  - apply text_inv in T. destruct T as [-> T]. left. eauto.
  - right. destruct i as [| a [| b i]]; try discriminate. destruct (_ && _) eqn:B; [| discriminate].
    apply andb_prop in B. destruct B as [X Y]. apply str_eqb_eq in X, Y. injection D as ->. eauto 6.
Qed.
Lemma keep_none slen : keep (fun _ => []) (parse_none slen).
Proof.
  intros i r u E. apply none_inv in E. destruct E as [(t & -> & T) | (a & b & -> & A & B)].
  - refine (word_bracketless (lit "None") _ _ _ _ t _); try reflexivity. cbn [text]. now rewrite T, str_eqb_refl.
  - apply (seg_wrap [] (b :: r) r a b); [rewrite A; now left | rewrite B; now left | apply seg_refl].
Qed.

Section Body.
  Variable slen : N.
  Variable call : nt -> parser expr.
  Hypothesis C : forall n, keep operands (call n).

  Definition wkv (kv : str * expr) : list leaf := name_leaf (fst kv) ++ operands (snd kv).
  Definition entry : parser (str * expr) :=
    separated_pair (alt [parse_symbol; parse_operator]) (text (lit "=")) (call NExpr).

  Lemma entry_inv i r kv : entry i = POk r kv ->
    exists k q j, i = k :: q :: j /\ fst kv = t_text k /\ (well k -> balanced [k])
                  /\ t_text q = lit "=" /\ call NExpr j = POk r (snd kv).
  Proof.
    unfold entry, separated_pair. intros E. apply bind_inv in E. destruct E as (j & k & K & E).
    apply bind_inv in E. destruct E as (j1 & q & Q & E). apply bind_inv in E. destruct E as (j2 & e & X & E).
    injection E as -> <-. apply text_inv in Q. destruct Q as [-> Q].
    assert (D : exists t, i = t :: q :: j1 /\ t_text t = k /\ (t_kind t = TkSymbol \/ t_kind t = TkOperator)).
    { apply alt_inv in K. destruct K as (p & [<- | [<- | []]] & P);
      unfold parse_symbol, parse_operator, pmap in P; apply bind_inv in P; destruct P as (j3 & t & T & P);
      injection P as -> <-; apply kind_inv in T; destruct T as [-> T]; eauto. }
    destruct D as (t & -> & T & KD). exists t, q, j1. split; [reflexivity |]. split; [now symmetry |].
    split; [| now split]. intros W. apply not_word; [exact W | destruct KD; congruence ..].
  Qed.
  Lemma keep_entry : keep wkv entry.
  Proof.
    intros i r [k e] E. unfold entry, separated_pair in E. apply bind_inv in E. destruct E as (j & k' & K & E).
    apply bind_inv in E. destruct E as (j1 & q & Q & E). apply bind_inv in E. destruct E as (j2 & e' & X & E).
    injection E as -> -> ->. unfold wkv. cbn [fst snd].
    eapply seg_trans; [exact (keep_name _ _ _ K) |]. change (operands e) with ([] ++ operands e).
    eapply seg_trans; [| exact (C _ _ _ _ X)]. eapply word_bracketless; [| | exact Q]; reflexivity.
  Qed.

  Lemma entry_entries i r kv c : entry i = POk r kv -> i = c ++ r -> proper c -> r <> [] ->
    exists k q x, c = k :: q :: x /\ fst kv = t_text k /\ t_text q = lit "=" /\ balanced [k] /\ balanced x.
  Proof.
    intros E I P N. apply entry_inv in E. destruct E as (k & q & j & -> & F & BK & Q & X).
    destruct (C _ _ _ _ X) as (x & -> & W).
    assert (c = k :: q :: x) by (apply (app_inv_tail r); now rewrite <- I). subst c.
    exists k, q, x. split; [reflexivity |]. split; [exact F |]. split; [exact Q |].
    assert (PK := P). destruct PK as (PK & _). inversion_clear PK. split; [auto |].
    apply (proper_app [k; q] x) in P. destruct P as [_ P]. destruct (W P) as [[B | B] _]; [contradiction | exact B].
  Qed.

  Lemma sep_entries : forall fuel i r m, sep_loop fuel (text (lit ",")) entry i = POk r m ->
    exists c, i = c ++ r /\
      (m = [] /\ c = [] \/ exists comma c', c = comma :: c' /\ t_text comma = lit ","
                                            /\ (proper c' -> r <> [] -> entries m c')).
  Proof.
    induction fuel as [| fuel IH]; intros i r m E; cbn [sep_loop] in E; [discriminate |].
    destruct (text _ i) as [j x | | | |] eqn:T; try discriminate.
    2: { injection E as <- <-. exists []. split; [reflexivity |]. now left. }
    destruct (Nat.eqb _ _); [discriminate |].
    destruct (entry j) as [j1 kv | | | |] eqn:Y; try discriminate.
    2: { injection E as <- <-. exists []. split; [reflexivity |]. now left. }
    apply bind_inv in E. destruct E as (j' & l & E & Z). injection Z as -> <-.
    apply text_inv in T. destruct T as [-> T]. destruct (IH _ _ _ E) as (c & -> & D).
    destruct (keep_entry _ _ _ Y) as (c1 & -> & W). exists (x :: c1 ++ c). split.
    { cbn [app]. now rewrite app_assoc. }
    right. exists x, (c1 ++ c). split; [reflexivity |]. split; [exact T |]. intros P R.
    assert (NE : c ++ r <> []) by (intros Q; apply app_eq_nil in Q; tauto).
    apply proper_app in P. destruct P as [P1 P2].
    destruct (entry_entries _ _ _ c1 Y eq_refl P1 NE) as (k & q & y & -> & F & Q & BK & BY).
    destruct kv as [k0 e]. cbn [fst] in F. subst k0.
    destruct D as [[-> ->] | (comma & c' & -> & CM & D)].
    - rewrite app_nil_r. now constructor.
    - cbn [app]. apply entries_cons; auto. apply D; [| exact R].
      apply (proper_app [comma] c') in P2. tauto.
  Qed.

  Lemma list_entries i r m : separated_list0 (text (lit ",")) entry i = POk r m -> m <> [] ->
    exists c, i = c ++ r /\ (proper c -> r <> [] -> entries m c).
  Proof.
    unfold separated_list0. intros E N.
    destruct (entry i) as [j kv | | | |] eqn:Y; try discriminate; [| injection E as <- <-; congruence].
    apply bind_inv in E. destruct E as (j' & l & E & Z). injection Z as -> <-.
    destruct (sep_entries _ _ _ _ E) as (c & -> & D).
    destruct (keep_entry _ _ _ Y) as (c1 & -> & W). exists (c1 ++ c). split; [now rewrite app_assoc |].
    intros P R.
    assert (NE : c ++ r <> []) by (intros Q; apply app_eq_nil in Q; tauto).
    apply proper_app in P. destruct P as [P1 P2].
    destruct (entry_entries _ _ _ c1 Y eq_refl P1 NE) as (k & q & y & -> & F & Q & BK & BY).
    destruct kv as [k0 e]. cbn [fst] in F. subst k0.
    destruct D as [[-> ->] | (comma & c' & -> & CM & D)].
    - rewrite app_nil_r. now constructor.
    - cbn [app]. apply entries_cons; auto. apply D; [| exact R].
      apply (proper_app [comma] c') in P2. tauto.
  Qed.

  Definition ender (n : nt) : bool :=
    match n with
    | NP4 | NP3 | NP2 | NP1 | NGroup | NQuote | NMap | NBlock | NList => true
    | _ => false
    end.
  Hypothesis EN : forall n, ender n = true -> endp (call n).

  Lemma endp_operator : endp parse_operator_as_symbol.
  Proof. apply endp_pmap, endp_pmap, endp_kind; discriminate. Qed.

  Lemma ends_text i j r t s : suffix i j -> text s j = POk r t -> existsb (str_eqb s) openers = false ->
    suffix i r /\ ends i r.
  Proof.
    intros S T N. apply text_inv in T. destruct T as [-> <-]. apply existsb_str_not in N.
    destruct (ends_one t r (fun _ => N)) as [S' E]. split; [eapply suffix_trans; eauto | eapply ends_after; eauto].
  Qed.
  Lemma ends_call i j r e n : ender n = true -> suffix i j -> call n j = POk r e ->
    suffix i r /\ ends i r.
  Proof.
    intros N S E. destruct (EN n N _ _ _ E) as [S' D].
    split; [eapply suffix_trans; eauto | eapply ends_after; eauto].
  Qed.
  Lemma terminating_inv i r u : no_terminating slen i = POk r u -> r = i.
  Proof.
    unfold no_terminating. destruct i as [| t i]; [congruence |]. destruct (_ && _); [discriminate | congruence].
  Qed.

  Ltac inv E :=
    let j := fresh "j" in let x := fresh "x" in let X := fresh "X" in
    apply bind_inv in E; destruct E as (j & x & X & E);
    repeat match type of X with
    | map_fail _ _ = POk _ _ => apply fail_inv in X
    | no_terminating _ _ = POk _ _ => apply terminating_inv in X; subst
    end.

  Lemma endp_body n : ender n = true -> endp (body slen call n).
  Proof.
    intros N i r a E. destruct n; try discriminate N; cbn [body] in E.
    - inv E. inv E. injection E as -> _. exact (endp_infix _ _ (EN NP3 eq_refl) _ _ _ X).
    - inv E. inv E. injection E as -> _. exact (endp_infix _ _ (EN NP2 eq_refl) _ _ _ X).
    - inv E. inv E. inv E. injection E as -> _. destruct (EN NP1 eq_refl _ _ _ X) as [S D].
      apply (endp_then (call NP1) _ _ _ S D); (eapply endp_many; [| exact X0]).
      all: intros i1 r1 a1 E1; unfold preceded in E1; inv E1; apply text_inv in X1; destruct X1 as [-> _];
        assert (Q : endp (alt [call NP1; parse_operator_as_symbol]))
          by (apply endp_alt; constructor; [now apply EN |]; constructor; [apply endp_operator | constructor]);
        destruct (Q _ _ _ E1) as [S2 N2];
        split; [eapply suffix_trans; [apply suffix_cons | exact S2] | eapply ends_after; [apply suffix_cons | exact N2]].
    - revert E. apply endp_alt.
      repeat (constructor; [first [now apply EN | apply endp_pmap] |]); [.. | constructor].
      + apply endp_pmap, endp_kind; discriminate.
      + intros j k u T. apply none_inv in T. destruct T as [(t & -> & T) | (b & c & -> & A & B)].
        * apply ends_one. intros _. rewrite T. now apply existsb_str_not.
        * apply (ends_text _ (c :: k) k c (lit ")")); [apply suffix_cons | | reflexivity].
          cbn [text]. now rewrite B, str_eqb_refl.
      + intros j k u T. unfold parse_float in T. inv T. destruct (parse_f64 _); [| discriminate].
        injection T as -> _. revert X. apply endp_kind; discriminate.
      + intros j k u T. unfold parse_integer in T. inv T. destruct (parse_i64 _); [| discriminate].
        injection T as -> _. revert X. apply endp_kind; discriminate.
      + intros j k u T. unfold parse_string in T. inv T. destruct (unescape _); [| discriminate].
        injection T as -> _. revert X. apply endp_kind; discriminate.
      + apply endp_pmap, endp_kind; discriminate.
    - inv E. inv E. inv E. injection E as -> _. apply text_inv in X. destruct X as [-> _].
      assert (S : suffix (x :: j) j0) by (eapply suffix_trans; [apply suffix_cons | eapply seg_suffix, C; eauto]).
      apply alt_inv in X1. destruct X1 as (p & [<- | [<- | []]] & P).
      + unfold pmap in P. inv P. injection P as -> _. eapply ends_text; eauto.
      + unfold empty in P. destruct j0; [| discriminate]. injection P as <- _. split; [exact S | now left].
    - inv E. inv E. injection E as -> _. apply text_inv in X. destruct X as [-> _].
      exact (ends_call _ _ _ _ NP2 eq_refl (suffix_cons _ _) X0).
    - inv E. inv E.
      assert (S : suffix i j0).
      { apply text_inv in X. destruct X as [-> _]. eapply suffix_trans; [apply suffix_cons |].
        eapply seg_suffix, (keep_separated wkv); [| apply keep_entry | exact X0].
        apply word_bracketless; reflexivity. }
      inv E. injection E as -> _.
      assert (T : text (lit "}") j0 = POk r x1).
      { destruct x0; [now apply expected_inv in X1 | now apply fail_inv in X1]. }
      eapply ends_text; eauto.
    - inv E. inv E. inv E. injection E as -> _. apply text_inv in X. destruct X as [-> _].
      eapply ends_text; [| exact X1 | reflexivity].
      eapply suffix_trans; [apply suffix_cons | eapply seg_suffix, C; eauto].
    - inv E. inv E. inv E. injection E as -> _. apply text_inv in X. destruct X as [-> _].
      eapply ends_text; [| exact X1 | reflexivity].
      eapply suffix_trans; [apply suffix_cons |].
      eapply seg_suffix, (keep_separated operands); [| apply C | exact X0].
      apply word_bracketless; reflexivity.
  Qed.

  Lemma seg_text i r t s : text s i = POk r t -> existsb (str_eqb s) no_names = true ->
    existsb (str_eqb s) (map lit ["("; "["; "{"]%string ++ closers) = false -> seg [] i r.
  Proof. intros T N B. exact (word_bracketless s N B _ _ _ T). Qed.
  Lemma seg_skip L i j r : seg [] i j -> seg L j r -> seg L i r.
  Proof. intros A B. exact (seg_trans [] L _ _ _ A B). Qed.
  Lemma seg_skip_end L i j r : seg L i j -> seg [] j r -> seg L i r.
  Proof. intros A B. rewrite <- (app_nil_r L). exact (seg_trans L [] _ _ _ A B). Qed.

  (** How the result of [parse_not] begins. *)
  Hypothesis NOT : forall i r e, call NNot i = POk r e ->
    exists t j, i = t :: j /\ t_text t = lit "!" /\ suffix j r.

  Lemma leaves_word s l : existsb (str_eqb s) no_names = true ->
    operands (EApply (ESymbol s) l) = flat_map operands l.
  Proof. intros N. cbn [operands]. now rewrite name_leaf_word by (now apply existsb_str). Qed.

  Lemma keep_body n : keep operands (body slen call n).
  Proof.
    intros i r a E. destruct n; cbn [body] in E.
    - (* NScript *)
      inv E. inv E. injection E as -> <-. cbn [operands]. rewrite flat_map_app.
      eapply seg_trans; [exact (keep_many0 _ _ (C NStatement) _ _ _ X) |].
      assert (K : keep operands (fun i => let* (i, e) := call NExpr i in
                                          let* (i, u) := opt (text (lit ";")) i in POk i e)).
      { clear - C. intros i r a E. inv E. inv E. injection E as -> ->.
        eapply seg_skip_end; [exact (C _ _ _ _ X) |].
        assert (K : keep (fun _ : token => []) (text (lit ";"))) by (apply word_bracketless; reflexivity).
        pose proof (keep_opt _ _ K _ _ _ X0) as S. destruct x0; exact S. }
      pose proof (keep_opt _ _ K _ _ _ X0) as S. destruct x0; [| exact S].
      cbn [flat_map]. now rewrite app_nil_r.
    - (* NStatement *)
      inv E. pose proof (C _ _ _ _ X) as S.
      assert (D : (exists t, text (lit ";") j = POk r t /\ x = a) \/ (r = j /\ x = a)).
      { destruct (text _ j) as [r' t | | | |] eqn:T; [left; injection E as -> ->; eauto | ..]; right;
          destruct x; try discriminate; injection E as -> ->; auto. }
      destruct D as [(t & T & ->) | [-> ->]]; [| exact S].
      eapply seg_skip_end; [exact S |]. eapply seg_text; [exact T | reflexivity ..].
    - (* NExpr *)
      inv E. inv E. destruct x0 as [h l].
      apply infix_inv in X; [| reflexivity | apply C]. destruct X as (j0 & P & S & O & EM).
      pose proof (seg_trans _ _ _ _ _ (C _ _ _ _ P) S) as T.
      destruct l as [| p l]; [injection E as -> ->; now rewrite app_nil_r in T |].
      destruct (pipe_args [h] (p :: l)) as [args |] eqn:PA; [| discriminate].
      apply (pipe_leaves _ O) in PA. cbn [flat_map] in PA. rewrite app_nil_r in PA.
      destruct args as [| y [| z args]]; injection E as -> <-; (eapply seg_perm; [| exact T]); symmetry.
      + exact PA.
      + cbn [flat_map] in PA. now rewrite app_nil_r in PA.
      + exact PA.
    - (* NP7 *)
      inv E. revert E. apply keep_alt. repeat (constructor; [apply C |]). constructor.
    - (* NFor *)
      inv E. inv E. inv E. inv E. inv E. injection E as -> <-. cbn [operands].
      eapply seg_skip; [eapply seg_text; [exact X | reflexivity ..] |].
      eapply seg_trans; [exact (keep_symbol _ _ _ X0) |].
      eapply seg_skip; [eapply seg_text; [exact X1 | reflexivity ..] |].
      eapply seg_trans; [| exact (C _ _ _ _ X3)].
      revert X2. apply keep_alt. repeat (constructor; [apply C |]). constructor.
    - (* NIf *)
      inv E. inv E. inv E. inv E. injection E as -> <-. cbn [operands].
      eapply seg_skip; [eapply seg_text; [exact X | reflexivity ..] |].
      eapply seg_trans; [exact (C _ _ _ _ X0) |].
      eapply seg_trans; [exact (C _ _ _ _ X1) |].
      assert (K : keep operands (preceded (text (lit "else")) (alt [call NIf; call NP4]))).
      { clear X2. intros i1 r1 a1 E1. unfold preceded in E1. inv E1.
        eapply seg_skip; [eapply seg_text; [exact X2 | reflexivity ..] |].
        revert E1. apply keep_alt. repeat (constructor; [apply C |]). constructor. }
      pose proof (keep_opt _ _ K _ _ _ X2) as S. destruct x2; exact S.
    - (* NAssign *)
      inv E. inv E. inv E. inv E. injection E as -> <-. cbn [operands].
      eapply seg_skip; [eapply seg_text; [exact X | reflexivity ..] |].
      eapply seg_trans; [exact (keep_name _ _ _ X0) |].
      eapply seg_skip; [eapply seg_text; [exact X1 | reflexivity ..] |]. exact (C _ _ _ _ X2).
    - (* NCallable *)
      inv E. inv E. inv E.
      assert (S : seg (name_leaf x ++ operands x1) i j1).
      { eapply seg_trans; [exact (keep_symbol _ _ _ X) |].
        eapply seg_skip; [| exact (C _ _ _ _ X1)].
        revert X0. apply (keep_alt (fun _ => [])). repeat constructor; apply word_bracketless; reflexivity. }
      destruct (str_eqb _ _); [injection E as -> <-; exact S |].
      destruct (str_eqb _ _); [injection E as -> <-; exact S | discriminate].
    - (* NApply *)
      inv E. inv E. injection E as -> <-. cbn [operands].
      eapply seg_trans; [| exact (keep_many1 _ _ (C NP5) _ _ _ X0)].
      revert X. apply keep_alt. constructor; [apply C |]. constructor; [apply keep_operator_symbol | constructor].
    - (* NApplyOp *)
      inv E. inv E. injection E as -> <-.
      pose proof (seg_trans _ _ _ _ _ (keep_operator_symbol _ _ _ X) (keep_many0 _ _ (C NP5) _ _ _ X0)) as S.
      destruct x0; [| exact S]. cbn [flat_map] in S. now rewrite app_nil_r in S.
    - (* NP6 *)
      inv E. inv E. injection E as -> <-. destruct x0 as [h l]. cbn [fst snd].
      apply infix_inv in X; [| reflexivity | apply C]. destruct X as (j0 & P & S & O & EM).
      eapply seg_perm; [symmetry; apply (fold_ops_leaves _ O) |]. exact (seg_trans _ _ _ _ _ (C _ _ _ _ P) S).
    - (* NRange *)
      inv E. inv E. inv E. inv E. injection E as -> <-. rewrite leaves_word by reflexivity.
      cbn [flat_map]. rewrite app_nil_r.
      eapply seg_trans; [exact (C _ _ _ _ X) |].
      eapply seg_skip; [eapply seg_text; [exact X0 | reflexivity ..] |]. exact (C _ _ _ _ X1).
    - (* NP5 *)
      inv E. inv E. destruct x0 as [h l].
      apply infix_inv in X; [| reflexivity | apply C]. destruct X as (j0 & P & S & O & EM).
      destruct l as [| p l].
      2: { injection E as -> <-. eapply seg_perm; [symmetry; apply (fold_ops_leaves _ O) |].
           exact (seg_trans _ _ _ _ _ (C _ _ _ _ P) S). }
      rewrite (EM eq_refl) in *. clear EM S O.
      assert (NT : match call NNot j0 with
                   | POk i2 e => POk i2 e
                   | PPanic => PPanic
                   | PFuel => PFuel
                   | _ => POk j0 h
                   end = POk r a -> seg (operands a) i r).
      { intros X. destruct (call NNot j0) as [i2 e2 | | | |] eqn:NN; try discriminate.
        2, 3: injection X as <- <-; exact (C _ _ _ _ P).
        injection X as -> ->.
        assert (S : seg (operands h ++ operands a) i r) by exact (seg_trans _ _ _ _ _ (C _ _ _ _ P) (C _ _ _ _ NN)).
        eapply seg_when; [exact S |]. intros c EQ PC. exfalso.
        destruct (EN NP4 eq_refl _ _ _ P) as [_ EP].
        destruct (NOT _ _ _ NN) as (t & j1 & -> & T & [c2 ->]).
        assert (WI : Forall well c) by apply PC.
        destruct (C _ _ _ _ P) as (c1 & -> & _).
        assert (c = c1 ++ t :: c2).
        { apply (app_inv_tail r). rewrite <- EQ, <- app_assoc. reflexivity. }
        subst c.
        destruct EP as [EP | (c1' & u & EP & NU)]; [discriminate |].
        assert (c1 = c1' ++ [u]).
        { apply (app_inv_tail (t :: c2 ++ r)). rewrite <- app_assoc. exact EP. }
        subst c1. apply NU.
        - rewrite <- app_assoc in WI. apply Forall_app in WI. destruct WI as [_ WI]. now inversion WI.
        - destruct PC as (_ & NL & _). apply (NL c1' u t c2); [now rewrite <- app_assoc | exact T]. }
      destruct (text (lit "to") j0) as [i' t | | | |] eqn:T; try exact (NT E).
      inv E. injection E as -> <-. rewrite leaves_word by reflexivity.
      cbn [flat_map]. rewrite app_nil_r.
      eapply seg_trans; [exact (C _ _ _ _ P) |].
      eapply seg_skip; [eapply seg_text; [exact T | reflexivity ..] |]. exact (C _ _ _ _ X).
    - (* NNot *)
      inv E. inv E. injection E as -> <-. rewrite leaves_word by reflexivity.
      cbn [flat_map]. rewrite app_nil_r.
      eapply seg_skip; [eapply seg_text; [exact X | reflexivity ..] |]. exact (C _ _ _ _ X0).
    - (* NP4 *)
      inv E. inv E. injection E as -> <-. destruct x0 as [h l]. cbn [fst snd].
      apply infix_inv in X; [| reflexivity | apply C]. destruct X as (j0 & P & S & O & EM).
      eapply seg_perm; [symmetry; apply (fold_ops_leaves _ O) |]. exact (seg_trans _ _ _ _ _ (C _ _ _ _ P) S).
    - (* NP3 *)
      inv E. inv E. injection E as -> <-. destruct x0 as [h l]. cbn [fst snd].
      apply infix_inv in X; [| reflexivity | apply C]. destruct X as (j0 & P & S & O & EM).
      eapply seg_perm; [symmetry; apply (fold_ops_leaves _ O) |]. exact (seg_trans _ _ _ _ _ (C _ _ _ _ P) S).
    - (* NP2 *)
      inv E. inv E. inv E. injection E as -> <-.
      assert (K : keep operands (preceded (text (lit "@")) (alt [call NP1; parse_operator_as_symbol]))).
      { clear X0. intros i1 r1 a1 E1. unfold preceded in E1. inv E1.
        eapply seg_skip; [eapply seg_text; [exact X0 | reflexivity ..] |].
        revert E1. apply keep_alt. constructor; [apply C |].
        constructor; [apply keep_operator_symbol | constructor]. }
      pose proof (seg_trans _ _ _ _ _ (C _ _ _ _ X) (keep_many0 _ _ K _ _ _ X0)) as S.
      destruct x1; [| exact S]. cbn [flat_map] in S. now rewrite app_nil_r in S.
    - (* NP1 *)
      revert E. apply keep_alt. repeat (constructor; [first [apply C | apply keep_pmap] |]); [.. | constructor].
      + exact keep_boolean.
      + exact (keep_none slen).
      + exact keep_float.
      + exact keep_integer.
      + exact keep_string.
      + exact keep_symbol.
    - (* NGroup *)
      inv E. inv E. inv E. injection E as -> <-. cbn [operands].
      apply text_inv in X. destruct X as [-> T]. pose proof (C _ _ _ _ X0) as S.
      apply alt_inv in X1. destruct X1 as (p & [<- | [<- | []]] & P).
      + unfold pmap in P. inv P. injection P as -> _. apply text_inv in X. destruct X as [-> T'].
        eapply seg_wrap; [rewrite T; now left | rewrite T'; now left | exact S].
      + unfold empty in P. destruct j0; [| discriminate]. injection P as <- _.
        apply seg_open; [rewrite T; now left | exact S].
    - (* NQuote *)
      inv E. inv E. injection E as -> <-. cbn [operands].
      eapply seg_skip; [eapply seg_text; [exact X | reflexivity ..] |]. exact (C _ _ _ _ X0).
    - (* NMap *)
      inv E. inv E. inv E. injection E as -> <-.
      assert (T : text (lit "}") j0 = POk r x1).
      { destruct x0; [now apply expected_inv in X1 | now apply fail_inv in X1]. }
      clear X1. apply text_inv in X, T. destruct X as [-> O], T as [-> Q]. cbn [operands].
      assert (S : seg (flat_map wkv x0) j (x1 :: r)).
      { eapply (keep_separated wkv); [| apply keep_entry | exact X0]. apply word_bracketless; reflexivity. }
      assert (S1 : seg (flat_map wkv x0) (x :: j) r).
      { eapply (seg_wrap _ j); [rewrite O; cbn; tauto | rewrite Q; cbn; tauto | exact S]. }
      eapply seg_when; [exact S1 |]. intros c EQ PC.
      apply (Permutation_flat_map wkv), bm_of_list_perm.
      destruct x0 as [| kv m]; [constructor |].
      destruct (list_entries _ _ _ X0) as (y & -> & EM); [discriminate |].
      assert (c = x :: y ++ [x1]).
      { apply (app_inv_tail r). rewrite <- EQ. cbn [app]. now rewrite <- app_assoc. }
      subst c. apply (entries_nodup _ y) with (o := x) (b := [x1]); [| now left | apply PC].
      apply EM; [| discriminate]. apply (proper_app [x]) in PC. destruct PC as [_ PC].
      apply proper_app in PC. apply PC.
    - (* NBlock *)
      inv E. inv E. inv E. injection E as -> ->.
      apply text_inv in X, X1. destruct X as [-> T], X1 as [-> T'].
      eapply seg_wrap; [| | exact (C _ _ _ _ X0)]; [rewrite T | rewrite T']; cbn; tauto.
    - (* NList *)
      inv E. inv E. inv E. injection E as -> <-.
      apply text_inv in X, X1. destruct X as [-> T], X1 as [-> T'].
      eapply (seg_wrap _ j); [rewrite T; cbn; tauto | rewrite T'; cbn; tauto |].
      eapply (keep_separated operands); [| apply C | exact X0]. apply word_bracketless; reflexivity.
  Qed.
End Body.

Lemma not_begins slen call i r e : (forall n, keep operands (call n)) -> body slen call NNot i = POk r e ->
  exists t j, i = t :: j /\ t_text t = lit "!" /\ suffix j r.
Proof.
  intros C E. cbn [body] in E. apply bind_inv in E. destruct E as (j & t & T & E).
  apply bind_inv in E. destruct E as (k & x & X & E). injection E as -> _.
  apply text_inv in T. destruct T as [-> T]. exists t, j. split; [reflexivity |]. split; [exact T |].
  eapply seg_suffix, C. exact X.
Qed.

Lemma parse_keeps slen fuel :
  (forall n, keep operands (parse slen fuel n))
  /\ (forall n, ender n = true -> endp (parse slen fuel n))
  /\ (forall i r e, parse slen fuel NNot i = POk r e ->
        exists t j, i = t :: j /\ t_text t = lit "!" /\ suffix j r).
Proof.
  induction fuel as [| fuel (K & E & N)].
  - split; [| split]; intros; try discriminate; intros i r e X; discriminate.
  - split; [| split].
    + intros n. now apply keep_body.
    + intros n Q. now apply endp_body.
    + intros i r e X. exact (not_begins slen (parse slen fuel) i r e K X).
Qed.

Theorem script_keeps slen fuel ts e :
  Forall well ts -> not_leads ts -> ~ repeated_key ts ->
  parse slen fuel NScript ts = POk [] e -> Permutation (operands e) (written ts).
Proof.
  intros W N R E. destruct (parse_keeps slen fuel) as (K & _). destruct (K _ _ _ _ E) as (c & EQ & P).
  rewrite app_nil_r in EQ. subst c. apply P. now split.
Qed.

(** ** The tokens of a text *)

Lemma talt_inv {A} (ps : list (input -> tres A)) i j a : talt ps i = TOk j a ->
  exists x p y, ps = x ++ p :: y /\ Forall (fun q => q i = TErr) x /\ p i = TOk j a.
Proof.
  induction ps as [| p ps IH]; cbn [talt]; [discriminate |]. destruct (p i) eqn:E; try discriminate.
  - intros X. exists [], p, ps. split; [reflexivity |]. split; [constructor | congruence].
  - intros X. destruct (IH X) as (x & q & y & -> & F & Q). exists (p :: x), q, y.
    split; [reflexivity |]. split; [now constructor | exact Q].
Qed.
Lemma strip_text p i j x : strip_prefix_i p i = TOk j x -> p_text x = p.
Proof.
  unfold strip_prefix_i. destruct (strip_prefix p (i_rest i)) as [r |] eqn:E; [| discriminate].
  apply strip_prefix_app in E. destruct i as [off s]. cbn [i_rest] in E. subst s. rewrite split_at_ok.
  intros X. now injection X as _ <-.
Qed.
Lemma keyword_text k i j x : keyword_tag k i = TOk j x -> p_text x = k.
Proof.
  unfold keyword_tag. destruct (strip_prefix_i k i) as [i' p | | |] eqn:E; try discriminate.
  pose proof (strip_text _ _ _ _ E) as T.
  destruct (i_rest i') as [| c r]; [| destruct (is_symbol_char c); [discriminate |]]; intros X;
    now injection X as _ <-.
Qed.

Lemma talt_text (ps : list (input -> tres piece)) (P : str -> Prop) i j x :
  Forall (fun p => forall j x, p i = TOk j x -> P (p_text x)) ps -> talt ps i = TOk j x -> P (p_text x).
Proof.
  intros F E. apply talt_inv in E. destruct E as (a & p & b & -> & _ & E).
  apply Forall_app in F. destruct F as [_ F]. inversion_clear F. eauto.
Qed.
Lemma talt_err {A} (ps : list (input -> tres A)) i : talt ps i = TErr -> Forall (fun p => p i = TErr) ps.
Proof.
  induction ps as [| p ps IH]; cbn [talt]; intros E; [constructor |].
  destruct (p i) eqn:X; try discriminate. constructor; auto.
Qed.
Lemma valid_inv p k i j t d : map_valid_token p k i = TOk j (t, d) ->
  exists x, p i = TOk j x /\ t_kind t = k /\ t_text t = p_text x.
Proof.
  unfold map_valid_token. destruct (p i) as [i' x | | |]; cbn [tbind]; try discriminate.
  intros E. injection E as -> <- <-. exists x. now split.
Qed.
Lemma valid_err p k i : map_valid_token p k i = TErr -> p i = TErr.
Proof. unfold map_valid_token. destruct (p i); cbn [tbind]; congruence. Qed.

(** A keyword where one is written. *)
Lemma keyword_there k i r : i_rest i = k ++ r -> next_plain r -> keyword_tag k i <> TErr.
Proof.
  intros E N. unfold keyword_tag.
  destruct (strip_prefix_i_spec k i) as [(i' & [E' _] & ->) | [-> D]].
  - rewrite E in E'. apply app_inv_head in E'. rewrite <- E'. unfold next_plain in N.
    destruct r as [| c r]; [discriminate |]. rewrite N. discriminate.
  - destruct (D r E).
Qed.

Lemma number_digit i j t d : number_literal i = TOk j (t, d) ->
  (t_kind t = TkIntegerLiteral \/ t_kind t = TkFloatLiteral)
  /\ exists c, In c (t_text t) /\ is_digit c = true.
Proof.
  set (Q := fun (_ : input) (x : token * diagnostic) =>
    (t_kind (fst x) = TkIntegerLiteral \/ t_kind (fst x) = TkFloatLiteral)
    /\ exists c, In c (t_text (fst x)) /\ is_digit c = true).
  assert (G : outcome Q False (number_literal i)).
  { clear - Q. unfold number_literal. eapply outcome_bind with (P := fun j _ => exists a, step i j a).
    { destruct (strip_prefix_i_spec (lit "-") i) as [(i' & S & ->)|[-> _]]; [simpl; eauto |].
      pose proof (split_at_ok [] (i_rest i) (i_off i)) as E. simpl in E.
      replace (Inp (i_off i) (i_rest i)) with i in E by now destruct i.
      rewrite E. simpl. exists []. split; [reflexivity |]. simpl. lia. }
    intros j _ [a Sa].
    eapply outcome_bind with (P := fun k _ => exists b, step i k b /\ exists c, In c b /\ is_digit c = true).
    { destruct (strip_prefix_i_spec (lit "0") j) as [(k & S & ->)|[-> _]].
      - cbn. exists (a ++ lit "0"). split; [eapply step_trans; eassumption |].
        exists 48%N. split; [apply in_or_app; right; now left | reflexivity].
      - destruct (N.ltb_spec 0 (N.of_nat (length (fst (span is_digit (i_rest j)))))) as [L|L]; [| exact I].
        rewrite (span_len _ _ digit_ascii). destruct j as [off s]. cbn [i_rest] in *.
        pose proof (split_at_ok (fst (span is_digit s)) (snd (span is_digit s)) off) as X.
        rewrite span_app in X. rewrite X. cbn.
        exists (a ++ fst (span is_digit s)). split.
        { eapply step_trans; [exact Sa |]. split; cbn [i_rest i_off]; [symmetry; apply span_app | reflexivity]. }
        pose proof (span_all is_digit s) as F. destruct (fst (span is_digit s)) as [| c r]; [cbn in L; lia |].
        inversion_clear F. exists c. split; [apply in_or_app; right; now left | assumption]. }
    intros k _ (b & Sb & c & CI & CD).
    assert (DONE : forall k' x kd d, step k k' x -> kd = TkIntegerLiteral \/ kd = TkFloatLiteral ->
      outcome Q False (tbind (split_until i k') (fun r p => TOk r (mk_token kd p, d (p_range p))))).
    { intros k' x kd d Sc KD. rewrite (split_until_ok _ _ _ (step_trans _ _ _ _ _ Sb Sc)). cbn.
      split; [exact KD |]. exists c. split; [apply in_or_app; now left | exact CD]. }
    destruct (strip_prefix_i_spec (lit ".") k) as [(k' & S & ->)|[-> _]].
    - destruct (N.eqb_spec (N.of_nat (length (fst (span is_digit (i_rest k'))))) 0) as [Z|Z].
      + apply (DONE k' _ TkFloatLiteral DInvalidNumber S). now right.
      + eapply outcome_bind; [apply places_split |].
        { rewrite <- (span_len _ _ digit_ascii). lia. }
        intros k'' p [[S' _] _].
        apply (DONE k'' _ TkFloatLiteral (fun _ => DValid) (step_trans _ _ _ _ _ S S')). now right.
    - apply (DONE k [] TkIntegerLiteral (fun _ => DValid) (step_refl k)). now left. }
  intros E. rewrite E in G. exact G.
Qed.

Lemma no_names_check (f : chr -> bool) s :
  forallb (fun w => negb (existsb f w)) no_names = true -> In s no_names -> forall c, In c s -> f c = false.
Proof.
  intros F I c C. rewrite forallb_forall in F. specialize (F s I).
  destruct (f c) eqn:E; [| reflexivity]. apply negb_true_iff in F.
  rewrite <- not_true_iff_false in F. destruct F. apply existsb_exists. eauto.
Qed.

Ltac each_tag :=
  repeat (constructor; [let j := fresh in let x := fresh in let E := fresh in intros j x E;
    first [apply keyword_text in E | apply strip_text in E]; rewrite E; apply existsb_str; reflexivity |]); constructor.

Lemma symbol_text i j x : symbol i = TOk j x ->
  p_text x = fst (span is_symbol_char (i_rest i)).
Proof.
  unfold symbol. destruct (_ =? 0)%N; [discriminate |]. destruct i as [off s]. cbn [i_rest].
  rewrite <- (span_app is_symbol_char s) at 2. rewrite split_at_ok. intros E. now injection E as _ <-.
Qed.

Lemma token_well i j t : parse_token i = TOk j (t, DValid) -> well t.
Proof.
  unfold parse_token. destruct (i_rest i) as [| c0 r0] eqn:R; [discriminate |].
  cbn [talt].
  destruct (map_valid_token long_operator TkOperator i) as [j1 [t1 d1] | | |] eqn:E1; try discriminate.
  { intros E. injection E as -> -> ->. apply valid_inv in E1. destruct E1 as (x & X & K & T).
    unfold well. rewrite K, T. revert X. apply (talt_text _ (fun s => In s operator_words)). each_tag. }
  destruct (map_valid_token any_punctuation TkPunctuation i) as [j1 [t1 d1] | | |] eqn:E2; try discriminate.
  { intros E. injection E as -> -> ->. apply valid_inv in E2. destruct E2 as (x & X & K & T).
    unfold well. rewrite K, T. revert X. apply (talt_text _ (fun s => In s (openers ++ closers))). each_tag. }
  destruct (map_valid_token any_keyword TkKeyword i) as [j1 [t1 d1] | | |] eqn:E3; try discriminate.
  { intros E. injection E as -> -> ->. apply valid_inv in E3. destruct E3 as (x & X & K & T).
    unfold well. rewrite K, T. revert X. apply (talt_text _ (fun s => In s key_words)). each_tag. }
  destruct (map_valid_token short_operator TkOperator i) as [j1 [t1 d1] | | |] eqn:E4; try discriminate.
  { intros E. injection E as -> -> ->. apply valid_inv in E4. destruct E4 as (x & X & K & T).
    unfold well. rewrite K, T. revert X. apply (talt_text _ (fun s => In s operator_words)). each_tag. }
  destruct (map_valid_token bool_literal TkBooleanLiteral i) as [j1 [t1 d1] | | |] eqn:E5; try discriminate.
  { intros E. injection E as -> -> ->. apply valid_inv in E5. destruct E5 as (x & X & K & T).
    unfold well. rewrite K, T. revert X. apply (talt_text _ (fun s => ~ In s no_names)).
    repeat (constructor; [intros j2 x2 X2; apply keyword_text in X2; rewrite X2; apply existsb_str_not; reflexivity |]).
    constructor. }
  destruct (map_valid_token comment TkComment i) as [j1 [t1 d1] | | |] eqn:E6; try discriminate.
  { intros E. injection E as -> -> ->. apply valid_inv in E6. destruct E6 as (x & X & K & T).
    unfold well. now rewrite K. }
  destruct (string_literal i) as [j1 [t1 d1] | | |] eqn:E7; try discriminate.
  { intros E. injection E as -> -> ->. pose proof (string_literal_ok i) as O. rewrite E7 in O.
    destruct O as [[S _] [NE _]]. cbn [fst] in *.
    assert (K : t_kind t = TkStringLiteral /\ exists r, i_rest i = 34%N :: r).
    { unfold string_literal in E7. destruct (strip_prefix_i_spec [34%N] i) as [(i' & [EI _] & Q) | [Q _]];
        unfold punctuation_tag in E7 at 1; rewrite Q in E7; cbn [tbind] in E7; [| discriminate].
      destruct (parse_string_inner i') as [i1 d | | |]; cbn [tbind] in E7; try discriminate.
      destruct (talt _ i1) as [i2 p2 | | |]; cbn [tbind] in E7; try discriminate.
      destruct (split_until i i2) as [i3 p3 | | |]; cbn [tbind] in E7; try discriminate.
      injection E7 as _ <- _. split; [reflexivity |]. cbn [app] in EI. eauto. }
    destruct K as [K [r Q]]. unfold well. rewrite K. intros I.
    destruct (t_text t) as [| c s] eqn:T; [congruence |]. rewrite Q in S. injection S as <- _.
    pose proof (no_names_check (N.eqb 34) _ eq_refl I 34%N (or_introl eq_refl)). discriminate. }
  destruct (number_literal i) as [j1 [t1 d1] | | |] eqn:E8; try discriminate.
  { intros E. injection E as -> -> ->. destruct (number_digit _ _ _ _ E8) as (K & c & CI & CD).
    assert (N : ~ In (t_text t) no_names).
    { intros I. pose proof (no_names_check is_digit _ eq_refl I c CI). congruence. }
    unfold well. destruct K as [-> | ->]; exact N. }
  destruct (map_valid_token symbol TkSymbol i) as [j1 [t1 d1] | | |] eqn:E9; try discriminate.
  { intros E. injection E as -> -> ->. apply valid_inv in E9. destruct E9 as (x & X & K & T).
    unfold well. rewrite K, T. apply symbol_text in X. rewrite X. intros I.
    pose proof (span_app is_symbol_char (i_rest i)) as SA. symmetry in SA.
    pose proof (span_next (i_rest i)) as SN. pose proof (span_all is_symbol_char (i_rest i)) as SS.
    set (w := fst (span is_symbol_char (i_rest i))) in *.
    assert (KW : forall k, In k (map lit ["to"; "&&"; "//"; "<<"; ">>"; ">>>"; "->"; "~>"; "None"; "then"; "else";
                                       "let"; "for"; "if"; "in"; "<"; ">"; "+"; "-"; "%"]%string) ->
                          keyword_tag k i = TErr).
    { clear SS. apply valid_err, talt_err in E1, E2, E3, E4.
      repeat match goal with H : Forall _ _ |- _ => inversion_clear H end.
      intros k Q. cbn [map In] in Q.
      repeat match goal with Q : _ \/ _ |- _ => destruct Q as [Q | Q]; [subst k; assumption |] end. destruct Q. }
    destruct (existsb (str_eqb w) (map lit ["to"; "&&"; "//"; "<<"; ">>"; ">>>"; "->"; "~>"; "None"; "then"; "else";
                                       "let"; "for"; "if"; "in"; "<"; ">"; "+"; "-"; "%"]%string)) eqn:B.
    - apply existsb_str in B. apply (keyword_there w i _ SA SN). now apply KW.
    - assert (F : forallb (fun w => existsb (str_eqb w) (map lit ["to"; "&&"; "//"; "<<"; ">>"; ">>>"; "->"; "~>"; "None"; "then"; "else";
                                       "let"; "for"; "if"; "in"; "<"; ">"; "+"; "-"; "%"]%string)
                                 || negb (forallb is_symbol_char w)) no_names = true) by reflexivity.
      rewrite forallb_forall in F. specialize (F w I). rewrite B in F. cbn [orb] in F.
      apply negb_true_iff in F. rewrite <- not_true_iff_false in F. apply F.
      apply forallb_forall. now apply Forall_forall. }
  destruct (map_valid_token whitespace TkWhitespace i) as [j1 [t1 d1] | | |] eqn:E10; try discriminate.
  { intros E. injection E as -> -> ->. apply valid_inv in E10. destruct E10 as (x & X & K & T).
    unfold well. now rewrite K. }
  destruct (split_at _ i); cbn [tbind]; discriminate.
Qed.

Lemma tokens_well fuel : forall i ts ds, parse_tokens_loop fuel i = TokOk ts ds ->
  filter not_valid ds = [] -> Forall well ts.
Proof.
  induction fuel as [| fuel IH]; intros i ts ds E V; cbn [parse_tokens_loop] in E; [discriminate |].
  destruct (parse_token i) as [i' [t d] | | |] eqn:T; try discriminate.
  - destruct (parse_tokens_loop fuel i') as [ts' ds' | |] eqn:L; try discriminate. injection E as <- <-.
    cbn [filter] in V. destruct d; try discriminate. constructor; [exact (token_well _ _ _ T) |].
    exact (IH _ _ _ L V).
  - injection E as <- _. constructor.
Qed.

Lemma written_significant ts : written (filter significant ts) = written ts.
Proof.
  induction ts as [| t ts IH]; [reflexivity |]. cbn [filter written flat_map].
  destruct (significant t) eqn:S; [cbn [flat_map]; now f_equal |]. unfold written in IH. rewrite IH.
  unfold significant in S. unfold token_leaf. destruct (t_kind t); try discriminate; reflexivity.
Qed.

Theorem parse_script_keeps s ts ds e :
  tokenize s = TokOk ts ds -> parse_script s = SOk e ->
  not_leads (filter significant ts) -> ~ repeated_key (filter significant ts) ->
  Permutation (operands e) (written ts).
Proof.
  intros T E N R. unfold parse_script in E. rewrite T in E.
  destruct (filter not_valid ds) eqn:V; [| discriminate]. destruct (adjacent_error ts); [discriminate |].
  rewrite <- written_significant.
  destruct (parse _ _ _ _) as [[| u r] x | | | |] eqn:P; try discriminate. injection E as ->.
  eapply script_keeps; eauto. unfold tokenize in T. apply tokens_well in T; [| exact V].
  apply Forall_forall. intros x X. apply filter_In in X. rewrite Forall_forall in T. now apply T.
Qed.
