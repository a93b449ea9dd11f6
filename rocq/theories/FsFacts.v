(** Facts about the file operations. *)

From Coq Require Import String List Lia PeanoNat Bool.
From Verif Require Import Base Text MapFacts Fs FsHost FsSpec.
Import ListNotations.

(** * Paths *)

Lemma below_refl p : below p p.
Proof. exists []. now rewrite app_nil_r. Qed.

Lemma below_cons x p y q : below (x :: p) (y :: q) <-> x = y /\ below p q.
Proof.
  split.
  - intros [r E]. inversion E. split; auto. now exists r.
  - intros [-> [r ->]]. now exists r.
Qed.

Lemma below_nil q : below [] q.
Proof. now exists q. Qed.

Lemma below_cons_nil x p : ~ below (x :: p) [].
Proof. intros [r E]. discriminate. Qed.

Lemma below_dec p q : below p q \/ ~ below p q.
Proof.
  revert q. induction p as [|x p IH]; intros q; [left; apply below_nil|].
  destruct q as [|y q]; [right; apply below_cons_nil|].
  destruct (str_eqb x y) eqn:E.
  - apply str_eqb_eq in E. subst. destruct (IH q) as [B|B].
    + left. now apply below_cons.
    + right. intros F. apply (proj1 (below_cons _ _ _ _)) in F. tauto.
  - right. intros F. apply (proj1 (below_cons _ _ _ _)) in F. destruct F as [-> _].
    rewrite str_eqb_refl in E. discriminate.
Qed.

Lemma below_trans p q r : below p q -> below q r -> below p r.
Proof. intros [a ->] [b ->]. exists (a ++ b). now rewrite app_assoc. Qed.

Lemma exists_last_or {A} (l : list A) : l = [] \/ exists l' a, l = l' ++ [a].
Proof.
  destruct l as [|a l]; [now left|]. right.
  destruct (exists_last (l := a :: l)) as (l' & b & E); [discriminate | eauto].
Qed.

Lemma below_snoc q p x : below q (p ++ [x]) -> below q p \/ q = p ++ [x].
Proof.
  intros [r E]. destruct (exists_last_or r) as [->|(r' & y & ->)].
  - right. now rewrite app_nil_r in E.
  - left. rewrite app_assoc in E. apply app_inj_tail in E. destruct E as [-> _]. now exists r'.
Qed.

Lemma proper_snoc q p x : below q (p ++ [x]) -> q <> p ++ [x] -> below q p.
Proof. intros B N. destruct (below_snoc _ _ _ B) as [C|C]; [exact C | contradiction]. Qed.

Lemma below_antisym p q : below p q -> below q p -> p = q.
Proof.
  intros [a ->] [b E]. rewrite <- app_assoc in E. rewrite <- (app_nil_r p) in E at 1.
  apply app_inv_head in E. destruct a; [now rewrite app_nil_r | discriminate].
Qed.

Lemma path_eqb_eq p q : path_eqb p q = true <-> p = q.
Proof.
  revert q. induction p as [|x p IH]; destruct q as [|y q]; cbn; split; intros E; try discriminate; auto.
  - apply andb_true_iff in E. destruct E as [E F]. apply str_eqb_eq in E. apply IH in F. now subst.
  - inversion E. subst. rewrite str_eqb_refl. now apply IH.
Qed.

Lemma path_eqb_neq p q : path_eqb p q = false <-> p <> q.
Proof.
  split; intros E.
  - intros F. apply path_eqb_eq in F. congruence.
  - destruct (path_eqb p q) eqn:F; auto. now apply path_eqb_eq in F.
Qed.

Lemma prefixb_below p q : prefixb p q = true <-> below p q.
Proof.
  revert q. induction p as [|x p IH]; intros q; cbn.
  - split; auto using below_nil.
  - destruct q as [|y q].
    + split; [discriminate | intros B; now apply below_cons_nil in B].
    + rewrite andb_true_iff, IH, str_eqb_eq, below_cons. tauto.
Qed.

(** * Entries *)

Lemma entry_set_same x m es : entry x (set_entry x m es) = Some m.
Proof.
  induction es as [|[y n] es IH]; cbn; [now rewrite str_eqb_refl|].
  destruct (str_eqb x y) eqn:E; cbn; [now rewrite str_eqb_refl|]. now rewrite E.
Qed.

Lemma entry_set_other x y m es : x <> y -> entry y (set_entry x m es) = entry y es.
Proof.
  intros N. induction es as [|[z n] es IH]; cbn.
  - destruct (str_eqb y x) eqn:E; auto. apply str_eqb_eq in E. congruence.
  - destruct (str_eqb x z) eqn:E; cbn.
    + apply str_eqb_eq in E. subst z.
      destruct (str_eqb y x) eqn:F; auto. apply str_eqb_eq in F. congruence.
    + destruct (str_eqb y z); auto.
Qed.

Lemma entry_drop_same x es : entry x (drop_entry x es) = None.
Proof.
  induction es as [|[y n] es IH]; cbn; auto.
  destruct (str_eqb x y) eqn:E; cbn; auto. now rewrite E.
Qed.

Lemma entry_drop_other x y es : x <> y -> entry y (drop_entry x es) = entry y es.
Proof.
  intros N. induction es as [|[z n] es IH]; cbn; auto.
  destruct (str_eqb x z) eqn:E; cbn.
  - apply str_eqb_eq in E. subst z.
    destruct (str_eqb y x) eqn:F; auto. apply str_eqb_eq in F. congruence.
  - destruct (str_eqb y z); auto.
Qed.

Lemma entry_in x n es : entry x es = Some n -> In (x, n) es.
Proof.
  induction es as [|[y m] es IH]; cbn; [discriminate|].
  destruct (str_eqb x y) eqn:E.
  - apply str_eqb_eq in E. intros F. inversion F. subst. now left.
  - intros F. right. now apply IH.
Qed.

Lemma in_entry x n es : NoDup (map fst es) -> In (x, n) es -> entry x es = Some n.
Proof.
  induction es as [|[y m] es IH]; cbn; [contradiction|].
  intros ND [E|I].
  - inversion E. subst. now rewrite str_eqb_refl.
  - inversion ND; subst. destruct (str_eqb x y) eqn:E; auto.
    apply str_eqb_eq in E. subst. exfalso. apply H1.
    apply in_map_iff. exists (y, n). auto.
Qed.

Lemma entry_none x es : entry x es = None <-> ~ In x (map fst es).
Proof.
  induction es as [|[y m] es IH]; cbn; [tauto|].
  destruct (str_eqb x y) eqn:E.
  - apply str_eqb_eq in E. subst. split; [discriminate | tauto].
  - rewrite IH. split; intros N; [intros [->|I]; [rewrite str_eqb_refl in E; discriminate | auto] | tauto].
Qed.

Lemma set_entry_names x m es y :
  In y (map fst (set_entry x m es)) <-> y = x \/ In y (map fst es).
Proof.
  induction es as [|[z n] es IH]; cbn; [intuition|].
  destruct (str_eqb x z) eqn:E; cbn.
  - apply str_eqb_eq in E. subst. intuition.
  - rewrite IH. intuition.
Qed.

Lemma set_entry_nodup x m es : NoDup (map fst es) -> NoDup (map fst (set_entry x m es)).
Proof.
  induction es as [|[z n] es IH]; cbn; intros ND.
  - constructor; auto.
  - inversion ND; subst. destruct (str_eqb x z) eqn:E; cbn.
    + apply str_eqb_eq in E. subst. now constructor.
    + constructor; auto. rewrite set_entry_names. intros [->|I]; auto.
      rewrite str_eqb_refl in E. discriminate.
Qed.

Lemma set_entry_in x m es y n : In (y, n) (set_entry x m es) -> (y = x /\ n = m) \/ In (y, n) es.
Proof.
  induction es as [|[z k] es IH]; cbn.
  - intros [E|[]]. inversion E. auto.
  - destruct (str_eqb x z) eqn:E; cbn; intros [F|F]; auto.
    + inversion F. auto.
    + destruct (IH F); auto.
Qed.

Lemma drop_entry_nodup x es : NoDup (map fst es) -> NoDup (map fst (drop_entry x es)).
Proof.
  induction es as [|[z n] es IH]; cbn; intros ND; auto.
  inversion ND; subst. destruct (str_eqb x z); cbn; auto.
  constructor; auto. intros I. apply H1. apply in_map_iff in I. destruct I as ([a b] & E & I).
  apply filter_In in I. cbn in E. subst. apply in_map_iff. now exists (z, b).
Qed.

(** * Trees *)

Lemma valid_entry es x n : valid (Dir es) -> entry x es = Some n -> valid n.
Proof. intros V E. inversion V; subst. eapply H1, entry_in, E. Qed.

Lemma valid_set es x n : valid (Dir es) -> valid n -> valid (Dir (set_entry x n es)).
Proof.
  intros V W. inversion V; subst. constructor.
  - now apply set_entry_nodup.
  - intros y m I. apply set_entry_in in I. destruct I as [[_ ->]|I]; eauto.
Qed.

Lemma valid_drop es x : valid (Dir es) -> valid (Dir (drop_entry x es)).
Proof.
  intros V. inversion V; subst. constructor.
  - now apply drop_entry_nodup.
  - intros y m I. apply filter_In in I. destruct I. eauto.
Qed.

Lemma lookup_valid p n m : valid n -> lookup p n = Some m -> valid m.
Proof.
  revert n. induction p as [|x p IH]; cbn; intros n V E; [congruence|].
  destruct n as [b|es]; [discriminate|]. destruct (entry x es) eqn:F; [|discriminate].
  eapply IH, E. eapply valid_entry; eauto.
Qed.

Definition kind_of (n : node) : kind := match n with File b => KFile b | Dir _ => KDir end.

Lemma holds_lookup n p k : valid n -> (holds n p k <-> exists m, lookup p n = Some m /\ kind_of m = k).
Proof.
  intros V. split.
  - intros Hd. induction Hd; cbn; eauto.
    inversion V; subst. rewrite (in_entry _ _ _ H1 H). apply IHHd. eauto.
  - revert n V. induction p as [|x p IH]; cbn; intros n V (m & E & K).
    + inversion E; subst. destruct m; constructor.
    + destruct n as [b|es]; [discriminate|]. destruct (entry x es) as [m'|] eqn:F; [|discriminate].
      apply h_in with m'; [now apply entry_in|]. apply IH; eauto using valid_entry.
Qed.

Lemma present_lookup n p : valid n -> (present n p <-> lookup p n <> None).
Proof.
  intros V. unfold present. split.
  - intros [k Hd]. apply holds_lookup in Hd; auto. destruct Hd as (m & -> & _). discriminate.
  - intros N. destruct (lookup p n) as [m|] eqn:E; [|congruence].
    exists (kind_of m). apply holds_lookup; eauto.
Qed.

Lemma lookup_app p q n : lookup (p ++ q) n = match lookup p n with Some m => lookup q m | None => None end.
Proof.
  revert n. induction p as [|x p IH]; cbn; intros n; auto.
  destruct n as [b|es]; auto. destruct (entry x es); auto.
Qed.

Definition isdir (p : path) (n : node) : Prop := exists es, lookup p n = Some (Dir es).

(** ** [put] *)

Lemma put_at p m n n' r : put p m n = Some n' -> lookup (p ++ r) n' = lookup r m.
Proof.
  revert n n'. induction p as [|x p IH]; cbn; intros n n' E; [congruence|].
  destruct n as [b|es]; [discriminate|].
  destruct (entry x es) as [k|] eqn:F.
  - destruct (put p m k) as [k'|] eqn:G; [|discriminate]. inversion E; subst.
    rewrite entry_set_same. eauto.
  - destruct p; [|discriminate]. inversion E; subst. now rewrite entry_set_same.
Qed.

Lemma put_away p m n n' q :
  put p m n = Some n' -> ~ below p q -> ~ below q p -> lookup q n' = lookup q n.
Proof.
  revert n n' q. induction p as [|x p IH]; cbn; intros n n' q E B C.
  - destruct B. apply below_nil.
  - destruct q as [|y q]; [destruct C; apply below_nil|]. cbn.
    destruct n as [b|es]; [discriminate|].
    destruct (str_eqb x y) eqn:XY.
    + apply str_eqb_eq in XY. subst y. rewrite below_cons in B, C.
      destruct (entry x es) as [k|] eqn:F.
      * destruct (put p m k) as [k'|] eqn:G; [|discriminate]. inversion E; subst.
        rewrite entry_set_same. apply IH with (q := q) in G; tauto.
      * destruct p; [|discriminate]. destruct B. split; auto using below_nil.
    + apply str_eqb_neq in XY.
      assert (K : forall k, entry y (set_entry x k es) = entry y es)
        by (intros; now apply entry_set_other).
      destruct (entry x es) as [k|].
      * destruct (put p m k) as [k'|]; [|discriminate]. inversion E; subst. now rewrite K.
      * destruct p; [|discriminate]. inversion E; subst. now rewrite K.
Qed.

Lemma put_above p m n n' q :
  put p m n = Some n' -> below q p -> q <> p -> isdir q n /\ isdir q n'.
Proof.
  revert n n' q. induction p as [|x p IH]; cbn; intros n n' q E B N.
  - destruct q; [congruence|]. now apply below_cons_nil in B.
  - destruct n as [b|es]; [discriminate|]. destruct q as [|y q].
    + unfold isdir. cbn. destruct (entry x es) as [k|].
      * destruct (put p m k) as [k'|]; [|discriminate]. inversion E; subst. eauto.
      * destruct p; [|discriminate]. inversion E; subst. eauto.
    + apply (proj1 (below_cons _ _ _ _)) in B. destruct B as [-> B].
      assert (N' : q <> p) by congruence. unfold isdir. cbn.
      destruct (entry x es) as [k|].
      * destruct (put p m k) as [k'|] eqn:G; [|discriminate]. inversion E; subst.
        rewrite entry_set_same. now apply (IH k k' q).
      * destruct p; [|discriminate]. destruct q; [congruence|]. now apply below_cons_nil in B.
Qed.

Lemma put_valid p m n n' : put p m n = Some n' -> valid n -> valid m -> valid n'.
Proof.
  revert n n'. induction p as [|x p IH]; cbn; intros n n' E V W; [congruence|].
  destruct n as [b|es]; [discriminate|].
  destruct (entry x es) as [k|] eqn:F.
  - destruct (put p m k) as [k'|] eqn:G; [|discriminate]. inversion E; subst.
    apply valid_set; auto. eapply IH; eauto using valid_entry.
  - destruct p; [|discriminate]. inversion E; subst. now apply valid_set.
Qed.

(** ** [cut] *)

Lemma cut_at p n n' r : cut p n = Some n' -> lookup (p ++ r) n' = None.
Proof.
  revert n n'. induction p as [|x p IH]; cbn; intros n n' E; [discriminate|].
  destruct n as [b|es]; [discriminate|].
  destruct (entry x es) as [k|] eqn:F; [|discriminate].
  destruct p as [|y p].
  - inversion E; subst. cbn. now rewrite entry_drop_same.
  - destruct (cut (y :: p) k) as [k'|] eqn:G; [|discriminate]. inversion E; subst.
    rewrite entry_set_same. eauto.
Qed.

Lemma cut_away p n n' q :
  cut p n = Some n' -> ~ below p q -> ~ below q p -> lookup q n' = lookup q n.
Proof.
  revert n n' q. induction p as [|x p IH]; cbn; intros n n' q E B C; [discriminate|].
  destruct q as [|y q]; [destruct C; apply below_nil|]. cbn.
  destruct n as [b|es]; [discriminate|].
  destruct (entry x es) as [k|] eqn:F; [|discriminate].
  destruct (str_eqb x y) eqn:XY.
  - apply str_eqb_eq in XY. subst y. rewrite below_cons in B, C.
    destruct p as [|z p].
    + destruct B. split; auto using below_nil.
    + destruct (cut (z :: p) k) as [k'|] eqn:G; [|discriminate]. inversion E; subst.
      rewrite entry_set_same, F. apply IH with (q := q) in G; tauto.
  - apply str_eqb_neq in XY. destruct p as [|z p].
    + inversion E; subst. now rewrite entry_drop_other.
    + destruct (cut (z :: p) k) as [k'|] eqn:G; [|discriminate]. inversion E; subst.
      now rewrite entry_set_other.
Qed.

Lemma cut_above p n n' q :
  cut p n = Some n' -> below q p -> q <> p -> isdir q n /\ isdir q n'.
Proof.
  revert n n' q. induction p as [|x p IH]; cbn; intros n n' q E B N; [discriminate|].
  destruct n as [b|es]; [discriminate|].
  destruct (entry x es) as [k|] eqn:F; [|discriminate].
  destruct q as [|y q].
  - unfold isdir. cbn. destruct p as [|z p].
    + inversion E; subst. eauto.
    + destruct (cut (z :: p) k); [|discriminate]. inversion E; subst. eauto.
  - apply (proj1 (below_cons _ _ _ _)) in B. destruct B as [-> B].
    assert (N' : q <> p) by congruence. unfold isdir. cbn. rewrite F.
    destruct p as [|z p].
    + destruct q; [congruence|]. now apply below_cons_nil in B.
    + destruct (cut (z :: p) k) as [k'|] eqn:G; [|discriminate]. inversion E; subst.
      rewrite entry_set_same. now apply (IH k k' q).
Qed.

Lemma cut_some p n m : p <> [] -> lookup p n = Some m -> exists n', cut p n = Some n'.
Proof.
  revert n. induction p as [|x p IH]; cbn; intros n N E; [congruence|].
  destruct n as [b|es]; [discriminate|].
  destruct (entry x es) as [k|] eqn:F; [|discriminate].
  destruct p as [|z p]; [eauto|].
  destruct (IH k) as [k' ->]; eauto. discriminate.
Qed.

Lemma cut_valid p n n' : cut p n = Some n' -> valid n -> valid n'.
Proof.
  revert n n'. induction p as [|x p IH]; cbn; intros n n' E V; [discriminate|].
  destruct n as [b|es]; [discriminate|].
  destruct (entry x es) as [k|] eqn:F; [|discriminate].
  destruct p as [|z p].
  - inversion E; subst. now apply valid_drop.
  - destruct (cut (z :: p) k) as [k'|] eqn:G; [|discriminate]. inversion E; subst.
    apply valid_set; auto. eapply IH; eauto using valid_entry.
Qed.

(** ** [mkdirs] *)

Lemma mkdirs_above p n n' q : mkdirs p n = Some n' -> below q p -> isdir q n'.
Proof.
  revert n n' q. induction p as [|x p IH]; cbn; intros n n' q E B.
  - destruct n; inversion E; subst. destruct q; [|now apply below_cons_nil in B].
    unfold isdir. cbn. eauto.
  - destruct n as [b|es]; [discriminate|].
    destruct q as [|y q].
    + unfold isdir. cbn.
      destruct (entry x es); destruct (mkdirs p _); inversion E; eauto.
    + apply (proj1 (below_cons _ _ _ _)) in B. destruct B as [-> B]. unfold isdir. cbn.
      destruct (entry x es); destruct (mkdirs p _) eqn:G; inversion E; subst;
        rewrite entry_set_same; eapply IH; eauto.
Qed.

Lemma mkdirs_else p n n' q : mkdirs p n = Some n' -> ~ below q p -> lookup q n' = lookup q n.
Proof.
  revert n n' q. induction p as [|x p IH]; cbn; intros n n' q E B.
  - destruct n; inversion E; subst. reflexivity.
  - destruct n as [b|es]; [discriminate|].
    destruct q as [|y q]; [destruct B; apply below_nil|]. cbn.
    destruct (str_eqb x y) eqn:XY.
    + apply str_eqb_eq in XY. subst y. rewrite below_cons in B.
      destruct (entry x es); destruct (mkdirs p _) as [k'|] eqn:G; inversion E; subst;
        rewrite entry_set_same; apply IH with (q := q) in G; try tauto.
      rewrite G. destruct q; [destruct B; split; auto using below_nil | reflexivity].
    + apply str_eqb_neq in XY.
      destruct (entry x es); destruct (mkdirs p _) eqn:G; inversion E; subst;
        now rewrite entry_set_other.
Qed.

Lemma mkdirs_was p n n' q :
  mkdirs p n = Some n' -> below q p -> lookup q n = None \/ isdir q n.
Proof.
  revert n n' q. induction p as [|x p IH]; cbn; intros n n' q E B.
  - destruct n; inversion E; subst. destruct q; [|now apply below_cons_nil in B].
    right. unfold isdir. cbn. eauto.
  - destruct n as [b|es]; [discriminate|].
    destruct q as [|y q]; [right; unfold isdir; cbn; eauto|].
    apply (proj1 (below_cons _ _ _ _)) in B. destruct B as [-> B]. unfold isdir. cbn.
    destruct (entry x es); [|now left].
    destruct (mkdirs p _) eqn:G; inversion E; subst. eapply IH; eauto.
Qed.

(** A directory that was not there is empty. *)
Lemma mkdirs_new p n n' : mkdirs p n = Some n' -> lookup p n = None -> lookup p n' = Some (Dir []).
Proof.
  revert n n'. induction p as [|x p IH]; cbn; intros n n' E N; [discriminate|].
  destruct n as [b|es]; [discriminate|].
  destruct (entry x es) as [k|] eqn:F.
  - destruct (mkdirs p k) eqn:G; inversion E; subst. rewrite entry_set_same. eauto.
  - destruct (mkdirs p (Dir [])) eqn:G; inversion E; subst. rewrite entry_set_same.
    destruct p as [|y p].
    + cbn in G. inversion G. reflexivity.
    + apply (IH _ _ G). reflexivity.
Qed.

Lemma mkdirs_valid p n n' : mkdirs p n = Some n' -> valid n -> valid n'.
Proof.
  revert n n'. induction p as [|x p IH]; cbn; intros n n' E V.
  - destruct n; inversion E; subst. auto.
  - destruct n as [b|es]; [discriminate|].
    destruct (entry x es) eqn:F; destruct (mkdirs p _) eqn:G; inversion E; subst;
      apply valid_set; auto; eapply IH; eauto using valid_entry.
    constructor; [constructor | contradiction].
Qed.

Lemma mkdirs_some p es : (forall q, below q p -> lookup q (Dir es) = None \/ isdir q (Dir es)) ->
  exists n', mkdirs p (Dir es) = Some n'.
Proof.
  revert es. induction p as [|x p IH]; cbn; intros es A; [eauto|].
  destruct (entry x es) as [k|] eqn:F.
  - assert (B : forall q, below q p -> lookup q k = None \/ isdir q k).
    { intros q B. destruct (A (x :: q)) as [C|C].
      - apply below_cons. auto.
      - left. cbn in C. now rewrite F in C.
      - right. unfold isdir in *. cbn in C. now rewrite F in C. }
    destruct (B [] (below_nil _)) as [C|[es' C]]; [discriminate|]. cbn in C. inversion C; subst.
    destruct (IH _ B) as [n' ->]. eauto.
  - destruct (IH []) as [n' ->]; eauto.
    intros q B. destruct q; [right; unfold isdir; cbn; eauto | now left].
Qed.

(** * Changes at one path *)

Definition grown (a b : option node) : Prop :=
  match a with
  | None => b = None \/ exists es, b = Some (Dir es)
  | Some (File c) => b = Some (File c)
  | Some (Dir _) => exists es, b = Some (Dir es)
  end.

Record kept (dst : path) (t u : node) : Prop := {
  k_away : forall q, ~ below dst q -> ~ below q dst -> lookup q u = lookup q t;
  k_above : forall q, below q dst -> q <> dst -> grown (lookup q t) (lookup q u) }.

Lemma grown_refl a : grown a a.
Proof. destruct a as [[b|es]|]; cbn; eauto. Qed.

Lemma grown_trans a b c : grown a b -> grown b c -> grown a c.
Proof.
  destruct a as [[x|x]|]; cbn.
  - intros ->. auto.
  - intros [es ->]. auto.
  - intros [->|[es ->]]; cbn; auto.
Qed.

Lemma kept_refl dst t : kept dst t t.
Proof. split; auto using grown_refl. Qed.

Lemma kept_trans dst t u v : kept dst t u -> kept dst u v -> kept dst t v.
Proof.
  intros [A B] [C D]. split.
  - intros q N M. rewrite C, A; auto.
  - intros q N M. eapply grown_trans; eauto.
Qed.

Lemma kept_inner dst x t u : kept (dst ++ [x]) t u -> kept dst t u.
Proof.
  intros [A B]. split.
  - intros q N M. apply A.
    + intros K. apply N. eapply below_trans, K. now exists [x].
    + intros K. apply below_snoc in K. destruct K as [K| ->]; auto. apply N. now exists [x].
  - intros q N M. apply B.
    + apply below_trans with dst; [exact N | now exists [x]].
    + intros ->. destruct N as [r E]. rewrite <- app_assoc in E.
      rewrite <- (app_nil_r dst) in E at 1. apply app_inv_head in E. discriminate.
Qed.

Lemma kept_put dst m t u : put dst m t = Some u -> kept dst t u.
Proof.
  intros E. split.
  - intros q. now apply put_away with (m := m).
  - intros q B N. destruct (put_above _ _ _ _ _ E B N) as [[a ->] [b ->]]. cbn. eauto.
Qed.

Lemma kept_mkdirs p dst t u : mkdirs p t = Some u -> below p dst -> kept dst t u.
Proof.
  intros E P. split.
  - intros q N M. apply (mkdirs_else _ _ _ _ E). intros B. apply M. eapply below_trans; eauto.
  - intros q B N. destruct (below_dec q p) as [Q|Q].
    + destruct (mkdirs_above _ _ _ _ E Q) as [b ->].
      destruct (mkdirs_was _ _ _ _ E Q) as [->|[a ->]]; cbn; eauto.
    + rewrite (mkdirs_else _ _ _ _ E Q). apply grown_refl.
Qed.

Lemma kept_same_apart dst t u : valid t -> valid u -> kept dst t u -> same_apart_from dst t u.
Proof.
  intros V W [A B] q N.
  destruct (below_dec q dst) as [Q|Q].
  - assert (NE : q <> dst) by (intros ->; apply N, below_refl).
    specialize (B q Q NE). split; [|split].
    + intros b. rewrite !holds_lookup by assumption.
      destruct (lookup q t) as [[c|es]|]; cbn in B.
      * rewrite B. reflexivity.
      * destruct B as [es' ->]. split; intros (m & E & K); inversion E; subst; discriminate.
      * destruct B as [->|[es' ->]]; split; intros (m & E & K); inversion E; subst; discriminate.
    + rewrite !holds_lookup by assumption. intros (m & E & K). rewrite E in B.
      destruct m; [discriminate|]. cbn in B. destruct B as [es' ->]. cbn. eauto.
    + auto.
  - specialize (A q N Q). split; [|split]; intros; rewrite !holds_lookup in * by assumption;
      rewrite A in *; tauto.
Qed.

(** * Copying *)

Lemma height_entry x n es : In (x, n) es -> height n < height (Dir es).
Proof.
  cbn. induction es as [|e es IH]; cbn; [contradiction|].
  intros [->|I]; cbn; [lia|]. specialize (IH I). lia.
Qed.

Definition kinds_at (p : path) (t : node) : option kind := option_map kind_of (lookup p t).

Section Copy.
  Variable fault : nat -> option nat.

  Lemma with_root_root d r b d' : with_root d r = (b, d') ->
    (b = true /\ r = Some (d_root d')) \/ (b = false /\ r = None /\ d_root d' = d_root d).
  Proof. unfold with_root. destruct r; intros E; inversion E; subst; cbn; auto. Qed.

  Lemma broken_root d r b d' : broken d r = (b, d') ->
    b = false /\ (r = Some (d_root d') \/ (r = None /\ d_root d' = d_root d)).
  Proof. unfold broken, with_root. destruct r; intros E; inversion E; subst; cbn; auto. Qed.

  Lemma create_root p d b d' : create_dir_all fault p d = (b, d') ->
    (b = true /\ mkdirs p (d_root d) = Some (d_root d')) \/
    (b = false /\
     (d_root d' = d_root d \/ exists q, below q p /\ mkdirs q (d_root d) = Some (d_root d'))).
  Proof.
    unfold create_dir_all. destruct (fault (d_tick d)) as [n|].
    - intros E. apply broken_root in E. destruct E as [-> E]. right. split; auto.
      destruct (Nat.ltb n (length p)).
      + destruct E as [E|[_ E]]; auto. right. exists (firstn n p). split; auto.
        exists (skipn n p). now rewrite firstn_skipn.
      + destruct E as [E|[_ E]]; [discriminate | auto].
    - intros E. apply with_root_root in E. destruct E as [E|(A & B & C)]; auto.
  Qed.

  Lemma create_kept p d b d' : create_dir_all fault p d = (b, d') -> kept p (d_root d) (d_root d').
  Proof.
    intros E. apply create_root in E. destruct E as [[_ E]|[_ [->|(q & Q & E)]]].
    - now apply kept_mkdirs with p, below_refl.
    - apply kept_refl.
    - now apply kept_mkdirs with q.
  Qed.

  Lemma create_valid p d b d' :
    create_dir_all fault p d = (b, d') -> valid (d_root d) -> valid (d_root d').
  Proof.
    intros E V. apply create_root in E. destruct E as [[_ E]|[_ [->|(q & Q & E)]]];
      eauto using mkdirs_valid.
  Qed.

  Lemma copy_file_root src dst d b d' : copy_file fault src dst d = (b, d') ->
    (b = true /\ exists c, lookup src (d_root d) = Some (File c) /\
       put dst (File c) (d_root d) = Some (d_root d')) \/
    (b = false /\
     (d_root d' = d_root d \/ exists c, put dst (File c) (d_root d) = Some (d_root d'))).
  Proof.
    unfold copy_file. destruct (lookup src (d_root d)) as [[c|es]|] eqn:L;
      try (intros E; apply broken_root in E; destruct E as [-> [E|[_ E]]]; [discriminate | auto]).
    destruct (is_dir dst d).
    - intros E; apply broken_root in E; destruct E as [-> [E|[_ E]]]; [discriminate | auto].
    - destruct (fault (d_tick d)) as [[|n]|]; intros E.
      + apply broken_root in E; destruct E as [-> [E|[_ E]]]; [discriminate | auto].
      + apply broken_root in E; destruct E as [-> [E|[_ E]]]; eauto.
      + apply with_root_root in E. destruct E as [[-> E]|(-> & _ & E)]; eauto.
  Qed.

  Lemma copy_file_kept src dst d b d' :
    copy_file fault src dst d = (b, d') -> kept dst (d_root d) (d_root d').
  Proof.
    intros E. apply copy_file_root in E. destruct E as [[_ (c & _ & E)]|[_ [->|[c E]]]];
      eauto using kept_put, kept_refl.
  Qed.

  Lemma copy_file_valid src dst d b d' :
    copy_file fault src dst d = (b, d') -> valid (d_root d) -> valid (d_root d').
  Proof.
    intros E V. apply copy_file_root in E. destruct E as [[_ (c & _ & E)]|[_ [->|[c E]]]]; auto;
      eapply put_valid; eauto; constructor.
  Qed.

  Definition apart (p q : path) : Prop := ~ below p q /\ ~ below q p.

  Lemma apart_snoc p q x : apart p q -> apart (p ++ [x]) (q ++ [x]).
  Proof.
    intros [A B]. split; intros C.
    - apply below_snoc in C. destruct C as [C|C].
      + apply A. eapply below_trans, C. now exists [x].
      + apply app_inj_tail in C. destruct C as [-> _]. apply A, below_refl.
    - apply below_snoc in C. destruct C as [C|C].
      + apply B. eapply below_trans, C. now exists [x].
      + apply app_inj_tail in C. destruct C as [-> _]. apply A, below_refl.
  Qed.

  (** What a copy of the node [n] from [src] to [dst] achieves. *)
  Definition copied (n : node) (dst : path) (r : fres) (d d' : disk) : Prop :=
    r <> FFuel /\ valid (d_root d') /\ kept dst (d_root d) (d_root d') /\
    (r = FOk -> forall q, kinds_at (dst ++ q) (d_root d') = kinds_at q n).

  Lemma copy_entries_ok rec src dst es0 :
    apart src dst -> NoDup (map fst es0) ->
    (forall x n d, In (x, n) es0 -> lookup (src ++ [x]) (d_root d) = Some n ->
       valid (d_root d) -> lookup (dst ++ [x]) (d_root d) = None ->
       exists r d', rec (src ++ [x]) (dst ++ [x]) d = (r, d') /\ copied n (dst ++ [x]) r d d') ->
    forall es done d,
      es0 = done ++ es ->
      valid (d_root d) ->
      lookup src (d_root d) = Some (Dir es0) ->
      isdir dst (d_root d) ->
      (forall x n, In (x, n) done -> forall q, kinds_at (dst ++ x :: q) (d_root d) = kinds_at q n) ->
      (forall x, ~ In x (map fst done) -> lookup (dst ++ [x]) (d_root d) = None) ->
      exists r d', copy_entries fault rec src dst (map fst es) d = (r, d') /\
                   copied (Dir es0) dst r d d'.
  Proof.
    intros AP ND REC. induction es as [|[x n] es IH]; intros done d E0 V LS DD DN FR; cbn [map fst copy_entries].
    - exists FOk, d. split; auto. split; [discriminate|]. split; auto. split; [apply kept_refl|].
      intros _ [|x q].
      + rewrite app_nil_r. unfold kinds_at. destruct DD as [e ->]. reflexivity.
      + rewrite app_nil_r in E0. subst done. unfold kinds_at at 2. cbn.
        destruct (entry x es0) as [n|] eqn:F.
        * apply DN. now apply entry_in.
        * apply (proj1 (entry_none _ _)) in F. specialize (FR x F).
          change (x :: q) with ([x] ++ q). rewrite app_assoc. unfold kinds_at.
          now rewrite lookup_app, FR.
    - unfold next_entry. destruct (fault (d_tick d)) as [k|].
      + eexists _, _. split; [reflexivity|]. split; [discriminate|]. cbn.
        split; auto. split; [apply kept_refl | discriminate].
      + set (d1 := Disk (d_root d) (S (d_tick d))).
        assert (IX : In (x, n) es0) by (subst es0; apply in_or_app; right; now left).
        assert (NX : ~ In x (map fst done)).
        { subst es0. rewrite map_app in ND. cbn in ND. apply NoDup_remove_2 in ND.
          intros I. apply ND, in_or_app. auto. }
        destruct (REC x n d1) as (r & d2 & RE & NF & V2 & K2 & OK2); auto.
        { cbn. rewrite lookup_app, LS. cbn. now rewrite (in_entry _ _ _ ND IX). }
        cbn in K2. rewrite RE.
        destruct r as [|m|]; [| | congruence].
        * specialize (OK2 eq_refl).
          destruct (IH (done ++ [(x, n)]) d2) as (r & d3 & E3 & N3 & V3 & K3 & OK3).
          -- now rewrite <- app_assoc.
          -- auto.
          -- rewrite <- LS. apply (k_away _ _ _ K2).
             ++ intros B. destruct AP as [_ AP]. apply AP. eapply below_trans, B. now exists [x].
             ++ intros B. apply below_snoc in B. destruct B as [B|B]; [now apply (proj1 AP)|].
                subst src. destruct AP as [_ AP]. apply AP. now exists [x].
          -- destruct DD as [e DD]. assert (G := k_above _ _ _ K2 dst). rewrite DD in G. apply G.
             ++ now exists [x].
             ++ intros C. rewrite <- (app_nil_r dst) in C at 1. apply app_inv_head in C. discriminate.
          -- intros y m I q. apply in_app_or in I. destruct I as [I|[I|[]]].
             ++ rewrite <- (DN y m I q). unfold kinds_at. f_equal.
                assert (YX : y <> x).
                { intros ->. apply NX. apply in_map_iff. now exists (x, m). }
                apply (k_away _ _ _ K2).
                ** intros [r C]. rewrite <- app_assoc in C. apply app_inv_head in C. inversion C. congruence.
                ** intros [r C]. rewrite <- app_assoc in C. apply app_inv_head in C. inversion C. congruence.
             ++ inversion I; subst. rewrite <- (OK2 q). now rewrite <- app_assoc.
          -- intros y I. rewrite map_app in I. cbn in I.
             rewrite <- (FR y). 2: { intros J. apply I, in_or_app. auto. }
             assert (YX : y <> x) by (intros ->; apply I, in_or_app; right; now left).
             apply (k_away _ _ _ K2).
             ++ intros [r C]. rewrite <- app_assoc in C. apply app_inv_head in C. inversion C. congruence.
             ++ intros [r C]. rewrite <- app_assoc in C. apply app_inv_head in C. inversion C. congruence.
          -- exists r, d3. split; auto. split; auto. split; auto. split; auto.
             eapply kept_trans; [eapply kept_inner; exact K2 | exact K3].
        * eexists _, _. split; [reflexivity|]. split; [discriminate|]. split; auto.
          split; [eapply kept_inner; exact K2 | discriminate].
  Qed.

  Lemma copy_ok fuel : forall src dst d n,
    height n < fuel ->
    lookup src (d_root d) = Some n -> valid (d_root d) -> apart src dst ->
    lookup dst (d_root d) = None ->
    exists r d', copy_path fault fuel src dst d = (r, d') /\ copied n dst r d d'.
  Proof.
    induction fuel as [|fuel IH]; intros src dst d n HT LS V AP FREE; [lia|].
    cbn [copy_path].
    assert (NE : src <> dst) by (intros ->; destruct AP as [AP _]; apply AP, below_refl).
    apply path_eqb_neq in NE. rewrite NE. unfold exists_at. rewrite FREE.
    unfold is_dir. rewrite LS. destruct n as [c|es].
    - destruct (copy_file fault src dst d) as [b d1] eqn:E.
      assert (K := copy_file_kept _ _ _ _ _ E). assert (W := copy_file_valid _ _ _ _ _ E V).
      destruct b; (eexists _, _; split; [reflexivity|]; split; [discriminate|]; split; auto; split; auto).
      + intros _ q. apply copy_file_root in E. destruct E as [[_ (c' & L & E)]|[E _]]; [|discriminate].
        rewrite LS in L. inversion L; subst c'. unfold kinds_at. now rewrite (put_at _ _ _ _ q E).
      + discriminate.
    - destruct (create_dir_all fault dst d) as [b d1] eqn:E.
      assert (K := create_kept _ _ _ _ E). assert (W := create_valid _ _ _ _ E V).
      destruct b.
      2: { eexists _, _. split; [reflexivity|]. split; [discriminate|]. split; auto. split; auto. discriminate. }
      apply create_root in E. destruct E as [[_ E]|[E _]]; [|discriminate].
      assert (LS1 : lookup src (d_root d1) = Some (Dir es)).
      { rewrite <- LS. apply (k_away _ _ _ K); apply AP. }
      unfold read_dir. rewrite LS1.
      destruct (fault (d_tick d1)) as [k|].
      { eexists _, _. split; [reflexivity|]. split; [discriminate|]. split; auto. split; auto. discriminate. }
      set (d2 := Disk (d_root d1) (S (d_tick d1))).
      assert (VN := lookup_valid _ _ _ V LS). inversion VN as [|es' ND VE]; subst es'.
      assert (ND0 := mkdirs_new _ _ _ E FREE).
      destruct (copy_entries_ok (copy_path fault fuel) src dst es AP ND) with (es := es) (done := @nil (str * node)) (d := d2)
        as (r & d3 & E3 & N3 & V3 & K3 & OK3); auto.
      + intros x m d0 I L V0 F. apply IH; auto.
        * apply height_entry in I. lia.
        * now apply apart_snoc.
      + cbn. unfold isdir. eauto.
      + intros x m [].
      + intros x _. cbn. rewrite lookup_app, ND0. reflexivity.
      + exists r, d3. split; auto. split; auto. split; auto. split; auto.
        eapply kept_trans; [exact K | exact K3].
  Qed.
End Copy.

Lemma same_at_kinds t p u q : valid t -> valid u ->
  (forall r, kinds_at (p ++ r) t = kinds_at (q ++ r) u) -> same_at t p u q.
Proof.
  intros V W A r k. rewrite !holds_lookup by assumption. specialize (A r). unfold kinds_at in A.
  destruct (lookup (p ++ r) t) as [m|], (lookup (q ++ r) u) as [m'|]; try discriminate; cbn in A.
  - inversion A. split; intros (m0 & E & K); inversion E; subst; eauto.
  - reflexivity.
Qed.

Lemma kinds_lookup p r t n : lookup p t = Some n -> kinds_at (p ++ r) t = kinds_at r n.
Proof. intros E. unfold kinds_at. now rewrite lookup_app, E. Qed.

Section Fault.
  Variable fault : nat -> option nat.

  (** A copy of nothing fails. *)
  Lemma copy_missing fuel src dst d r d' :
    lookup src (d_root d) = None -> src <> dst ->
    copy_path fault (S fuel) src dst d = (r, d') -> (exists m, r = FErr m) /\ d_root d' = d_root d.
  Proof.
    intros L N. cbn [copy_path]. apply path_eqb_neq in N. rewrite N.
    destruct (exists_at dst d); [intros E; inversion E; subst; eauto|].
    unfold is_dir. rewrite L. unfold copy_file. rewrite L.
    unfold broken, with_root. cbn. intros E. inversion E; subst. cbn. eauto.
  Qed.

  Lemma copy_there fuel src dst d r d' :
    lookup dst (d_root d) <> None -> src <> dst ->
    copy_path fault (S fuel) src dst d = (r, d') -> (exists m, r = FErr m) /\ d' = d.
  Proof.
    intros L N. cbn [copy_path]. apply path_eqb_neq in N. rewrite N.
    unfold exists_at. destruct (lookup dst (d_root d)); [|congruence].
    intros E. inversion E; subst. eauto.
  Qed.

  Lemma copy_finishes fuel src dst d :
    valid (d_root d) -> ~ below src dst -> height (d_root d) < fuel ->
    exists r d', copy_path fault fuel src dst d = (r, d') /\ r <> FFuel.
  Proof.
    intros V B HT. destruct fuel as [|fuel]; [lia|].
    destruct (copy_path fault (S fuel) src dst d) as [r d'] eqn:E.
    exists r, d'. split; auto.
    assert (N : src <> dst) by (intros ->; apply B, below_refl).
    destruct (lookup dst (d_root d)) as [m|] eqn:L.
    - destruct (copy_there fuel src dst d r d') as [[x ->] _]; auto; congruence.
    - destruct (lookup src (d_root d)) as [n|] eqn:LS.
      + assert (AP : apart src dst).
        { split; auto. intros [q ->]. rewrite lookup_app, L in LS. discriminate. }
        destruct (copy_ok fault (S fuel) src dst d n) as (r' & d'' & E' & NF & _); auto.
        * enough (height n <= height (d_root d)) by lia.
          clear - LS. revert LS. generalize (d_root d). induction src as [|x src IH]; cbn; intros t LS.
          -- inversion LS. lia.
          -- destruct t as [b|es]; [discriminate|]. destruct (entry x es) eqn:F; [|discriminate].
             specialize (IH _ LS). apply entry_in, height_entry in F. lia.
        * rewrite E in E'. inversion E'; subst. auto.
      + destruct (copy_missing fuel src dst d r d') as [[x ->] _]; auto. discriminate.
  Qed.

  (** A finished copy. *)
  Lemma copy_done fuel src dst d r d' :
    valid (d_root d) -> ~ below src dst ->
    copy_path fault fuel src dst d = (r, d') -> r <> FFuel ->
    valid (d_root d') /\ kept dst (d_root d) (d_root d') /\
    (r = FOk -> (exists n, lookup src (d_root d) = Some n) /\ lookup src (d_root d') = lookup src (d_root d) /\
      forall q, kinds_at (dst ++ q) (d_root d') = kinds_at (src ++ q) (d_root d)).
  Proof.
    intros V B E NF. destruct fuel as [|fuel]; [inversion E; subst; congruence|].
    assert (N : src <> dst) by (intros ->; apply B, below_refl).
    destruct (lookup dst (d_root d)) as [m|] eqn:L.
    { destruct (copy_there fuel src dst d r d') as [[x ->] ->]; auto; [congruence|].
      split; auto. split; [apply kept_refl | discriminate]. }
    destruct (lookup src (d_root d)) as [n|] eqn:LS.
    2: { destruct (copy_missing fuel src dst d r d') as [[x ->] F]; auto. rewrite F.
         split; auto. split; [apply kept_refl | discriminate]. }
    assert (AP : apart src dst).
    { split; auto. intros [q ->]. rewrite lookup_app, L in LS. discriminate. }
    (* enough fuel gives the same outcome *)
    assert (MONO : forall f1 f2 a b x y z, f1 <= f2 -> copy_path fault f1 a b x = (y, z) -> y <> FFuel ->
                   copy_path fault f2 a b x = (y, z)).
    { clear. induction f1 as [|f1 IH]; intros f2 a b x y z LE E NF; [cbn in E; inversion E; subst; congruence|].
      destruct f2 as [|f2]; [lia|]. revert E. cbn [copy_path].
      destruct (path_eqb a b); auto. destruct (exists_at b x); auto. destruct (is_dir a x); auto.
      destruct (create_dir_all fault b x) as [[] x1]; auto.
      destruct (read_dir fault a x1) as [[names|] x2]; auto.
      revert x2. induction names as [|nm names IHN]; cbn [copy_entries]; intros x2; auto.
      destruct (next_entry fault x2) as [[] x3]; auto.
      destruct (copy_path fault f1 (a ++ [nm]) (b ++ [nm]) x3) as [r1 x4] eqn:E1.
      destruct r1.
      - rewrite (IH f2 _ _ _ _ _ ltac:(lia) E1 ltac:(discriminate)). auto.
      - rewrite (IH f2 _ _ _ _ _ ltac:(lia) E1 ltac:(discriminate)). auto.
      - intros E. inversion E; subst. congruence. }
    destruct (copy_ok fault (S fuel + S (height n)) src dst d n) as (r' & d'' & E' & _ & V' & K & OK); auto; [lia|].
    rewrite (MONO (S fuel) (S fuel + S (height n)) _ _ _ _ _ (Nat.le_add_r _ _) E NF) in E'. inversion E'; subst r' d''.
    split; auto. split; auto. intros F. specialize (OK F). split; [eauto|]. split.
    - rewrite <- LS. apply (k_away _ _ _ K); apply AP.
    - intros q. rewrite OK. now rewrite (kinds_lookup src q _ n).
  Qed.

  (** * Moving and removing *)

  Lemma put_node_root_valid p t n : valid t -> lookup p t = Some n -> valid n.
  Proof. apply lookup_valid. Qed.

  Lemma rename_free src dst d b d' :
    valid (d_root d) -> lookup dst (d_root d) = None ->
    rename fault src dst d = (b, d') ->
    if b then
      exists n u, lookup src (d_root d) = Some n /\ ~ below src dst /\
        put dst n (d_root d) = Some u /\ cut src u = Some (d_root d')
    else d_root d' = d_root d.
  Proof.
    intros V F. unfold rename.
    assert (BR : broken d None = (b, d') -> b = false /\ d_root d' = d_root d).
    { intros E. apply broken_root in E. destruct E as [-> [E|[_ E]]]; [discriminate|auto]. }
    destruct (fault (d_tick d)); [intros E; apply BR in E; destruct E as [-> E]; exact E|].
    destruct (lookup src (d_root d)) as [n|] eqn:L; [|intros E; apply BR in E; destruct E as [-> E]; exact E].
    destruct (prefixb src dst) eqn:P; [intros E; apply BR in E; destruct E as [-> E]; exact E|].
    rewrite F.
    destruct (put dst n (d_root d)) as [u|] eqn:PU; [|intros E; apply BR in E; destruct E as [-> E]; exact E].
    intros E. apply with_root_root in E. destruct E as [[-> E]|(-> & _ & E)]; [|exact E].
    exists n, u. split; auto. split; auto. intros B. apply prefixb_below in B. congruence.
  Qed.

  (** Every path is at or below [p], at or below [q], or neither. *)
  Lemma move_lookups src dst t u v n :
    lookup src t = Some n -> lookup dst t = None -> ~ below src dst ->
    put dst n t = Some u -> cut src u = Some v ->
    (forall q, lookup (dst ++ q) v = lookup q n) /\
    (forall q, lookup (src ++ q) v = None) /\
    (forall q, ~ below dst q -> ~ below src q ->
       option_map kind_of (lookup q v) = option_map kind_of (lookup q t)).
  Proof.
    intros L F B P C.
    assert (B' : ~ below dst src).
    { intros [q ->]. rewrite lookup_app, F in L. discriminate. }
    split; [|split].
    - intros q. rewrite (cut_away _ _ _ _ C).
      + now apply put_at with (1 := P).
      + intros [r E].
        assert (G : below src dst \/ below dst src).
        { clear - E. revert dst E. induction src as [|x s IH]; intros dst E; [left; apply below_nil|].
          destruct dst as [|y dst]; [right; apply below_nil|]. cbn in E. inversion E; subst.
          rewrite !below_cons. destruct (IH _ H1); auto. }
        tauto.
      + intros G. apply B'. eapply below_trans, G. now exists q.
    - intros q. now apply cut_at with (1 := C).
    - intros q ND NS.
      destruct (below_dec q src) as [QS|QS].
      + assert (q <> src) by (intros ->; apply NS, below_refl).
        destruct (cut_above _ _ _ _ C QS H) as [_ [es ->]].
        destruct QS as [r E]. subst src. rewrite lookup_app in L.
        destruct (lookup q t) as [[b|es']|] eqn:LQ; [|reflexivity|discriminate].
        destruct r; [rewrite app_nil_r in H; congruence | discriminate].
      + rewrite (cut_away _ _ _ _ C NS QS).
        destruct (below_dec q dst) as [QD|QD].
        * assert (q <> dst) by (intros ->; apply ND, below_refl).
          destruct (put_above _ _ _ _ _ P QD H) as [[es ->] [es' ->]]. reflexivity.
        * now rewrite (put_away _ _ _ _ _ P ND QD).
  Qed.
End Fault.

(** * Paths as texts *)

Lemma split_path_app a : forall cur b,
  exists l, split_path cur (a ++ 47%N :: b) = l ++ split_path [] b /\ split_path cur a = l.
Proof.
  induction a as [|c a IH]; cbn; intros cur b.
  - exists [rev cur]. auto.
  - destruct (c =? 47)%N.
    + destruct (IH [] b) as (l & E & F). exists (rev cur :: l). rewrite E, F. auto.
    + apply IH.
Qed.

Lemma components_app a b : components (a ++ 47%N :: b) = components a ++ components b.
Proof.
  unfold components. destruct (split_path_app a [] b) as (l & -> & ->).
  apply filter_app.
Qed.

Lemma components_slash : components [47%N] = [].
Proof. reflexivity. Qed.

Lemma is_slash {A} (c : N) (a b : A) :
  match c with 47%N => a | _ => b end = if (c =? 47)%N then a else b.
Proof.
  destruct (N.eqb_spec c 47) as [->|N]; [reflexivity|].
  destruct c as [|q]; auto. do 6 (destruct q as [q|q|]; auto). congruence.
Qed.

Lemma path_join_eq a b :
  path_join a b =
    match b with
    | [] => match rev a with [] => b | x :: _ => if (x =? 47)%N then a ++ b else a ++ [47%N] ++ b end
    | c :: _ => if (c =? 47)%N then b
                else match rev a with [] => b | x :: _ => if (x =? 47)%N then a ++ b else a ++ [47%N] ++ b end
    end.
Proof.
  unfold path_join. destruct b as [|c b].
  - destruct (rev a) as [|x r]; auto. apply is_slash.
  - rewrite is_slash. destruct (c =? 47)%N; auto.
    destruct (rev a) as [|x r]; auto. apply is_slash.
Qed.

Lemma components_join a b :
  components (match rev a with [] => b | x :: _ => if (x =? 47)%N then a ++ b else a ++ [47%N] ++ b end)
  = components a ++ components b.
Proof.
  destruct (rev a) as [|x l] eqn:R; apply (f_equal (@rev _)) in R; rewrite rev_involutive in R; subst a.
  - reflexivity.
  - destruct (N.eqb_spec x 47) as [->|N]; [|apply components_app].
    cbn [rev]. rewrite <- app_assoc. cbn [app].
    rewrite components_app, (components_app (rev l) []).
    change (components []) with (@nil str). now rewrite app_nil_r.
Qed.

Lemma leads_join cwd given p : leads cwd given p <-> p = components (path_join cwd given).
Proof.
  rewrite path_join_eq. destruct given as [|c g].
  - rewrite components_join. split.
    + intros L. destruct L; [discriminate | reflexivity].
    + intros ->. now constructor 2.
  - destruct (N.eqb_spec c 47) as [->|N].
    + split.
      * intros L. destruct L as [|L]; [reflexivity | now destruct L].
      * intros ->. econstructor 1. reflexivity.
    + rewrite components_join. split.
      * intros L. destruct L as [r E|L]; [inversion E; congruence | reflexivity].
      * intros ->. constructor 2. cbn. congruence.
Qed.
