(** Facts about reading, writing, making and removing files. *)

From Coq Require Import String List Lia.
From Verif Require Import Base Text MapFacts Fs FsHost FsSpec FsFacts.
Import ListNotations.

Lemma NoDup_app_r {A} (a b : list A) : NoDup (a ++ b) -> NoDup b.
Proof. induction a; cbn; auto. intros N. inversion N; auto. Qed.

(** ** Changes of one file or directory *)

Lemma put_file_at p b t u : valid t -> put p (File b) t = Some u -> ~ isdir p t ->
  valid u /\ holds u p (KFile b) /\ forall q k, q <> p -> holds u q k <-> holds t q k.
Proof.
  intros V P D. assert (W : valid u) by (eapply put_valid; eauto; constructor).
  split; auto. split.
  - apply holds_lookup; auto. exists (File b). split; auto.
    rewrite <- (app_nil_r p). now rewrite (put_at _ _ _ _ [] P).
  - intros q k N. rewrite !holds_lookup by assumption.
    destruct (below_dec p q) as [[r ->]|B].
    + destruct r as [|x r]; [now rewrite app_nil_r in N|].
      rewrite (put_at _ _ _ _ _ P), lookup_app.
      destruct (lookup p t) as [[c|es]|] eqn:L.
      * cbn. reflexivity.
      * destruct D. now exists es.
      * cbn. reflexivity.
    + destruct (below_dec q p) as [C|C].
      * destruct (put_above _ _ _ _ _ P C N) as [[e1 ->] [e2 ->]].
        split; intros (m & E & K); inversion E; subst; cbn; eauto.
      * now rewrite (put_away _ _ _ _ _ P B C).
Qed.

Lemma put_apart p b t u : valid t -> put p (File b) t = Some u -> valid u /\ same_apart_from p t u.
Proof.
  intros V P. assert (W : valid u) by (eapply put_valid; eauto; constructor).
  split; auto. apply kept_same_apart; auto. eapply kept_put, P.
Qed.

Lemma cut_gone p t u : valid t -> cut p t = Some u ->
  valid u /\ (forall q, below p q -> ~ present u q) /\
  forall q k, ~ below p q -> holds u q k <-> holds t q k.
Proof.
  intros V C. assert (W := cut_valid _ _ _ C V). split; auto. split.
  - intros q [r ->] P. apply present_lookup in P; auto. now rewrite (cut_at _ _ _ _ C) in P.
  - intros q k N. rewrite !holds_lookup by assumption. destruct (below_dec q p) as [B|B].
    + assert (NE : q <> p) by (intros ->; apply N, below_refl).
      destruct (cut_above _ _ _ _ C B NE) as [[e1 ->] [e2 ->]].
      split; intros (m & E & K); inversion E; subst; cbn; eauto.
    + now rewrite (cut_away _ _ _ _ C N B).
Qed.

Lemma same_apart_refl p t : same_apart_from p t t.
Proof. intros q _. split; [reflexivity|]. split; auto. Qed.

Lemma isdir_holds p t : valid t -> (isdir p t <-> holds t p KDir).
Proof.
  intros V. rewrite holds_lookup by assumption. unfold isdir. split.
  - intros [es ->]. eexists. split; reflexivity.
  - intros ([b|es] & E & K); [discriminate | eauto].
Qed.

(** ** The operations *)

Section Ops.
  Variable fault : nat -> option nat.

  Lemma broken_nothing d ok d' : broken d None = (ok, d') -> ok = false /\ d_root d' = d_root d.
  Proof. intros E. apply broken_root in E. destruct E as [-> [E|[_ E]]]; [discriminate|auto]. Qed.

  Lemma write_file_spec p c d ok d' :
    valid (d_root d) -> write_file fault p c d = (ok, d') ->
    valid (d_root d') /\
    if ok then holds (d_root d') p (KFile c)
               /\ forall q k, q <> p -> holds (d_root d') q k <-> holds (d_root d) q k
    else same_apart_from p (d_root d) (d_root d').
  Proof.
    intros V W. unfold write_file in W.
    destruct (is_dir p d) eqn:D.
    { apply broken_nothing in W. destruct W as [-> ->]. split; auto. apply same_apart_refl. }
    assert (ND : ~ isdir p (d_root d)).
    { intros [es E]. unfold is_dir in D. now rewrite E in D. }
    destruct (fault (d_tick d)) as [[|n]|].
    - apply broken_nothing in W. destruct W as [-> ->]. split; auto. apply same_apart_refl.
    - apply broken_root in W. destruct W as [-> [W|[_ ->]]].
      + now apply put_apart with (b := firstn n c).
      + split; auto. apply same_apart_refl.
    - apply with_root_root in W. destruct W as [[-> W]|(-> & _ & ->)].
      + now apply put_file_at.
      + split; auto. apply same_apart_refl.
  Qed.

  (** Appending to a file that is there. *)
  Lemma append_file_spec p a c d ok d' :
    valid (d_root d) -> holds (d_root d) p (KFile a) -> append_file fault p c d = (ok, d') ->
    valid (d_root d') /\
    if ok then holds (d_root d') p (KFile (a ++ c))
               /\ forall q k, q <> p -> holds (d_root d') q k <-> holds (d_root d) q k
    else same_apart_from p (d_root d) (d_root d').
  Proof.
    intros V A W. apply holds_lookup in A; auto. destruct A as ([x|es] & L & K); inversion K; subst x.
    assert (ND : ~ isdir p (d_root d)) by (intros [es E]; congruence).
    unfold append_file in W. rewrite L in W. destruct (fault (d_tick d)) as [n|].
    - apply broken_root in W. destruct W as [-> [W|[_ ->]]].
      + eapply put_apart; eauto.
      + split; auto. apply same_apart_refl.
    - apply with_root_root in W. destruct W as [[-> W]|(-> & _ & ->)].
      + now apply put_file_at.
      + split; auto. apply same_apart_refl.
  Qed.

  Lemma remove_path_spec p d r d' :
    valid (d_root d) -> remove_path fault p d = (r, d') ->
    valid (d_root d') /\
    (r = FOk /\ present (d_root d) p /\ (forall q, below p q -> ~ present (d_root d') q)
     /\ (forall q k, ~ below p q -> holds (d_root d') q k <-> holds (d_root d) q k)
     \/ (exists m, r = FErr m) /\ same_apart_from p (d_root d) (d_root d')).
  Proof.
    intros V W. unfold remove_path, is_dir in W.
    assert (BAD : forall d1, d_root d1 = d_root d -> valid (d_root d1) /\ same_apart_from p (d_root d) (d_root d1)).
    { intros d1 ->. split; auto. apply same_apart_refl. }
    assert (GONE : forall d1, cut p (d_root d) = Some (d_root d1) -> lookup p (d_root d) <> None ->
      valid (d_root d1) /\ present (d_root d) p /\ (forall q, below p q -> ~ present (d_root d1) q)
      /\ (forall q k, ~ below p q -> holds (d_root d1) q k <-> holds (d_root d) q k)).
    { intros d1 C N. destruct (cut_gone _ _ _ V C) as (V1 & A & B). split; auto. split; auto.
      now apply present_lookup. }
    destruct (lookup p (d_root d)) as [[b|es]|] eqn:L.
    - unfold remove_file in W. rewrite L in W. destruct (fault (d_tick d)).
      + cbn in W. inversion W; subst. destruct (BAD _ (eq_refl : d_root (Disk (d_root d) (S (d_tick d))) = _)). split; eauto.
      + destruct (with_root d (cut p (d_root d))) as [ok d1] eqn:E. apply with_root_root in E.
        destruct E as [[-> E]|(-> & _ & E)]; inversion W; subst.
        * destruct (GONE _ E ltac:(congruence)) as (? & ? & ? & ?). split; auto; left; auto.
        * destruct (BAD _ E). split; eauto.
    - unfold remove_dir_all in W. rewrite L in W. destruct (fault (d_tick d)) as [n|].
      + destruct (broken d (put p (Dir (skipn n es)) (d_root d))) as [ok d1] eqn:E.
        apply broken_root in E. destruct E as [-> E]. inversion W; subst.
        destruct E as [E|[_ E]].
        * assert (VE : valid (Dir (skipn n es))).
          { pose proof (lookup_valid _ _ _ V L) as VD. inversion VD as [|es' ND VE]; subst. constructor.
            - rewrite <- (firstn_skipn n es), map_app in ND. now apply NoDup_app_r in ND.
            - intros x m I. apply (VE x m). rewrite <- (firstn_skipn n es). apply in_or_app. auto. }
          assert (V1 := put_valid _ _ _ _ E V VE). split; auto. right. split; eauto.
          apply kept_same_apart; auto. eapply kept_put, E.
        * destruct (BAD _ E). split; eauto.
      + destruct (with_root d (cut p (d_root d))) as [ok d1] eqn:E. apply with_root_root in E.
        destruct E as [[-> E]|(-> & _ & E)]; inversion W; subst.
        * destruct (GONE _ E ltac:(congruence)) as (? & ? & ? & ?). split; auto; left; auto.
        * destruct (BAD _ E). split; eauto.
    - unfold remove_file in W. rewrite L in W.
      assert (E : (let (b, d1) := broken d None in if b then (FOk, d1) else (FErr (lit "could not remove file " ++ path_str p), d1)) = (r, d')).
      { destruct (fault (d_tick d)); exact W. }
      cbn in E. inversion E; subst. destruct (BAD _ (eq_refl : d_root (Disk (d_root d) (S (d_tick d))) = _)). split; eauto.
  Qed.

  Lemma create_dir_all_spec p d ok d' :
    valid (d_root d) -> create_dir_all fault p d = (ok, d') ->
    valid (d_root d')
    /\ (forall q b, holds (d_root d') q (KFile b) <-> holds (d_root d) q (KFile b))
    /\ (forall q, holds (d_root d) q KDir -> holds (d_root d') q KDir)
    /\ (forall q, holds (d_root d') q KDir -> holds (d_root d) q KDir \/ below q p)
    /\ (ok = true -> holds (d_root d') p KDir).
  Proof.
    intros V E. assert (W := create_valid _ _ _ _ _ E V).
    assert (M : (d_root d' = d_root d /\ ok = false) \/
                exists q, below q p /\ mkdirs q (d_root d) = Some (d_root d') /\ (ok = true -> q = p)).
    { apply create_root in E. destruct E as [[-> E]|[-> [E|(q & B & E)]]]; auto.
      - right. exists p. split; auto using below_refl.
      - right. exists q. split; auto. split; auto. discriminate. }
    destruct M as [[-> ->]|(c & B & M & OK)].
    { split; auto. split; [reflexivity|]. split; auto. split; auto. discriminate. }
    split; auto.
    assert (G : forall q, ~ below q c -> lookup q (d_root d') = lookup q (d_root d)) by (intros; eapply mkdirs_else; eauto).
    assert (D : forall q, below q c -> isdir q (d_root d')) by (intros; eapply mkdirs_above; eauto).
    assert (WAS : forall q, below q c -> lookup q (d_root d) = None \/ isdir q (d_root d)) by (intros; eapply mkdirs_was; eauto).
    split; [|split; [|split]].
    - intros q b. rewrite !holds_lookup by assumption. destruct (below_dec q c) as [X|X].
      + destruct (D q X) as [es ->]. split; intros (m & Y & K).
        * inversion Y; subst; discriminate.
        * destruct (WAS q X) as [Z|[es' Z]]; rewrite Z in Y; inversion Y; subst; discriminate.
      + now rewrite (G q X).
    - intros q. rewrite <- !isdir_holds by assumption. intros X.
      destruct (below_dec q c) as [Y|Y]; auto. unfold isdir in *. now rewrite (G q Y).
    - intros q. rewrite <- !isdir_holds by assumption. intros X.
      destruct (below_dec q c) as [Y|Y]; [right; eapply below_trans; eauto|].
      left. unfold isdir in *. now rewrite <- (G q Y).
    - intros O. rewrite <- isdir_holds by assumption. apply D. rewrite (OK O). apply below_refl.
  Qed.

  Lemma remove_dir_spec p d ok d' :
    valid (d_root d) -> remove_dir fault p d = (ok, d') ->
    valid (d_root d') /\
    if ok then holds (d_root d) p KDir
               /\ (forall q, below p q -> q <> p -> ~ present (d_root d) q)
               /\ ~ present (d_root d') p
               /\ (forall q k, q <> p -> holds (d_root d') q k <-> holds (d_root d) q k)
    else d_root d' = d_root d.
  Proof.
    intros V W. unfold remove_dir in W.
    destruct (fault (d_tick d)); [apply broken_nothing in W; destruct W as [-> ->]; auto|].
    destruct (lookup p (d_root d)) as [[b|[|e es]]|] eqn:L;
      try (apply broken_nothing in W; destruct W as [-> ->]; auto).
    apply with_root_root in W. destruct W as [[-> C]|(-> & _ & ->)]; [|auto].
    destruct (cut_gone _ _ _ V C) as (V1 & A & B).
    assert (EMPTY : forall q, below p q -> q <> p -> ~ present (d_root d) q).
    { intros q [r ->] N P. destruct r as [|x r]; [now rewrite app_nil_r in N|].
      apply present_lookup in P; auto. now rewrite lookup_app, L in P. }
    split; auto. split; [apply isdir_holds; auto; now exists []|]. split; auto. split.
    - apply A, below_refl.
    - intros q k N. destruct (below_dec p q) as [X|X]; auto.
      split; intros Y; exfalso; [eapply A | eapply EMPTY]; eauto; now exists k.
  Qed.

  Lemma read_file_spec p d r d' :
    valid (d_root d) -> read_file fault p d = (r, d') ->
    d_root d' = d_root d /\
    match r with
    | Some b => holds (d_root d) p (KFile b)
    | None => fault (d_tick d) <> None \/ forall b, ~ holds (d_root d) p (KFile b)
    end.
  Proof.
    intros V W. unfold read_file in W. destruct (fault (d_tick d)); [inversion W; subst; split; auto; left; discriminate|].
    destruct (lookup p (d_root d)) as [[b|es]|] eqn:L; inversion W; subst; split; auto.
    - apply holds_lookup; eauto.
    - right. intros b Y. apply holds_lookup in Y; auto. destruct Y as (m & E & K). rewrite L in E. inversion E; subst. discriminate.
    - right. intros b Y. apply holds_lookup in Y; auto. destruct Y as (m & E & K). congruence.
  Qed.
End Ops.

