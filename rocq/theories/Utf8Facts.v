(** Texts and their bytes. *)

From Coq Require Import List Lia NArith Bool.
From Verif Require Import Base Host.
Import ListNotations.
Open Scope N_scope.

(** A Unicode scalar value. *)
Definition character (n : N) : Prop := n < 55296 \/ 57344 <= n < 1114112.

Ltac Nify := repeat match goal with
  | |- context [?a <? ?b] => destruct (N.ltb_spec a b)
  | |- context [?a <=? ?b] => destruct (N.leb_spec a b)
  end; cbn [andb negb]; try lia.

Lemma div_mod3 c : c = c / 4096 * 4096 + (c / 64) mod 64 * 64 + c mod 64.
Proof.
  pose proof (N.div_mod c 64 ltac:(lia)). pose proof (N.div_mod (c / 64) 64 ltac:(lia)).
  rewrite N.div_div in H0 by lia. change (64 * 64) with 4096 in H0. lia.
Qed.

Lemma div_mod4 c : c = c / 262144 * 262144 + (c / 4096) mod 64 * 4096 + (c / 64) mod 64 * 64 + c mod 64.
Proof.
  pose proof (div_mod3 c). pose proof (N.div_mod (c / 4096) 64 ltac:(lia)).
  rewrite N.div_div in H0 by lia. change (4096 * 64) with 262144 in H0. lia.
Qed.

Lemma utf8_decode_char c b n : character c ->
  utf8_decode (S n) (utf8_chr c ++ b) =
  match utf8_decode n b with Some s => Some (c :: s) | None => None end.
Proof.
  intros C. unfold character in C. unfold utf8_chr. cbn [utf8_decode].
  pose proof (N.mod_lt c 64 ltac:(lia)). pose proof (N.mod_lt (c / 64) 64 ltac:(lia)).
  pose proof (N.mod_lt (c / 4096) 64 ltac:(lia)).
  pose proof (N.div_mod c 64 ltac:(lia)) as D2. pose proof (div_mod3 c) as D3. pose proof (div_mod4 c) as D4.
  destruct (N.ltb_spec c 128) as [L1|L1].
  { cbn [app]. apply N.ltb_lt in L1. now rewrite L1. }
  destruct (N.ltb_spec c 2048) as [L2|L2].
  { cbn [app]. unfold is_cont.
    remember (c / 64) as q. remember (c mod 64) as r.
    replace (192 + q <? 128) with false by (symmetry; apply N.ltb_ge; lia).
    replace (194 <=? 192 + q) with true by (symmetry; apply N.leb_le; lia).
    replace (192 + q <? 224) with true by (symmetry; apply N.ltb_lt; lia).
    replace (128 <=? 128 + r) with true by (symmetry; apply N.leb_le; lia).
    replace (128 + r <? 192) with true by (symmetry; apply N.ltb_lt; lia).
    cbn [andb]. replace ((192 + q - 192) * 64 + (128 + r - 128)) with c by lia. reflexivity. }
  destruct (N.ltb_spec c 65536) as [L3|L3].
  { cbn [app]. unfold is_cont.
    remember (c / 4096) as q. remember ((c / 64) mod 64) as r1. remember (c mod 64) as r.
    replace (224 + q <? 128) with false by (symmetry; apply N.ltb_ge; lia).
    replace (194 <=? 224 + q) with true by (symmetry; apply N.leb_le; lia).
    replace (224 + q <? 224) with false by (symmetry; apply N.ltb_ge; lia).
    replace (224 <=? 224 + q) with true by (symmetry; apply N.leb_le; lia).
    replace (224 + q <? 240) with true by (symmetry; apply N.ltb_lt; lia).
    replace (128 <=? 128 + r) with true by (symmetry; apply N.leb_le; lia).
    replace (128 + r <? 192) with true by (symmetry; apply N.ltb_lt; lia).
    replace (128 <=? 128 + r1) with true by (symmetry; apply N.leb_le; lia).
    replace (128 + r1 <? 192) with true by (symmetry; apply N.ltb_lt; lia).
    cbn [andb].
    replace ((224 + q - 224) * 4096 + (128 + r1 - 128) * 64 + (128 + r - 128)) with c by lia.
    replace (2048 <=? c) with true by (symmetry; apply N.leb_le; lia).
    replace ((55296 <=? c) && (c <? 57344)) with false. 2: { Nify; reflexivity. }
    reflexivity. }
  cbn [app]. unfold is_cont.
  remember (c / 262144) as q. remember ((c / 4096) mod 64) as r2.
  remember ((c / 64) mod 64) as r1. remember (c mod 64) as r.
  replace (240 + q <? 128) with false by (symmetry; apply N.ltb_ge; lia).
  replace (194 <=? 240 + q) with true by (symmetry; apply N.leb_le; lia).
  replace (240 + q <? 224) with false by (symmetry; apply N.ltb_ge; lia).
  replace (224 <=? 240 + q) with true by (symmetry; apply N.leb_le; lia).
  replace (240 + q <? 240) with false by (symmetry; apply N.ltb_ge; lia).
  replace (240 <=? 240 + q) with true by (symmetry; apply N.leb_le; lia).
  replace (240 + q <? 245) with true by (symmetry; apply N.ltb_lt; lia).
  replace (128 <=? 128 + r) with true by (symmetry; apply N.leb_le; lia).
  replace (128 + r <? 192) with true by (symmetry; apply N.ltb_lt; lia).
  replace (128 <=? 128 + r1) with true by (symmetry; apply N.leb_le; lia).
  replace (128 + r1 <? 192) with true by (symmetry; apply N.ltb_lt; lia).
  replace (128 <=? 128 + r2) with true by (symmetry; apply N.leb_le; lia).
  replace (128 + r2 <? 192) with true by (symmetry; apply N.ltb_lt; lia).
  cbn [andb].
  replace ((240 + q - 240) * 262144 + (128 + r2 - 128) * 4096 + (128 + r1 - 128) * 64 + (128 + r - 128))
    with c by lia.
  replace (65536 <=? c) with true by (symmetry; apply N.leb_le; lia).
  replace (c <? 1114112) with true by (symmetry; apply N.ltb_lt; lia).
  reflexivity.
Qed.

Lemma utf8_chr_length c : (1 <= length (utf8_chr c))%nat.
Proof. unfold utf8_chr. Nify; cbn; lia. Qed.

Lemma utf8_decode_bytes s : Forall character s -> forall n, (length s <= n)%nat -> utf8_decode n (utf8_bytes s) = Some s.
Proof.
  induction 1 as [|c s C F IH]; intros n L.
  - destruct n; reflexivity.
  - destruct n as [|n]; [cbn in L; lia|]. cbn [utf8_bytes flat_map].
    rewrite utf8_decode_char by assumption. fold (utf8_bytes s). rewrite IH; [reflexivity|cbn in L; lia].
Qed.

Lemma utf8_bytes_length s : (length s <= length (utf8_bytes s))%nat.
Proof.
  induction s as [|c s IH]; cbn; [lia|]. rewrite app_length. pose proof (utf8_chr_length c).
  fold (utf8_bytes s). lia.
Qed.

Lemma from_utf8_bytes s : Forall character s -> from_utf8 (utf8_bytes s) = Some s.
Proof. intros F. unfold from_utf8. apply utf8_decode_bytes; [exact F | apply utf8_bytes_length]. Qed.

(** Decoding gives characters with these bytes. *)
Lemma utf8_decode_sound n : forall b s, utf8_decode n b = Some s -> Forall character s /\ utf8_bytes s = b.
Proof.
  assert (MORE : forall (f : option str) c s, match f with Some t => Some (c :: t) | None => None end = Some s ->
                 exists t, f = Some t /\ s = c :: t).
  { intros [t|] c s E; inversion E; eauto. }
  induction n as [|n IH]; intros b s E.
  - destruct b; inversion E. split; [constructor|reflexivity].
  - cbn [utf8_decode] in E. destruct b as [|b0 r0]; [inversion E; split; [constructor|reflexivity]|].
    destruct (N.ltb_spec b0 128) as [L|L].
    { apply MORE in E. destruct E as (t & E & ->). apply IH in E. destruct E as [F <-].
      split; [constructor; auto; unfold character; lia|]. cbn. unfold utf8_chr.
      apply N.ltb_lt in L. now rewrite L. }
    destruct r0 as [|b1 r1]; [discriminate|].
    destruct ((194 <=? b0) && (b0 <? 224) && is_cont b1) eqn:C2.
    { unfold is_cont in C2. rewrite !andb_true_iff, !N.leb_le, !N.ltb_lt in C2.
      apply MORE in E. destruct E as (t & E & ->). apply IH in E. destruct E as [F <-].
      set (c := (b0 - 192) * 64 + (b1 - 128)).
      assert (Q : c / 64 = b0 - 192) by (symmetry; apply N.div_unique with (b1 - 128); unfold c; lia).
      assert (R : c mod 64 = b1 - 128) by (symmetry; apply N.mod_unique with (b0 - 192); unfold c; lia).
      split; [constructor; auto; unfold character, c; lia|]. cbn [utf8_bytes flat_map].
      unfold utf8_chr. rewrite Q, R.
      replace (c <? 128) with false by (symmetry; apply N.ltb_ge; unfold c; lia).
      replace (c <? 2048) with true by (symmetry; apply N.ltb_lt; unfold c; lia).
      cbn [app]. f_equal; [lia|]. f_equal; lia. }
    destruct r1 as [|b2 r2]; [discriminate|].
    destruct ((224 <=? b0) && (b0 <? 240) && is_cont b1 && is_cont b2) eqn:C3.
    { unfold is_cont in C3. rewrite !andb_true_iff, !N.leb_le, !N.ltb_lt in C3.
      set (c := (b0 - 224) * 4096 + (b1 - 128) * 64 + (b2 - 128)) in *.
      destruct ((2048 <=? c) && negb ((55296 <=? c) && (c <? 57344))) eqn:V; [|discriminate].
      rewrite andb_true_iff, negb_true_iff, andb_false_iff, N.leb_le, N.leb_gt, N.ltb_ge in V.
      apply MORE in E. destruct E as (t & E & ->). apply IH in E. destruct E as [F <-].
      assert (Q1 : c / 64 = (b0 - 224) * 64 + (b1 - 128)) by (symmetry; apply N.div_unique with (b2 - 128); unfold c; lia).
      assert (R : c mod 64 = b2 - 128) by (symmetry; apply N.mod_unique with ((b0 - 224) * 64 + (b1 - 128)); unfold c; lia).
      assert (R1 : (c / 64) mod 64 = b1 - 128) by (rewrite Q1; symmetry; apply N.mod_unique with (b0 - 224); lia).
      assert (Q2 : c / 4096 = b0 - 224).
      { symmetry. apply N.div_unique with ((b1 - 128) * 64 + (b2 - 128)); unfold c; lia. }
      assert (CU : c < 65536) by (unfold c; lia).
      split; [constructor; auto; unfold character; lia|]. cbn [utf8_bytes flat_map].
      unfold utf8_chr. rewrite R1, R, Q2.
      replace (c <? 128) with false by (symmetry; apply N.ltb_ge; lia).
      replace (c <? 2048) with false by (symmetry; apply N.ltb_ge; lia).
      replace (c <? 65536) with true by (symmetry; apply N.ltb_lt; lia).
      cbn [app]. f_equal; [lia|]. f_equal; [lia|]. f_equal; lia. }
    destruct r2 as [|b3 r3]; [discriminate|].
    destruct ((240 <=? b0) && (b0 <? 245) && is_cont b1 && is_cont b2 && is_cont b3) eqn:C4; [|discriminate].
    unfold is_cont in C4. rewrite !andb_true_iff, !N.leb_le, !N.ltb_lt in C4.
    set (c := (b0 - 240) * 262144 + (b1 - 128) * 4096 + (b2 - 128) * 64 + (b3 - 128)) in *.
    destruct ((65536 <=? c) && (c <? 1114112)) eqn:V; [|discriminate].
    rewrite andb_true_iff, N.leb_le, N.ltb_lt in V.
    apply MORE in E. destruct E as (t & E & ->). apply IH in E. destruct E as [F <-].
    assert (Q1 : c / 64 = (b0 - 240) * 4096 + (b1 - 128) * 64 + (b2 - 128)) by (symmetry; apply N.div_unique with (b3 - 128); unfold c; lia).
    assert (R : c mod 64 = b3 - 128) by (symmetry; apply N.mod_unique with ((b0 - 240) * 4096 + (b1 - 128) * 64 + (b2 - 128)); unfold c; lia).
    assert (R1 : (c / 64) mod 64 = b2 - 128) by (rewrite Q1; symmetry; apply N.mod_unique with ((b0 - 240) * 64 + (b1 - 128)); lia).
    assert (Q2 : c / 4096 = (b0 - 240) * 64 + (b1 - 128)).
    { symmetry. apply N.div_unique with ((b2 - 128) * 64 + (b3 - 128)); unfold c; lia. }
    assert (R2 : (c / 4096) mod 64 = b1 - 128) by (rewrite Q2; symmetry; apply N.mod_unique with (b0 - 240); lia).
    assert (Q3 : c / 262144 = b0 - 240).
    { symmetry. apply N.div_unique with ((b1 - 128) * 4096 + (b2 - 128) * 64 + (b3 - 128)); unfold c; lia. }
    split; [constructor; auto; unfold character; lia|]. cbn [utf8_bytes flat_map].
    unfold utf8_chr. rewrite R1, R, R2, Q3.
    replace (c <? 128) with false by (symmetry; apply N.ltb_ge; lia).
    replace (c <? 2048) with false by (symmetry; apply N.ltb_ge; lia).
    replace (c <? 65536) with false by (symmetry; apply N.ltb_ge; lia).
    cbn [app]. f_equal; [lia|]. f_equal; [lia|]. f_equal; [lia|]. f_equal; lia.
Qed.

Lemma from_utf8_sound b s : from_utf8 b = Some s -> Forall character s /\ utf8_bytes s = b.
Proof. apply utf8_decode_sound. Qed.

Lemma from_utf8_none b : from_utf8 b = None <-> forall s, Forall character s -> utf8_bytes s <> b.
Proof.
  split.
  - intros N s F <-. rewrite from_utf8_bytes in N by assumption. discriminate.
  - intros A. destruct (from_utf8 b) as [s|] eqn:E; auto.
    apply from_utf8_sound in E. destruct E as [F G]. destruct (A s F G).
Qed.
