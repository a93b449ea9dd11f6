(** Facts about [swap] and [shuffle]. *)

From Coq Require Import String List Lia Permutation FinFun.
From Verif Require Import Base Syntax Host Ops Monad Builtins RandSpec.
Import ListNotations.

Definition exchange (i j k : nat) : nat :=
  if Nat.eqb k i then j else if Nat.eqb k j then i else k.

Lemma exchange_twice i j k : exchange i j (exchange i j k) = k.
Proof.
  unfold exchange. destruct (Nat.eqb_spec k i) as [-> | A].
  - rewrite Nat.eqb_refl. destruct (Nat.eqb_spec j i); congruence.
  - destruct (Nat.eqb_spec k j) as [-> | B]; [now rewrite Nat.eqb_refl |].
    apply Nat.eqb_neq in A, B. now rewrite A, B.
Qed.

Lemma exchange_bound i j k n : (i < n -> j < n -> k < n -> exchange i j k < n)%nat.
Proof.
  unfold exchange.
  repeat match goal with |- context [Nat.eqb ?a ?b] => destruct (Nat.eqb_spec a b) end; lia.
Qed.

Section Swap.
  Context {A : Type} (d : A).

  Lemma swap_length i j l : length (swap d i j l) = length l.
  Proof. unfold swap. now rewrite map_length, seq_length. Qed.

  Lemma swap_nth i j l k : (k < length l)%nat -> nth k (swap d i j l) d = nth (exchange i j k) l d.
  Proof.
    intros L. unfold swap. fold (exchange i j).
    rewrite (nth_indep _ d (nth (exchange i j 0) l d)) by (rewrite map_length, seq_length; exact L).
    rewrite (map_nth (fun k => nth (exchange i j k) l d)). now rewrite seq_nth.
  Qed.

  Lemma swap_permutes i j l :
    (i < length l)%nat -> (j < length l)%nat -> Permutation l (swap d i j l).
  Proof.
    intros I J. apply (Permutation_nth _ _ d). cbv zeta. rewrite swap_length. split; [reflexivity |].
    exists (exchange i j). split; [| split].
    - intros k K. now apply exchange_bound.
    - intros x y X Y E. rewrite <- (exchange_twice i j x), <- (exchange_twice i j y). now rewrite E.
    - intros k K. now apply swap_nth.
  Qed.
End Swap.

Section Shuffle.
  Variable H : host.

  Lemma drawn_refl s : drawn 0 s s.
  Proof. repeat split. now exists []. Qed.

  Lemma sample_spec lo hi s :
    (lo < hi)%Z ->
    exists z s', sample H lo hi s = (ROk z, s') /\ (lo <= z < hi)%Z /\ drawn 1 s s'.
  Proof.
    intros L. unfold sample, bind, ask.
    set (rs := h_answer H (s_trace s) (RqRandom lo hi)).
    eexists _, _. split; [reflexivity |]. split.
    - destruct rs; try lia. destruct ((lo <=? z)%Z && (z <? hi)%Z)%bool eqn:E; [lia | lia].
    - split; [reflexivity |]. split; [reflexivity |].
      exists [(RqRandom lo hi, rs)]. split; [reflexivity |]. split; [reflexivity |].
      constructor; [now exists lo, hi | constructor].
  Qed.

  Lemma drawn_trans m n s s1 s2 : drawn m s s1 -> drawn n s1 s2 -> drawn (m + n) s s2.
  Proof.
    intros (A & B & x & X & LX & FX) (C & D & y & Y & LY & FY).
    split; [congruence |]. split; [congruence |]. exists (y ++ x).
    split; [rewrite Y, X; now rewrite app_assoc |].
    split; [rewrite app_length; lia |]. now apply Forall_app.
  Qed.

  Lemma shuffle_permutes i : forall l s,
    (i < length l \/ i = 0)%nat ->
    exists l' s', shuffle H i l s = (ROk l', s') /\ Permutation l l' /\ drawn i s s'.
  Proof.
    induction i as [| i IH]; intros l s L; cbn [shuffle].
    - exists l, s. repeat split; auto. now exists [].
    - destruct L as [L | L]; [| discriminate].
      destruct (sample_spec 0 (Z.of_nat (S (S i))) s ltac:(lia)) as (z & s1 & E & B & D).
      unfold bind at 1. rewrite E.
      assert (J : (Z.to_nat z < length l)%nat) by lia.
      destruct (IH (swap ENone (S i) (Z.to_nat z) l) s1) as (l' & s' & E' & P & D').
      { rewrite swap_length. lia. }
      exists l', s'. split; [exact E' |]. split.
      + eapply Permutation_trans; [apply (swap_permutes ENone (S i) (Z.to_nat z)); lia | exact P].
      + apply (drawn_trans 1 i s s1 s'); assumption.
  Qed.
End Shuffle.

Lemma permutation_first {A} n (l t : list A) :
  Permutation l t -> skipn n l = skipn n t -> Permutation (firstn n l) (firstn n t).
Proof.
  intros P E. rewrite <- (firstn_skipn n l), <- (firstn_skipn n t), E in P.
  now apply Permutation_app_inv_r in P.
Qed.

Lemma nth_first {A} n (l : list A) k d : (k < n)%nat -> nth k (firstn n l) d = nth k l d.
Proof.
  revert l k. induction n as [| n IH]; intros l k L; [lia |].
  destruct l as [| x l], k as [| k]; try reflexivity. cbn. apply IH. lia.
Qed.

Lemma skipn_ext {A} (d : A) : forall n (l t : list A),
  length l = length t -> (forall k, n <= k < length l -> nth k l d = nth k t d)%nat ->
  skipn n l = skipn n t.
Proof.
  induction n as [| n IH]; intros l t E X.
  - cbn. apply (nth_ext _ _ d d E). intros k K. apply X. lia.
  - destruct l as [| x l], t as [| y t]; try discriminate; [reflexivity |]. cbn. apply IH.
    + now inversion E.
    + intros k K. apply (X (S k)). cbn. lia.
Qed.

Lemma nth_skip {A} n (l : list A) k d : nth k (skipn n l) d = nth (n + k) l d.
Proof. revert l. induction n; intros [| x l]; cbn; auto. now destruct k. Qed.

Lemma shuffle_reaches H i : forall l t js0 s,
  Permutation l t -> (i < length l)%nat -> skipn (S i) l = skipn (S i) t ->
  exists js, forall t0 rest, length (s_trace s) = (t0 + length js0)%nat ->
    exists s', shuffle (with_numbers (js0 ++ js ++ rest) t0 H) i l s = (ROk t, s').
Proof.
  induction i as [| i IH]; intros l t js0 s P L E; cbn [shuffle].
  - exists []. intros t0 rest _. exists s.
    assert (Q := permutation_first 1 l t P E).
    destruct l as [| x l]; [cbn in L; lia |].
    destruct t as [| y t]; [apply Permutation_length in P; discriminate |].
    cbn in Q, E. apply Permutation_length_1 in Q. now subst.
  - assert (LT := Permutation_length P).
    assert (Q := permutation_first (S (S i)) l t P E).
    assert (I : In (nth (S i) t ENone) (firstn (S (S i)) l)).
    { apply (Permutation_in (l := firstn (S (S i)) t)); [now symmetry |].
      rewrite <- (nth_first (S (S i)) t (S i) ENone) by lia. apply nth_In.
      rewrite firstn_length. lia. }
    destruct (In_nth _ _ ENone I) as (j & J & N).
    rewrite firstn_length in J. rewrite nth_first in N by lia.
    set (l1 := swap ENone (S i) j l).
    assert (P1 : Permutation l l1) by (apply swap_permutes; lia).
    destruct (IH l1 t (js0 ++ [Z.of_nat j])
                (St (s_env s) ((RqRandom 0 (Z.of_nat (S (S i))), RsInt (Z.of_nat j)) :: s_trace s)
                    (s_log s))) as (js & K).
    + transitivity l; [now symmetry | exact P].
    + unfold l1. rewrite swap_length. lia.
    + apply (skipn_ext ENone); [apply Permutation_length; transitivity l; [now symmetry | exact P] |].
      intros k B. unfold l1 in *. rewrite swap_length in B.
      destruct (Nat.eq_dec k (S i)) as [-> | NE].
      * rewrite swap_nth by lia. unfold exchange. rewrite Nat.eqb_refl. exact N.
      * rewrite swap_nth by lia. unfold exchange.
        destruct (Nat.eqb_spec k (S i)); [lia |]. destruct (Nat.eqb_spec k j); [lia |].
        replace k with (S (S i) + (k - S (S i)))%nat by lia.
        rewrite <- !nth_skip. now rewrite E.
    + exists (Z.of_nat j :: js). intros t0 rest T.
      destruct (K t0 rest) as (s' & R).
      { cbn [s_trace length]. rewrite app_length. cbn. lia. }
      exists s'. rewrite <- app_assoc in R. cbn [app] in *. rewrite <- R. unfold bind at 1, sample.
      unfold bind at 1, ask. cbn [h_answer with_numbers with_answer].
      replace (nth (length (s_trace s) - t0) (js0 ++ Z.of_nat j :: js ++ rest) 0%Z) with (Z.of_nat j).
      2: { rewrite app_nth2 by lia. replace (_ - _ - _)%nat with 0%nat by lia. reflexivity. }
      cbv beta iota.
      rewrite (proj2 (Z.leb_le 0 (Z.of_nat j))) by lia.
      rewrite (proj2 (Z.ltb_lt (Z.of_nat j) (Z.of_nat (S (S i))))) by lia.
      cbn [andb]. unfold ret. rewrite Nat2Z.id. reflexivity.
Qed.
