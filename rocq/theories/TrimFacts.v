(** Trimming. *)

From Coq Require Import List Lia NArith.
From Verif Require Import Base Host ErrorFmt TokFacts TextSpec.
Import ListNotations.

Lemma space_is_ws c : space c <-> is_ws c = true.
Proof.
  unfold space, is_ws. cbn [In].
  rewrite !orb_true_iff, !andb_true_iff, !N.leb_le, !N.eqb_eq. intuition (subst; auto 20).
Qed.

Lemma spaces_is_ws t : Forall space t <-> Forall (fun c => is_ws c = true) t.
Proof. split; intros F; (eapply Forall_impl; [| exact F]); intros c; apply space_is_ws. Qed.

Lemma span_begins f s c r : snd (span f s) = c :: r -> f c = false.
Proof.
  induction s as [| x s IH]; cbn [span]; [discriminate |]. destruct (f x) eqn:E.
  - destruct (span f s) as [a b]. exact IH.
  - cbn [snd]. intros X. now injection X as -> _.
Qed.

Lemma trim_start_spec s : trimmed_start s (trim_start s).
Proof.
  exists (fst (span is_ws s)). split; [symmetry; apply span_app |]. split.
  - apply spaces_is_ws, span_all.
  - intros c r E X. apply span_begins in E. apply space_is_ws in X. congruence.
Qed.

Lemma prefix_unique a b t u :
  a ++ t = b ++ u -> Forall space a -> Forall space b -> begins_with_text t -> begins_with_text u -> t = u.
Proof.
  revert b. induction a as [| x a IH]; intros [| y b] E FA FB T U; cbn [app] in E.
  - exact E.
  - subst t. inversion FB; subst. exfalso. eapply T; [reflexivity | assumption].
  - subst u. inversion FA; subst. exfalso. eapply U; [reflexivity | assumption].
  - injection E as _ E. inversion FA; inversion FB; subst. eapply IH; eauto.
Qed.

Lemma trimmed_start_unique s t u : trimmed_start s t -> trimmed_start s u -> t = u.
Proof. intros (a & -> & A & T) (b & E & B & U). exact (prefix_unique a b t u E A B T U). Qed.

Lemma trimmed_end_rev s t : trimmed_end s t <-> trimmed_start (rev s) (rev t).
Proof.
  split.
  - intros (b & -> & B & T). exists (rev b). rewrite rev_app_distr. split; [reflexivity |].
    split; [now apply Forall_rev |]. intros c r E X. apply (f_equal (@rev chr)) in E.
    rewrite rev_involutive in E. cbn [rev] in E. exact (T c (rev r) E X).
  - intros (b & E & B & T). apply (f_equal (@rev chr)) in E. rewrite rev_involutive, rev_app_distr, rev_involutive in E.
    exists (rev b). split; [exact E |]. split; [now apply Forall_rev |].
    intros c r X Y. subst t. rewrite rev_app_distr in T. exact (T c (rev r) eq_refl Y).
Qed.

Lemma trim_end_spec s : trimmed_end s (trim_end s).
Proof. apply trimmed_end_rev. unfold trim_end. rewrite rev_involutive. apply trim_start_spec. Qed.

Lemma trim_spec s : trimmed s (trim s).
Proof.
  destruct (trim_start_spec s) as (a & A & FA & T). unfold trim.
  destruct (trim_end_spec (trim_start s)) as (b & B & FB & U).
  exists a, b. split; [now rewrite <- B |]. split; [exact FA |]. split; [exact FB |]. split; [| exact U].
  intros c r E. apply (T c (r ++ b)). rewrite B, E. reflexivity.
Qed.

Lemma trimmed_unique s t u : trimmed s t -> trimmed s u -> t = u.
Proof.
  intros (a & b & -> & A & B & T1 & T2) (a' & b' & E & A' & B' & U1 & U2).
  destruct t as [| c t].
  - destruct u as [| d u]; [reflexivity |]. exfalso. cbn [app] in E.
    apply (U1 d u eq_refl). assert (F : Forall space (a ++ b)) by (now apply Forall_app).
    rewrite E in F. apply Forall_app in F. destruct F as [_ F]. now inversion F.
  - destruct u as [| d u].
    { exfalso. cbn [app] in E. apply (T1 c t eq_refl). assert (F : Forall space (a' ++ b')) by (now apply Forall_app).
      rewrite <- E in F. apply Forall_app in F. destruct F as [_ F]. now inversion F. }
    assert (X : (c :: t) ++ b = (d :: u) ++ b').
    { eapply prefix_unique; [exact E | exact A | exact A' | |]; intros x r Y; cbn [app] in Y; injection Y as <- _;
        [now apply (T1 c t) | now apply (U1 d u)]. }
    apply (f_equal (@rev chr)) in X. rewrite !rev_app_distr in X.
    assert (Y : rev (c :: t) = rev (d :: u)).
    { eapply prefix_unique; [exact X | now apply Forall_rev | now apply Forall_rev | |];
        intros x r Y Z; apply (f_equal (@rev chr)) in Y; rewrite rev_involutive in Y; cbn [rev] in Y;
        [exact (T2 x _ Y Z) | exact (U2 x _ Y Z)]. }
    apply (f_equal (@rev chr)) in Y. now rewrite !rev_involutive in Y.
Qed.

Lemma trimmed_trim s t : trimmed s t <-> trim s = t.
Proof.
  split.
  - intros T. eapply trimmed_unique; [apply trim_spec | exact T].
  - intros <-. apply trim_spec.
Qed.
