(** Facts about the functions on text, used by [P_Text.v]. *)

From Coq Require Import String.
From Verif Require Import Base Syntax Host Ops ErrorFmt Text.

(** ** Splitting *)

Lemma strip_prefix_app p s r : strip_prefix p s = Some r <-> s = p ++ r.
Proof.
  revert s. induction p as [| c p IH]; intros s; cbn; [split; congruence |].
  destruct s as [| d s]; [split; discriminate |].
  destruct (N.eqb c d) eqn:E.
  - apply N.eqb_eq in E as ->. rewrite IH. split; [intros ->; reflexivity | congruence].
  - apply N.eqb_neq in E. split; [discriminate | congruence].
Qed.

Lemma starts_with_spec p s : starts_with p s = true <-> exists r, s = p ++ r.
Proof.
  unfold starts_with. destruct (strip_prefix p s) eqn:E.
  - apply strip_prefix_app in E. split; eauto.
  - split; [discriminate |]. intros [r ->].
    assert (X : strip_prefix p (p ++ r) = Some r) by now apply strip_prefix_app. congruence.
Qed.

Lemma join_cons sep x l : l <> [] -> join sep (x :: l) = x ++ sep ++ join sep l.
Proof. destruct l; [congruence | reflexivity]. Qed.

Lemma split_go_nonempty pat s : forall k cur, split_go pat k s cur <> [].
Proof.
  induction s as [| c s IH]; intros k cur; cbn; [discriminate |].
  destruct k; [destruct (starts_with pat (c :: s)); [discriminate | apply IH] | apply IH].
Qed.

Lemma split_go_skip pat k : forall s cur, (k <= length s)%nat ->
  split_go pat k s cur = split_go pat 0 (skipn k s) cur.
Proof.
  induction k as [| k IH]; intros s cur L; [reflexivity |].
  destruct s as [| c s]; cbn in L; [lia |]. cbn [split_go skipn]. apply IH. lia.
Qed.

(** Both facts about [split_go] need an induction on the length of the text. *)
Lemma split_go_join pat : pat <> [] -> forall m s cur, (length s <= m)%nat ->
  join pat (split_go pat 0 s cur) = rev cur ++ s.
Proof.
  intros NE. induction m as [| m IH]; intros s cur L.
  - destruct s; [| cbn in L; lia]. cbn. now rewrite app_nil_r.
  - destruct s as [| c s]; [cbn; now rewrite app_nil_r |]. cbn [split_go].
    destruct (starts_with pat (c :: s)) eqn:E.
    + apply starts_with_spec in E as [r E]. destruct pat as [| p pat]; [congruence |].
      cbn in E. injection E as -> E. subst s.
      rewrite split_go_skip by (rewrite app_length; cbn; lia).
      cbn [length]. rewrite Nat.sub_succ, Nat.sub_0_r.
      rewrite skipn_app, skipn_all, Nat.sub_diag. cbn [skipn Datatypes.app].
      rewrite join_cons by apply split_go_nonempty.
      rewrite IH by (cbn in L; rewrite app_length in L; lia).
      reflexivity.
    + rewrite IH by (cbn in L; lia). cbn [rev]. now rewrite <- app_assoc.
Qed.

Lemma join_nil_chars s : join [] ([] :: map (fun c => [c]) s ++ [[]]) = s.
Proof.
  rewrite join_cons by (destruct s; discriminate). cbn [Datatypes.app].
  induction s as [| c s IH]; [reflexivity |]. cbn [map Datatypes.app].
  rewrite join_cons by (destruct s; discriminate). cbn [Datatypes.app]. now rewrite IH.
Qed.

Lemma split_join pat s : join pat (str_split pat s) = s.
Proof.
  destruct pat as [| p pat]; [apply join_nil_chars |].
  unfold str_split. now rewrite (split_go_join (p :: pat) ltac:(discriminate) (length s)).
Qed.

(** The text [s] does not contain [pat]. *)
Definition free_of (pat s : str) : Prop := forall a b, s <> a ++ pat ++ b.

Definition no_match_before (pat s : str) (n : nat) : Prop :=
  forall a b, s = a ++ pat ++ b -> (n <= length a)%nat.

Lemma split_go_free pat : pat <> [] -> forall m s cur, (length s <= m)%nat ->
  no_match_before pat (rev cur ++ s) (length cur) ->
  Forall (free_of pat) (split_go pat 0 s cur).
Proof.
  intros NE. induction m as [| m IH]; intros s cur L NM.
  - destruct s; [| cbn in L; lia]. cbn. constructor; [| constructor].
    intros a b E. rewrite app_nil_r in NM. apply NM in E as Q. rewrite E in *.
    rewrite <- (rev_length cur), E, !app_length in Q. destruct pat; [congruence | cbn in Q; lia].
  - destruct s as [| c s].
    + cbn. constructor; [| constructor].
      intros a b E. rewrite app_nil_r in NM. apply NM in E as Q.
      rewrite <- (rev_length cur), E, !app_length in Q. destruct pat; [congruence | cbn in Q; lia].
    + cbn [split_go]. destruct (starts_with pat (c :: s)) eqn:E.
      * constructor.
        { intros a b Q. assert (X : rev cur ++ c :: s = a ++ pat ++ (b ++ c :: s))
            by (rewrite Q, <- !app_assoc; reflexivity).
          apply NM in X. rewrite <- (rev_length cur), Q, !app_length in X.
          destruct pat; [congruence | cbn in X; lia]. }
        apply starts_with_spec in E as [r E]. destruct pat as [| p pat]; [congruence |].
        cbn in E. injection E as -> E. subst s.
        rewrite split_go_skip by (rewrite app_length; cbn; lia).
        cbn [length]. rewrite Nat.sub_succ, Nat.sub_0_r.
        rewrite skipn_app, skipn_all, Nat.sub_diag. cbn [skipn Datatypes.app].
        apply IH; [cbn in L; rewrite app_length in L; lia |]. intros a b _. cbn. lia.
      * apply IH; [cbn in L; lia |]. cbn [rev length]. rewrite <- app_assoc. cbn [Datatypes.app].
        intros a b Q. assert (X := NM a b Q).
        destruct (Nat.eq_dec (length a) (length cur)) as [EQ |]; [| lia].
        exfalso. assert (NS : starts_with pat (c :: s) = true); [| congruence].
        apply starts_with_spec. exists b.
        apply (f_equal (skipn (length cur))) in Q.
        rewrite <- (rev_length cur) in Q at 1. rewrite skipn_app, skipn_all, Nat.sub_diag in Q.
        rewrite <- EQ in Q. rewrite skipn_app, skipn_all, Nat.sub_diag in Q. exact Q.
Qed.

Lemma split_free pat s : pat <> [] -> Forall (free_of pat) (str_split pat s).
Proof.
  intros NE. destruct pat as [| p pat]; [congruence |]. unfold str_split.
  apply (split_go_free _ NE (length s)); [lia |]. intros a b _. cbn. lia.
Qed.

(** ** The caesar cipher *)

Lemma map_panic_ok A B (f : A -> B + panic) g l :
  (forall x, In x l -> f x = inl (g x)) -> map_panic f l = inl (map g l).
Proof.
  induction l as [| x l IH]; intros E; cbn; [reflexivity |].
  rewrite (E x (or_introl eq_refl)), IH; [reflexivity |]. intros y Y. apply E. now right.
Qed.

Lemma map_panic_inv A B (f : A -> B + panic) l : forall ys,
  map_panic f l = inl ys -> Forall2 (fun x y => f x = inl y) l ys.
Proof.
  induction l as [| x l IH]; intros ys E; cbn in E; [injection E as <-; constructor |].
  destruct (f x) eqn:F; [| discriminate]. destruct (map_panic f l) eqn:G; [| discriminate].
  injection E as <-. constructor; auto.
Qed.

Lemma lower_range c : is_lower c = true <-> (97 <= c <= 122)%N.
Proof.
  unfold is_lower. rewrite Bool.andb_true_iff, !N.leb_le. reflexivity.
Qed.
Lemma upper_range c : is_upper c = true <-> (65 <= c <= 90)%N.
Proof.
  unfold is_upper. rewrite Bool.andb_true_iff, !N.leb_le. reflexivity.
Qed.

(** ** Escapes *)

Lemma strip_go_no_esc s : forall b, ~ In 27%N (strip_ansi_go b s).
Proof.
  induction s as [| c s IH]; intros b; cbn; [tauto |].
  destruct (c =? 27)%N eqn:E; [apply IH |]. apply N.eqb_neq in E.
  destruct (b && (c =? 109)%N); [apply IH |]. destruct b; cbn; [apply IH |].
  intros [-> | X]; [congruence | now apply IH in X].
Qed.

Lemma strip_clean s : ~ In 27%N s -> strip_ansi s = s.
Proof.
  unfold strip_ansi. induction s as [| c s IH]; intros N; cbn; [reflexivity |].
  destruct (c =? 27)%N eqn:E; [apply N.eqb_eq in E as ->; cbn in N; tauto |].
  rewrite IH by (cbn in N; tauto). reflexivity.
Qed.

Lemma strip_go_app s : forall b r, exists b',
  strip_ansi_go b (s ++ r) = strip_ansi_go b s ++ strip_ansi_go b' r.
Proof.
  induction s as [| c s IH]; intros b r; cbn; [now exists b |].
  destruct (c =? 27)%N; [apply IH |].
  destruct (b && (c =? 109)%N); [apply IH |]. destruct b; cbn; [apply IH |].
  destruct (IH false r) as [b' ->]. now exists b'.
Qed.

(** Inside an escape sequence everything up to the letter m is dropped. *)
Lemma strip_go_escape code r : ~ In 109%N code ->
  strip_ansi_go true (code ++ 109%N :: r) = strip_ansi_go false r.
Proof.
  induction code as [| c code IH]; intros N; cbn; [reflexivity |].
  destruct (c =? 27)%N eqn:E; [apply IH; cbn in N; tauto |].
  destruct (c =? 109)%N eqn:M; [apply N.eqb_eq in M as ->; cbn in N; tauto |].
  cbn. apply IH. cbn in N. tauto.
Qed.
