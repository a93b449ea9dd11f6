(** Texts, ordered maps and environments. *)

From Coq Require Import String Sorted.
From Verif Require Import Base Syntax.

(** ** Texts *)

Lemma str_eqb_eq a b : str_eqb a b = true <-> a = b.
Proof.
  revert b. induction a as [| x a IH]; intros [| y b]; cbn; try (split; congruence).
  rewrite andb_true_iff, N.eqb_eq, IH. split; [intros [-> ->] | intros X; inversion X]; auto.
Qed.

Lemma str_eqb_refl a : str_eqb a a = true.
Proof. now apply str_eqb_eq. Qed.

Lemma str_eqb_neq a b : str_eqb a b = false <-> a <> b.
Proof. rewrite <- str_eqb_eq. destruct (str_eqb a b); split; congruence. Qed.

Lemma str_eqb_sym a b : str_eqb a b = str_eqb b a.
Proof.
  destruct (str_eqb b a) eqn:E.
  - apply str_eqb_eq. apply str_eqb_eq in E. auto.
  - apply str_eqb_neq. apply str_eqb_neq in E. auto.
Qed.

Lemma str_eq_dec (a b : str) : {a = b} + {a <> b}.
Proof. destruct (str_eqb a b) eqn:E; [left; now apply str_eqb_eq | right; now apply str_eqb_neq]. Qed.

Lemma str_cmp_eq a b : str_cmp a b = Eq <-> a = b.
Proof.
  revert b. induction a as [| x a IH]; intros [| y b]; cbn; try (split; congruence).
  destruct (N.compare_spec x y) as [-> | L | L].
  - rewrite IH. split; [intros -> | intros X; inversion X]; auto.
  - split; [discriminate |]. intros X; inversion X; subst; lia.
  - split; [discriminate |]. intros X; inversion X; subst; lia.
Qed.

Lemma str_cmp_refl a : str_cmp a a = Eq.
Proof. now apply str_cmp_eq. Qed.

Lemma str_cmp_antisym a b : str_cmp b a = CompOpp (str_cmp a b).
Proof.
  revert b. induction a as [| x a IH]; intros [| y b]; cbn; auto.
  rewrite (N.compare_antisym x y). destruct (x ?= y)%N; cbn; auto.
Qed.

Lemma str_cmp_trans a b c : str_cmp a b = Lt -> str_cmp b c = Lt -> str_cmp a c = Lt.
Proof.
  revert b c. induction a as [| x a IH]; intros [| y b] [| z c]; cbn; try congruence.
  destruct (N.compare_spec x y) as [-> | L | L]; try discriminate.
  - destruct (N.compare_spec y z) as [-> | L | L]; try discriminate; auto. apply IH.
  - intros _. destruct (N.compare_spec y z) as [-> | L' | L']; try discriminate; intros _.
    + apply N.compare_lt_iff in L. now rewrite L.
    + assert (X : (x < z)%N) by lia. apply N.compare_lt_iff in X. now rewrite X.
Qed.

Lemma str_cmp_neq a b : str_cmp a b <> Eq -> str_eqb a b = false.
Proof. intros N. apply str_eqb_neq. rewrite <- str_cmp_eq. exact N. Qed.

(** ** Maps *)

Section Maps.
  Context {A : Type}.
  Implicit Types m : bmap A.

  Lemma bm_get_insert k v m k' :
    bm_get k' (bm_insert k v m) = if str_eqb k' k then Some v else bm_get k' m.
  Proof.
    induction m as [| [k1 v1] m IH]; cbn.
    - destruct (str_eqb k' k); reflexivity.
    - destruct (str_cmp k k1) eqn:C; cbn.
      + apply str_cmp_eq in C. subst k1. destruct (str_eqb k' k); reflexivity.
      + reflexivity.
      + rewrite IH. destruct (str_eqb k' k1) eqn:E1; [| reflexivity].
        destruct (str_eqb k' k) eqn:E2; [| reflexivity].
        apply str_eqb_eq in E1. apply str_eqb_eq in E2. subst.
        rewrite str_cmp_refl in C. discriminate.
  Qed.

  Lemma bm_get_remove k m k' :
    bm_get k' (bm_remove k m) = if str_eqb k' k then None else bm_get k' m.
  Proof.
    unfold bm_remove. induction m as [| [k1 v1] m IH]; cbn.
    - now destruct (str_eqb k' k).
    - destruct (str_eqb k k1) eqn:E; cbn.
      + rewrite IH. apply str_eqb_eq in E. subst k1.
        destruct (str_eqb k' k); reflexivity.
      + rewrite IH. destruct (str_eqb k' k1) eqn:E1; [| reflexivity].
        destruct (str_eqb k' k) eqn:E2; [| reflexivity].
        apply str_eqb_eq in E1. apply str_eqb_eq in E2. subst.
        rewrite str_eqb_refl in E. discriminate.
  Qed.

  Lemma bm_mem_get k m : bm_mem k m = true <-> bm_get k m <> None.
  Proof. unfold bm_mem. destruct (bm_get k m); split; congruence. Qed.

  (** Keys in strictly increasing order: what every [BTreeMap] satisfies. *)
  Definition key_lt (a b : str * A) : Prop := str_cmp (fst a) (fst b) = Lt.
  Definition sorted m : Prop := StronglySorted key_lt m.

  Lemma sorted_nil : sorted [].
  Proof. constructor. Qed.

  Lemma bm_insert_forall (P : str * A -> Prop) k v m :
    P (k, v) -> Forall P m -> Forall P (bm_insert k v m).
  Proof.
    intros Pk F. induction F as [| [k1 v1] m P1 F IH]; cbn; [auto |].
    destruct (str_cmp k k1); auto.
  Qed.

  Lemma sorted_insert k v m : sorted m -> sorted (bm_insert k v m).
  Proof.
    unfold sorted. induction m as [| [k1 v1] m IH]; intros S; cbn.
    - repeat constructor.
    - inversion S; subst. destruct (str_cmp k k1) eqn:C.
      + apply str_cmp_eq in C. subst k1. constructor; auto.
      + constructor; [exact S |]. constructor; [exact C |].
        eapply Forall_impl; [| exact H2]. intros [k2 v2] L. unfold key_lt in *. cbn in *.
        eapply str_cmp_trans; eauto.
      + constructor; [auto |]. apply bm_insert_forall; [| assumption].
        unfold key_lt; cbn. rewrite str_cmp_antisym, C. reflexivity.
  Qed.

  Lemma sorted_remove k m : sorted m -> sorted (bm_remove k m).
  Proof.
    unfold sorted, bm_remove. induction 1 as [| [k1 v1] m S IH F]; cbn; [constructor |].
    destruct (negb (str_eqb k k1)); auto. constructor; auto.
    apply Forall_forall. intros x X. apply filter_In in X. destruct X as [X _].
    rewrite Forall_forall in F. auto.
  Qed.

  Lemma bm_get_above k m :
    Forall (fun kv => str_cmp k (fst kv) = Lt) m -> bm_get k m = None.
  Proof.
    induction 1 as [| [k1 v1] m L F IH]; cbn in *; [reflexivity |].
    rewrite (str_cmp_neq k k1); [exact IH | congruence].
  Qed.

  (** Two sorted maps with the same lookups are equal. *)
  Lemma sorted_ext m : forall m', sorted m -> sorted m' ->
    (forall k, bm_get k m = bm_get k m') -> m = m'.
  Proof.
    induction m as [| [k v] m IH]; intros [| [k' v'] m'] S S' E.
    - reflexivity.
    - specialize (E k'). cbn in E. rewrite str_eqb_refl in E. discriminate.
    - specialize (E k). cbn in E. rewrite str_eqb_refl in E. discriminate.
    - inversion S as [| x y S1 F1]; subst. inversion S' as [| x y S2 F2]; subst.
      assert (G1 : bm_get k m = None) by (apply bm_get_above; exact F1).
      assert (G2 : bm_get k' m' = None) by (apply bm_get_above; exact F2).
      destruct (str_cmp k k') eqn:C.
      + apply str_cmp_eq in C. subst k'. f_equal.
        * specialize (E k). cbn in E. rewrite str_eqb_refl in E. congruence.
        * apply IH; auto. intros k0. destruct (str_eqb k0 k) eqn:E0.
          -- apply str_eqb_eq in E0. congruence.
          -- specialize (E k0). cbn in E. rewrite E0 in E. exact E.
      + exfalso. specialize (E k). cbn in E. rewrite str_eqb_refl in E.
        rewrite (str_cmp_neq k k') in E by congruence.
        rewrite bm_get_above in E; [discriminate |].
        eapply Forall_impl; [| exact F2]. intros [k2 v2] L. unfold key_lt in L. cbn in *.
        eapply str_cmp_trans; eauto.
      + exfalso. specialize (E k'). cbn in E. rewrite str_eqb_refl in E.
        rewrite (str_cmp_neq k' k) in E.
        * rewrite bm_get_above in E; [discriminate |].
          eapply Forall_impl; [| exact F1]. intros [k2 v2] L. unfold key_lt in L. cbn in *.
          eapply str_cmp_trans; [| exact L]. rewrite str_cmp_antisym, C. reflexivity.
        * rewrite str_cmp_antisym, C. discriminate.
  Qed.

  Lemma sorted_get_in m k v : sorted m -> (In (k, v) m <-> bm_get k m = Some v).
  Proof.
    induction 1 as [| [k1 v1] m S IH F]; cbn; [split; [tauto | discriminate] |].
    destruct (str_eqb k k1) eqn:E.
    - apply str_eqb_eq in E. subst k1. split.
      + intros [X | X]; [congruence |]. exfalso.
        rewrite Forall_forall in F. specialize (F _ X). unfold key_lt in F. cbn in F.
        rewrite str_cmp_refl in F. discriminate.
      + intros X. left. congruence.
    - rewrite <- IH. apply str_eqb_neq in E. split; [intros [X | X]; [congruence | auto] | auto].
  Qed.

  Lemma bm_insert_sorted_last m k v :
    Forall (fun kv => str_cmp (fst kv) k = Lt) m -> bm_insert k v m = m ++ [(k, v)].
  Proof.
    induction 1 as [| [k1 v1] m L F IH]; cbn in *; [reflexivity |].
    rewrite str_cmp_antisym, L. cbn. now rewrite IH.
  Qed.

  (** Inserting the items of a sorted map one by one gives the map back. *)
  Lemma fold_insert_sorted m : sorted m ->
    forall m0, (forall a b, In a m0 -> In b m -> key_lt a b) ->
    fold_left (fun acc kv => bm_insert (fst kv) (snd kv) acc) m m0 = m0 ++ m.
  Proof.
    induction 1 as [| [k v] m S IH F]; intros m0 L; cbn; [now rewrite app_nil_r |].
    rewrite bm_insert_sorted_last.
    - rewrite IH.
      + now rewrite <- app_assoc.
      + intros a b X Y. apply in_app_iff in X. destruct X as [X | [<- | []]].
        * apply L; [exact X | now right].
        * rewrite Forall_forall in F. now apply F.
    - apply Forall_forall. intros a X. apply (L a (k, v) X). now left.
  Qed.

  Lemma bm_of_list_sorted m : sorted m -> bm_of_list m = m.
  Proof. intros S. unfold bm_of_list. rewrite fold_insert_sorted; auto. intros a b []. Qed.

  Lemma sorted_of_list l : sorted (bm_of_list l).
  Proof.
    unfold bm_of_list. generalize (@sorted_nil). generalize (@nil (str * A)).
    induction l as [| [k v] l IH]; intros m S; cbn; auto. apply IH, sorted_insert, S.
  Qed.

  Lemma sorted_keys_NoDup m : sorted m -> NoDup (map fst m).
  Proof.
    induction 1 as [| [k v] m S IH F]; cbn; constructor; auto.
    rewrite in_map_iff. intros [[k' v'] [E X]]. cbn in E. subst k'.
    rewrite Forall_forall in F. specialize (F _ X). unfold key_lt in F. cbn in F.
    rewrite str_cmp_refl in F. discriminate.
  Qed.
End Maps.

(** ** Environments *)

Fixpoint env_chain_ind (Q : env -> Prop)
  (X : forall b p, opt_all Q p -> Q (Env b p)) (e : env) {struct e} : Q e :=
  match e with
  | Env b p =>
      X b p (match p as p0 return opt_all Q p0 with
             | Some p' => env_chain_ind Q X p'
             | None => I
             end)
  end.

Lemma env_get_define x v e y :
  env_get y (env_define x v e) = if str_eqb y x then Some v else env_get y e.
Proof.
  destruct e as [b p]. cbn. rewrite bm_get_insert. destruct (str_eqb y x); reflexivity.
Qed.

Lemma env_get_undefine x e y :
  env_get y (env_undefine x e)
  = if str_eqb y x then match env_parent e with Some p => env_get x p | None => None end
    else env_get y e.
Proof.
  destruct e as [b p]. cbn. rewrite bm_get_remove. destruct (str_eqb y x) eqn:E; [| reflexivity].
  apply str_eqb_eq in E. now subst y.
Qed.

Lemma env_is_defined_get x e : env_is_defined x e = true <-> env_get x e <> None.
Proof.
  induction e as [b p IH] using env_chain_ind.
  cbn. rewrite orb_true_iff, bm_mem_get. destruct (bm_get x b) as [v |].
  - split; [discriminate | left; discriminate].
  - destruct p as [p |]; cbn in IH.
    + rewrite IH. intuition.
    + split; [intros [X | X]; congruence | congruence].
Qed.

Lemma env_parent_define x v e : env_parent (env_define x v e) = env_parent e.
Proof. now destruct e. Qed.

Lemma env_parent_undefine x e : env_parent (env_undefine x e) = env_parent e.
Proof. now destruct e. Qed.

Lemma env_get_cwd_define x v e :
  x <> CWD -> env_get_cwd (env_define x v e) = env_get_cwd e.
Proof.
  intros N. unfold env_get_cwd. rewrite env_get_define.
  replace (str_eqb CWD x) with false; [reflexivity |].
  symmetry. apply str_eqb_neq. congruence.
Qed.
