(** Facts about dictionaries. *)

From Coq Require Import String Sorted.
From Verif Require Import Base Syntax Host Ops Parser ErrorFmt Text Monad Builtins Eval
  MonoFacts EvalSpec EvalFacts MapFacts CoreFacts LibFacts LibSpec ListFacts.

Section Maps.
  Context {A : Type}.
  Implicit Types m a b : bmap A.

  Lemma in_get m : sorted m -> forall k v, In (k, v) m <-> bm_get k m = Some v.
  Proof. intros S k v. now apply sorted_get_in. Qed.

  Lemma not_in_get m k : sorted m -> ((forall v, ~ In (k, v) m) <-> bm_get k m = None).
  Proof.
    intros S. split.
    - intros N. destruct (bm_get k m) as [v |] eqn:E; [| reflexivity].
      exfalso. apply (N v). now apply in_get.
    - intros E v I. apply in_get in I; [congruence | exact S].
  Qed.

  Lemma get_fold_insert b : sorted b -> forall a k,
    bm_get k (fold_left (fun m kv => bm_insert (fst kv) (snd kv) m) b a)
    = match bm_get k b with Some v => Some v | None => bm_get k a end.
  Proof.
    induction 1 as [| [k1 v1] b S IH F]; intros a k; cbn [fold_left bm_get fst snd]; [reflexivity |].
    rewrite IH, bm_get_insert. destruct (str_eqb k k1) eqn:E; [| reflexivity].
    apply str_eqb_eq in E. subst k1. rewrite (bm_get_above k b); [reflexivity | exact F].
  Qed.

  Lemma sorted_fold_insert b : forall a, sorted a ->
    sorted (fold_left (fun m kv => bm_insert (fst kv) (snd kv) m) b a).
  Proof. induction b as [| [k v] b IH]; intros a S; cbn; auto. apply IH, sorted_insert, S. Qed.

  Lemma get_fold_select (f : str -> bool) b : sorted b -> forall a k,
    bm_get k (fold_left (fun m kv => if f (fst kv) then bm_insert (fst kv) (snd kv) m else m) b a)
    = match bm_get k b with
      | Some v => if f k then Some v else bm_get k a
      | None => bm_get k a
      end.
  Proof.
    induction 1 as [| [k1 v1] b S IH F]; intros a k; cbn [fold_left bm_get fst snd]; [reflexivity |].
    rewrite IH. destruct (str_eqb k k1) eqn:E.
    - apply str_eqb_eq in E. subst k1. rewrite (bm_get_above k b) by exact F.
      destruct (f k); [now rewrite bm_get_insert, str_eqb_refl | reflexivity].
    - destruct (f k1); [rewrite bm_get_insert, E |]; reflexivity.
  Qed.

  Lemma sorted_fold_select (f : str -> bool) b : forall a, sorted a ->
    sorted (fold_left (fun m kv => if f (fst kv) then bm_insert (fst kv) (snd kv) m else m) b a).
  Proof.
    induction b as [| [k v] b IH]; intros a S; cbn; auto. apply IH.
    destruct (f k); [apply sorted_insert |]; exact S.
  Qed.

  Lemma get_fold_remove b : forall a k,
    bm_get k (fold_left (fun m kv => bm_remove (fst kv) m) b a)
    = match bm_get k b with Some _ => None | None => bm_get k a end.
  Proof.
    induction b as [| [k1 v1] b IH]; intros a k; cbn [fold_left bm_get fst snd]; [reflexivity |].
    rewrite IH, bm_get_remove. destruct (str_eqb k k1); [| reflexivity]. now destruct (bm_get k b).
  Qed.

  Lemma sorted_fold_remove {B} (b : bmap B) : forall a, sorted a ->
    sorted (fold_left (fun m kv => bm_remove (fst kv) m) b a).
  Proof. induction b as [| [k v] b IH]; intros a S; cbn; auto. apply IH, sorted_remove, S. Qed.

  Lemma keys_sorted m : sorted m -> StronglySorted (fun x y => str_cmp x y = Lt) (map fst m).
  Proof.
    induction 1 as [| [k v] m S IH F]; cbn; constructor; auto.
    apply Forall_forall. intros x X. apply in_map_iff in X. destruct X as ([k' v'] & <- & X).
    rewrite Forall_forall in F. exact (F _ X).
  Qed.
End Maps.

Lemma from_items_items H m : forall m0,
  from_items H (map (fun kv => EList [EString (fst kv); snd kv]) m) m0
  = fold_left (fun acc kv => bm_insert (fst kv) (snd kv) acc) m m0.
Proof. induction m as [| [k v] m IH]; intros m0; cbn; auto. Qed.

(** The last pair with the key [k]. *)
Lemma from_items_get H l : forall m0 k,
  bm_get k (from_items H l m0)
  = fold_left (fun o e => match e with
                          | EList [x; v] => if str_eqb k (display H x) then Some v else o
                          | _ => o
                          end) l (bm_get k m0).
Proof.
  induction l as [| e l IH]; intros m0 k; [reflexivity |].
  cbn [from_items fold_left].
  destruct e; try apply IH. destruct l0 as [| x [| v [|]]]; try apply IH.
  rewrite IH, bm_get_insert. reflexivity.
Qed.

(** ** Flattening *)

Lemma dict_flatten_app l m : dict_flatten (EList (l ++ m)) = dict_flatten (EList l) ++ dict_flatten (EList m).
Proof. cbn. apply flat_map_app. Qed.

Lemma dict_flatten_contents e : contents e (dict_flatten e).
Proof.
  induction e using expr_ind2 with (Q := fun _ => True); try exact I;
    try (apply contents_one; intros; discriminate).
  - apply contents_list. cbn [dict_flatten]. induction H; cbn [flat_map]; constructor; auto.
  - apply contents_map. cbn [dict_flatten].
    induction m as [| [k x] m IH]; cbn [flat_map map snd]; constructor.
    + inversion H; subst. assumption.
    + apply IH. now inversion H.
Qed.

Lemma dict_flatten_flat e x : In x (dict_flatten e) -> (forall l, x <> EList l) /\ (forall m, x <> EMap m).
Proof.
  induction e using expr_ind2 with (Q := fun _ => True); try exact I; cbn [dict_flatten]; intros X;
    try (destruct X as [<- | []]; split; discriminate).
  - apply in_flat_map in X. destruct X as (y & Y & X). rewrite Forall_forall in H. eauto.
  - apply in_flat_map in X. destruct X as ([k y] & Y & X). rewrite Forall_forall in H.
    apply (H (k, y) Y). exact X.
Qed.

Lemma dict_flatten_id l :
  (forall x, In x l -> (forall k, x <> EList k) /\ (forall m, x <> EMap m)) ->
  dict_flatten (EList l) = l.
Proof.
  cbn. induction l as [| x l IH]; intros F; [reflexivity |]. cbn [flat_map].
  rewrite IH by (intros; apply F; now right).
  destruct (F x (or_introl eq_refl)) as [F1 F2].
  destruct x; cbn; try reflexivity; exfalso; [eapply F1 | eapply F2]; reflexivity.
Qed.

Lemma flatten_flat l x : In x (flatten l) -> (forall k, x <> EList k) /\ (forall e, x <> EGroup e).
Proof.
  unfold flatten. rewrite in_flat_map. intros (e & _ & X). revert X.
  induction e using expr_ind2 with (Q := fun _ => True); try exact I; cbn [flatten1]; intros X;
    try (destruct X as [<- | []]; split; discriminate); auto.
  apply in_flat_map in X. destruct X as (y & Y & X). rewrite Forall_forall in H. eauto.
Qed.
