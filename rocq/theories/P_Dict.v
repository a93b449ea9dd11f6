(** C40, C56: dictionaries and flattening. *)

From Coq Require Import String Sorted.
From Verif Require Import Base Syntax Host Ops Parser ErrorFmt Text Monad Builtins Eval
  EvalSpec EvalFacts MapFacts CoreFacts CmdFacts LibFacts OpsSpec OpsFacts LibSpec ListFacts
  DictFacts Init Demo.

(** ** C40 *)

(** Every map is a list of pairs with strictly increasing keys ([sorted]); each
    operation keeps this and has the entries that are stated. *)

Theorem C40_insert H a b c s m s1 k s2 v s3 :
  gives H a s (EMap m) s1 -> gives H b s1 (EString k) s2 -> gives H c s2 v s3 -> sorted m ->
  exists m', calls H DInsert [a; b; c] s (ROk (EMap m')) s3
    /\ sorted m'
    /\ forall x w, In (x, w) m' <-> (x = k /\ w = v) \/ (x <> k /\ In (x, w) m).
Proof.
  intros A B C S. unfold gives in *. exists (bm_insert k v m).
  split; [call; unfold run_dict_insert, exact3; repeat sure_step |].
  assert (S' := sorted_insert k v m S). split; [exact S' |]. intros x w.
  rewrite !in_get, bm_get_insert by assumption.
  destruct (str_eqb x k) eqn:E; [apply str_eqb_eq in E | apply str_eqb_neq in E]; intuition congruence.
Qed.

Theorem C40_remove H a b s m s1 k s2 :
  gives H a s (EMap m) s1 -> gives H b s1 (EString k) s2 -> sorted m ->
  exists m', calls H DRemove [a; b] s (ROk (EMap m')) s2
    /\ sorted m'
    /\ forall x w, In (x, w) m' <-> x <> k /\ In (x, w) m.
Proof.
  intros A B S. unfold gives in *. exists (bm_remove k m).
  split; [call; unfold run_remove, exact2; repeat sure_step |].
  assert (S' := sorted_remove k m S). split; [exact S' |]. intros x w.
  rewrite !in_get, bm_get_remove by assumption.
  destruct (str_eqb x k) eqn:E; [apply str_eqb_eq in E | apply str_eqb_neq in E]; intuition congruence.
Qed.

Theorem C40_has H a b s m s1 k s2 :
  gives H a s (EMap m) s1 -> gives H b s1 (EString k) s2 -> sorted m ->
  exists t, calls H DHas [a; b] s (ROk (EBoolean t)) s2 /\ (t = true <-> exists v, In (k, v) m).
Proof.
  intros A B S. unfold gives in *. exists (bm_mem k m).
  split; [call; unfold run_has, exact2; repeat sure_step |].
  rewrite bm_mem_get. setoid_rewrite in_get; [| exact S].
  destruct (bm_get k m) as [v |]; split; intros X; try congruence; eauto.
  destruct X; congruence.
Qed.

(** Indexing a map with a text, or with an unquoted name. *)
Theorem C40_index H a s m s1 k s2 b :
  gives H a s (EMap m) s1 -> sorted m ->
  (b = ESymbol k /\ s2 = s1 \/ gives H b s1 (EString k) s2
                               /\ (forall n, b <> ESymbol n) /\ forall z, b <> EInteger z) ->
  (forall v, In (k, v) m -> calls H BIndex [a; b] s (ROk v) s2)
  /\ ((forall v, ~ In (k, v) m) -> calls H BIndex [a; b] s (ROk ENone) s2).
Proof.
  intros A S B.
  assert (K : calls H BIndex [a; b] s (ROk (match bm_get k m with Some v => v | None => ENone end)) s2).
  { unfold gives in *. call; unfold run_index. repeat sure_step. cbn [tl foldM].
    destruct B as [[-> ->] | (B & N1 & N2)].
    - apply sure_const. reflexivity.
    - assert (E : sure (fun n => i <- eval H n 0 b ;; ret (expr_index (EMap m) i)) s1
                    (ROk (match bm_get k m with Some v => v | None => ENone end)) s2).
      { eapply sure_ev_bind; [exact B |]. apply sure_const. reflexivity. }
      destruct b; try (exfalso; eapply N1 + eapply N2; reflexivity);
        eapply (sure_bind _ _ (fun n => i <- eval H n 0 _ ;; ret (expr_index (EMap m) i)) (fun n => ret));
        try exact E; apply sure_ret. }
  split.
  - intros v I. apply in_get in I; [| exact S]. now rewrite I in K.
  - intros N. apply not_in_get in N; [| exact S]. now rewrite N in K.
Qed.

Theorem C40_union H a b s m1 s1 m2 s2 :
  gives H a s (EMap m1) s1 -> gives H b s1 (EMap m2) s2 -> sorted m1 -> sorted m2 ->
  exists m', calls H DUnion [a; b] s (ROk (EMap m')) s2
    /\ sorted m'
    /\ forall x w, In (x, w) m' <-> In (x, w) m2 \/ (In (x, w) m1 /\ forall u, ~ In (x, u) m2).
Proof.
  intros A B S1 S2. unfold gives in *.
  exists (fold_left (fun m kv => bm_insert (fst kv) (snd kv) m) m2 m1).
  split; [call; unfold run_union, exact2; repeat sure_step |].
  assert (S' := sorted_fold_insert m2 m1 S1). split; [exact S' |]. intros x w.
  rewrite not_in_get, !in_get, get_fold_insert by assumption.
  destruct (bm_get x m2); intuition congruence.
Qed.

Theorem C40_intersect H a b s m1 s1 m2 s2 :
  gives H a s (EMap m1) s1 -> gives H b s1 (EMap m2) s2 -> sorted m1 -> sorted m2 ->
  exists m', calls H DIntersect [a; b] s (ROk (EMap m')) s2
    /\ sorted m'
    /\ forall x w, In (x, w) m' <-> In (x, w) m1 /\ exists u, In (x, u) m2.
Proof.
  intros A B S1 S2. unfold gives in *.
  exists (fold_left (fun m kv => if bm_mem (fst kv) m2 then bm_insert (fst kv) (snd kv) m else m) m1 []).
  split; [call; unfold run_intersect, exact2; repeat sure_step |].
  assert (S' : sorted (fold_left (fun m kv => if bm_mem (fst kv) m2
                                   then bm_insert (fst kv) (snd kv) m else m) m1 []))
    by (apply (sorted_fold_select (fun k => bm_mem k m2)), sorted_nil).
  split; [exact S' |]. intros x w.
  rewrite in_get by exact S'. rewrite (get_fold_select (fun k => bm_mem k m2)) by exact S1.
  rewrite in_get by exact S1. setoid_rewrite (in_get m2 S2). cbn [bm_get].
  unfold bm_mem. destruct (bm_get x m1), (bm_get x m2); split;
    try (intros [E [u U]]; congruence); intros E; try discriminate; split; eauto.
Qed.

Theorem C40_difference H a b s m1 s1 m2 s2 :
  gives H a s (EMap m1) s1 -> gives H b s1 (EMap m2) s2 -> sorted m1 -> sorted m2 ->
  exists m', calls H DDifference [a; b] s (ROk (EMap m')) s2
    /\ sorted m'
    /\ forall x w, In (x, w) m' <-> In (x, w) m1 /\ forall u, ~ In (x, u) m2.
Proof.
  intros A B S1 S2. unfold gives in *.
  exists (fold_left (fun m kv => bm_remove (fst kv) m) m2 m1).
  split; [call; unfold run_difference, exact2; repeat sure_step |].
  assert (S' := sorted_fold_remove m2 m1 S1). split; [exact S' |]. intros x w.
  rewrite not_in_get, !in_get, get_fold_remove by assumption.
  destruct (bm_get x m2); intuition congruence.
Qed.

(** Keys, values and items come in the same, increasing order of the keys. *)
Theorem C40_keys_values_items H a s m s' :
  gives H a s (EMap m) s' -> sorted m ->
  exists ks vs,
    calls H DKeys [a] s (ROk (EList (map EString ks))) s'
    /\ calls H BKeys [a] s (ROk (EList (map EString ks))) s'
    /\ calls H DValues [a] s (ROk (EList vs)) s'
    /\ calls H BVals [a] s (ROk (EList vs)) s'
    /\ calls H DItems [a] s (ROk (EList (map (fun p => EList [EString (fst p); snd p]) (combine ks vs)))) s'
    /\ (storable ks -> calls H DLen [a] s (ROk (EInteger (size ks))) s')
    /\ length ks = length vs
    /\ StronglySorted (fun x y => str_cmp x y = Lt) ks
    /\ forall k v, In (k, v) (combine ks vs) <-> In (k, v) m.
Proof.
  intros A S. unfold gives in *. exists (map fst m), (map snd m).
  assert (Z : combine (map fst m) (map snd m) = m)
    by (clear; induction m as [| [k v] m IH]; cbn; [reflexivity | now rewrite IH]).
  rewrite Z.
  split; [call; unfold run_dict_keys, exact1, strings; repeat sure_step |].
  split; [call; unfold run_keys; repeat sure_step; rewrite map_map; apply sure_ret |].
  split; [call; unfold run_values, exact1; repeat sure_step |].
  split; [call; unfold run_vals; repeat sure_step |].
  split; [call; unfold run_items, exact1; repeat sure_step |].
  split.
  { intros T. call; unfold run_dict_len, exact1; repeat sure_step.
    rewrite <- (as_int_size _ _ T). unfold size. rewrite map_length. apply sure_ret. }
  split; [now rewrite !map_length |]. split; [now apply keys_sorted | tauto].
Qed.

(** [from-items] undoes [items]; in general the last pair of a key counts. *)
Theorem C40_from_items H a s m s' :
  gives H a s (EMap m) s' -> sorted m ->
  calls H DFromItems [app DItems [a]] s (ROk (EMap m)) s'.
Proof.
  intros A S. unfold gives in *.
  assert (I : calls H DItems [a] s (ROk (EList (map (fun kv => EList [EString (fst kv); snd kv]) m))) s')
    by (call; unfold run_items, exact1; repeat sure_step).
  apply app_calls in I. call; unfold run_from_items, exact1. repeat sure_step.
  rewrite from_items_items, (fold_insert_sorted m S []); [apply sure_ret | intros ? ? []].
Qed.

Theorem C40_from_items_last H a s l s' k v l1 l2 :
  gives H a s (EList l) s' ->
  l = l1 ++ EList [EString k; v] :: l2 ->
  (forall x w, In (EList [x; w]) l2 -> display H x <> k) ->
  exists m, calls H DFromItems [a] s (ROk (EMap m)) s' /\ bm_get k m = Some v.
Proof.
  intros A -> N. unfold gives in *. eexists.
  split; [call; unfold run_from_items, exact1; repeat sure_step |].
  rewrite from_items_get, fold_left_app. cbn [fold_left].
  change (display H (EString k)) with k. rewrite str_eqb_refl. clear A.
  induction l2 as [| e l2 IH]; [reflexivity |]. cbn [fold_left].
  replace (match e with
           | EList [x; w] => if str_eqb k (display H x) then Some w else Some v
           | _ => Some v
           end) with (Some v); [apply IH; intros x w I; apply (N x w); now right |].
  destruct e; try reflexivity. destruct l as [| x [| w [|]]]; try reflexivity.
  assert (D := N x w (or_introl eq_refl)).
  rewrite (proj2 (str_eqb_neq k (display H x))); [reflexivity | congruence].
Qed.

Example C40_example :
  sorted [(lit "a", EInteger 1); (lit "b", EInteger 2)]
  /\ value_of "dict@union {a=1, b=2} {b=3, c=4}"
     = ROk (EMap [(lit "a", EInteger 1); (lit "b", EInteger 3); (lit "c", EInteger 4)])
  /\ value_of "dict@intersect {a=1, b=2} {b=3, c=4}" = ROk (EMap [(lit "b", EInteger 2)])
  /\ value_of "dict@difference {a=1, b=2} {b=3, c=4}" = ROk (EMap [(lit "a", EInteger 1)])
  /\ value_of "dict@from-items [[""x"", 1], [""x"", 2]]" = ROk (EMap [(lit "x", EInteger 2)])
  /\ value_of "{a=1}@b" = ROk ENone.
Proof.
  split; [repeat constructor |]. repeat split; vm_compute; reflexivity.
Qed.

Print Assumptions C40_insert.
Print Assumptions C40_remove.
Print Assumptions C40_has.
Print Assumptions C40_index.
Print Assumptions C40_union.
Print Assumptions C40_intersect.
Print Assumptions C40_difference.
Print Assumptions C40_keys_values_items.
Print Assumptions C40_from_items.
Print Assumptions C40_from_items_last.

(** ** C56 *)

(** The builtin function [flatten] gives the contents in order; flattening
    twice is flattening once. *)
Theorem C56_flatten H a s v s' :
  gives H a s v s' ->
  exists r, calls H DFlatten [a] s (ROk (EList r)) s'
    /\ contents v r
    /\ (forall x, In x r -> (forall l, x <> EList l) /\ (forall m, x <> EMap m))
    /\ calls H DFlatten [app DFlatten [a]] s (ROk (EList r)) s'.
Proof.
  intros A. unfold gives in *. exists (dict_flatten v).
  assert (F : calls H DFlatten [a] s (ROk (EList (dict_flatten v))) s')
    by (call; unfold run_flatten, exact1; repeat sure_step).
  split; [exact F |]. split; [apply dict_flatten_contents |].
  split; [apply dict_flatten_flat |].
  apply app_calls in F. call; unfold run_flatten, exact1. repeat sure_step.
  rewrite (dict_flatten_id (dict_flatten v)); [apply sure_ret | apply dict_flatten_flat].
Qed.

(** Removing a pair of inner brackets does not change the result. *)
Theorem C56_flatten_nesting H a b s l1 l2 l3 s' r :
  gives H a s (EList (l1 ++ EList l2 :: l3)) s' -> gives H b s (EList (l1 ++ l2 ++ l3)) s' ->
  calls H DFlatten [a] s r s' -> calls H DFlatten [b] s r s'.
Proof.
  intros A B C. unfold gives in *.
  assert (FA : calls H DFlatten [a] s (ROk (EList (dict_flatten (EList (l1 ++ EList l2 :: l3))))) s')
    by (call; unfold run_flatten, exact1; repeat sure_step).
  assert (FB : calls H DFlatten [b] s (ROk (EList (dict_flatten (EList (l1 ++ l2 ++ l3))))) s')
    by (call; unfold run_flatten, exact1; repeat sure_step).
  destruct (calls_det _ _ _ _ _ _ _ _ C FA) as [-> _].
  replace (dict_flatten (EList (l1 ++ EList l2 :: l3))) with (dict_flatten (EList (l1 ++ l2 ++ l3)));
    [exact FB |].
  cbn. rewrite !flat_map_app. reflexivity.
Qed.

(** The flattening of the arguments of programs. *)
Theorem C56_arguments args :
  all_leaves args (flatten args)
  /\ (forall x, In x (flatten args) -> (forall l, x <> EList l) /\ (forall e, x <> EGroup e))
  /\ flatten (flatten args) = flatten args.
Proof.
  split; [apply flatten_all_leaves |]. split; [intros x; apply flatten_flat |].
  assert (F : forall x, In x (flatten args) -> (forall l, x <> EList l) /\ (forall e, x <> EGroup e))
    by (intros x; apply flatten_flat).
  revert F. generalize (flatten args). induction l as [| x l IH]; intros F; [reflexivity |].
  unfold flatten in *. cbn [flat_map]. rewrite IH by (intros; apply F; now right).
  destruct (F x (or_introl eq_refl)) as [F1 F2].
  destruct x; cbn; try reflexivity; exfalso; [eapply F2 | eapply F1]; reflexivity.
Qed.

Theorem C56_arguments_nesting l1 l2 l3 e :
  flatten (l1 ++ EList l2 :: l3) = flatten (l1 ++ l2 ++ l3)
  /\ flatten (l1 ++ EGroup e :: l3) = flatten (l1 ++ e :: l3).
Proof.
  unfold flatten. rewrite !flat_map_app. cbn [flat_map flatten1]. split; reflexivity.
Qed.

Example C56_example :
  value_of "dict@flatten [1, [2, {a=3, b=[4]}], []]"
  = ROk (EList [EInteger 1; EInteger 2; EInteger 3; EInteger 4])
  /\ flatten [EInteger 1; EList [EGroup (EList [EInteger 2]); EList []]] = [EInteger 1; EInteger 2].
Proof. split; vm_compute; reflexivity. Qed.

Print Assumptions C56_flatten.
Print Assumptions C56_flatten_nesting.
Print Assumptions C56_arguments.
Print Assumptions C56_arguments_nesting.
