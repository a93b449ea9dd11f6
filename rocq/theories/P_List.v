(** C36 to C39, C41, C42, C59: the list functions. *)

From Coq Require Import String.
From Verif Require Import Base Syntax Host Ops Parser ErrorFmt Text Monad Builtins Eval
  EvalSpec EvalFacts MapFacts CoreFacts LibFacts OpsSpec OpsFacts LibSpec ListFacts Init Demo.

(** ** C36 *)

(** [take], [drop] and [split-at]: a negative number takes everything. *)
Theorem C36_take_drop H a b s n s1 l s2 :
  gives H a s (EInteger n) s1 -> gives H b s1 (EList l) s2 -> fits n -> storable l ->
  exists t d,
    calls H LTake [a; b] s (ROk (EList t)) s2
    /\ calls H LDrop [a; b] s (ROk (EList d)) s2
    /\ calls H LSplitAt [a; b] s (ROk (EList [EList t; EList d])) s2
    /\ l = t ++ d
    /\ size t = (if (n <? 0)%Z then size l else Z.min n (size l)).
Proof.
  intros A B F S. exists (take_usize (as_usize n) l), (skip_usize (as_usize n) l).
  unfold gives in *.
  split; [call; unfold run_take, int_and_list; repeat sure_step |].
  split; [call; unfold run_drop, int_and_list; repeat sure_step |].
  split; [call; unfold run_split_at, int_and_list; repeat sure_step |].
  split; [now rewrite take_skip | now apply take_position].
Qed.

(** [rev] of a list, a text or bytes. *)
Theorem C36_rev H a s l s' :
  gives H a s (EList l) s' ->
  exists r,
    calls H LRev [a] s (ROk (EList r)) s'
    /\ length r = length l
    /\ (forall i x, nth_error l i = Some x <-> (i < length l)%nat /\ nth_error r (length l - 1 - i) = Some x)
    /\ calls H LRev [app LRev [a]] s (ROk (EList l)) s'.
Proof.
  intros A. exists (rev l). unfold gives in *.
  assert (R : calls H LRev [a] s (ROk (EList (rev l))) s') by (call; unfold run_rev; repeat sure_step).
  split; [exact R |]. split; [apply rev_length |]. split.
  - intros i x. split.
    + intros E. assert (L : (i < length l)%nat) by (apply nth_error_Some; congruence).
      split; [exact L |].
      rewrite (nth_error_nth' _ x) by (rewrite rev_length; lia).
      rewrite rev_nth by lia. replace (length l - S (length l - 1 - i))%nat with i by lia.
      now rewrite <- (nth_error_nth' l x L).
    + intros [L E]. rewrite (nth_error_nth' _ x) in E by (rewrite rev_length; lia).
      rewrite rev_nth in E by lia. replace (length l - S (length l - 1 - i))%nat with i in E by lia.
      now rewrite (nth_error_nth' l x L).
  - apply app_calls in R. call; unfold run_rev. repeat sure_step.
    rewrite rev_involutive. apply sure_ret.
Qed.

Theorem C36_rev_text H a s t s' :
  gives H a s (EString t) s' -> calls H LRev [app LRev [a]] s (ROk (EString t)) s'.
Proof.
  intros A. unfold gives in *.
  assert (R : calls H LRev [a] s (ROk (EString (rev t))) s') by (call; unfold run_rev; repeat sure_step).
  apply app_calls in R. call; unfold run_rev. repeat sure_step. rewrite rev_involutive. apply sure_ret.
Qed.

(** [cons] evaluates the list before the item, [append] after. *)
Theorem C36_cons H x a s l s1 v s2 :
  gives H a s (EList l) s1 -> gives H x s1 v s2 ->
  calls H LCons [x; a] s (ROk (EList (v :: l))) s2.
Proof. intros A X. unfold gives in *. call; unfold run_cons. repeat sure_step. Qed.

Theorem C36_append H x a s l s1 v s2 :
  gives H a s (EList l) s1 -> gives H x s1 v s2 ->
  calls H LAppend [a; x] s (ROk (EList (l ++ [v]))) s2.
Proof. intros A X. unfold gives in *. call; unfold run_append. repeat sure_step. Qed.

Theorem C36_len H a s l s' :
  gives H a s (EList l) s' -> storable l ->
  calls H LLen [a] s (ROk (EInteger (size l))) s' /\ calls H BLen [a] s (ROk (EInteger (size l))) s'.
Proof.
  intros A S. unfold gives in *.
  split; call; [unfold run_list_len | unfold run_len]; repeat sure_step;
    fold (size l); rewrite as_int_size by exact S; apply sure_ret.
Qed.

Theorem C36_tail H a s x l s' :
  gives H a s (EList (x :: l)) s' -> calls H LTail [a] s (ROk (EList l)) s'.
Proof. intros A. unfold gives in *. call; unfold run_tail. repeat sure_step. Qed.

Example C36_example :
  value_of "list@split-at 2 [5, 6, 7]" = ROk (EList [EList [EInteger 5; EInteger 6]; EList [EInteger 7]])
  /\ value_of "list@drop (-1) [5, 6, 7]" = ROk (EList [])
  /\ value_of "list@rev [1, 2, 3]" = ROk (EList [EInteger 3; EInteger 2; EInteger 1])
  /\ storable [EInteger 5; EInteger 6; EInteger 7].
Proof. repeat split; vm_compute; reflexivity. Qed.

Print Assumptions C36_take_drop.
Print Assumptions C36_rev.
Print Assumptions C36_rev_text.
Print Assumptions C36_cons.
Print Assumptions C36_append.
Print Assumptions C36_len.
Print Assumptions C36_tail.

(** ** C37 *)

Theorem C37_zip H a b s l s1 m s2 :
  gives H a s (EList l) s1 -> gives H b s1 (EList m) s2 ->
  exists r,
    calls H LZip [a; b] s (ROk (EList r)) s2
    /\ length r = min (length l) (length m)
    /\ (forall i x y, nth_error r i = Some (EList [x; y]) <->
                      nth_error l i = Some x /\ nth_error m i = Some y).
Proof.
  intros A B. exists (map (fun p => EList [fst p; snd p]) (combine l m)).
  unfold gives in *. split; [call; unfold run_zip; repeat sure_step |].
  split; [now rewrite map_length, combine_length | intros; apply zip_items].
Qed.

(** [unzip] undoes [zip]. *)
Theorem C37_unzip_zip H a b s l s1 m s2 :
  gives H a s (EList l) s1 -> gives H b s1 (EList m) s2 -> length l = length m ->
  calls H LUnzip [app LZip [a; b]] s (ROk (EList [EList l; EList m])) s2.
Proof.
  intros A B E. unfold gives in *.
  assert (Z : calls H LZip [a; b] s
                (ROk (EList (map (fun p => EList [fst p; snd p]) (combine l m)))) s2)
    by (call; unfold run_zip; repeat sure_step).
  apply app_calls in Z. call; unfold run_unzip. repeat sure_step.
  rewrite unzip_zip by exact E. apply sure_ret.
Qed.

(** It succeeds exactly on lists of pairs, and [zip] undoes it. *)
Theorem C37_zip_unzip H a s r s' :
  gives H a s (EList r) s' ->
  (exists l m, calls H LUnzip [a] s (ROk (EList [EList l; EList m])) s'
               /\ length l = length m
               /\ forall i x y, nth_error r i = Some (EList [x; y]) <->
                                nth_error l i = Some x /\ nth_error m i = Some y)
  \/ ((exists e, In e r /\ forall x y, e <> EList [x; y])
      /\ exists msg, calls H LUnzip [a] s (RErr (CustomError msg)) s').
Proof.
  intros A. unfold gives in *. destruct (unzip_list r) as [[l m] |] eqn:U.
  - left. exists l, m. destruct (unzip_some _ _ _ U) as [L E]. split.
    + call; unfold run_unzip. repeat sure_step. rewrite U. apply sure_ret.
    + split; [exact L |]. intros. rewrite E. apply zip_items.
  - right. split.
    + clear A. induction r as [| e r IH]; [discriminate |]. cbn in U.
      assert (D : (exists x y, e = EList [x; y]) \/ forall x y, e <> EList [x; y]).
      { destruct e; try (right; discriminate).
        destruct l as [| x [| y [| ]]]; try (right; discriminate). left. eauto. }
      destruct D as [(x & y & ->) | D]; [| exists e; split; [now left | exact D]].
      destruct (unzip_list r) as [[] |]; [discriminate |].
      destruct (IH eq_refl) as (e & I & X). exists e. split; [now right | exact X].
    + eexists. call; unfold run_unzip. repeat sure_step. rewrite U. apply sure_throw.
Qed.

Theorem C37_chunk H a b s n s1 l s2 :
  gives H a s (EInteger n) s1 -> gives H b s1 (EList l) s2 -> fits n -> storable l ->
  exists ps,
    calls H LChunk [a; b] s (ROk (EList (map EList ps))) s2
    /\ concat ps = l
    /\ ((0 < n)%Z -> pieces_of n ps)
    /\ ((n <= 0)%Z -> l <> [] -> ps = [l]).
Proof.
  intros A B F S. unfold gives in *.
  destruct (chunk_pieces (as_usize n) l []) as [ps P]. exists ps. split.
  - call; unfold run_chunk, int_and_list. repeat sure_step. rewrite P. apply sure_ret.
  - split; [now rewrite (chunk_concat _ _ _ _ P) |]. split.
    + intros N. rewrite as_usize_nonneg in P by (assumption || lia).
      assert (X := chunk_sizes (Z.to_N n) ltac:(lia) l [] ps ltac:(cbn; lia) P).
      now rewrite Z2N.id in X by lia.
    + intros N Q. rewrite chunk_whole in P.
      * destruct l as [| x l]; [congruence |]. cbn [rev List.app] in P.
        destruct ps as [| p [| ]]; try discriminate. now injection P as <-.
      * destruct (Z.eq_dec n 0) as [-> |]; [now right | left].
        pose proof (as_usize_neg n ltac:(lia) F) as U. unfold storable, size, fits in *. cbn [length]. lia.
Qed.

Example C37_example :
  value_of "list@chunk 2 [1, 2, 3]" = ROk (EList [EList [EInteger 1; EInteger 2]; EList [EInteger 3]])
  /\ value_of "list@unzip (list@zip [1, 2] [3, 4])"
     = ROk (EList [EList [EInteger 1; EInteger 2]; EList [EInteger 3; EInteger 4]])
  /\ pieces_of 2 [[1; 2]; [3]]%N.
Proof.
  split; [vm_compute; reflexivity |]. split; [vm_compute; reflexivity |].
  apply pieces_cons; [reflexivity |]. apply pieces_last. cbn. lia.
Qed.

Print Assumptions C37_zip.
Print Assumptions C37_unzip_zip.
Print Assumptions C37_zip_unzip.
Print Assumptions C37_chunk.

(** ** C38 *)

(** [map]: the list is evaluated before the function; then the function is
    applied to the items in order.  The outcome [r] may be a failure. *)
Theorem C38_map H f a s l s1 fv s2 r s3 :
  gives H a s (EList l) s1 -> gives H f s1 fv s2 ->
  in_order (fun x => applies H fv [x]) l s2 r s3 ->
  calls H FMap [f; a] s (as_list r) s3.
Proof.
  intros A F X. unfold gives in *. pose proof (in_order_not_fuel _ _ _ _ _ _ _ X) as N.
  apply sure_calls; [now apply as_list_fuel |]. cbn [run_builtin]. unfold run_map.
  eapply sure_bind_const; [reflexivity |]. cbv beta iota. repeat sure_step.
  apply sure_as_list; [| exact N].
  apply (mapM_result _ _ (fun n x => eval H n 0 (EApply fv [x]))). now apply in_order_sure.
Qed.

Theorem C38_map_pure H f a s l s1 fv s2 g :
  gives H a s (EList l) s1 -> gives H f s1 fv s2 ->
  (forall x, In x l -> applies H fv [x] s2 (ROk (g x)) s2) ->
  calls H FMap [f; a] s (ROk (EList (map g l))) s2.
Proof.
  intros A F X. apply (C38_map H f a s l s1 fv s2 (ROk (map g l)) s2 A F).
  clear A. induction l as [| x l IH]; [constructor |]. cbn [map].
  econstructor; [apply X; now left | apply IH; intros; apply X; now right].
Qed.

(** [filter] keeps the items for which the result counts as true. *)
Theorem C38_filter H f a s l s1 fv s2 r s3 :
  gives H a s (EList l) s1 -> gives H f s1 fv s2 ->
  in_order (fun x => applies H fv [x]) l s2 r s3 ->
  (forall vs, r = ROk vs -> exists k, kept l vs k /\ calls H FFilter [f; a] s (ROk (EList k)) s3)
  /\ (forall r', fails r r' -> calls H FFilter [f; a] s r' s3).
Proof.
  intros A F X. unfold gives in *. split.
  - intros vs ->. destruct (kept_total l vs) as [k K]; [eapply in_order_length; eassumption |].
    exists k. split; [exact K |].
    call. unfold run_filter. eapply sure_bind_const; [reflexivity |]. cbv beta iota. repeat sure_step.
    eapply (sure_bind _ _ (fun n => filterM (eval H n 0) fv l) (fun n r => ret (EList r)));
      [eapply filter_kept; eassumption | apply sure_ret].
  - intros r' Q. assert (N : r' <> RFuel) by (destruct Q; discriminate).
    apply sure_calls; [exact N |]. cbn [run_builtin]. unfold run_filter.
    eapply sure_bind_const; [reflexivity |]. cbv beta iota. repeat sure_step.
    assert (Q' : exists r1 : res (list expr), fails r r1 /\ fails r1 r')
      by (destruct Q; eexists; split; constructor).
    destruct Q' as (r1 & Q1 & Q2).
    eapply (sure_bind_fails _ _ (fun n => filterM (eval H n 0) fv l) (fun n r => ret (EList r)));
      [eapply filter_fails; eassumption | exact Q2].
Qed.

Theorem C38_filter_pure H f a s l s1 fv s2 g :
  gives H a s (EList l) s1 -> gives H f s1 fv s2 ->
  (forall x, In x l -> applies H fv [x] s2 (ROk (EBoolean (g x))) s2) ->
  calls H FFilter [f; a] s (ROk (EList (filter g l))) s2.
Proof.
  intros A F X.
  assert (I : in_order (fun x => applies H fv [x]) l s2 (ROk (map (fun x => EBoolean (g x)) l)) s2).
  { clear A. induction l as [| x l IH]; [constructor |]. cbn [map].
    econstructor; [apply X; now left | apply IH; intros; apply X; now right]. }
  destruct (C38_filter H f a s l s1 fv s2 _ s2 A F I) as [K _].
  destruct (K _ eq_refl) as (k & K1 & C).
  assert (E : k = filter g l).
  { clear - K1. revert k K1. induction l as [| x l IH]; intros k K1; inversion K1; subst;
      cbn [filter map is_truthy] in *; [reflexivity | |];
      match goal with
      | T : truthy _ |- _ => apply is_truthy_iff in T; cbn in T; rewrite T
      | T : falsy _ |- _ => apply is_falsy in T; cbn in T; rewrite T
      end; f_equal; auto. }
  now rewrite <- E.
Qed.

(** [reduce]: list, function and start value are evaluated in this order. *)
Theorem C38_reduce H f b a s l s1 fv s2 v s3 r s4 :
  gives H a s (EList l) s1 -> gives H f s1 fv s2 -> gives H b s2 v s3 ->
  folds (fun acc x => applies H fv [acc; x]) v l s3 r s4 ->
  calls H FReduce [f; b; a] s r s4.
Proof.
  intros A F B X. unfold gives in *. pose proof (folds_not_fuel _ _ _ _ _ _ _ _ X) as N.
  apply sure_calls; [exact N |]. cbn [run_builtin]. unfold run_reduce.
  eapply sure_bind_const; [reflexivity |]. cbv beta. cbn [length Nat.ltb Nat.leb]. repeat sure_step.
  apply (sure_foldM _ _ (fun n acc x => eval H n 0 (EApply fv [acc; x]))).
  eapply folds_ext; [| exact X]. intros. now apply sure_ev.
Qed.

(** [foldl] visits the items from left to right, [foldr] from right to left. *)
Theorem C38_foldl H f b a s fv s1 v s2 l s3 r s4 :
  gives H f s fv s1 -> gives H b s1 v s2 -> gives H a s2 (EList l) s3 ->
  folds (fun acc x => applies H fv [acc; x]) v l s3 r s4 ->
  calls H LFoldl [f; b; a] s r s4.
Proof.
  intros F B A X. unfold gives in *. pose proof (folds_not_fuel _ _ _ _ _ _ _ _ X) as N.
  apply sure_calls; [exact N |]. cbn [run_builtin]. unfold run_foldl. repeat sure_step.
  apply (sure_foldM _ _ (fun n acc x => eval H n 0 (EApply fv [acc; x]))).
  eapply folds_ext; [| exact X]. intros. now apply sure_ev.
Qed.

Theorem C38_foldr H f b a s fv s1 v s2 l s3 r s4 :
  gives H f s fv s1 -> gives H b s1 v s2 -> gives H a s2 (EList l) s3 ->
  folds (fun acc x => applies H fv [x; acc]) v (rev l) s3 r s4 ->
  calls H LFoldr [f; b; a] s r s4.
Proof.
  intros F B A X. unfold gives in *. pose proof (folds_not_fuel _ _ _ _ _ _ _ _ X) as N.
  apply sure_calls; [exact N |]. cbn [run_builtin]. unfold run_foldr. repeat sure_step.
  apply (sure_foldM _ _ (fun n acc x => eval H n 0 (EApply fv [x; acc]))).
  eapply folds_ext; [| exact X]. intros. now apply sure_ev.
Qed.

(** With a function without side effects these are the mathematical folds. *)
Theorem C38_folds_pure H f b a s fv s1 v s2 l s3 g :
  gives H f s fv s1 -> gives H b s1 v s2 -> gives H a s2 (EList l) s3 ->
  (forall x y, applies H fv [x; y] s3 (ROk (g x y)) s3) ->
  calls H LFoldl [f; b; a] s (ROk (fold_left g l v)) s3
  /\ calls H LFoldr [f; b; a] s (ROk (fold_right g v l)) s3.
Proof.
  intros F B A X. split.
  - eapply C38_foldl; eauto. clear A B. revert v. induction l as [| x l IH]; intros v; [constructor |].
    cbn [fold_left]. econstructor; [apply X | apply IH].
  - replace (fold_right g v l) with (fold_left (fun acc x => g x acc) (rev l) v)
      by (rewrite <- fold_left_rev_right, rev_involutive; reflexivity).
    eapply C38_foldr; eauto. clear A B. revert v.
    induction (rev l) as [| x m IH]; intros v; [constructor |].
    cbn [fold_left]. econstructor; [apply X | apply IH].
Qed.

Example C38_example :
  effects_of "fn@map (x -> echo x) [1, 2]" = [RqPrint (lit "1" ++ [10%N]); RqPrint (lit "2" ++ [10%N])]
  /\ value_of "fn@map (x -> x + 1) [1, 2]" = ROk (EList [EInteger 2; EInteger 3])
  /\ value_of "fn@filter (x -> x > 1) [1, 2]" = ROk (EList [EInteger 2])
  /\ value_of "fn@reduce (x -> y -> x - y) 10 [1, 2]" = ROk (EInteger 7)
  /\ value_of "list@foldr (x -> y -> x - y) 10 [1, 2]" = ROk (EInteger 9).
Proof. repeat split; vm_compute; reflexivity. Qed.

Print Assumptions C38_map.
Print Assumptions C38_map_pure.
Print Assumptions C38_filter.
Print Assumptions C38_filter_pure.
Print Assumptions C38_reduce.
Print Assumptions C38_foldl.
Print Assumptions C38_foldr.
Print Assumptions C38_folds_pure.

(** ** C39 *)

Theorem C39_head_refuted :
  exists x l r s', calls demo_host LHead [EList (x :: l)] demo (ROk r) s' /\ r <> x.
Proof.
  exists (EInteger 1), [EInteger 2], ENone, demo. split; [| discriminate]. compute_outcome 5%nat.
Qed.

(** It never gives an element. *)
Theorem C39_head_partial H a s l s' :
  gives H a s (EList l) s' ->
  calls H LHead [a] s (ROk (match l with [] => EList [] | _ :: _ => ENone end)) s'.
Proof.
  intros A. unfold gives in *. call; unfold run_head. repeat sure_step. destruct l; apply sure_ret.
Qed.

Example C39_example : value_of "list@head [7, 8]" = ROk ENone.
Proof. vm_compute. reflexivity. Qed.

Print Assumptions C39_head_refuted.
Print Assumptions C39_head_partial.

(** ** C41 *)

(** The ascending list of the integers [i] with [lo <= i < hi]. *)
Definition ascending (lo hi : Z) (l : list Z) : Prop :=
  (forall i, In i l <-> (lo <= i < hi)%Z)
  /\ (forall k i j, nth_error l k = Some i -> nth_error l (S k) = Some j -> j = (i + 1)%Z).

Theorem C41_ranges H a b s m s1 n s2 :
  gives H a s (EInteger m) s1 -> gives H b s1 (EInteger n) s2 ->
  (exists l, calls H BTo [a; b] s (ROk (EList (map EInteger l))) s2 /\ ascending m n l)
  /\ (exists l, calls H LRange [a; b] s (ROk (EList (map EInteger l))) s2 /\ ascending m (n + 1) l).
Proof.
  intros A B. unfold gives in *.
  assert (K : forall lo hi, ascending lo hi (zrange lo (Z.to_nat (hi - lo)))).
  { intros lo hi. split.
    - intros i. rewrite zrange_in. lia.
    - intros k i j E F.
      assert (L : (S k < Z.to_nat (hi - lo))%nat)
        by (rewrite <- (zrange_length lo); apply nth_error_Some; congruence).
      rewrite zrange_nth in E, F by lia. injection E as <-. injection F as <-. lia. }
  split; eexists; (split; [| apply K]); call; [unfold run_to | unfold run_range]; repeat sure_step.
Qed.

Example C41_example :
  value_of "2 to 5" = ROk (EList [EInteger 2; EInteger 3; EInteger 4])
  /\ value_of "list@range 2 4" = ROk (EList [EInteger 2; EInteger 3; EInteger 4])
  /\ value_of "5 to 2" = ROk (EList []).
Proof. repeat split; vm_compute; reflexivity. Qed.

Print Assumptions C41_ranges.

(** ** C42 *)

(** [insert] into a list. *)
Theorem C42_insert_list H a b c s l s1 n s2 v s3 :
  gives H a s (EList l) s1 -> gives H b s1 (EInteger n) s2 -> gives H c s2 v s3 ->
  fits n -> storable l ->
  ((0 <= n <= size l)%Z ->
     exists l1 l2, l = l1 ++ l2 /\ size l1 = n
       /\ calls H BInsert [a; b; c] s (ROk (EList (l1 ++ v :: l2))) s3)
  /\ (~ (0 <= n <= size l)%Z ->
      exists msg, calls H BInsert [a; b; c] s (RErr (CustomError msg)) s3).
Proof.
  intros A B C F S. unfold gives in *. split; intros R.
  - exists (firstn (Z.to_nat n) l), (skipn (Z.to_nat n) l).
    split; [now rewrite firstn_skipn |].
    split; [unfold size in *; rewrite firstn_length; lia |].
    call; unfold run_insert. repeat sure_step. rewrite as_usize_nonneg by (assumption || lia).
    rewrite (proj2 (N.leb_le _ _)) by (unfold size in *; lia).
    unfold list_insert. rewrite Z_N_nat. apply sure_ret.
  - eexists. call; unfold run_insert. repeat sure_step.
    rewrite (proj2 (N.leb_gt _ _)); [apply sure_throw |].
    unfold storable, size in *. destruct (Z_lt_le_dec n 0).
    + pose proof (as_usize_neg n ltac:(assumption) F). unfold fits in F. lia.
    + rewrite as_usize_nonneg by (assumption || lia). lia.
Qed.

(** [insert] into a map. *)
Theorem C42_insert_map H a b c s m s1 k s2 v s3 :
  gives H a s (EMap m) s1 -> gives H b s1 (EString k) s2 -> gives H c s2 v s3 -> sorted m ->
  exists m', calls H BInsert [a; b; c] s (ROk (EMap m')) s3
    /\ sorted m'
    /\ forall x, bm_get x m' = if str_eqb x k then Some v else bm_get x m.
Proof.
  intros A B C S. unfold gives in *. exists (bm_insert k v m).
  split; [call; unfold run_insert; repeat sure_step |].
  split; [now apply sorted_insert | intros x; now apply bm_get_insert].
Qed.

Example C42_example :
  value_of "insert [1, 2, 3] 1 9" = ROk (EList [EInteger 1; EInteger 9; EInteger 2; EInteger 3])
  /\ value_of "(insert {x=1, y=2} ""y"" 3)@y" = ROk (EInteger 3)
  /\ value_of "err@try (insert [1] 2 9) (e -> e@code)" = ROk (EInteger 9).
Proof. repeat split; vm_compute; reflexivity. Qed.

Print Assumptions C42_insert_list.
Print Assumptions C42_insert_map.

(** ** C59 *)

Theorem C59_nth_refuted :
  exists l n s', calls demo_host LNth [EInteger n; EList l] demo (RPanic PIndex) s'.
Proof. exists [EInteger 1], 3%Z, demo. compute_outcome 5%nat. Qed.

(** Positions from the start, and from the end for negative numbers; any other
    position crashes the shell. *)
Theorem C59_nth_partial H a b s n s1 l s2 :
  gives H a s (EInteger n) s1 -> gives H b s1 (EList l) s2 -> fits n -> storable l ->
  let i := if (n <? 0)%Z then (n + size l)%Z else n in
  (forall x, (0 <= i)%Z -> nth_error l (Z.to_nat i) = Some x -> calls H LNth [a; b] s (ROk x) s2)
  /\ (~ (0 <= i < size l)%Z -> exists p, calls H LNth [a; b] s (RPanic p) s2).
Proof.
  intros A B F S i. unfold gives in *. subst i.
  assert (M : (n < 0)%Z -> n <> (- 2 ^ 63)%Z -> in_i64 (- n) = true /\ as_usize (- n) = Z.to_N (- n)).
  { intros N Q. assert (X : fits (- n)) by (unfold fits in *; lia).
    split; [now apply in_i64_fits | apply as_usize_nonneg; [lia | exact X]]. }
  assert (Q : as_usize (wrap64 (- - 2 ^ 63)) = (2 ^ 63)%N) by reflexivity.
  unfold storable, size in *. split.
  - intros x I E. call; unfold run_nth, int_and_list. repeat sure_step.
    assert (L : (Z.to_nat (if (n <? 0)%Z then n + Z.of_nat (length l) else n)%Z < length l)%nat)
      by (apply nth_error_Some; congruence).
    destruct (Z.ltb_spec n 0).
    + destruct (M ltac:(assumption) ltac:(lia)) as [M1 M2]. unfold arith. rewrite M1.
      eapply sure_bind_const; [reflexivity |]. cbv beta. rewrite M2.
      rewrite (proj2 (N.leb_le _ _)) by lia.
      rewrite (proj2 (N.ltb_lt _ _)) by lia.
      replace (N.to_nat (N.of_nat (length l) - Z.to_N (- n))) with (Z.to_nat (n + Z.of_nat (length l))) by lia.
      rewrite E. apply sure_ret.
    + rewrite as_usize_nonneg by assumption.
      rewrite (proj2 (N.ltb_lt _ _)) by lia. rewrite Z_N_nat, E. apply sure_ret.
  - intros I.
    assert (K : exists p, sure (fun k => run_builtin H (eval H k 0) LNth [a; b]) s (RPanic p) s2).
    { destruct (Z.ltb_spec n 0).
      - destruct (h_overflow H) eqn:O.
        + exists PArith. cbn [run_builtin]. unfold run_nth, int_and_list. repeat sure_step.
          rewrite (proj2 (Z.ltb_lt n 0)) by assumption. unfold arith. rewrite O.
          destruct (Z.eq_dec n (- 2 ^ 63)) as [-> | D].
          * apply sure_const. reflexivity.
          * destruct (M ltac:(assumption) D) as [M1 M2]. rewrite M1.
            eapply sure_bind_const; [reflexivity |]. cbv beta. rewrite M2.
            rewrite (proj2 (N.leb_gt _ _)) by lia. apply sure_const. reflexivity.
        + exists PIndex. cbn [run_builtin]. unfold run_nth, int_and_list. repeat sure_step.
          rewrite (proj2 (Z.ltb_lt n 0)) by assumption. unfold arith. rewrite O.
          assert (U : exists m, (if in_i64 (- n) then inl (- n)%Z else inl (wrap64 (- n))) = @inl Z panic m
                     /\ Z.of_N (as_usize m) = (- n)%Z).
          { destruct (Z.eq_dec n (- 2 ^ 63)) as [-> | D]; [eexists; split; reflexivity |].
            destruct (M ltac:(assumption) D) as [M1 M2]. rewrite M1. eexists; split; [reflexivity |].
            rewrite M2. lia. }
          destruct U as (m & U1 & U2). rewrite U1.
          eapply sure_bind_const; [reflexivity |]. cbv beta.
          rewrite (proj2 (N.leb_gt _ _)) by lia.
          rewrite (proj2 (N.ltb_ge _ _)) by (unfold fits in F; lia). apply sure_const. reflexivity.
      - exists PIndex. cbn [run_builtin]. unfold run_nth, int_and_list. repeat sure_step.
        rewrite (proj2 (Z.ltb_ge n 0)) by assumption. rewrite as_usize_nonneg by assumption.
        rewrite (proj2 (N.ltb_ge _ _)) by lia. apply sure_const. reflexivity. }
    destruct K as [p K]. exists p. apply sure_calls; [discriminate | exact K].
Qed.

Example C59_example :
  value_of "list@nth 1 [5, 6, 7]" = ROk (EInteger 6) /\ value_of "list@nth (-1) [5, 6, 7]" = ROk (EInteger 7).
Proof. split; vm_compute; reflexivity. Qed.

Print Assumptions C59_nth_refuted.
Print Assumptions C59_nth_partial.
