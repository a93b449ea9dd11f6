(** Facts about the list functions. *)

From Coq Require Import String.
From Verif Require Import Base Syntax Host Ops Parser ErrorFmt Text Monad Builtins Eval
  MonoFacts EvalSpec EvalFacts MapFacts CoreFacts LibFacts OpsSpec OpsFacts LibSpec.

Lemma app_calls H b args s r s' :
  evaluates H 0 (app b args) s r s' <-> calls H b args s r s'.
Proof.
  unfold app. rewrite rule_apply by discriminate. split.
  - intros [(g & s1 & E & C) | (r1 & E & F)].
    + apply rule_value in E; [| discriminate | exact I]. destruct E as [E ->]. injection E as ->.
      exact C.
    + apply rule_value in E; [| discriminate | exact I]. destruct E as [-> _]. inversion F.
  - intros C. left. exists (EBuiltin (Bi b [])), s. split; [| exact C].
    apply rule_value; [discriminate | exact I | auto].
Qed.

Lemma app_gives H b args s v s' : calls H b args s (ROk v) s' -> gives H (app b args) s v s'.
Proof. apply app_calls. Qed.

(** ** Machine integers as positions *)

Lemma as_int_small z : (0 <= z < 2 ^ 63)%Z -> as_int z = z.
Proof. intros R. unfold as_int, wrap64. rewrite Z.mod_small; lia. Qed.

Lemma as_int_size A (l : list A) : storable l -> as_int (size l) = size l.
Proof. unfold storable, size. intros S. apply as_int_small. lia. Qed.

Lemma as_usize_nonneg z : (0 <= z)%Z -> fits z -> as_usize z = Z.to_N z.
Proof. intros P [_ U]. unfold as_usize. now rewrite Z.mod_small by lia. Qed.

Lemma as_usize_neg z : (z < 0)%Z -> fits z -> Z.of_N (as_usize z) = (z + 2 ^ 64)%Z.
Proof.
  intros P [L _]. unfold as_usize.
  replace (z mod 2 ^ 64)%Z with (z + 2 ^ 64)%Z; [apply Z2N.id; lia |].
  apply (Z.mod_unique_pos z (2 ^ 64) (-1)); lia.
Qed.

Lemma take_skip A n (l : list A) : take_usize n l ++ skip_usize n l = l.
Proof.
  unfold take_usize, skip_usize. destruct (_ <=? _)%N; [apply app_nil_r | apply firstn_skipn].
Qed.

Lemma take_size A n (l : list A) : size (take_usize n l) = Z.min (Z.of_N n) (size l).
Proof.
  unfold take_usize, size. destruct (N.leb_spec (N.of_nat (length l)) n); [lia |].
  rewrite firstn_length. lia.
Qed.

Lemma take_position z A (l : list A) :
  fits z -> storable l ->
  size (take_usize (as_usize z) l) = if (z <? 0)%Z then size l else Z.min z (size l).
Proof.
  intros F S. rewrite take_size. destruct (Z.ltb_spec z 0).
  - rewrite as_usize_neg by assumption. unfold storable, fits in *. lia.
  - rewrite as_usize_nonneg by assumption. rewrite Z2N.id by assumption. reflexivity.
Qed.

(** ** zip and unzip *)

Lemma unzip_zip a : forall b, length a = length b ->
  unzip_list (map (fun p => EList [fst p; snd p]) (combine a b)) = Some (a, b).
Proof.
  induction a as [| x a IH]; intros [| y b] L; try discriminate; [reflexivity |].
  cbn. rewrite IH by (cbn in L; lia). reflexivity.
Qed.

Lemma unzip_some l : forall a b, unzip_list l = Some (a, b) ->
  length a = length b /\ l = map (fun p => EList [fst p; snd p]) (combine a b).
Proof.
  induction l as [| e l IH]; intros a b E; cbn in E; [injection E as <- <-; auto |].
  destruct e; try discriminate. destruct l0 as [| x [| y [| ]]]; try discriminate.
  destruct (unzip_list l) as [[u v] |]; [| discriminate]. injection E as <- <-.
  destruct (IH _ _ eq_refl) as [L ->]. cbn. auto.
Qed.

Lemma zip_items a : forall b i x y,
  nth_error (map (fun p => EList [fst p; snd p]) (combine a b)) i = Some (EList [x; y]) <->
  nth_error a i = Some x /\ nth_error b i = Some y.
Proof.
  induction a as [| u a IH]; intros [| v b] [| i] x y; cbn; try (split; [discriminate | intros []; discriminate]).
  - split; [intros E; injection E; intros; subst; auto | intros [E F]; congruence].
  - apply IH.
Qed.

(** ** chunk *)

Lemma chunk_concat n : forall l c ps, chunk_go n l c = map EList ps -> concat ps = rev c ++ l.
Proof.
  induction l as [| x l IH]; intros c ps E; cbn [chunk_go] in E.
  - destruct c; [destruct ps; [reflexivity | discriminate] |].
    destruct ps as [| p [| ]]; try discriminate. injection E as <-. cbn. now rewrite !app_nil_r.
  - destruct (_ =? _)%N.
    + destruct ps as [| p ps]; [discriminate |]. injection E as <- E.
      cbn [concat]. rewrite (IH _ _ E). cbn. now rewrite <- !app_assoc.
    + rewrite (IH _ _ E). cbn. now rewrite <- app_assoc.
Qed.

Lemma chunk_pieces n : forall l c, exists ps, chunk_go n l c = map EList ps.
Proof.
  induction l as [| x l IH]; intros c; cbn [chunk_go].
  - destruct c; [exists [] | eexists [_]]; reflexivity.
  - destruct (_ =? _)%N; [| apply IH]. destruct (IH []) as [ps ->].
    exists (rev (x :: c) :: ps). reflexivity.
Qed.

Lemma chunk_sizes n : (1 <= n)%N -> forall l c ps, (size c < Z.of_N n)%Z ->
  chunk_go n l c = map EList ps -> pieces_of (Z.of_N n) ps.
Proof.
  intros P. unfold size. induction l as [| x l IH]; intros c ps S E; cbn [chunk_go] in E.
  - destruct c; destruct ps as [| p [| ]]; try discriminate; [constructor |].
    injection E as <-. apply pieces_last. unfold size. rewrite app_length, rev_length. cbn in *. lia.
  - destruct (N.eqb_spec (N.of_nat (length (x :: c))) n) as [Q | Q].
    + destruct ps as [| p ps]; [discriminate |]. injection E as <- E.
      assert (X : pieces_of (Z.of_N n) ps) by (apply (IH [] ps); [cbn; lia | exact E]).
      destruct ps; [apply pieces_last | apply pieces_cons; [| exact X]];
        unfold size; rewrite app_length, rev_length; cbn in *; lia.
    + apply (IH (x :: c) ps); [cbn [length] in *; lia | exact E].
Qed.

Lemma chunk_whole n : forall l c, (N.of_nat (length c + length l) < n)%N \/ n = 0%N ->
  chunk_go n l c = match rev c ++ l with [] => [] | p => [EList p] end.
Proof.
  induction l as [| x l IH]; intros c P; cbn [chunk_go].
  - rewrite app_nil_r. destruct c as [| y c]; [reflexivity |]. cbn [rev].
    destruct (rev c); reflexivity.
  - destruct (N.eqb_spec (N.of_nat (length (x :: c))) n) as [Q | Q].
    + exfalso. cbn [length] in *. lia.
    + rewrite IH by (cbn [length] in *; lia). cbn [rev]. now rewrite <- app_assoc.
Qed.

(** ** Ranges *)

Lemma zrange_in lo n z : In z (zrange lo n) <-> (lo <= z < lo + Z.of_nat n)%Z.
Proof.
  unfold zrange. rewrite in_map_iff. split.
  - intros (i & <- & I). apply in_seq in I. lia.
  - intros B. exists (Z.to_nat (z - lo)). rewrite in_seq. lia.
Qed.

Lemma zrange_nth lo n i :
  (i < n)%nat -> nth_error (zrange lo n) i = Some (lo + Z.of_nat i)%Z.
Proof.
  intros L. unfold zrange. rewrite nth_error_map, (nth_error_nth' _ 0%nat) by now rewrite seq_length.
  now rewrite seq_nth.
Qed.

Lemma zrange_length lo n : length (zrange lo n) = n.
Proof. unfold zrange. now rewrite map_length, seq_length. Qed.

(** ** Higher-order functions *)

Section Higher.
  Variable H : host.

  Lemma mapM_result A B (f : nat -> A -> M B) l s r s' :
    in_order (fun x => sure (fun n => f n x)) l s r s' ->
    sure (fun n => mapM (f n) l) s r s'.
  Proof.
    intros X. induction X; cbn [mapM].
    - apply sure_ret.
    - eapply (sure_bind _ _ (fun n => f n x) (fun n y => ys <- mapM (f n) l ;; ret (y :: ys)));
        [eassumption |].
      eapply (sure_bind _ _ (fun n => mapM (f n) l) (fun n ys => ret (v :: ys)));
        [eassumption | apply sure_ret].
    - eapply (sure_bind_fails _ _ (fun n => f n x) (fun n y => ys <- mapM (f n) l ;; ret (y :: ys)));
        eassumption.
    - eapply (sure_bind _ _ (fun n => f n x) (fun n y => ys <- mapM (f n) l ;; ret (y :: ys)));
        [eassumption |].
      eapply (sure_bind_fails _ _ (fun n => mapM (f n) l) (fun n ys => ret (v :: ys))); eassumption.
  Qed.

  Lemma in_order_sure f l s r s' :
    in_order (fun x => applies H f [x]) l s r s' ->
    in_order (fun x => sure (fun n => eval H n 0 (EApply f [x]))) l s r s'.
  Proof. apply in_order_ext. intros. now apply sure_ev. Qed.

  Lemma in_order_not_fuel A B (R : A -> st -> res B -> st -> Prop) l s r s' :
    in_order R l s r s' -> r <> RFuel.
  Proof. induction 1; try discriminate; match goal with X : fails _ _ |- _ => destruct X end; discriminate. Qed.

  Lemma as_list_fuel r : r <> RFuel -> as_list r <> RFuel.
  Proof. destruct r; cbn; congruence. Qed.

  Lemma sure_as_list (f : nat -> M (list expr)) s r s' :
    sure f s r s' -> r <> RFuel ->
    sure (fun n => bind (f n) (fun l => ret (EList l))) s (as_list r) s'.
  Proof.
    intros S N. destruct r as [l | e | p | c |]; cbn [as_list].
    - eapply (sure_bind _ _ f (fun _ l => ret (EList l))); [exact S | apply sure_ret].
    - eapply (sure_bind_fails _ _ f (fun _ l => ret (EList l))); [exact S | constructor].
    - eapply (sure_bind_fails _ _ f (fun _ l => ret (EList l))); [exact S | constructor].
    - eapply (sure_bind_fails _ _ f (fun _ l => ret (EList l))); [exact S | constructor].
    - congruence.
  Qed.

  Lemma folds_ext A B (R R' : B -> A -> st -> res B -> st -> Prop) b l :
    (forall b x s r s', R b x s r s' -> R' b x s r s') ->
    forall s r s', folds R b l s r s' -> folds R' b l s r s'.
  Proof. intros X s r s' F. induction F; [constructor | eapply fo_cons | eapply fo_stop]; eauto. Qed.

  Lemma folds_not_fuel A B (R : B -> A -> st -> res B -> st -> Prop) b l s r s' :
    folds R b l s r s' -> r <> RFuel.
  Proof. induction 1; try assumption; try discriminate; match goal with X : fails _ _ |- _ => destruct X end; discriminate. Qed.

  Lemma filter_kept f l s vs s' r :
    in_order (fun x => applies H f [x]) l s (ROk vs) s' -> kept l vs r ->
    sure (fun n => filterM (eval H n 0) f l) s (ROk r) s'.
  Proof.
    revert s vs r. induction l as [| x l IH]; intros s vs r X K; inversion X; subst;
      try match goal with X : fails _ (ROk _) |- _ => inversion X end; cbn [filterM].
    - inversion K; subst. apply sure_ret.
    - inversion K; subst.
      + eapply (sure_bind _ _ (fun n => eval H n 0 (EApply f [x]))
          (fun n v => r' <- filterM (eval H n 0) f l ;; ret (if is_truthy v then x :: r' else r')));
          [apply sure_ev; eassumption |].
        eapply (sure_bind _ _ (fun n => filterM (eval H n 0) f l)
          (fun n r' => ret (if is_truthy v then x :: r' else r'))); [eapply IH; eassumption |].
        match goal with X : truthy _ |- _ => apply is_truthy_iff in X; rewrite X end. apply sure_ret.
      + eapply (sure_bind _ _ (fun n => eval H n 0 (EApply f [x]))
          (fun n v => r' <- filterM (eval H n 0) f l ;; ret (if is_truthy v then x :: r' else r')));
          [apply sure_ev; eassumption |].
        eapply (sure_bind _ _ (fun n => filterM (eval H n 0) f l)
          (fun n r' => ret (if is_truthy v then x :: r' else r'))); [eapply IH; eassumption |].
        match goal with X : falsy _ |- _ => apply is_falsy in X; rewrite X end. apply sure_ret.
  Qed.

  Lemma filter_fails f l s r s' (r' : res (list expr)) :
    in_order (fun x => applies H f [x]) l s r s' -> fails r r' ->
    sure (fun n => filterM (eval H n 0) f l) s r' s'.
  Proof.
    intros X. revert r'. induction X as [| ? ? ? ? ? ? ? ? ? IH | x r r1 l s s1 E F |
                                         x v s1 l r r1 s s2 E X IH F]; intros r' Q; cbn [filterM].
    - inversion Q.
    - inversion Q.
    - eapply (sure_bind_fails _ _ (fun n => eval H n 0 (EApply f [x]))
          (fun n v => r' <- filterM (eval H n 0) f l ;; ret (if is_truthy v then x :: r' else r')));
        [apply sure_ev; eassumption |]. destruct F; inversion Q; constructor.
    - eapply (sure_bind _ _ (fun n => eval H n 0 (EApply f [x]))
          (fun n v => r' <- filterM (eval H n 0) f l ;; ret (if is_truthy v then x :: r' else r')));
        [apply sure_ev; eassumption |].
      assert (R : r1 = r) by (destruct F; reflexivity). subst r1.
      eapply (sure_bind_fails _ _ (fun n => filterM (eval H n 0) f l)
          (fun n r' => ret (if is_truthy v then x :: r' else r')));
        [apply IH; exact Q | destruct Q; constructor].
  Qed.

  Lemma kept_total l : forall vs, length vs = length l -> exists r, kept l vs r.
  Proof.
    induction l as [| x l IH]; intros [| v vs] E; try discriminate; [exists []; constructor |].
    destruct (IH vs) as [r K]; [cbn in E; lia |].
    destruct (is_truthy v) eqn:T; eexists; [apply kept_yes | apply kept_no];
      [now apply is_truthy_iff | eauto | now apply is_falsy | eauto].
  Qed.

  Lemma in_order_length A B (R : A -> st -> res B -> st -> Prop) l s vs s' :
    in_order R l s (ROk vs) s' -> length vs = length l.
  Proof.
    revert s vs. induction l as [| x l IH]; intros s vs X; inversion X; subst;
      try match goal with X : fails _ (ROk _) |- _ => inversion X end; [reflexivity |].
    cbn. f_equal. eauto.
  Qed.
End Higher.
