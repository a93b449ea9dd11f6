(** Rules for [evaluates], one per form of expression. *)

From Coq Require Import String.
From Verif Require Import Base Syntax Host Ops Parser ErrorFmt Text Monad Builtins Eval
  MonoFacts EvalSpec.

Lemma is_falsy e : is_truthy e = false <-> falsy e.
Proof.
  split.
  - destruct e as [| | z | f | b | t | b | l | m | | | | | | | | | |]; cbn; intros E;
      try discriminate E; try constructor.
    + apply Bool.negb_false_iff, Z.eqb_eq in E. subst. constructor.
    + destruct f; try discriminate E. constructor.
    + destruct b; [constructor | discriminate E].
    + destruct t; [constructor | discriminate E].
    + destruct b; [discriminate E | constructor].
    + destruct l; [constructor | discriminate E].
    + destruct m; [constructor | discriminate E].
  - now destruct 1.
Qed.

Lemma is_truthy_iff e : is_truthy e = true <-> truthy e.
Proof. unfold truthy. rewrite <- is_falsy. now destruct (is_truthy e). Qed.


(** ** Limits of monotone families *)

Definition mono {A} (f : nat -> M A) : Prop :=
  forall n m, (n <= m)%nat -> mle (f n) (f m).

Lemma mono_const A (m : M A) : mono (fun _ => m).
Proof. intros n k _. apply mle_refl. Qed.

Lemma mono_step A (f : nat -> M A) n m s r s' :
  mono f -> (n <= m)%nat -> f n s = (r, s') -> r <> RFuel -> f m s = (r, s').
Proof.
  intros X L E N. destruct (X n m L s) as [F | F]; [rewrite E in F; simpl in F; congruence |].
  congruence.
Qed.

Lemma mono_bind A B (f : nat -> M A) (k : nat -> A -> M B) :
  mono f -> (forall a, mono (fun n => k n a)) -> mono (fun n => bind (f n) (k n)).
Proof. intros X Y n m L. apply mle_bind; [now apply X | intros a; now apply Y]. Qed.

Lemma lim_det A (f : nat -> M A) s r1 s1 r2 s2 :
  mono f -> lim f s r1 s1 -> lim f s r2 s2 -> r1 = r2 /\ s1 = s2.
Proof.
  intros X [N1 [n1 E1]] [N2 [n2 E2]].
  assert (E1' := mono_step _ f n1 (max n1 n2) s r1 s1 X (Nat.le_max_l _ _) E1 N1).
  assert (E2' := mono_step _ f n2 (max n1 n2) s r2 s2 X (Nat.le_max_r _ _) E2 N2).
  split; congruence.
Qed.

Lemma lim_const A (m : M A) s r s' :
  lim (fun _ => m) s r s' <-> r <> RFuel /\ m s = (r, s').
Proof. unfold lim. firstorder. exact 0%nat. Qed.

Lemma lim_ret A (a : A) s r s' : lim (fun _ => ret a) s r s' <-> r = ROk a /\ s' = s.
Proof.
  rewrite lim_const. unfold ret. split.
  - intros [_ E]; inversion E; auto.
  - intros [-> ->]; split; [discriminate | reflexivity].
Qed.

Lemma lim_throw A (e : error) s (r : res A) s' :
  lim (fun _ => throw e) s r s' <-> r = RErr e /\ s' = s.
Proof.
  rewrite lim_const. unfold throw. split.
  - intros [_ E]; inversion E; auto.
  - intros [-> ->]; split; [discriminate | reflexivity].
Qed.

Lemma lim_panics A (p : panic) s (r : res A) s' :
  lim (fun _ => panics p) s r s' <-> r = RPanic p /\ s' = s.
Proof.
  rewrite lim_const. unfold panics. split.
  - intros [_ E]; inversion E; auto.
  - intros [-> ->]; split; [discriminate | reflexivity].
Qed.

Lemma lim_bind A B (f : nat -> M A) (k : nat -> A -> M B) s r s' :
  mono f -> (forall a, mono (fun n => k n a)) ->
  lim (fun n => bind (f n) (k n)) s r s' <->
  (exists a s1, lim f s (ROk a) s1 /\ lim (fun n => k n a) s1 r s')
  \/ (exists r1, lim f s r1 s' /\ fails r1 r).
Proof.
  intros X Y. split.
  - intros [N [n E]]. unfold bind in E. destruct (f n s) as [r1 s1] eqn:F.
    destruct r1 as [a | e | p | c |].
    + left. exists a, s1. split; split; try discriminate; eauto.
    + inversion E; subst. right. exists (RErr e). split; [split; eauto; discriminate | constructor].
    + inversion E; subst. right. exists (RPanic p). split; [split; eauto; discriminate | constructor].
    + inversion E; subst. right. exists (RExit c). split; [split; eauto; discriminate | constructor].
    + inversion E; subst. congruence.
  - intros [[a [s1 [[N1 [n1 E1]] [N2 [n2 E2]]]]] | [r1 [[N1 [n1 E1]] F]]].
    + split; [exact N2 |]. exists (max n1 n2). unfold bind.
      rewrite (mono_step _ f n1 _ s _ s1 X (Nat.le_max_l n1 n2) E1 N1).
      exact (mono_step _ _ n2 _ s1 _ s' (Y a) (Nat.le_max_r n1 n2) E2 N2).
    + split; [inversion F; discriminate |]. exists n1. unfold bind. rewrite E1.
      inversion F; reflexivity.
Qed.

(** Binding a computation that does not use fuel and always succeeds. *)
Lemma lim_bind_const A B (m : M A) (k : nat -> A -> M B) s a s1 r s' :
  m s = (ROk a, s1) ->
  (lim (fun n => bind m (k n)) s r s' <-> lim (fun n => k n a) s1 r s').
Proof.
  intros E. unfold lim, bind. rewrite E. tauto.
Qed.

Lemma lim_ext A (f g : nat -> M A) s r s' :
  (forall n, f n s = g n s) -> (lim f s r s' <-> lim g s r s').
Proof.
  intros E. unfold lim. split; intros [N [n F]]; split; auto; exists n; [rewrite <- E | rewrite E]; auto.
Qed.

Lemma lim_in_env A e (f : nat -> M A) s r s' :
  lim (fun n => in_env e (f n)) s r s' <->
  exists s1, lim f (with_env e s) r s1 /\ s' = with_env (s_env s) s1.
Proof.
  unfold lim, in_env, with_env. split.
  - intros [N [n E]]. destruct (f n _) as [r1 s1] eqn:F. inversion E; subst.
    exists s1. split; [split; eauto | reflexivity].
  - intros [s1 [[N [n E]] ->]]. split; [exact N |]. exists n. rewrite E. reflexivity.
Qed.

Lemma lim_catch A (f : nat -> M A) (h : nat -> error -> M A) s r s' :
  mono f -> (forall e, mono (fun n => h n e)) ->
  lim (fun n => catch (f n) (h n)) s r s' <->
  (lim f s r s' /\ forall e, r <> RErr e)
  \/ (exists e s1, lim f s (RErr e) s1 /\ lim (fun n => h n e) s1 r s').
Proof.
  intros X Y. split.
  - intros [N [n E]]. unfold catch in E. destruct (f n s) as [r1 s1] eqn:F.
    destruct r1 as [a | e | p | c |].
    2: { right. exists e, s1. split; split; eauto. discriminate. }
    all: inversion E; subst; left; split; [split; eauto | intros; discriminate].
  - intros [[[N [n E]] NE] | [e [s1 [[N1 [n1 E1]] [N2 [n2 E2]]]]]].
    + split; [exact N |]. exists n. unfold catch. rewrite E.
      destruct r; try reflexivity. destruct (NE e eq_refl).
    + split; [exact N2 |]. exists (max n1 n2). unfold catch.
      rewrite (mono_step _ f n1 _ s _ s1 X (Nat.le_max_l n1 n2) E1 N1).
      exact (mono_step _ _ n2 _ s1 _ s' (Y e) (Nat.le_max_r n1 n2) E2 N2).
Qed.

Lemma mono_mapM A B (f : nat -> A -> M B) l :
  (forall x, mono (fun n => f n x)) -> mono (fun n => mapM (f n) l).
Proof. intros X n m L. apply mle_mapM. intros a. now apply X. Qed.

Lemma mono_foldM A B (f : nat -> B -> A -> M B) l b :
  (forall b x, mono (fun n => f n b x)) -> mono (fun n => foldM (f n) b l).
Proof. intros X n m L. apply mle_foldM. intros c a. now apply X. Qed.

Lemma lim_mapM A B (f : nat -> A -> M B) l : (forall x, mono (fun n => f n x)) ->
  forall s r s',
    lim (fun n => mapM (f n) l) s r s' <-> in_order (fun x => lim (fun n => f n x)) l s r s'.
Proof.
  intros MF. induction l as [| e l IH]; intros s r s'.
  - cbn [mapM]. rewrite lim_ret. split.
    + intros [-> ->]. constructor.
    + intros X; inversion X; auto.
  - cbn [mapM].
    assert (MK : forall a, mono (fun n => bind (mapM (f n) l) (fun ys => ret (a :: ys)))).
    { intros a. apply mono_bind; [now apply mono_mapM | intros; apply mono_const]. }
    rewrite (lim_bind _ _ (fun n => f n e)
               (fun n y => bind (mapM (f n) l) (fun ys => ret (y :: ys))));
      [| apply MF | exact MK].
    split.
    + intros [[v [s1 [E1 E2]]] | [r1 [E1 F]]].
      * rewrite (lim_bind _ _ _ (fun _ ys => ret (v :: ys))) in E2;
          [| now apply mono_mapM | intros; apply mono_const].
        destruct E2 as [[vs [s2 [E2 E3]]] | [r2 [E2 F]]].
        -- apply lim_ret in E3. destruct E3 as [-> ->].
           apply IH in E2. eapply io_cons; eauto.
        -- apply IH in E2. eapply io_later; eauto.
      * eapply io_first; eauto.
    + intros X; inversion X; subst.
      * left. exists v, s1. split; [assumption |].
        apply lim_bind; [now apply mono_mapM | intros; apply mono_const |].
        left. exists vs, s'. split; [now apply IH | now apply lim_ret].
      * right. eauto.
      * left. exists v, s1. split; [assumption |].
        apply lim_bind; [now apply mono_mapM | intros; apply mono_const |].
        right. exists r0. split; [now apply IH | assumption].
Qed.

Lemma lim_foldM A B (f : nat -> B -> A -> M B) l : (forall b x, mono (fun n => f n b x)) ->
  forall b s r s',
    lim (fun n => foldM (f n) b l) s r s' <-> folds (fun b x => lim (fun n => f n b x)) b l s r s'.
Proof.
  intros MF. induction l as [| x l IH]; intros b s r s'; cbn [foldM].
  - rewrite lim_ret. split.
    + intros [-> ->]. constructor.
    + intros X; inversion X; auto.
  - rewrite (lim_bind _ _ (fun n => f n b x) (fun n b' => foldM (f n) b' l));
      [| apply MF | intros; now apply mono_foldM].
    split.
    + intros [(b1 & s1 & E1 & E2) | [r1 [E1 F]]].
      * apply IH in E2. eapply fo_cons; eauto.
      * eapply fo_stop; eauto.
    + intros X; inversion X; subst.
      * left. exists b1, s1. split; [assumption | now apply IH].
      * right. eauto.
Qed.

(** ** The evaluator *)

Section Rules.
  Variable H : host.

  Lemma mono_eval d e : mono (fun n => eval H n d e).
  Proof. intros n m L. now apply eval_mle. Qed.

  Lemma mono_builtin b args : mono (fun n => run_builtin H (eval H n 0) b args).
  Proof. intros n m L. apply mle_builtin. intros e. now apply eval_mle. Qed.

  Lemma evaluates_det d e s r1 s1 r2 s2 :
    evaluates H d e s r1 s1 -> evaluates H d e s r2 s2 -> r1 = r2 /\ s1 = s2.
  Proof. apply lim_det, mono_eval. Qed.

  Lemma calls_det b args s r1 s1 r2 s2 :
    calls H b args s r1 s1 -> calls H b args s r2 s2 -> r1 = r2 /\ s1 = s2.
  Proof. apply lim_det, mono_builtin. Qed.

  (** Above the limit every evaluation is the recursion error. *)
  Lemma evaluates_deep d e s r s' :
    (MAX_DEPTH < d)%N -> (evaluates H d e s r s' <-> r = RErr (RecursionDepth e) /\ s' = s).
  Proof.
    intros L. apply N.ltb_lt in L. split.
    - intros [N [[| n] E]]; simpl in E; [inversion E; congruence |].
      rewrite L in E. inversion E; auto.
    - intros [-> ->]. split; [discriminate |]. exists 1%nat. simpl. now rewrite L.
  Qed.

  (** Otherwise it is one round of the loop. *)
  Lemma evaluates_body d e s r s' :
    (d <= MAX_DEPTH)%N ->
    (evaluates H d e s r s' <->
     lim (fun n => eval_body H (eval H n (d + 1)) (eval H n 0) e) s r s').
  Proof.
    intros L. apply N.ltb_ge in L. split.
    - intros [N [[| n] E]]; simpl in E; [inversion E; congruence |].
      rewrite L in E. split; eauto.
    - intros [N [n E]]. split; [exact N |]. exists (S n). simpl. now rewrite L.
  Qed.

  Lemma mono_all d l : mono (fun n => mapM (eval H n d) l).
  Proof. intros n m L. apply mle_mapM. intros a. now apply eval_mle. Qed.

  Lemma lim_mapM_eval d l s r s' :
    lim (fun n => mapM (eval H n d) l) s r s' <-> evaluates_all H d l s r s'.
  Proof. apply (lim_mapM _ _ (fun n => eval H n d)). intros; apply mono_eval. Qed.

  Lemma mono_define A x v (k : nat -> M A) : mono k -> mono (fun n => define x v ;;; k n).
  Proof. intros X. apply (mono_bind _ _ (fun _ => define x v) (fun n _ => k n)); auto using mono_const. Qed.

  Lemma lim_define A x v (k : nat -> M A) s r s' :
    lim (fun n => define x v ;;; k n) s r s' <-> lim k (with_var x v s) r s'.
  Proof. apply (lim_bind_const _ _ _ (fun n _ => k n) _ tt). reflexivity. Qed.

  Lemma lim_get_env A (k : nat -> env -> M A) s r s' :
    lim (fun n => e <- get_env ;; k n e) s r s' <-> lim (fun n => k n (s_env s)) s r s'.
  Proof. apply (lim_bind_const _ _ get_env k). reflexivity. Qed.

  Lemma lim_eval d e s r s' : lim (fun n => eval H n d e) s r s' <-> evaluates H d e s r s'.
  Proof. reflexivity. Qed.

  (** ** One rule per form of expression *)

  Lemma rule_value d e s r s' :
    (d <= MAX_DEPTH)%N ->
    match e with
    | ENone | EInteger _ | EFloat _ | EBoolean _ | EBytes _ | EString _
    | EMacro _ _ | EBuiltin _ => True
    | _ => False
    end ->
    (evaluates H d e s r s' <-> r = ROk e /\ s' = s).
  Proof.
    intros L F. rewrite evaluates_body by exact L.
    destruct e; try contradiction; apply lim_ret.
  Qed.

  Lemma rule_quote d e s r s' :
    (d <= MAX_DEPTH)%N -> (evaluates H d (EQuote e) s r s' <-> r = ROk e /\ s' = s).
  Proof. intros L. rewrite evaluates_body by exact L. apply lim_ret. Qed.

  Lemma rule_group d e s r s' :
    (d <= MAX_DEPTH)%N ->
    (evaluates H d (EGroup e) s r s' <-> evaluates H (d + 1) e s r s').
  Proof. intros L. rewrite evaluates_body by exact L. reflexivity. Qed.

  Lemma rule_symbol d x s r s' :
    (d <= MAX_DEPTH)%N ->
    (evaluates H d (ESymbol x) s r s' <->
     r = ROk (match env_get x (s_env s) with Some v => v | None => ESymbol x end) /\ s' = s).
  Proof.
    intros L. rewrite evaluates_body by exact L. cbn [eval_body].
    rewrite lim_get_env. apply lim_ret.
  Qed.

  Lemma rule_lambda d p b c s r s' :
    (d <= MAX_DEPTH)%N ->
    (evaluates H d (ELambda p b c) s r s' <->
     r = ROk (ELambda p b (capture (s_env s) p b c)) /\ s' = s).
  Proof.
    intros L. rewrite evaluates_body by exact L. cbn [eval_body].
    rewrite lim_get_env. apply lim_ret.
  Qed.

  Lemma rule_assign d x e s r s' :
    (d <= MAX_DEPTH)%N ->
    (evaluates H d (EAssign x e) s r s' <->
     (exists v s1, evaluates H (d + 1) e s (ROk v) s1 /\ r = ROk ENone /\ s' = with_var x v s1)
     \/ (exists r1, evaluates H (d + 1) e s r1 s' /\ fails r1 r)).
  Proof.
    intros L. rewrite evaluates_body by exact L. cbn [eval_body].
    rewrite (lim_bind _ _ _ (fun _ v => define x v ;;; ret ENone));
      [| apply mono_eval | intros; apply mono_const].
    split; (intros [(v & s1 & E1 & E2) | E]; [left | right; exact E]); exists v, s1.
    - rewrite (lim_define _ x v (fun _ => ret ENone)), lim_ret in E2. intuition.
    - split; [exact E1 |]. now rewrite (lim_define _ x v (fun _ => ret ENone)), lim_ret.
  Qed.

  Lemma rule_if d c t f s r s' :
    (d <= MAX_DEPTH)%N ->
    (evaluates H d (EIf c t f) s r s' <->
     (exists v s1, evaluates H (d + 1) c s (ROk v) s1
                   /\ evaluates H (d + 1) (if is_truthy v then t else f) s1 r s')
     \/ (exists r1, evaluates H (d + 1) c s r1 s' /\ fails r1 r)).
  Proof.
    intros L. rewrite evaluates_body by exact L. cbn [eval_body].
    rewrite (lim_bind _ _ _ (fun n v => if is_truthy v then eval H n (d + 1) t
                                        else eval H n (d + 1) f));
      [| apply mono_eval | intros v; destruct (is_truthy v); apply mono_eval].
    split; (intros [(v & s1 & E1 & E2) | E]; [left | right; exact E]); exists v, s1;
      (split; [exact E1 |]); destruct (is_truthy v); exact E2.
  Qed.

  Lemma rule_list d l s r s' :
    (d <= MAX_DEPTH)%N ->
    (evaluates H d (EList l) s r s' <->
     (exists vs, evaluates_all H (d + 1) l s (ROk vs) s' /\ r = ROk (EList vs))
     \/ (exists r1, evaluates_all H (d + 1) l s r1 s' /\ fails r1 r)).
  Proof.
    intros L. rewrite evaluates_body by exact L. cbn [eval_body].
    rewrite (lim_bind _ _ _ (fun n v => ret (EList v)));
      [| apply mono_all | intros v; apply mono_const].
    split.
    - intros [(v & s1 & E1 & E2) | [r1 [E F]]].
      + apply lim_ret in E2. destruct E2 as [-> ->]. left. exists v.
        now rewrite lim_mapM_eval in E1.
      + right. exists r1. now rewrite lim_mapM_eval in E.
    - intros [(v & E1 & ->) | [r1 [E F]]].
      + left. exists v, s'. split; [now apply lim_mapM_eval | now apply lim_ret].
      + right. exists r1. split; [now apply lim_mapM_eval | exact F].
  Qed.

  (** *** Maps *)

  Lemma mono_map d m : mono (fun n => map_values (eval H n d) m).
  Proof.
    induction m as [| [k x] m IH]; cbn [map_values]; [apply mono_const |].
    apply (mono_bind _ _ _ (fun n y => r' <- map_values (eval H n d) m ;; ret ((k, y) :: r')));
      [apply mono_eval | intros v].
    apply (mono_bind _ _ _ (fun _ r' => ret ((k, v) :: r'))); auto using mono_const.
  Qed.

  Lemma mle_map_values n1 n2 d m :
    (n1 <= n2)%nat -> mle (map_values (eval H n1 d) m) (map_values (eval H n2 d) m).
  Proof. intros L. now apply mono_map. Qed.

  Definition zip_keys (m : bmap expr) (r : res (list expr)) : res (bmap expr) :=
    match r with
    | ROk vs => ROk (combine (map fst m) vs)
    | RErr e => RErr e
    | RPanic p => RPanic p
    | RExit c => RExit c
    | RFuel => RFuel
    end.

  Lemma map_values_mapM (rec : expr -> M expr) m : forall s,
    map_values rec m s
    = (zip_keys m (fst (mapM rec (map snd m) s)), snd (mapM rec (map snd m) s)).
  Proof.
    induction m as [| [k x] m IH]; intros s; cbn [map_values mapM map snd fst]; [reflexivity |].
    unfold bind. destruct (rec x s) as [[v | | | |] s1]; try reflexivity.
    rewrite IH. destruct (mapM rec (map snd m) s1) as [[vs | | | |] s2]; reflexivity.
  Qed.

  Lemma rule_map d m s r s' :
    (d <= MAX_DEPTH)%N ->
    (evaluates H d (EMap m) s r s' <->
     (exists vs, evaluates_all H (d + 1) (map snd m) s (ROk vs) s'
                 /\ r = ROk (EMap (combine (map fst m) vs)))
     \/ (exists r1, evaluates_all H (d + 1) (map snd m) s r1 s' /\ fails r1 r)).
  Proof.
    intros L. rewrite evaluates_body by exact L. cbn [eval_body].
    rewrite (lim_ext _ _ (fun n => vs <- mapM (eval H n (d + 1)) (map snd m) ;;
                                   ret (EMap (combine (map fst m) vs)))).
    2: { intros n. unfold bind. rewrite map_values_mapM.
         destruct (mapM _ _ s) as [[vs | | | |] s1]; reflexivity. }
    rewrite (lim_bind _ _ _ (fun n v => ret (EMap (combine (map fst m) v))));
      [| apply mono_all | intros v; apply mono_const].
    split.
    - intros [(v & s1 & E1 & E2) | [r1 [E F]]].
      + apply lim_ret in E2. destruct E2 as [-> ->]. left. exists v.
        now rewrite lim_mapM_eval in E1.
      + right. exists r1. now rewrite lim_mapM_eval in E.
    - intros [(v & E1 & ->) | [r1 [E F]]].
      + left. exists v, s'. split; [now apply lim_mapM_eval | now apply lim_ret].
      + right. exists r1. split; [now apply lim_mapM_eval | exact F].
  Qed.

  (** *** Sequences *)

  Lemma mono_seq d l : mono (fun n => seqM (eval H n d) l).
  Proof.
    induction l as [| x l IH]; cbn [seqM]; [apply mono_const |].
    destruct l; [apply mono_eval |].
    apply (mono_bind _ _ _ (fun n _ => seqM (eval H n d) (e :: l))); [apply mono_eval | auto].
  Qed.

  Lemma lim_seq d l : forall s r s',
    lim (fun n => seqM (eval H n d) l) s r s' <->
    (exists vs, evaluates_all H d l s (ROk vs) s' /\ r = ROk (last vs ENone))
    \/ (exists r1, evaluates_all H d l s r1 s' /\ fails r1 r).
  Proof.
    unfold evaluates_all. induction l as [| x l IH]; intros s r s'.
    - cbn [seqM]. rewrite lim_ret. split.
      + intros [-> ->]. left. exists []. split; [constructor | reflexivity].
      + intros [[vs [E ->]] | [r1 [E F]]]; inversion E; subst; [auto |]. inversion F.
    - destruct l as [| y l].
      + cbn [seqM]. rewrite lim_eval. split.
        * intros E. destruct r as [v | e | p | c |].
          -- left. exists [v]. split; [econstructor; [exact E | constructor] | reflexivity].
          -- right. exists (RErr e). split; [eapply io_first; [exact E |] |]; constructor.
          -- right. exists (RPanic p). split; [eapply io_first; [exact E |] |]; constructor.
          -- right. exists (RExit c). split; [eapply io_first; [exact E |] |]; constructor.
          -- destruct E as [E _]. congruence.
        * intros [[vs [E ->]] | [r1 [E F]]]; inversion E; subst.
          -- match goal with X : in_order _ [] _ _ _ |- _ => inversion X; subst end. assumption.
          -- match goal with X : fails _ (ROk _) |- _ => inversion X end.
          -- match goal with X : fails _ (ROk _) |- _ => inversion X end.
          -- inversion F.
          -- match goal with X : fails ?a r1, Y : fails r1 r |- _ =>
               inversion X; subst; inversion Y; subst end; assumption.
          -- match goal with X : in_order _ [] _ _ _ |- _ => inversion X; subst end.
             match goal with X : fails (ROk _) _ |- _ => inversion X end.
      + change (lim (fun n => eval H n d x ;;; seqM (eval H n d) (y :: l)) s r s' <->
          (exists vs, in_order (evaluates H d) (x :: y :: l) s (ROk vs) s' /\ r = ROk (last vs ENone))
          \/ (exists r1, in_order (evaluates H d) (x :: y :: l) s r1 s' /\ fails r1 r)).
        rewrite (lim_bind _ _ _ (fun n _ => seqM (eval H n d) (y :: l)));
          [| apply mono_eval | intros; apply mono_seq].
        split.
        * intros [(v & s1 & E1 & E2) | [r1 [E F]]].
          -- apply IH in E2. destruct E2 as [[vs [E2 ->]] | [r1 [E2 F]]].
             ++ left. exists (v :: vs). split; [econstructor; eauto |].
                destruct vs; [inversion E2 | reflexivity].
                all: match goal with X : fails _ (ROk _) |- _ => inversion X end.
             ++ right. exists r1. split; [| exact F].
                eapply io_later; eauto. inversion F; subst; constructor.
          -- right. inversion F; subst; eexists; (split; [eapply io_first; [exact E |] |]); constructor.
        * intros [[vs [E ->]] | [r1 [E F]]]; inversion E; subst.
          -- left. exists v, s1. split; [assumption |]. apply IH. left.
             exists vs0. split; [assumption |].
             match goal with X : in_order _ (y :: l) _ (ROk vs0) _ |- _ =>
               destruct vs0; [inversion X | reflexivity] end.
             all: match goal with X : fails _ (ROk _) |- _ => inversion X end.
          -- match goal with X : fails _ (ROk _) |- _ => inversion X end.
          -- match goal with X : fails _ (ROk _) |- _ => inversion X end.
          -- inversion F.
          -- right. exists r0. split; [assumption |].
             match goal with X : fails r0 r1, Y : fails r1 r |- _ =>
               inversion X; subst; inversion Y; subst end; constructor.
          -- left. exists v, s1. split; [assumption |]. apply IH. right. exists r0.
             split; [assumption |].
             match goal with X : fails r0 r1, Y : fails r1 r |- _ =>
               inversion X; subst; inversion Y; subst end; constructor.
  Qed.

  Lemma rule_do d l s r s' :
    (d <= MAX_DEPTH)%N ->
    (evaluates H d (EDo l) s r s' <->
     (exists vs, evaluates_all H (d + 1) l s (ROk vs) s' /\ r = ROk (last vs ENone))
     \/ (exists r1, evaluates_all H (d + 1) l s r1 s' /\ fails r1 r)).
  Proof. intros L. rewrite evaluates_body by exact L. apply lim_seq. Qed.

  (** *** Loops *)

  (** One iteration. *)
  Definition iteration d x b (item : expr) (s : st) : res expr -> st -> Prop :=
    evaluates H d b (with_var x item s).

  Lemma in_order_ext A B (R R' : A -> st -> res B -> st -> Prop) l :
    (forall x s r s', R x s r s' -> R' x s r s') ->
    forall s r s', in_order R l s r s' -> in_order R' l s r s'.
  Proof.
    intros X s r s' E. induction E; [constructor | eapply io_cons | eapply io_first | eapply io_later];
      eauto.
  Qed.

  Lemma rule_for d x l b s r s' :
    (d <= MAX_DEPTH)%N ->
    (evaluates H d (EFor x l b) s r s' <->
     (exists items s1,
         evaluates H (d + 1) l s (ROk (EList items)) s1
         /\ ((exists vs, in_order (iteration (d + 1) x b) items s1 (ROk vs) s'
                         /\ r = ROk (EList vs))
             \/ (exists r1, in_order (iteration (d + 1) x b) items s1 r1 s' /\ fails r1 r)))
     \/ (exists v, evaluates H (d + 1) l s (ROk v) s' /\ (forall items, v <> EList items)
                   /\ r = RErr (ForNonList l))
     \/ (exists r1, evaluates H (d + 1) l s r1 s' /\ fails r1 r)).
  Proof.
    intros L. rewrite evaluates_body by exact L. cbn [eval_body].
    set (it := fun n (item : expr) => define x item ;;; eval H n (d + 1) b).
    assert (MI : forall item, mono (fun n => it n item)).
    { intros item. apply mono_define, mono_eval. }
    assert (LI : forall items s r s',
               lim (fun n => mapM (it n) items) s r s'
               <-> in_order (iteration (d + 1) x b) items s r s').
    { intros. rewrite lim_mapM by exact MI.
      split; apply in_order_ext; intros y t q t'; unfold it; rewrite lim_define; auto. }
    set (k := fun n v => match v with
        | EList items => r <- mapM (it n) items ;; ret (EList r)
        | _ => throw (ForNonList l) end).
    match goal with |- ?X <-> _ =>
      change X with (lim (fun n => bind (eval H n (d + 1) l) (k n)) s r s') end.
    rewrite (lim_bind _ _ _ k); subst k; cbv beta.
    2: apply mono_eval.
    2: { intros v. destruct v; try apply mono_const.
         apply (mono_bind _ _ _ (fun _ r => ret (EList r)));
           [now apply mono_mapM | intros; apply mono_const]. }
    split.
    - intros [(v & s1 & E1 & E2) | E]; [| now right; right].
      destruct v;
        try (right; left; apply lim_throw in E2; destruct E2 as [-> ->];
             eexists; split; [exact E1 | split; [intros; discriminate | reflexivity]]).
      left. exists l0, s1. split; [exact E1 |].
      rewrite (lim_bind _ _ _ (fun _ r => ret (EList r))) in E2;
        [| now apply mono_mapM | intros; apply mono_const].
      destruct E2 as [(vs & s2 & E2 & E3) | (r1 & E2 & F)].
      + apply lim_ret in E3. destruct E3 as [-> ->]. left. exists vs. now rewrite <- LI.
      + right. exists r1. now rewrite <- LI.
    - intros [(items & s1 & E1 & E2) | [(v & E1 & N & ->) | E]]; [left | left | now right].
      + exists (EList items), s1. split; [exact E1 |].
        rewrite (lim_bind _ _ _ (fun _ r => ret (EList r)));
          [| now apply mono_mapM | intros; apply mono_const].
        destruct E2 as [(vs & E2 & ->) | (r1 & E2 & F)].
        * left. exists vs, s'. rewrite LI. split; [exact E2 | now apply lim_ret].
        * right. exists r1. now rewrite LI.
      + exists v, s'. split; [exact E1 |].
        destruct v; try (now apply lim_throw). destruct (N l0 eq_refl).
  Qed.

  (** *** Applications *)

  Lemma mono_apply_value d g f args :
    mono (fun n => apply_value H (eval H n d) (eval H n 0) g f args).
  Proof.
    intros n m L. unfold apply_value, run_command.
    destruct g; mle_auto; auto using mle_builtin, eval_mle.
  Qed.

  Lemma rule_apply d f args s r s' :
    (d <= MAX_DEPTH)%N ->
    (evaluates H d (EApply f args) s r s' <->
     (exists g s1, evaluates H (d + 1) f s (ROk g) s1
                   /\ lim (fun n => apply_value H (eval H n (d + 1)) (eval H n 0) g f args) s1 r s')
     \/ (exists r1, evaluates H (d + 1) f s r1 s' /\ fails r1 r)).
  Proof.
    intros L. rewrite evaluates_body by exact L. cbn [eval_body].
    apply (lim_bind _ _ _ (fun n g => apply_value H (eval H n (d + 1)) (eval H n 0) g f args));
      [apply mono_eval | intros; apply mono_apply_value].
  Qed.

  Lemma apply_builtin d b f args s r s' :
    lim (fun n => apply_value H (eval H n d) (eval H n 0) (EBuiltin b) f args) s r s'
    <-> calls H (b_id b) args s r s'.
  Proof. reflexivity. Qed.

  (** The environment in which the body of a function runs. *)
  Definition call_env (p : str) (v : expr) (captured : env) (caller : env) : env :=
    env_define p v (env_set_cwd (env_get_cwd caller) captured).

  Lemma apply_lambda1 d p b c f a s r s' :
    lim (fun n => apply_value H (eval H n d) (eval H n 0) (ELambda p b c) f [a]) s r s'
    <-> (exists v s1 s2, evaluates H d a s (ROk v) s1
                         /\ evaluates H d b (with_env (call_env p v c (s_env s)) s1) r s2
                         /\ s' = with_env (s_env s1) s2)
        \/ (exists r1, evaluates H d a s r1 s' /\ fails r1 r).
  Proof.
    cbn [apply_value]. rewrite lim_get_env.
    rewrite (lim_bind _ _ _ (fun n x => in_env (call_env p x c (s_env s)) (eval H n d b))).
    2: apply mono_eval.
    2: { intros v n m L. apply mle_in_env. now apply eval_mle. }
    split; (intros [E | E]; [left | right; exact E]).
    - destruct E as (v & s1 & E1 & E2). apply lim_in_env in E2.
      destruct E2 as (s2 & E2 & ->). exists v, s1, s2. auto.
    - destruct E as (v & s1 & s2 & E1 & E2 & ->). exists v, s1. split; [exact E1 |].
      apply lim_in_env. eauto.
  Qed.

  Lemma apply_lambda2 d p b c f a a2 rest s r s' :
    lim (fun n => apply_value H (eval H n d) (eval H n 0) (ELambda p b c) f (a :: a2 :: rest)) s r s'
    <-> (exists v s1 g s2,
            evaluates H d a s (ROk v) s1
            /\ evaluates H d b (with_env (call_env p v c (s_env s)) s1) (ROk g) s2
            /\ evaluates H d (EApply g (a2 :: rest)) (with_env (s_env s1) s2) r s')
        \/ (exists v s1 r1 s2,
            evaluates H d a s (ROk v) s1
            /\ evaluates H d b (with_env (call_env p v c (s_env s)) s1) r1 s2
            /\ fails r1 r /\ s' = with_env (s_env s1) s2)
        \/ (exists r1, evaluates H d a s r1 s' /\ fails r1 r).
  Proof.
    cbn [apply_value]. rewrite lim_get_env.
    assert (MB : forall x, mono (fun n => in_env (call_env p x c (s_env s)) (eval H n d b))).
    { intros v n m L. apply mle_in_env. now apply eval_mle. }
    assert (MK : forall x, mono (fun n => r0 <- in_env (call_env p x c (s_env s)) (eval H n d b) ;;
                                   eval H n d (EApply r0 (a2 :: rest)))).
    { intros x. apply (mono_bind _ _ _ (fun n g => eval H n d (EApply g (a2 :: rest))));
        [apply MB | intros; apply mono_eval]. }
    rewrite (lim_bind _ _ _ (fun n x => r0 <- in_env (call_env p x c (s_env s)) (eval H n d b) ;;
                                   eval H n d (EApply r0 (a2 :: rest))));
      [| apply mono_eval | exact MK].
    split.
    - intros [(v & s1 & E1 & E2) | E]; [| now right; right].
      rewrite (lim_bind _ _ _ (fun n g => eval H n d (EApply g (a2 :: rest)))) in E2;
        [| apply MB | intros; apply mono_eval].
      destruct E2 as [(g & s2 & E2 & E3) | (r1 & E2 & F)]; apply lim_in_env in E2;
        destruct E2 as (s3 & E2 & ->).
      + left. exists v, s1, g, s3. auto.
      + right; left. exists v, s1, r1, s3. auto.
    - intros [(v & s1 & g & s2 & E1 & E2 & E3) | [(v & s1 & r1 & s2 & E1 & E2 & F & ->) | E]];
        [left | left | now right]; exists v, s1; (split; [exact E1 |]);
        (rewrite (lim_bind _ _ _ (fun n g => eval H n d (EApply g (a2 :: rest))));
         [| apply MB | intros; apply mono_eval]).
      + left. exists g, (with_env (s_env s1) s2). split; [| exact E3]. apply lim_in_env. eauto.
      + right. exists r1. split; [| exact F]. apply lim_in_env. eauto.
  Qed.

  Lemma apply_macro1 d p b f a s r s' :
    lim (fun n => apply_value H (eval H n d) (eval H n 0) (EMacro p b) f [a]) s r s'
    <-> (exists v s1, evaluates H d a s (ROk v) s1 /\ evaluates H d b (with_var p v s1) r s')
        \/ (exists r1, evaluates H d a s r1 s' /\ fails r1 r).
  Proof.
    cbn [apply_value].
    rewrite (lim_bind _ _ _ (fun n x => define p x ;;; eval H n d b));
      [| apply mono_eval | intros; apply mono_define, mono_eval].
    split; (intros [(v & s1 & E1 & E2) | E]; [left | right; exact E]); exists v, s1;
      (split; [exact E1 |]).
    - now apply lim_define in E2.
    - now apply lim_define.
  Qed.
End Rules.
