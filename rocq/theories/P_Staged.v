(** C38: [map], [filter] and [reduce] with fewer arguments. *)

From Coq Require Import String.
From Verif Require Import Base Syntax Host Ops Parser ErrorFmt Text Monad Builtins Eval
  EvalSpec EvalFacts MapFacts CoreFacts LibFacts OpsSpec OpsFacts LibSpec ListFacts
  CurryFacts Init Demo P_Ops P_List P_Fn.

(** Whatever the variables are, applying the value [f] to the values [vs] has the
    outcome [r] and changes no variable. *)
Definition acting (H : host) (f : expr) (vs : list expr) (s : st) (r : res expr) (s' : st) : Prop :=
  s_env s' = s_env s
  /\ forall E d g args,
      env_get_cwd E = env_get_cwd (s_env s) -> (d <= 10)%N ->
      argument H 20 (with_env E s) g f -> Forall2 (argument H 20 (with_env E s)) args vs ->
      evaluates H d (EApply g args) (with_env E s) r (with_env E s').

(** ** Functions that take their arguments one at a time *)

(** A function with the parameter [q] and the body [b] that knows the values of
    variables of its body. *)
Definition closure (q : str) (b : expr) (known : str -> option expr) (h : expr) : Prop :=
  exists c, h = ELambda q b c /\
    forall x v, In x (used_symbols b) -> x <> q -> x <> CWD -> known x = Some v -> env_get x c = Some v.

Definition knowing (q : str) (v : expr) (known : str -> option expr) (x : str) : option expr :=
  if str_eqb x q then Some v else known x.

Lemma get_capture e p b c x v : In x (used_symbols b) -> x <> p -> x <> CWD ->
  (env_get x c = Some v \/ env_get x c = None /\ env_get x e = Some v) ->
  env_get x (capture e p b c) = Some v.
Proof.
  intros U P C K. unfold capture. rewrite capture_symbols_get.
  assert (T : env_get x (env_set_cwd (env_get_cwd e) (env_define p ENone c)) = env_get x c).
  { unfold env_set_cwd. rewrite !env_get_define.
    destruct (str_eqb x CWD) eqn:A; [apply str_eqb_eq in A; contradiction|].
    destruct (str_eqb x p) eqn:B; [apply str_eqb_eq in B; contradiction|]. reflexivity. }
  rewrite T.
  replace (existsb (str_eqb x) (used_symbols b)) with true
    by (symmetry; apply existsb_exists; exists x; split; [exact U|now apply str_eqb_eq]).
  replace (str_eqb x p) with false
    by (destruct (str_eqb x p) eqn:B; [apply str_eqb_eq in B; contradiction|reflexivity]).
  cbn [andb negb]. destruct K as [K|[K1 K2]].
  - replace (env_is_defined x c) with true; [exact K|]. symmetry. apply env_is_defined_get. congruence.
  - replace (env_is_defined x c) with false; [cbn [negb]; now rewrite K2|].
    symmetry. apply not_true_iff_false. rewrite env_is_defined_get. congruence.
Qed.

Lemma closure_new H d p b s : (d <= MAX_DEPTH)%N ->
  exists h, evaluates H d (ELambda p b env_new) s (ROk h) s /\ closure p b (fun x => env_get x (s_env s)) h.
Proof.
  intros D. eexists. split; [apply rule_lambda; [exact D|split; reflexivity]|].
  eexists. split; [reflexivity|]. intros x v U P C K. apply get_capture; auto.
Qed.

Lemma closure_again H d q b known h s : (d <= MAX_DEPTH)%N -> closure q b known h ->
  exists h', evaluates H d h s (ROk h') s /\ closure q b known h'.
Proof.
  intros D (c & -> & K). eexists. split; [apply rule_lambda; [exact D|split; reflexivity]|].
  eexists. split; [reflexivity|]. intros x v U P C E. apply get_capture; auto.
Qed.

Lemma call_get q b known c e v :
  (forall x v, In x (used_symbols b) -> x <> q -> x <> CWD -> known x = Some v -> env_get x c = Some v) ->
  forall x w, In x (used_symbols b) -> x <> CWD -> knowing q v known x = Some w ->
  env_get x (call_env q v c e) = Some w.
Proof.
  intros K x w U C E. unfold call_env, env_set_cwd, knowing in *. rewrite !env_get_define.
  destruct (str_eqb x q) eqn:Q; [exact E|].
  destruct (str_eqb x CWD) eqn:A; [apply str_eqb_eq in A; contradiction|].
  apply K; auto. intros ->. rewrite str_eqb_refl in Q. discriminate.
Qed.

Lemma env_get_set_cwd p e : env_get_cwd (env_set_cwd p e) = p.
Proof. unfold env_get_cwd, env_set_cwd. rewrite env_get_define. now rewrite str_eqb_refl. Qed.

Lemma call_cwd q v c e : q <> CWD -> env_get_cwd (call_env q v c e) = env_get_cwd e.
Proof.
  intros Q. unfold call_env. rewrite env_get_cwd_define by exact Q. apply env_get_set_cwd.
Qed.

(** One argument of several. *)
Lemma closure_next H d q q' b known h e a v s : (d + 1 <= MAX_DEPTH)%N -> q <> CWD ->
  closure q (ELambda q' b env_new) known h ->
  evaluates H (d + 1) e s (ROk h) s -> evaluates H (d + 1) a s (ROk v) s ->
  exists h', evaluates H d (EApply e [a]) s (ROk h') s /\ closure q' b (knowing q v known) h'.
Proof.
  intros D Q (c & -> & K) E A.
  set (E1 := call_env q v c (s_env s)).
  exists (ELambda q' b (capture E1 q' b env_new)). split.
  - apply rule_apply; [lia|]. left. exists (ELambda q (ELambda q' b env_new) c), s. split; [exact E|].
    apply apply_lambda1. left. exists v, s, (with_env E1 s). split; [exact A|]. split.
    + apply rule_lambda; [lia|]. split; reflexivity.
    + now destruct s.
  - eexists. split; [reflexivity|]. intros x w U P C X. apply get_capture; auto. right. split; [reflexivity|].
    unfold E1. eapply (call_get q (ELambda q' b env_new) known); eauto.
Qed.

(** The last one. *)
Lemma closure_last H d q b known h e a v s r s' : (d + 1 <= MAX_DEPTH)%N -> q <> CWD ->
  closure q b known h ->
  evaluates H (d + 1) e s (ROk h) s -> evaluates H (d + 1) a s (ROk v) s ->
  (forall E, env_get_cwd E = env_get_cwd (s_env s) ->
     (forall x w, In x (used_symbols b) -> x <> CWD -> knowing q v known x = Some w -> env_get x E = Some w) ->
     exists E', evaluates H (d + 1) b (with_env E s) r (with_env E' s')) ->
  evaluates H d (EApply e [a]) s r (with_env (s_env s) s').
Proof.
  intros D Q (c & -> & K) E A B.
  destruct (B (call_env q v c (s_env s))) as [E' X].
  - now apply call_cwd.
  - now apply call_get.
  - apply rule_apply; [lia|]. left. exists (ELambda q b c), s. split; [exact E|].
    apply apply_lambda1. left. exists v, s, (with_env E' s'). split; [exact A|]. split; [exact X|].
    now destruct s'.
Qed.

(** An argument followed by others. *)
Lemma closure_more H d q q' b known h e a v a2 rest s r s' : (d + 1 <= MAX_DEPTH)%N -> q <> CWD ->
  closure q (ELambda q' b env_new) known h ->
  evaluates H (d + 1) e s (ROk h) s -> evaluates H (d + 1) a s (ROk v) s ->
  (forall g, closure q' b (knowing q v known) g -> evaluates H (d + 1) (EApply g (a2 :: rest)) s r s') ->
  evaluates H d (EApply e (a :: a2 :: rest)) s r s'.
Proof.
  intros D Q (c & -> & K) E A G.
  eapply apply_more; [lia|exact E|exact A|apply rule_lambda; [lia|split; reflexivity]|].
  apply G. eexists. split; [reflexivity|]. intros x w U P C X. apply get_capture; auto. right. split; [reflexivity|].
  eapply (call_get q (ELambda q' b env_new) known); eauto.
Qed.

Ltac below := unfold MAX_DEPTH; lia.

(** ** Blocks *)

Lemma outcome A (r : res A) : r <> RFuel ->
  (exists v, r = ROk v) \/ forall B, exists r' : res B, fails r r' /\ fails r' r.
Proof.
  intros N. destruct r as [v|x|x|x|]; [left; eauto|..|contradiction]; right; intros B; eexists; split; constructor.
Qed.

Lemma do_one H d e s r s' : (d <= MAX_DEPTH)%N -> evaluates H (d + 1) e s r s' -> evaluates H d (EDo [e]) s r s'.
Proof.
  intros D E. apply rule_do; [exact D|].
  destruct (outcome _ r (proj1 E)) as [[v ->]|F].
  - left. exists [v]. split; [|reflexivity]. econstructor; [exact E|constructor].
  - right. destruct (F (list expr)) as (r' & F1 & F2). exists r'. split; [|exact F2]. eapply io_first; eauto.
Qed.

Lemma in_order_steps A B (R R' : A -> st -> res B -> st -> Prop) (I : st -> st -> Prop) :
  (forall x s r s' t, R x s r s' -> I s t -> exists t', R' x t r t' /\ I s' t') ->
  forall l s r s', in_order R l s r s' -> forall t, I s t -> exists t', in_order R' l t r t' /\ I s' t'.
Proof.
  intros X l s r s' E. induction E; intros t K.
  - exists t. split; [constructor|exact K].
  - destruct (X _ _ _ _ _ H K) as (t1 & X1 & K1). destruct (IHE _ K1) as (t2 & X2 & K2).
    exists t2. split; [econstructor; eauto|exact K2].
  - destruct (X _ _ _ _ _ H K) as (t1 & X1 & K1). exists t1. split; [eapply io_first; eauto|exact K1].
  - destruct (X _ _ _ _ _ H K) as (t1 & X1 & K1). destruct (IHE _ K1) as (t2 & X2 & K2).
    exists t2. split; [eapply io_later; eauto|exact K2].
Qed.

(** [t] is the state [s] with the variables of a scope in which [known] are known. *)
Definition inside (known : list (str * expr)) (s t : st) : Prop :=
  exists E, t = with_env E s /\ env_get_cwd E = env_get_cwd (s_env s)
    /\ forall x v, In (x, v) known -> env_get x E = Some v.

Lemma inside_var known s t x v : x <> CWD -> inside known s t ->
  inside ((x, v) :: filter (fun p => negb (str_eqb (fst p) x)) known) s (with_var x v t).
Proof.
  intros X (E & -> & C & K). exists (env_define x v E). split; [reflexivity|]. split.
  - now rewrite env_get_cwd_define.
  - intros y w [P|P]; rewrite env_get_define.
    + injection P as <- <-. now rewrite str_eqb_refl.
    + apply filter_In in P. destruct P as [P N]. cbn [fst] in N. apply negb_true_iff in N. rewrite N. now apply K.
Qed.

Lemma inside_less known known' s t : inside known s t -> incl known' known -> inside known' s t.
Proof. intros (E & -> & C & K) L. exists E. split; [reflexivity|]. split; [exact C|]. intros x v P. apply K, L, P. Qed.

Lemma inside_symbol H known s t x v : inside known s t -> In (x, v) known -> argument H 20 t (ESymbol x) v.
Proof.
  intros (E & -> & _ & K) P. apply argument_symbol; [below|]. apply K, P.
Qed.

Lemma inside_acting H fv vs s r s' g args known t d :
  acting H fv vs s r s' -> inside known s t -> (d <= 10)%N ->
  argument H 20 t g fv -> Forall2 (argument H 20 t) args vs ->
  exists t', evaluates H d (EApply g args) t r t' /\ inside known s' t'.
Proof.
  intros [V A] (E & -> & C & K) D G X. exists (with_env E s'). split; [now apply A|].
  exists E. split; [reflexivity|]. split; [now rewrite V|exact K].
Qed.

(** ** [map] *)

Definition map_step : expr := EDo [EApply (ESymbol (lit "f")) [ESymbol (lit "item")]].
Definition map_body : expr := EFor (lit "item") (ESymbol (lit "list")) map_step.

Lemma map_parsed : parse_script (lit "f -> list -> for item in list {f item}")
  = SOk (EDo [ELambda (lit "f") (ELambda (lit "list") map_body env_new) env_new]).
Proof. vm_compute. reflexivity. Qed.

Lemma map_loop H fv l s r s' t : in_order (fun x => acting H fv [x]) l s r s' ->
  inside [(lit "f", fv)] s t ->
  exists t', in_order (iteration H 2 (lit "item") map_step) l t r t' /\ inside [(lit "f", fv)] s' t'.
Proof.
  intros X I. revert X t I. apply in_order_steps. clear. intros x s r s' t A I.
  apply (inside_var _ _ _ (lit "item") x) in I; [|discriminate].
  destruct (inside_acting H fv [x] s r s' (ESymbol (lit "f")) [ESymbol (lit "item")] _ _ 3 A I) as (t' & E & I').
  - lia.
  - eapply inside_symbol; [exact I|]. vm_compute. auto.
  - constructor; [|constructor]. eapply inside_symbol; [exact I|]. now left.
  - exists t'. split; [apply do_one; [below|exact E]|]. eapply inside_less; [exact I'|].
    intros p [<-|[]]. vm_compute. auto.
Qed.

Lemma same_env s s' : s_env s' = s_env s -> with_env (s_env s) s' = s'.
Proof. destruct s, s'. cbn. now intros ->. Qed.

Lemma in_order_env A B (R : A -> st -> res B -> st -> Prop) l s r s' :
  (forall x s r s', R x s r s' -> s_env s' = s_env s) -> in_order R l s r s' -> s_env s' = s_env s.
Proof. intros X E. induction E; try reflexivity; try (now eapply X); apply X in H; congruence. Qed.

(** The variables after the call are those before. *)
Lemma closure_runs H d q b known h e a v s r s' :
  (d + 1 <= MAX_DEPTH)%N -> q <> CWD -> closure q b known h ->
  evaluates H (d + 1) e s (ROk h) s -> evaluates H (d + 1) a s (ROk v) s -> s_env s' = s_env s ->
  (forall E, env_get_cwd E = env_get_cwd (s_env s) ->
     (forall x w, In x (used_symbols b) -> x <> CWD -> knowing q v known x = Some w -> env_get x E = Some w) ->
     exists t', evaluates H (d + 1) b (with_env E s) r t' /\ inside [] s' t') ->
  evaluates H d (EApply e [a]) s r s'.
Proof.
  intros D Q C E A V B. rewrite <- (same_env s s' V).
  eapply closure_last; eauto. intros E1 C1 K1. destruct (B E1 C1 K1) as (t' & X & (E2 & -> & _)).
  exists E2. exact X.
Qed.

(** With one argument, [map] gives a function of the list. *)
Theorem C38_map_staged H f fv s : argument H 1 s f fv ->
  exists h, calls H FMap [f] s (ROk h) s
  /\ forall e a l s1 r s2, argument H 1 s1 e h -> argument H 1 s1 a (EList l) ->
     in_order (fun x => acting H fv [x]) l s1 r s2 ->
     evaluates H 0 (EApply e [a]) s1 (as_list r) s2.
Proof.
  intros F.
  destruct (closure_new H 2 (lit "f") (ELambda (lit "list") map_body env_new) s) as (h0 & E0 & C0); [below|].
  pose proof (do_one H 1 _ s (ROk h0) s ltac:(below) E0) as E1.
  destruct (closure_next H 0 (lit "f") (lit "list") map_body _ h0 _ f fv s ltac:(below) ltac:(discriminate) C0 E1)
    as (h & E2 & C2); [apply F; below|].
  exists h. split.
  - call. unfold run_map. eapply sure_bind_const; [reflexivity|]. cbv beta iota.
    eapply sure_bind_const; [unfold parse_m; rewrite map_parsed; reflexivity|]. now apply sure_ev.
  - intros e a l s1 r s2 E A X.
    assert (V : s_env s2 = s_env s1) by (eapply in_order_env; [|exact X]; intros ? ? ? ? [Q _]; exact Q).
    apply (closure_runs H 0 (lit "list") map_body _ h e a (EList l) s1 (as_list r) s2 ltac:(below) ltac:(discriminate) C2);
      [apply E; lia|apply A; lia|exact V|].
    intros E3 CW K.
    destruct (map_loop H fv l s1 r s2 (with_env E3 s1) X) as (t' & L & I).
    { exists E3. split; [reflexivity|]. split; [exact CW|]. intros x v [P|[]]. injection P as <- <-.
      apply K; [vm_compute; tauto|discriminate|reflexivity]. }
    exists t'. split.
    + apply rule_for; [below|]. left. exists l, (with_env E3 s1). split.
      * apply rule_symbol; [below|]. cbn [with_env s_env]. rewrite (K (lit "list") (EList l)); auto.
        { vm_compute; tauto. } { discriminate. }
      * change (1 + 1)%N with 2%N. destruct (outcome _ r (in_order_not_fuel _ _ _ _ _ _ _ X)) as [[vs ->]|Fl].
        -- left. exists vs. split; [exact L|reflexivity].
        -- right. destruct (Fl expr) as (r' & F1 & F2). exists r. split; [exact L|].
           destruct F1; cbn [as_list]; constructor.
    + eapply inside_less; [exact I|]. intros p [].
Qed.

(** ** [reduce] *)

Definition reduce_step : expr :=
  EDo [EAssign (lit "acc") (EApply (ESymbol (lit "f")) [ESymbol (lit "acc"); ESymbol (lit "item")])].
Definition reduce_body : expr :=
  EDo [EFor (lit "item") (ESymbol (lit "list")) reduce_step; ESymbol (lit "acc")].

Lemma reduce_parsed : parse_script (lit "f -> acc -> list -> { for item in list { let acc = f acc item } acc }")
  = SOk (EDo [ELambda (lit "f") (ELambda (lit "acc") (ELambda (lit "list") reduce_body env_new) env_new) env_new]).
Proof. vm_compute. reflexivity. Qed.

Lemma reduce_once H d fv v x s r s' t : (d <= 5)%N -> acting H fv [v; x] s r s' ->
  inside [(lit "f", fv); (lit "acc", v)] s t ->
  (forall w, r = ROk w -> exists t', iteration H d (lit "item") reduce_step x t (ROk ENone) t'
     /\ inside [(lit "f", fv); (lit "acc", w)] s' t')
  /\ (forall r' : res expr, fails r r' -> exists t', iteration H d (lit "item") reduce_step x t r' t' /\ inside [] s' t').
Proof.
  intros D A I. apply (inside_var _ _ _ (lit "item") x) in I; [|discriminate].
  destruct (inside_acting H fv [v; x] s r s' (ESymbol (lit "f")) [ESymbol (lit "acc"); ESymbol (lit "item")]
              _ _ (d + 1 + 1) A I) as (t' & E & I').
  - lia.
  - eapply inside_symbol; [exact I|]. vm_compute. auto.
  - constructor; [eapply inside_symbol; [exact I|]; vm_compute; auto|].
    constructor; [eapply inside_symbol; [exact I|]; now left|constructor].
  - split.
    + intros w ->. exists (with_var (lit "acc") w t'). split.
      * apply do_one; [below|]. apply rule_assign; [below|]. left. exists w, t'. auto.
      * apply (inside_var _ _ _ (lit "acc") w) in I'; [|discriminate]. eapply inside_less; [exact I'|].
        intros p [<-|[<-|[]]]; vm_compute; auto.
    + intros r' F. exists t'. split.
      * apply do_one; [below|]. apply rule_assign; [below|]. right. exists r. auto.
      * eapply inside_less; [exact I'|]. intros p [].
Qed.

Lemma reduce_loop H d fv l v s r s' : (d <= 5)%N ->
  folds (fun acc x => acting H fv [acc; x]) v l s r s' ->
  forall t, inside [(lit "f", fv); (lit "acc", v)] s t ->
  (forall w, r = ROk w -> exists us t', in_order (iteration H d (lit "item") reduce_step) l t (ROk us) t'
     /\ inside [(lit "acc", w)] s' t')
  /\ (forall r' : res expr, fails r r' -> exists r1 t', in_order (iteration H d (lit "item") reduce_step) l t r1 t'
     /\ fails r1 r' /\ inside [] s' t').
Proof.
  intros D X. induction X as [v s|v x l s v1 s1 r s2 A X IH|v x l s r r' s1 A F]; intros t I.
  - split; [|intros r' F; inversion F]. intros w [= <-]. exists [], t. split; [constructor|].
    eapply inside_less; [exact I|]. intros p [<-|[]]. vm_compute. auto.
  - destruct (reduce_once H d fv v x s (ROk v1) s1 t D A I) as [O _].
    destruct (O v1 eq_refl) as (t1 & E1 & I1). destruct (IH t1 I1) as [G B]. split.
    + intros w W. destruct (G w W) as (us & t' & E2 & I2). exists (ENone :: us), t'.
      split; [econstructor; eauto|exact I2].
    + intros r' F. destruct (B r' F) as (r1 & t' & E2 & F2 & I2).
      assert (N : exists r2 : res (list expr), fails r1 r2 /\ fails r2 r')
        by (destruct F2; eexists; split; constructor).
      destruct N as (r2 & N1 & N2). exists r2, t'. split; [eapply io_later; eauto|]. auto.
  - destruct (reduce_once H d fv v x s r s1 t D A I) as [_ B]. split.
    + intros w ->. inversion F.
    + intros r2 F2. assert (N : r2 = r') by (inversion F; subst; inversion F2; reflexivity). subst r2.
      destruct (B r' F) as (t' & E1 & I1).
      destruct (outcome _ r' ltac:(destruct F; discriminate)) as [[w ->]|O]; [inversion F|].
      destruct (O (list expr)) as (r3 & O1 & O2). exists r3, t'. split; [eapply io_first; eauto|]. auto.
Qed.

Lemma reduce_runs H d fv l v s r s' t : (d <= 2)%N ->
  folds (fun acc x => acting H fv [acc; x]) v l s r s' ->
  inside [(lit "f", fv); (lit "acc", v); (lit "list", EList l)] s t ->
  exists t', evaluates H d reduce_body t r t' /\ inside [] s' t'.
Proof.
  intros D X I.
  destruct (reduce_loop H (d + 1 + 1) fv l v s r s' ltac:(lia) X t) as [G B].
  { eapply inside_less; [exact I|]. intros p [<-|[<-|[]]]; cbn; auto. }
  assert (LL : evaluates H (d + 1 + 1) (ESymbol (lit "list")) t (ROk (EList l)) t)
    by (eapply inside_symbol; [exact I|cbn; auto|lia]).
  destruct (outcome _ r (folds_not_fuel _ _ _ _ _ _ _ _ X)) as [[w ->]|F].
  - destruct (G w eq_refl) as (us & t' & E & I'). exists t'. split; [|eapply inside_less; [exact I'|]; intros p []].
    apply rule_do; [below|]. left. exists [EList us; w]. split; [|reflexivity].
    econstructor.
    + apply rule_for; [below|]. left. exists l, t. split; [exact LL|]. left. exists us. split; [exact E|reflexivity].
    + econstructor; [|constructor]. eapply inside_symbol; [exact I'|cbn; auto|lia].
  - destruct (F expr) as (r0 & F1 & F2). assert (r0 = r) by (inversion F1; subst; inversion F2; reflexivity). subst r0.
    destruct (B r F1) as (r1 & t' & E & F3 & I'). exists t'. split; [|exact I'].
    destruct (F (list expr)) as (r2 & F4 & F5).
    apply rule_do; [below|]. right. exists r2. split; [|exact F5]. eapply io_first; [|exact F4].
    apply rule_for; [below|]. left. exists l, t. split; [exact LL|]. right. exists r1. split; [exact E|exact F3].
Qed.

Lemma folds_env A B (R : B -> A -> st -> res B -> st -> Prop) b l s r s' :
  (forall b x s r s', R b x s r s' -> s_env s' = s_env s) -> folds R b l s r s' -> s_env s' = s_env s.
Proof. intros X E. induction E; try reflexivity; apply X in H; congruence. Qed.

Definition reducing (fv : expr) (h : expr) : Prop :=
  exists known, known (lit "f") = Some fv
    /\ closure (lit "acc") (ELambda (lit "list") reduce_body env_new) known h.

Definition reducing_from (fv v : expr) (h : expr) : Prop :=
  exists known, known (lit "f") = Some fv /\ known (lit "acc") = Some v
    /\ closure (lit "list") reduce_body known h.

Lemma reducing_last H d fv v h e a l s1 r s2 : (d <= 1)%N -> reducing_from fv v h ->
  argument H (d + 1) s1 e h -> argument H (d + 1) s1 a (EList l) ->
  folds (fun acc x => acting H fv [acc; x]) v l s1 r s2 ->
  evaluates H d (EApply e [a]) s1 r s2.
Proof.
  intros D (known & KF & KA & C) E A X.
  apply (closure_runs H d (lit "list") reduce_body known h e a (EList l) s1 r s2 ltac:(below) ltac:(discriminate) C);
    [apply E; lia|apply A; lia| |].
  - eapply folds_env; [|exact X]. intros ? ? ? ? ? [Q _]. exact Q.
  - intros E3 CW K. apply (reduce_runs H (d + 1) fv l v s1 r s2); [lia|exact X|].
    exists E3. split; [reflexivity|]. split; [exact CW|].
    intros x w [P|[P|[P|[]]]]; injection P as <- <-; apply K; try discriminate; try (vm_compute; tauto); assumption.
Qed.

Lemma reducing_next fv v h e b s H d : (d <= 5)%N -> reducing fv h ->
  argument H (d + 1) s e h -> argument H (d + 1) s b v ->
  exists h2, evaluates H d (EApply e [b]) s (ROk h2) s /\ reducing_from fv v h2.
Proof.
  intros D (known & KF & C) E B.
  destruct (closure_next H d (lit "acc") (lit "list") reduce_body known h e b v s ltac:(below) ltac:(discriminate) C)
    as (h2 & E2 & C2); [apply E; lia|apply B; lia|].
  exists h2. split; [exact E2|]. exists (knowing (lit "acc") v known). auto.
Qed.

Lemma reducing_first H f fv s : argument H 1 s f fv ->
  exists h0, evaluates H 1
    (EDo [ELambda (lit "f") (ELambda (lit "acc") (ELambda (lit "list") reduce_body env_new) env_new) env_new])
    s (ROk h0) s
  /\ closure (lit "f") (ELambda (lit "acc") (ELambda (lit "list") reduce_body env_new) env_new)
       (fun x => env_get x (s_env s)) h0.
Proof.
  intros F.
  destruct (closure_new H 2 (lit "f") (ELambda (lit "acc") (ELambda (lit "list") reduce_body env_new) env_new) s)
    as (h0 & E0 & C0); [below|].
  exists h0. split; [apply do_one; [below|exact E0]|exact C0].
Qed.

(** With one argument, [reduce] gives a function of the start value and of the list, *)
Theorem C38_reduce_staged H f fv s : argument H 1 s f fv ->
  exists h, calls H FReduce [f] s (ROk h) s
  /\ (forall e b v s1, argument H 1 s1 e h -> argument H 1 s1 b v ->
      exists h2, evaluates H 0 (EApply e [b]) s1 (ROk h2) s1
      /\ forall e2 a l s2 r s3, argument H 1 s2 e2 h2 -> argument H 1 s2 a (EList l) ->
         folds (fun acc x => acting H fv [acc; x]) v l s2 r s3 ->
         evaluates H 0 (EApply e2 [a]) s2 r s3)
  /\ (forall e b v a l s1 r s2, argument H 2 s1 e h -> argument H 2 s1 b v -> argument H 2 s1 a (EList l) ->
      folds (fun acc x => acting H fv [acc; x]) v l s1 r s2 ->
      evaluates H 0 (EApply e [b; a]) s1 r s2).
Proof.
  intros F. destruct (reducing_first H f fv s F) as (h0 & E1 & C0).
  destruct (closure_next H 0 (lit "f") (lit "acc") (ELambda (lit "list") reduce_body env_new) _ h0 _ f fv s
              ltac:(below) ltac:(discriminate) C0 E1) as (h & E2 & C2); [apply F; below|].
  assert (R : reducing fv h) by (eexists; split; [|exact C2]; reflexivity).
  exists h. split; [|split].
  - call. unfold run_reduce. eapply sure_bind_const; [reflexivity|]. cbn [length Nat.ltb Nat.leb].
    eapply sure_bind_const; [unfold parse_m; rewrite reduce_parsed; reflexivity|]. now apply sure_ev.
  - intros e b v s1 E B. destruct (reducing_next fv v h e b s1 H 0) as (h2 & E3 & R2); [lia|exact R|exact E|exact B|].
    exists h2. split; [exact E3|]. intros. eapply (reducing_last H 0 fv v h2); eauto; lia.
  - intros e b v a l s1 r s2 E B A X. destruct R as (known & KF & C).
    eapply (closure_more H 0 (lit "acc") (lit "list") reduce_body known h e b v a [] s1 r s2
              ltac:(below) ltac:(discriminate) C); [apply E; lia|apply B; lia|].
    intros g CG.
    destruct (closure_again H 2 _ _ _ g s1 ltac:(below) CG) as (g' & EG & CG').
    assert (RG : reducing_from fv v g') by (eexists; split; [|split; [|exact CG']]; [exact KF|reflexivity]).
    apply (closure_runs H 1 (lit "list") reduce_body (knowing (lit "acc") v known) g' g a (EList l) s1 r s2
             ltac:(below) ltac:(discriminate) CG'); [exact EG|apply A; lia| |].
    + eapply folds_env; [|exact X]. intros ? ? ? ? ? [Q _]. exact Q.
    + intros E3 CW K. apply (reduce_runs H 2 fv l v s1 r s2); [lia|exact X|].
      exists E3. split; [reflexivity|]. split; [exact CW|].
      intros x w [P|[P|[P|[]]]]; injection P as <- <-; apply K; try discriminate; try (vm_compute; tauto);
        try reflexivity; assumption.
Qed.

(** and with two arguments a function of the list. *)
Theorem C38_reduce_staged2 H f fv b v s : argument H 2 s f fv -> argument H 2 s b v ->
  exists h, calls H FReduce [f; b] s (ROk h) s
  /\ forall e a l s1 r s2, argument H 1 s1 e h -> argument H 1 s1 a (EList l) ->
     folds (fun acc x => acting H fv [acc; x]) v l s1 r s2 ->
     evaluates H 0 (EApply e [a]) s1 r s2.
Proof.
  intros F B. destruct (reducing_first H f fv s) as (h0 & E1 & C0); [eapply argument_less; [exact F|lia]|].
  destruct C0 as (c & -> & K0).
  pose (E4 := call_env (lit "f") fv c (s_env s)).
  pose (g := ELambda (lit "acc") (ELambda (lit "list") reduce_body env_new)
               (capture E4 (lit "acc") (ELambda (lit "list") reduce_body env_new) env_new)).
  assert (CG : closure (lit "acc") (ELambda (lit "list") reduce_body env_new)
                 (knowing (lit "f") fv (fun x => env_get x (s_env s))) g).
  { eexists. split; [reflexivity|]. intros x w U P C X. apply get_capture; auto. right. split; [reflexivity|].
    eapply (call_get (lit "f") (ELambda (lit "acc") (ELambda (lit "list") reduce_body env_new) env_new)
              (fun x => env_get x (s_env s))); eauto. }
  destruct (closure_again H 2 _ _ _ g s ltac:(below) CG) as (g' & EG & CG').
  destruct (closure_next H 1 (lit "acc") (lit "list") reduce_body _ g' g b v s ltac:(below) ltac:(discriminate) CG' EG)
    as (h & E5 & C5); [apply B; lia|].
  exists h. split.
  - call. unfold run_reduce. eapply sure_bind_const; [reflexivity|]. cbn [length Nat.ltb Nat.leb].
    eapply sure_bind_const; [unfold parse_m; rewrite reduce_parsed; reflexivity|]. apply sure_ev.
    eapply (apply_more H 0); [below|exact E1|apply F; lia|apply rule_lambda; [below|split; reflexivity]|exact E5].
  - intros e a l s1 r s2 E A X. apply (reducing_last H 0 fv v h e a l s1 r s2); auto; [lia|].
    eexists. split; [|split; [|exact C5]]; reflexivity.
Qed.

(** ** [filter] *)

Definition filter_step : expr :=
  EDo [EIf (EGroup (EApply (ESymbol (lit "f")) [ESymbol (lit "item")]))
         (EDo [EAssign (lit "result")
                 (EGroup (EApply (ESymbol (lit "+")) [ESymbol (lit "result"); EList [ESymbol (lit "item")]]))])
         ENone].
Definition filter_body : expr :=
  EDo [EAssign (lit "result") (EList []); EFor (lit "item") (ESymbol (lit "list")) filter_step;
       ESymbol (lit "result")].

Lemma filter_parsed : parse_script filter_source
  = SOk (EDo [ELambda (lit "f") (ELambda (lit "list") filter_body env_new) env_new]).
Proof. vm_compute. reflexivity. Qed.

Definition scope_of (nm : str) (fv : expr) (k : list expr) : list (str * expr) :=
  [(lit "f", fv); (lit "+", EBuiltin (Bi BAdd nm)); (lit "result", EList k)].

(** [result + [item]]. *)
Lemma push_item H nm d fv x k s t : (d <= 10)%N -> value (EList (k ++ [x])) ->
  inside ((lit "item", x) :: scope_of nm fv k) s t ->
  evaluates H d (EApply (ESymbol (lit "+")) [ESymbol (lit "result"); EList [ESymbol (lit "item")]]) t
    (ROk (EList (k ++ [x]))) t.
Proof.
  intros D V I. assert (VK : value (EList k) /\ value (EList [x])).
  { rewrite value_list, Forall_app in V. now rewrite !value_list. }
  destruct VK as [VK VX].
  apply rule_apply; [below|]. left. exists (EBuiltin (Bi BAdd nm)), t. split.
  { eapply inside_symbol; [exact I|cbn; auto|lia]. }
  apply apply_builtin.
  apply (arith_operator H BAdd _ (ESymbol (lit "result")) (EList [ESymbol (lit "item")]) [] t (EList k) [EList [x]] t
           eq_refl); [|auto].
  econstructor; [eapply inside_symbol; [exact I|cbn; auto|lia]|].
  econstructor; [|constructor]. apply rule_list; [below|]. left. exists [x]. split; [|reflexivity].
  econstructor; [eapply inside_symbol; [exact I|cbn; auto|lia]|constructor].
Qed.

Lemma filter_once H nm fv x k s r s' t : value (EList (k ++ [x])) -> acting H fv [x] s r s' ->
  inside (scope_of nm fv k) s t ->
  (forall w, r = ROk w -> exists u t', iteration H 3 (lit "item") filter_step x t (ROk u) t'
     /\ inside (scope_of nm fv (if is_truthy w then k ++ [x] else k)) s' t')
  /\ (forall r' : res expr, fails r r' -> exists t', iteration H 3 (lit "item") filter_step x t r' t' /\ inside [] s' t').
Proof.
  intros V A I. apply (inside_var _ _ _ (lit "item") x) in I; [|discriminate].
  destruct (inside_acting H fv [x] s r s' (ESymbol (lit "f")) [ESymbol (lit "item")] _ _ 6 A I) as (t' & E & I').
  - lia.
  - eapply inside_symbol; [exact I|]. vm_compute. auto.
  - constructor; [eapply inside_symbol; [exact I|]; now left|constructor].
  - assert (EG : evaluates H 5 (EGroup (EApply (ESymbol (lit "f")) [ESymbol (lit "item")]))
                   (with_var (lit "item") x t) r t') by (apply rule_group; [below|exact E]).
    assert (I2 : inside ((lit "item", x) :: scope_of nm fv k) s' t').
    { eapply inside_less; [exact I'|]. intros p [<-|[<-|[<-|[<-|[]]]]]; vm_compute; auto. }
    split.
    + intros w ->. destruct (is_truthy w) eqn:T.
      * exists ENone, (with_var (lit "result") (EList (k ++ [x])) t'). split.
        -- apply do_one; [below|]. apply rule_if; [below|]. left. exists w, t'. split; [exact EG|]. rewrite T.
           apply do_one; [below|]. apply rule_assign; [below|]. left. exists (EList (k ++ [x])), t'.
           split; [|auto]. apply rule_group; [below|]. eapply push_item; [lia|exact V|exact I2].
        -- apply (inside_var _ _ _ (lit "result") (EList (k ++ [x]))) in I2; [|discriminate].
           eapply inside_less; [exact I2|]. intros p [<-|[<-|[<-|[]]]]; vm_compute; auto.
      * exists ENone, t'. split.
        -- apply do_one; [below|]. apply rule_if; [below|]. left. exists w, t'. split; [exact EG|]. rewrite T.
           apply rule_value; [below|exact Logic.I|auto].
        -- eapply inside_less; [exact I2|]. intros p P. now right.
    + intros r' F. exists t'. split; [|eapply inside_less; [exact I2|]; intros p []].
      apply do_one; [below|]. apply rule_if; [below|]. right. exists r. split; [exact EG|exact F].
Qed.

Lemma value_split k x l : value (EList (k ++ x :: l)) -> value (EList (k ++ [x])) /\ value (EList (k ++ l)).
Proof.
  rewrite !value_list, !Forall_app. intros [K L]. inversion L; subst. repeat split; auto.
Qed.

Lemma filter_loop H nm fv l s r s' : in_order (fun x => acting H fv [x]) l s r s' ->
  forall k t, value (EList (k ++ l)) -> inside (scope_of nm fv k) s t ->
  (forall vs m, r = ROk vs -> kept l vs m -> exists us t',
     in_order (iteration H 3 (lit "item") filter_step) l t (ROk us) t' /\ inside (scope_of nm fv (k ++ m)) s' t')
  /\ (forall r' : res expr, fails r r' -> exists r1 t',
     in_order (iteration H 3 (lit "item") filter_step) l t r1 t' /\ fails r1 r' /\ inside [] s' t').
Proof.
  intros X. induction X as [s|x v s1 l vs s s2 A X IH|x r r' l s s1 A F|x v s1 l r r' s s2 A X IH F];
    intros k t V I.
  - split; [|intros r' F; inversion F]. intros vs m [= <-] K. inversion K; subst. exists [], t.
    rewrite app_nil_r. split; [constructor|exact I].
  - destruct (value_split _ _ _ V) as [V1 V2].
    destruct (filter_once H nm fv x k s _ s1 t V1 A I) as [O _].
    destruct (O v eq_refl) as (u & t1 & E1 & I1).
    assert (V3 : value (EList ((if is_truthy v then k ++ [x] else k) ++ l)))
      by (destruct (is_truthy v); [rewrite <- app_assoc; exact V|exact V2]).
    destruct (IH _ t1 V3 I1) as [G _]. split; [|intros r' F; inversion F].
    intros ws m [= <-] K. inversion K as [|? ? ? ? m' T K'|? ? ? ? ? T K']; subst.
    + apply is_truthy_iff in T. rewrite T in G. destruct (G vs m' eq_refl K') as (us & t' & E2 & I2).
      exists (u :: us), t'. split; [econstructor; eauto|]. now rewrite <- app_assoc in I2.
    + apply is_falsy in T. rewrite T in G. destruct (G vs m eq_refl K') as (us & t' & E2 & I2).
      exists (u :: us), t'. split; [econstructor; eauto|exact I2].
  - destruct (value_split _ _ _ V) as [V1 V2].
    destruct (filter_once H nm fv x k s r s1 t V1 A I) as [_ B]. split.
    + intros vs m ->. inversion F.
    + intros r2 F2. assert (F3 : fails r r2) by (inversion F; subst; inversion F2; constructor).
      destruct (B r2 F3) as (t' & E1 & I1).
      assert (N : exists r3 : res (list expr), fails r2 r3 /\ fails r3 r2)
        by (destruct F3; eexists; split; constructor).
      destruct N as (r3 & N1 & N2). exists r3, t'. split; [eapply io_first; eauto|]. auto.
  - destruct (value_split _ _ _ V) as [V1 V2].
    destruct (filter_once H nm fv x k s _ s1 t V1 A I) as [O _].
    destruct (O v eq_refl) as (u & t1 & E1 & I1).
    assert (V3 : value (EList ((if is_truthy v then k ++ [x] else k) ++ l)))
      by (destruct (is_truthy v); [rewrite <- app_assoc; exact V|exact V2]).
    destruct (IH _ t1 V3 I1) as [_ B]. split; [intros vs m ->; inversion F|].
    intros r2 F2. assert (F3 : fails r r2) by (inversion F; subst; inversion F2; constructor).
    destruct (B r2 F3) as (r1 & t' & E2 & F4 & I2).
    assert (N : exists r3 : res (list expr), fails r1 r3 /\ fails r3 r2)
      by (destruct F4; eexists; split; constructor).
    destruct N as (r3 & N1 & N2). exists r3, t'. split; [eapply io_later; eauto|]. auto.
Qed.

(** With one argument, [filter] gives a function of the list.  It uses the
    operator [+] that is defined where [filter] is called. *)
Theorem C38_filter_staged H f fv s nm : argument H 1 s f fv ->
  env_get (lit "+") (s_env s) = Some (EBuiltin (Bi BAdd nm)) ->
  exists h, calls H FFilter [f] s (ROk h) s
  /\ forall e a l s1 r s2, argument H 1 s1 e h -> argument H 1 s1 a (EList l) -> value (EList l) ->
     in_order (fun x => acting H fv [x]) l s1 r s2 ->
     (forall vs m, r = ROk vs -> kept l vs m -> evaluates H 0 (EApply e [a]) s1 (ROk (EList m)) s2)
     /\ (forall r', fails r r' -> evaluates H 0 (EApply e [a]) s1 r' s2).
Proof.
  intros F PL.
  destruct (closure_new H 2 (lit "f") (ELambda (lit "list") filter_body env_new) s) as (h0 & E0 & C0); [below|].
  pose proof (do_one H 1 _ s (ROk h0) s ltac:(below) E0) as E1.
  destruct (closure_next H 0 (lit "f") (lit "list") filter_body _ h0 _ f fv s ltac:(below) ltac:(discriminate) C0 E1)
    as (h & E2 & C2); [apply F; below|].
  exists h. split.
  - call. unfold run_filter. eapply sure_bind_const; [reflexivity|]. cbv beta iota.
    eapply sure_bind_const; [unfold parse_m; rewrite filter_parsed; reflexivity|]. now apply sure_ev.
  - intros e a l s1 r s2 E A VL X.
    assert (V : s_env s2 = s_env s1) by (eapply in_order_env; [|exact X]; intros ? ? ? ? [Q _]; exact Q).
    assert (GO : forall E3, env_get_cwd E3 = env_get_cwd (s_env s1) ->
       (forall x w, In x (used_symbols filter_body) -> x <> CWD ->
          knowing (lit "list") (EList l) (knowing (lit "f") fv (fun x => env_get x (s_env s))) x = Some w ->
          env_get x E3 = Some w) ->
       let t := with_var (lit "result") (EList []) (with_env E3 s1) in
       inside (scope_of nm fv []) s1 t
       /\ evaluates H 2 (EAssign (lit "result") (EList [])) (with_env E3 s1) (ROk ENone) t
       /\ evaluates H 3 (ESymbol (lit "list")) t (ROk (EList l)) t).
    { intros E3 CW K t.
      assert (I0 : inside [(lit "f", fv); (lit "+", EBuiltin (Bi BAdd nm)); (lit "list", EList l)] s1 (with_env E3 s1)).
      { exists E3. split; [reflexivity|]. split; [exact CW|].
        intros x w [P|[P|[P|[]]]]; injection P as <- <-; apply K; try discriminate; try exact PL; try reflexivity;
          vm_compute; tauto. }
      apply (inside_var _ _ _ (lit "result") (EList [])) in I0 as I1; [|discriminate].
      split; [|split].
      - eapply inside_less; [exact I1|]. intros p [<-|[<-|[<-|[]]]]; vm_compute; auto.
      - apply rule_assign; [below|]. left. exists (EList []), (with_env E3 s1). split; [|auto].
        apply rule_list; [below|]. left. exists []. split; [constructor|reflexivity].
      - eapply inside_symbol; [exact I1|vm_compute; auto|lia]. }
    split.
    + intros vs m -> K0.
      apply (closure_runs H 0 (lit "list") filter_body _ h e a (EList l) s1 (ROk (EList m)) s2 ltac:(below) ltac:(discriminate) C2);
        [apply E; lia|apply A; lia|exact V|].
      intros E3 CW K. destruct (GO E3 CW K) as (I & EA & EL).
      destruct (filter_loop H nm fv l s1 _ s2 X [] _ VL I) as [G _].
      destruct (G vs m eq_refl K0) as (us & t' & L & I'). cbn [List.app] in I'.
      exists t'. split; [|eapply inside_less; [exact I'|]; intros p []].
      apply rule_do; [below|]. left. exists [ENone; EList us; EList m]. split; [|reflexivity].
      econstructor; [exact EA|]. econstructor.
      * apply rule_for; [below|]. left. exists l. eexists. split; [exact EL|]. left. exists us. split; [exact L|reflexivity].
      * econstructor; [|constructor]. eapply inside_symbol; [exact I'|cbn; auto|lia].
    + intros r' Fl.
      apply (closure_runs H 0 (lit "list") filter_body _ h e a (EList l) s1 r' s2 ltac:(below) ltac:(discriminate) C2);
        [apply E; lia|apply A; lia|exact V|].
      intros E3 CW K. destruct (GO E3 CW K) as (I & EA & EL).
      destruct (filter_loop H nm fv l s1 _ s2 X [] _ VL I) as [_ B].
      destruct (B r' Fl) as (r1 & t' & L & F1 & I').
      exists t'. split; [|exact I'].
      assert (N : exists r3 : res (list expr), fails r' r3 /\ fails r3 r')
        by (destruct Fl; eexists; split; constructor).
      destruct N as (r3 & N1 & N2).
      apply rule_do; [below|]. right. exists r3. split; [|exact N2].
      eapply io_later; [exact EA| |destruct N1; constructor].
      eapply io_first; [|exact N1].
      apply rule_for; [below|]. left. exists l. eexists. split; [exact EL|]. right. exists r1. split; [exact L|exact F1].
Qed.

(** The items have to be data: on code, the function that [filter] gives keeps
    other items than [filter] with two arguments, because [+] evaluates the
    items that were kept before. *)
Theorem C38_filter_staged_refuted :
  let c1 := EGroup (EGroup (EApply (ESymbol (lit "+")) [EInteger 1; EInteger 2])) in
  let c2 := EGroup (EGroup (EApply (ESymbol (lit "+")) [EInteger 3; EInteger 4])) in
  value_of "fn@filter (x -> True) ['(1 + 2), '(3 + 4)]" = ROk (EList [c1; c2])
  /\ value_of "(fn@filter (x -> True)) ['(1 + 2), '(3 + 4)]" = ROk (EList [EInteger 3; c2]).
Proof. split; vm_compute; reflexivity. Qed.

(** Functions that meet the hypotheses: [not] and, on integers, [+]. *)
Lemma acting_builtin H b nm vs s r :
  (forall t args, Forall2 (argument H 20 t) args vs -> calls H b args t r t) ->
  acting H (EBuiltin (Bi b nm)) vs s r s.
Proof.
  intros X. split; [reflexivity|]. intros E d g args C D G A.
  apply rule_apply; [below|]. left. exists (EBuiltin (Bi b nm)), (with_env E s). split; [apply G; lia|].
  apply apply_builtin. now apply X.
Qed.

Example C38_staged_functions H nm s x y b :
  fits (x + y) ->
  acting H (EBuiltin (Bi BAdd nm)) [EInteger x; EInteger y] s (ROk (EInteger (x + y))) s
  /\ acting H (EBuiltin (Bi BNot nm)) [EBoolean b] s (ROk (EBoolean (negb b))) s.
Proof.
  intros F. split; apply acting_builtin; intros t args A.
  - inversion A as [|a1 ? l ? A1 B]; subst. inversion B as [|a2 ? l2 ? A2 B']; subst. inversion B'; subst.
    assert (E : evaluates_all H 0 [a1; a2] t (ROk [EInteger x; EInteger y]) t).
    { econstructor; [apply A1; lia|]. econstructor; [apply A2; lia|constructor]. }
    pose proof (arith_operator H BAdd _ a1 a2 [] t (EInteger x) [EInteger y] t eq_refl E
                  ltac:(repeat constructor; cbn; below)) as C.
    cbn [afold pure_op expr_add] in C. unfold checked in C. apply in_i64_fits in F. rewrite F in C. exact C.
  - inversion A as [|a1 ? l ? A1 B]; subst. inversion B; subst.
    destruct (C53_logic_once H BNot (Forall falsy) [a1] t [EBoolean b] t) as (v & V & C).
    { cbn. auto. } { econstructor; [apply A1; lia|constructor]. }
    replace (negb b) with v; [exact C|]. apply Bool.eq_true_iff_eq. rewrite V.
    destruct b; cbn; split; intros X; try discriminate; try (now inversion X as [|? ? Z]; inversion Z).
    constructor; [|constructor]. apply is_falsy. reflexivity.
Qed.

Example C38_staged_example :
  value_of "{ let p = fn@map (x -> x + 1); p [1, 2] }" = ROk (EList [EInteger 2; EInteger 3])
  /\ value_of "{ let p = fn@filter (x -> x > 2); p [1, 5, 2, 4] }" = ROk (EList [EInteger 5; EInteger 4])
  /\ value_of "{ let p = fn@reduce (x -> y -> x - y) 10; p [1, 2] }" = ROk (EInteger 7)
  /\ value_of "{ let p = fn@reduce (x -> y -> x - y); (p 10 [1, 2]) + ((p 20) [1]) }" = ROk (EInteger 26).
Proof. repeat split; vm_compute; reflexivity. Qed.

Print Assumptions C38_map_staged.
Print Assumptions C38_reduce_staged.
Print Assumptions C38_reduce_staged2.
Print Assumptions C38_filter_staged.
Print Assumptions C38_filter_staged_refuted.
