(** Computing outcomes of calls of builtin functions. *)

From Coq Require Import String.
From Verif Require Import Base Syntax Host Ops Parser ErrorFmt Text Monad Builtins Eval
  MonoFacts EvalSpec EvalFacts MapFacts CoreFacts.

(** An outcome with all sufficiently large amounts of fuel. *)
Definition sure {A} (f : nat -> M A) (s : st) (r : res A) (s' : st) : Prop :=
  exists n0, forall n, (n0 <= n)%nat -> f n s = (r, s').

Lemma sure_lim A (f : nat -> M A) s r s' : r <> RFuel -> sure f s r s' -> lim f s r s'.
Proof. intros N [n E]. split; [exact N |]. exists n. now apply E. Qed.

Lemma lim_sure A (f : nat -> M A) s r s' : mono f -> lim f s r s' -> sure f s r s'.
Proof. intros X [N [n E]]. exists n. intros m L. eapply mono_step; eauto. Qed.

Lemma sure_ext A (f g : nat -> M A) s r s' :
  (forall n, f n s = g n s) -> sure g s r s' -> sure f s r s'.
Proof. intros E [n0 S]. exists n0. intros n L. rewrite E. auto. Qed.

Lemma sure_const A (m : M A) s r s' : m s = (r, s') -> sure (fun _ => m) s r s'.
Proof. intros E. exists 0%nat. auto. Qed.

Lemma sure_ret A (a : A) s : sure (fun _ => ret a) s (ROk a) s.
Proof. now apply sure_const. Qed.

Lemma sure_throw A e s : sure (fun _ => @throw A e) s (RErr e) s.
Proof. now apply sure_const. Qed.

Lemma sure_bind A B (f : nat -> M A) (k : nat -> A -> M B) s a s1 r s' :
  sure f s (ROk a) s1 -> sure (fun n => k n a) s1 r s' -> sure (fun n => bind (f n) (k n)) s r s'.
Proof.
  intros [n1 E1] [n2 E2]. exists (max n1 n2). intros n L. unfold bind.
  rewrite E1 by lia. apply E2. lia.
Qed.

Lemma sure_bind_const A B (m : M A) (k : nat -> A -> M B) s a s1 r s' :
  m s = (ROk a, s1) -> sure (fun n => k n a) s1 r s' -> sure (fun n => bind m (k n)) s r s'.
Proof. intros E [n0 S]. exists n0. intros n L. unfold bind. rewrite E. auto. Qed.

Lemma sure_bind_fails A B (f : nat -> M A) (k : nat -> A -> M B) s r1 r s' :
  sure f s r1 s' -> fails r1 r -> sure (fun n => bind (f n) (k n)) s r s'.
Proof.
  intros [n0 S] F. exists n0. intros n L. unfold bind. rewrite S by exact L.
  destruct F; reflexivity.
Qed.

Lemma sure_mapM A B (f : nat -> A -> M B) l s vs s' :
  in_order (fun x => sure (fun n => f n x)) l s (ROk vs) s' ->
  sure (fun n => mapM (f n) l) s (ROk vs) s'.
Proof.
  revert s vs. induction l as [| x l IH]; intros s vs X; inversion X; subst; cbn [mapM].
  - apply sure_ret.
  - eapply (sure_bind _ _ (fun n => f n x) (fun n y => ys <- mapM (f n) l ;; ret (y :: ys)));
      [eassumption |].
    eapply (sure_bind _ _ (fun n => mapM (f n) l) (fun n ys => ret (v :: ys)));
      [apply IH; eassumption | apply sure_ret].
  - match goal with X : fails _ (ROk _) |- _ => inversion X end.
  - match goal with X : fails _ (ROk _) |- _ => inversion X end.
Qed.

Lemma sure_mapM_pure A B (f : nat -> A -> M B) l s (g : A -> B) :
  (forall x, In x l -> sure (fun n => f n x) s (ROk (g x)) s) ->
  sure (fun n => mapM (f n) l) s (ROk (map g l)) s.
Proof.
  intros X. apply sure_mapM. induction l as [| x l IH]; [constructor |].
  cbn [map]. econstructor; [apply X; now left | apply IH; intros; apply X; now right].
Qed.

Lemma sure_foldM A B (f : nat -> B -> A -> M B) l : forall b s r s',
  folds (fun b x => sure (fun n => f n b x)) b l s r s' ->
  sure (fun n => foldM (f n) b l) s r s'.
Proof.
  induction l as [| x l IH]; intros b s r s' X; inversion X; subst; cbn [foldM].
  - apply sure_ret.
  - eapply (sure_bind _ _ (fun n => f n b x) (fun n b' => foldM (f n) b' l)); [eassumption |].
    apply IH. assumption.
  - eapply (sure_bind_fails _ _ (fun n => f n b x) (fun n b' => foldM (f n) b' l)); eassumption.
Qed.

Section Calls.
  Variable H : host.

  Lemma sure_eval d e s r s' : evaluates H d e s r s' <-> sure (fun n => eval H n d e) s r s' /\ r <> RFuel.
  Proof.
    split.
    - intros E. split; [now apply lim_sure; [apply mono_eval |] | apply E].
    - intros [E N]. now apply sure_lim.
  Qed.

  Lemma sure_ev d e s r s' : evaluates H d e s r s' -> sure (fun n => eval H n d e) s r s'.
  Proof. apply sure_eval. Qed.

  Lemma sure_calls b args s r s' :
    r <> RFuel -> sure (fun n => run_builtin H (eval H n 0) b args) s r s' -> calls H b args s r s'.
  Proof. apply sure_lim. Qed.

  Lemma calls_sure b args s r s' :
    calls H b args s r s' -> sure (fun n => run_builtin H (eval H n 0) b args) s r s'.
  Proof. apply lim_sure, mono_builtin. Qed.

  (** The first evaluation of a builtin. *)
  Lemma sure_ev_bind B d a (k : nat -> expr -> M B) s v s1 r s' :
    evaluates H d a s (ROk v) s1 -> sure (fun n => k n v) s1 r s' ->
    sure (fun n => bind (eval H n d a) (k n)) s r s'.
  Proof. intros E. apply sure_bind. now apply sure_ev. Qed.

  Lemma sure_ev_arg B args i a (k : nat -> expr -> M B) s v s1 r s' :
    nth_error args i = Some a ->
    evaluates H 0 a s (ROk v) s1 -> sure (fun n => k n v) s1 r s' ->
    sure (fun n => bind (ev_arg (eval H n 0) args i) (k n)) s r s'.
  Proof.
    intros A E K. unfold ev_arg, arg. rewrite A.
    refine (sure_bind _ _ (fun n => bind (ret a) (eval H n 0)) k _ _ _ _ _ _ K).
    apply (sure_bind_const _ _ (ret a) (fun n => eval H n 0) s a s); [reflexivity |].
    now apply sure_ev.
  Qed.

  Lemma sure_check_exact B name args m (k : nat -> unit -> M B) s r s' :
    length args = m -> sure (fun n => k n tt) s r s' ->
    sure (fun n => bind (check_exact name args m) (k n)) s r s'.
  Proof.
    intros L K. apply (sure_bind_const _ _ _ _ s tt s); [| exact K].
    unfold check_exact. now rewrite L, Nat.eqb_refl.
  Qed.

  (** Data evaluates to itself. *)
  Lemma value_evaluates v s : value v -> evaluates H 0 v s (ROk v) s.
  Proof.
    intros [D L]. destruct (data_evaluates H v D 0%N s) as (r & E & OK & _).
    now rewrite OK in E by exact L.
  Qed.

  Lemma quote_evaluates v s : evaluates H 0 (EQuote v) s (ROk v) s.
  Proof. apply rule_quote; [discriminate | auto]. Qed.

  Lemma values_evaluate l s : Forall value l -> evaluates_all H 0 l s (ROk l) s.
  Proof.
    induction 1; [constructor |]. econstructor; [now apply value_evaluates | assumption].
  Qed.
End Calls.

(** ** Values *)

Lemma value_int z : value (EInteger z).
Proof. split; [exact I | cbn; lia]. Qed.
Lemma value_string t : value (EString t).
Proof. split; [exact I | cbn; lia]. Qed.
Lemma value_bool b : value (EBoolean b).
Proof. split; [exact I | cbn; lia]. Qed.
Lemma value_builtin b : value (EBuiltin b).
Proof. split; [exact I | cbn; lia]. Qed.

Lemma value_item l x : value (EList l) -> In x l -> value x.
Proof.
  intros [D L] X. apply data_list in D. apply nesting_list in L.
  rewrite Forall_forall in D, L. split; [auto | specialize (L x X); lia].
Qed.
Lemma value_items l : value (EList l) -> Forall value l.
Proof. intros V. apply Forall_forall. intros x. now apply value_item. Qed.

Lemma value_sublist l l' : value (EList l) -> incl l' l -> value (EList l').
Proof.
  intros [D L] S. apply data_list in D. apply nesting_list in L.
  rewrite Forall_forall in D, L. split.
  - apply data_list, Forall_forall. auto.
  - apply nesting_list, Forall_forall. auto.
Qed.

Lemma value_entry m k x : value (EMap m) -> In (k, x) m -> value x.
Proof.
  intros [D L] X. apply data_map in D. apply nesting_map in L.
  rewrite Forall_forall in D, L. assert (Y : In x (map snd m)) by (apply in_map_iff; now exists (k, x)).
  split; [auto | specialize (L x Y); lia].
Qed.

(** Takes apart a call of a builtin whose arguments have known values. *)
Ltac sure_step :=
  lazymatch goal with
  | |- sure (fun n => ret _) _ _ _ => apply sure_ret
  | |- sure (fun n => throw _) _ _ _ => apply sure_throw
  | |- sure (fun n => custom _) _ _ _ => apply sure_throw
  | |- sure (fun n => bind (check_exact _ _ _) _) _ _ _ =>
      eapply sure_check_exact; [reflexivity |]
  | |- sure (fun n => bind (ev_arg _ _ _) _) _ _ _ =>
      eapply sure_ev_arg; [reflexivity | eassumption |]
  | |- sure (fun n => bind (require_len _ _ _) _) _ _ _ =>
      eapply sure_bind_const; [reflexivity |]
  | |- sure (fun n => bind (ret _) _) _ _ _ =>
      eapply sure_bind_const; [reflexivity |]
  | |- sure (fun n => bind (or_panic (inl _)) _) _ _ _ =>
      eapply sure_bind_const; [reflexivity |]
  end; cbv beta iota.

Ltac call :=
  apply sure_calls; [try discriminate | cbn [run_builtin]].
