(** More fuel never changes an outcome: every computation of the evaluator is
    monotone in the evaluation function it uses. *)

From Coq Require Import String.
From Verif Require Import Base Syntax Host Ops Parser ErrorFmt Text Monad Builtins Eval.

(** [m] behaves as [m'] except that it may run out of fuel. *)
Definition mle {A} (m m' : M A) : Prop :=
  forall s, fst (m s) = RFuel \/ m s = m' s.

Lemma mle_refl A (m : M A) : mle m m.
Proof. intros s; now right. Qed.

Lemma mle_fuel A (m : M A) : mle out_of_fuel m.
Proof. intros s; now left. Qed.

Lemma mle_trans A (a b c : M A) : mle a b -> mle b c -> mle a c.
Proof.
  intros X Y s. destruct (X s) as [E | E]; [now left |].
  destruct (Y s) as [E' | E']; [left; now rewrite E | right; now rewrite E].
Qed.

Lemma mle_bind A B (m m' : M A) (k k' : A -> M B) :
  mle m m' -> (forall a, mle (k a) (k' a)) -> mle (bind m k) (bind m' k').
Proof.
  intros X Y s. unfold bind. destruct (X s) as [E | E].
  - left. destruct (m s) as [r s']; simpl in E; subst r; reflexivity.
  - rewrite E. destruct (m' s) as [[a | | | |] s']; try now right. apply Y.
Qed.

Lemma mle_catch A (m m' : M A) (h h' : error -> M A) :
  mle m m' -> (forall e, mle (h e) (h' e)) -> mle (catch m h) (catch m' h').
Proof.
  intros X Y s. unfold catch. destruct (X s) as [E | E].
  - left. destruct (m s) as [r s']; simpl in E; subst r; reflexivity.
  - rewrite E. destruct (m' s) as [[a | | | |] s']; try now right. apply Y.
Qed.

Lemma mle_in_env A (e : env) (m m' : M A) : mle m m' -> mle (in_env e m) (in_env e m').
Proof.
  intros X s. unfold in_env. destruct (X (St e (s_trace s) (s_log s))) as [E | E].
  - left. destruct (m _) as [r s']; simpl in *; now subst r.
  - right. now rewrite E.
Qed.

Lemma mle_mapM A B (f f' : A -> M B) l :
  (forall a, mle (f a) (f' a)) -> mle (mapM f l) (mapM f' l).
Proof.
  intros X. induction l as [| a l IH]; simpl; [apply mle_refl |].
  apply mle_bind; [apply X | intros b]. apply mle_bind; [apply IH | intros; apply mle_refl].
Qed.

Lemma mle_foldM A B (f f' : B -> A -> M B) l : forall b,
  (forall b a, mle (f b a) (f' b a)) -> mle (foldM f b l) (foldM f' b l).
Proof.
  induction l as [| a l IH]; intros b X; simpl; [apply mle_refl |].
  apply mle_bind; [apply X | intros c; now apply IH].
Qed.

(** Case analysis on the first scrutinee found on the left-hand side. *)
Ltac mle_step :=
  match goal with
  | |- mle ?a ?a => apply mle_refl
  | |- mle (bind _ _) (bind _ _) => apply mle_bind; [| intros ?]
  | |- mle (catch _ _) (catch _ _) => apply mle_catch; [| intros ?]
  | |- mle (in_env _ _) (in_env _ _) => apply mle_in_env
  | |- mle (mapM _ _) (mapM _ _) => apply mle_mapM; intros ?
  | |- mle (foldM _ _ _) (foldM _ _ _) => apply mle_foldM; intros ? ?
  | |- mle (match ?x with _ => _ end) _ => destruct x
  | H : forall e, mle _ _ |- mle _ _ => apply H
  | H : forall e f, mle _ _ |- mle _ _ => apply H
  end.
Ltac mle_auto := repeat mle_step.

Section Builtins.
  Variable H : host.
  Variables ev ev' : expr -> M expr.
  Hypothesis LE : forall e, mle (ev e) (ev' e).

  Lemma mle_ev_arg args i : mle (ev_arg ev args i) (ev_arg ev' args i).
  Proof. unfold ev_arg. mle_auto. Qed.

  Lemma mle_expr_to_command x :
    mle (expr_to_command H ev x) (expr_to_command H ev' x).
  Proof.
    assert (SC : forall p l, mle (stage_command H ev p l) (stage_command H ev' p l)).
    { intros p l. unfold stage_command, stage_args. mle_auto. }
    induction x using expr_ind2 with (Q := fun _ => True); simpl; auto; mle_auto;
      try (destruct x; mle_auto).
  Qed.

  Lemma mle_stages l : forall b acc,
    mle (run_stages H ev b acc l) (run_stages H ev' b acc l).
  Proof.
    induction l as [| x l IH]; intros b acc; simpl; [apply mle_refl |].
    apply mle_bind; [| intros; apply IH].
    unfold run_stage. apply mle_bind; [apply mle_expr_to_command | intros c]. mle_auto.
  Qed.

  Lemma mle_print show last l :
    mle (run_print H ev show last l) (run_print H ev' show last l).
  Proof.
    induction l as [| a l IH]; simpl; [apply mle_refl |].
    destruct l; mle_auto. apply IH.
  Qed.

  Lemma mle_filterM f l : mle (filterM ev f l) (filterM ev' f l).
  Proof. induction l as [| a l IH]; simpl; mle_auto. apply IH. Qed.

  Lemma mle_log_args p l : forall b, mle (log_args H ev p b l) (log_args H ev' p b l).
  Proof. induction l as [| a l IH]; intros b; simpl; mle_auto; apply IH. Qed.

  Lemma mle_joinx l : forall i h, mle (joinx_args H ev i h l) (joinx_args H ev' i h l).
  Proof. induction l as [| a l IH]; intros i h; simpl; mle_auto; apply IH. Qed.

  Lemma mle_joiny l : forall i h, mle (joiny_args H ev i h l) (joiny_args H ev' i h l).
  Proof. induction l as [| a l IH]; intros i h; simpl; mle_auto; apply IH. Qed.

  Lemma mle_help l : mle (run_help H ev l) (run_help H ev' l).
  Proof. induction l as [| a l IH]; cbn [run_help]; mle_auto; apply IH. Qed.

  Ltac builtin_step :=
    match goal with
    | |- mle (run_help _ _ _) _ => apply mle_help
    | |- mle (ev_arg _ _ _) (ev_arg _ _ _) => apply mle_ev_arg
    | |- mle (run_stages _ _ _ _ _) _ => apply mle_stages
    | |- mle (run_print _ _ _ _ _) _ => apply mle_print
    | |- mle (filterM _ _ _) _ => apply mle_filterM
    | |- mle (log_args _ _ _ _ _) _ => apply mle_log_args
    | |- mle (joinx_args _ _ _ _ _) _ => apply mle_joinx
    | |- mle (joiny_args _ _ _ _ _) _ => apply mle_joiny
    | |- mle (match ?x with _ => _ end) _ => destruct x
    | _ => mle_step
    | |- mle (?f _ _ _ _ _ _ _) (?f _ _ _ _ _ _ _) => unfold f; cbv beta zeta
    | |- mle (?f _ _ _ _ _ _) (?f _ _ _ _ _ _) => unfold f; cbv beta zeta
    | |- mle (?f _ _ _ _ _) (?f _ _ _ _ _) => unfold f; cbv beta zeta
    | |- mle (?f _ _ _ _) (?f _ _ _ _) => unfold f; cbv beta zeta
    | |- mle (?f _ _ _) (?f _ _ _) => unfold f; cbv beta zeta
    | |- mle (?f _ _) (?f _ _) => unfold f; cbv beta zeta
    | |- mle (?f _) (?f _) => unfold f; cbv beta zeta
    end.

  Lemma mle_builtin b args : mle (run_builtin H ev b args) (run_builtin H ev' b args).
  Proof.
    destruct b; cbn [run_builtin]; repeat builtin_step.
  Qed.
End Builtins.

Section Eval.
  Variable H : host.

  Lemma mle_body rec rec' ev ev' e :
    (forall e, mle (rec e) (rec' e)) -> (forall e, mle (ev e) (ev' e)) ->
    mle (eval_body H rec ev e) (eval_body H rec' ev' e).
  Proof.
    intros LR LE.
    assert (SEQ : forall l, mle (seqM rec l) (seqM rec' l)).
    { induction l as [| x l IH]; simpl; [apply mle_refl |]. destruct l; mle_auto. apply IH. }
    assert (MV : forall m, mle (map_values rec m) (map_values rec' m)).
    { induction m as [| [k x] m IH]; simpl; mle_auto. apply IH. }
    destruct e; simpl; mle_auto; auto.
    unfold apply_value, run_command.
    destruct a; mle_auto.
    apply mle_builtin. exact LE.
  Qed.

  Lemma eval_mle n : forall m d e, (n <= m)%nat -> mle (eval H n d e) (eval H m d e).
  Proof.
    induction n as [| n IH]; intros m d e L; simpl; [apply mle_fuel |].
    destruct m as [| m]; [lia |]. simpl.
    destruct (MAX_DEPTH <? d)%N; [apply mle_refl |].
    apply mle_body; intros; apply IH; lia.
  Qed.

  (** An outcome obtained with some fuel is obtained with any larger fuel. *)
  Theorem eval_mono n m d e s r s' :
    (n <= m)%nat -> eval H n d e s = (r, s') -> r <> RFuel -> eval H m d e s = (r, s').
  Proof.
    intros L E N. destruct (eval_mle n m d e L s) as [X | X].
    - rewrite E in X. simpl in X. congruence.
    - congruence.
  Qed.
End Eval.
