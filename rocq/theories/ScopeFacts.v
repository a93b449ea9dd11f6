(** No computation of the interpreter changes an enclosing scope or takes back
    an effect. *)

From Coq Require Import String.
From Verif Require Import Base Syntax Host Ops Parser ErrorFmt Text Monad Builtins Eval MapFacts.

(** The enclosing scopes are the same and the history is longer. *)
Definition outer_kept (s s' : st) : Prop :=
  env_parent (s_env s') = env_parent (s_env s) /\ exists t, s_trace s' = t ++ s_trace s.

Definition keeps {A} (m : M A) : Prop := forall s, outer_kept s (snd (m s)).

Lemma outer_refl s : outer_kept s s.
Proof. split; [reflexivity | exists []; reflexivity]. Qed.

Lemma outer_trans s1 s2 s3 : outer_kept s1 s2 -> outer_kept s2 s3 -> outer_kept s1 s3.
Proof.
  intros [P1 [t1 T1]] [P2 [t2 T2]]. split; [congruence |]. exists (t2 ++ t1).
  rewrite T2, T1. now rewrite app_assoc.
Qed.

Lemma keeps_ret A (a : A) : keeps (ret a).
Proof. intros s. apply outer_refl. Qed.
Lemma keeps_throw A e : keeps (@throw A e).
Proof. intros s. apply outer_refl. Qed.
Lemma keeps_custom A m : keeps (@custom A m).
Proof. apply keeps_throw. Qed.
Lemma keeps_panics A p : keeps (@panics A p).
Proof. intros s. apply outer_refl. Qed.
Lemma keeps_exits A c : keeps (@exits A c).
Proof. intros s. apply outer_refl. Qed.
Lemma keeps_fuel A : keeps (@out_of_fuel A).
Proof. intros s. apply outer_refl. Qed.
Lemma keeps_get_env : keeps get_env.
Proof. intros s. apply outer_refl. Qed.
Lemma keeps_get_log : keeps get_log.
Proof. intros s. apply outer_refl. Qed.
Lemma keeps_put_log l : keeps (put_log l).
Proof. intros s. split; [reflexivity | exists []; reflexivity]. Qed.
Lemma keeps_ask H rq : keeps (ask H rq).
Proof. intros s. split; [reflexivity |]. now exists [(rq, h_answer H (s_trace s) rq)]. Qed.
Lemma keeps_define x v : keeps (define x v).
Proof. intros s. split; [apply env_parent_define | exists []; reflexivity]. Qed.

Lemma keeps_bind A B (m : M A) (k : A -> M B) :
  keeps m -> (forall a, keeps (k a)) -> keeps (bind m k).
Proof.
  intros X Y s. unfold bind. specialize (X s). destruct (m s) as [[a | | | |] s1]; cbn in *; auto.
  eapply outer_trans; [exact X | apply Y].
Qed.
Lemma keeps_catch A (m : M A) h : keeps m -> (forall e, keeps (h e)) -> keeps (catch m h).
Proof.
  intros X Y s. unfold catch. specialize (X s). destruct (m s) as [[a | | | |] s1]; cbn in *; auto.
  eapply outer_trans; [exact X | apply Y].
Qed.
Lemma keeps_in_env A e (m : M A) : keeps m -> keeps (in_env e m).
Proof.
  intros X s. unfold in_env. specialize (X (St e (s_trace s) (s_log s))).
  destruct (m _) as [r s1]. destruct X as [_ T]. split; [reflexivity | exact T].
Qed.
Lemma keeps_mapM A B (f : A -> M B) l : (forall a, keeps (f a)) -> keeps (mapM f l).
Proof.
  intros X. induction l as [| a l IH]; cbn [mapM]; [apply keeps_ret |].
  apply keeps_bind; [apply X | intros b]. apply keeps_bind; [exact IH | intros; apply keeps_ret].
Qed.
Lemma keeps_foldM A B (f : B -> A -> M B) l :
  (forall b a, keeps (f b a)) -> forall b, keeps (foldM f b l).
Proof.
  intros X. induction l as [| a l IH]; intros b; cbn [foldM]; [apply keeps_ret |].
  apply keeps_bind; [apply X | intros; apply IH].
Qed.

(** Changing the variables through what [get_env] returned. *)
Lemma keeps_update A (f : env -> env) (k : M A) :
  (forall e, env_parent (f e) = env_parent e) -> keeps k ->
  keeps (e <- get_env ;; put_env (f e) ;;; k).
Proof.
  intros F K s. unfold bind, get_env, put_env. eapply outer_trans; [| apply K].
  split; [apply F | exists []; reflexivity].
Qed.

Ltac keeps_step :=
  match goal with
  | |- keeps (ret _) => apply keeps_ret
  | |- keeps (throw _) => apply keeps_throw
  | |- keeps (custom _) => apply keeps_custom
  | |- keeps (panics _) => apply keeps_panics
  | |- keeps (exits _) => apply keeps_exits
  | |- keeps out_of_fuel => apply keeps_fuel
  | |- keeps get_env => apply keeps_get_env
  | |- keeps get_log => apply keeps_get_log
  | |- keeps (put_log _) => apply keeps_put_log
  | |- keeps (ask _ _) => apply keeps_ask
  | |- keeps (define _ _) => apply keeps_define
  | |- keeps (bind get_env (fun e => bind (put_env (_ e)) (fun _ => ret _))) =>
      apply (keeps_update _ (fun e => _)); [intros; first [apply env_parent_undefine | apply env_parent_define] |]
  | |- keeps (bind _ _) => apply keeps_bind; [| intros ?]
  | |- keeps (catch _ _) => apply keeps_catch; [| intros ?]
  | |- keeps (in_env _ _) => apply keeps_in_env
  | |- keeps (mapM _ _) => apply keeps_mapM; intros ?
  | |- keeps (foldM _ _ _) => apply keeps_foldM; intros ? ?
  | |- keeps (match ?x with _ => _ end) => destruct x
  | H : forall e, keeps _ |- keeps _ => apply H
  | H : forall e f, keeps _ |- keeps _ => apply H
  end.

Section Builtins.
  Variable H : host.
  Variable ev : expr -> M expr.
  Hypothesis EV : forall e, keeps (ev e).

  Lemma keeps_command x : keeps (expr_to_command H ev x).
  Proof.
    assert (SC : forall p l, keeps (stage_command H ev p l)).
    { intros p l. unfold stage_command, stage_args. repeat keeps_step. }
    induction x using expr_ind2 with (Q := fun _ => True); simpl; auto; repeat keeps_step;
      try (destruct x; repeat keeps_step).
  Qed.

  Lemma keeps_stages l : forall b acc, keeps (run_stages H ev b acc l).
  Proof.
    induction l as [| x l IH]; intros b acc; simpl; [apply keeps_ret |].
    apply keeps_bind; [| intros; apply IH].
    unfold run_stage. apply keeps_bind; [apply keeps_command | intros c]. repeat keeps_step.
  Qed.

  Lemma keeps_print show last l : keeps (run_print H ev show last l).
  Proof.
    induction l as [| a l IH]; simpl; [apply keeps_ret |].
    destruct l; unfold print; repeat keeps_step. apply IH.
  Qed.

  Lemma keeps_filterM f l : keeps (filterM ev f l).
  Proof. induction l as [| a l IH]; simpl; repeat keeps_step. apply IH. Qed.

  Lemma keeps_pieces p l : keeps (log_pieces H p l).
  Proof. induction l as [| a l IH]; simpl; unfold print; repeat keeps_step. apply IH. Qed.

  Lemma keeps_log_args p l : forall b, keeps (log_args H ev p b l).
  Proof.
    induction l as [| a l IH]; intros b; simpl; unfold print; repeat keeps_step;
      try apply IH; apply keeps_pieces.
  Qed.

  Lemma keeps_joinx l : forall i h, keeps (joinx_args H ev i h l).
  Proof. induction l as [| a l IH]; intros i h; cbn [joinx_args joiny_args]; repeat keeps_step; apply IH. Qed.
  Lemma keeps_joiny l : forall i h, keeps (joiny_args H ev i h l).
  Proof. induction l as [| a l IH]; intros i h; cbn [joinx_args joiny_args]; repeat keeps_step; apply IH. Qed.

  Lemma keeps_shuffle i : forall l, keeps (shuffle H i l).
  Proof. induction i as [| i IH]; intros l; cbn [shuffle]; unfold sample; repeat keeps_step; apply IH. Qed.

  Lemma keeps_parse s : keeps (parse_m s).
  Proof. unfold parse_m. destruct (parse_script s); repeat keeps_step. Qed.

  (** [cd] reads the variables before it asks for the directory. *)
  Lemma keeps_cd args : keeps (run_cd H ev args).
  Proof.
    unfold run_cd. apply keeps_bind; [unfold check_exact, custom; repeat keeps_step | intros _].
    apply keeps_bind; [unfold ev_arg, arg; repeat keeps_step | intros v].
    intros s. unfold bind at 1, get_env at 1. cbv zeta.
    unfold bind at 1, ask at 1. destruct (h_answer H _ _) eqn:A1;
      try (unfold custom, throw; split; [reflexivity | eexists [_]; reflexivity]).
    unfold bind at 1, ask at 1. cbn [s_env s_trace s_log].
    destruct (h_answer H _ (RqChdir _));
      try (unfold custom, throw; split; [reflexivity | eexists [_; _]; reflexivity]).
    all: unfold bind, put_env, ret; cbn [snd s_env s_trace s_log];
      split; [apply env_parent_define | eexists [_; _]; reflexivity].
  Qed.

  Lemma keeps_help l : keeps (run_help H ev l).
  Proof. induction l as [| a l IH]; cbn [run_help]; repeat keeps_step; apply IH. Qed.

  Lemma keeps_write x y l : forall k, keeps (write_lines H x y k l).
  Proof.
    induction l as [| a l IH]; intros k; cbn [write_lines]; unfold or_panic, print;
      repeat keeps_step; apply IH.
  Qed.

  Lemma keeps_glob cwd p l : keeps (glob_paths cwd p l).
  Proof. induction l as [| [a | a] l IH]; cbn [glob_paths]; unfold custom; repeat keeps_step; apply IH. Qed.

  Ltac builtin_step :=
    match goal with
    | |- keeps (run_help _ _ _) => apply keeps_help
    | |- keeps (write_lines _ _ _ _ _) => apply keeps_write
    | |- keeps (glob_paths _ _ _) => apply keeps_glob
    | |- keeps (run_stages _ _ _ _ _) => apply keeps_stages
    | |- keeps (run_print _ _ _ _ _) => apply keeps_print
    | |- keeps (filterM _ _ _) => apply keeps_filterM
    | |- keeps (log_args _ _ _ _ _) => apply keeps_log_args
    | |- keeps (joinx_args _ _ _ _ _) => apply keeps_joinx
    | |- keeps (joiny_args _ _ _ _ _) => apply keeps_joiny
    | |- keeps (shuffle _ _ _) => apply keeps_shuffle
    | |- keeps (parse_m _) => apply keeps_parse
    | |- keeps (run_cd _ _ _) => apply keeps_cd
    | _ => keeps_step
    | |- keeps (?f _ _ _ _ _ _ _) => unfold f; cbv beta zeta
    | |- keeps (?f _ _ _ _ _ _) => unfold f; cbv beta zeta
    | |- keeps (?f _ _ _ _ _) => unfold f; cbv beta zeta
    | |- keeps (?f _ _ _ _) => unfold f; cbv beta zeta
    | |- keeps (?f _ _ _) => unfold f; cbv beta zeta
    | |- keeps (?f _ _) => unfold f; cbv beta zeta
    | |- keeps (?f _) => unfold f; cbv beta zeta
    | |- keeps ?f => unfold f; cbv beta zeta
    end.

  Lemma keeps_builtin b args : keeps (run_builtin H ev b args).
  Proof. destruct b; cbn [run_builtin]; repeat builtin_step. Qed.
End Builtins.

Section Eval.
  Variable H : host.

  Lemma keeps_body rec ev0 e :
    (forall e, keeps (rec e)) -> (forall e, keeps (ev0 e)) -> keeps (eval_body H rec ev0 e).
  Proof.
    intros R E.
    assert (MV : forall m, keeps (map_values rec m)).
    { induction m as [| [k x] m IH]; cbn [map_values]; repeat keeps_step. exact IH. }
    assert (SQ : forall l, keeps (seqM rec l)).
    { induction l as [| x l IH]; cbn [seqM]; [apply keeps_ret |]. destruct l; repeat keeps_step. exact IH. }
    destruct e; cbn [eval_body]; unfold apply_value, run_command; repeat keeps_step; auto using keeps_builtin.
  Qed.

  Lemma keeps_eval n : forall d e, keeps (eval H n d e).
  Proof.
    induction n as [| n IH]; intros d e; cbn [eval]; [apply keeps_fuel |].
    destruct (MAX_DEPTH <? d)%N; [apply keeps_throw |]. apply keeps_body; auto.
  Qed.
End Eval.
