(** C14 to C27, C29, C30, C57: the evaluator. *)

From Coq Require Import String.
From Verif Require Import Base Syntax Host Ops Parser ErrorFmt Text Monad Builtins Eval
  MonoFacts EvalSpec EvalFacts MapFacts CoreFacts CmdFacts TermFacts Init Demo.

(** The variable [x] of the demo shell set to [v]. *)
Definition demo_with (x : string) (v : expr) : st := with_var (lit x) v demo.
Arguments demo_with x%string_scope v.

(** Evaluation has at most one outcome: the relation [evaluates] is a partial
    function of the expression and the state. *)
Theorem evaluation_deterministic H d e s r1 s1 r2 s2 :
  evaluates H d e s r1 s1 -> evaluates H d e s r2 s2 -> r1 = r2 /\ s1 = s2.
Proof. apply evaluates_det. Qed.
Print Assumptions evaluation_deterministic.

(** ** C14 *)

Theorem C14_data_stable H d e s r s' :
  data e -> (d + nesting e <= MAX_DEPTH)%N ->
  (evaluates H d e s r s' <-> r = ROk e /\ s' = s).
Proof.
  intros D L. destruct (data_evaluates H e D d s) as (r1 & E & OK & _).
  rewrite (OK L) in E. split.
  - intros X. destruct (evaluates_det _ _ _ _ _ _ _ _ X E). auto.
  - intros [-> ->]. exact E.
Qed.

(** Beyond the limit it is the recursion error, again without side effects. *)
Theorem C14_too_deep H d e s r s' :
  data e -> (MAX_DEPTH < d + nesting e)%N ->
  evaluates H d e s r s' -> s' = s /\ exists x, r = RErr (RecursionDepth x).
Proof.
  intros D L X. destruct (data_evaluates H e D d s) as (r1 & E & _ & BAD).
  destruct (evaluates_det _ _ _ _ _ _ _ _ X E) as [-> ->]. split; [reflexivity |].
  apply BAD. lia.
Qed.

Example C14_example :
  let v := EList [EInteger 1; EMap [(lit "a", EList [EString (lit "x"); ENone])]; EBoolean true] in
  data v /\ nesting v = 3%N /\ evaluates demo_host 0 v demo (ROk v) demo.
Proof.
  intros v. split; [cbn; tauto |]. split; [reflexivity |].
  apply C14_data_stable; [cbn; tauto | vm_compute; discriminate | auto].
Qed.

(** A list nested [n] deep. *)
Fixpoint nested (n : nat) : expr := match n with O => ENone | S m => EList [nested m] end.

Example C14_too_deep_example :
  data (nested (N.to_nat 801)) /\ nesting (nested (N.to_nat 801)) = 801%N.
Proof. split; vm_compute; auto. all: repeat constructor. Qed.

Print Assumptions C14_data_stable.
Print Assumptions C14_too_deep.

(** ** C15 *)

Theorem C15_quote H d e s r s' :
  (d <= MAX_DEPTH)%N -> (evaluates H d (EQuote e) s r s' <-> r = ROk e /\ s' = s).
Proof. apply rule_quote. Qed.

Example C15_example :
  script "'(echo 1)" = EDo [EQuote (EGroup (EApply (ESymbol (lit "echo")) [EInteger 1]))]
  /\ run_demo "'(echo 1)" = (ROk (EGroup (EApply (ESymbol (lit "echo")) [EInteger 1])), demo).
Proof. split; vm_compute; reflexivity. Qed.

Print Assumptions C15_quote.

(** ** C16 *)

Theorem C16_if H d c t f s r s' :
  (d <= MAX_DEPTH)%N ->
  (evaluates H d (EIf c t f) s r s' <->
   (exists v s1, evaluates H (d + 1) c s (ROk v) s1 /\ truthy v
                 /\ evaluates H (d + 1) t s1 r s')
   \/ (exists v s1, evaluates H (d + 1) c s (ROk v) s1 /\ falsy v
                    /\ evaluates H (d + 1) f s1 r s')
   \/ (exists r1, evaluates H (d + 1) c s r1 s' /\ fails r1 r)).
Proof.
  intros L. rewrite rule_if by exact L. split.
  - intros [(v & s1 & E1 & E2) | E]; [| auto]. destruct (is_truthy v) eqn:T;
      [apply is_truthy_iff in T | apply is_falsy in T]; eauto 10.
  - intros [(v & s1 & E1 & T & E2) | [(v & s1 & E1 & T & E2) | E]]; [left | left | auto];
      exists v, s1; [apply is_truthy_iff in T | apply is_falsy in T]; rewrite T; auto.
Qed.

(** The branch that is not chosen has no influence. *)
Theorem C16_other_branch H d c t f f' s v s1 r s' :
  (d <= MAX_DEPTH)%N ->
  evaluates H (d + 1) c s (ROk v) s1 ->
  (truthy v ->
   (evaluates H d (EIf c t f) s r s' <-> evaluates H d (EIf c t f') s r s'))
  /\ (falsy v ->
      (evaluates H d (EIf c f t) s r s' <-> evaluates H d (EIf c f' t) s r s')).
Proof.
  intros L E. rewrite !rule_if by exact L.
  assert (Q : forall P, (exists v' s2, evaluates H (d + 1) c s (ROk v') s2 /\ P v' s2) <-> P v s1).
  { intros P. split; [| eauto]. intros (v' & s2 & E' & X).
    destruct (evaluates_det _ _ _ _ _ _ _ _ E E') as [Y <-]. injection Y as <-. exact X. }
  split; intros T; [apply is_truthy_iff in T | apply is_falsy in T]; rewrite !(Q (fun v s2 => evaluates H (d + 1) (if is_truthy v then _ else _) s2 r s')), T;
    reflexivity.
Qed.

Example C16_example :
  value_of "if 1 < 2 { 3 } else { os@exit 1 }" = ROk (EInteger 3)
  /\ value_of "if 2 < 1 { os@exit 1 } else { 4 }" = ROk (EInteger 4)
  /\ value_of "if [] { 3 } else { 4 }" = ROk (EInteger 4)
  /\ value_of "if echo { 3 } else { 4 }" = ROk (EInteger 3)
  /\ falsy (EList []) /\ truthy (EInteger 2).
Proof. repeat split; try (vm_compute; reflexivity); [constructor | inversion 1]. Qed.

Print Assumptions C16_if.
Print Assumptions C16_other_branch.

(** ** C17 *)

Theorem C17_let H d x e s r s' :
  (d <= MAX_DEPTH)%N ->
  evaluates H d (EAssign x e) s r s' ->
  (exists v s1, evaluates H (d + 1) e s (ROk v) s1
     /\ r = ROk ENone
     /\ env_get x (s_env s') = Some v
     /\ (forall y, y <> x -> env_get y (s_env s') = env_get y (s_env s1))
     /\ env_parent (s_env s') = env_parent (s_env s1)
     /\ s_trace s' = s_trace s1 /\ s_log s' = s_log s1)
  \/ (exists r1, evaluates H (d + 1) e s r1 s' /\ fails r1 r).
Proof.
  intros L E. apply rule_assign in E; [| exact L].
  destruct E as [(v & s1 & E & -> & ->) | E]; [left | right; exact E].
  exists v, s1. split; [exact E |]. split; [reflexivity |]. cbn.
  rewrite env_get_define, str_eqb_refl. split; [reflexivity |].
  split; [| split; [apply env_parent_define | auto]].
  intros y N. rewrite env_get_define. apply str_eqb_neq in N. now rewrite N.
Qed.

(** And it does finish whenever [e] does. *)
Theorem C17_let_finishes H d x e s r1 s1 :
  (d <= MAX_DEPTH)%N -> evaluates H (d + 1) e s r1 s1 ->
  exists r s', evaluates H d (EAssign x e) s r s'.
Proof.
  intros L E. destruct r1 as [v | er | p | c |].
  - exists (ROk ENone), (with_var x v s1). apply rule_assign; eauto 6.
  - exists (RErr er), s1. apply rule_assign; [exact L | right; eexists; split; [exact E | constructor]].
  - exists (RPanic p), s1. apply rule_assign; [exact L | right; eexists; split; [exact E | constructor]].
  - exists (RExit c), s1. apply rule_assign; [exact L | right; eexists; split; [exact E | constructor]].
  - destruct E as [N _]. congruence.
Qed.

Example C17_example :
  evaluates demo_host 0 (EAssign (lit "x") (EInteger 5)) demo (ROk ENone)
    (demo_with "x" (EInteger 5))
  /\ value_of "let x = 5; let y = x + 1; [x, y]" = ROk (EList [EInteger 5; EInteger 6])
  /\ value_of "let x = 5; err@try (let x = 1 - ""a"") (e -> 0); x" = ROk (EInteger 5).
Proof.
  split; [| split; vm_compute; reflexivity].
  apply rule_assign; [discriminate |]. left. exists (EInteger 5), demo.
  split; [apply rule_value; [discriminate | exact I | auto] | auto].
Qed.

Print Assumptions C17_let.
Print Assumptions C17_let_finishes.

(** ** C18 *)

(** Whatever a user function of at least as many parameters does, its call
    leaves the variables alone, if evaluating the function position and the
    arguments does. *)
Theorem C18_call_keeps_variables H d f args s r s' :
  keeps_vars H (s_env s) f ->
  Forall (keeps_vars H (s_env s)) args ->
  (forall g s1, evaluates H (d + 1) f s (ROk g) s1 ->
     exists p b c, g = ELambda p b c /\ takes (length args - 1) b) ->
  evaluates H d (EApply f args) s r s' ->
  s_env s' = s_env s.
Proof.
  intros KF KA LAM E. destruct (N.leb_spec d MAX_DEPTH) as [L | L].
  2: { apply evaluates_deep in E; [| exact L]. now destruct E as [_ ->]. }
  apply rule_apply in E; [| exact L].
  destruct E as [(g & s1 & E1 & E2) | (r1 & E1 & _)].
  - assert (S1 := KF _ _ _ _ eq_refl E1). destruct (LAM g s1 E1) as (p & b & c & -> & T).
    destruct (N.leb_spec (d + 1) MAX_DEPTH) as [L' | L'].
    + eapply call_keeps; [exact L' | exact S1 | exact KA | exact T | exact E2].
    + apply evaluates_deep in E1; [| exact L']. destruct E1; discriminate.
  - exact (KF _ _ _ _ eq_refl E1).
Qed.

(** Values, variables and literals do. *)
Theorem C18_symbol_keeps H E x : keeps_vars H E (ESymbol x).
Proof.
  intros d s r s' SE X. destruct (N.leb_spec d MAX_DEPTH) as [L | L].
  - apply rule_symbol in X; [| exact L]. now destruct X as [_ ->].
  - apply evaluates_deep in X; [| exact L]. now destruct X as [_ ->].
Qed.

Theorem C18_data_keeps H E v : data v -> keeps_vars H E v.
Proof.
  intros D d s r s' SE X. destruct (data_evaluates H v D d s) as (r1 & E1 & _).
  destruct (evaluates_det _ _ _ _ _ _ _ _ X E1) as [_ ->]. exact SE.
Qed.

(** [f] is a function that assigns, loops and changes the directory. *)
Definition messy : expr :=
  script "(a -> b -> { let x = a; for i in [1, 2] { let y = i }; let CWD = ""/etc""; x + b })".

Example C18_example :
  exists p b c, env_get (lit "f") (s_env (demo_with "f" (match messy with EDo [EGroup f] => f | _ => ENone end)))
     = Some (ELambda p b c) /\ takes (2 - 1) b.
Proof. vm_compute. eexists _, _, _. split; [reflexivity |]. repeat constructor. Qed.

Example C18_example_run :
  let r := run_demo "let x = 9; let f = a -> b -> { let x = a; for i in [1, 2] { let y = i }; x + b }; f 1 2; [x, y]" in
  fst r = ROk (EList [EInteger 9; ESymbol (lit "y")]).
Proof. vm_compute. reflexivity. Qed.

Print Assumptions C18_call_keeps_variables.
Print Assumptions C18_symbol_keeps.
Print Assumptions C18_data_keeps.

(** ** C19 *)

(** The symbol [x] occurs in an expression (captured variables of functions
    inside do not count). *)
Inductive mentions (x : str) : expr -> Prop :=
| m_symbol : mentions x (ESymbol x)
| m_group e : mentions x e -> mentions x (EGroup e)
| m_quote e : mentions x e -> mentions x (EQuote e)
| m_list l e : In e l -> mentions x e -> mentions x (EList l)
| m_do l e : In e l -> mentions x e -> mentions x (EDo l)
| m_map m k e : In (k, e) m -> mentions x e -> mentions x (EMap m)
| m_assign y e : mentions x e -> mentions x (EAssign y e)
| m_for1 y l b : mentions x l -> mentions x (EFor y l b)
| m_for2 y l b : mentions x b -> mentions x (EFor y l b)
| m_if1 c t f : mentions x c -> mentions x (EIf c t f)
| m_if2 c t f : mentions x t -> mentions x (EIf c t f)
| m_if3 c t f : mentions x f -> mentions x (EIf c t f)
| m_apply1 f l : mentions x f -> mentions x (EApply f l)
| m_apply2 f l e : In e l -> mentions x e -> mentions x (EApply f l)
| m_lambda p b c : mentions x b -> mentions x (ELambda p b c)
| m_macro p b : mentions x b -> mentions x (EMacro p b).

Lemma used_mentions x e : In x (used_symbols e) <-> mentions x e.
Proof.
  split.
  - induction e using expr_ind2 with (Q := fun _ => True); cbn [used_symbols]; try exact I;
      try (intros []; fail); intros X.
    + now constructor; auto.
    + destruct X as [-> | []]. constructor.
    + apply in_flat_map in X. destruct X as (e & Y & X). rewrite Forall_forall in H.
      econstructor; eauto.
    + apply in_flat_map in X. destruct X as ([k e] & Y & X). rewrite Forall_forall in H.
      econstructor; [exact Y | exact (H _ Y X)].
    + constructor; auto.
    + apply in_app_iff in X. destruct X; [apply m_for1 | apply m_for2]; auto.
    + rewrite !in_app_iff in X. destruct X as [X | [X | X]];
        [apply m_if1 | apply m_if2 | apply m_if3]; auto.
    + apply in_app_iff in X. destruct X as [X | X]; [apply m_apply1; auto |].
      apply in_flat_map in X. destruct X as (e' & Y & X). rewrite Forall_forall in H.
      eapply m_apply2; eauto.
    + constructor; auto.
    + constructor; auto.
    + apply in_flat_map in X. destruct X as (e & Y & X). rewrite Forall_forall in H.
      econstructor; eauto.
    + constructor; auto.
  - induction 1; cbn [used_symbols]; rewrite ?in_app_iff, ?in_flat_map; eauto.
    now left.
Qed.

(** A new function records the values of the names its body mentions and of
    nothing else. *)
Theorem C19_capture H d p b s r s' :
  (d <= MAX_DEPTH)%N ->
  evaluates H d (ELambda p b env_new) s r s' ->
  s' = s /\ exists c, r = ROk (ELambda p b c)
    /\ (forall x, x <> p -> x <> CWD -> mentions x b -> env_get x c = env_get x (s_env s))
    /\ (forall x, x <> p -> x <> CWD -> ~ mentions x b -> env_get x c = None)
    /\ env_parent c = None.
Proof.
  intros L E. apply rule_lambda in E; [| exact L]. destruct E as [-> ->].
  split; [reflexivity |]. eexists. split; [reflexivity |].
  assert (G : forall x, x <> p -> x <> CWD ->
            env_get x (capture (s_env s) p b env_new)
            = if existsb (str_eqb x) (used_symbols b) then env_get x (s_env s) else None).
  { intros x N1 N2. unfold capture. rewrite capture_symbols_get. cbn [env_new env_is_defined bm_mem bm_get orb negb].
    unfold env_set_cwd. rewrite !env_get_define.
    apply str_eqb_neq in N1. apply str_eqb_neq in N2. rewrite N1, N2. cbn.
    destruct (existsb (str_eqb x) (used_symbols b)); cbn; [| reflexivity].
    now destruct (env_get x (s_env s)). }
  split; [| split].
  - intros x N1 N2 M. rewrite G by assumption.
    apply used_mentions, existsb_str in M. now rewrite M.
  - intros x N1 N2 M. rewrite G by assumption.
    destruct (existsb (str_eqb x) (used_symbols b)) eqn:EX; [| reflexivity].
    apply existsb_str, used_mentions in EX. contradiction.
  - unfold capture, capture_symbols.
    set (t := env_set_cwd _ _). assert (T : env_parent t = None) by reflexivity. clearbody t.
    clear G. revert t T. induction (used_symbols b) as [| y l IH]; intros t T; cbn [fold_left]; [exact T |].
    apply IH. match goal with |- context [if ?c then _ else _] => destruct c end; [| exact T]. destruct (env_get y (s_env s)); [| exact T].
    now rewrite env_parent_define.
Qed.

(** ** C20 *)

(** Two callers with the same current directory that store the same function
    get the same outcome and the same effects. *)
Theorem C20_call_independent_of_caller H d f v p b c s1 s2 r t1 :
  (d + 1 <= MAX_DEPTH)%N -> data v -> (d + 1 + nesting v <= MAX_DEPTH)%N ->
  env_get f (s_env s1) = Some (ELambda p b c) ->
  env_get f (s_env s2) = Some (ELambda p b c) ->
  env_get_cwd (s_env s1) = env_get_cwd (s_env s2) ->
  s_trace s1 = s_trace s2 -> s_log s1 = s_log s2 ->
  evaluates H d (EApply (ESymbol f) [v]) s1 r t1 ->
  exists t2, evaluates H d (EApply (ESymbol f) [v]) s2 r t2
             /\ s_trace t2 = s_trace t1 /\ s_log t2 = s_log t1.
Proof.
  intros L D N G1 G2 CW TR LG E.
  assert (V : forall s, evaluates H (d + 1) v s (ROk v) s).
  { intros s. apply C14_data_stable; auto. }
  apply (call_stored H d f v s1 p b c v) in E; auto. destruct E as (q & E & ->).
  exists (with_env (s_env s2) q). split; [| auto].
  apply (call_stored H d f v s2 p b c v); auto. exists q. split; [| reflexivity].
  replace (with_env (call_env p v c (s_env s2)) s2) with (with_env (call_env p v c (s_env s1)) s1);
    [exact E |].
  unfold with_env, call_env. rewrite CW, TR, LG. reflexivity.
Qed.

(** So changing a variable after a function was stored does not change what
    the function does (C19). *)
Theorem C19_rebinding H d f v p b c x w s r t :
  (d + 1 <= MAX_DEPTH)%N -> data v -> (d + 1 + nesting v <= MAX_DEPTH)%N ->
  x <> f -> x <> CWD ->
  env_get f (s_env s) = Some (ELambda p b c) ->
  evaluates H d (EApply (ESymbol f) [v]) s r t ->
  exists t', evaluates H d (EApply (ESymbol f) [v]) (with_var x w s) r t'
             /\ s_trace t' = s_trace t /\ s_log t' = s_log t.
Proof.
  intros L D N NX NC G E.
  eapply C20_call_independent_of_caller; try exact E; eauto.
  - cbn. rewrite env_get_define. apply not_eq_sym in NX. apply str_eqb_neq in NX. now rewrite NX.
  - cbn. symmetry. now apply env_get_cwd_define.
Qed.

Example C19_example :
  value_of "let k = 10; let f = x -> x + k; let k = 20; f 1" = ROk (EInteger 11)
  /\ value_of "let f = x -> x + k; let k = 20; err@try (f 1) (e -> e@code)" = ROk (EInteger 9).
Proof. split; vm_compute; reflexivity. Qed.

Example C20_example :
  let f := ELambda (lit "x") (ESymbol (lit "k")) (env_define (lit "k") (EInteger 10) env_new) in
  let s1 := demo_with "f" f in
  let s2 := with_var (lit "k") (EInteger 20) s1 in
  env_get (lit "f") (s_env s1) = env_get (lit "f") (s_env s2)
  /\ env_get_cwd (s_env s1) = env_get_cwd (s_env s2)
  /\ fst (eval demo_host 10 0 (EApply (ESymbol (lit "f")) [ENone]) s1) = ROk (EInteger 10)
  /\ fst (eval demo_host 10 0 (EApply (ESymbol (lit "f")) [ENone]) s2) = ROk (EInteger 10).
Proof. vm_compute. auto. Qed.

Print Assumptions C19_capture.
Print Assumptions C20_call_independent_of_caller.
Print Assumptions C19_rebinding.

(** ** C57 *)

(** The same is false for functions of two parameters: the function returned
    by the first application is evaluated again in the caller's scope, which
    captures the caller's variables. *)
Theorem C57_curried_call_sees_caller_refuted :
  exists f c s1 s2 r1 t1 r2 t2,
    env_get f (s_env s1) = Some c /\ env_get f (s_env s2) = Some c
    /\ env_get_cwd (s_env s1) = env_get_cwd (s_env s2)
    /\ s_trace s1 = s_trace s2 /\ s_log s1 = s_log s2
    /\ evaluates demo_host 0 (EApply (ESymbol f) [EInteger 1; EInteger 2]) s1 r1 t1
    /\ evaluates demo_host 0 (EApply (ESymbol f) [EInteger 1; EInteger 2]) s2 r2 t2
    /\ r1 <> r2.
Proof.
  pose (c := ELambda (lit "x") (ELambda (lit "y") (ESymbol (lit "z")) env_new) env_new).
  exists (lit "f"), c, (demo_with "f" c), (with_var (lit "z") (EInteger 5) (demo_with "f" c)).
  exists (ROk (ESymbol (lit "z"))). eexists. exists (ROk (EInteger 5)). eexists.
  do 5 (split; [vm_compute; reflexivity |]).
  split; [compute_outcome 20%nat |]. split; [compute_outcome 20%nat |]. discriminate.
Qed.

Example C57_example :
  value_of "let f = x -> y -> z; f 1 2" = ROk (ESymbol (lit "z"))
  /\ value_of "let f = x -> y -> z; let z = 5; f 1 2" = ROk (EInteger 5).
Proof. split; vm_compute; reflexivity. Qed.

Print Assumptions C57_curried_call_sees_caller_refuted.

(** ** C21 *)

Theorem C21_macro H d f p b a s s1 r s' :
  (d <= MAX_DEPTH)%N ->
  evaluates H (d + 1) f s (ROk (EMacro p b)) s1 ->
  (evaluates H d (EApply f [a]) s r s' <->
   (exists s2, evaluates H d (EAssign p a) s1 (ROk ENone) s2 /\ evaluates H (d + 1) b s2 r s')
   \/ (exists r1, evaluates H d (EAssign p a) s1 r1 s' /\ fails r1 r)).
Proof.
  intros L EF. rewrite rule_apply by exact L. split.
  - intros [(g & s2 & E1 & E2) | (r1 & E1 & F)];
      destruct (evaluates_det _ _ _ _ _ _ _ _ EF E1) as [X <-]; [| subst r1; inversion F].
    injection X as <-. apply apply_macro1 in E2.
    destruct E2 as [(v & s2 & E2 & E3) | (r1 & E2 & F)].
    + left. exists (with_var p v s2). split; [| exact E3]. apply rule_assign; eauto 6.
    + right. exists r. split; [| destruct F; constructor].
      apply rule_assign; [exact L |]. right. eauto.
  - intros [(s2 & E1 & E2) | (r1 & E1 & F)]; left; exists (EMacro p b), s1;
      (split; [exact EF |]); apply apply_macro1; apply rule_assign in E1; try exact L.
    + destruct E1 as [(v & s3 & E1 & _ & ->) | (r1 & _ & F)]; [eauto | inversion F].
    + destruct E1 as [(v & s3 & _ & -> & _) | (r2 & E1 & F2)]; [inversion F |].
      right. exists r2. split; [exact E1 |]. destruct F2; inversion F; constructor.
Qed.

Example C21_example :
  value_of "let m = x ~> { let y = x + 1; y * 2 }; let z = m 4; [x, y, z]"
  = ROk (EList [EInteger 4; EInteger 5; EInteger 10]).
Proof. vm_compute. reflexivity. Qed.

Print Assumptions C21_macro.

(** ** C22 *)

Theorem C22_for H d x l b s r s' :
  (d <= MAX_DEPTH)%N ->
  (evaluates H d (EFor x l b) s r s' <->
   (exists items s1,
       evaluates H (d + 1) l s (ROk (EList items)) s1
       /\ let body item t := evaluates H (d + 1) b (with_var x item t) in
          ((exists vs, in_order body items s1 (ROk vs) s' /\ r = ROk (EList vs))
           \/ (exists r1, in_order body items s1 r1 s' /\ fails r1 r)))
   \/ (exists v, evaluates H (d + 1) l s (ROk v) s' /\ (forall items, v <> EList items)
                 /\ r = RErr (ForNonList l))
   \/ (exists r1, evaluates H (d + 1) l s r1 s' /\ fails r1 r)).
Proof. apply rule_for. Qed.

(** A finished loop yields one result per element. *)
Theorem C22_one_result_each {A B} (R : A -> st -> res B -> st -> Prop) l s vs s' :
  in_order R l s (ROk vs) s' -> length vs = length l.
Proof.
  intros E. remember (ROk vs) as r eqn:Q. revert vs Q.
  induction E as [s | x v s1 l vs s s2 X E IH | x r r' l s s1 X F | x v s1 l r r' s s2 X E IH F];
    intros ws Q.
  - now injection Q as <-.
  - injection Q as <-. cbn. now rewrite IH.
  - subst. inversion F.
  - subst. inversion F.
Qed.

Example C22_example :
  value_of "for i in 0 to 4 { i * i }"
    = ROk (EList [EInteger 0; EInteger 1; EInteger 4; EInteger 9])
  /\ effects_of "for i in 0 to 3 { echo i }"
    = [RqPrint (lit "0" ++ NL); RqPrint (lit "1" ++ NL); RqPrint (lit "2" ++ NL)]
  /\ effects_of "for i in 5 { echo i }" = [].
Proof. repeat split; vm_compute; reflexivity. Qed.

Print Assumptions C22_for.
Print Assumptions C22_one_result_each.

(** ** C23 *)

Theorem C23_sequence H d l s r s' :
  (d <= MAX_DEPTH)%N ->
  (evaluates H d (EDo l) s r s' <->
   (exists vs, in_order (evaluates H (d + 1)) l s (ROk vs) s' /\ r = ROk (last vs ENone))
   \/ (exists r1, in_order (evaluates H (d + 1)) l s r1 s' /\ fails r1 r)).
Proof. apply rule_do. Qed.

(** After a failing statement nothing else of the block runs. *)
Theorem C23_stops H d before x after s vs s1 r0 r s' :
  (d <= MAX_DEPTH)%N ->
  in_order (evaluates H (d + 1)) before s (ROk vs) s1 ->
  evaluates H (d + 1) x s1 r0 s' -> @fails expr expr r0 r ->
  evaluates H d (EDo (before ++ x :: after)) s r s'.
Proof.
  intros L B X F. apply rule_do; [exact L |]. right.
  assert (Q : exists q : res (list expr), fails r0 q /\ fails q r).
  { destruct F; eexists; split; constructor. }
  destruct Q as (q & Q1 & Q2). exists q. split; [| exact Q2]. unfold evaluates_all.
  remember (ROk vs) as rv eqn:RV. revert vs RV X.
  induction B as [s | y v s2 l ws s s3 Y B IH | y r1 r' l s s2 Y F1 | y v s2 l r1 r' s s3 Y B IH F1];
    intros us RV X.
  - eapply io_first; eauto.
  - cbn [app]. eapply io_later; [exact Y | eapply IH; eauto |]. inversion Q1; subst; constructor.
  - subst. inversion F1.
  - subst. inversion F1.
Qed.

Example C23_example :
  value_of "{ let a = 1; let b = a + 1; a + b }" = ROk (EInteger 3)
  /\ effects_of "{ echo 1; for i in 5 { 0 }; echo 2 }" = [RqPrint (lit "1" ++ NL)].
Proof. split; vm_compute; reflexivity. Qed.

Print Assumptions C23_sequence.
Print Assumptions C23_stops.

(** ** C24 *)

Theorem C24_builtin_free_finishes H d e s :
  no_builtin e -> no_builtin_env (s_env s) ->
  exists r s', evaluates H d e s r s'.
Proof.
  intros N E. destruct (no_builtin_finishes H d e s N E) as (r & s' & X & _). eauto.
Qed.

(** [let f = g -> g g; f f] runs into the limit. *)
Definition omega : expr := script "let f = g -> g g; f f".

Example C24_example :
  no_builtin omega /\ no_builtin_env env_new
  /\ exists e s', evaluates demo_host 0 omega (St env_new [] 0) (RErr (RecursionDepth e)) s'.
Proof.
  split; [vm_compute; tauto |]. split; [vm_compute; tauto |].
  do 2 eexists. compute_outcome (N.to_nat 802).
Qed.

Print Assumptions C24_builtin_free_finishes.

(** ** C25 *)

(** [let f = g -> ((g g) + 1); f f] never finishes: the builtin [+] evaluates
    its operands starting from depth 0 again. *)
Definition deep_recursion : expr := script "let f = g -> (g g) + 1; f f".

Definition again : expr := EGroup (EApply (ESymbol (lit "g")) [ESymbol (lit "g")]).
Definition again_body : expr := EGroup (EApply (ESymbol (lit "+")) [again; EInteger 1]).

Lemma eval_S H n d e s :
  (d <= MAX_DEPTH)%N -> eval H (S n) d e s = eval_body H (eval H n (d + 1)) (eval H n 0) e s.
Proof. intros L. cbn [eval]. now replace (MAX_DEPTH <? d)%N with false by (symmetry; apply N.ltb_ge; lia). Qed.

Lemma again_diverges H c b n :
  b_id b = BAdd -> env_get (lit "+") c = Some (EBuiltin b) ->
  forall m s, (m <= n)%nat ->
    env_get (lit "g") (s_env s) = Some (ELambda (lit "g") again_body c) ->
    fst (eval H m 0 again s) = RFuel.
Proof.
  intros B P. induction n as [n IH] using lt_wf_ind. intros m s L G.
  do 3 (destruct m as [| m]; [now cbn |]).
  assert (SYM : forall x v d t, (d <= MAX_DEPTH)%N -> env_get x (s_env t) = Some v ->
            forall k, eval H (S k) d (ESymbol x) t = (ROk v, t)).
  { intros x v d t D X k. rewrite eval_S by exact D. cbn [eval_body]. unfold bind, get_env, ret.
    now rewrite X. }
  unfold again. rewrite eval_S by discriminate. cbn [eval_body].
  rewrite eval_S by discriminate. cbn [eval_body]. unfold bind at 1.
  rewrite (SYM _ _ (0 + 1 + 1)%N _ ltac:(discriminate) G). cbn [apply_value].
  unfold bind at 1, get_env at 1. unfold bind at 1.
  rewrite (SYM _ _ (0 + 1 + 1)%N _ ltac:(discriminate) G). unfold in_env.
  set (s1 := St (env_define (lit "g") _ _) _ _).
  assert (G1 : env_get (lit "g") (s_env s1) = Some (ELambda (lit "g") again_body c)).
  { subst s1. cbn [s_env]. now rewrite env_get_define, str_eqb_refl. }
  assert (P1 : env_get (lit "+") (s_env s1) = Some (EBuiltin b)).
  { subst s1. cbn [s_env]. unfold env_set_cwd. rewrite !env_get_define.
    change (str_eqb (lit "+") (lit "g")) with false.
    change (str_eqb (lit "+") CWD) with false. exact P. }
  clearbody s1. unfold again_body. rewrite eval_S by discriminate. cbn [eval_body].
  destruct m as [| m]; [now cbn |].
  rewrite eval_S by discriminate. cbn [eval_body]. unfold bind at 1.
  destruct m as [| m]; [now cbn |].
  rewrite (SYM _ _ (0 + 1 + 1 + 1 + 1)%N _ ltac:(discriminate) P1). cbn [apply_value].
  rewrite B. cbn [run_builtin]. unfold run_add, ev_arg, arg. cbn [nth_error].
  unfold bind at 1 2, ret at 1.
  assert (R := IH (S m) ltac:(lia) (S m) s1 (Nat.le_refl _) G1).
  destruct (eval H (S m) 0 again s1) as [q s2]. cbn in R. subst q. reflexivity.
Qed.

Lemma body_diverges H c b s d r s' :
  b_id b = BAdd -> env_get (lit "+") c = Some (EBuiltin b) ->
  env_get (lit "g") (s_env s) = Some (ELambda (lit "g") again_body c) ->
  env_get (lit "+") (s_env s) = Some (EBuiltin b) ->
  (d + 2 <= MAX_DEPTH)%N ->
  ~ evaluates H d again_body s r s'.
Proof.
  intros B P G P1 L E. unfold again_body in E. apply rule_group in E; [| lia].
  apply rule_apply in E; [| lia].
  destruct E as [(g & s1 & E1 & E2) | (r1 & E1 & F)]; (apply rule_symbol in E1; [| lia]);
    rewrite P1 in E1; destruct E1 as [E1 ->]; [| subst r1; inversion F].
  injection E1 as ->. destruct E2 as [N [n E]]. cbn [apply_value] in E.
  rewrite B in E. cbn [run_builtin] in E. unfold run_add, ev_arg, arg in E. cbn [nth_error] in E.
  unfold bind at 1 2, ret at 1 in E.
  assert (R := again_diverges H c b n B P n s (Nat.le_refl _) G).
  destruct (eval H n 0 again s) as [q s2]. cbn in R. subst q. injection E as <- _. congruence.
Qed.

Definition demo_capture : env := capture demo_env (lit "g") again_body env_new.

Theorem C25_recursion_limit_refuted :
  exists source e,
    parse_script source = SOk e /\ forall r s', ~ evaluates demo_host 0 e demo r s'.
Proof.
  exists (lit "let f = g -> (g g) + 1; f f"), deep_recursion.
  split; [vm_compute; reflexivity |]. intros r s' E.
  assert (Q : deep_recursion
          = EDo [EAssign (lit "f") (ELambda (lit "g") again_body env_new);
                 EApply (ESymbol (lit "f")) [ESymbol (lit "f")]]) by (vm_compute; reflexivity).
  rewrite Q in E. clear Q. apply rule_do in E; [| discriminate].
  pose (L := ELambda (lit "g") again_body demo_capture).
  pose (s1 := with_var (lit "f") L demo).
  assert (E1 : evaluates demo_host (0 + 1) (EAssign (lit "f") (ELambda (lit "g") again_body env_new))
                 demo (ROk ENone) s1).
  { apply rule_assign; [discriminate |]. left. exists L, demo.
    split; [apply rule_lambda; [discriminate | auto] | auto]. }
  assert (G1 : env_get (lit "f") (s_env s1) = Some L).
  { unfold s1, with_var, with_env. cbn [s_env]. now rewrite env_get_define, str_eqb_refl. }
  assert (NEVER : forall q t, ~ evaluates demo_host (0 + 1) (EApply (ESymbol (lit "f")) [ESymbol (lit "f")]) s1 q t).
  { intros q t X.
    apply (call_stored demo_host (0 + 1) (lit "f") (ESymbol (lit "f")) s1 (lit "g") again_body demo_capture L) in X;
      [| discriminate | exact G1 |].
    - destruct X as (s2 & X & _).
      assert (P : env_get (lit "+") demo_capture = Some (EBuiltin (Bi BAdd (lit "+")))) by (vm_compute; reflexivity).
      refine (body_diverges _ _ _ _ _ _ _ _ P _ _ _ X); [reflexivity | | | discriminate].
      + unfold with_env, call_env. cbn [s_env]. rewrite env_get_define, str_eqb_refl. reflexivity.
      + unfold with_env, call_env, env_set_cwd. cbn [s_env]. rewrite !env_get_define.
        change (str_eqb (lit "+") (lit "g")) with false.
        change (str_eqb (lit "+") CWD) with false. exact P.
    - apply rule_symbol; [discriminate |]. rewrite G1. auto. }
  assert (A : forall q t, ~ evaluates_all demo_host (0 + 1)
       [EAssign (lit "f") (ELambda (lit "g") again_body env_new);
        EApply (ESymbol (lit "f")) [ESymbol (lit "f")]] demo q t).
  { clearbody s1. clear - E1 NEVER. intros q t A. unfold evaluates_all in A.
    inversion A as [| x v s2 l vs s s3 X Y | x r r' l s s2 X F | x v s2 l r r' s s3 X Y F]; subst;
      destruct (evaluates_det _ _ _ _ _ _ _ _ E1 X) as [Z <-].
    - inversion Y; subst; eapply NEVER; eassumption.
    - subst. inversion F.
    - inversion Y; subst; eapply NEVER; eassumption. }
  destruct E as [(vs & E & _) | (r1 & E & _)]; eapply A; exact E.
Qed.
Print Assumptions C25_recursion_limit_refuted.

(** What does hold: an evaluation at a depth above the limit is the error. *)
Theorem C25_recursion_limit_partial H d e s r s' :
  (MAX_DEPTH < d)%N -> (evaluates H d e s r s' <-> r = RErr (RecursionDepth e) /\ s' = s).
Proof. apply evaluates_deep. Qed.
Example C25_partial_example : (MAX_DEPTH < 801)%N.
Proof. reflexivity. Qed.
Print Assumptions C25_recursion_limit_partial.

(** ** C26 *)

(** [g] names a program. *)
Definition names (g : expr) (name : str) : Prop := g = ESymbol name \/ g = EString name.

Theorem C26_command H d f args s s1 s2 g name vs :
  (d <= MAX_DEPTH)%N ->
  evaluates H (d + 1) f s (ROk g) s1 -> names g name ->
  evaluates_all H (d + 1) args s1 (ROk vs) s2 ->
  exists ls ws vars,
    all_leaves vs ls /\ words H ls ws /\ passed_variables H (s_env s1) vars
    /\ let rq := RqStatus (Command name ws (env_get_cwd (s_env s2)) vars) in
       let answer := h_answer H (s_trace s2) rq in
       forall r s', evaluates H d (EApply f args) s r s' <->
         command_result name f args answer r
         /\ s_env s' = s_env s2 /\ s_log s' = s_log s2
         /\ s_trace s' = (rq, answer) :: s_trace s2.
Proof.
  intros L EF NM EA.
  exists (flatten vs), (flat_map (leaf_words H) (flatten vs)), (command_envs H (s_env s1)).
  split; [apply flatten_all_leaves |]. split; [now apply words_det |].
  split; [apply command_envs_spec |]. cbv zeta. intros r s'.
  rewrite rule_apply by exact L.
  set (rq := RqStatus _).
  assert (C : forall r s',
     lim (fun n => apply_value H (eval H n (d + 1)) (eval H n 0) g f args) s1 r s' <->
     s' = asked H rq s2 /\ r = command_answer name f args (h_answer H (s_trace s2) rq)).
  { intros q t. assert (Q : lim (fun n => apply_value H (eval H n (d + 1)) (eval H n 0) g f args) s1 q t
                 <-> lim (fun n => run_command H (eval H n (d + 1)) name f args) s1 q t).
    { destruct NM as [-> | ->]; reflexivity. }
    rewrite Q, apply_command. clear Q. split.
    - intros [(ws & s3 & E & X) | (r1 & E & F)];
        destruct (lim_det _ _ _ _ _ _ _ (mono_all H (d + 1) args)
                    (proj2 (lim_mapM_eval _ _ _ _ _ _) EA) (proj2 (lim_mapM_eval _ _ _ _ _ _) E))
          as [Y <-].
      + injection Y as <-. exact X.
      + subst r1. inversion F.
    - intros X. left. exists vs, s2. auto. }
  rewrite command_result_det. split.
  - intros [(g' & s3 & E1 & E2) | (r1 & E1 & F)];
      destruct (evaluates_det _ _ _ _ _ _ _ _ EF E1) as [X <-]; [| subst r1; inversion F].
    injection X as <-. apply C in E2. destruct E2 as [-> ->]. auto.
  - intros (-> & A & B & D). left. exists g, s1. split; [exact EF |]. apply C. split; [| reflexivity].
    destruct s'. cbn in *. subst. reflexivity.
Qed.

(** When evaluating an argument fails, no program runs. *)
Theorem C26_argument_fails H d f args s s1 g name q r s' :
  (d <= MAX_DEPTH)%N ->
  evaluates H (d + 1) f s (ROk g) s1 -> names g name ->
  evaluates_all H (d + 1) args s1 q s' -> fails q r ->
  evaluates H d (EApply f args) s r s'.
Proof.
  intros L EF NM EA F. apply rule_apply; [exact L |]. left. exists g, s1. split; [exact EF |].
  assert (Q : lim (fun n => run_command H (eval H n (d + 1)) name f args) s1 r s').
  { apply apply_command. right. eauto. }
  destruct NM as [-> | ->]; exact Q.
Qed.

(** Leaves and words are determined by the values. *)
Theorem C26_words_unique H vs ls ls' ws ws' :
  all_leaves vs ls -> all_leaves vs ls' -> words H ls ws -> words H ls' ws' -> ws = ws'.
Proof.
  intros A B C D. apply all_leaves_det in A. apply all_leaves_det in B.
  apply words_det in C. apply words_det in D. congruence.
Qed.

Definition first_command (source : string) : option (str * list str * str) :=
  match filter (fun rq => match rq with RqStatus _ => true | _ => false end) (effects_of source) with
  | RqStatus c :: _ => Some (c_prog c, c_args c, c_cwd c)
  | _ => None
  end.
Arguments first_command source%string_scope.

Example C26_example :
  first_command "ls 1 (2 + 3) [4, [5, None]] ""a b"""
  = Some (lit "ls", [lit "1"; lit "5"; lit "4"; lit "5"; lit "a b"], lit "/tmp")
  /\ first_command "cd ""sub""; git status"
  = Some (lit "git", [lit "status"], lit "/tmp/sub").
Proof. split; vm_compute; reflexivity. Qed.

Print Assumptions C26_command.
Print Assumptions C26_argument_fails.
Print Assumptions C26_words_unique.

(** ** C27 *)

(** Evaluating an expression without applications finishes, and neither the
    history of effects nor the log level changes. *)
Theorem C27_no_application_no_effect H d e s :
  app_free e ->
  (exists r s', evaluates H d e s r s')
  /\ forall r s', evaluates H d e s r s' -> s_trace s' = s_trace s /\ s_log s' = s_log s.
Proof.
  intros A. destruct (app_free_quiet H e A d s) as (r & s' & E & _ & T & G).
  split; [eauto |]. intros r1 s1 E1.
  destruct (evaluates_det _ _ _ _ _ _ _ _ E E1) as [_ <-]. auto.
Qed.

Example C27_example :
  app_free (script "let x = [1, 2]; for i in x { if i { 'x } else { y -> echo y } }")
  /\ effects_of "let x = [1, 2]; for i in x { if i { 'x } else { y -> echo y } }" = [].
Proof. split; vm_compute; auto 20. Qed.

Print Assumptions C27_no_application_no_effect.

(** ** Builtin functions *)

(** Applying a builtin function is calling it on the unevaluated arguments. *)
Theorem application_of_builtin H d f args b s s1 r s' :
  (d <= MAX_DEPTH)%N ->
  evaluates H (d + 1) f s (ROk (EBuiltin b)) s1 ->
  (evaluates H d (EApply f args) s r s' <-> calls H (b_id b) args s1 r s').
Proof.
  intros L EF. rewrite rule_apply by exact L. split.
  - intros [(g & s2 & E1 & E2) | (r1 & E1 & F)];
      destruct (evaluates_det _ _ _ _ _ _ _ _ EF E1) as [X <-]; [| subst r1; inversion F].
    injection X as <-. exact E2.
  - intros C. left. exists (EBuiltin b), s1. auto.
Qed.
Print Assumptions application_of_builtin.

(** ** C29 *)

(** [eval a]: [a] is evaluated, its value is evaluated with the variables [s]
    had before, and the changes of the second evaluation are dropped. *)
Theorem C29_eval H a s r s' :
  calls H BEval [a] s r s' <->
  (exists v s1 s2, evaluates H 0 a s (ROk v) s1
     /\ evaluates H 0 v (with_env (s_env s) s1) r s2
     /\ s' = with_env (s_env s1) s2)
  \/ (exists r1, evaluates H 0 a s r1 s' /\ fails r1 r).
Proof.
  unfold calls. cbn [run_builtin]. unfold run_eval, ev_arg, arg. cbn [nth_error].
  rewrite lim_get_env.
  assert (M : forall v, mono (fun n => in_env (s_env s) (eval H n 0 v))).
  { intros v n m L. apply mle_in_env. now apply eval_mle. }
  rewrite (lim_ext _ _ (fun n => v <- eval H n 0 a ;; in_env (s_env s) (eval H n 0 v))) by reflexivity.
  rewrite (lim_bind _ _ _ (fun n v => in_env (s_env s) (eval H n 0 v)));
    [| apply mono_eval | exact M].
  split; (intros [E | E]; [left | right; exact E]).
  - destruct E as (v & s1 & E1 & E2). apply lim_in_env in E2. destruct E2 as (s2 & E2 & ->).
    exists v, s1, s2. auto.
  - destruct E as (v & s1 & s2 & E1 & E2 & ->). exists v, s1. split; [exact E1 |].
    apply lim_in_env. eauto.
Qed.

(** On a quoted expression: the outcome of the expression, the variables as
    before. *)
Theorem C29_eval_quoted H e s r s' :
  calls H BEval [EQuote e] s r s' <->
  exists s2, evaluates H 0 e s r s2 /\ s' = with_env (s_env s) s2.
Proof.
  rewrite C29_eval. split.
  - intros [(v & s1 & s2 & E1 & E2 & ->) | (r1 & E1 & F)];
      (apply rule_quote in E1; [| discriminate]); destruct E1 as [E1 ->]; [| subst r1; inversion F].
    injection E1 as ->. rewrite with_env_same in E2. eauto.
  - intros (s2 & E & ->). left. exists e, s, s2. rewrite with_env_same.
    split; [apply rule_quote; [discriminate | auto] | auto].
Qed.

(** [exec] keeps the changes. *)
Theorem C29_exec H a s r s' :
  calls H BExec [a] s r s' <->
  (exists v s1, evaluates H 0 a s (ROk v) s1 /\ evaluates H 0 v s1 r s')
  \/ (exists r1, evaluates H 0 a s r1 s' /\ fails r1 r).
Proof.
  unfold calls. cbn [run_builtin]. unfold run_exec, ev_arg, arg. cbn [nth_error].
  rewrite (lim_ext _ _ (fun n => v <- eval H n 0 a ;; eval H n 0 v)) by reflexivity.
  apply (lim_bind _ _ _ (fun n v => eval H n 0 v)); [apply mono_eval | intros; apply mono_eval].
Qed.

Example C29_example :
  value_of "let x = 1; let y = eval '{ let x = 5; x + 1 }; [x, y]"
    = ROk (EList [EInteger 1; EInteger 6])
  /\ value_of "let x = 1; let y = exec '{ let x = 5; x + 1 }; [x, y]"
    = ROk (EList [EInteger 5; EInteger 6]).
Proof. split; vm_compute; reflexivity. Qed.

Print Assumptions C29_eval.
Print Assumptions C29_eval_quoted.
Print Assumptions C29_exec.

(** ** C30 *)

(** The description of an error given to the handler. *)
Definition error_value (msg : str) (e : error) (body : expr) : expr :=
  EMap [(lit "code", EInteger (error_code e)); (lit "expression", EQuote body);
        (lit "message", EString msg)].

Theorem C30_try H body handler s r s' :
  calls H ETry [body; handler] s r s' <->
  (evaluates H 0 body s r s' /\ forall e, r <> RErr e)
  \/ (exists e s1 msg,
         evaluates H 0 body s (RErr e) s1 /\ error_display H e = inl msg
         /\ evaluates H 0 (EApply handler [error_value msg e body]) s1 r s')
  \/ (exists e p, evaluates H 0 body s (RErr e) s' /\ error_display H e = inr p /\ r = RPanic p).
Proof.
  unfold calls. cbn [run_builtin]. unfold run_try, arg. cbn [nth_error].
  set (h := fun (n : nat) err => msg <- or_panic (error_display H err) ;;
         eval H n 0 (EApply handler [error_record msg (error_code err) body])).
  rewrite (lim_ext _ _ (fun n => catch (eval H n 0 body) (h n))) by reflexivity.
  assert (K : forall e s r s', lim (fun n => h n e) s r s' <->
    (exists msg, error_display H e = inl msg
         /\ evaluates H 0 (EApply handler [error_value msg e body]) s r s')
    \/ (exists p, error_display H e = inr p /\ r = RPanic p /\ s' = s)).
  { intros e t q t'. unfold h. destruct (error_display H e) as [msg | p] eqn:D; cbn [or_panic].
    - match goal with |- ?X <-> _ =>
        change X with (evaluates H 0 (EApply handler [error_value msg e body]) t q t') end.
      split; [intros X; left; exists msg; auto |].
      intros [(m & M & X) | (p & P & _)]; [injection M as <-; exact X | discriminate].
    - rewrite (lim_ext _ _ (fun _ => panics p)) by reflexivity. rewrite lim_panics.
      split; [intros []; right; eauto |].
      intros [(m & M & X) | (p' & P & X & Y)]; [discriminate | injection P as <-; auto]. }
  rewrite lim_catch.
  2: apply mono_eval.
  2: { intros e n m L. unfold h. destruct (error_display H e); cbn [or_panic].
       - apply mle_bind; [apply mle_refl | intros]. now apply eval_mle.
       - apply mle_bind; [apply mle_refl | intros]. now apply eval_mle. }
  split.
  - intros [E | (e & s1 & E1 & E2)]; [left; exact E |]. apply K in E2.
    destruct E2 as [(msg & D & E2) | (p & D & -> & ->)]; right; [left | right].
    + exists e, s1, msg. auto.
    + exists e, p. auto.
  - intros [E | [(e & s1 & msg & E1 & D & E2) | (e & p & E1 & D & ->)]]; [left; exact E | right | right].
    + exists e, s1. split; [exact E1 |]. apply K. eauto.
    + exists e, s'. split; [exact E1 |]. apply K. eauto.
Qed.

Example C30_example :
  effects_of "err@try (1 + 1) (e -> echo 9)" = []
  /\ value_of "err@try (1 + 1) (e -> echo 9)" = ROk (EInteger 2)
  /\ value_of "err@try (for i in 5 { 0 }) (e -> [e@code, e@expression])"
     = ROk (EList [EInteger 4; EGroup (EFor (lit "i") (EInteger 5) (EDo [EInteger 0]))]).
Proof. repeat split; vm_compute; reflexivity. Qed.

Print Assumptions C30_try.
