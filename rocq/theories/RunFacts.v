(** Running programs of the shell step by step: one rule per form of
    expression for evaluations that succeed, and a tactic that applies them. *)

From Coq Require Import String Lia Floats.SpecFloat.
From Verif Require Import Base Syntax Host Ops Monad Builtins Eval Init MapFacts CoreFacts EvalSpec
  OpsSpec EvalFacts LibFacts OpsFacts CurryFacts.

(** ** Looking up variables *)

Lemma found_here x v e : env_get x (env_define x v e) = Some v.
Proof. now rewrite env_get_define, str_eqb_refl. Qed.
Lemma found_below x y v e r :
  str_eqb x y = false -> env_get x e = r -> env_get x (env_define y v e) = r.
Proof. intros N E. now rewrite env_get_define, N. Qed.
Lemma found_captured x e p b c :
  str_eqb x CWD = false ->
  env_get x (capture e p b c)
  = if str_eqb x p then Some ENone
    else match env_get x c with
         | Some v => Some v
         | None => if existsb (str_eqb x) (used_symbols b) then env_get x e else None
         end.
Proof.
  intros N. unfold capture. rewrite capture_symbols_get. unfold env_set_cwd.
  rewrite !env_get_define, N. destruct (str_eqb x p); [now rewrite andb_false_r |].
  rewrite andb_true_r.
  destruct (env_get x c) as [v |] eqn:C.
  - assert (D : env_is_defined x c = true) by (apply env_is_defined_get; congruence).
    now rewrite D, andb_false_r.
  - assert (D : env_is_defined x c = false).
    { destruct (env_is_defined x c) eqn:D; [| reflexivity].
      apply env_is_defined_get in D. congruence. }
    rewrite D, andb_true_r. destruct (existsb _ _); [| reflexivity]. now destruct (env_get x e).
Qed.
Lemma found_inside x e p b c v :
  str_eqb x CWD = false -> str_eqb x p = false -> env_get x c = Some v ->
  env_get x (capture e p b c) = Some v.
Proof. intros A B C. now rewrite found_captured, B, C by exact A. Qed.
Lemma found_outside x e p b c r :
  str_eqb x CWD = false -> str_eqb x p = false -> env_get x c = None ->
  existsb (str_eqb x) (used_symbols b) = true -> env_get x e = r ->
  env_get x (capture e p b c) = r.
Proof. intros A B C D E. now rewrite found_captured, B, C, D by exact A. Qed.
Lemma found_nowhere x e p b c :
  str_eqb x CWD = false -> str_eqb x p = false -> env_get x c = None ->
  existsb (str_eqb x) (used_symbols b) = false -> env_get x (capture e p b c) = None.
Proof. intros A B C D. now rewrite found_captured, B, C, D by exact A. Qed.

Section Run.
  Variable H : host.
  Notation ev := (evaluates H).

  Lemma run_value d e s :
    (d <= MAX_DEPTH)%N ->
    match e with
    | ENone | EInteger _ | EFloat _ | EBoolean _ | EBytes _ | EString _
    | EMacro _ _ | EBuiltin _ => True
    | _ => False
    end -> ev d e s (ROk e) s.
  Proof. intros L F. apply rule_value; auto. Qed.

  Lemma run_quote d e s : (d <= MAX_DEPTH)%N -> ev d (EQuote e) s (ROk e) s.
  Proof. intros L. apply rule_quote; auto. Qed.

  Lemma run_symbol d x s v :
    (d <= MAX_DEPTH)%N -> env_get x (s_env s) = Some v -> ev d (ESymbol x) s (ROk v) s.
  Proof. intros L E. apply rule_symbol; [exact L |]. now rewrite E. Qed.

  Lemma run_free d x s :
    (d <= MAX_DEPTH)%N -> env_get x (s_env s) = None -> ev d (ESymbol x) s (ROk (ESymbol x)) s.
  Proof. intros L E. apply rule_symbol; [exact L |]. now rewrite E. Qed.

  Lemma run_group d e s r s' :
    (d <= MAX_DEPTH)%N -> ev (d + 1) e s r s' -> ev d (EGroup e) s r s'.
  Proof. intros L E. now apply rule_group. Qed.

  Lemma run_lambda d p b c s :
    (d <= MAX_DEPTH)%N ->
    ev d (ELambda p b c) s (ROk (ELambda p b (capture (s_env s) p b c))) s.
  Proof. intros L. apply rule_lambda; auto. Qed.

  Lemma run_assign d x e s v s1 :
    (d <= MAX_DEPTH)%N -> ev (d + 1) e s (ROk v) s1 ->
    ev d (EAssign x e) s (ROk ENone) (with_var x v s1).
  Proof. intros L E. apply rule_assign; [exact L |]. left. eauto. Qed.

  Lemma run_if d c t f s v s1 r s' :
    (d <= MAX_DEPTH)%N -> ev (d + 1) c s (ROk v) s1 ->
    ev (d + 1) (if is_truthy v then t else f) s1 r s' -> ev d (EIf c t f) s r s'.
  Proof. intros L E1 E2. apply rule_if; [exact L |]. left. eauto. Qed.

  Lemma run_do_nil d s : (d <= MAX_DEPTH)%N -> ev d (EDo []) s (ROk ENone) s.
  Proof.
    intros L. apply rule_do; [exact L |]. left. exists []. split; [constructor | reflexivity].
  Qed.

  Lemma run_do_one d x s v s' :
    (d <= MAX_DEPTH)%N -> ev (d + 1) x s (ROk v) s' -> ev d (EDo [x]) s (ROk v) s'.
  Proof.
    intros L E. apply rule_do; [exact L |]. left. exists [v]. split; [| reflexivity].
    econstructor; [exact E | constructor].
  Qed.

  Lemma run_do_more d x y l s v s1 w s' :
    (d <= MAX_DEPTH)%N -> ev (d + 1) x s (ROk v) s1 -> ev d (EDo (y :: l)) s1 (ROk w) s' ->
    ev d (EDo (x :: y :: l)) s (ROk w) s'.
  Proof.
    intros L E1 E2. apply rule_do in E2; [| exact L]. apply rule_do; [exact L |]. left.
    destruct E2 as [(vs & A & X) | (r1 & A & F)]; [| inversion F].
    exists (v :: vs). split; [now apply io_cons with s1 |].
    inversion A; subst; try match goal with F : fails _ (ROk _) |- _ => inversion F end.
    injection X as ->. reflexivity.
  Qed.

  Lemma run_list d l s vs s' :
    (d <= MAX_DEPTH)%N -> evaluates_all H (d + 1) l s (ROk vs) s' ->
    ev d (EList l) s (ROk (EList vs)) s'.
  Proof. intros L E. apply rule_list; [exact L |]. left. eauto. Qed.

  Lemma run_map d m s vs s' :
    (d <= MAX_DEPTH)%N -> evaluates_all H (d + 1) (map snd m) s (ROk vs) s' ->
    ev d (EMap m) s (ROk (EMap (combine (map fst m) vs))) s'.
  Proof. intros L E. apply rule_map; [exact L |]. left. eauto. Qed.

  Lemma run_all_nil d s : evaluates_all H d [] s (ROk []) s.
  Proof. constructor. Qed.

  Lemma run_all_cons d x l s v s1 vs s' :
    ev d x s (ROk v) s1 -> evaluates_all H d l s1 (ROk vs) s' ->
    evaluates_all H d (x :: l) s (ROk (v :: vs)) s'.
  Proof. intros E A. now apply io_cons with s1. Qed.

  Lemma run_for d x l b s items s1 vs s' :
    (d <= MAX_DEPTH)%N -> ev (d + 1) l s (ROk (EList items)) s1 ->
    in_order (iteration H (d + 1) x b) items s1 (ROk vs) s' ->
    ev d (EFor x l b) s (ROk (EList vs)) s'.
  Proof.
    intros L E A. apply rule_for; [exact L |]. left. exists items, s1. split; [exact E |].
    left. eauto.
  Qed.

  Lemma run_builtin_call d f b args s s1 r s' :
    (d <= MAX_DEPTH)%N -> ev (d + 1) f s (ROk (EBuiltin b)) s1 ->
    calls H (b_id b) args s1 r s' -> ev d (EApply f args) s r s'.
  Proof.
    intros L E C. apply rule_apply; [exact L |]. left. exists (EBuiltin b), s1.
    split; [exact E | exact C].
  Qed.

  Lemma run_call d f p b c a s s0 v s1 r s2 :
    (d <= MAX_DEPTH)%N -> ev (d + 1) f s (ROk (ELambda p b c)) s0 ->
    ev (d + 1) a s0 (ROk v) s1 ->
    ev (d + 1) b (with_env (call_env p v c (s_env s0)) s1) r s2 ->
    ev d (EApply f [a]) s r (with_env (s_env s1) s2).
  Proof.
    intros L E A B. apply rule_apply; [exact L |]. left. exists (ELambda p b c), s0.
    split; [exact E |]. apply apply_lambda1. left. eauto 8.
  Qed.

  Lemma run_call_more d f p b c a a2 rest s s0 v s1 g s2 r s' :
    (d <= MAX_DEPTH)%N -> ev (d + 1) f s (ROk (ELambda p b c)) s0 ->
    ev (d + 1) a s0 (ROk v) s1 ->
    ev (d + 1) b (with_env (call_env p v c (s_env s0)) s1) (ROk g) s2 ->
    ev (d + 1) (EApply g (a2 :: rest)) (with_env (s_env s1) s2) r s' ->
    ev d (EApply f (a :: a2 :: rest)) s r s'.
  Proof.
    intros L E A B R. apply rule_apply; [exact L |]. left. exists (ELambda p b c), s0.
    split; [exact E |]. apply apply_lambda2. left. eauto 8.
  Qed.

  Lemma run_macro d f p b a s s0 v s1 r s' :
    (d <= MAX_DEPTH)%N -> ev (d + 1) f s (ROk (EMacro p b)) s0 ->
    ev (d + 1) a s0 (ROk v) s1 -> ev (d + 1) b (with_var p v s1) r s' ->
    ev d (EApply f [a]) s r s'.
  Proof.
    intros L E A B. apply rule_apply; [exact L |]. left. exists (EMacro p b), s0.
    split; [exact E |]. apply apply_macro1. left. eauto.
  Qed.

  (** ** Builtin functions *)

  (** The operators [+ - * // %] with two operands. *)
  Lemma run_arith b op a1 a2 s x s1 y s2 r :
    arith_op b = Some op ->
    ev 0 a1 s (ROk x) s1 -> ev 0 a2 s1 (ROk y) s2 -> value x -> value y ->
    op x y = inl r -> r <> ENone ->
    calls H b [a1; a2] s (ROk r) s2.
  Proof.
    intros B E1 E2 V1 V2 O N.
    assert (A : evaluates_all H 0 [a1; a2] s (ROk [x; y]) s2)
      by (eapply run_all_cons; [exact E1 |]; eapply run_all_cons; [exact E2 | constructor]).
    pose proof (arith_operator H b op a1 a2 [] s x [y] s2 B A
                  (Forall_cons _ V1 (Forall_cons _ V2 (Forall_nil _)))) as R.
    cbn [afold] in R. rewrite O in R. destruct r; try exact R. now elim N.
  Qed.

  Definition compare_op (b : bid) : option (expr -> expr -> bool) :=
    match b with
    | BEq => Some expr_eqb
    | BNe => Some (fun a b => negb (expr_eqb a b))
    | BLt => Some expr_lt | BLe => Some expr_le | BGt => Some expr_gt | BGe => Some expr_ge
    | _ => None
    end.

  Lemma run_compare2 b f a1 a2 s x s1 y s2 t :
    compare_op b = Some f -> ev 0 a1 s (ROk x) s1 -> ev 0 a2 s1 (ROk y) s2 -> f x y = t ->
    calls H b [a1; a2] s (ROk (EBoolean t)) s2.
  Proof.
    intros B E1 E2 <-. apply sure_calls; [discriminate |].
    apply (sure_ext _ _ (fun n => run_compare (eval H n 0) f [a1; a2])).
    { intros n. destruct b; try discriminate B; injection B as <-; reflexivity. }
    unfold run_compare. eapply sure_ev_arg; [reflexivity | exact E1 |].
    eapply sure_ev_arg; [reflexivity | exact E2 |]. apply sure_ret.
  Qed.

  Definition logic_op (b : bid) : option (list expr -> bool) :=
    match b with
    | BAnd => Some (forallb is_truthy)
    | BOr => Some (existsb is_truthy)
    | BNot => Some (forallb (fun x => negb (is_truthy x)))
    | _ => None
    end.

  Lemma run_logical b f args s vs s' t :
    logic_op b = Some f -> evaluates_all H 0 args s (ROk vs) s' -> f vs = t ->
    calls H b args s (ROk (EBoolean t)) s'.
  Proof.
    intros B E <-. split; [discriminate |].
    assert (K : lim (fun n => l <- mapM (eval H n 0) args ;; ret (EBoolean (f l))) s
                  (ROk (EBoolean (f vs))) s').
    { apply (lim_bind _ _ _ (fun _ l => ret (EBoolean (f l))));
        [apply mono_all | intros; apply mono_const |].
      left. exists vs, s'. split; [now apply lim_mapM_eval | now apply lim_ret]. }
    destruct K as [_ [n K]]. exists n. rewrite <- K.
    destruct b; try discriminate B; injection B as <-; reflexivity.
  Qed.

  (** [a @ i] for an index that is written as a name or a number. *)
  Lemma run_at_name a i s v s1 r :
    match i with EInteger _ | ESymbol _ => True | _ => False end ->
    ev 0 a s (ROk v) s1 -> expr_index v i = r -> calls H BIndex [a; i] s (ROk r) s1.
  Proof.
    intros I E <-. call. unfold run_index. eapply sure_ev_arg; [reflexivity | exact E |].
    cbn [tl foldM]. destruct i; try contradiction; apply sure_const; reflexivity.
  Qed.

  Lemma run_at a i s v s1 w s2 r :
    match i with EInteger _ | ESymbol _ => False | _ => True end ->
    ev 0 a s (ROk v) s1 -> ev 0 i s1 (ROk w) s2 -> expr_index v w = r ->
    calls H BIndex [a; i] s (ROk r) s2.
  Proof.
    intros I E1 E2 <-. call. unfold run_index. eapply sure_ev_arg; [reflexivity | exact E1 |].
    cbn [tl foldM].
    assert (K : sure (fun n => v0 <- (w <- eval H n 0 i ;; ret (expr_index v w)) ;; ret v0) s1
                  (ROk (expr_index v w)) s2).
    { refine (sure_bind _ _ (fun n => w <- eval H n 0 i ;; ret (expr_index v w))
                (fun _ v0 => ret v0) _ _ _ _ _ _ (sure_ret _ _ _)).
      eapply sure_ev_bind; [exact E2 | apply sure_ret]. }
    destruct i; try contradiction; exact K.
  Qed.

  Lemma run_str_of a s v s1 :
    ev 0 a s (ROk v) s1 -> calls H BStr [a] s (ROk (EString (display H v))) s1.
  Proof.
    intros E. call. unfold run_str. eapply sure_ev_arg; [reflexivity | exact E |]. apply sure_ret.
  Qed.

  Lemma run_int_of_float a s f s1 :
    ev 0 a s (ROk (EFloat f)) s1 -> calls H BInt [a] s (ROk (EInteger (f64_to_int f))) s1.
  Proof.
    intros E. call. unfold run_int. eapply sure_ev_arg; [reflexivity | exact E |]. apply sure_ret.
  Qed.

  Lemma run_len_of_text a s t s1 :
    ev 0 a s (ROk (EString t)) s1 ->
    calls H BLen [a] s (ROk (EInteger (as_int (Z.of_nat (length t))))) s1.
  Proof.
    intros E. call. unfold run_len. eapply sure_ev_arg; [reflexivity | exact E |]. apply sure_ret.
  Qed.
End Run.

(** ** Integers *)

Lemma add_ints a b : fits (a + b) -> pure_op expr_add (EInteger a) (EInteger b) = inl (EInteger (a + b)).
Proof. intros F. apply in_i64_fits in F. unfold pure_op, expr_add, checked. now rewrite F. Qed.
Lemma sub_ints a b : fits (a - b) -> pure_op expr_sub (EInteger a) (EInteger b) = inl (EInteger (a - b)).
Proof. intros F. apply in_i64_fits in F. unfold pure_op, expr_sub, checked. now rewrite F. Qed.
Lemma rem_ints a b : b <> 0%Z -> fits (Z.quot a b) ->
  expr_rem (EInteger a) (EInteger b) = inl (EInteger (Z.rem a b)).
Proof.
  intros N F. apply in_i64_fits in F. apply Z.eqb_neq in N. unfold expr_rem. now rewrite N, F.
Qed.
Lemma rem_ints_pos a b : fits a -> (0 < b)%Z ->
  expr_rem (EInteger a) (EInteger b) = inl (EInteger (Z.rem a b)).
Proof.
  intros F P. apply rem_ints; [lia |]. unfold fits in *.
  destruct (Z.le_gt_cases 0 a).
  - pose proof (Z.quot_pos a b). pose proof (Z.quot_le_upper_bound a b a). nia.
  - pose proof (Z.quot_opp_l a b). pose proof (Z.quot_pos (- a) b).
    pose proof (Z.quot_le_upper_bound (- a) b (- a)). nia.
Qed.
Lemma quot_ints_pos a b : fits a -> (0 < b)%Z ->
  pure_op expr_div (EInteger a) (EInteger b) = inl (EInteger (Z.quot a b)).
Proof.
  intros F P. unfold pure_op, expr_div, checked. replace (b =? 0)%Z with false by (symmetry; apply Z.eqb_neq; lia).
  assert (X : in_i64 (Z.quot a b) = true).
  { apply in_i64_fits. unfold fits in *.
    destruct (Z.le_gt_cases 0 a).
    - pose proof (Z.quot_pos a b). pose proof (Z.quot_le_upper_bound a b a). nia.
    - pose proof (Z.quot_opp_l a b). pose proof (Z.quot_pos (- a) b).
      pose proof (Z.quot_le_upper_bound (- a) b (- a)). nia. }
  now rewrite X.
Qed.

Lemma div_int_float a q :
  pure_op expr_div (EInteger a) (EFloat q) = inl (EFloat (f64_div (f64_of_int a) q)).
Proof. reflexivity. Qed.

Lemma eq_ints a b : expr_eqb (EInteger a) (EInteger b) = (a =? b)%Z.
Proof. reflexivity. Qed.
Lemma lt_ints a b : expr_lt (EInteger a) (EInteger b) = (a <? b)%Z.
Proof. reflexivity. Qed.
Lemma le_ints a b : expr_le (EInteger a) (EInteger b) = (a <=? b)%Z.
Proof. unfold expr_le, Z.leb. cbn. now destruct (a ?= b)%Z. Qed.
Lemma gt_ints a b : expr_gt (EInteger a) (EInteger b) = (a >? b)%Z.
Proof. reflexivity. Qed.
Lemma ge_ints a b : expr_ge (EInteger a) (EInteger b) = (a >=? b)%Z.
Proof. unfold expr_ge, Z.geb. cbn. now destruct (a ?= b)%Z. Qed.

(** ** The tactic *)

Ltac run_depth := first [vm_compute; discriminate | unfold MAX_DEPTH in *; lia].

(** Looks up a variable that is known by name. *)
Ltac run_lookup :=
  unfold call_env, env_set_cwd; cbn [s_env with_env with_var];
  lazymatch goal with
  | |- env_get _ (Env [] None) = _ => reflexivity
  | |- env_get _ env_new = _ => reflexivity
  | |- env_get ?x (env_define ?y _ _) = _ =>
      first [ apply found_here
            | apply found_below; [vm_compute; reflexivity | run_lookup] ]
  | |- env_get _ (capture _ _ _ _) = _ =>
      first [ apply found_inside; [vm_compute; reflexivity .. | run_lookup]
            | apply found_outside;
              [vm_compute; reflexivity | vm_compute; reflexivity | run_lookup
              | vm_compute; reflexivity | run_lookup]
            | apply found_nowhere;
              [vm_compute; reflexivity | vm_compute; reflexivity | run_lookup
              | vm_compute; reflexivity] ]
  | |- _ => eassumption
  end.

Lemma run_end H d e s r s1 s2 : evaluates H d e s r s1 -> s1 = s2 -> evaluates H d e s r s2.
Proof. now intros E <-. Qed.

Lemma run_exact H d e s v s1 w s2 :
  evaluates H d e s (ROk v) s1 -> v = w -> s1 = s2 -> evaluates H d e s (ROk w) s2.
Proof. now intros E <- <-. Qed.

(** [*], [//] and [%] take their operands one at a time. *)
Lemma run_curried H d f b nm a1 a2 s s0 x s1 y s2 op r :
  (d + 4 <= MAX_DEPTH)%N -> evaluates H (d + 1) f s (ROk (curry (EBuiltin (Bi b nm)) 2)) s0 ->
  evaluates H (d + 1) a1 s0 (ROk x) s1 -> evaluates H (d + 1 + 1) a2 s1 (ROk y) s2 ->
  arith_op b = Some op -> value x -> value y -> op x y = inl r -> r <> ENone ->
  evaluates H d (EApply f [a1; a2]) s (ROk r) s2.
Proof.
  intros L F A1 A2 B V1 V2 O N. unfold curry, curry_env, curry_lambdas in F. cbn [map seq fold_right] in F.
  eapply run_call_more; [lia | exact F | exact A1 | eapply run_lambda; lia |].
  match goal with |- evaluates _ _ _ ?t _ _ => replace t with s1 by now destruct s1 end.
  eapply run_end.
  - eapply run_call; [lia | eapply run_lambda; lia | exact A2 |].
    eapply run_builtin_call; [lia | apply run_value; [lia | exact I] |].
    eapply run_arith;
      [exact B | eapply run_symbol; [lia | run_lookup] | eapply run_symbol; [lia | run_lookup]
      | exact V1 | exact V2 | exact O | exact N].
  - now destruct s2.
Qed.

Ltac run_state := unfold call_env; cbn [with_env with_var s_env s_trace s_log].

Ltac run_is_value :=
  first [apply value_int | apply value_string | apply value_bool | apply value_float].

(** Side conditions about integers are proved by [lia] or left. *)
Ltac run_fits := unfold fits in *; lia.
Ltac run_op :=
  lazymatch goal with
  | |- pure_op expr_add (EInteger _) (EInteger _) = _ => apply add_ints; try run_fits
  | |- pure_op expr_sub (EInteger _) (EInteger _) = _ => apply sub_ints; try run_fits
  | |- pure_op expr_div (EInteger _) (EFloat _) = _ => apply div_int_float
  | |- pure_op expr_div (EInteger _) (EInteger _) = _ => apply quot_ints_pos; [try run_fits | lia]
  | |- expr_rem (EInteger _) (EInteger _) = _ => apply rem_ints_pos; [try run_fits | lia]
  | |- _ => reflexivity
  end.

Ltac run_bool := first [apply eq_ints | apply lt_ints | apply le_ints | apply gt_ints | apply ge_ints | run_bool_compute]
with run_bool_compute :=
  cbn [expr_eqb expr_lt expr_le expr_gt expr_ge expr_cmp forallb existsb is_truthy andb orb negb];
  reflexivity.
Ltac run_index_value := first [eassumption | run_lookup_index | reflexivity]
with run_lookup_index :=
  lazy beta iota zeta delta
    [expr_index bm_get bm_insert str_eqb str_cmp N.eqb Pos.eqb andb];
  reflexivity.

(** Calls of functions that have a rule of their own; more are added later. *)
Ltac run_special := fail.

(** Runs a program as far as its conditions are decided. *)
Ltac run :=
  run_state;
  lazymatch goal with
  | |- evaluates _ _ (EInteger _) _ _ _ => apply run_value; [run_depth | exact I]
  | |- evaluates _ _ (EString _) _ _ _ => apply run_value; [run_depth | exact I]
  | |- evaluates _ _ (EFloat _) _ _ _ => apply run_value; [run_depth | exact I]
  | |- evaluates _ _ (EBoolean _) _ _ _ => apply run_value; [run_depth | exact I]
  | |- evaluates _ _ (EBuiltin _) _ _ _ => apply run_value; [run_depth | exact I]
  | |- evaluates _ _ (EMacro _ _) _ _ _ => apply run_value; [run_depth | exact I]
  | |- evaluates _ _ ENone _ _ _ => apply run_value; [run_depth | exact I]
  | |- evaluates _ _ (EQuote _) _ _ _ => apply run_quote; run_depth
  | |- evaluates _ _ (ESymbol _) _ _ _ =>
      first [ eapply run_symbol; [run_depth | run_lookup]
            | eapply run_free; [run_depth | run_lookup] ]
  | |- evaluates _ _ (EGroup _) _ _ _ => eapply run_group; [run_depth | run]
  | |- evaluates _ _ (ELambda _ _ _) _ _ _ => eapply run_lambda; run_depth
  | |- evaluates _ _ (EAssign _ _) _ _ _ => eapply run_assign; [run_depth | run]
  | |- evaluates _ _ (EIf _ _ _) _ _ _ =>
      eapply run_if; [run_depth | run | cbn [is_truthy]; run]
  | |- evaluates _ _ (if _ then _ else _) _ _ _ =>
      repeat match goal with
        | X : ?b = true |- context [?b] => rewrite X
        | X : ?b = false |- context [?b] => rewrite X
        end; cbn [andb orb negb];
      lazymatch goal with
      | |- evaluates _ _ (if _ then _ else _) _ _ _ => idtac
      | |- _ => run
      end
  | |- evaluates _ _ (EDo []) _ _ _ => eapply run_do_nil; run_depth
  | |- evaluates _ _ (EDo [_]) _ _ _ => eapply run_do_one; [run_depth | run]
  | |- evaluates _ _ (EDo (_ :: _ :: _)) _ _ _ => eapply run_do_more; [run_depth | run | run]
  | |- evaluates _ _ (EList _) _ _ _ => eapply run_list; [run_depth | run]
  | |- evaluates _ _ (EMap _) _ _ _ => eapply run_map; [run_depth |]; cbn [map fst snd]; run
  | |- evaluates_all _ _ [] _ _ _ => apply run_all_nil
  | |- evaluates_all _ _ (_ :: _) _ _ _ => eapply run_all_cons; [run | run]
  | |- evaluates _ _ (EApply _ _) _ _ _ =>
      first
        [ run_special
        | eapply run_curried;
          [run_depth | solve [run] | run | run | reflexivity | run_is_value | run_is_value | run_op
          | discriminate]
        | eapply run_builtin_call; [run_depth | solve [run] | cbn [b_id]; run]
        | eapply run_call; [run_depth | solve [run] | run | run]
        | eapply run_call_more; [run_depth | solve [run] | run | run | run]
        | eapply run_macro; [run_depth | solve [run] | run | run]
        | idtac ]
  | |- calls _ _ _ _ _ _ =>
      first
        [ eapply run_arith; [reflexivity | run | run | run_is_value | run_is_value | run_op | discriminate]
        | eapply run_compare2; [reflexivity | run | run | run_bool]
        | eapply run_logical; [reflexivity | run | run_bool]
        | eapply run_at_name; [exact I | run | run_index_value]
        | eapply run_at; [exact I | run | run | run_index_value]
        | eapply run_str_of; run
        | eapply run_int_of_float; run
        | eapply run_len_of_text; run
        | idtac ]
  | |- _ => idtac
  end.
