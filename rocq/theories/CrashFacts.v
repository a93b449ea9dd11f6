(** Where crashes and syntax errors come from. *)

From Coq Require Import String.
From Verif Require Import Base Syntax Host Ops Parser ErrorFmt Text Monad Builtins Eval ReplSpec
  P_ErrShow CrashSpec.

(** A syntax error is one of the parser. *)
Definition okerr (e : error) : Prop :=
  match e with SyntaxErr t x => rejected t x | _ => True end.

Section Crash.
  Variable H : host.
  Variable ev : expr -> M expr.
  Variable K : panic -> Prop.
  Hypothesis EV : forall x s e s', ev x s = (RErr e, s') -> okerr e.

  (** A crash of [m] is one of those in [K] or that of an evaluation, and a
      syntax error is one of the parser. *)
  Definition from {A} (m : M A) : Prop :=
    forall s r s', m s = (r, s') ->
      match r with
      | RPanic p => K p \/ exists x s1 s2, ev x s1 = (RPanic p, s2)
      | RErr e => okerr e
      | _ => True
      end.

  Lemma from_ret A (a : A) : from (ret a).
  Proof. intros s r s' E. injection E as <- <-. exact I. Qed.
  Lemma from_throw A e : okerr e -> from (@throw A e).
  Proof. intros O s r s' E. injection E as <- <-. exact O. Qed.
  Lemma from_exits A e : from (@exits A e).
  Proof. intros s r s' E. injection E as <- <-. exact I. Qed.
  Lemma from_fuel A : from (@out_of_fuel A).
  Proof. intros s r s' E. injection E as <- <-. exact I. Qed.
  Lemma from_get_env : from get_env.
  Proof. intros s r s' E. injection E as <- <-. exact I. Qed.
  Lemma from_put_env e : from (put_env e).
  Proof. intros s r s' E. injection E as <- <-. exact I. Qed.
  Lemma from_get_log : from get_log.
  Proof. intros s r s' E. injection E as <- <-. exact I. Qed.
  Lemma from_put_log e : from (put_log e).
  Proof. intros s r s' E. injection E as <- <-. exact I. Qed.
  Lemma from_ask q : from (ask H q).
  Proof. intros s r s' E. injection E as <- <-. exact I. Qed.
  Lemma from_ev x : from (ev x).
  Proof.
    intros s r s' E. destruct r as [a|e|p|c|]; try exact I; [exact (EV _ _ _ _ E) |].
    right. exists x, s, s'. exact E.
  Qed.
  Lemma from_panics A p : K p -> from (@panics A p).
  Proof. intros k s r s' E. injection E as <- <-. now left. Qed.
  Lemma from_bind A B (m : M A) (k : A -> M B) : from m -> (forall a, from (k a)) -> from (bind m k).
  Proof.
    intros X Y s r s' E. unfold bind in E. destruct (m s) as [[a|e|q|c|] s1] eqn:EM;
      [exact (Y a _ _ _ E) | | | |]; injection E as <- <-; exact (X _ _ _ EM).
  Qed.
  Lemma from_catch A (m : M A) h : from m -> (forall e, okerr e -> from (h e)) -> from (catch m h).
  Proof.
    intros X Y s r s' E. unfold catch in E. destruct (m s) as [[a|e|q|c|] s1] eqn:EM;
      [| exact (Y e (X _ _ _ EM) _ _ _ E) | | |]; injection E as <- <-; exact (X _ _ _ EM).
  Qed.
  Lemma from_in_env A e (m : M A) : from m -> from (in_env e m).
  Proof.
    intros X s r s' E. unfold in_env in E. destruct (m _) as [r1 s1] eqn:EM. injection E as <- _. exact (X _ _ _ EM).
  Qed.
  Lemma from_mapM A B (f : A -> M B) l : (forall a, from (f a)) -> from (mapM f l).
  Proof.
    intros X. induction l as [|a l IH]; [apply from_ret|]. cbn [mapM].
    apply from_bind; [apply X|intros b]. apply from_bind; [exact IH|intros c; apply from_ret].
  Qed.
  Lemma from_foldM A B (f : B -> A -> M B) l : forall b, (forall b a, from (f b a)) -> from (foldM f b l).
  Proof.
    induction l as [|a l IH]; intros b X; [apply from_ret|]. cbn [foldM]. apply from_bind; [apply X|intros c; now apply IH].
  Qed.
  Lemma from_define x v : from (define x v).
  Proof. unfold define. apply from_bind; [apply from_get_env|intros; apply from_put_env]. Qed.
  Lemma from_print t : from (print H t).
  Proof. unfold print. apply from_bind; [apply from_ask|intros; apply from_ret]. Qed.
  Lemma from_or_panic A (r : A + panic) : (forall p, r = inr p -> K p) -> from (or_panic r).
  Proof. intros X. destruct r as [a|p]; [apply from_ret|apply from_panics; auto]. Qed.
  (** A test that lets pass when [P]. *)
  Lemma from_test B (P : Prop) (m : M unit) (k : unit -> M B) :
    (forall s, (m s = (ROk tt, s) /\ P) \/ exists e, m s = (RErr (CustomError e), s)) ->
    (P -> from (k tt)) -> from (bind m k).
  Proof.
    intros T X s r s' E. unfold bind in E. destruct (T s) as [[Y p]|[e Y]]; rewrite Y in E.
    - exact (X p _ _ _ E).
    - injection E as <- <-. exact I.
  Qed.
  Lemma from_check B name args n (k : unit -> M B) :
    (length args = n -> from (k tt)) -> from (bind (check_exact name args n) k).
  Proof.
    apply from_test. intros s. unfold check_exact. destruct (Nat.eqb_spec (length args) n) as [E|E]; [now left |].
    right. destruct (Nat.ltb _ _); eexists; reflexivity.
  Qed.
  Lemma from_upto B name args n (k : unit -> M B) :
    (1 <= length args <= n -> from (k tt)) -> from (bind (check_upto name args n) k).
  Proof.
    apply from_test. intros s. unfold check_upto.
    destruct (Nat.leb_spec 1 (length args)), (Nat.leb_spec (length args) n); cbn [andb]; [now left | | |];
      right; destruct (Nat.ltb _ _); eexists; reflexivity.
  Qed.
  Lemma from_check12 B name args (k : unit -> M B) :
    (1 <= length args <= 2 -> from (k tt)) -> from (bind (check_one_or_two name args) k).
  Proof.
    apply from_test. intros s. unfold check_one_or_two.
    destruct (Nat.leb_spec 1 (length args)), (Nat.leb_spec (length args) 2); cbn [andb]; [now left | | |];
      right; eexists; reflexivity.
  Qed.
  Lemma from_check2 B name args (k : unit -> M B) :
    (2 <= length args -> from (k tt)) -> from (bind (check_two_or_more name args) k).
  Proof.
    apply from_test. intros s. unfold check_two_or_more. destruct (Nat.leb_spec 2 (length args)); [now left |].
    right; eexists; reflexivity.
  Qed.
  Lemma from_require B n args msg (k : unit -> M B) :
    (length args = n -> from (k tt)) -> from (bind (require_len n args msg) k).
  Proof.
    apply from_test. intros s. unfold require_len. destruct (Nat.eqb_spec (length args) n); [now left |].
    right; eexists; reflexivity.
  Qed.
  Lemma from_arg0 args i : (length args <= i -> K PIndex) -> from (arg args i).
  Proof.
    intros L s r s' R. unfold arg in R. destruct (nth_error args i) eqn:E; injection R as <- _; [exact I |].
    left. apply L. now apply nth_error_None.
  Qed.
  Lemma from_ev_arg args i : (length args <= i -> K PIndex) -> from (ev_arg ev args i).
  Proof. intros L. apply from_bind; [now apply from_arg0 | intros a; apply from_ev]. Qed.
  Lemma from_parse t : (parse_script t = SPanic -> K PBoundary) -> from (parse_m t).
  Proof.
    intros X s r s' E. unfold parse_m in E. destruct (parse_script t) eqn:P; injection E as <- <-; try exact I.
    - now left.
    - now right.
    - left. now apply X.
  Qed.
End Crash.

Ltac fstep :=
  match goal with
  | |- from _ _ (ret _) => apply from_ret
  | |- from _ _ (throw _) => apply from_throw; (exact I || assumption)
  | |- from _ _ (custom _) => apply from_throw; (exact I || assumption)
  | |- from _ _ (exits _) => apply from_exits
  | |- from _ _ out_of_fuel => apply from_fuel
  | |- from _ _ get_env => apply from_get_env
  | |- from _ _ (put_env _) => apply from_put_env
  | |- from _ _ get_log => apply from_get_log
  | |- from _ _ (put_log _) => apply from_put_log
  | |- from _ _ (ask _ _) => apply from_ask
  | |- from _ _ (print _ _) => apply from_print
  | |- from _ _ (panics _) => apply from_panics
  | |- from _ _ (define _ _) => apply from_define
  | |- from ?ev _ (?ev _) => apply from_ev; assumption
  | |- from _ _ (ev_arg _ _ _) => apply from_ev_arg; [assumption|intros ?]
  | |- from _ _ (arg _ _) => apply from_arg0; intros ?
  | |- from _ _ (or_panic (inl _)) => apply from_ret
  | |- from _ _ (or_panic _) => apply from_or_panic; intros ? ?
  | |- from _ _ (bind (check_exact _ _ _) _) => apply from_check; intros ?
  | |- from _ _ (bind (check_upto _ _ _) _) => apply from_upto; intros ?
  | |- from _ _ (parse_m _) => apply from_parse; intros ?
  | |- from _ _ (bind (check_one_or_two _ _) _) => apply from_check12; intros ?
  | |- from _ _ (bind (check_two_or_more _ _) _) => apply from_check2; intros ?
  | |- from _ _ (bind (require_len _ _ _) _) => apply from_require; intros ?
  | |- from _ _ (bind (if Nat.eqb (length ?args) ?n then ret tt else custom ?m) _) =>
      apply (from_require _ _ _ n args m); intros ?
  | |- from _ _ (bind _ _) => apply from_bind; [|intros ?]
  | |- from _ _ (catch _ _) => apply from_catch; [|intros ? ?]
  | |- from _ _ (in_env _ _) => apply from_in_env
  | |- from _ _ (mapM _ _) => apply from_mapM; intros ?
  | |- from _ _ (foldM _ _ _) => apply from_foldM; intros ? ?
  | H : forall x, from _ _ _ |- from _ _ _ => apply H
  | H : forall x y, from _ _ _ |- from _ _ _ => apply H
  | H : forall x y z, from _ _ _ |- from _ _ _ => apply H
  | |- from _ _ (if Nat.ltb ?a ?b then _ else _) => destruct (Nat.ltb_spec a b)
  | |- from _ _ (if Nat.leb ?a ?b then _ else _) => destruct (Nat.leb_spec a b)
  | |- from _ _ (match h_overflow ?h with _ => _ end) => destruct (h_overflow h) eqn:?
  | |- from _ _ (match ?x with _ => _ end) => destruct x
  end.

(** ** The builtin functions *)

Section Builtins.
  Variable H : host.
  Variable ev : expr -> M expr.
  Variable K : panic -> Prop.
  Hypothesis EV : forall x s e s', ev x s = (RErr e, s') -> okerr e.
  Notation fr := (from ev K).

  Ltac go := repeat fstep.

  Lemma f_cmd x : fr (expr_to_command H ev x).
  Proof.
    assert (SC : forall p l, fr (stage_command H ev p l)).
    { intros p l. unfold stage_command, stage_args. go. }
    induction x using expr_ind2 with (Q := fun _ => True); simpl; auto; go;
      try (destruct x; go); try apply SC.
  Qed.
  Lemma f_stages l : forall b acc, fr (run_stages H ev b acc l).
  Proof. induction l as [|x l IH]; intros b acc; cbn [run_stages]; [apply from_ret|].
   apply from_bind; [|intros; apply IH]. unfold run_stage. apply from_bind; [apply f_cmd|intros c]. go. Qed.
  Ltac fix_step :=
    match goal with
    | IH : context [from] |- from _ _ _ => solve [apply IH]
    | _ => fstep
    end.
  Ltac gof := repeat fix_step.
  Lemma f_print show last l : fr (run_print H ev show last l).
  Proof. induction l as [|x l IH]; cbn [run_print]; [go|]. destruct l; go. exact IH. Qed.
  Lemma f_filterM f l : fr (filterM ev f l).
  Proof. induction l as [|x l IH]; cbn [filterM]; gof. Qed.
  Lemma f_pieces p l : fr (log_pieces H p l).
  Proof. induction l as [|x l IH]; cbn [log_pieces]; [go|]. destruct l; gof. Qed.
  Lemma f_log p l : forall b, fr (log_args H ev p b l).
  Proof. pose proof f_pieces. induction l as [|x l IH]; intros b; cbn [log_args]; gof. Qed.
  Lemma f_help l : fr (run_help H ev l).
  Proof. induction l as [|x l IH]; cbn [run_help]; gof. Qed.
  Lemma f_joinx l : forall i h, fr (joinx_args H ev i h l).
  Proof. induction l as [|x l IH]; intros i h; cbn [joinx_args]; gof. Qed.
  Lemma f_joiny l : K PUnwrap -> forall i h, fr (joiny_args H ev i h l).
  Proof. intros KU. induction l as [|x l IH]; intros i h; cbn [joiny_args]; gof; auto. Qed.
  Lemma f_glob c p l : fr (glob_paths c p l).
  Proof. induction l as [|x l IH]; cbn [glob_paths]; gof. Qed.
  Lemma f_shuffle i : forall l, fr (shuffle H i l).
  Proof. induction i as [|i IH]; intros l; cbn [shuffle]; gof. unfold sample. gof. Qed.
  Lemma f_write l : (forall n p, arith (h_overflow H) n = inr p -> K p) -> forall x y k, fr (write_lines H x y k l).
  Proof. intros X. induction l as [|t l IH]; intros x y k; cbn [write_lines]; gof; eauto. Qed.

  Ltac bstep :=
    match goal with
    | |- from _ _ (run_help _ _ _) => apply f_help
    | |- from _ _ (run_stages _ _ _ _ _) => apply f_stages
    | |- from _ _ (run_print _ _ _ _ _) => apply f_print
    | |- from _ _ (filterM _ _ _) => apply f_filterM
    | |- from _ _ (log_args _ _ _ _ _) => apply f_log
    | |- from _ _ (log_pieces _ _ _) => apply f_pieces
    | |- from _ _ (joinx_args _ _ _ _ _) => apply f_joinx
    | |- from _ _ (joiny_args _ _ _ _ _) => apply f_joiny
    | |- from _ _ (glob_paths _ _ _) => apply f_glob
    | |- from _ _ (shuffle _ _ _) => apply f_shuffle
    | |- from _ _ run_vars => unfold run_vars
    | |- from _ _ run_cwd => unfold run_cwd
    | |- from _ _ (write_lines _ _ _ _ _) => apply f_write; intros ? ? ?
    | _ => fstep
    | |- from _ _ (?f _ _ _ _ _ _ _) => unfold f; cbv beta zeta
    | |- from _ _ (?f _ _ _ _ _ _) => unfold f; cbv beta zeta
    | |- from _ _ (?f _ _ _ _ _) => unfold f; cbv beta zeta
    | |- from _ _ (?f _ _ _ _) => unfold f; cbv beta zeta
    | |- from _ _ (?f _ _ _) => unfold f; cbv beta zeta
    | |- from _ _ (?f _ _) => unfold f; cbv beta zeta
    | |- from _ _ (?f _) => unfold f; cbv beta zeta
    end.

  (** Crashes of arithmetic only happen with overflow checks. *)
  Lemma arith_crash n p : arith (h_overflow H) n = inr p -> h_overflow H = OvfPanic /\ p = PArith.
  Proof.
    unfold arith. intros E. destruct (in_i64 n); [discriminate |].
    destruct (h_overflow H); [| discriminate]. injection E as <-. now split.
  Qed.
  Lemma fact_crash l : forall acc p, fact_loop H l acc = inr p -> h_overflow H = OvfPanic /\ p = PArith.
  Proof.
    induction l as [|n l IH]; intros acc p E; cbn [fact_loop] in E; [discriminate |].
    destruct (arith _ _) as [z|q] eqn:A; [exact (IH _ _ E) |]. injection E as <-. exact (arith_crash _ _ A).
  Qed.
  Lemma caesar_crash i s p : caesar (h_overflow H) i s = inr p -> h_overflow H = OvfPanic /\ p = PArith.
  Proof.
    unfold caesar. revert p. induction s as [|c s IH]; intros p E; cbn [map_panic] in E; [discriminate |].
    destruct (caesar_chr _ i c) as [d|q] eqn:C.
    - destruct (map_panic _ s) as [l|q]; [discriminate |]. injection E as <-. now apply IH.
    - injection E as <-. unfold caesar_chr in C. destruct (_ || _); [| discriminate].
      destruct (_ <? _)%N; [discriminate |]. destruct (h_overflow H); [| discriminate].
      injection C as <-. now split.
  Qed.
  Lemma neg_crash a p : expr_neg (h_overflow H) a = inr p -> h_overflow H = OvfPanic /\ p = PNegOverflow.
  Proof.
    unfold expr_neg. intros E. destruct a; try discriminate. destruct (in_i64 _); [discriminate |].
    destruct (h_overflow H); [| discriminate]. injection E as <-. now split.
  Qed.
  Lemma mul_crash a b p : expr_mul a b = inr p -> p = PCapacity.
  Proof.
    unfold expr_mul, str_repeat. intros E. destruct a, b; try discriminate;
      destruct (_ <? _)%N; try discriminate; now injection E as <-.
  Qed.
  Lemma rem_crash a b p : expr_rem a b = inr p -> p = PRemZero.
  Proof.
    unfold expr_rem. intros E. destruct a, b; try discriminate.
    destruct (_ =? _)%Z; [now injection E as <- |]. destruct (in_i64 _); [discriminate |]. now injection E as <-.
  Qed.
  Lemma try_crash e p : okerr e -> error_display H e = inr p -> h_overflow H = OvfPanic /\ p = PArith.
  Proof.
    intros O E. destruct e; try discriminate. cbn [okerr] in O.
    destruct (C103_crash H _ _ p O E) as (P & V & _). now split.
  Qed.
  (** A random position is one of the list. *)
  Lemma choose_from args : (K PAssert) -> fr (run_choose H ev args).
  Proof.
    intros KA. unfold run_choose, exact1. apply from_check. intros L. apply from_bind; [go; lia |].
    intros v. destruct v; try (apply from_throw; exact I). destruct l as [|x l]; [now apply from_panics |].
    intros s r s' E. unfold bind, sample, ask, ret in E. cbv beta iota zeta in E. cbn [bind ret] in E. unfold bind in E; cbv beta iota zeta in E.
    match type of E with context [nth_error ?l (Z.to_nat ?i)] =>
      assert (B : (0 <= i < Z.of_nat (length l))%Z); [| destruct (nth_error l (Z.to_nat i)) as [y|] eqn:N] end.
    - destruct (h_answer H _ _); try (cbn [length]; lia).
      destruct (_ && _) eqn:C; [| cbn [length]; lia]. apply andb_prop in C.
      rewrite Z.leb_le, Z.ltb_lt in C. exact C.
    - injection E as <- _. exact I.
    - apply nth_error_None in N. exfalso. clear - N B. lia.
  Qed.

  Ltac crash KI :=
    first
    [ exfalso; cbn [length] in *; lia
    | match goal with E : parse_script (lit _) = SPanic |- _ => vm_compute in E; discriminate E end
    | match goal with E : parse_script filter_source = SPanic |- _ => exfalso; vm_compute in E; discriminate E end
    | apply KI; left; split; [reflexivity | cbn [needs length]; lia]
    | apply KI; right; left; cbn [crashes In]; now auto
    | apply KI; right; right; split; [(reflexivity || assumption) | cbn [overflows In]; now auto]
    | match goal with
      | E : arith _ _ = inr ?p |- _ =>
          destruct (arith_crash _ _ E) as [? ->]; apply KI; right; right; split; [(reflexivity || assumption) | cbn [overflows In]; now auto]
      | E : fact_loop _ _ _ = inr ?p |- _ =>
          destruct (fact_crash _ _ _ E) as [? ->]; apply KI; right; right; split; [(reflexivity || assumption) | cbn [overflows In]; now auto]
      | E : caesar _ _ _ = inr ?p |- _ =>
          destruct (caesar_crash _ _ _ E) as [? ->]; apply KI; right; right; split; [(reflexivity || assumption) | cbn [overflows In]; now auto]
      | E : expr_neg _ _ = inr ?p |- _ =>
          destruct (neg_crash _ _ E) as [? ->]; apply KI; right; right; split; [(reflexivity || assumption) | cbn [overflows In]; now auto]
      | E : expr_mul _ _ = inr ?p |- _ =>
          rewrite (mul_crash _ _ _ E); apply KI; right; left; cbn [crashes In]; now auto
      | E : expr_rem _ _ = inr ?p |- _ =>
          rewrite (rem_crash _ _ _ E); apply KI; right; left; cbn [crashes In]; now auto
      | O : okerr ?e, E : error_display _ ?e = inr ?p |- _ =>
          destruct (try_crash _ _ O E) as [? ->]; apply KI; right; right; split; [(reflexivity || assumption) | cbn [overflows In]; now auto]
      | E : pure_op _ _ _ = inr _ |- _ => discriminate E
      end ].

  Lemma builtin_from b args : (forall p, can_crash (h_overflow H) b (length args) p -> K p) ->
    fr (run_builtin H ev b args).
  Proof.
    intros KI. destruct b eqn:EB; cbn [run_builtin];
      try (apply choose_from; apply KI; right; left; cbn [crashes In]; now auto);
      repeat bstep; try crash KI.
  Qed.
End Builtins.

(** ** Evaluation *)

(** A call of a builtin function that crashes with [p]. *)
Definition crashing (H : host) (p : panic) : Prop :=
  exists n b args s1 s2,
    can_crash (h_overflow H) b (length args) p
    /\ run_builtin H (eval H n 0) b args s1 = (RPanic p, s2).

Section Evaluation.
  Variable H : host.
  Let idle : expr -> M expr := fun _ => ret ENone.
  Notation ok := (from idle (crashing H)).

  Ltac go := repeat fstep.

  Lemma eval_body_ok rec ev0 e : (forall x, ok (rec x)) ->
    (forall b args, ok (run_builtin H ev0 b args)) -> ok (eval_body H rec ev0 e).
  Proof.
    intros R B.
    assert (SEQ : forall l, ok (seqM rec l)).
    { induction l as [|x l IH]; cbn [seqM]; [go |]. destruct l; [apply R |].
      apply from_bind; [apply R | intros; exact IH]. }
    assert (MAP : forall m, ok (map_values rec m)).
    { induction m as [|[k x] m IH]; cbn [map_values]; [go |].
      apply from_bind; [apply R | intros]. apply from_bind; [exact IH | intros; apply from_ret]. }
    assert (APP : forall g f args, ok (apply_value H rec ev0 g f args)).
    { intros g f args. unfold apply_value, run_command. destruct g; go. }
    destruct e; cbn [eval_body]; go; auto.
  Qed.

  Lemma eval_ok n : forall d e, ok (eval H n d e).
  Proof.
    induction n as [|n IH]; intros d e; cbn [eval]; [apply from_fuel |].
    destruct (_ <? _)%N; [apply from_throw; exact I |].
    apply eval_body_ok; [intros x; apply IH |]. intros b args s r s' E.
    assert (EV : forall x s e s', eval H n 0 x s = (RErr e, s') -> okerr e).
    { intros x s0 e0 s0' X. exact (IH 0%N x s0 _ s0' X). }
    pose proof (builtin_from H (eval H n 0) (can_crash (h_overflow H) b (length args)) EV b args
                  (fun p C => C) s r s' E) as X.
    destruct r as [a|err|p|c|]; try exact X. left. destruct X as [C|(x & s1 & s2 & Y)].
    - exists n, b, args, s, s'. split; [exact C | exact E].
    - destruct (IH 0%N x s1 _ s2 Y) as [Z|(y & t1 & t2 & Z)]; [exact Z | discriminate Z].
  Qed.
End Evaluation.

Lemma eval_crash H n d e s p s' : eval H n d e s = (RPanic p, s') -> crashing H p.
Proof.
  intros E. destruct (eval_ok H n d e s _ s' E) as [C|(x & s1 & s2 & Y)]; [exact C | discriminate Y].
Qed.

Lemma eval_error H n d e s err s' : eval H n d e s = (RErr err, s') -> okerr err.
Proof. intros E. exact (eval_ok H n d e s _ s' E). Qed.
