(** Proofs about operators. *)

From Coq Require Import String Floats.SpecFloat.
From Verif Require Import Base Syntax Host Ops Parser ErrorFmt Text Monad Builtins Eval
  MonoFacts EvalSpec EvalFacts MapFacts CoreFacts LibFacts OpsSpec.

(** ** Arithmetic *)

Inductive afold_result := AOk (e : expr) | AErr | APanic (p : panic).

Fixpoint afold (op : expr -> expr -> expr + panic) (v : expr) (vs : list expr) : afold_result :=
  match vs with
  | [] => AOk v
  | y :: r =>
      match op v y with
      | inl ENone => AErr
      | inl w => afold op w r
      | inr p => APanic p
      end
  end.

Definition closed_op (op : expr -> expr -> expr + panic) : Prop :=
  forall x y z, value x -> value y -> op x y = inl z -> value z.

Section Arith.
  Variable H : host.

  Definition arith_outcome (a : afold_result) (f : nat -> M expr) (s s' : st) : Prop :=
    match a with
    | AOk w => sure f s (ROk w) s'
    | AErr => exists m s1, sure f s (RErr (CustomError m)) s1
    | APanic p => exists s1, sure f s (RPanic p) s1
    end.

  Lemma arith_fold op verb rest : closed_op op -> forall v vs s s',
    value v -> Forall value vs -> evaluates_all H 0 rest s (ROk vs) s' ->
    arith_outcome (afold op v vs)
      (fun n => fold_arith H (eval H n 0) op verb v rest) s s'.
  Proof.
    intros CL. unfold fold_arith.
    induction rest as [| a rest IH]; intros v vs s s' V VS E; inversion E; subst;
      try match goal with X : fails _ (ROk _) |- _ => inversion X end.
    - cbn. apply sure_ret.
    - inversion VS as [| v0' vs0' V0 VS0]; subst. rename v0 into y, vs0 into ys.
      cbn [afold foldM].
      assert (K : forall r t, sure (fun n =>
                 r <- or_panic (op v y) ;;
                 match r with
                 | ENone => custom (lit "cannot " ++ verb ++ lit " " ++ debug H v
                     ++ lit " and " ++ debug H a)
                 | _ => ret r
                 end) s1 r t ->
               sure (fun n => x <- eval H n 0 v ;; y <- eval H n 0 a ;;
                 r <- or_panic (op x y) ;;
                 match r with
                 | ENone => custom (lit "cannot " ++ verb ++ lit " " ++ debug H v
                     ++ lit " and " ++ debug H a)
                 | _ => ret r
                 end) s r t).
      { intros r t K. eapply sure_ev_bind; [apply value_evaluates; exact V |].
        eapply sure_ev_bind; [eassumption | exact K]. }
      destruct (op v y) as [w | p] eqn:OP; cbn [or_panic] in K.
      + assert (W := CL v y w V V0 OP).
        destruct w; try (
          match goal with
          | X : in_order _ rest _ _ _ |- arith_outcome (afold op ?w ys) _ _ _ =>
            specialize (IH w ys s1 s' W VS0 X);
            revert IH; destruct (afold op w ys); cbn [arith_outcome]; intros IH;
            [ | destruct IH as (? & ? & IH); do 2 eexists
              | destruct IH as (? & IH); eexists];
            (eapply sure_bind; [apply K; apply sure_const; reflexivity | exact IH]) end).
        cbn [arith_outcome]. do 2 eexists.
        eapply sure_bind_fails; [apply K; apply sure_const; reflexivity | constructor].
      + cbn [arith_outcome]. exists s1.
        eapply sure_bind_fails; [apply K; now apply sure_const | constructor].
  Qed.
End Arith.

Lemma value_none : value ENone.
Proof. split; [exact I | cbn; lia]. Qed.
Lemma value_float f : value (EFloat f).
Proof. split; [exact I | cbn; lia]. Qed.
Lemma value_bytes b : value (EBytes b).
Proof. split; [exact I | cbn; lia]. Qed.
Lemma value_checked z : value (checked z).
Proof. unfold checked. destruct (in_i64 z); [apply value_int | apply value_none]. Qed.

Lemma value_list l : value (EList l) <-> Forall (fun x => data x /\ (1 + nesting x <= MAX_DEPTH)%N) l.
Proof.
  unfold value. rewrite data_list, nesting_list, !Forall_forall. firstorder.
Qed.
Lemma value_app l m : value (EList l) -> value (EList m) -> value (EList (l ++ m)).
Proof. rewrite !value_list, Forall_app. tauto. Qed.
Lemma value_repeat n l : value (EList l) -> value (EList (repeat_list n l)).
Proof.
  intros V. induction n as [| n IH]; cbn [repeat_list]; [apply value_list; constructor |].
  now apply value_app.
Qed.
Lemma value_nth n l x : value (EList l) -> nth_expr n l = Some x -> value x.
Proof. intros V N. eapply value_item; [exact V |]. eapply nth_error_In. exact N. Qed.
Lemma bm_get_in A k (m : bmap A) v : bm_get k m = Some v -> In (k, v) m.
Proof.
  induction m as [| [k' x] m IH]; cbn; [discriminate |].
  destruct (str_eqb k k') eqn:E; [| auto]. apply str_eqb_eq in E. intros X. left. congruence.
Qed.
Lemma value_get k m x : value (EMap m) -> bm_get k m = Some x -> value x.
Proof. intros V G. eapply value_entry; [exact V |]. apply bm_get_in; exact G. Qed.

#[export] Hint Resolve value_none value_float value_bytes value_int value_string value_bool value_builtin
  value_checked value_app value_repeat : values.

Lemma closed_add : closed_op (pure_op expr_add).
Proof.
  intros x y z X Y E. unfold pure_op in E. injection E as <-.
  destruct x, y; cbn [expr_add]; auto with values.
Qed.
Lemma closed_sub : closed_op (pure_op expr_sub).
Proof.
  intros x y z X Y E. unfold pure_op in E. injection E as <-.
  destruct x, y; cbn [expr_sub]; auto with values.
  - destruct (_ <? _)%N; [| auto with values].
    destruct (nth_expr _ _) eqn:N; [eapply value_nth; eauto | auto with values].
  - destruct (bm_get _ _) eqn:N; [eapply value_get; eauto | auto with values].
Qed.
Lemma closed_mul : closed_op expr_mul.
Proof.
  intros x y z X Y E.
  destruct x, y; cbn [expr_mul] in E; unfold str_repeat in E;
    try (destruct (_ <? _)%N; [| discriminate]); injection E as <-; auto with values.
Qed.
Lemma closed_div : closed_op (pure_op expr_div).
Proof.
  intros x y z X Y E. unfold pure_op in E. injection E as <-.
  destruct x, y; cbn [expr_div]; auto with values. destruct (_ =? _)%Z; auto with values.
Qed.
Lemma closed_rem : closed_op expr_rem.
Proof.
  intros x y z X Y E.
  destruct x, y; cbn [expr_rem] in E; try (injection E as <-; auto with values).
  destruct (_ =? _)%Z; [discriminate |]. destruct (in_i64 _); [| discriminate].
  injection E as <-. auto with values.
Qed.

(** The five operators, on at least two operands. *)
Definition arith_op (b : bid) : option (expr -> expr -> expr + panic) :=
  match b with
  | BAdd => Some (pure_op expr_add)
  | BSub => Some (pure_op expr_sub)
  | BMul => Some expr_mul
  | BDiv => Some (pure_op expr_div)
  | BRem => Some expr_rem
  | _ => None
  end.

Definition arith_calls (H : host) (b : bid) (args : list expr) (s s' : st) (a : afold_result) : Prop :=
  match a with
  | AOk w => calls H b args s (ROk w) s'
  | AErr => exists m s1, calls H b args s (RErr (CustomError m)) s1
  | APanic p => exists s1, calls H b args s (RPanic p) s1
  end.

Lemma arith_operator H b op a1 a2 rest s v vs s' :
  arith_op b = Some op ->
  evaluates_all H 0 (a1 :: a2 :: rest) s (ROk (v :: vs)) s' -> Forall value (v :: vs) ->
  arith_calls H b (a1 :: a2 :: rest) s s' (afold op v vs).
Proof.
  intros B E V. inversion E; subst; try match goal with X : fails _ (ROk _) |- _ => inversion X end.
  inversion V; subst.
  assert (CL : closed_op op).
  { destruct b; try discriminate B; injection B as <-;
      auto using closed_add, closed_sub, closed_mul, closed_div, closed_rem. }
  assert (K : forall verb, arith_outcome (afold op v vs)
             (fun n => fold_arith H (eval H n 0) op verb v (a2 :: rest)) s1 s').
  { intros verb. apply arith_fold; auto. }
  assert (R : exists verb, forall n,
     run_builtin H (eval H n 0) b (a1 :: a2 :: rest) =
     bind (ev_arg (eval H n 0) (a1 :: a2 :: rest) 0)
          (fun first => fold_arith H (eval H n 0) op verb first (a2 :: rest))).
  { destruct b; try discriminate B; injection B as <-; eexists; intros n; reflexivity. }
  destruct R as [verb R]. specialize (K verb).
  assert (Q : forall r t, r <> RFuel ->
      sure (fun n => fold_arith H (eval H n 0) op verb v (a2 :: rest)) s1 r t ->
      calls H b (a1 :: a2 :: rest) s r t).
  { intros r t N S. apply sure_calls; [exact N |].
    apply (sure_ext _ _ (fun n => bind (ev_arg (eval H n 0) (a1 :: a2 :: rest) 0)
          (fun first => fold_arith H (eval H n 0) op verb first (a2 :: rest))));
      [intros n; now rewrite R |].
    eapply sure_ev_arg; [reflexivity | eassumption | exact S]. }
  destruct (afold op v vs); cbn [arith_outcome arith_calls] in *.
  - apply Q; [discriminate | exact K].
  - destruct K as (m & t & K). exists m, t. apply Q; [discriminate | exact K].
  - destruct K as (t & K). exists t. apply Q; [discriminate | exact K].
Qed.

(** ** Integers *)

Lemma in_i64_fits z : in_i64 z = true <-> fits z.
Proof. unfold in_i64, fits, i64_min, i64_max. rewrite andb_true_iff, !Z.leb_le. lia. Qed.

Definition int_op (b : bid) : option (Z -> Z -> option Z) :=
  match b with
  | BAdd => Some sum | BSub => Some difference | BMul => Some product | BDiv => Some quotient
  | _ => None
  end.

Lemma arith_ints b zop op z zs o :
  int_op b = Some zop -> arith_op b = Some op -> exactly zop z zs o ->
  afold op (EInteger z) (map EInteger zs) =
  match o with Some w => AOk (EInteger w) | None => AErr end.
Proof.
  intros B O E.
  assert (STEP : forall x y, op (EInteger x) (EInteger y) =
     inl (match zop x y with Some w => checked w | None => ENone end)).
  { intros x y. destruct b; try discriminate B; injection B as <-; injection O as <-; try reflexivity.
    unfold pure_op, quotient. cbn [expr_div]. now destruct (y =? 0)%Z. }
  induction E; cbn [map afold]; [reflexivity | | |]; rewrite STEP, H.
  - unfold checked. rewrite (proj2 (in_i64_fits w) H0). exact IHE.
  - reflexivity.
  - unfold checked. destruct (in_i64 w) eqn:I; [apply in_i64_fits in I; contradiction | reflexivity].
Qed.

Lemma exactly_total op z zs : exists o, exactly op z zs o.
Proof.
  revert z. induction zs as [| y zs IH]; intros z; [eexists; constructor |].
  destruct (op z y) as [w |] eqn:O; [| eexists; now apply exactly_undefined].
  destruct (in_i64 w) eqn:F.
  - destruct (IH w) as [o X]. exists o. eapply exactly_step; eauto. now apply in_i64_fits.
  - exists None. eapply exactly_range; eauto. intros X. apply in_i64_fits in X. congruence.
Qed.
