(** Equality and order of expressions. *)

From Coq Require Import String Floats.SpecFloat.
From Verif Require Import Base Syntax Host Ops Monad Builtins Eval EvalSpec EvalFacts MapFacts CoreFacts OpsSpec.

(** ** Comparing sequences *)

Fixpoint all2 {A} (f : A -> A -> bool) (l m : list A) : bool :=
  match l, m with
  | [], [] => true
  | x :: l', y :: m' => f x y && all2 f l' m'
  | _, _ => false
  end.

Definition entry_eqb (f : expr -> expr -> bool) (a b : str * expr) : bool :=
  str_eqb (fst a) (fst b) && f (snd a) (snd b).

Fixpoint lex {A} (f : A -> A -> option comparison) (l m : list A) : option comparison :=
  match l, m with
  | [], [] => Some Eq
  | [], _ :: _ => Some Lt
  | _ :: _, [] => Some Gt
  | x :: l', y :: m' => match f x y with Some Eq => lex f l' m' | o => o end
  end.

Definition entry_cmp (f : expr -> expr -> option comparison) (a b : str * expr) : option comparison :=
  match str_cmp (fst a) (fst b) with Eq => f (snd a) (snd b) | c => Some c end.

Lemma eqb_list l m : expr_eqb (EList l) (EList m) = all2 expr_eqb l m.
Proof.
  cbn [expr_eqb]. revert m. induction l as [| x l IH]; intros [| y m]; try reflexivity.
  cbn [all2]. now rewrite <- IH.
Qed.
Lemma eqb_do l m : expr_eqb (EDo l) (EDo m) = all2 expr_eqb l m.
Proof. exact (eqb_list l m). Qed.
Lemma eqb_apply f g l m : expr_eqb (EApply f l) (EApply g m) = expr_eqb f g && all2 expr_eqb l m.
Proof. rewrite <- eqb_list. reflexivity. Qed.
Lemma eqb_map l m : expr_eqb (EMap l) (EMap m) = all2 (entry_eqb expr_eqb) l m.
Proof.
  cbn [expr_eqb]. revert m. induction l as [| [k x] l IH]; intros [| [k' y] m]; try reflexivity.
  cbn [all2]. unfold entry_eqb at 1. cbn [fst snd]. now rewrite <- IH.
Qed.
Lemma eqb_env b p c q :
  env_eqb (Env b p) (Env c q) =
  all2 (entry_eqb expr_eqb) b c
  && match p, q with None, None => true | Some p', Some q' => env_eqb p' q' | _, _ => false end.
Proof. rewrite <- eqb_map. reflexivity. Qed.

Lemma cmp_list l m : expr_cmp (EList l) (EList m) = lex expr_cmp l m.
Proof.
  cbn [expr_cmp]. revert m. induction l as [| x l IH]; intros [| y m]; try reflexivity.
  cbn [lex]. now rewrite <- IH.
Qed.
Lemma cmp_map l m : expr_cmp (EMap l) (EMap m) = lex (entry_cmp expr_cmp) l m.
Proof.
  cbn [expr_cmp]. revert m. induction l as [| [k x] l IH]; intros [| [k' y] m]; try reflexivity.
  cbn [lex]. unfold entry_cmp at 1. cbn [fst snd]. rewrite <- IH. now destruct (str_cmp k k').
Qed.

(** ** Equality *)

Lemma bytes_eqb_str a b : bytes_eqb a b = str_eqb a b.
Proof. reflexivity. Qed.
Lemma bytes_cmp_str a b : bytes_cmp a b = str_cmp a b.
Proof. reflexivity. Qed.

(** Floats are compared like these triples, lexicographically. *)
Definition float_key (f : spec_float) : Z * Z * Z :=
  (match f with
   | S754_infinity true => (-2, 0, 0)
   | S754_finite true m e => (-1, - e, Z.neg m)
   | S754_zero _ => (0, 0, 0)
   | S754_finite false m e => (1, e, Z.pos m)
   | S754_infinity false => (2, 0, 0)
   | S754_nan => (3, 0, 0)
   end)%Z.

Definition key_cmp (a b : Z * Z * Z) : comparison :=
  match a, b with
  | (x, y, z), (x', y', z') =>
      match (x ?= x')%Z with Eq => match (y ?= y')%Z with Eq => (z ?= z')%Z | c => c end | c => c end
  end.

Lemma float_cmp f g :
  f <> S754_nan -> g <> S754_nan -> SFcompare f g = Some (key_cmp (float_key f) (float_key g)).
Proof.
  intros F G. destruct f as [sf | sf | | sf m e], g as [sg | sg | | sg m' e']; try congruence;
    try (destruct sf); try (destruct sg); cbn; try reflexivity.
  - rewrite (Z.compare_opp e e'), (Z.compare_antisym e e').
    now destruct (e ?= e')%Z.
Qed.

Lemma float_cmp_nan f g : SFcompare f g = None <-> f = S754_nan \/ g = S754_nan.
Proof.
  split.
  - intros X. destruct f eqn:F; auto; destruct g eqn:G; auto;
      rewrite float_cmp in X; discriminate.
  - intros [-> | ->]; [reflexivity | now destruct f].
Qed.

Lemma key_cmp_eq a b : key_cmp a b = Eq <-> a = b.
Proof.
  destruct a as [[x y] z], b as [[x' y'] z']. cbn.
  destruct (Z.compare_spec x x'); [| split; congruence || (intros E; injection E; lia) ..].
  destruct (Z.compare_spec y y'); [| split; congruence || (intros E; injection E; lia) ..].
  rewrite Z.compare_eq_iff. split; [congruence | intros E; now injection E].
Qed.
Lemma key_cmp_antisym a b : key_cmp b a = CompOpp (key_cmp a b).
Proof.
  destruct a as [[x y] z], b as [[x' y'] z']. cbn.
  rewrite (Z.compare_antisym x x'), (Z.compare_antisym y y'), (Z.compare_antisym z z').
  destruct (x ?= x')%Z; cbn; try reflexivity. destruct (y ?= y')%Z; reflexivity.
Qed.
Lemma key_cmp_lt a b :
  key_cmp a b = Lt <->
  (let '(x, y, z) := a in let '(x', y', z') := b in
   x < x' \/ x = x' /\ (y < y' \/ y = y' /\ z < z'))%Z.
Proof.
  destruct a as [[x y] z], b as [[x' y'] z']. cbn.
  destruct (Z.compare_spec x x'); [| split; [lia | reflexivity] | split; [discriminate | lia]].
  destruct (Z.compare_spec y y'); [| split; [lia | reflexivity] | split; [discriminate | lia]].
  rewrite Z.compare_lt_iff. lia.
Qed.

Lemma f64_eqb_refl f : f <> S754_nan -> f64_eqb f f = true.
Proof.
  intros N. unfold f64_eqb, SFeqb. rewrite float_cmp by exact N.
  now rewrite (proj2 (key_cmp_eq _ _) eq_refl).
Qed.
Lemma f64_eqb_key f g :
  f64_eqb f g = true <-> f <> S754_nan /\ g <> S754_nan /\ float_key f = float_key g.
Proof.
  unfold f64_eqb, SFeqb. destruct (SFcompare f g) eqn:C.
  - assert (N : f <> S754_nan /\ g <> S754_nan).
    { split; intros ->; [discriminate | now destruct f]. }
    destruct N as [N1 N2]. rewrite float_cmp in C by assumption. injection C as C.
    rewrite <- key_cmp_eq, C. destruct c; intuition congruence.
  - apply float_cmp_nan in C. intuition (try congruence).
Qed.

Lemma all2_refl A (f : A -> A -> bool) l : Forall (fun x => f x x = true) l -> all2 f l l = true.
Proof. induction 1; cbn; [reflexivity |]. now rewrite H, IHForall. Qed.
Lemma all2_sym A (f : A -> A -> bool) l : Forall (fun x => forall y, f x y = f y x) l ->
  forall m, all2 f l m = all2 f m l.
Proof. induction 1; intros [| y m]; cbn; try reflexivity. now rewrite H, IHForall. Qed.
Lemma all2_trans A (f : A -> A -> bool) l :
  Forall (fun x => forall y z, f x y = true -> f y z = true -> f x z = true) l ->
  forall m k, all2 f l m = true -> all2 f m k = true -> all2 f l k = true.
Proof.
  induction 1; intros [| y m] [| z k]; cbn; try congruence.
  rewrite !andb_true_iff. intros [] []. split; eauto.
Qed.

Lemma entry_refl l :
  Forall (fun kv : str * expr => expr_eqb (snd kv) (snd kv) = true) l ->
  all2 (entry_eqb expr_eqb) l l = true.
Proof.
  intros F. apply all2_refl. eapply Forall_impl; [| exact F]. intros [k x] E.
  unfold entry_eqb. cbn in *. now rewrite str_eqb_refl, E.
Qed.
Lemma entry_sym l :
  Forall (fun kv : str * expr => forall y, expr_eqb (snd kv) y = expr_eqb y (snd kv)) l ->
  forall m, all2 (entry_eqb expr_eqb) l m = all2 (entry_eqb expr_eqb) m l.
Proof.
  intros F. apply all2_sym. eapply Forall_impl; [| exact F]. intros [k x] E [k' y].
  unfold entry_eqb. cbn in *. now rewrite str_eqb_sym, E.
Qed.
Lemma entry_trans l :
  Forall (fun kv : str * expr => forall y z, expr_eqb (snd kv) y = true -> expr_eqb y z = true ->
                                   expr_eqb (snd kv) z = true) l ->
  forall m k, all2 (entry_eqb expr_eqb) l m = true -> all2 (entry_eqb expr_eqb) m k = true ->
    all2 (entry_eqb expr_eqb) l k = true.
Proof.
  intros F. apply all2_trans. eapply Forall_impl; [| exact F]. intros [k x] E [k' y] [k2 z].
  unfold entry_eqb. cbn in *. rewrite !andb_true_iff, !str_eqb_eq. intros [-> A] [-> B]. split; eauto.
Qed.

Lemma Forall_mp A (P Q : A -> Prop) l : Forall (fun x => P x -> Q x) l -> Forall P l -> Forall Q l.
Proof. rewrite !Forall_forall. auto. Qed.

Lemma expr_eqb_refl e : nan_free e -> expr_eqb e e = true.
Proof.
  induction e using expr_ind2
    with (Q := fun c => nan_free_env c -> env_eqb c c = true);
    cbn [nan_free nan_free_env]; intros N;
    rewrite ?eqb_list, ?eqb_do, ?eqb_map, ?eqb_apply, ?eqb_env; cbn [expr_eqb];
    rewrite ?str_eqb_refl, ?bytes_eqb_str, ?str_eqb_refl, ?Z.eqb_refl, ?eqb_reflx; cbn [andb];
    try reflexivity; try (now apply f64_eqb_refl); try tauto.
  all: repeat match goal with X : _ /\ _ |- _ => let Y := fresh "N" in destruct X as [X Y] end.
  all: repeat match goal with
       | IH : ?P -> expr_eqb _ _ = true, X : ?P |- _ => rewrite (IH X); clear IH
       | IH : ?P -> env_eqb _ _ = true, X : ?P |- _ => rewrite (IH X); clear IH
       end; cbn [andb]; try reflexivity.
  - apply all2_refl. eapply Forall_mp; [exact H |]. now apply Forall_fix.
  - apply entry_refl. apply Forall_fix_map in N. rewrite Forall_map in N.
    eapply Forall_mp; [exact H | exact N].
  - apply all2_refl. eapply Forall_mp; [exact H |]. now apply Forall_fix.
  - apply all2_refl. eapply Forall_mp; [exact H |]. now apply Forall_fix.
  - rewrite entry_refl; cbn [andb].
    + destruct p; [cbn in *; auto | reflexivity].
    + apply Forall_fix_map in N. rewrite Forall_map in N. eapply Forall_mp; [exact H | exact N].
Qed.

Lemma expr_eqb_sym a : forall b, expr_eqb a b = expr_eqb b a.
Proof.
  induction a using expr_ind2
    with (Q := fun c => forall d, env_eqb c d = env_eqb d c);
    intros y; destruct y; try reflexivity;
    rewrite ?eqb_list, ?eqb_do, ?eqb_map, ?eqb_apply, ?eqb_env; cbn [expr_eqb];
    rewrite ?bytes_eqb_str;
    repeat match goal with IH : forall b, expr_eqb ?a b = _ |- context [expr_eqb ?a ?b] => rewrite (IH b) end;
    repeat match goal with IH : forall b, env_eqb ?a b = _ |- context [env_eqb ?a ?b] => rewrite (IH b) end;
    try reflexivity; try (rewrite str_eqb_sym; reflexivity).
  - apply Z.eqb_sym.
  - apply eq_true_iff_eq. rewrite !f64_eqb_key. intuition.
  - now destruct b, b0.
  - now apply all2_sym.
  - now apply entry_sym.
  - f_equal. now apply all2_sym.
  - now apply all2_sym.
  - rewrite entry_sym by exact H. f_equal. destruct p, parent; cbn in *; auto.
Qed.

Lemma expr_eqb_trans a : forall b c,
  expr_eqb a b = true -> expr_eqb b c = true -> expr_eqb a c = true.
Proof.
  induction a using expr_ind2
    with (Q := fun a => forall b c, env_eqb a b = true -> env_eqb b c = true -> env_eqb a c = true);
    intros y w E F; destruct y; try discriminate E; destruct w; try discriminate F; revert E F;
    rewrite ?eqb_list, ?eqb_do, ?eqb_map, ?eqb_apply, ?eqb_env; cbn [expr_eqb];
    rewrite ?bytes_eqb_str, ?andb_true_iff, ?str_eqb_eq, ?Z.eqb_eq, ?Bool.eqb_true_iff;
    try (intuition (eauto; congruence)).
  - rewrite !f64_eqb_key. intuition congruence.
  - now apply all2_trans.
  - now apply entry_trans.
  - intros [A B] [C D]. split; [eauto | eapply all2_trans; eauto].
  - now apply all2_trans.
  - intros [A B] [C D]. split; [eapply entry_trans; eauto |].
    destruct p, parent, parent0; cbn in *; eauto; discriminate.
Qed.

(** ** Order *)

Definition flip (o : option comparison) : option comparison :=
  match o with Some c => Some (CompOpp c) | None => None end.

Lemma lex_antisym A (f : A -> A -> option comparison) l :
  Forall (fun x => forall y, f y x = flip (f x y)) l -> forall m, lex f m l = flip (lex f l m).
Proof.
  induction 1; intros [| y m]; cbn; try reflexivity. rewrite H.
  destruct (f x y) as [[] |]; cbn; auto.
Qed.

Lemma expr_cmp_antisym a : forall b, expr_cmp b a = flip (expr_cmp a b).
Proof.
  induction a using expr_ind2 with (Q := fun _ => True); try exact I;
    intros y; destruct y; try reflexivity; rewrite ?cmp_list, ?cmp_map; cbn [expr_cmp flip].
  - now rewrite Z.compare_antisym.
  - destruct (SFcompare f f0) eqn:C.
    + assert (N : f <> S754_nan /\ f0 <> S754_nan).
      { split; intros ->; [discriminate | now destruct f]. }
      destruct N. rewrite float_cmp in C |- * by assumption. injection C as <-.
      cbn. now rewrite key_cmp_antisym.
    + cbn. apply float_cmp_nan. apply float_cmp_nan in C. tauto.
  - rewrite !bytes_cmp_str. now rewrite str_cmp_antisym.
  - now rewrite str_cmp_antisym.
  - now apply lex_antisym.
  - apply lex_antisym. eapply Forall_impl; [| exact H]. intros [k x] E [k' y]. unfold entry_cmp. cbn in *.
    rewrite (str_cmp_antisym k k'). destruct (str_cmp k k'); cbn; auto.
Qed.

(** What [a ? b] and [b ? c] say about [a ? c]. *)
Definition join_cmp (c d : comparison) : comparison := match c with Eq => d | _ => c end.
Definition le_trans {A} (f : A -> A -> option comparison) (x : A) : Prop :=
  forall y z c d, f x y = Some c -> f y z = Some d -> c <> Gt -> d <> Gt ->
    f x z = Some (join_cmp c d).

Lemma lex_trans A (f : A -> A -> option comparison) l :
  Forall (le_trans f) l -> le_trans (lex f) l.
Proof.
  intros F. induction F as [| x l X F IH]; intros [| y m] [| z k] c d E1 E2 N1 N2; cbn in *;
    try (injection E1 as <-; injection E2 as <-; cbn; congruence || reflexivity);
    try (injection E1 as <-); try (injection E2 as <-); try congruence.
  - destruct (f y z) as [[] |]; try discriminate E2; cbn; reflexivity.
  - destruct (f x y) as [c0 |] eqn:C; [| discriminate].
    destruct (f y z) as [d0 |] eqn:D; [| discriminate].
    assert (C0 : c0 <> Gt) by (destruct c0; congruence).
    assert (D0 : d0 <> Gt) by (destruct d0; congruence).
    rewrite (X _ _ _ _ C D C0 D0).
    destruct c0, d0; cbn; try congruence.
    + eapply IH; eauto.
    + injection E2 as <-. destruct c; cbn; congruence.
    + injection E1 as <-. reflexivity.
    + injection E1 as <-. reflexivity.
Qed.

Lemma str_le_trans : forall a b c x y, str_cmp a b = x -> str_cmp b c = y -> x <> Gt -> y <> Gt ->
  str_cmp a c = join_cmp x y.
Proof.
  intros a b c x y <- <- N1 N2. destruct (str_cmp a b) eqn:C; cbn; try congruence.
  - apply str_cmp_eq in C. now subst.
  - destruct (str_cmp b c) eqn:D; try congruence.
    + apply str_cmp_eq in D. now subst.
    + eapply str_cmp_trans; eauto.
Qed.

Lemma expr_le_trans a : le_trans expr_cmp a.
Proof.
  induction a using expr_ind2 with (Q := fun _ => True); try exact I;
    intros y w cy cw E F; destruct y; try discriminate E; destruct w; try discriminate F; revert E F;
    rewrite ?cmp_list, ?cmp_map; cbn [expr_cmp].
  - intros E F. injection E as <-. injection F as <-. intros N1 N2. f_equal.
    destruct (Z.compare_spec z z0); try congruence; [subst; reflexivity |].
    cbn. destruct (Z.compare_spec z0 z1); try congruence; apply Z.compare_lt_iff; lia.
  - intros E F N1 N2.
    assert (N : f <> S754_nan /\ f0 <> S754_nan /\ f1 <> S754_nan).
    { repeat split; intros ->; try discriminate;
        try (destruct f; discriminate); destruct f0; discriminate. }
    destruct N as (A & B & C). rewrite float_cmp in E, F |- * by assumption.
    injection E as <-. injection F as <-. f_equal.
    destruct (key_cmp (float_key f) (float_key f0)) eqn:K; try congruence; cbn.
    + apply key_cmp_eq in K. now rewrite K.
    + destruct (key_cmp (float_key f0) (float_key f1)) eqn:L; try congruence.
      * apply key_cmp_eq in L. now rewrite <- L.
      * apply key_cmp_lt in K. apply key_cmp_lt in L. apply key_cmp_lt.
        destruct (float_key f) as [[]], (float_key f0) as [[]], (float_key f1) as [[]]. lia.
  - rewrite !bytes_cmp_str. intros E F. injection E as <-. injection F as <-. intros N1 N2. f_equal.
    now apply (str_le_trans b b0 b1).
  - intros E F. injection E as <-. injection F as <-. intros N1 N2. f_equal.
    now apply (str_le_trans s s0 s1).
  - intros E F. eapply lex_trans; eauto.
  - intros E F. eapply (lex_trans _ (entry_cmp expr_cmp)); eauto.
    eapply Forall_impl; [| exact H]. intros [k x] X [k1 y] [k2 z] c1 d1. unfold entry_cmp. cbn in *.
    intros E1 E2 N1 N2.
    destruct (str_cmp k k1) eqn:C1; [| | injection E1 as <-; congruence];
    (destruct (str_cmp k1 k2) eqn:C2; [| | injection E2 as <-; congruence]);
      rewrite (str_le_trans k k1 k2 _ _ C1 C2) by congruence; cbn.
    + eapply X; eauto.
    + injection E2 as <-. apply str_cmp_eq in C1.
      destruct c1; cbn; congruence.
    + injection E1 as <-. cbn. reflexivity.
    + injection E1 as <-. reflexivity.
Qed.

(** Values of one type are always comparable, and equal exactly when neither
    is smaller. *)
Lemma lex_typed A (f : A -> A -> option comparison) (e : A -> A -> bool) (T : A -> Prop) l :
  Forall (fun x => forall y, T y -> exists c, f x y = Some c /\ (c = Eq <-> e x y = true)) l ->
  forall m, Forall T m -> exists c, lex f l m = Some c /\ (c = Eq <-> all2 e l m = true).
Proof.
  induction 1 as [| x l X F IH]; intros [| y m] M; cbn [lex all2];
    try (eexists; split; [reflexivity |]; split; congruence).
  inversion M; subst. destruct (X y) as (c & C & E); [assumption |]. rewrite C.
  destruct c.
  - destruct (IH m) as (c & C2 & E2); [assumption |]. exists c. split; [exact C2 |].
    rewrite andb_true_iff, <- E2. rewrite <- E. tauto.
  - eexists; split; [reflexivity |]. rewrite andb_true_iff, <- E. split; [discriminate | intros [Y _]; discriminate].
  - eexists; split; [reflexivity |]. rewrite andb_true_iff, <- E. split; [discriminate | intros [Y _]; discriminate].
Qed.

Lemma cmp_typed a : forall t b, has_type t a -> has_type t b ->
  exists c, expr_cmp a b = Some c /\ (c = Eq <-> expr_eqb a b = true).
Proof.
  induction a using expr_ind2 with (Q := fun _ => True); try exact I;
    intros t y A B; destruct t; try contradiction; destruct y; try contradiction;
    rewrite ?cmp_list, ?cmp_map, ?eqb_list, ?eqb_map; cbn [expr_cmp expr_eqb];
    rewrite ?bytes_cmp_str, ?bytes_eqb_str.
  - eexists; split; [reflexivity |]. rewrite Z.eqb_eq. apply Z.compare_eq_iff.
  - cbn in A, B. rewrite float_cmp by assumption. eexists; split; [reflexivity |].
    rewrite key_cmp_eq, f64_eqb_key. tauto.
  - eexists; split; [reflexivity |]. rewrite str_eqb_eq. apply str_cmp_eq.
  - eexists; split; [reflexivity |]. rewrite str_eqb_eq. apply str_cmp_eq.
  - cbn [has_type] in A, B. apply Forall_fix in A. apply Forall_fix in B.
    apply (lex_typed _ _ _ (has_type t)); [| exact B].
    rewrite Forall_forall in *. eauto.
  - cbn [has_type] in A, B. apply Forall_fix_map in A. apply Forall_fix_map in B.
    rewrite Forall_map in A, B.
    apply (lex_typed _ _ _ (fun kv => has_type t (snd kv))); [| exact B].
    rewrite Forall_forall in *. intros [k x] X [k' y'] Y. cbn in Y. unfold entry_cmp, entry_eqb. cbn [fst snd].
    destruct (H _ X t y' (A _ X) Y) as (c & C & E). cbn [snd] in C, E.
    assert (KE : str_eqb k k' = true <-> str_cmp k k' = Eq) by (rewrite str_eqb_eq; symmetry; apply str_cmp_eq).
    destruct (str_cmp k k') eqn:K.
    + exists c. split; [exact C |]. rewrite andb_true_iff, KE, E. tauto.
    + exists Lt. split; [reflexivity |]. rewrite andb_true_iff, KE. intuition discriminate.
    + exists Gt. split; [reflexivity |]. rewrite andb_true_iff, KE. intuition discriminate.
Qed.

Lemma typed_value t e : has_type t e -> data e.
Proof.
  revert t. induction e using expr_ind2 with (Q := fun _ => True); try exact I;
    intros t T; destruct t; try contradiction; try exact I.
  - cbn [has_type] in T. apply Forall_fix in T. apply data_list.
    rewrite Forall_forall in *. eauto.
  - cbn [has_type] in T. apply Forall_fix_map in T. apply data_map.
    rewrite Forall_map in *. rewrite Forall_forall in *. eauto.
Qed.
