(** Maps and scopes stay in order: the parser, the builtin functions and the
    evaluator. *)

From Coq Require Import String Sorted Floats.SpecFloat.
From Verif Require Import Base Syntax Host Ops Tokenizer Parser ErrorFmt Text Monad Builtins Eval
  MapFacts DictFacts TidySpec ParserFacts.

(** ** What it means for each type of data *)

Class Tidy (A : Type) := tidy : A -> Prop.

Global Instance Tidy_expr : Tidy expr := orderly.
Global Instance Tidy_env : Tidy env := env_orderly.
Global Instance Tidy_Z : Tidy Z := fun _ => True.
Global Instance Tidy_list A `{Tidy A} : Tidy (list A) := Forall tidy.
Global Instance Tidy_option A `{Tidy A} : Tidy (option A) := opt_all tidy.
Global Instance Tidy_prod A B `{Tidy A} `{Tidy B} : Tidy (A * B) :=
  fun p => tidy (fst p) /\ tidy (snd p).
Global Instance Tidy_panic A `{Tidy A} : Tidy (A + panic) :=
  fun r => match r with inl a => tidy a | inr _ => True end.
Global Instance Tidy_str : Tidy str := fun _ => True.
Global Instance Tidy_strs : Tidy (list str) := fun _ => True.
Global Instance Tidy_strss : Tidy (list (list str)) := fun _ => True.
Global Instance Tidy_bytes : Tidy (list N) := fun _ => True.
Global Instance Tidy_text_or : Tidy (str + str) := fun _ => True.
Global Instance Tidy_unit : Tidy unit := fun _ => True.
Global Instance Tidy_bool : Tidy bool := fun _ => True.
Global Instance Tidy_f64 : Tidy f64 := fun _ => True.
Global Instance Tidy_sf : Tidy spec_float := fun _ => True.
Global Instance Tidy_response : Tidy response := fun _ => True.
Global Instance Tidy_command : Tidy (option command) := fun _ => True.
Global Instance Tidy_token : Tidy token := fun _ => True.

Lemma Forall_flat {A B} (P : B -> Prop) (f : A -> list B) l :
  Forall P (flat_map f l) <-> Forall (fun a => Forall P (f a)) l.
Proof.
  induction l as [| a l IH]; simpl; [split; constructor |].
  rewrite Forall_app, IH. split; [intros []; constructor; auto | intros X; inversion X; auto].
Qed.

Definition tmap (m : bmap expr) : Prop := Forall (fun kv => orderly (snd kv)) m.

Lemma tidy_map_iff m : tmap m <-> @tidy (list (str * expr)) _ m.
Proof.
  unfold tmap, tidy, Tidy_list. split; intros F; (eapply Forall_impl; [| exact F]).
  - intros [k x] X. split; [exact I | exact X].
  - intros [k x] [_ X]. exact X.
Qed.

(** Taking apart and putting together. *)
Lemma tidy_int z : tidy (EInteger z). Proof. constructor. Qed.
Lemma tidy_group e : tidy (EGroup e) <-> tidy e. Proof. reflexivity. Qed.
Lemma tidy_quote e : tidy (EQuote e) <-> tidy e. Proof. reflexivity. Qed.
Lemma tidy_assign x e : tidy (EAssign x e) <-> tidy e. Proof. reflexivity. Qed.
Lemma tidy_macro x e : tidy (EMacro x e) <-> tidy e. Proof. reflexivity. Qed.
Lemma tidy_elist l : tidy (EList l) <-> tidy l. Proof. apply (Forall_flat proper parts). Qed.
Lemma tidy_do l : tidy (EDo l) <-> tidy l. Proof. apply (Forall_flat proper parts). Qed.
Lemma increasing_keys {A} (m : bmap A) : increasing (map fst m) <-> sorted m.
Proof.
  split; [| apply keys_sorted]. induction m as [| [k x] m IH]; intros S; [constructor |].
  inversion S; subst. constructor; [now apply IH |]. apply Forall_forall. intros [k' y] Y.
  rewrite Forall_forall in H2. apply H2. apply in_map_iff. now exists (k', y).
Qed.
Lemma tidy_emap m : tidy (EMap m) <-> sorted m /\ tidy m.
Proof.
  rewrite <- tidy_map_iff, <- increasing_keys. unfold tidy, Tidy_expr, orderly. cbn [parts].
  rewrite Forall_cons_iff. now rewrite (Forall_flat proper (fun kv : str * expr => parts (snd kv))).
Qed.
Lemma tidy_for x l b : tidy (EFor x l b) <-> tidy l /\ tidy b. Proof. apply Forall_app. Qed.
Lemma tidy_if c t f : tidy (EIf c t f) <-> tidy c /\ tidy t /\ tidy f.
Proof.
  unfold tidy, Tidy_expr, orderly. cbn [parts]. now rewrite !Forall_app.
Qed.
Lemma tidy_apply f l : tidy (EApply f l) <-> tidy f /\ tidy l.
Proof.
  unfold tidy at 1, Tidy_expr, orderly. cbn [parts]. rewrite Forall_app.
  now rewrite (Forall_flat proper parts).
Qed.
Lemma tidy_lambda p b c : tidy (ELambda p b c) <-> tidy b /\ tidy c. Proof. apply Forall_app. Qed.
Lemma tidy_none : tidy ENone. Proof. constructor. Qed.
Lemma tidy_symbol s : tidy (ESymbol s). Proof. constructor. Qed.
Lemma tidy_float s : tidy (EFloat s). Proof. constructor. Qed.
Lemma tidy_ebytes s : tidy (EBytes s). Proof. constructor. Qed.
Lemma tidy_estring s : tidy (EString s). Proof. constructor. Qed.
Lemma tidy_ebool s : tidy (EBoolean s). Proof. constructor. Qed.
Lemma tidy_builtin s : tidy (EBuiltin s). Proof. constructor. Qed.
Lemma tidy_Env b p : tidy (Env b p) <-> sorted b /\ tidy b /\ p = None.
Proof.
  rewrite <- tidy_map_iff, <- increasing_keys. unfold tidy, Tidy_env, env_orderly. cbn [env_parts].
  rewrite Forall_cons_iff, Forall_app. cbn [proper].
  rewrite (Forall_flat proper (fun kv : str * expr => parts (snd kv))).
  destruct p; [intuition discriminate |]. intuition.
Qed.
Lemma tidy_nil A `{Tidy A} : tidy (@nil A). Proof. constructor. Qed.
Lemma tidy_cons A `{Tidy A} (a : A) l : tidy (a :: l) <-> tidy a /\ tidy l.
Proof. split; [intros X; now inversion X | intros []; now constructor]. Qed.
Lemma tidy_app A `{Tidy A} (l m : list A) : tidy (l ++ m) <-> tidy l /\ tidy m.
Proof. apply Forall_app. Qed.
Lemma tidy_pair A B `{Tidy A} `{Tidy B} (a : A) (b : B) : tidy (a, b) <-> tidy a /\ tidy b.
Proof. reflexivity. Qed.
Lemma tidy_some A `{Tidy A} (a : A) : tidy (Some a) <-> tidy a. Proof. reflexivity. Qed.
Lemma tidy_nothing A `{Tidy A} : tidy (@None A). Proof. exact I. Qed.
Lemma tidy_inl A `{Tidy A} (a : A) : tidy (@inl A panic a) <-> tidy a. Proof. reflexivity. Qed.
Lemma tidy_inr A `{Tidy A} p : tidy (@inr A panic p). Proof. exact I. Qed.

Lemma tidy_rev A `{Tidy A} (l : list A) : tidy l -> tidy (rev l).
Proof. intros F. apply Forall_rev. exact F. Qed.
Lemma tidy_incl A `{Tidy A} (l m : list A) : incl l m -> tidy m -> tidy l.
Proof. intros I F. apply Forall_forall. intros x X. eapply Forall_forall in F; [exact F | now apply I]. Qed.
Lemma tidy_in A `{Tidy A} (l : list A) x : tidy l -> In x l -> tidy x.
Proof. intros F I. eapply Forall_forall in F; eauto. Qed.
Lemma tidy_tl A `{Tidy A} (l : list A) : tidy l -> tidy (tl l).
Proof. intros F. destruct F; [constructor | assumption]. Qed.
Lemma tidy_filter A `{Tidy A} f (l : list A) : tidy l -> tidy (filter f l).
Proof. apply tidy_incl. intros x X. apply filter_In in X. apply X. Qed.
Lemma tidy_firstn A `{Tidy A} n (l : list A) : tidy l -> tidy (firstn n l).
Proof. intros F. rewrite <- (firstn_skipn n l) in F. apply tidy_app in F. apply F. Qed.
Lemma tidy_skipn A `{Tidy A} n (l : list A) : tidy l -> tidy (skipn n l).
Proof. intros F. rewrite <- (firstn_skipn n l) in F. apply tidy_app in F. apply F. Qed.
Lemma tidy_map A B `{Tidy A} `{Tidy B} (f : A -> B) l :
  (forall a, tidy a -> tidy (f a)) -> tidy l -> tidy (map f l).
Proof. intros F L. apply Forall_map. eapply Forall_impl; [exact F | exact L]. Qed.
Lemma tidy_map_any A B `{Tidy B} (f : A -> B) l : (forall a, tidy (f a)) -> tidy (map f l).
Proof. intros F. apply Forall_map. apply Forall_forall. intros; apply F. Qed.
Lemma tidy_nth_error A `{Tidy A} (l : list A) n : tidy l -> tidy (nth_error l n).
Proof.
  intros F. destruct (nth_error l n) eqn:E; [| exact I]. apply nth_error_In in E. exact (tidy_in _ _ _ F E).
Qed.
Lemma tidy_combine A B `{Tidy A} `{Tidy B} (l : list A) (m : list B) :
  tidy l -> tidy m -> tidy (combine l m).
Proof.
  intros F. revert m. induction F as [| a l X F IH]; intros m G; cbn; [constructor |].
  destruct G; constructor; [now split | now apply IH].
Qed.

(** ** Integers *)

Lemma tidy_checked z : tidy (checked z).
Proof. unfold checked. destruct (in_i64 z); constructor. Qed.
Lemma tidy_arith o z : tidy (arith o z).
Proof. unfold arith. destruct (in_i64 z); [exact I |]. destruct o; exact I. Qed.
Lemma tidy_int_text s : tidy (parse_int_text s).
Proof. destruct (parse_int_text s); exact I. Qed.

(** ** Maps and environments *)

Lemma tidy_bm_get k (m : bmap expr) : tidy m -> tidy (bm_get k m).
Proof.
  induction 1 as [| [k' x] m [_ X] F IH]; [exact I |]. cbn [bm_get]. destruct (str_eqb k k'); [exact X | exact IH].
Qed.
Lemma tidy_bm_insert k x (m : bmap expr) : tidy x -> tidy m -> tidy (bm_insert k x m).
Proof.
  intros X F. induction F as [| [k' y] m Y F IH]; cbn [bm_insert].
  - constructor; [split; [exact I | exact X] | constructor].
  - destruct (str_cmp k k').
    + constructor; [split; [exact I | exact X] | exact F].
    + constructor; [split; [exact I | exact X] | constructor; assumption].
    + constructor; [exact Y | exact IH].
Qed.
Lemma tidy_bm_remove k (m : bmap expr) : tidy m -> tidy (bm_remove k m).
Proof. apply tidy_filter. Qed.
Lemma tidy_bm_fold (f : bmap expr -> str * expr -> bmap expr) l :
  (forall m kv, tidy m -> tidy (snd kv) -> tidy (f m kv)) ->
  @tidy (bmap expr) (Tidy_list _) l -> forall m, @tidy (bmap expr) (Tidy_list _) m ->
  @tidy (bmap expr) (Tidy_list _) (fold_left f l m).
Proof.
  intros S. induction 1 as [| [k x] l X F IH]; intros m M; cbn [fold_left]; [exact M |].
  apply IH. apply S; [exact M | apply X].
Qed.
Lemma tidy_bm_of_list (l : list (str * expr)) : tidy l -> tidy (bm_of_list l).
Proof.
  intros F. apply tidy_bm_fold; [| exact F | constructor]. intros m [k x] M X.
  now apply tidy_bm_insert.
Qed.

Lemma sorted_fold {B} (f : bmap expr -> B -> bmap expr) l :
  (forall m x, sorted m -> sorted (f m x)) -> forall m, sorted m -> sorted (fold_left f l m).
Proof. intros S. induction l as [| x l IH]; intros m M; cbn [fold_left]; auto. Qed.

Lemma tidy_env_new : tidy env_new.
Proof. apply tidy_Env. split; [apply sorted_nil |]. split; [constructor | reflexivity]. Qed.
Lemma tidy_env_get x e : tidy e -> tidy (env_get x e).
Proof.
  destruct e as [b p]. intros F. apply tidy_Env in F. destruct F as (_ & B & ->). cbn [env_get].
  pose proof (tidy_bm_get x b B) as G. destruct (bm_get x b); [exact G | exact I].
Qed.
Lemma tidy_env_define x v e : tidy v -> tidy e -> tidy (env_define x v e).
Proof.
  destruct e as [b p]. intros V F. apply tidy_Env in F. destruct F as (S & B & P).
  apply tidy_Env. split; [now apply sorted_insert |]. split; [now apply tidy_bm_insert | exact P].
Qed.
Lemma tidy_env_undefine x e : tidy e -> tidy (env_undefine x e).
Proof.
  destruct e as [b p]. intros F. apply tidy_Env in F. destruct F as (S & B & P).
  apply tidy_Env. split; [now apply sorted_remove |]. split; [now apply tidy_bm_remove | exact P].
Qed.
Lemma tidy_set_cwd c e : tidy e -> tidy (env_set_cwd c e).
Proof. apply tidy_env_define. constructor. Qed.
Lemma tidy_bindings e : tidy e -> tidy (env_bindings e).
Proof. destruct e. intros F. apply tidy_Env in F. apply F. Qed.
Lemma sorted_bindings e : tidy e -> sorted (env_bindings e).
Proof. destruct e. intros F. apply tidy_Env in F. apply F. Qed.

Lemma tidy_capture e p b c : tidy e -> tidy c -> tidy (capture e p b c).
Proof.
  intros E C. unfold capture, capture_symbols.
  assert (T : tidy (env_set_cwd (env_get_cwd e) (env_define p ENone c)))
    by (apply tidy_set_cwd, tidy_env_define; [constructor | exact C]).
  revert T. generalize (env_set_cwd (env_get_cwd e) (env_define p ENone c)).
  induction (used_symbols b) as [| x l IH]; intros t T; cbn [fold_left]; [exact T |].
  apply IH. destruct (_ && _); [| exact T]. pose proof (tidy_env_get x e E) as G.
  destruct (env_get x e); [| exact T]. apply tidy_env_define; [exact G | exact T].
Qed.

Lemma tidy_curry e b n : tidy e -> tidy b -> tidy (curry_lambdas e b n).
Proof.
  intros E B. unfold curry_lambdas. induction (seq 0 n) as [| i l IH]; cbn [fold_right]; [exact B |].
  apply tidy_lambda. split; [exact IH |]. apply tidy_capture; [exact E | apply tidy_env_new].
Qed.
Lemma tidy_curry_env f n e : tidy f -> tidy e -> tidy (curry_env f n e).
Proof.
  intros F E. apply tidy_curry; [exact E |]. apply tidy_apply. split; [exact F |].
  apply tidy_map_any. intros; constructor.
Qed.
Lemma tidy_reverse_curry f n : tidy f -> tidy (reverse_curry f n).
Proof.
  intros F. apply tidy_curry; [apply tidy_env_new |]. apply tidy_apply. split; [exact F |].
  apply tidy_map_any. intros; constructor.
Qed.

(** ** Operators and pure functions *)

Ltac tidy_args :=
  repeat match goal with
  | H : tidy (EList _) |- _ => apply (proj1 (tidy_elist _)) in H
  | H : tidy (EMap _) |- _ => apply (proj1 (tidy_emap _)) in H; destruct H
  | H : tidy (EGroup _) |- _ => apply (proj1 (tidy_group _)) in H
  | H : tidy (EQuote _) |- _ => apply (proj1 (tidy_quote _)) in H
  | H : tidy (EAssign _ _) |- _ => apply (proj1 (tidy_assign _ _)) in H
  | H : tidy (EMacro _ _) |- _ => apply (proj1 (tidy_macro _ _)) in H
  | H : tidy (EDo _) |- _ => apply (proj1 (tidy_do _)) in H
  | H : tidy (EFor _ _ _) |- _ => apply (proj1 (tidy_for _ _ _)) in H; destruct H
  | H : tidy (EIf _ _ _) |- _ => apply (proj1 (tidy_if _ _ _)) in H; destruct H as [? [? ?]]
  | H : tidy (EApply _ _) |- _ => apply (proj1 (tidy_apply _ _)) in H; destruct H
  | H : tidy (ELambda _ _ _) |- _ => apply (proj1 (tidy_lambda _ _ _)) in H; destruct H
  | H : tidy (_ :: _) |- _ => apply (proj1 (tidy_cons _ _ _)) in H; destruct H
  | H : tidy (_, _) |- _ => apply (proj1 (tidy_pair _ _ _ _)) in H; destruct H
  | H : tidy (Some _) |- _ => apply (proj1 (tidy_some _ _)) in H
  | H : tidy (inl _) |- _ => apply (proj1 (tidy_inl _ _)) in H
  end.

Ltac tidy_atom :=
  first [apply tidy_none | apply tidy_symbol | apply tidy_float | apply tidy_ebytes
       | apply tidy_estring | apply tidy_ebool | apply tidy_int | apply tidy_builtin | apply tidy_checked
       | apply tidy_nothing | apply tidy_inr | assumption].

Lemma tidy_add a b : tidy a -> tidy b -> tidy (expr_add a b).
Proof.
  intros A B. destruct a; try tidy_atom; destruct b; try tidy_atom; cbn [expr_add]; try tidy_atom.
  tidy_args. apply tidy_elist, tidy_app. now split.
Qed.
Lemma tidy_nth n (l : list expr) : tidy l ->
  tidy (match nth_expr n l with Some v => v | None => ENone end).
Proof.
  intros L. unfold nth_expr. pose proof (tidy_nth_error _ l (N.to_nat n) L) as X.
  destruct (nth_error _ _); [exact X | apply tidy_none].
Qed.
Lemma tidy_get k m : tidy m -> tidy (match bm_get k m with Some v => v | None => ENone end).
Proof. intros M. pose proof (tidy_bm_get k m M). destruct (bm_get k m); [assumption | apply tidy_none]. Qed.
Lemma tidy_sub a b : tidy a -> tidy b -> tidy (expr_sub a b).
Proof.
  intros A B. destruct a; try tidy_atom; destruct b; try tidy_atom; cbn [expr_sub]; try tidy_atom; tidy_args.
  - destruct (_ <? _)%N; [now apply tidy_nth | apply tidy_none].
  - now apply tidy_get.
Qed.
Lemma tidy_neg o a : tidy a -> tidy (expr_neg o a).
Proof.
  intros A. destruct a; try (apply tidy_inl; tidy_atom); cbn [expr_neg].
  destruct (in_i64 _); [apply tidy_inl, tidy_int |].
  destruct o; [exact I |]. apply tidy_inl, tidy_int.
Qed.
Lemma tidy_repeat n (l : list expr) : tidy l -> tidy (repeat_list n l).
Proof. intros L. induction n; cbn [repeat_list]; [constructor |]. apply tidy_app. now split. Qed.
Lemma tidy_str_repeat m n : tidy (str_repeat m n).
Proof. unfold str_repeat. destruct (_ <? _)%N; [apply tidy_inl; tidy_atom | exact I]. Qed.
Lemma tidy_mul a b : tidy a -> tidy b -> tidy (expr_mul a b).
Proof.
  intros A B.
  destruct a; try (apply tidy_inl; tidy_atom);
    destruct b; try (apply tidy_inl; tidy_atom); cbn [expr_mul];
    try (apply tidy_inl; tidy_atom); try apply tidy_str_repeat; tidy_args;
    apply tidy_inl, tidy_elist, tidy_repeat; assumption.
Qed.
Lemma tidy_div a b : tidy a -> tidy b -> tidy (expr_div a b).
Proof.
  intros A B. destruct a; try tidy_atom; destruct b; try tidy_atom; cbn [expr_div]; try tidy_atom.
  destruct (_ =? _)%Z; tidy_atom.
Qed.
Lemma tidy_rem a b : tidy a -> tidy b -> tidy (expr_rem a b).
Proof.
  intros A B. destruct a; try (apply tidy_inl; tidy_atom);
    destruct b; try (apply tidy_inl; tidy_atom); cbn [expr_rem].
  destruct (Z.eqb_spec z0 0); [exact I |].
  destruct (in_i64 _); [| exact I]. apply tidy_inl, tidy_int.
Qed.
Lemma tidy_index a b : tidy a -> tidy b -> tidy (expr_index a b).
Proof.
  intros A B. destruct a; try tidy_atom; destruct b; try tidy_atom; cbn [expr_index]; tidy_args.
  - destruct (_ <? _)%N; [now apply tidy_nth | apply tidy_none].
  - now apply tidy_get.
  - now apply tidy_get.
Qed.

Lemma tidy_zrange l : tidy (map EInteger l).
Proof. apply tidy_map_any. intros; constructor. Qed.
Lemma tidy_take n (l : list expr) : tidy l -> tidy (take_usize n l).
Proof. intros L. unfold take_usize. destruct (_ <=? _)%N; [exact L | now apply tidy_firstn]. Qed.
Lemma tidy_skip n (l : list expr) : tidy l -> tidy (skip_usize n l).
Proof. intros L. unfold skip_usize. destruct (_ <=? _)%N; [constructor | now apply tidy_skipn]. Qed.
Lemma tidy_chunk n l : tidy l -> forall c, tidy c -> tidy (chunk_go n l c).
Proof.
  induction 1 as [| x l X F IH]; intros c C; cbn [chunk_go].
  - destruct C; [constructor |]. repeat constructor. apply tidy_elist, tidy_rev. now constructor.
  - destruct (_ =? _)%N.
    + constructor; [apply tidy_elist, tidy_rev; now constructor | apply IH; constructor].
    + apply IH. now constructor.
Qed.
Lemma tidy_unzip l : tidy l -> tidy (unzip_list l).
Proof.
  induction 1 as [| x l X F IH]; cbn [unzip_list]; [split; constructor |].
  destruct x; try exact I. destruct l0 as [| a [| b [| ]]]; try exact I.
  apply tidy_elist in X. tidy_args. destruct (unzip_list l) as [[u v] |]; [| exact I].
  apply tidy_some in IH. apply tidy_pair in IH. destruct IH as [U V].
  apply tidy_some, tidy_pair. split; now constructor.
Qed.
Lemma tidy_flatten e : tidy e -> tidy (dict_flatten e).
Proof.
  induction e using expr_ind2 with (Q := fun _ => True); try exact I; intros S; cbn [dict_flatten];
    try (constructor; [exact S | constructor]).
  - apply tidy_elist in S. apply (Forall_flat orderly dict_flatten).
    apply Forall_forall. intros x X. eapply Forall_forall in H; [| exact X].
    apply H. exact (tidy_in _ _ _ S X).
  - apply tidy_emap in S. destruct S as [_ S].
    apply (Forall_flat orderly (fun kv : str * expr => dict_flatten (snd kv))).
    apply Forall_forall. intros x X. eapply Forall_forall in H; [| exact X].
    apply H. apply (tidy_in _ _ _ S X).
Qed.
Lemma tidy_insert (l : list expr) i x : tidy l -> tidy x -> tidy (list_insert i x l).
Proof.
  intros L X. unfold list_insert. apply tidy_app. split; [now apply tidy_firstn |].
  apply tidy_cons. split; [exact X | now apply tidy_skipn].
Qed.
Lemma tidy_swap (l : list expr) i j : tidy l -> tidy (swap ENone i j l).
Proof.
  intros L. apply Forall_map. apply Forall_forall. intros k _.
  match goal with |- context [nth ?n l ENone] => destruct (Nat.lt_ge_cases n (length l)) as [C | C] end.
  - exact (tidy_in _ _ _ L (nth_In _ _ C)).
  - rewrite nth_overflow by exact C. apply tidy_none.
Qed.
Lemma tidy_strings l : tidy (strings l).
Proof. apply tidy_elist, tidy_map_any. intros; constructor. Qed.
Lemma tidy_enumerate l : tidy l -> tidy (enumerate l).
Proof.
  intros L. apply tidy_combine; [| exact L]. apply tidy_map_any. intros. exact I.
Qed.
Lemma tidy_from_items H l : tidy l -> forall m, tidy m -> tidy (from_items H l m).
Proof.
  induction 1 as [| x l X F IH]; intros m M; cbn [from_items]; [exact M |].
  destruct x; auto. destruct l0 as [| a [| b [| ]]]; auto. apply tidy_elist in X. tidy_args.
  apply IH. now apply tidy_bm_insert.
Qed.
Lemma sorted_from_items H l : forall m, sorted m -> sorted (from_items H l m).
Proof.
  induction l as [| x l IH]; intros m M; cbn [from_items]; [exact M |].
  destruct x; auto. destruct l0 as [| a [| b [| ]]]; auto. apply IH. now apply sorted_insert.
Qed.
Lemma tidy_fact H l : forall acc, tidy (fact_loop H l acc).
Proof. intros acc. destruct (fact_loop H l acc); exact I. Qed.
Lemma tidy_record msg code e : tidy e -> tidy (error_record msg code e).
Proof.
  intros E. apply tidy_emap. split; [apply sorted_of_list | apply tidy_bm_of_list].
  repeat (apply tidy_cons; split); try apply tidy_nil; apply tidy_pair; split; try exact I;
    try tidy_atom.
Qed.

(** ** The parser *)

Definition ptidy {A} `{Tidy A} (m : pres A) : Prop :=
  match m with POk _ a => tidy a | _ => True end.
Definition pok {A} `{Tidy A} (p : parser A) : Prop := forall i, ptidy (p i).

Section Parser.
  Context {A B : Type} `{Tidy A} `{Tidy B}.

  Lemma ptidy_bind (m : pres A) (k : list token -> A -> pres B) :
    ptidy m -> (forall i a, tidy a -> ptidy (k i a)) -> ptidy (pbind m k).
  Proof. intros M K. destruct m; cbn in *; auto. Qed.
  (** When the first result does not matter. *)
  Lemma ptidy_after {C} (m : pres C) (k : list token -> C -> pres B) :
    (forall i a, ptidy (k i a)) -> ptidy (pbind m k).
  Proof. intros K. destruct m; cbn in *; auto. Qed.
  Lemma ptidy_fail e (m : pres A) : ptidy m -> ptidy (map_fail e m).
  Proof. destruct m; auto. Qed.
  Lemma pok_alt_rest (ps : list (parser A)) : Forall pok ps -> forall e, pok (alt_rest ps e).
  Proof.
    induction 1 as [| p ps P F IH]; intros e i; cbn [alt_rest]; [exact I |].
    specialize (P i). destruct (p i); auto. apply IH.
  Qed.
  Lemma pok_alt (ps : list (parser A)) : Forall pok ps -> pok (alt ps).
  Proof.
    destruct 1 as [| p ps P F]; intros i; cbn [alt]; [exact I |].
    specialize (P i). destruct (p i); auto. now apply pok_alt_rest.
  Qed.
  Lemma pok_opt (p : parser A) : pok p -> pok (opt p).
  Proof. intros P i. specialize (P i). unfold opt. destruct (p i); auto; exact I. Qed.
  Lemma pok_many0_loop (p : parser A) k : pok p -> forall fuel, pok (many0_loop k fuel p).
  Proof.
    intros P. induction fuel as [| fuel IH]; intros i; cbn [many0_loop]; [exact I |].
    specialize (P i). destruct (p i) as [l x | | | |]; auto; [| apply tidy_nil].
    destruct (Nat.eqb _ _); [exact I |]. specialize (IH l). destruct (many0_loop k fuel p l); auto.
    now apply tidy_cons.
  Qed.
  Lemma pok_many0 (p : parser A) : pok p -> pok (many0 p).
  Proof. intros P i. now apply pok_many0_loop. Qed.
  Lemma pok_many1 (p : parser A) : pok p -> pok (many1 p).
  Proof.
    intros P i. unfold many1. pose proof (P i) as X. destruct (p i) as [l x | | | |]; auto; try exact I.
    pose proof (pok_many0_loop p KMany1 P (S (length l)) l) as Y.
    destruct (many0_loop _ _ _ _); auto. now apply tidy_cons.
  Qed.
  Lemma pok_sep_loop (s : parser B) (p : parser A) : pok p -> forall fuel, pok (sep_loop fuel s p).
  Proof.
    intros P. induction fuel as [| fuel IH]; intros i; cbn [sep_loop]; [exact I |].
    destruct (s i) as [l x | | | |]; auto; try exact I; try apply tidy_nil.
    destruct (Nat.eqb _ _); [exact I |]. specialize (P l).
    destruct (p l) as [l0 y | | | |]; auto; try exact I; try apply tidy_nil.
    specialize (IH l0). destruct (sep_loop fuel s p l0); auto. now apply tidy_cons.
  Qed.
  Lemma pok_separated (s : parser B) (p : parser A) : pok p -> pok (separated_list0 s p).
  Proof.
    intros P i. unfold separated_list0. pose proof (P i) as X.
    destruct (p i) as [l x | | | |]; auto; try exact I; try apply tidy_nil.
    pose proof (pok_sep_loop s p P (S (length l)) l) as Y.
    destruct (sep_loop _ _ _ _); auto. now apply tidy_cons.
  Qed.
End Parser.

Lemma pok_infix ops p : pok p -> pok (infix ops p).
Proof.
  intros P i. unfold infix. apply ptidy_bind; [apply P | intros j h X].
  apply ptidy_bind; [| intros k l Y; now split].
  apply pok_many0. intros k. unfold pair_p. apply ptidy_after. intros i1 t.
  apply ptidy_bind; [apply P | intros i2 e E]. now split.
Qed.

Lemma tidy_fold_ops l : tidy l -> forall h, tidy h -> tidy (fold_ops h l).
Proof.
  induction 1 as [| [t e] l [_ X] F IH]; intros h S; cbn [fold_ops fold_left]; [exact S |].
  apply IH. apply tidy_group, tidy_apply. split; [constructor |].
  apply tidy_cons. split; [exact S |]. apply tidy_cons. split; [exact X | constructor].
Qed.

Lemma tidy_pipe l : tidy l -> forall a, tidy a -> tidy (pipe_args a l).
Proof.
  induction 1 as [| [t e] l [_ X] F IH]; intros a S; cbn [pipe_args]; [exact S |]. cbv zeta.
  assert (ST : tidy (EApply (ESymbol (t_text t)) [e])).
  { apply tidy_apply. split; [constructor |]. apply tidy_cons. split; [exact X | constructor]. }
  assert (ST1 : tidy [EApply (ESymbol (t_text t)) [e]]) by (apply tidy_cons; split; [exact ST | constructor]).
  destruct (str_eqb _ _).
  { pose proof (tidy_rev _ a S) as R. destruct (rev a) as [| z b]; [now apply IH |].
    apply tidy_cons in R. destruct R as [Z R]. apply IH. apply tidy_app. split; [now apply tidy_rev |].
    apply tidy_cons. split; [exact ST |]. apply tidy_cons. split; [exact Z | constructor]. }
  destruct (str_eqb _ _).
  { apply IH, tidy_app. split; [exact S |]. apply tidy_cons. split; [exact X | constructor]. }
  destruct (str_eqb _ _); [apply IH, tidy_app; now split |].
  destruct (str_eqb _ _); [apply IH, tidy_app; now split |]. exact I.
Qed.

Section Body.
  Variable slen : N.
  Variable call : nt -> parser expr.
  Hypothesis C : forall n, pok (call n).

  Lemma pok_operator : pok parse_operator_as_symbol.
  Proof.
    intros i. unfold parse_operator_as_symbol, pmap at 1. apply ptidy_after. intros; constructor.
  Qed.
  Lemma pok_as {T} (f : T -> expr) (p : parser T) : (forall t, tidy (f t)) -> pok (pmap f p).
  Proof. intros F i. unfold pmap. apply ptidy_after. intros; apply F. Qed.

  Ltac pstep :=
    match goal with
    | |- ptidy (call _ _) => apply C
    | |- pok (call _) => apply C
    | |- ptidy (map_fail _ (call _ _)) => apply ptidy_fail, C
    | |- ptidy (pbind (call _ _) _) => apply ptidy_bind; [apply C | intros ? ? ?]
    | |- ptidy (pbind (map_fail _ (call _ _)) _) => apply ptidy_bind; [apply ptidy_fail, C | intros ? ? ?]
    | |- ptidy (pbind (infix _ (call _) _) _) =>
        apply ptidy_bind; [apply pok_infix, C | intros ? [? ?] [? ?]; cbn [fst snd] in *]
    | |- ptidy (pbind (many0 (call _) _) _) => apply ptidy_bind; [apply pok_many0, C | intros ? ? ?]
    | |- ptidy (pbind (many1 (call _) _) _) => apply ptidy_bind; [apply pok_many1, C | intros ? ? ?]
    | |- ptidy (pbind _ _) => apply ptidy_after; intros ? ?
    end.

  Lemma pok_body n : pok (body slen call n).
  Proof.
    intros i. destruct n; cbn [body].
    - pstep. apply (ptidy_bind (A := option expr)).
      + apply pok_opt. intros j. repeat pstep. assumption.
      + intros j o O. apply tidy_do, tidy_app. split; [assumption |].
        destruct o; [apply tidy_cons; split; [exact O |] |]; constructor.
    - pstep. destruct (text _ _); [assumption | | | |]; destruct a; try exact I; assumption.
    - repeat pstep. destruct l; [assumption |].
      pose proof (tidy_pipe (p :: l)) as P.
      assert (S : tidy (pipe_args [e] (p :: l))).
      { apply P; [assumption |]. apply tidy_cons. split; [assumption | constructor]. }
      destruct (pipe_args _ _) as [[| x [| y r]] |]; try exact I.
      + apply tidy_group, tidy_apply. split; constructor.
      + apply tidy_some, tidy_cons in S. apply S.
      + apply tidy_group, tidy_apply. split; [constructor | exact S].
    - pstep. apply pok_alt. repeat (constructor; [apply C |]). constructor.
    - do 3 pstep. apply (ptidy_bind (A := expr)).
      { apply ptidy_fail, pok_alt. repeat (constructor; [apply C |]). constructor. }
      intros ? ? ?. repeat pstep. apply tidy_for. now split.
    - do 3 pstep. apply (ptidy_bind (A := option expr)).
      { apply pok_opt. intros j. unfold preceded. pstep. apply pok_alt.
        repeat (constructor; [apply C |]). constructor. }
      intros j o O. apply tidy_if. split; [assumption |]. split; [assumption |].
      destruct o; [exact O | constructor].
    - repeat pstep. assumption.
    - repeat pstep. destruct (str_eqb _ _).
      { apply tidy_lambda. split; [assumption | apply tidy_env_new]. }
      destruct (str_eqb _ _); [assumption | exact I].
    - apply (ptidy_bind (A := expr)).
      { apply pok_alt. constructor; [apply C |]. constructor; [apply pok_operator | constructor]. }
      intros ? ? ?. pstep. apply tidy_apply. now split.
    - apply (ptidy_bind (A := expr)); [apply pok_operator |]. intros ? ? ?. pstep.
      destruct a0; [assumption |]. apply tidy_apply. now split.
    - repeat pstep. now apply tidy_fold_ops.
    - repeat pstep. apply tidy_apply. split; [constructor |].
      apply tidy_cons. split; [assumption |]. apply tidy_cons. split; [assumption | constructor].
    - repeat pstep. destruct l; [| now apply tidy_fold_ops].
      assert (NT : ptidy match call NNot i1 with
                          | POk i2 e => POk i2 e
                          | PPanic => PPanic
                          | PFuel => PFuel
                          | _ => POk i1 e
                          end).
      { pose proof (C NNot i1) as X. destruct (call NNot i1); try exact I; assumption. }
      destruct (text _ _); try exact NT. pstep. apply tidy_apply. split; [constructor |].
      apply tidy_cons. split; [assumption |]. apply tidy_cons. split; [assumption | constructor].
    - repeat pstep. apply tidy_apply. split; [constructor |].
      apply tidy_cons. split; [assumption | constructor].
    - repeat pstep. now apply tidy_fold_ops.
    - repeat pstep. now apply tidy_fold_ops.
    - pstep. pstep. apply (ptidy_bind (A := list expr)).
      { apply pok_many0. intros j. unfold preceded. pstep. apply pok_alt.
        constructor; [apply C |]. constructor; [apply pok_operator | constructor]. }
      intros ? l L. destruct l; [assumption |]. apply tidy_apply. split; [constructor |].
      apply tidy_cons. now split.
    - apply pok_alt. repeat (constructor; [first [apply C | apply pok_as; intros; solve [tidy_atom]] |]). constructor.
    - repeat pstep. assumption.
    - repeat pstep. assumption.
    - pstep. apply (ptidy_bind (A := list (str * expr))).
      { apply pok_separated. intros j. unfold separated_pair. repeat pstep. now split. }
      intros ? m M. apply ptidy_after. intros. apply tidy_emap.
      split; [apply sorted_of_list | now apply tidy_bm_of_list].
    - repeat pstep. assumption.
    - pstep. apply (ptidy_bind (A := list expr)); [apply pok_separated, C |].
      intros. pstep. now apply tidy_elist.
  Qed.
End Body.

Lemma pok_parse slen fuel : forall n, pok (parse slen fuel n).
Proof.
  induction fuel as [| fuel IH]; intros n i; cbn [parse]; [exact I |]. now apply pok_body.
Qed.

Lemma parse_script_tidy s e : parse_script s = SOk e -> tidy e.
Proof.
  unfold parse_script. destruct (tokenize s); try discriminate.
  destruct (filter _ _); [| discriminate]. destruct (adjacent_error _); [discriminate |].
  match goal with |- context [parse ?a ?b ?c ?d] => pose proof (pok_parse a b c d) as P end.
  destruct (parse _ _ _ _) as [[|] x | | | |]; try discriminate. intros X. inversion X; subst. exact P.
Qed.

(** ** Computations *)

(** The variables are in order. *)
Definition tidy_st (s : st) : Prop := env_orderly (s_env s).

(** From such a state the computation leads to such a state, and what it
    returns is in order. *)
Definition safe {A} `{Tidy A} (m : M A) : Prop := forall s, tidy_st s ->
  tidy_st (snd (m s)) /\ match fst (m s) with ROk a => tidy a | _ => True end.

Lemma safe_ret A `{Tidy A} (a : A) : tidy a -> safe (ret a).
Proof. intros X s S. split; assumption. Qed.
Lemma safe_throw A `{Tidy A} e : safe (@throw A e).
Proof. intros s S. split; [exact S | exact I]. Qed.
Lemma safe_custom A `{Tidy A} e : safe (@custom A e).
Proof. apply safe_throw. Qed.
Lemma safe_panics A `{Tidy A} e : safe (@panics A e).
Proof. intros s S. split; [exact S | exact I]. Qed.
Lemma safe_exits A `{Tidy A} e : safe (@exits A e).
Proof. intros s S. split; [exact S | exact I]. Qed.
Lemma safe_fuel A `{Tidy A} : safe (@out_of_fuel A).
Proof. intros s S. split; [exact S | exact I]. Qed.
Lemma safe_get_env : safe get_env.
Proof. intros s S. split; exact S. Qed.
Lemma safe_put_env e : tidy e -> safe (put_env e).
Proof. intros X s S. split; [exact X | exact I]. Qed.
Lemma safe_get_log : safe get_log.
Proof. intros s S. split; [exact S | exact I]. Qed.
Lemma safe_put_log l : safe (put_log l).
Proof. intros s S. split; [exact S | exact I]. Qed.
Lemma safe_ask H rq : safe (ask H rq).
Proof. intros s S. split; [exact S | exact I]. Qed.
Lemma safe_define x v : tidy v -> safe (define x v).
Proof. intros V s S. split; [| exact I]. now apply tidy_env_define. Qed.

Lemma safe_bind A B `{Tidy A} `{Tidy B} (m : M A) (k : A -> M B) :
  safe m -> (forall a, tidy a -> safe (k a)) -> safe (bind m k).
Proof.
  intros X Y s S. unfold bind. specialize (X s S). destruct (m s) as [[a | | | |] s1]; cbn in *; auto.
  apply Y; apply X.
Qed.
(** When the first result does not matter. *)
Lemma safe_after A B `{Tidy B} (m : M A) (k : A -> M B) :
  (forall s, tidy_st s -> tidy_st (snd (m s))) -> (forall a, safe (k a)) -> safe (bind m k).
Proof.
  intros X Y s S. unfold bind. specialize (X s S). destruct (m s) as [[a | | | |] s1]; cbn in *; auto.
  apply Y; apply X.
Qed.
Lemma safe_catch A `{Tidy A} (m : M A) h : safe m -> (forall e, safe (h e)) -> safe (catch m h).
Proof.
  intros X Y s S. unfold catch. specialize (X s S). destruct (m s) as [[a | | | |] s1]; cbn in *; auto.
  apply Y; apply X.
Qed.
Lemma safe_in_env A `{Tidy A} e (m : M A) : tidy e -> safe m -> safe (in_env e m).
Proof.
  intros E X s S. unfold in_env. specialize (X (St e (s_trace s) (s_log s))).
  destruct (m _) as [r s1]. destruct X as [Y Z]; [exact E |].
  split; [exact S | exact Z].
Qed.
Lemma safe_mapM A B `{Tidy A} `{Tidy B} (f : A -> M B) l :
  tidy l -> (forall a, tidy a -> safe (f a)) -> safe (mapM f l).
Proof.
  intros L X. induction L as [| a l A1 L IH]; cbn [mapM]; [apply safe_ret; constructor |].
  refine (safe_bind _ _ _ _ _ _); [now apply X | intros b B1]. refine (safe_bind _ _ _ _ _ _); [exact IH |].
  intros bs BS. apply safe_ret. now constructor.
Qed.
Lemma safe_foldM A B `{Tidy A} `{Tidy B} (f : B -> A -> M B) l :
  tidy l -> (forall b a, tidy b -> tidy a -> safe (f b a)) -> forall b, tidy b -> safe (foldM f b l).
Proof.
  intros L X. induction L as [| a l A1 L IH]; intros b B1; cbn [foldM]; [now apply safe_ret |].
  refine (safe_bind _ _ _ _ _ _); [now apply X | exact IH].
Qed.
Lemma safe_or_panic A `{Tidy A} (r : A + panic) : tidy r -> safe (or_panic r).
Proof. intros R. destruct r; [now apply safe_ret | apply safe_panics]. Qed.

Lemma tidy_fst A B `{Tidy A} `{Tidy B} (p : A * B) : tidy p -> tidy (fst p). Proof. intros P; apply P. Qed.
Lemma tidy_snd A B `{Tidy A} `{Tidy B} (p : A * B) : tidy p -> tidy (snd p). Proof. intros P; apply P. Qed.

Ltac tidy_step :=
  match goal with
  | |- _ => assumption
  | |- _ => exact I
  | |- _ => tidy_atom
  | |- tidy (EList _) => apply tidy_elist
  | |- tidy (EMap _) => apply tidy_emap; split
  | |- tidy (EGroup _) => apply (proj2 (tidy_group _))
  | |- tidy (EQuote _) => apply (proj2 (tidy_quote _))
  | |- tidy (EDo _) => apply tidy_do
  | |- tidy (EFor _ _ _) => apply tidy_for; split
  | |- tidy (EIf _ _ _) => apply tidy_if; split; [| split]
  | |- tidy (caesar _ _ _) => destruct (caesar _ _ _); exact I
  | |- tidy (error_display _ _) => destruct (error_display _ _); exact I
  | |- tidy (EApply _ _) => apply tidy_apply; split
  | |- tidy (ELambda _ _ _) => apply tidy_lambda; split
  | |- tidy [] => apply tidy_nil
  | |- tidy (_ :: _) => apply tidy_cons; split
  | |- tidy (_ ++ _) => apply tidy_app; split
  | |- tidy (_, _) => apply tidy_pair; split
  | |- tidy (inl _) => apply tidy_inl
  | |- tidy (pure_op _ _ _) => apply tidy_inl
  | |- tidy (rev _) => apply tidy_rev
  | |- tidy (tl _) => apply tidy_tl
  | |- tidy (filter _ _) => apply tidy_filter
  | |- tidy (take_usize _ _) => apply tidy_take
  | |- tidy (skip_usize _ _) => apply tidy_skip
  | |- tidy (chunk_go _ _ _) => apply tidy_chunk
  | |- tidy (unzip_list _) => apply tidy_unzip
  | |- tidy (combine _ _) => apply tidy_combine
  | |- tidy (enumerate _) => apply tidy_enumerate
  | |- tidy (strings _) => apply tidy_strings
  | |- tidy (dict_flatten _) => apply tidy_flatten
  | |- tidy (list_insert _ _ _) => apply tidy_insert
  | |- tidy (from_items _ _ _) => apply tidy_from_items
  | |- tidy (bm_insert _ _ _) => apply tidy_bm_insert
  | |- tidy (bm_remove _ _) => apply tidy_bm_remove
  | |- tidy (bm_get _ _) => apply tidy_bm_get
  | |- tidy (nth_error _ _) => apply tidy_nth_error
  | |- tidy (env_get _ _) => apply tidy_env_get
  | |- tidy (env_define _ _ _) => apply tidy_env_define
  | |- tidy (env_undefine _ _) => apply tidy_env_undefine
  | |- tidy (env_set_cwd _ _) => apply tidy_set_cwd
  | |- tidy (env_bindings _) => apply tidy_bindings
  | |- tidy (capture _ _ _ _) => apply tidy_capture
  | |- tidy (curry_env _ _ _) => apply tidy_curry_env
  | |- tidy (reverse_curry _ _) => apply tidy_reverse_curry
  | |- tidy (arith _ _) => apply tidy_arith
  | |- tidy (parse_int_text _) => apply tidy_int_text
  | |- tidy (expr_add _ _) => apply tidy_add
  | |- tidy (expr_sub _ _) => apply tidy_sub
  | |- tidy (expr_mul _ _) => apply tidy_mul
  | |- tidy (expr_div _ _) => apply tidy_div
  | |- tidy (expr_rem _ _) => apply tidy_rem
  | |- tidy (expr_neg _ _) => apply tidy_neg
  | |- tidy (expr_index _ _) => apply tidy_index
  | |- tidy (fact_loop _ _ _) => apply tidy_fact
  | |- tidy (error_record _ _ _) => apply tidy_record
  | |- tidy (fst _) => refine (tidy_fst _ _ _ _)
  | |- tidy (snd _) => refine (tidy_snd _ _ _ _)
  | |- tidy (map _ _) => first [apply tidy_map_any; intros ?; solve [repeat tidy_step]
                               | refine (tidy_map _ _ _ _ _ _); [intros ? ? |]]
  | |- tidy (if ?b then _ else _) => destruct b
  | |- tidy (match ?x with _ => _ end) => destruct x; tidy_args
  | |- tidy (fold_left _ _ _) =>
      apply tidy_bm_fold; [intros m0 [? ?] ? ?; cbn [fst snd] in * |
                          |]
  | |- sorted [] => apply sorted_nil
  | |- sorted (bm_insert _ _ _) => apply sorted_insert
  | |- sorted (bm_remove _ _) => apply sorted_remove
  | |- sorted (bm_of_list _) => apply sorted_of_list
  | |- sorted (from_items _ _ _) => apply sorted_from_items
  | |- sorted (env_bindings _) => apply sorted_bindings
  | |- sorted (fold_left _ _ _) => apply sorted_fold; [intros ? ? ? |]
  | |- sorted (if ?b then _ else _) => destruct b
  | |- sorted (match ?x with _ => _ end) => destruct x; tidy_args
  end.

Ltac safe_step :=
  match goal with
  | |- safe (ret _) => apply safe_ret
  | |- safe (throw _) => apply safe_throw
  | |- safe (custom _) => apply safe_custom
  | |- safe (panics _) => apply safe_panics
  | |- safe (exits _) => apply safe_exits
  | |- safe out_of_fuel => apply safe_fuel
  | |- safe get_env => apply safe_get_env
  | |- safe get_log => apply safe_get_log
  | |- safe (put_log _) => apply safe_put_log
  | |- safe (put_env _) => apply safe_put_env
  | |- safe (ask _ _) => apply safe_ask
  | |- safe (define _ _) => apply safe_define
  | |- safe (or_panic _) => refine (safe_or_panic _ _ _)
  | |- safe (bind _ _) => refine (safe_bind _ _ _ _ _ _); [| intros ? ?; tidy_args]
  | |- safe (catch _ _) => apply safe_catch; [| intros ?]
  | |- safe (in_env _ _) => apply safe_in_env
  | |- safe (mapM _ _) => refine (safe_mapM _ _ _ _ _ _); [| intros ? ?; tidy_args]
  | |- safe (foldM _ _ _) => refine (safe_foldM _ _ _ _ _ _ _ _); [| intros ? ? ? ?; tidy_args |]
  | |- safe (match ?x with _ => _ end) =>
      first [is_var x; destruct x
           | let S := fresh "S" in assert (S : tidy x) by (solve [repeat tidy_step]); destruct x
           | destruct x]; tidy_args
  | H : forall e, tidy e -> safe _ |- safe _ => apply H
  | H : forall e f, safe _ |- safe _ => apply H
  | |- tidy _ => tidy_step
  | |- sorted _ => tidy_step
  end.

(** Texts have no parts. *)
Lemma safe_texts (m : M (list str)) : @safe _ (Tidy_list str) m -> safe m.
Proof. intros X s S. specialize (X s S). split; [apply X |]. destruct (fst (m s)); exact I. Qed.

Fixpoint tidy_json (j : json) : tidy (json_expr j).
Proof.
  destruct j; cbn [json_expr]; try tidy_atom.
  - apply tidy_elist. induction l as [| x l IH]; cbn [map]; constructor; [apply tidy_json | exact IH].
  - apply tidy_emap. split; [apply sorted_of_list | apply tidy_bm_of_list].
    induction m as [| [k x] m IH]; cbn [map]; constructor; [split; [exact I | apply tidy_json] | exact IH].
Qed.

Fixpoint tidy_toml (t : toml) : tidy (toml_expr t).
Proof.
  destruct t; cbn [toml_expr]; try tidy_atom.
  - apply tidy_elist. induction l as [| x l IH]; cbn [map]; constructor; [apply tidy_toml | exact IH].
  - apply tidy_emap. split; [apply sorted_of_list | apply tidy_bm_of_list].
    induction m as [| [k x] m IH]; cbn [map]; constructor; [split; [exact I | apply tidy_toml] | exact IH].
Qed.

Fixpoint tidy_tree p (t : dirtree) : tidy (tree_expr p t).
Proof.
  destruct t as [| es]; cbn [tree_expr]; [constructor |].
  apply tidy_emap. split.
  { apply sorted_fold; [| apply sorted_of_list]. intros. now apply sorted_insert. }
  apply tidy_bm_fold.
  - intros. now apply tidy_bm_insert.
  - induction es as [| [k x] es IH]; cbn [map]; constructor; [split; [exact I | apply tidy_tree] | exact IH].
  - apply tidy_bm_of_list. constructor; [split; constructor |].
    destruct (path_parent p); repeat constructor.
Qed.

Lemma tidy_key k : tidy (key_text k).
Proof. destruct k; constructor. Qed.

Section Builtins.
  Variable H : host.
  Variable ev : expr -> M expr.
  Hypothesis EV : forall e, tidy e -> safe (ev e).

  Lemma safe_stage_command p l : tidy l -> safe (stage_command H ev p l).
  Proof.
    intros L. unfold stage_command, stage_args. repeat safe_step.
    apply safe_texts. repeat safe_step.
  Qed.

  Lemma safe_command x : tidy x -> safe (expr_to_command H ev x).
  Proof.
    induction x using expr_ind2 with (Q := fun _ => True); try exact I; intros S; cbn [expr_to_command];
      repeat match goal with
             | |- safe (stage_command _ _ _ _) => apply safe_stage_command
             | IH : tidy ?x -> safe (expr_to_command _ _ ?x) |- safe (expr_to_command _ _ ?x) => apply IH
             | _ => safe_step
             end.
  Qed.

  Lemma safe_stages l : tidy l -> forall b acc, tidy acc -> safe (run_stages H ev b acc l).
  Proof.
    induction 1 as [| x l X L IH]; intros b acc A; cbn [run_stages]; [now apply safe_ret |].
    refine (safe_bind _ _ _ _ _ _); [| intros a A1; now apply IH].
    unfold run_stage. refine (safe_bind _ _ _ _ _ _); [now apply safe_command | intros c _].
    repeat safe_step.
  Qed.

  Lemma safe_print show last l : tidy l -> safe (run_print H ev show last l).
  Proof.
    induction 1 as [| x l X L IH]; cbn [run_print]; [now apply safe_ret |].
    destruct l; unfold print; repeat safe_step. exact IH.
  Qed.

  Lemma safe_filterM f l : tidy f -> tidy l -> safe (filterM ev f l).
  Proof. intros F. induction 1 as [| x l X L IH]; cbn [filterM]; repeat safe_step. exact IH. Qed.

  Lemma safe_pieces p l : safe (log_pieces H p l).
  Proof. induction l as [| a l IH]; cbn [log_pieces]; unfold print; repeat safe_step. exact IH. Qed.

  Lemma safe_log_args p l : tidy l -> forall b, safe (log_args H ev p b l).
  Proof.
    induction 1 as [| a l A L IH]; intros b; cbn [log_args]; unfold print; cbv zeta; repeat safe_step;
      try apply IH; apply safe_pieces.
  Qed.

  Lemma safe_joinx l : tidy l -> forall i h, safe (joinx_args H ev i h l).
  Proof.
    induction 1 as [| a l A L IH]; intros i h; cbn [joinx_args]; cbv zeta; repeat safe_step; apply IH.
  Qed.
  Lemma safe_joiny l : tidy l -> forall i h, safe (joiny_args H ev i h l).
  Proof.
    induction 1 as [| a l A L IH]; intros i h; cbn [joiny_args]; cbv zeta; repeat safe_step; apply IH.
  Qed.

  Lemma safe_sample {A} `{Tidy A} lo hi (k : Z -> M A) : (forall z, safe (k z)) -> safe (bind (sample H lo hi) k).
  Proof. intros K. apply safe_after; [intros s S; exact S | exact K]. Qed.

  Lemma safe_shuffle i : forall l, tidy l -> safe (shuffle H i l).
  Proof.
    induction i as [| i IH]; intros l L; cbn [shuffle]; [now apply safe_ret |].
    apply safe_sample. intros z. apply IH. now apply tidy_swap.
  Qed.

  Lemma safe_help l : tidy l -> safe (run_help H ev l).
  Proof. induction 1 as [| a l A L IH]; cbn [run_help]; cbv zeta; repeat safe_step; exact IH. Qed.

  Lemma safe_write x y l : forall k, safe (write_lines H x y k l).
  Proof.
    induction l as [| a l IH]; intros k; cbn [write_lines]; unfold print; cbv zeta; repeat safe_step. apply IH.
  Qed.

  Lemma safe_glob cwd p l : safe (glob_paths cwd p l).
  Proof. induction l as [| [a | a] l IH]; cbn [glob_paths]; repeat safe_step. exact IH. Qed.

  Lemma safe_parse s : safe (parse_m s).
  Proof.
    unfold parse_m. destruct (parse_script s) eqn:E; repeat safe_step. eapply parse_script_tidy; eauto.
  Qed.

  Lemma safe_arg l i : tidy l -> safe (arg l i).
  Proof.
    intros L. unfold arg. pose proof (tidy_nth_error _ l i L) as X.
    destruct (nth_error l i); [now apply safe_ret | apply safe_panics].
  Qed.
  Lemma safe_ev_arg l i : tidy l -> safe (ev_arg ev l i).
  Proof. intros L. refine (safe_bind _ _ _ _ _ _); [now apply safe_arg | exact EV]. Qed.

  Lemma safe_to l : tidy l -> safe (run_to ev l).
  Proof.
    intros L. unfold run_to. refine (safe_bind _ _ _ _ _ _); [unfold require_len; repeat safe_step | intros _ _].
    refine (safe_bind _ _ _ _ _ _); [now apply safe_ev_arg | intros a A].
    refine (safe_bind _ _ _ _ _ _); [now apply safe_ev_arg | intros b B].
    destruct a; try apply safe_custom. destruct b; try apply safe_custom. apply safe_ret, tidy_elist, tidy_zrange.
  Qed.
  Lemma safe_range l : tidy l -> safe (run_range ev l).
  Proof.
    intros L. unfold run_range. refine (safe_bind _ _ _ _ _ _); [unfold require_len; repeat safe_step | intros _ _].
    refine (safe_bind _ _ _ _ _ _); [now apply safe_ev_arg | intros a A].
    refine (safe_bind _ _ _ _ _ _); [now apply safe_ev_arg | intros b B].
    destruct a; try apply safe_custom. destruct b; try apply safe_custom. apply safe_ret, tidy_elist, tidy_zrange.
  Qed.

  Lemma safe_choose l : tidy l -> safe (run_choose H ev l).
  Proof.
    intros L. unfold run_choose, exact1. refine (safe_bind _ _ _ _ _ _); [unfold check_exact; repeat safe_step | intros _ _].
    refine (safe_bind _ _ _ _ _ _); [now apply safe_ev_arg | intros a A].
    destruct a; try apply safe_custom. destruct l0; [apply safe_panics |].
    apply safe_sample. intros z. tidy_args. repeat safe_step.
  Qed.
  Lemma safe_rand_int l : tidy l -> safe (run_rand_int H ev l).
  Proof.
    intros L. unfold run_rand_int, exact2. refine (safe_bind _ _ _ _ _ _); [unfold check_exact; repeat safe_step | intros _ _].
    refine (safe_bind _ _ _ _ _ _); [now apply safe_ev_arg | intros a A].
    refine (safe_bind _ _ _ _ _ _); [now apply safe_ev_arg | intros b B].
    destruct a; try apply safe_custom. destruct b; try apply safe_custom.
    destruct (Z.ltb_spec z z0); [| apply safe_panics]. unfold sample. repeat safe_step.
  Qed.

  Lemma safe_shift b : safe (shift_amount H b).
  Proof.
    unfold shift_amount. repeat safe_step.
  Qed.

  Lemma safe_arsh l : tidy l -> safe (run_arsh H ev l).
  Proof.
    intros L. unfold run_arsh, two_ints. cbv zeta.
    refine (safe_bind _ _ _ _ _ _); [unfold check_exact; repeat safe_step | intros _ _].
    refine (safe_bind _ _ _ _ _ _); [now apply safe_ev_arg | intros a A].
    destruct a; try apply safe_custom.
    refine (safe_bind _ _ _ _ _ _); [now apply safe_ev_arg | intros b B].
    destruct b; try apply safe_custom.
    refine (safe_bind _ _ _ _ _ _); [apply safe_shift | intros n _]. apply safe_ret, tidy_int.
  Qed.

  Lemma safe_accumulate name fi ff init l : tidy init -> tidy l ->
    safe (accumulate H ev name fi ff init l).
  Proof. intros N L. unfold accumulate. cbv zeta. repeat safe_step. Qed.

  Lemma safe_pow l : tidy l -> safe (run_pow H ev l).
  Proof.
    intros L. unfold run_pow, exact2. cbv zeta.
    refine (safe_bind _ _ _ _ _ _); [unfold check_exact; repeat safe_step | intros _ _].
    refine (safe_bind _ _ _ _ _ _); [now apply safe_ev_arg | intros a A].
    refine (safe_bind _ _ _ _ _ _); [now apply safe_ev_arg | intros b B].
    destruct a; try apply safe_custom; destruct b; try apply safe_custom;
      try (apply safe_ret; tidy_atom).
    match goal with |- context [in_i64 ?r] => destruct (in_i64 r) eqn:E end; [| apply safe_custom].
    apply safe_ret, tidy_int.
  Qed.

  Ltac builtin_step :=
    match goal with
    | |- safe (run_stages _ _ _ _ _) => apply safe_stages
    | |- safe (run_print _ _ _ _ _) => apply safe_print
    | |- safe (filterM _ _ _) => apply safe_filterM
    | |- safe (log_args _ _ _ _ _) => apply safe_log_args
    | |- safe (joinx_args _ _ _ _ _) => apply safe_joinx
    | |- safe (joiny_args _ _ _ _ _) => apply safe_joiny
    | |- safe (shuffle _ _ _) => apply safe_shuffle
    | |- safe (run_help _ _ _) => apply safe_help
    | |- safe (write_lines _ _ _ _ _) => apply safe_write
    | |- safe (glob_paths _ _ _) => apply safe_glob
    | |- tidy (json_expr _) => apply tidy_json
    | |- tidy (toml_expr _) => apply tidy_toml
    | |- tidy (tree_expr _ _) => apply tidy_tree
    | |- tidy (key_text _) => apply tidy_key
    | |- safe (parse_m _) => apply safe_parse
    | |- safe (arg _ _) => apply safe_arg
    | |- safe (ev_arg _ _ _) => apply safe_ev_arg
    | |- safe (run_to _ _) => apply safe_to
    | |- safe (run_range _ _) => apply safe_range
    | |- safe (run_choose _ _ _) => apply safe_choose
    | |- safe (run_pow _ _ _) => apply safe_pow
    | |- safe (run_rand_int _ _ _) => apply safe_rand_int
    | |- safe (run_arsh _ _ _) => apply safe_arsh
    | |- safe (shift_amount _ _) => apply safe_shift
    | |- safe (accumulate _ _ _ _ _ _ _) => apply safe_accumulate
    | |- safe (match display _ _ with _ => _ end) => destruct (display _ _)
    | |- safe (match from_utf8 _ with _ => _ end) => destruct (from_utf8 _)
    | |- safe (match split_bytes _ _ with _ => _ end) => destruct (split_bytes _ _) as [[? ?] |]
    | _ => safe_step
    | |- safe (?f _ _ _ _ _ _ _) => unfold f; cbv beta zeta
    | |- safe (?f _ _ _ _ _ _) => unfold f; cbv beta zeta
    | |- safe (?f _ _ _ _ _) => unfold f; cbv beta zeta
    | |- safe (?f _ _ _ _) => unfold f; cbv beta zeta
    | |- safe (?f _ _ _) => unfold f; cbv beta zeta
    | |- safe (?f _ _) => unfold f; cbv beta zeta
    | |- safe (?f _) => unfold f; cbv beta zeta
    | |- safe ?f => unfold f; cbv beta zeta
    end.

  Lemma safe_builtin b args : tidy args -> safe (run_builtin H ev b args).
  Proof.
    intros A. destruct b; cbn [run_builtin]; repeat builtin_step.
    - apply tidy_bm_fold; [| assumption | assumption]. intros. now apply tidy_bm_insert.
    - apply tidy_bm_fold; [| assumption | constructor]. intros.
      destruct (bm_mem _ _); [now apply tidy_bm_insert | assumption].
    - apply tidy_bm_fold; [| assumption | assumption]. intros. now apply tidy_bm_remove.
    - destruct (nth_in_or_default 1 args ENone) as [I | ->]; [exact (tidy_in _ _ _ A I) | constructor].
    - apply tidy_bm_of_list. repeat (constructor; [split; [exact I |] |]); try tidy_atom;
        repeat constructor.
  Qed.
End Builtins.

Section Eval.
  Variable H : host.

  Lemma safe_body rec ev0 e :
    (forall e, tidy e -> safe (rec e)) -> (forall e, tidy e -> safe (ev0 e)) ->
    tidy e -> safe (eval_body H rec ev0 e).
  Proof.
    intros R E S.
    assert (MV : forall m : bmap expr, tidy m -> safe (map_values rec m)).
    { induction m as [| [k x] m IH]; intros F; cbn [map_values]; [apply safe_ret; constructor |].
      apply tidy_cons in F. destruct F as [[_ X] F].
      refine (safe_bind _ _ _ _ _ _); [now apply R | intros y Y].
      refine (safe_bind _ _ _ _ _ _); [now apply IH | intros r Q].
      apply safe_ret. constructor; [split; [exact I | exact Y] | exact Q]. }
    assert (MK : forall (m : bmap expr) s m' s', map_values rec m s = (ROk m', s') -> map fst m' = map fst m).
    { induction m as [| [k x] m IH]; intros s m' s'; cbn [map_values]; [intros X; now inversion X |].
      unfold bind at 1. destruct (rec x s) as [[y | | | |] s1]; try discriminate.
      unfold bind at 1. destruct (map_values rec m s1) as [[r | | | |] s2] eqn:V; try discriminate.
      intros X. inversion X; subst. cbn [map fst]. now rewrite (IH _ _ _ V). }
    assert (ME : forall m : bmap expr, sorted m -> tidy m -> safe (m' <- map_values rec m ;; ret (EMap m'))).
    { intros m O T s X. specialize (MV m T s X). specialize (MK m s). unfold bind.
      destruct (map_values rec m s) as [[m' | | | |] s1]; try exact MV. split; [apply MV |].
      cbn. apply tidy_emap. split; [| apply MV]. apply increasing_keys.
      rewrite (MK m' s1 eq_refl). now apply increasing_keys. }
    assert (SQ : forall l, tidy l -> safe (seqM rec l)).
    { induction l as [| x l IH]; intros F; cbn [seqM]; [apply safe_ret, tidy_none |].
      apply tidy_cons in F. destruct F as [X F].
      destruct l; [now apply R |].
      refine (safe_bind _ _ _ _ _ _); [now apply R | intros _ _; now apply IH]. }
    destruct e; cbn [eval_body];
      repeat match goal with
      | X : tidy (EList _) |- _ => apply (proj1 (tidy_elist _)) in X
      | X : tidy (EMap _) |- _ => apply (proj1 (tidy_emap _)) in X; destruct X
      | X : tidy (EDo _) |- _ => apply (proj1 (tidy_do _)) in X
      | X : tidy (EIf _ _ _) |- _ => apply (proj1 (tidy_if _ _ _)) in X; destruct X as (? & ? & ?)
      | X : tidy (EFor _ _ _) |- _ => apply (proj1 (tidy_for _ _ _)) in X; destruct X
      | X : tidy (EApply _ _) |- _ => apply (proj1 (tidy_apply _ _)) in X; destruct X
      end;
      try (unfold apply_value, run_command; repeat safe_step; auto using safe_builtin; fail);
      try (now apply ME).
    refine (safe_bind _ _ _ _ _ _); [apply safe_get_env | intros a A]. apply safe_ret.
    pose proof (tidy_env_get s a A) as G. destruct (env_get s a); [exact G | apply tidy_symbol].
  Qed.

  Lemma safe_eval n : forall d e, tidy e -> safe (eval H n d e).
  Proof.
    induction n as [| n IH]; intros d e S; cbn [eval]; [apply safe_fuel |].
    destruct (MAX_DEPTH <? d)%N; [apply safe_throw |]. apply safe_body; auto.
  Qed.
End Eval.
