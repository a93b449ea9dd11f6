(** Integers stay in the 64 bit range: the parser, the builtin functions and
    the evaluator. *)

From Coq Require Import String Floats.SpecFloat.
From Verif Require Import Base Syntax Host Ops Tokenizer Parser ErrorFmt Text Monad Builtins Eval
  OpsSpec OpsFacts RangeSpec ParserFacts.

(** ** What it means for each type of data *)

Class Small (A : Type) := small : A -> Prop.

Global Instance Small_expr : Small expr := all_fit.
Global Instance Small_env : Small env := env_fit.
Global Instance Small_Z : Small Z := fits.
Global Instance Small_list A `{Small A} : Small (list A) := Forall small.
Global Instance Small_option A `{Small A} : Small (option A) := opt_all small.
Global Instance Small_prod A B `{Small A} `{Small B} : Small (A * B) :=
  fun p => small (fst p) /\ small (snd p).
Global Instance Small_panic A `{Small A} : Small (A + panic) :=
  fun r => match r with inl a => small a | inr _ => True end.
Global Instance Small_str : Small str := fun _ => True.
Global Instance Small_strs : Small (list str) := fun _ => True.
Global Instance Small_strss : Small (list (list str)) := fun _ => True.
Global Instance Small_bytes : Small (list N) := fun _ => True.
Global Instance Small_text_or : Small (str + str) := fun _ => True.
Global Instance Small_unit : Small unit := fun _ => True.
Global Instance Small_bool : Small bool := fun _ => True.
Global Instance Small_f64 : Small f64 := fun _ => True.
Global Instance Small_sf : Small spec_float := fun _ => True.
Global Instance Small_response : Small response := fun _ => True.
Global Instance Small_command : Small (option command) := fun _ => True.
Global Instance Small_token : Small token := fun _ => True.

Lemma Forall_flat {A B} (P : B -> Prop) (f : A -> list B) l :
  Forall P (flat_map f l) <-> Forall (fun a => Forall P (f a)) l.
Proof.
  induction l as [| a l IH]; simpl; [split; constructor |].
  rewrite Forall_app, IH. split; [intros []; constructor; auto | intros X; inversion X; auto].
Qed.

Definition smap (m : bmap expr) : Prop := Forall (fun kv => all_fit (snd kv)) m.

Lemma small_map_iff m : smap m <-> @small (list (str * expr)) _ m.
Proof.
  unfold smap, small, Small_list. split; intros F; (eapply Forall_impl; [| exact F]).
  - intros [k x] X. split; [exact I | exact X].
  - intros [k x] [_ X]. exact X.
Qed.

(** Taking apart and putting together. *)
Lemma small_int z : small (EInteger z) <-> fits z.
Proof. split; [intros X; now inversion X | intros; repeat constructor; auto; apply H]. Qed.
Lemma small_group e : small (EGroup e) <-> small e. Proof. reflexivity. Qed.
Lemma small_quote e : small (EQuote e) <-> small e. Proof. reflexivity. Qed.
Lemma small_assign x e : small (EAssign x e) <-> small e. Proof. reflexivity. Qed.
Lemma small_macro x e : small (EMacro x e) <-> small e. Proof. reflexivity. Qed.
Lemma small_elist l : small (EList l) <-> small l. Proof. apply (Forall_flat fits ints). Qed.
Lemma small_do l : small (EDo l) <-> small l. Proof. apply (Forall_flat fits ints). Qed.
Lemma small_emap m : small (EMap m) <-> small m.
Proof. rewrite <- small_map_iff. apply (Forall_flat fits (fun kv : str * expr => ints (snd kv))). Qed.
Lemma small_for x l b : small (EFor x l b) <-> small l /\ small b. Proof. apply Forall_app. Qed.
Lemma small_if c t f : small (EIf c t f) <-> small c /\ small t /\ small f.
Proof.
  unfold small, Small_expr, all_fit. cbn [ints]. now rewrite !Forall_app.
Qed.
Lemma small_apply f l : small (EApply f l) <-> small f /\ small l.
Proof.
  unfold small at 1, Small_expr, all_fit. cbn [ints]. rewrite Forall_app.
  now rewrite (Forall_flat fits ints).
Qed.
Lemma small_lambda p b c : small (ELambda p b c) <-> small b /\ small c. Proof. apply Forall_app. Qed.
Lemma small_none : small ENone. Proof. constructor. Qed.
Lemma small_symbol s : small (ESymbol s). Proof. constructor. Qed.
Lemma small_float s : small (EFloat s). Proof. constructor. Qed.
Lemma small_ebytes s : small (EBytes s). Proof. constructor. Qed.
Lemma small_estring s : small (EString s). Proof. constructor. Qed.
Lemma small_ebool s : small (EBoolean s). Proof. constructor. Qed.
Lemma small_builtin s : small (EBuiltin s). Proof. constructor. Qed.
Lemma small_Env b p : small (Env b p) <-> small b /\ small p.
Proof.
  unfold small at 1, Small_env, env_fit. cbn [env_ints]. rewrite Forall_app.
  rewrite (Forall_flat fits (fun kv : str * expr => ints (snd kv))). fold (smap b).
  rewrite small_map_iff. apply and_iff_compat_l. destruct p; [reflexivity |]. split; constructor.
Qed.
Lemma small_nil A `{Small A} : small (@nil A). Proof. constructor. Qed.
Lemma small_cons A `{Small A} (a : A) l : small (a :: l) <-> small a /\ small l.
Proof. split; [intros X; now inversion X | intros []; now constructor]. Qed.
Lemma small_app A `{Small A} (l m : list A) : small (l ++ m) <-> small l /\ small m.
Proof. apply Forall_app. Qed.
Lemma small_pair A B `{Small A} `{Small B} (a : A) (b : B) : small (a, b) <-> small a /\ small b.
Proof. reflexivity. Qed.
Lemma small_some A `{Small A} (a : A) : small (Some a) <-> small a. Proof. reflexivity. Qed.
Lemma small_nothing A `{Small A} : small (@None A). Proof. exact I. Qed.
Lemma small_inl A `{Small A} (a : A) : small (@inl A panic a) <-> small a. Proof. reflexivity. Qed.
Lemma small_inr A `{Small A} p : small (@inr A panic p). Proof. exact I. Qed.

Lemma small_rev A `{Small A} (l : list A) : small l -> small (rev l).
Proof. intros F. apply Forall_rev. exact F. Qed.
Lemma small_incl A `{Small A} (l m : list A) : incl l m -> small m -> small l.
Proof. intros I F. apply Forall_forall. intros x X. eapply Forall_forall in F; [exact F | now apply I]. Qed.
Lemma small_in A `{Small A} (l : list A) x : small l -> In x l -> small x.
Proof. intros F I. eapply Forall_forall in F; eauto. Qed.
Lemma small_tl A `{Small A} (l : list A) : small l -> small (tl l).
Proof. intros F. destruct F; [constructor | assumption]. Qed.
Lemma small_filter A `{Small A} f (l : list A) : small l -> small (filter f l).
Proof. apply small_incl. intros x X. apply filter_In in X. apply X. Qed.
Lemma small_firstn A `{Small A} n (l : list A) : small l -> small (firstn n l).
Proof. intros F. rewrite <- (firstn_skipn n l) in F. apply small_app in F. apply F. Qed.
Lemma small_skipn A `{Small A} n (l : list A) : small l -> small (skipn n l).
Proof. intros F. rewrite <- (firstn_skipn n l) in F. apply small_app in F. apply F. Qed.
Lemma small_map A B `{Small A} `{Small B} (f : A -> B) l :
  (forall a, small a -> small (f a)) -> small l -> small (map f l).
Proof. intros F L. apply Forall_map. eapply Forall_impl; [exact F | exact L]. Qed.
Lemma small_map_any A B `{Small B} (f : A -> B) l : (forall a, small (f a)) -> small (map f l).
Proof. intros F. apply Forall_map. apply Forall_forall. intros; apply F. Qed.
Lemma small_nth_error A `{Small A} (l : list A) n : small l -> small (nth_error l n).
Proof.
  intros F. destruct (nth_error l n) eqn:E; [| exact I]. apply nth_error_In in E. exact (small_in _ _ _ F E).
Qed.
Lemma small_combine A B `{Small A} `{Small B} (l : list A) (m : list B) :
  small l -> small m -> small (combine l m).
Proof.
  intros F. revert m. induction F as [| a l X F IH]; intros m G; cbn; [constructor |].
  destruct G; constructor; [now split | now apply IH].
Qed.

(** ** Integers *)

Lemma fits_wrap z : fits (wrap64 z).
Proof. unfold fits, wrap64. pose proof (Z.mod_pos_bound (z + 2 ^ 63) (2 ^ 64) ltac:(lia)). lia. Qed.
Lemma fits_as_int z : fits (as_int z). Proof. apply fits_wrap. Qed.
Lemma small_checked z : small (checked z).
Proof.
  unfold checked. destruct (in_i64 z) eqn:E; [| apply small_none].
  apply small_int. now apply in_i64_fits.
Qed.
Lemma small_arith o z : small (arith o z).
Proof.
  unfold arith. destruct (in_i64 z) eqn:E; [now apply in_i64_fits |].
  destruct o; [exact I | apply fits_wrap].
Qed.
Lemma fits_parse s z : parse_i64 s = Some z -> fits z.
Proof. unfold parse_i64. destruct (in_i64 _) eqn:E; [| discriminate]. intros X. inversion X; subst. now apply in_i64_fits. Qed.
Lemma small_parse_i64 s : small (parse_i64 s).
Proof. destruct (parse_i64 s) eqn:E; [eapply fits_parse; eauto | exact I]. Qed.
Lemma small_int_text s : small (parse_int_text s).
Proof.
  unfold parse_int_text.
  assert (N : forall b d, small (match d with
    | [] => None
    | _ => if forallb is_digit d
           then if in_i64 (if b : bool then (- digits_val d)%Z else digits_val d)
                then Some (if b then (- digits_val d)%Z else digits_val d) else None
           else None
    end)).
  { intros b [| c d]; [exact I |]. destruct (forallb _ _); [| exact I].
    destruct (in_i64 _) eqn:E; [now apply in_i64_fits in E | exact I]. }
  destruct s as [| c r]; [exact I |].
  pose proof (N false (c :: r)) as N0. cbv zeta.
  repeat match goal with
    | |- small (match ?x with _ => _ end) =>
        first [exact N0 | exact (N false r) | exact (N true r) | destruct x]
    end.
Qed.
Lemma fits_f64 f : fits (f64_to_int f).
Proof.
  unfold f64_to_int, fits, i64_min, i64_max. destruct f; try lia; [destruct s; lia |].
  cbv zeta. set (v := if s then _ else _).
  destruct (Z.ltb_spec v (- 2 ^ 63)); [lia |]. destruct (Z.ltb_spec (2 ^ 63 - 1) v); lia.
Qed.
Lemma fits_shiftr z n : fits z -> (0 <= n)%Z -> fits (Z.shiftr z n).
Proof.
  unfold fits. intros [L U] N. rewrite Z.shiftr_div_pow2 by assumption.
  assert (P : (0 < 2 ^ n)%Z) by (apply Z.pow_pos_nonneg; lia). split.
  - apply Z.div_le_lower_bound; [exact P |]. nia.
  - apply Z.div_lt_upper_bound; [exact P |]. nia.
Qed.

(** ** Maps and environments *)

Lemma small_bm_get k (m : bmap expr) : small m -> small (bm_get k m).
Proof.
  induction 1 as [| [k' x] m [_ X] F IH]; [exact I |]. cbn [bm_get]. destruct (str_eqb k k'); [exact X | exact IH].
Qed.
Lemma small_bm_insert k x (m : bmap expr) : small x -> small m -> small (bm_insert k x m).
Proof.
  intros X F. induction F as [| [k' y] m Y F IH]; cbn [bm_insert].
  - constructor; [split; [exact I | exact X] | constructor].
  - destruct (str_cmp k k').
    + constructor; [split; [exact I | exact X] | exact F].
    + constructor; [split; [exact I | exact X] | constructor; assumption].
    + constructor; [exact Y | exact IH].
Qed.
Lemma small_bm_remove k (m : bmap expr) : small m -> small (bm_remove k m).
Proof. apply small_filter. Qed.
Lemma small_bm_fold (f : bmap expr -> str * expr -> bmap expr) l :
  (forall m kv, small m -> small (snd kv) -> small (f m kv)) ->
  @small (bmap expr) (Small_list _) l -> forall m, @small (bmap expr) (Small_list _) m ->
  @small (bmap expr) (Small_list _) (fold_left f l m).
Proof.
  intros S. induction 1 as [| [k x] l X F IH]; intros m M; cbn [fold_left]; [exact M |].
  apply IH. apply S; [exact M | apply X].
Qed.
Lemma small_bm_of_list (l : list (str * expr)) : small l -> small (bm_of_list l).
Proof.
  intros F. apply small_bm_fold; [| exact F | constructor]. intros m [k x] M X.
  now apply small_bm_insert.
Qed.

Lemma small_env_new : small env_new.
Proof. constructor. Qed.
Lemma small_env_get x e : small e -> small (env_get x e).
Proof.
  revert e. fix IH 1. intros [b p] F. apply small_Env in F. destruct F as [B P]. cbn [env_get].
  pose proof (small_bm_get x b B) as G. destruct (bm_get x b); [exact G |].
  destruct p as [p |]; [| exact I]. apply IH. exact P.
Qed.
Lemma small_env_define x v e : small v -> small e -> small (env_define x v e).
Proof.
  destruct e as [b p]. intros V F. apply small_Env in F. apply small_Env. split; [| apply F].
  apply small_bm_insert; [exact V | apply F].
Qed.
Lemma small_env_undefine x e : small e -> small (env_undefine x e).
Proof.
  destruct e as [b p]. intros F. apply small_Env in F. apply small_Env. split; [| apply F].
  apply small_bm_remove, F.
Qed.
Lemma small_set_cwd c e : small e -> small (env_set_cwd c e).
Proof. apply small_env_define. constructor. Qed.
Lemma small_bindings e : small e -> small (env_bindings e).
Proof. destruct e. intros F. apply small_Env in F. apply F. Qed.

Lemma small_capture e p b c : small e -> small c -> small (capture e p b c).
Proof.
  intros E C. unfold capture, capture_symbols.
  assert (T : small (env_set_cwd (env_get_cwd e) (env_define p ENone c)))
    by (apply small_set_cwd, small_env_define; [constructor | exact C]).
  revert T. generalize (env_set_cwd (env_get_cwd e) (env_define p ENone c)).
  induction (used_symbols b) as [| x l IH]; intros t T; cbn [fold_left]; [exact T |].
  apply IH. destruct (_ && _); [| exact T]. pose proof (small_env_get x e E) as G.
  destruct (env_get x e); [| exact T]. apply small_env_define; [exact G | exact T].
Qed.

Lemma small_curry e b n : small e -> small b -> small (curry_lambdas e b n).
Proof.
  intros E B. unfold curry_lambdas. induction (seq 0 n) as [| i l IH]; cbn [fold_right]; [exact B |].
  apply small_lambda. split; [exact IH |]. apply small_capture; [exact E | apply small_env_new].
Qed.
Lemma small_curry_env f n e : small f -> small e -> small (curry_env f n e).
Proof.
  intros F E. apply small_curry; [exact E |]. apply small_apply. split; [exact F |].
  apply small_map_any. intros; constructor.
Qed.
Lemma small_reverse_curry f n : small f -> small (reverse_curry f n).
Proof.
  intros F. apply small_curry; [apply small_env_new |]. apply small_apply. split; [exact F |].
  apply small_map_any. intros; constructor.
Qed.

(** ** Operators and pure functions *)

Ltac small_args :=
  repeat match goal with
  | H : small (EInteger _) |- _ => apply (proj1 (small_int _)) in H
  | H : small (EList _) |- _ => apply (proj1 (small_elist _)) in H
  | H : small (EMap _) |- _ => apply (proj1 (small_emap _)) in H
  | H : small (EGroup _) |- _ => apply (proj1 (small_group _)) in H
  | H : small (EQuote _) |- _ => apply (proj1 (small_quote _)) in H
  | H : small (EAssign _ _) |- _ => apply (proj1 (small_assign _ _)) in H
  | H : small (EMacro _ _) |- _ => apply (proj1 (small_macro _ _)) in H
  | H : small (EDo _) |- _ => apply (proj1 (small_do _)) in H
  | H : small (EFor _ _ _) |- _ => apply (proj1 (small_for _ _ _)) in H; destruct H
  | H : small (EIf _ _ _) |- _ => apply (proj1 (small_if _ _ _)) in H; destruct H as [? [? ?]]
  | H : small (EApply _ _) |- _ => apply (proj1 (small_apply _ _)) in H; destruct H
  | H : small (ELambda _ _ _) |- _ => apply (proj1 (small_lambda _ _ _)) in H; destruct H
  | H : small (_ :: _) |- _ => apply (proj1 (small_cons _ _ _)) in H; destruct H
  | H : small (_, _) |- _ => apply (proj1 (small_pair _ _ _ _)) in H; destruct H
  | H : small (Some _) |- _ => apply (proj1 (small_some _ _)) in H
  | H : small (inl _) |- _ => apply (proj1 (small_inl _ _)) in H
  end.

Ltac small_atom :=
  first [apply small_none | apply small_symbol | apply small_float | apply small_ebytes
       | apply small_estring | apply small_ebool | apply small_builtin | apply small_checked
       | apply small_nothing | apply small_inr | assumption].

Lemma small_add a b : small a -> small b -> small (expr_add a b).
Proof.
  intros A B. destruct a; try small_atom; destruct b; try small_atom; cbn [expr_add]; try small_atom.
  small_args. apply small_elist, small_app. now split.
Qed.
Lemma small_nth n (l : list expr) : small l ->
  small (match nth_expr n l with Some v => v | None => ENone end).
Proof.
  intros L. unfold nth_expr. pose proof (small_nth_error _ l (N.to_nat n) L) as X.
  destruct (nth_error _ _); [exact X | apply small_none].
Qed.
Lemma small_get k m : small m -> small (match bm_get k m with Some v => v | None => ENone end).
Proof. intros M. pose proof (small_bm_get k m M). destruct (bm_get k m); [assumption | apply small_none]. Qed.
Lemma small_sub a b : small a -> small b -> small (expr_sub a b).
Proof.
  intros A B. destruct a; try small_atom; destruct b; try small_atom; cbn [expr_sub]; try small_atom; small_args.
  - destruct (_ <? _)%N; [now apply small_nth | apply small_none].
  - now apply small_get.
Qed.
Lemma small_neg o a : small a -> small (expr_neg o a).
Proof.
  intros A. destruct a; try (apply small_inl; small_atom); cbn [expr_neg].
  destruct (in_i64 _) eqn:E; [apply small_inl, small_int; now apply in_i64_fits |].
  destruct o; [exact I |]. apply small_inl, small_int, fits_wrap.
Qed.
Lemma small_repeat n (l : list expr) : small l -> small (repeat_list n l).
Proof. intros L. induction n; cbn [repeat_list]; [constructor |]. apply small_app. now split. Qed.
Lemma small_str_repeat m n : small (str_repeat m n).
Proof. unfold str_repeat. destruct (_ <? _)%N; [apply small_inl; small_atom | exact I]. Qed.
Lemma small_mul a b : small a -> small b -> small (expr_mul a b).
Proof.
  intros A B.
  destruct a; try (apply small_inl; small_atom);
    destruct b; try (apply small_inl; small_atom); cbn [expr_mul];
    try (apply small_inl; small_atom); try apply small_str_repeat; small_args;
    apply small_inl, small_elist, small_repeat; assumption.
Qed.
Lemma small_div a b : small a -> small b -> small (expr_div a b).
Proof.
  intros A B. destruct a; try small_atom; destruct b; try small_atom; cbn [expr_div]; try small_atom.
  destruct (_ =? _)%Z; small_atom.
Qed.
Lemma fits_rem a b : fits a -> b <> 0%Z -> fits (Z.rem a b).
Proof.
  unfold fits. intros A B. destruct (Z.le_gt_cases 0 a).
  - pose proof (Z.rem_nonneg a b B H). pose proof (Z.rem_le a (Z.abs b) H ltac:(lia)).
    rewrite Z.rem_abs_r in H1 by exact B. lia.
  - pose proof (Z.rem_nonpos a b B ltac:(lia)). pose proof (Z.rem_le (- a) (Z.abs b) ltac:(lia) ltac:(lia)).
    rewrite Z.rem_abs_r in H1 by exact B. rewrite Z.rem_opp_l in H1 by exact B. lia.
Qed.
Lemma small_rem a b : small a -> small b -> small (expr_rem a b).
Proof.
  intros A B. destruct a; try (apply small_inl; small_atom);
    destruct b; try (apply small_inl; small_atom); cbn [expr_rem].
  small_args. destruct (Z.eqb_spec z0 0); [exact I |].
  destruct (in_i64 _); [| exact I]. apply small_inl, small_int. now apply fits_rem.
Qed.
Lemma small_index a b : small a -> small b -> small (expr_index a b).
Proof.
  intros A B. destruct a; try small_atom; destruct b; try small_atom; cbn [expr_index]; small_args.
  - destruct (_ <? _)%N; [now apply small_nth | apply small_none].
  - now apply small_get.
  - now apply small_get.
Qed.

Lemma small_zrange lo hi n : fits lo -> fits hi -> (Z.of_nat n <= Z.max 0 (hi + 1 - lo))%Z ->
  small (map EInteger (zrange lo n)).
Proof.
  intros L U N. apply Forall_forall. intros x X. apply in_map_iff in X. destruct X as (z & <- & X).
  apply in_map_iff in X. destruct X as (i & <- & X). apply in_seq in X. apply small_int.
  unfold fits in *. lia.
Qed.
Lemma small_take n (l : list expr) : small l -> small (take_usize n l).
Proof. intros L. unfold take_usize. destruct (_ <=? _)%N; [exact L | now apply small_firstn]. Qed.
Lemma small_skip n (l : list expr) : small l -> small (skip_usize n l).
Proof. intros L. unfold skip_usize. destruct (_ <=? _)%N; [constructor | now apply small_skipn]. Qed.
Lemma small_chunk n l : small l -> forall c, small c -> small (chunk_go n l c).
Proof.
  induction 1 as [| x l X F IH]; intros c C; cbn [chunk_go].
  - destruct C; [constructor |]. repeat constructor. apply small_elist, small_rev. now constructor.
  - destruct (_ =? _)%N.
    + constructor; [apply small_elist, small_rev; now constructor | apply IH; constructor].
    + apply IH. now constructor.
Qed.
Lemma small_unzip l : small l -> small (unzip_list l).
Proof.
  induction 1 as [| x l X F IH]; cbn [unzip_list]; [split; constructor |].
  destruct x; try exact I. destruct l0 as [| a [| b [| ]]]; try exact I.
  apply small_elist in X. small_args. destruct (unzip_list l) as [[u v] |]; [| exact I].
  apply small_some in IH. apply small_pair in IH. destruct IH as [U V].
  apply small_some, small_pair. split; now constructor.
Qed.
Lemma small_flatten e : small e -> small (dict_flatten e).
Proof.
  induction e using expr_ind2 with (Q := fun _ => True); try exact I; intros S; cbn [dict_flatten];
    try (constructor; [exact S | constructor]).
  - apply small_elist in S. apply (Forall_flat all_fit dict_flatten).
    apply Forall_forall. intros x X. eapply Forall_forall in H; [| exact X].
    apply H. exact (small_in _ _ _ S X).
  - apply small_emap in S. apply (Forall_flat all_fit (fun kv : str * expr => dict_flatten (snd kv))).
    apply Forall_forall. intros x X. eapply Forall_forall in H; [| exact X].
    apply H. apply (small_in _ _ _ S X).
Qed.
Lemma small_insert (l : list expr) i x : small l -> small x -> small (list_insert i x l).
Proof.
  intros L X. unfold list_insert. apply small_app. split; [now apply small_firstn |].
  apply small_cons. split; [exact X | now apply small_skipn].
Qed.
Lemma small_swap (l : list expr) i j : small l -> small (swap ENone i j l).
Proof.
  intros L. apply Forall_map. apply Forall_forall. intros k _.
  match goal with |- context [nth ?n l ENone] => destruct (Nat.lt_ge_cases n (length l)) as [C | C] end.
  - exact (small_in _ _ _ L (nth_In _ _ C)).
  - rewrite nth_overflow by exact C. apply small_none.
Qed.
Lemma small_strings l : small (strings l).
Proof. apply small_elist, small_map_any. intros; constructor. Qed.
Lemma small_enumerate l : small l -> small (enumerate l).
Proof.
  intros L. apply small_combine; [| exact L]. apply small_map_any. intros. apply fits_as_int.
Qed.
Lemma small_from_items H l : small l -> forall m, small m -> small (from_items H l m).
Proof.
  induction 1 as [| x l X F IH]; intros m M; cbn [from_items]; [exact M |].
  destruct x; auto. destruct l0 as [| a [| b [| ]]]; auto. apply small_elist in X. small_args.
  apply IH. now apply small_bm_insert.
Qed.
Lemma small_fact H l : forall acc, fits acc -> small (fact_loop H l acc).
Proof.
  induction l as [| n l IH]; intros acc A; cbn [fact_loop]; [exact A |].
  pose proof (small_arith (h_overflow H) (acc * n)) as X. destruct (arith _ _); [apply IH, X | exact I].
Qed.
Lemma small_record msg code e : fits code -> small e -> small (error_record msg code e).
Proof.
  intros C E. apply small_emap, small_bm_of_list.
  repeat (apply small_cons; split); try apply small_nil; apply small_pair; split; try exact I.
  - small_atom.
  - now apply small_int.
  - now apply small_quote.
Qed.
Lemma fits_code e : fits (error_code e).
Proof. unfold fits. destruct e; cbn; lia. Qed.

(** ** The parser *)

Definition psmall {A} `{Small A} (m : pres A) : Prop :=
  match m with POk _ a => small a | _ => True end.
Definition pok {A} `{Small A} (p : parser A) : Prop := forall i, psmall (p i).

Section Parser.
  Context {A B : Type} `{Small A} `{Small B}.

  Lemma psmall_bind (m : pres A) (k : list token -> A -> pres B) :
    psmall m -> (forall i a, small a -> psmall (k i a)) -> psmall (pbind m k).
  Proof. intros M K. destruct m; cbn in *; auto. Qed.
  (** When the first result does not matter. *)
  Lemma psmall_after {C} (m : pres C) (k : list token -> C -> pres B) :
    (forall i a, psmall (k i a)) -> psmall (pbind m k).
  Proof. intros K. destruct m; cbn in *; auto. Qed.
  Lemma psmall_fail e (m : pres A) : psmall m -> psmall (map_fail e m).
  Proof. destruct m; auto. Qed.
  Lemma pok_alt_rest (ps : list (parser A)) : Forall pok ps -> forall e, pok (alt_rest ps e).
  Proof.
    induction 1 as [| p ps P F IH]; intros e i; cbn [alt_rest]; [exact I |].
    specialize (P i). destruct (p i); auto. apply IH.
  Qed.
  Lemma pok_alt (ps : list (parser A)) : Forall pok ps -> pok (alt ps).
  Proof.
    destruct 1 as [| p ps P F]; intros i; cbn [alt]; [exact I |].
    specialize (P i). destruct (p i); auto. now apply pok_alt_rest.
  Qed.
  Lemma pok_opt (p : parser A) : pok p -> pok (opt p).
  Proof. intros P i. specialize (P i). unfold opt. destruct (p i); auto; exact I. Qed.
  Lemma pok_many0_loop (p : parser A) k : pok p -> forall fuel, pok (many0_loop k fuel p).
  Proof.
    intros P. induction fuel as [| fuel IH]; intros i; cbn [many0_loop]; [exact I |].
    specialize (P i). destruct (p i) as [l x | | | |]; auto; [| apply small_nil].
    destruct (Nat.eqb _ _); [exact I |]. specialize (IH l). destruct (many0_loop k fuel p l); auto.
    now apply small_cons.
  Qed.
  Lemma pok_many0 (p : parser A) : pok p -> pok (many0 p).
  Proof. intros P i. now apply pok_many0_loop. Qed.
  Lemma pok_many1 (p : parser A) : pok p -> pok (many1 p).
  Proof.
    intros P i. unfold many1. pose proof (P i) as X. destruct (p i) as [l x | | | |]; auto; try exact I.
    pose proof (pok_many0_loop p KMany1 P (S (length l)) l) as Y.
    destruct (many0_loop _ _ _ _); auto. now apply small_cons.
  Qed.
  Lemma pok_sep_loop (s : parser B) (p : parser A) : pok p -> forall fuel, pok (sep_loop fuel s p).
  Proof.
    intros P. induction fuel as [| fuel IH]; intros i; cbn [sep_loop]; [exact I |].
    destruct (s i) as [l x | | | |]; auto; try exact I; try apply small_nil.
    destruct (Nat.eqb _ _); [exact I |]. specialize (P l).
    destruct (p l) as [l0 y | | | |]; auto; try exact I; try apply small_nil.
    specialize (IH l0). destruct (sep_loop fuel s p l0); auto. now apply small_cons.
  Qed.
  Lemma pok_separated (s : parser B) (p : parser A) : pok p -> pok (separated_list0 s p).
  Proof.
    intros P i. unfold separated_list0. pose proof (P i) as X.
    destruct (p i) as [l x | | | |]; auto; try exact I; try apply small_nil.
    pose proof (pok_sep_loop s p P (S (length l)) l) as Y.
    destruct (sep_loop _ _ _ _); auto. now apply small_cons.
  Qed.
End Parser.

Lemma pok_infix ops p : pok p -> pok (infix ops p).
Proof.
  intros P i. unfold infix. apply psmall_bind; [apply P | intros j h X].
  apply psmall_bind; [| intros k l Y; now split].
  apply pok_many0. intros k. unfold pair_p. apply psmall_after. intros i1 t.
  apply psmall_bind; [apply P | intros i2 e E]. now split.
Qed.

Lemma small_fold_ops l : small l -> forall h, small h -> small (fold_ops h l).
Proof.
  induction 1 as [| [t e] l [_ X] F IH]; intros h S; cbn [fold_ops fold_left]; [exact S |].
  apply IH. apply small_group, small_apply. split; [constructor |].
  apply small_cons. split; [exact S |]. apply small_cons. split; [exact X | constructor].
Qed.

Lemma small_pipe l : small l -> forall a, small a -> small (pipe_args a l).
Proof.
  induction 1 as [| [t e] l [_ X] F IH]; intros a S; cbn [pipe_args]; [exact S |]. cbv zeta.
  assert (ST : small (EApply (ESymbol (t_text t)) [e])).
  { apply small_apply. split; [constructor |]. apply small_cons. split; [exact X | constructor]. }
  assert (ST1 : small [EApply (ESymbol (t_text t)) [e]]) by (apply small_cons; split; [exact ST | constructor]).
  destruct (str_eqb _ _).
  { pose proof (small_rev _ a S) as R. destruct (rev a) as [| z b]; [now apply IH |].
    apply small_cons in R. destruct R as [Z R]. apply IH. apply small_app. split; [now apply small_rev |].
    apply small_cons. split; [exact ST |]. apply small_cons. split; [exact Z | constructor]. }
  destruct (str_eqb _ _).
  { apply IH, small_app. split; [exact S |]. apply small_cons. split; [exact X | constructor]. }
  destruct (str_eqb _ _); [apply IH, small_app; now split |].
  destruct (str_eqb _ _); [apply IH, small_app; now split |]. exact I.
Qed.

Section Body.
  Variable slen : N.
  Variable call : nt -> parser expr.
  Hypothesis C : forall n, pok (call n).

  Lemma pok_operator : pok parse_operator_as_symbol.
  Proof.
    intros i. unfold parse_operator_as_symbol, pmap at 1. apply psmall_after. intros; constructor.
  Qed.
  Lemma pok_as {T} (f : T -> expr) (p : parser T) : (forall t, small (f t)) -> pok (pmap f p).
  Proof. intros F i. unfold pmap. apply psmall_after. intros; apply F. Qed.

  Ltac pstep :=
    match goal with
    | |- psmall (call _ _) => apply C
    | |- pok (call _) => apply C
    | |- psmall (map_fail _ (call _ _)) => apply psmall_fail, C
    | |- psmall (pbind (call _ _) _) => apply psmall_bind; [apply C | intros ? ? ?]
    | |- psmall (pbind (map_fail _ (call _ _)) _) => apply psmall_bind; [apply psmall_fail, C | intros ? ? ?]
    | |- psmall (pbind (infix _ (call _) _) _) =>
        apply psmall_bind; [apply pok_infix, C | intros ? [? ?] [? ?]; cbn [fst snd] in *]
    | |- psmall (pbind (many0 (call _) _) _) => apply psmall_bind; [apply pok_many0, C | intros ? ? ?]
    | |- psmall (pbind (many1 (call _) _) _) => apply psmall_bind; [apply pok_many1, C | intros ? ? ?]
    | |- psmall (pbind _ _) => apply psmall_after; intros ? ?
    end.

  Lemma pok_body n : pok (body slen call n).
  Proof.
    intros i. destruct n; cbn [body].
    - pstep. apply (psmall_bind (A := option expr)).
      + apply pok_opt. intros j. repeat pstep. assumption.
      + intros j o O. apply small_do, small_app. split; [assumption |].
        destruct o; [apply small_cons; split; [exact O |] |]; constructor.
    - pstep. destruct (text _ _); [assumption | | | |]; destruct a; try exact I; assumption.
    - repeat pstep. destruct l; [assumption |].
      pose proof (small_pipe (p :: l)) as P.
      assert (S : small (pipe_args [e] (p :: l))).
      { apply P; [assumption |]. apply small_cons. split; [assumption | constructor]. }
      destruct (pipe_args _ _) as [[| x [| y r]] |]; try exact I.
      + apply small_group, small_apply. split; constructor.
      + apply small_some, small_cons in S. apply S.
      + apply small_group, small_apply. split; [constructor | exact S].
    - pstep. apply pok_alt. repeat (constructor; [apply C |]). constructor.
    - do 3 pstep. apply (psmall_bind (A := expr)).
      { apply psmall_fail, pok_alt. repeat (constructor; [apply C |]). constructor. }
      intros ? ? ?. repeat pstep. apply small_for. now split.
    - do 3 pstep. apply (psmall_bind (A := option expr)).
      { apply pok_opt. intros j. unfold preceded. pstep. apply pok_alt.
        repeat (constructor; [apply C |]). constructor. }
      intros j o O. apply small_if. split; [assumption |]. split; [assumption |].
      destruct o; [exact O | constructor].
    - repeat pstep. assumption.
    - repeat pstep. destruct (str_eqb _ _).
      { apply small_lambda. split; [assumption | apply small_env_new]. }
      destruct (str_eqb _ _); [assumption | exact I].
    - apply (psmall_bind (A := expr)).
      { apply pok_alt. constructor; [apply C |]. constructor; [apply pok_operator | constructor]. }
      intros ? ? ?. pstep. apply small_apply. now split.
    - apply (psmall_bind (A := expr)); [apply pok_operator |]. intros ? ? ?. pstep.
      destruct a0; [assumption |]. apply small_apply. now split.
    - repeat pstep. now apply small_fold_ops.
    - repeat pstep. apply small_apply. split; [constructor |].
      apply small_cons. split; [assumption |]. apply small_cons. split; [assumption | constructor].
    - repeat pstep. destruct l; [| now apply small_fold_ops].
      assert (NT : psmall match call NNot i1 with
                          | POk i2 e => POk i2 e
                          | PPanic => PPanic
                          | PFuel => PFuel
                          | _ => POk i1 e
                          end).
      { pose proof (C NNot i1) as X. destruct (call NNot i1); try exact I; assumption. }
      destruct (text _ _); try exact NT. pstep. apply small_apply. split; [constructor |].
      apply small_cons. split; [assumption |]. apply small_cons. split; [assumption | constructor].
    - repeat pstep. apply small_apply. split; [constructor |].
      apply small_cons. split; [assumption | constructor].
    - repeat pstep. now apply small_fold_ops.
    - repeat pstep. now apply small_fold_ops.
    - pstep. pstep. apply (psmall_bind (A := list expr)).
      { apply pok_many0. intros j. unfold preceded. pstep. apply pok_alt.
        constructor; [apply C |]. constructor; [apply pok_operator | constructor]. }
      intros ? l L. destruct l; [assumption |]. apply small_apply. split; [constructor |].
      apply small_cons. now split.
    - apply pok_alt. repeat (constructor; [first [apply C | apply pok_as; intros; solve [small_atom]] |]).
      constructor; [| repeat (constructor; [apply pok_as; intros; solve [small_atom] |]); constructor].
      intros j. unfold pmap, parse_integer. destruct (kind _ j); try exact I. cbn [pbind].
      pose proof (small_parse_i64 (t_text a)) as X. destruct (parse_i64 _); [| exact I].
      cbn. now apply small_int.
    - repeat pstep. assumption.
    - repeat pstep. assumption.
    - pstep. apply (psmall_bind (A := list (str * expr))).
      { apply pok_separated. intros j. unfold separated_pair. repeat pstep. now split. }
      intros ? m M. apply psmall_after. intros. apply small_emap. now apply small_bm_of_list.
    - repeat pstep. assumption.
    - pstep. apply (psmall_bind (A := list expr)); [apply pok_separated, C |].
      intros. pstep. now apply small_elist.
  Qed.
End Body.

Lemma pok_parse slen fuel : forall n, pok (parse slen fuel n).
Proof.
  induction fuel as [| fuel IH]; intros n i; cbn [parse]; [exact I |]. now apply pok_body.
Qed.

Lemma parse_script_small s e : parse_script s = SOk e -> small e.
Proof.
  unfold parse_script. destruct (tokenize s); try discriminate.
  destruct (filter _ _); [| discriminate]. destruct (adjacent_error _); [discriminate |].
  match goal with |- context [parse ?a ?b ?c ?d] => pose proof (pok_parse a b c d) as P end.
  destruct (parse _ _ _ _) as [[|] x | | | |]; try discriminate. intros X. inversion X; subst. exact P.
Qed.

(** ** Computations *)

(** All variables and the log level are in range. *)
Definition small_st (s : st) : Prop := env_fit (s_env s) /\ fits (s_log s).

(** From such a state the computation leads to such a state, and what it
    returns is in range. *)
Definition safe {A} `{Small A} (m : M A) : Prop := forall s, small_st s ->
  small_st (snd (m s)) /\ match fst (m s) with ROk a => small a | _ => True end.

Lemma safe_ret A `{Small A} (a : A) : small a -> safe (ret a).
Proof. intros X s S. split; assumption. Qed.
Lemma safe_throw A `{Small A} e : safe (@throw A e).
Proof. intros s S. split; [exact S | exact I]. Qed.
Lemma safe_custom A `{Small A} e : safe (@custom A e).
Proof. apply safe_throw. Qed.
Lemma safe_panics A `{Small A} e : safe (@panics A e).
Proof. intros s S. split; [exact S | exact I]. Qed.
Lemma safe_exits A `{Small A} e : safe (@exits A e).
Proof. intros s S. split; [exact S | exact I]. Qed.
Lemma safe_fuel A `{Small A} : safe (@out_of_fuel A).
Proof. intros s S. split; [exact S | exact I]. Qed.
Lemma safe_get_env : safe get_env.
Proof. intros s S. split; [exact S | apply S]. Qed.
Lemma safe_put_env e : small e -> safe (put_env e).
Proof. intros X s S. split; [split; [exact X | apply S] | exact I]. Qed.
Lemma safe_get_log : safe get_log.
Proof. intros s S. split; [exact S | apply S]. Qed.
Lemma safe_put_log l : fits l -> safe (put_log l).
Proof. intros X s S. split; [split; [apply S | exact X] | exact I]. Qed.
Lemma safe_ask H rq : safe (ask H rq).
Proof. intros s S. split; [exact S | exact I]. Qed.
Lemma safe_define x v : small v -> safe (define x v).
Proof.
  intros V s S. split; [| exact I]. split; [| apply S]. apply small_env_define; [exact V | apply S].
Qed.

Lemma safe_bind A B `{Small A} `{Small B} (m : M A) (k : A -> M B) :
  safe m -> (forall a, small a -> safe (k a)) -> safe (bind m k).
Proof.
  intros X Y s S. unfold bind. specialize (X s S). destruct (m s) as [[a | | | |] s1]; cbn in *; auto.
  apply Y; apply X.
Qed.
(** When the first result does not matter. *)
Lemma safe_after A B `{Small B} (m : M A) (k : A -> M B) :
  (forall s, small_st s -> small_st (snd (m s))) -> (forall a, safe (k a)) -> safe (bind m k).
Proof.
  intros X Y s S. unfold bind. specialize (X s S). destruct (m s) as [[a | | | |] s1]; cbn in *; auto.
  apply Y; apply X.
Qed.
Lemma safe_catch A `{Small A} (m : M A) h : safe m -> (forall e, safe (h e)) -> safe (catch m h).
Proof.
  intros X Y s S. unfold catch. specialize (X s S). destruct (m s) as [[a | | | |] s1]; cbn in *; auto.
  apply Y; apply X.
Qed.
Lemma safe_in_env A `{Small A} e (m : M A) : small e -> safe m -> safe (in_env e m).
Proof.
  intros E X s S. unfold in_env. specialize (X (St e (s_trace s) (s_log s))).
  destruct (m _) as [r s1]. destruct X as [Y Z]; [split; [exact E | apply S] |].
  split; [| exact Z]. split; [apply S | apply Y].
Qed.
Lemma safe_mapM A B `{Small A} `{Small B} (f : A -> M B) l :
  small l -> (forall a, small a -> safe (f a)) -> safe (mapM f l).
Proof.
  intros L X. induction L as [| a l A1 L IH]; cbn [mapM]; [apply safe_ret; constructor |].
  refine (safe_bind _ _ _ _ _ _); [now apply X | intros b B1]. refine (safe_bind _ _ _ _ _ _); [exact IH |].
  intros bs BS. apply safe_ret. now constructor.
Qed.
Lemma safe_foldM A B `{Small A} `{Small B} (f : B -> A -> M B) l :
  small l -> (forall b a, small b -> small a -> safe (f b a)) -> forall b, small b -> safe (foldM f b l).
Proof.
  intros L X. induction L as [| a l A1 L IH]; intros b B1; cbn [foldM]; [now apply safe_ret |].
  refine (safe_bind _ _ _ _ _ _); [now apply X | exact IH].
Qed.
Lemma safe_or_panic A `{Small A} (r : A + panic) : small r -> safe (or_panic r).
Proof. intros R. destruct r; [now apply safe_ret | apply safe_panics]. Qed.

Lemma small_fst A B `{Small A} `{Small B} (p : A * B) : small p -> small (fst p). Proof. intros P; apply P. Qed.
Lemma small_snd A B `{Small A} `{Small B} (p : A * B) : small p -> small (snd p). Proof. intros P; apply P. Qed.

Ltac small_step :=
  match goal with
  | |- _ => assumption
  | |- _ => exact I
  | |- _ => small_atom
  | |- small (EInteger _) => apply small_int
  | |- small (EList _) => apply small_elist
  | |- small (EMap _) => apply small_emap
  | |- small (EGroup _) => apply (proj2 (small_group _))
  | |- small (EQuote _) => apply (proj2 (small_quote _))
  | |- small (EDo _) => apply small_do
  | |- small (EFor _ _ _) => apply small_for; split
  | |- small (EIf _ _ _) => apply small_if; split; [| split]
  | |- small (caesar _ _ _) => destruct (caesar _ _ _); exact I
  | |- small (error_display _ _) => destruct (error_display _ _); exact I
  | |- small (EApply _ _) => apply small_apply; split
  | |- small (ELambda _ _ _) => apply small_lambda; split
  | |- small [] => apply small_nil
  | |- small (_ :: _) => apply small_cons; split
  | |- small (_ ++ _) => apply small_app; split
  | |- small (_, _) => apply small_pair; split
  | |- small (inl _) => apply small_inl
  | |- small (pure_op _ _ _) => apply small_inl
  | |- small (rev _) => apply small_rev
  | |- small (tl _) => apply small_tl
  | |- small (filter _ _) => apply small_filter
  | |- small (take_usize _ _) => apply small_take
  | |- small (skip_usize _ _) => apply small_skip
  | |- small (chunk_go _ _ _) => apply small_chunk
  | |- small (unzip_list _) => apply small_unzip
  | |- small (combine _ _) => apply small_combine
  | |- small (enumerate _) => apply small_enumerate
  | |- small (strings _) => apply small_strings
  | |- small (dict_flatten _) => apply small_flatten
  | |- small (list_insert _ _ _) => apply small_insert
  | |- small (from_items _ _ _) => apply small_from_items
  | |- small (bm_insert _ _ _) => apply small_bm_insert
  | |- small (bm_remove _ _) => apply small_bm_remove
  | |- small (bm_get _ _) => apply small_bm_get
  | |- small (nth_error _ _) => apply small_nth_error
  | |- small (env_get _ _) => apply small_env_get
  | |- small (env_define _ _ _) => apply small_env_define
  | |- small (env_undefine _ _) => apply small_env_undefine
  | |- small (env_set_cwd _ _) => apply small_set_cwd
  | |- small (env_bindings _) => apply small_bindings
  | |- small (capture _ _ _ _) => apply small_capture
  | |- small (curry_env _ _ _) => apply small_curry_env
  | |- small (reverse_curry _ _) => apply small_reverse_curry
  | |- small (arith _ _) => apply small_arith
  | |- small (parse_int_text _) => apply small_int_text
  | |- small (expr_add _ _) => apply small_add
  | |- small (expr_sub _ _) => apply small_sub
  | |- small (expr_mul _ _) => apply small_mul
  | |- small (expr_div _ _) => apply small_div
  | |- small (expr_rem _ _) => apply small_rem
  | |- small (expr_neg _ _) => apply small_neg
  | |- small (expr_index _ _) => apply small_index
  | |- small (fact_loop _ _ _) => apply small_fact
  | |- small (error_record _ _ _) => apply small_record
  | |- small (fst _) => refine (small_fst _ _ _ _)
  | |- small (snd _) => refine (small_snd _ _ _ _)
  | |- small (map _ _) => first [apply small_map_any; intros ?; solve [repeat small_step]
                               | refine (small_map _ _ _ _ _ _); [intros ? ? |]]
  | |- small (if ?b then _ else _) => destruct b
  | |- small (match ?x with _ => _ end) => destruct x; small_args
  | |- small (fold_left _ _ _) =>
      apply small_bm_fold; [intros m0 [? ?] ? ?; cbn [fst snd] in * |
                          |]
  | |- fits (as_int _) => apply fits_as_int
  | |- fits (fst ?a) => change (small (fst a))
  | |- fits (match ?x with _ => _ end) => destruct x
  | |- @small Z _ 0%Z => change (fits 0)
  | |- @small Z _ 1%Z => change (fits 1)
  | |- fits (wrap64 _) => apply fits_wrap
  | |- fits (f64_to_int _) => apply fits_f64
  | |- fits (error_code _) => apply fits_code
  | |- fits _ => unfold fits; lia
  end.

Ltac safe_step :=
  match goal with
  | |- safe (ret _) => apply safe_ret
  | |- safe (throw _) => apply safe_throw
  | |- safe (custom _) => apply safe_custom
  | |- safe (panics _) => apply safe_panics
  | |- safe (exits _) => apply safe_exits
  | |- safe out_of_fuel => apply safe_fuel
  | |- safe get_env => apply safe_get_env
  | |- safe get_log => apply safe_get_log
  | |- safe (put_log _) => apply safe_put_log
  | |- safe (put_env _) => apply safe_put_env
  | |- safe (ask _ _) => apply safe_ask
  | |- safe (define _ _) => apply safe_define
  | |- safe (or_panic _) => refine (safe_or_panic _ _ _)
  | |- safe (bind _ _) => refine (safe_bind _ _ _ _ _ _); [| intros ? ?; small_args]
  | |- safe (catch _ _) => apply safe_catch; [| intros ?]
  | |- safe (in_env _ _) => apply safe_in_env
  | |- safe (mapM _ _) => refine (safe_mapM _ _ _ _ _ _); [| intros ? ?; small_args]
  | |- safe (foldM _ _ _) => refine (safe_foldM _ _ _ _ _ _ _ _); [| intros ? ? ? ?; small_args |]
  | |- safe (match ?x with _ => _ end) =>
      first [is_var x; destruct x
           | let S := fresh "S" in assert (S : small x) by (solve [repeat small_step]); destruct x
           | destruct x]; small_args
  | H : forall e, small e -> safe _ |- safe _ => apply H
  | H : forall e f, safe _ |- safe _ => apply H
  | |- small _ => small_step
  | |- fits _ => small_step
  end.

(** Texts are always in range. *)
Lemma safe_texts (m : M (list str)) : @safe _ (Small_list str) m -> safe m.
Proof. intros X s S. specialize (X s S). split; [apply X |]. destruct (fst (m s)); exact I. Qed.

Fixpoint small_json (j : json) : small (json_expr j).
Proof.
  destruct j; cbn [json_expr]; try constructor.
  - apply small_elist. induction l as [| x l IH]; cbn [map]; constructor; [apply small_json | exact IH].
  - apply small_emap, small_bm_of_list.
    induction m as [| [k x] m IH]; cbn [map]; constructor; [split; [exact I | apply small_json] | exact IH].
Qed.

Fixpoint small_toml (t : toml) : small (toml_expr t).
Proof.
  destruct t; cbn [toml_expr]; try constructor.
  - apply fits_wrap.
  - constructor.
  - apply small_elist. induction l as [| x l IH]; cbn [map]; constructor; [apply small_toml | exact IH].
  - apply small_emap, small_bm_of_list.
    induction m as [| [k x] m IH]; cbn [map]; constructor; [split; [exact I | apply small_toml] | exact IH].
Qed.

Fixpoint small_tree p (t : dirtree) : small (tree_expr p t).
Proof.
  destruct t as [| es]; cbn [tree_expr]; [constructor |].
  apply small_emap. apply small_bm_fold.
  - intros. now apply small_bm_insert.
  - induction es as [| [k x] es IH]; cbn [map]; constructor; [split; [exact I | apply small_tree] | exact IH].
  - apply small_bm_of_list. constructor; [split; constructor |].
    destruct (path_parent p); repeat constructor.
Qed.

Lemma small_key k : small (key_text k).
Proof. destruct k; constructor. Qed.

Section Builtins.
  Variable H : host.
  Variable ev : expr -> M expr.
  Hypothesis EV : forall e, small e -> safe (ev e).

  Lemma safe_stage_command p l : small l -> safe (stage_command H ev p l).
  Proof.
    intros L. unfold stage_command, stage_args. repeat safe_step.
    apply safe_texts. repeat safe_step.
  Qed.

  Lemma safe_command x : small x -> safe (expr_to_command H ev x).
  Proof.
    induction x using expr_ind2 with (Q := fun _ => True); try exact I; intros S; cbn [expr_to_command];
      repeat match goal with
             | |- safe (stage_command _ _ _ _) => apply safe_stage_command
             | IH : small ?x -> safe (expr_to_command _ _ ?x) |- safe (expr_to_command _ _ ?x) => apply IH
             | _ => safe_step
             end.
  Qed.

  Lemma safe_stages l : small l -> forall b acc, small acc -> safe (run_stages H ev b acc l).
  Proof.
    induction 1 as [| x l X L IH]; intros b acc A; cbn [run_stages]; [now apply safe_ret |].
    refine (safe_bind _ _ _ _ _ _); [| intros a A1; now apply IH].
    unfold run_stage. refine (safe_bind _ _ _ _ _ _); [now apply safe_command | intros c _].
    repeat safe_step.
  Qed.

  Lemma safe_print show last l : small l -> safe (run_print H ev show last l).
  Proof.
    induction 1 as [| x l X L IH]; cbn [run_print]; [now apply safe_ret |].
    destruct l; unfold print; repeat safe_step. exact IH.
  Qed.

  Lemma safe_filterM f l : small f -> small l -> safe (filterM ev f l).
  Proof. intros F. induction 1 as [| x l X L IH]; cbn [filterM]; repeat safe_step. exact IH. Qed.

  Lemma safe_pieces p l : safe (log_pieces H p l).
  Proof. induction l as [| a l IH]; cbn [log_pieces]; unfold print; repeat safe_step. exact IH. Qed.

  Lemma safe_log_args p l : small l -> forall b, safe (log_args H ev p b l).
  Proof.
    induction 1 as [| a l A L IH]; intros b; cbn [log_args]; unfold print; cbv zeta; repeat safe_step;
      try apply IH; apply safe_pieces.
  Qed.

  Lemma safe_joinx l : small l -> forall i h, safe (joinx_args H ev i h l).
  Proof.
    induction 1 as [| a l A L IH]; intros i h; cbn [joinx_args]; cbv zeta; repeat safe_step; apply IH.
  Qed.
  Lemma safe_joiny l : small l -> forall i h, safe (joiny_args H ev i h l).
  Proof.
    induction 1 as [| a l A L IH]; intros i h; cbn [joiny_args]; cbv zeta; repeat safe_step; apply IH.
  Qed.

  Lemma safe_sample {A} `{Small A} lo hi (k : Z -> M A) : (forall z, safe (k z)) -> safe (bind (sample H lo hi) k).
  Proof. intros K. apply safe_after; [intros s S; exact S | exact K]. Qed.

  Lemma safe_shuffle i : forall l, small l -> safe (shuffle H i l).
  Proof.
    induction i as [| i IH]; intros l L; cbn [shuffle]; [now apply safe_ret |].
    apply safe_sample. intros z. apply IH. now apply small_swap.
  Qed.

  Lemma safe_help l : small l -> safe (run_help H ev l).
  Proof. induction 1 as [| a l A L IH]; cbn [run_help]; cbv zeta; repeat safe_step; exact IH. Qed.

  Lemma safe_write x y l : forall k, safe (write_lines H x y k l).
  Proof.
    induction l as [| a l IH]; intros k; cbn [write_lines]; unfold print; cbv zeta; repeat safe_step. apply IH.
  Qed.

  Lemma safe_glob cwd p l : safe (glob_paths cwd p l).
  Proof. induction l as [| [a | a] l IH]; cbn [glob_paths]; repeat safe_step. exact IH. Qed.

  Lemma safe_parse s : safe (parse_m s).
  Proof.
    unfold parse_m. destruct (parse_script s) eqn:E; repeat safe_step. eapply parse_script_small; eauto.
  Qed.

  Lemma safe_arg l i : small l -> safe (arg l i).
  Proof.
    intros L. unfold arg. pose proof (small_nth_error _ l i L) as X.
    destruct (nth_error l i); [now apply safe_ret | apply safe_panics].
  Qed.
  Lemma safe_ev_arg l i : small l -> safe (ev_arg ev l i).
  Proof. intros L. refine (safe_bind _ _ _ _ _ _); [now apply safe_arg | exact EV]. Qed.

  Lemma safe_to l : small l -> safe (run_to ev l).
  Proof.
    intros L. unfold run_to. refine (safe_bind _ _ _ _ _ _); [unfold require_len; repeat safe_step | intros _ _].
    refine (safe_bind _ _ _ _ _ _); [now apply safe_ev_arg | intros a A].
    refine (safe_bind _ _ _ _ _ _); [now apply safe_ev_arg | intros b B].
    destruct a; try apply safe_custom. destruct b; try apply safe_custom. small_args.
    apply safe_ret, small_elist. apply (small_zrange z (Z.max z (z0 - 1))); unfold fits in *; lia.
  Qed.
  Lemma safe_range l : small l -> safe (run_range ev l).
  Proof.
    intros L. unfold run_range. refine (safe_bind _ _ _ _ _ _); [unfold require_len; repeat safe_step | intros _ _].
    refine (safe_bind _ _ _ _ _ _); [now apply safe_ev_arg | intros a A].
    refine (safe_bind _ _ _ _ _ _); [now apply safe_ev_arg | intros b B].
    destruct a; try apply safe_custom. destruct b; try apply safe_custom. small_args.
    apply safe_ret, small_elist. apply (small_zrange z z0); unfold fits in *; lia.
  Qed.

  Lemma safe_choose l : small l -> safe (run_choose H ev l).
  Proof.
    intros L. unfold run_choose, exact1. refine (safe_bind _ _ _ _ _ _); [unfold check_exact; repeat safe_step | intros _ _].
    refine (safe_bind _ _ _ _ _ _); [now apply safe_ev_arg | intros a A].
    destruct a; try apply safe_custom. destruct l0; [apply safe_panics |].
    apply safe_sample. intros z. small_args. repeat safe_step.
  Qed.
  Lemma safe_rand_int l : small l -> safe (run_rand_int H ev l).
  Proof.
    intros L. unfold run_rand_int, exact2. refine (safe_bind _ _ _ _ _ _); [unfold check_exact; repeat safe_step | intros _ _].
    refine (safe_bind _ _ _ _ _ _); [now apply safe_ev_arg | intros a A].
    refine (safe_bind _ _ _ _ _ _); [now apply safe_ev_arg | intros b B].
    destruct a; try apply safe_custom. destruct b; try apply safe_custom. small_args.
    destruct (Z.ltb_spec z z0); [| apply safe_panics]. unfold sample.
    refine (safe_bind _ _ _ _ _ _); [| intros x X; apply safe_ret; now apply small_int].
    refine (safe_bind _ _ _ _ _ _); [apply safe_ask | intros r _]. apply safe_ret.
    destruct r; try assumption. destruct (Z.leb_spec z z1); [| assumption].
    destruct (Z.ltb_spec z1 z0); [| assumption]. cbn. unfold small, Small_Z, fits in *. lia.
  Qed.

  Lemma safe_shift b : safe (shift_amount H b).
  Proof.
    unfold shift_amount. destruct (Z.leb_spec 0 b); destruct (Z.ltb_spec b 64); cbn [andb];
      destruct (h_overflow H); try apply safe_panics; apply safe_ret; unfold small, Small_Z, fits; try lia;
      pose proof (Z.mod_pos_bound b 64 ltac:(lia)); lia.
  Qed.
  Lemma shift_nonneg b s n s' : shift_amount H b s = (ROk n, s') -> (0 <= n)%Z.
  Proof.
    unfold shift_amount. destruct (Z.leb_spec 0 b); destruct (Z.ltb_spec b 64); cbn [andb];
      destruct (h_overflow H); intros X; inversion X; subst; try lia; apply Z.mod_pos_bound; lia.
  Qed.

  Lemma safe_arsh l : small l -> safe (run_arsh H ev l).
  Proof.
    intros L. unfold run_arsh, two_ints. cbv zeta.
    refine (safe_bind _ _ _ _ _ _); [unfold check_exact; repeat safe_step | intros _ _].
    refine (safe_bind _ _ _ _ _ _); [now apply safe_ev_arg | intros a A].
    destruct a; try apply safe_custom.
    refine (safe_bind _ _ _ _ _ _); [now apply safe_ev_arg | intros b B].
    destruct b; try apply safe_custom. small_args.
    intros s S. pose proof (safe_shift z0 s S) as X. pose proof (shift_nonneg z0 s) as N.
    unfold bind. destruct (shift_amount H z0 s) as [[n | | | |] s1]; cbn in *; auto.
    split; [apply X |]. apply small_int. apply fits_shiftr; [assumption | now apply (N n s1)].
  Qed.

  Lemma safe_accumulate name fi ff init l : small init -> small l ->
    safe (accumulate H ev name fi ff init l).
  Proof. intros N L. unfold accumulate. cbv zeta. repeat safe_step. Qed.

  Lemma safe_pow l : small l -> safe (run_pow H ev l).
  Proof.
    intros L. unfold run_pow, exact2. cbv zeta.
    refine (safe_bind _ _ _ _ _ _); [unfold check_exact; repeat safe_step | intros _ _].
    refine (safe_bind _ _ _ _ _ _); [now apply safe_ev_arg | intros a A].
    refine (safe_bind _ _ _ _ _ _); [now apply safe_ev_arg | intros b B].
    destruct a; try apply safe_custom; destruct b; try apply safe_custom;
      try (apply safe_ret; small_atom).
    match goal with |- context [in_i64 ?r] => destruct (in_i64 r) eqn:E end; [| apply safe_custom].
    apply safe_ret, small_int. now apply in_i64_fits.
  Qed.

  Ltac builtin_step :=
    match goal with
    | |- safe (run_stages _ _ _ _ _) => apply safe_stages
    | |- safe (run_print _ _ _ _ _) => apply safe_print
    | |- safe (filterM _ _ _) => apply safe_filterM
    | |- safe (log_args _ _ _ _ _) => apply safe_log_args
    | |- safe (joinx_args _ _ _ _ _) => apply safe_joinx
    | |- safe (joiny_args _ _ _ _ _) => apply safe_joiny
    | |- safe (shuffle _ _ _) => apply safe_shuffle
    | |- safe (run_help _ _ _) => apply safe_help
    | |- safe (write_lines _ _ _ _ _) => apply safe_write
    | |- safe (glob_paths _ _ _) => apply safe_glob
    | |- small (json_expr _) => apply small_json
    | |- small (toml_expr _) => apply small_toml
    | |- small (tree_expr _ _) => apply small_tree
    | |- small (key_text _) => apply small_key
    | |- safe (parse_m _) => apply safe_parse
    | |- safe (arg _ _) => apply safe_arg
    | |- safe (ev_arg _ _ _) => apply safe_ev_arg
    | |- safe (run_to _ _) => apply safe_to
    | |- safe (run_range _ _) => apply safe_range
    | |- safe (run_choose _ _ _) => apply safe_choose
    | |- safe (run_pow _ _ _) => apply safe_pow
    | |- safe (run_rand_int _ _ _) => apply safe_rand_int
    | |- safe (run_arsh _ _ _) => apply safe_arsh
    | |- safe (shift_amount _ _) => apply safe_shift
    | |- safe (accumulate _ _ _ _ _ _ _) => apply safe_accumulate
    | |- safe (match display _ _ with _ => _ end) => destruct (display _ _)
    | |- safe (match from_utf8 _ with _ => _ end) => destruct (from_utf8 _)
    | |- safe (match split_bytes _ _ with _ => _ end) => destruct (split_bytes _ _) as [[? ?] |]
    | _ => safe_step
    | |- safe (?f _ _ _ _ _ _ _) => unfold f; cbv beta zeta
    | |- safe (?f _ _ _ _ _ _) => unfold f; cbv beta zeta
    | |- safe (?f _ _ _ _ _) => unfold f; cbv beta zeta
    | |- safe (?f _ _ _ _) => unfold f; cbv beta zeta
    | |- safe (?f _ _ _) => unfold f; cbv beta zeta
    | |- safe (?f _ _) => unfold f; cbv beta zeta
    | |- safe (?f _) => unfold f; cbv beta zeta
    | |- safe ?f => unfold f; cbv beta zeta
    end.

  Lemma safe_builtin b args : small args -> safe (run_builtin H ev b args).
  Proof.
    intros A. destruct b; cbn [run_builtin]; repeat builtin_step.
    - apply small_bm_fold; [| assumption | assumption]. intros. now apply small_bm_insert.
    - apply small_bm_fold; [| assumption | constructor]. intros.
      destruct (bm_mem _ _); [now apply small_bm_insert | assumption].
    - apply small_bm_fold; [| assumption | assumption]. intros. now apply small_bm_remove.
    - destruct (nth_in_or_default 1 args ENone) as [I | ->]; [exact (small_in _ _ _ A I) | constructor].
    - apply small_bm_of_list. repeat (constructor; [split; [exact I |] |]);
        try (apply small_int, fits_wrap); constructor.
  Qed.
End Builtins.

Section Eval.
  Variable H : host.

  Lemma safe_body rec ev0 e :
    (forall e, small e -> safe (rec e)) -> (forall e, small e -> safe (ev0 e)) ->
    small e -> safe (eval_body H rec ev0 e).
  Proof.
    intros R E S.
    assert (MV : forall m : bmap expr, small m -> safe (map_values rec m)).
    { induction m as [| [k x] m IH]; intros F; cbn [map_values]; [apply safe_ret; constructor |].
      apply small_cons in F. destruct F as [[_ X] F].
      refine (safe_bind _ _ _ _ _ _); [now apply R | intros y Y].
      refine (safe_bind _ _ _ _ _ _); [now apply IH | intros r Q].
      apply safe_ret. constructor; [split; [exact I | exact Y] | exact Q]. }
    assert (SQ : forall l, small l -> safe (seqM rec l)).
    { induction l as [| x l IH]; intros F; cbn [seqM]; [apply safe_ret, small_none |].
      apply small_cons in F. destruct F as [X F].
      destruct l; [now apply R |].
      refine (safe_bind _ _ _ _ _ _); [now apply R | intros _ _; now apply IH]. }
    destruct e; cbn [eval_body];
      repeat match goal with
      | X : small (EList _) |- _ => apply (proj1 (small_elist _)) in X
      | X : small (EMap _) |- _ => apply (proj1 (small_emap _)) in X
      | X : small (EDo _) |- _ => apply (proj1 (small_do _)) in X
      | X : small (EIf _ _ _) |- _ => apply (proj1 (small_if _ _ _)) in X; destruct X as (? & ? & ?)
      | X : small (EFor _ _ _) |- _ => apply (proj1 (small_for _ _ _)) in X; destruct X
      | X : small (EApply _ _) |- _ => apply (proj1 (small_apply _ _)) in X; destruct X
      end;
      try (unfold apply_value, run_command; repeat safe_step; auto using safe_builtin; fail).
    refine (safe_bind _ _ _ _ _ _); [apply safe_get_env | intros a A]. apply safe_ret.
    pose proof (small_env_get s a A) as G. destruct (env_get s a); [exact G | apply small_symbol].
  Qed.

  Lemma safe_eval n : forall d e, small e -> safe (eval H n d e).
  Proof.
    induction n as [| n IH]; intros d e S; cbn [eval]; [apply safe_fuel |].
    destruct (MAX_DEPTH <? d)%N; [apply safe_throw |]. apply safe_body; auto.
  Qed.
End Eval.
