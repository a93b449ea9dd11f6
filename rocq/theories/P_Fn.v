(** C54, C55: partial application and function combinators. *)

From Coq Require Import String.
From Verif Require Import Base Syntax Host Ops Parser ErrorFmt Text Monad Builtins Eval
  EvalSpec EvalFacts MapFacts CoreFacts LibFacts OpsSpec OpsFacts LibSpec ListFacts
  CurryFacts Init Demo P_Ops P_List.

(** ** C54 *)

(** What a curried builtin function computes: the builtin function is called
    with variables that hold the arguments, in a scope of its own. *)
Theorem C54_full_application H b nm n e f args vs s :
  (0 < n)%nat -> length args = n -> (N.of_nat n < MAX_DEPTH)%N ->
  (forall i, (S i < n)%nat -> env_get (arg_name i) e = None) ->
  argument H (N.of_nat n) s f (curry_env (EBuiltin (Bi b nm)) n e) ->
  Forall2 (argument H (N.of_nat n) s) args vs ->
  exists E,
    (forall i v, nth_error vs i = Some v -> env_get (arg_name i) E = Some v)
    /\ env_get_cwd E = env_get_cwd (s_env s)
    /\ forall r s',
        (evaluates H 0 (EApply f args) s r s' <->
         exists s2, calls H b (map (fun i => ESymbol (arg_name i)) (seq 0 n)) (with_env E s) r s2
                    /\ s' = with_env (s_env s) s2).
Proof.
  intros P L D F EF A. exists (args_env arg_name (env_get_cwd (s_env s)) vs).
  assert (LV : length vs = n) by (rewrite <- L; symmetry; eapply Forall2_len; eassumption).
  destruct (args_env_spec arg_name n (fun i j _ _ => arg_name_inj i j)
              (env_get_cwd (s_env s)) vs ltac:(lia)) as (_ & B & C).
  split; [exact B |]. split.
  { unfold env_get_cwd at 1. rewrite C by (intros i _ X; symmetry in X; now apply arg_name_cwd in X).
    reflexivity. }
  assert (U := curry_used (EBuiltin (Bi b nm)) n eq_refl).
  intros r s'. assert (EF1 := EF 1%N ltac:(lia)). unfold curry_env in EF1.
  rewrite (curry_lambdas_stage e n _ P) in EF1.
  rewrite (curry_all H e n _ P U F args vs f _ s r s' L ltac:(lia) A (holds_cs0 e n _ P U) EF1).
  setoid_rewrite builtin_at; [reflexivity | exact D].
Qed.

(** Giving the arguments one at a time makes no difference. *)
Theorem C54_one_at_a_time H b nm n e f args vs s r s' :
  (0 < n)%nat -> length args = n -> (N.of_nat n < MAX_DEPTH)%N ->
  (forall i, (S i < n)%nat -> env_get (arg_name i) e = None) ->
  argument H (N.of_nat n) s f (curry_env (EBuiltin (Bi b nm)) n e) ->
  Forall2 (argument H (N.of_nat n) s) args vs ->
  (evaluates H 0 (one_at_a_time f args) s r s' <-> evaluates H 0 (EApply f args) s r s').
Proof.
  intros P L D F EF A.
  assert (U := curry_used (EBuiltin (Bi b nm)) n eq_refl).
  assert (EF1 := EF 1%N ltac:(lia)). assert (EFn := EF (N.of_nat n) ltac:(lia)).
  unfold curry_env in EF1, EFn. rewrite (curry_lambdas_stage e n _ P) in EF1, EFn.
  rewrite (curry_all H e n _ P U F args vs f _ s r s' L ltac:(lia) A (holds_cs0 e n _ P U) EF1).
  rewrite (curry_one_at_a_time H e n _ P U F args vs f _ s r s' L ltac:(lia) A (holds_cs0 e n _ P U) EFn).
  setoid_rewrite (builtin_at H (N.of_nat n)); [| exact D].
  setoid_rewrite (builtin_at H 1); reflexivity.
Qed.

(** The curried builtin functions of the shell need no condition on variables
    and agree with the functions that they stand for. *)
Theorem C54_take_drop H b nm f a c s n l r :
  In b [LTake; LDrop] ->
  argument H 2 s f (curry (EBuiltin (Bi b nm)) 2) ->
  argument H 2 s a (EInteger n) -> argument H 2 s c (EList l) -> fits n -> storable l ->
  calls H b [a; c] s r s ->
  evaluates H 0 (EApply f [a; c]) s r s /\ evaluates H 0 (EApply (EApply f [a]) [c]) s r s.
Proof.
  intros IB EF A C FN ST X.
  assert (K : evaluates H 0 (EApply f [a; c]) s r s).
  { destruct (C54_full_application H b nm 2 env_new f [a; c] [EInteger n; EList l] s) as (E & G & CW & W);
      auto; try reflexivity; try lia.
    apply W. exists (with_env E s). split; [| destruct s; reflexivity].
    assert (GA : gives H (ESymbol (arg_name 0)) (with_env E s) (EInteger n) (with_env E s)).
    { apply rule_symbol; [discriminate |]. cbn [s_env with_env]. now rewrite (G 0%nat _ eq_refl). }
    assert (GC : gives H (ESymbol (arg_name 1)) (with_env E s) (EList l) (with_env E s)).
    { apply rule_symbol; [discriminate |]. cbn [s_env with_env]. now rewrite (G 1%nat _ eq_refl). }
    destruct (C36_take_drop H (ESymbol (arg_name 0)) (ESymbol (arg_name 1)) (with_env E s) n
                (with_env E s) l (with_env E s) GA GC FN ST) as (t1 & d1 & T1 & D1 & _ & A1 & S1).
    destruct (C36_take_drop H a c s n s l s (A 0%N ltac:(lia)) (C 0%N ltac:(lia)) FN ST)
      as (t2 & d2 & T2 & D2 & _ & A2 & S2).
    assert (Q : t1 = t2 /\ d1 = d2).
    { assert (LL : length t1 = length t2) by (unfold size in *; lia).
      clear - A1 A2 LL. subst l. revert t2 A2 LL. induction t1 as [| x t1 IH]; intros [| y t2] E L;
        try discriminate; [auto |]. cbn in *. injection E as -> E. injection L as L.
      destruct (IH _ E L). now subst. }
    destruct Q as [<- <-].
    destruct IB as [<- | [<- | []]]; cbn [seq map].
    - destruct (calls_det _ _ _ _ _ _ _ _ X T2) as [-> _]. exact T1.
    - destruct (calls_det _ _ _ _ _ _ _ _ X D2) as [-> _]. exact D1. }
  split; [exact K |].
  apply (C54_one_at_a_time H b nm 2 env_new f [a; c] [EInteger n; EList l] s r s);
    auto; try reflexivity; try lia.
Qed.

(** The operators [*] and [//] of the shell are exact, like the builtin
    functions they stand for (C32). *)
Theorem C54_exact_operators H b op nm f a c s x y o :
  In (b, op) [(BMul, product); (BDiv, quotient)] ->
  argument H 2 s f (curry (EBuiltin (Bi b nm)) 2) ->
  argument H 2 s a (EInteger x) -> argument H 2 s c (EInteger y) ->
  exactly op x [y] o ->
  match o with
  | Some w => evaluates H 0 (EApply f [a; c]) s (ROk (EInteger w)) s
              /\ evaluates H 0 (EApply (EApply f [a]) [c]) s (ROk (EInteger w)) s
  | None => exists m s1, evaluates H 0 (EApply f [a; c]) s (RErr (CustomError m)) s1
              /\ evaluates H 0 (EApply (EApply f [a]) [c]) s (RErr (CustomError m)) s1
  end.
Proof.
  intros IB EF A C X.
  assert (FA : Forall2 (argument H (N.of_nat 2) s) [a; c] [EInteger x; EInteger y]) by auto.
  destruct (C54_full_application H b nm 2 env_new f [a; c] [EInteger x; EInteger y] s)
    as (E & G & CW & W); auto; try reflexivity; try lia.
  assert (O : forall r s2, evaluates H 0 (EApply (EApply f [a]) [c]) s r s2 <->
                           evaluates H 0 (EApply f [a; c]) s r s2).
  { intros r s2.
    apply (C54_one_at_a_time H b nm 2 env_new f [a; c] [EInteger x; EInteger y] s r s2);
      auto; try reflexivity; try lia. }
  assert (IB' : In (b, op) [(BAdd, sum); (BSub, difference); (BMul, product); (BDiv, quotient)])
    by (destruct IB as [IB | [IB | []]]; rewrite <- IB; cbn; auto).
  assert (ALL : evaluates_all H 0 [ESymbol (arg_name 0); ESymbol (arg_name 1)] (with_env E s)
                  (ROk (map EInteger [x; y])) (with_env E s)).
  { econstructor; [| econstructor; [| constructor]].
    - apply rule_symbol; [discriminate |]. cbn [s_env with_env]. now rewrite (G 0%nat _ eq_refl).
    - apply rule_symbol; [discriminate |]. cbn [s_env with_env]. now rewrite (G 1%nat _ eq_refl). }
  assert (CE := C32_exact_arithmetic H b op _ _ [] _ x [y] _ o IB' ALL X).
  destruct o as [w |].
  - rewrite O, W. split; (exists (with_env E s); split; [exact CE | destruct s; reflexivity]).
  - destruct CE as (m & s1 & CE). exists m, (with_env (s_env s) s1).
    rewrite O, W. split; (exists s1; split; [exact CE | reflexivity]).
Qed.

(** The partial application of [+] adds in the other order. *)
Theorem C54_plus_refuted :
  exists a b r1 s1 r2 s2,
    evaluates demo_host 0 (app BAdd [a; b]) demo r1 s1
    /\ evaluates demo_host 0 (EApply (app BAdd [a]) [b]) demo r2 s2
    /\ r1 <> r2.
Proof.
  exists (EString (lit "a")), (EString (lit "b")), (ROk (EString (lit "ab"))), demo,
    (ROk (EString (lit "ba"))), demo.
  split; [compute_outcome 20%nat |]. split; [compute_outcome 20%nat | discriminate].
Qed.

(** For integers the order does not matter. *)
Theorem C54_plus_partial H a b s x y o :
  argument H 2 s a (EInteger x) -> argument H 2 s b (EInteger y) ->
  exactly sum x [y] o ->
  match o with
  | Some w => evaluates H 0 (app BAdd [a; b]) s (ROk (EInteger w)) s
              /\ evaluates H 0 (EApply (app BAdd [a]) [b]) s (ROk (EInteger w)) s
  | None => (exists m s1, evaluates H 0 (app BAdd [a; b]) s (RErr (CustomError m)) s1)
            /\ exists m s1, evaluates H 0 (EApply (app BAdd [a]) [b]) s (RErr (CustomError m)) s1
  end.
Proof.
  intros A B X.
  assert (IB : In (BAdd, sum) [(BAdd, sum); (BSub, difference); (BMul, product); (BDiv, quotient)])
    by now left.
  assert (X' : exactly sum y [x] o).
  { inversion X as [| ? ? ? ? ? S F T | ? ? ? S | ? ? ? ? S F]; subst; unfold sum in S.
    - injection S as <-. inversion T; subst. eapply exactly_step; [reflexivity | |].
      + now rewrite Z.add_comm.
      + rewrite Z.add_comm. constructor.
    - discriminate.
    - injection S as <-. eapply exactly_range; [reflexivity |]. now rewrite Z.add_comm. }
  assert (ALL : evaluates_all H 0 [a; b] s (ROk (map EInteger [x; y])) s).
  { econstructor; [apply A; lia | econstructor; [apply B; lia | constructor]]. }
  set (body := EApply add_bi (map (fun i => ESymbol (arg_name i)) (rev (seq 0 2)))).
  assert (U := reverse_curry_used add_bi 2 eq_refl). fold body in U.
  assert (FR : forall i, (S i < 2)%nat -> env_get (arg_name i) env_new = None) by reflexivity.
  set (E := args_env arg_name (env_get_cwd (s_env s)) [EInteger x; EInteger y]).
  assert (G : forall i v, nth_error [EInteger x; EInteger y] i = Some v -> env_get (arg_name i) E = Some v)
    by (apply (args_env_spec arg_name 2 (fun i j _ _ => arg_name_inj i j)); cbn; lia).
  (* the function that [+ a] returns *)
  assert (PART : exists c', holds arg_name 2 [EInteger x] c'
            /\ evaluates H 1 (app BAdd [a]) s
                 (ROk (ELambda (arg_name 1) (stage arg_name 2 (curry_scope env_new body 2) body 2) c')) s).
  { destruct (curry_again H env_new 2 body ltac:(lia) U 1 (curry_scope env_new body 2 0) s
                ltac:(discriminate) (holds_cs0 env_new 2 body ltac:(lia) U)) as (c & HC & EC).
    destruct (curry_first H env_new 2 body ltac:(lia) U FR _ (EInteger x) (EInteger x) c s ltac:(lia)
                (argument_data H 1 s (EInteger x) I ltac:(discriminate)) HC EC) as (c' & HC' & EC').
    exists c'. split; [exact HC' |]. apply builtin_at; [reflexivity |].
    call. unfold run_add. eapply sure_ev_arg; [reflexivity | apply A; lia |]. cbv beta iota.
    apply sure_ev. rewrite <- (curry_lambdas_stage env_new 2 body) in EC' by lia. exact EC'. }
  destruct PART as (c' & HC' & PART).
  assert (W : forall r s2, evaluates H 0 (EApply (app BAdd [a]) [b]) s r s2 <->
              exists s3, calls H BAdd [ESymbol (arg_name 1); ESymbol (arg_name 0)] (with_env E s) r s3
                         /\ s2 = with_env (s_env s) s3).
  { intros r s2.
    rewrite (curry_last H env_new 2 body ltac:(lia) _ [EInteger x] b (EInteger y) c' s r s2 eq_refl
               (argument_less _ _ 1 _ _ _ B ltac:(lia)) HC' PART).
    unfold body, add_bi. setoid_rewrite builtin_at; [reflexivity | reflexivity]. }
  assert (ALL' : evaluates_all H 0 [ESymbol (arg_name 1); ESymbol (arg_name 0)] (with_env E s)
                  (ROk (map EInteger [y; x])) (with_env E s)).
  { econstructor; [| econstructor; [| constructor]].
    - apply rule_symbol; [discriminate |]. cbn [s_env with_env]. now rewrite (G 1%nat _ eq_refl).
    - apply rule_symbol; [discriminate |]. cbn [s_env with_env]. now rewrite (G 0%nat _ eq_refl). }
  assert (C1 := C32_exact_arithmetic H BAdd sum _ _ [] _ x [y] _ o IB ALL X).
  assert (C2 := C32_exact_arithmetic H BAdd sum _ _ [] _ y [x] _ o IB ALL' X').
  destruct o as [w |].
  - split; [now apply app_calls |]. apply W. exists (with_env E s).
    split; [exact C2 | destruct s; reflexivity].
  - destruct C1 as (m1 & t1 & C1), C2 as (m2 & t2 & C2). split.
    + exists m1, t1. now apply app_calls.
    + exists m2, (with_env (s_env s) t2). apply W. eauto.
Qed.

(** [fn@curry] is wrong when a variable has the name of one of the parameters
    it makes up. *)
Theorem C54_fn_curry_refuted :
  exists s a b f r1 s1 r2 s2,
    calls demo_host FCurry [EBuiltin (Bi LSplitAt []); EInteger 2] s (ROk f) s
    /\ calls demo_host LSplitAt [a; b] s r1 s1
    /\ evaluates demo_host 0 (EApply f [a; b]) s r2 s2
    /\ r1 <> r2.
Proof.
  exists (with_var (lit "arg0") (EInteger 0) demo), (EInteger 1), (EList [EInteger 5; EInteger 6]).
  exists (curry_env (EBuiltin (Bi LSplitAt [])) 2 (s_env (with_var (lit "arg0") (EInteger 0) demo))).
  exists (ROk (EList [EList [EInteger 5]; EList [EInteger 6]])), (with_var (lit "arg0") (EInteger 0) demo),
    (ROk (EList [EList []; EList [EInteger 5; EInteger 6]])), (with_var (lit "arg0") (EInteger 0) demo).
  split; [compute_outcome 20%nat |]. split; [compute_outcome 20%nat |].
  split; [compute_outcome 20%nat | discriminate].
Qed.

(** Otherwise it makes a curried function as above. *)
Theorem C54_fn_curry_partial H a c s b nm n s1 s2 :
  gives H a s (EBuiltin (Bi b nm)) s1 -> gives H c s1 (EInteger n) s2 -> (0 <= n < 2 ^ 56)%Z ->
  calls H FCurry [a; c] s (ROk (curry_env (EBuiltin (Bi b nm)) (Z.to_nat n) (s_env s2))) s2.
Proof.
  intros A C B. unfold gives in *. call. unfold run_curry. cbn [length Nat.ltb Nat.leb]. repeat sure_step.
  rewrite as_usize_nonneg by (unfold fits; lia).
  replace (Z.to_N n <? 2 ^ 56)%N with true by (symmetry; apply N.ltb_lt; lia).
  apply sure_const. unfold bind, get_env, ret. rewrite Z_N_nat. reflexivity.
Qed.

Example C54_example :
  value_of "(list@take 2) [5, 6, 7]" = ROk (EList [EInteger 5; EInteger 6])
  /\ value_of "list@take 2 [5, 6, 7]" = ROk (EList [EInteger 5; EInteger 6])
  /\ value_of "let c = fn@curry list@split-at 2; (c 1) [5, 6]"
     = ROk (EList [EList [EInteger 5]; EList [EInteger 6]])
  /\ value_of "let arg0 = 0; let c = fn@curry list@split-at 2; (c 1) [5, 6]"
     = ROk (EList [EList []; EList [EInteger 5; EInteger 6]])
  /\ env_get (lit "*") demo_env = Some (curry (EBuiltin (Bi BMul (lit "*"))) 2)
  /\ argument demo_host 2 demo (ESymbol (lit "*")) (curry (EBuiltin (Bi BMul (lit "*"))) 2)
  /\ exactly product 6 [7%Z] (Some 42%Z).
Proof.
  do 5 (split; [vm_compute; reflexivity |]). split.
  - apply argument_symbol; [discriminate | vm_compute; reflexivity].
  - eapply exactly_step; [reflexivity | split; [discriminate | reflexivity] | constructor].
Qed.

(** ** C55 *)

(** The scope that the functions of the module were made in. *)
Definition fn_scope (p : str) : env := env_define p ENone (env_define CWD (EString (lit "/")) env_new).

Lemma fn_lambdas H names body args vs d f s r s' :
  names <> [] -> NoDup names -> ~ In CWD names ->
  (forall x, In x (used_symbols body) -> In x names) ->
  (forall x, In x (removelast names) -> In x (used_symbols body)) ->
  length args = length names -> (d + N.of_nat (length names) <= MAX_DEPTH)%N ->
  Forall2 (argument H (d + N.of_nat (length names)) s) args vs ->
  evaluates H (d + 1) f s (ROk (lambdas names (fn_scope (hd [] names)) body)) s ->
  (evaluates H d (EApply f args) s r s' <->
   exists s2, evaluates H (d + N.of_nat (length names)) body
                (with_env (args_env (lam_name names) (env_get_cwd (s_env s)) vs) s) r s2
              /\ s' = with_env (s_env s) s2).
Proof.
  intros NE ND NC USED USES L DM PL EF.
  apply (lambdas_all H names (fn_scope (hd [] names)) body args vs d f s r s'); auto.
  - apply flat_define, flat_define, flat_new.
  - intros x. unfold fn_scope. rewrite !env_get_define.
    destruct (str_eqb x (hd [] names)) eqn:A.
    + intros _. right. apply str_eqb_eq in A. subst x. destruct names; [congruence | now left].
    + destruct (str_eqb x CWD) eqn:B; [left; now apply str_eqb_eq | cbn; congruence].
Qed.

Ltac names_ok := first
  [ discriminate | reflexivity
  | repeat constructor; cbn; intuition discriminate
  | cbn; intuition discriminate
  | intros x X; cbn in X |- *; intuition ].

Lemma fn_id : bm_get (lit "id") fn_module
  = Some (lambdas [lit "x"] (fn_scope (lit "x")) (ESymbol (lit "x"))).
Proof. vm_compute. reflexivity. Qed.

Lemma fn_const : bm_get (lit "const") fn_module
  = Some (lambdas [lit "x"; lit "y"] (fn_scope (lit "x")) (ESymbol (lit "x"))).
Proof. vm_compute. reflexivity. Qed.

Lemma fn_flip : bm_get (lit "flip") fn_module
  = Some (lambdas [lit "f"; lit "x"; lit "y"] (fn_scope (lit "f"))
            (EApply (ESymbol (lit "f")) [ESymbol (lit "y"); ESymbol (lit "x")])).
Proof. vm_compute. reflexivity. Qed.

Lemma fn_compose : bm_get (lit "compose") fn_module
  = Some (lambdas [lit "f"; lit "g"; lit "x"] (fn_scope (lit "f"))
            (EApply (ESymbol (lit "f"))
               [EGroup (EApply (ESymbol (lit "g")) [ESymbol (lit "x")])])).
Proof. vm_compute. reflexivity. Qed.

(** [fn@id x] is [x]. *)
Theorem C55_id H g f a v s :
  bm_get (lit "id") fn_module = Some g ->
  argument H 1 s f g -> argument H 1 s a v ->
  evaluates H 0 (EApply f [a]) s (ROk v) s.
Proof.
  intros G F A. rewrite fn_id in G. injection G as <-.
  destruct (lambdas_env [lit "x"] (env_get_cwd (s_env s)) [v]) as (V & _); try names_ok.
  apply (fn_lambdas H [lit "x"] (ESymbol (lit "x")) [a] [v]); try names_ok.
  - constructor; [exact A | constructor].
  - apply F; lia.
  - eexists. split.
    + apply rule_symbol; [discriminate |]. split; [| reflexivity].
      cbn [s_env with_env]. change (lit "x") with (lam_name [lit "x"] 0) at 1.
      now rewrite (V 0%nat v eq_refl).
    + destruct s; reflexivity.
Qed.

(** [fn@const x y] is [x]. *)
Theorem C55_const H g f a b v w s :
  bm_get (lit "const") fn_module = Some g ->
  argument H 2 s f g -> argument H 2 s a v -> argument H 2 s b w ->
  evaluates H 0 (EApply f [a; b]) s (ROk v) s.
Proof.
  intros G F A B. rewrite fn_const in G. injection G as <-.
  destruct (lambdas_env [lit "x"; lit "y"] (env_get_cwd (s_env s)) [v; w]) as (V & _); try names_ok.
  apply (fn_lambdas H [lit "x"; lit "y"] (ESymbol (lit "x")) [a; b] [v; w]); try names_ok.
  - constructor; [exact A | constructor; [exact B | constructor]].
  - apply F; lia.
  - eexists. split.
    + apply rule_symbol; [discriminate |]. split; [| reflexivity].
      cbn [s_env with_env]. change (lit "x") with (lam_name [lit "x"; lit "y"] 0) at 1.
      now rewrite (V 0%nat v eq_refl).
    + destruct s; reflexivity.
Qed.

(** [fn@flip f x y] is [f y x]. *)
Theorem C55_flip H g h a b c f x y s w s' :
  bm_get (lit "flip") fn_module = Some g ->
  argument H 3 s h g -> argument H 3 s a f -> argument H 3 s b x -> argument H 3 s c y ->
  acts H 3 f [y; x] s w s' ->
  evaluates H 0 (EApply h [a; b; c]) s (ROk w) (with_env (s_env s) s').
Proof.
  intros G F A B C X. rewrite fn_flip in G. injection G as <-.
  destruct (lambdas_env [lit "f"; lit "x"; lit "y"] (env_get_cwd (s_env s)) [f; x; y])
    as (V & W); try names_ok.
  apply (fn_lambdas H [lit "f"; lit "x"; lit "y"]
           (EApply (ESymbol (lit "f")) [ESymbol (lit "y"); ESymbol (lit "x")])
           [a; b; c] [f; x; y]); try names_ok.
  - constructor; [exact A | constructor; [exact B | constructor; [exact C | constructor]]].
  - apply F; lia.
  - assert (SY : forall i v d, nth_error [f; x; y] i = Some v -> (d <= 13)%N ->
       evaluates H d (ESymbol (lam_name [lit "f"; lit "x"; lit "y"] i))
         (with_env (args_env (lam_name [lit "f"; lit "x"; lit "y"]) (env_get_cwd (s_env s)) [f; x; y]) s)
         (ROk v)
         (with_env (args_env (lam_name [lit "f"; lit "x"; lit "y"]) (env_get_cwd (s_env s)) [f; x; y]) s)).
    { intros i v d I D. apply rule_symbol; [unfold MAX_DEPTH; lia |].
      cbn [s_env with_env]. now rewrite (V i v I). }
    eexists. split.
    + apply (X _ 3%N (ESymbol (lit "f")) [ESymbol (lit "y"); ESymbol (lit "x")] W ltac:(lia)).
      * intros d2 D2. exact (SY 0%nat f d2 eq_refl ltac:(lia)).
      * constructor; [intros d2 D2; exact (SY 2%nat y d2 eq_refl ltac:(lia)) |].
        constructor; [intros d2 D2; exact (SY 1%nat x d2 eq_refl ltac:(lia)) | constructor].
    + reflexivity.
Qed.

(** [fn@compose f g x] is [f (g x)]. *)
Theorem C55_compose H k h a b c f g x s u w s' :
  bm_get (lit "compose") fn_module = Some k ->
  argument H 3 s h k -> argument H 3 s a f -> argument H 3 s b g -> argument H 3 s c x ->
  acts H 14 g [x] s u s -> acts H 3 f [u] s w s' ->
  evaluates H 0 (EApply h [a; b; c]) s (ROk w) (with_env (s_env s) s').
Proof.
  intros G F A B C XG XF. rewrite fn_compose in G. injection G as <-.
  destruct (lambdas_env [lit "f"; lit "g"; lit "x"] (env_get_cwd (s_env s)) [f; g; x])
    as (V & W); try names_ok.
  apply (fn_lambdas H [lit "f"; lit "g"; lit "x"]
           (EApply (ESymbol (lit "f")) [EGroup (EApply (ESymbol (lit "g")) [ESymbol (lit "x")])])
           [a; b; c] [f; g; x]); try names_ok.
  - constructor; [exact A | constructor; [exact B | constructor; [exact C | constructor]]].
  - apply F; lia.
  - assert (SY : forall i v d, nth_error [f; g; x] i = Some v -> (d <= 24)%N ->
       evaluates H d (ESymbol (lam_name [lit "f"; lit "g"; lit "x"] i))
         (with_env (args_env (lam_name [lit "f"; lit "g"; lit "x"]) (env_get_cwd (s_env s)) [f; g; x]) s)
         (ROk v)
         (with_env (args_env (lam_name [lit "f"; lit "g"; lit "x"]) (env_get_cwd (s_env s)) [f; g; x]) s)).
    { intros i v d I D. apply rule_symbol; [unfold MAX_DEPTH; lia |].
      cbn [s_env with_env]. now rewrite (V i v I). }
    eexists. split.
    + apply (XF _ 3%N (ESymbol (lit "f")) _ W ltac:(lia)).
      * intros d2 D2. exact (SY 0%nat f d2 eq_refl ltac:(lia)).
      * constructor; [| constructor]. intros d2 D2. apply rule_group; [unfold MAX_DEPTH; lia |].
        apply (XG _ (d2 + 1)%N (ESymbol (lit "g")) _ W ltac:(lia)).
        -- intros d3 D3. exact (SY 1%nat g d3 eq_refl ltac:(lia)).
        -- constructor; [| constructor]. intros d3 D3. exact (SY 2%nat x d3 eq_refl ltac:(lia)).
    + reflexivity.
Qed.

(** The hypotheses can be met: how [list@len] acts. *)
Lemma acts_len H d nm l s : (d < MAX_DEPTH)%N -> storable l ->
  acts H d (EBuiltin (Bi LLen nm)) [EList l] s (EInteger (size l)) s.
Proof.
  intros D S E d' f args CW L F A.
  inversion A as [| a v as' vs A1 A2]; subst. inversion A2; subst.
  apply rule_apply; [lia |]. left. exists (EBuiltin (Bi LLen nm)), (with_env E s).
  split; [apply F; lia |]. apply (C36_len H a (with_env E s) l (with_env E s)); [apply A1; lia | exact S].
Qed.

Lemma acts_cons H d nm x l s : (d < MAX_DEPTH)%N ->
  acts H d (EBuiltin (Bi LCons nm)) [x; EList l] s (EList (x :: l)) s.
Proof.
  intros D E d' f args CW L F A.
  inversion A as [| a v as' vs A1 A2]; subst. inversion A2 as [| a2 v2 as2 vs2 A3 A4]; subst.
  inversion A4; subst.
  apply rule_apply; [lia |]. left. exists (EBuiltin (Bi LCons nm)), (with_env E s).
  split; [apply F; lia |].
  apply (C36_cons H a a2 (with_env E s) l (with_env E s) x (with_env E s)); [apply A3 | apply A1]; lia.
Qed.

Example C55_example :
  value_of "fn@id 5" = ROk (EInteger 5)
  /\ value_of "fn@const 5 6" = ROk (EInteger 5)
  /\ value_of "fn@flip list@cons [1, 2] 3" = ROk (EList [EInteger 3; EInteger 1; EInteger 2])
  /\ value_of "fn@compose list@len list@tail [1, 2, 3]" = ROk (EInteger 2)
  /\ value_of "let inc = x -> x + 1; let twice = x -> x * 2; fn@compose inc twice 5" = ROk (EInteger 11)
  /\ (exists g, bm_get (lit "flip") fn_module = Some g
        /\ argument demo_host 3 (with_var (lit "flip") g demo) (ESymbol (lit "flip")) g)
  /\ acts demo_host 3 (EBuiltin (Bi LCons [])) [EInteger 3; EList [EInteger 1]] demo
       (EList [EInteger 3; EInteger 1]) demo
  /\ acts demo_host 14 (EBuiltin (Bi LLen [])) [EList [EInteger 1]] demo (EInteger 1) demo.
Proof.
  do 5 (split; [vm_compute; reflexivity |]). split.
  - eexists. split; [exact fn_flip |]. apply argument_symbol; [discriminate |].
    vm_compute; reflexivity.
  - split; [now apply acts_cons | now apply (acts_len demo_host 14 [] [EInteger 1])].
Qed.

Print Assumptions C54_full_application.
Print Assumptions C54_one_at_a_time.
Print Assumptions C54_take_drop.
Print Assumptions C54_exact_operators.
Print Assumptions C54_plus_refuted.
Print Assumptions C54_plus_partial.
Print Assumptions C54_fn_curry_refuted.
Print Assumptions C54_fn_curry_partial.
Print Assumptions C55_id.
Print Assumptions C55_const.
Print Assumptions C55_flip.
Print Assumptions C55_compose.
