(** C86: the variables of a new shell. *)

From Coq Require Import String List Lia.
From Verif Require Import Base Syntax Host Text Monad Builtins Eval EvalSpec EvalFacts LibSpec MapFacts Init StartSpec Demo.
Import ListNotations.

Lemma variable_get e x v : env_get (lit x) e = Some v -> variable e x v.
Proof. intros E H t n. apply rule_symbol; [easy |]. cbn [s_env]. now rewrite E. Qed.

Lemma no_variable_get e x : env_get (lit x) e = None -> variable e x (ESymbol (lit x)).
Proof. intros E H t n. apply rule_symbol; [easy |]. cbn [s_env]. now rewrite E. Qed.

(** The environment of a new shell, when the parts that depend on the machine
    are given. *)
Lemma init_parts m :
  exists w a b math,
    let dirs := define_dirs m in
    let ops := bm_insert (lit "<<") (bi KRead "read") (bm_insert (lit ">>") a (bm_insert (lit ">>>") b basic_operators)) in
    let std := tree
      [ ("log", EMap log_module); ("math", EMap math); ("dict", EMap dict_module);
        ("shell", EMap (shell_module m)); ("err", EMap err_module); ("os", EMap (os_module m));
        ("widget", EMap widget_module); ("time", EMap time_module);
        ("rand", EMap rand_module); ("fn", EMap fn_module); ("console", EMap console_module);
        ("fmt", EMap fmt_module); ("parse", EMap parse_module); ("fs", EMap w); ("ops", EMap ops);
        ("string", EMap string_module); ("list", EMap list_module); ("sys", EMap sys_module) ]%string in
    init m = fold_left (fun e kv => env_define (lit (fst kv)) (snd kv) e) globals
               (define_all std (env_define (lit "std") (EMap std)
                  (define_all ops (env_define (lit "fs") (EMap w) dirs)))).
Proof. eexists _, _, _, _. cbv zeta. unfold init, operators. reflexivity. Qed.

Lemma get_defines {A} (key : A -> str) (val : A -> expr) l y : forall e,
  env_get y (fold_left (fun e kv => env_define (key kv) (val kv) e) l e)
  = match find (fun kv => str_eqb y (key kv)) (rev l) with Some kv => Some (val kv) | None => env_get y e end.
Proof.
  induction l as [| kv l IH] using rev_ind; intros e; [reflexivity |].
  rewrite fold_left_app, rev_app_distr. cbn [fold_left rev List.app find]. rewrite env_get_define.
  destruct (str_eqb y (key kv)); [reflexivity | apply IH].
Qed.

(** Every module is there by its name, and the same in [std]. *)
Theorem C86_modules m x :
  In x modules ->
  exists v std, variable (init m) x (EMap v) /\ variable (init m) "std" (EMap std) /\ In (lit x, EMap v) std.
Proof.
  intros I. destruct (init_parts m) as (w & a & b & math & E). cbv zeta in E.
  set (ops := bm_insert (lit "<<") _ _) in E. set (std := tree _) in E. clearbody ops.
  assert (V : exists v, In (lit x, EMap v) std /\ find (fun kv => str_eqb (lit x) (fst kv)) (rev std) = Some (lit x, EMap v)
            /\ find (fun kv => str_eqb (lit x) (lit (fst kv))) (rev globals) = None).
  { clear E. subst std. generalize log_module, dict_module, (shell_module m), err_module, (os_module m), widget_module,
      time_module, rand_module, fn_module, console_module, fmt_module, parse_module, string_module, list_module, sys_module.
    intros. cbn in I. repeat destruct I as [<- | I]; try contradiction; eexists;
    (split; [| split; [vm_compute; reflexivity | vm_compute; reflexivity]]); vm_compute; auto 20. }
  destruct V as (v & V1 & V2 & V3). exists v, std. split; [| split; [| exact V1]]; apply variable_get; rewrite E.
  - rewrite (get_defines (fun kv => lit (fst kv)) snd), V3. unfold define_all at 1.
    rewrite (get_defines fst snd), V2. reflexivity.
  - rewrite (get_defines (fun kv => lit (fst kv)) snd).
    change (find _ (rev globals)) with (@None (string * expr)). unfold define_all at 1.
    rewrite (get_defines fst snd).
    assert (N : find (fun kv => str_eqb (lit "std") (fst kv)) (rev std) = None).
    { clear. subst std. generalize log_module, dict_module, (shell_module m), err_module, (os_module m), widget_module,
      time_module, rand_module, fn_module, console_module, fmt_module, parse_module, string_module, list_module, sys_module.
      intros. vm_compute. reflexivity. }
    rewrite N, env_get_define. reflexivity.
Qed.

(** The names that a new shell has whatever the machine. *)
Lemma init_other m y :
  find (fun kv => str_eqb y (lit (fst kv))) globals = None ->
  ~ In y (map lit ("std" :: modules)%string) -> ~ In y (map fst basic_operators) ->
  ~ In y (map lit ["<<"; ">>"; ">>>"]%string) ->
  env_get y (init m) = env_get y (define_dirs m).
Proof.
  intros G S O O2. destruct (init_parts m) as (w & a & b & math & ->). cbv zeta.
  rewrite (get_defines (fun kv => lit (fst kv)) snd).
  assert (F : forall A (key : A -> str) l, ~ In y (map key l) -> find (fun kv => str_eqb y (key kv)) l = None).
  { intros A key l. induction l as [| u l IH]; intros N; [reflexivity |]. cbn in *.
    destruct (str_eqb y (key u)) eqn:E; [apply str_eqb_eq in E; subst; tauto | apply IH; tauto]. }
  assert (B : forall A (key : A -> str) l, ~ In y (map key l) -> find (fun kv => str_eqb y (key kv)) (rev l) = None).
  { intros A key l N. apply F. rewrite map_rev. now rewrite <- in_rev. }
  rewrite (B _ (fun kv => lit (fst kv))).
  2: { intros I. apply in_map_iff in I. destruct I as (kv & <- & I).
       apply (find_none _ _ G) in I. cbn beta in I. now rewrite str_eqb_refl in I. }
  set (ops := bm_insert _ _ _). set (std := tree _). unfold define_all at 1. rewrite (get_defines fst snd), (B _ fst).
  2: { intros I. apply S. clear - I. subst std. revert I.
       generalize log_module, dict_module, (shell_module m), err_module, (os_module m), widget_module,
         time_module, rand_module, fn_module, console_module, fmt_module, parse_module, string_module, list_module, sys_module, ops.
       intros. cbn in I. cbn. tauto. }
  rewrite env_get_define. destruct (str_eqb y (lit "std")) eqn:E.
  { apply str_eqb_eq in E. subst y. destruct S. now left. }
  unfold define_all. rewrite (get_defines fst snd), (B _ fst).
  2: { intros I. subst ops. assert (K : forall k v (l : bmap expr), In y (map fst (bm_insert k v l)) -> y = k \/ In y (map fst l)).
       { clear. intros k v l. induction l as [| [k' v'] l IH]; cbn.
         - intuition.
         - destruct (str_cmp k k'); cbn; intuition. }
       repeat (apply K in I; destruct I as [-> | I]; [apply O2; cbn; tauto |]). contradiction. }
  rewrite env_get_define. destruct (str_eqb y (lit "fs")) eqn:E2; [| reflexivity].
  apply str_eqb_eq in E2. subst y. destruct S. vm_compute. tauto.
Qed.

(** The directories of the user that are known are there, and no others. *)
Theorem C86_directories m x d :
  In (x, d) [("HOME", m_home m); ("DESK", m_desk m); ("DOCS", m_docs m); ("DOWN", m_down m)]%string ->
  variable (init m) x (match d with Some t => EString t | None => ESymbol (lit x) end).
Proof.
  intros I.
  assert (E : env_get (lit x) (init m) = env_get (lit x) (define_dirs m)).
  { cbn in I. repeat destruct I as [I | I]; try contradiction; injection I as <- _;
      (apply init_other; [vm_compute; reflexivity | vm_compute; intuition discriminate ..]). }
  destruct d as [t |]; [apply variable_get | apply no_variable_get]; rewrite E; clear E;
    destruct m as [h c k o n ? ? ? ? ?]; cbn in I;
    repeat destruct I as [I | I]; try contradiction; injection I as <- ->;
    repeat match goal with u : option str |- _ => destruct u end; reflexivity.
Qed.

(** The working directory is that of the process, and the home directory when it
    has none. *)
Theorem C86_working_directory m :
  variable (init m) "CWD"
    (match m_cwd m, m_home m with
     | Some t, _ => EString t
     | None, Some t => EString t
     | None, None => ESymbol (lit "CWD")
     end).
Proof.
  assert (E : env_get (lit "CWD") (init m) = env_get (lit "CWD") (define_dirs m)).
  { apply init_other; [vm_compute; reflexivity | vm_compute; intuition discriminate ..]. }
  destruct m as [h c k o n ? ? ? ? ?]. cbn [m_cwd m_home].
  destruct c as [c |]; [| destruct h as [h |]]; [apply variable_get | apply variable_get | apply no_variable_get];
    rewrite E; clear E; repeat match goal with u : option str |- _ => destruct u end; reflexivity.
Qed.

Lemma os_there m : variable (init m) "os" (EMap (os_module m)).
Proof.
  apply variable_get. destruct (init_parts m) as (w & a & b & math & E). cbv zeta in E.
  set (ops := bm_insert (lit "<<") _ _) in E. set (std := tree _) in E. clearbody ops. rewrite E.
  rewrite (get_defines (fun kv => lit (fst kv)) snd).
  change (find _ (rev globals)) with (@None (string * expr)). unfold define_all at 1.
  rewrite (get_defines fst snd).
  assert (N : find (fun kv => str_eqb (lit "os") (fst kv)) (rev std) = Some (lit "os", EMap (os_module m))).
  { clear. subst std. generalize log_module, dict_module, (shell_module m), err_module, (os_module m), widget_module,
    time_module, rand_module, fn_module, console_module, fmt_module, parse_module, string_module, list_module, sys_module.
    intros. vm_compute. reflexivity. }
  now rewrite N.
Qed.

(** [os@family] of a distribution of Linux.  Two are missing. *)
Theorem C86_family_partial m :
  In (m_os m) distributions -> m_os m <> OsAmazon -> m_os m <> OsSolus ->
  exists v, variable (init m) "os" (EMap v) /\ In (lit "family", EString (lit "linux")) v.
Proof.
  intros I A S. exists (os_module m). split; [apply os_there |]. destruct m as [? ? ? ? ? t ? ? ? ?]. cbn in I, A, S.
  repeat destruct I as [<- | I]; try contradiction; vm_compute; auto 10.
Qed.

(** Amazon Linux is said to be Android, and Solus not to be Linux. *)
Theorem C86_family_refuted m :
  m_os m = OsAmazon \/ m_os m = OsSolus ->
  exists v f, variable (init m) "os" (EMap v) /\ In (lit "family", EString f) v
    /\ (forall g, In (lit "family", EString g) v -> g = f)
    /\ f = lit (match m_os m with OsAmazon => "android" | _ => "unix" end) /\ f <> lit "linux".
Proof.
  intros O. exists (os_module m), (get_os_family (m_os m)). split; [apply os_there |].
  destruct m as [? ? ? ? ? t ? ? ? ?]. cbn in O. cbn [m_os].
  destruct O as [-> | ->]; (split; [vm_compute; auto 10 |]; split; [| split; [reflexivity | discriminate]]);
    intros g I; vm_compute in I; repeat destruct I as [I | I]; try contradiction; try discriminate I; injection I as <-; reflexivity.
Qed.

(** Different systems have different names. *)
Theorem C86_names m1 m2 v1 v2 n :
  variable (init m1) "os" (EMap v1) -> variable (init m2) "os" (EMap v2) ->
  In (lit "name", n) v1 -> In (lit "name", n) v2 -> m_os m1 = m_os m2.
Proof.
  intros V1 V2 I1 I2.
  assert (U : forall m v, variable (init m) "os" (EMap v) -> v = os_module m).
  { intros m v V. specialize (V demo_host [] 0%Z). assert (W := os_there m demo_host [] 0%Z).
    destruct (evaluates_det _ _ _ _ _ _ _ _ V W) as [E _]. congruence. }
  apply U in V1, V2. subst.
  assert (N : forall m, In (lit "name", n) (os_module m) -> n = EString (get_os_name (m_os m))).
  { clear. intros m I. unfold os_module in I. revert I. generalize (get_os_name (m_os m)), (get_os_family (m_os m)). intros a f I.
    vm_compute in I. repeat destruct I as [I | I]; try contradiction; try discriminate I; injection I as <-; reflexivity. }
  apply N in I1, I2. subst n. injection I2 as E. clear - E.
  destruct (m_os m1), (m_os m2); try reflexivity; discriminate.
Qed.

Example C86_example :
  value_of "std@fs@ls" = value_of "fs@ls" /\ value_of "os@family" = ROk (EString (lit "linux"))
  /\ value_of "[HOME, CWD, DOCS, DESK]"
     = ROk (EList [EString (lit "/home/me"); EString (lit "/tmp"); EString (lit "/home/me/Documents"); ESymbol (lit "DESK")]).
Proof. vm_compute. auto. Qed.

Print Assumptions C86_modules.
Print Assumptions C86_directories.
Print Assumptions C86_working_directory.
Print Assumptions C86_family_partial.
Print Assumptions C86_family_refuted.
Print Assumptions C86_names.
