(** C122 and C123: the small functions of the start-up script. *)

From Coq Require Import String Lia ZArith.
From Verif Require Import Base Syntax Host Ops Parser Monad ErrorFmt Text Builtins Eval Init EvalSpec
  OpsSpec EvalFacts LibSpec LibFacts OpsFacts RunFacts MapFacts CoreFacts CmdFacts P_Eval P_Sys P_Start
  Prelude PreludeFacts HelperSpec Demo.
From Verif Require CalendarRun.

(** The statements are those of the script. *)
Theorem C122_statements : part_of helper_definitions default_program /\ statements default_prelude = default_program.
Proof.
  split; [exists [], (skipn 13 default_program); vm_compute; reflexivity | vm_compute; reflexivity].
Qed.
Print Assumptions C122_statements.

Lemma unhelped_new m : unhelped (init m).
Proof.
  split; [|split; [|split]].
  - intros x v I. destruct (init_parts m) as (w & a & b & math & ->). cbv zeta.
    rewrite (get_defines (fun kv => lit (fst kv)) snd). unfold define_all.
    rewrite (get_defines fst snd), env_get_define, (get_defines fst snd).
    unfold helper_uses in I. revert I.
    generalize (define_dirs m), log_module, dict_module, (shell_module m), err_module, (os_module m),
      time_module, rand_module, fn_module, console_module, fmt_module, parse_module, string_module,
      list_module, sys_module.
    intros. cbn [In] in I.
    repeat (destruct I as [I | I]; [injection I as <- <-; vm_compute; reflexivity |]).
    contradiction.
  - exists (fs_module m). split.
    + unfold init. set (math := math_module _). set (ops := operators _). clearbody ops math.
      rewrite (get_defines (fun kv => lit (fst kv)) snd). unfold define_all at 1.
      rewrite (get_defines fst snd).
      generalize (define_all ops (env_define (lit "fs") (EMap (fs_module m)) (define_dirs m))), log_module, dict_module, (shell_module m), err_module, (os_module m),
        time_module, rand_module, fn_module, console_module, fmt_module, parse_module, string_module,
        list_module, sys_module, (fs_module m), widget_module.
      intros. vm_compute. reflexivity.
    + unfold fs_module. generalize (tree (known "home" (m_home m) ++ known "desk" (m_desk m)
                         ++ known "docs" (m_docs m) ++ known "down" (m_down m))).
      intros. vm_compute. reflexivity.
  - rewrite init_other; try (vm_compute; try reflexivity; intuition discriminate).
    destruct m as [h c k o n ? ? ? ? ?]. destruct h, c, k, o, n; vm_compute; reflexivity.
  - rewrite init_other; try (vm_compute; try reflexivity; intuition discriminate).
    destruct m as [h c k o n ? ? ? ? ?]. destruct h, c, k, o, n; vm_compute; reflexivity.
Qed.

Theorem C122_new m : unhelped (init m).
Proof. apply unhelped_new. Qed.
Print Assumptions C122_new.

Lemma unhelped_kept x v e : unhelped e ->
  existsb (str_eqb x) (map lit ["@"; "+"; "str"; "exit"; "fs"; "-X"; "-r"]%string) = false ->
  unhelped (env_define x v e).
Proof.
  intros (U & (m & F & R) & X1 & X2) N.
  assert (D : forall y, In y (map lit ["@"; "+"; "str"; "exit"; "fs"; "-X"; "-r"]%string) -> str_eqb y x = false).
  { intros y I. apply str_eqb_neq. intros ->. rewrite <- not_true_iff_false in N. apply N.
    apply existsb_exists. exists x. split; [exact I | apply str_eqb_refl]. }
  assert (G : forall y, In y (map lit ["@"; "+"; "str"; "exit"; "fs"; "-X"; "-r"]%string) ->
              env_get y (env_define x v e) = env_get y e).
  { intros y I. now rewrite env_get_define, D. }
  split; [|split; [|split]].
  - intros y u I. rewrite G; [now apply U|]. unfold helper_uses in I. cbn [In] in I.
    repeat destruct I as [I | I]; try contradiction; injection I as <- <-; cbn; tauto.
  - exists m. split; [|exact R]. rewrite G; [exact F|]. cbn; tauto.
  - rewrite G; [exact X1|]. cbn; tauto.
  - rewrite G; [exact X2|]. cbn; tauto.
Qed.

Definition helper_value (k : nat) : expr :=
  match nth k helper_definitions ENone with EAssign _ v => v | _ => ENone end.
Definition get_body : expr := Eval vm_compute in body_of (helper_value 3).
Definition concat_body : expr := Eval vm_compute in body_of (helper_value 5).
Definition ssh_body : expr := Eval vm_compute in body_of (helper_value 6).
Definition scp_body : expr := Eval vm_compute in body_of (helper_value 7).
Definition function (p : string) (b : expr) (e : env) : expr :=
  ELambda (lit p) b (capture e (lit p) b (Env [] None)).

(** The helpers as the script defines them. *)
Record helpers (e : env) : Prop := Helpers {
  hp_glob : env_get (lit "$") e = Some (helper_value 0);
  hp_include : env_get (lit "include") e = Some (helper_value 1);
  hp_use : env_get (lit "use") e = Some (helper_value 2);
  hp_get : exists e1, unhelped e1 /\ env_get (lit "get") e = Some (function "key" get_body e1);
  hp_open : env_get (lit "open") e = Some (bi KRead "read");
  hp_concat : exists e1, unhelped e1 /\ env_get (lit "concat") e = Some (function "x" concat_body e1);
  hp_ssh : exists e1, unhelped e1 /\ env_get (lit "ssh") e = Some (function "addr" ssh_body e1);
  hp_scp : exists e1, unhelped e1 /\ env_get (lit "scp") e = Some (function "addr" scp_body e1);
  hp_old : env_get (lit "OLD-EXIT") e = Some (bi OExit "exit");
  hp_quit : Forall (fun x => env_get x e = Some (helper_value 10)) (map lit ["quit"; "q"; "exit"]%string)
}.

Lemma unhelped_all e : unhelped e ->
  fold_right (fun p P => env_get (fst p) e = Some (snd p) /\ P) True helper_uses.
Proof.
  intros (U & _). revert U. induction helper_uses as [| [x v] l IH]; intros U; cbn; [exact I |].
  split; [apply U; now left | apply IH; intros; apply U; now right].
Qed.

Ltac known S :=
  let A := fresh in
  pose proof (unhelped_all _ S) as A;
  lazy beta iota zeta delta [fold_right helper_uses fst snd] in A;
  repeat match type of A with _ /\ _ => let B := fresh "KNOWN" in destruct A as [B A] end; clear A.

Lemma define_next H e0 tr lg x a y l v (P : env -> Prop) :
  evaluates H 2 a (St e0 tr lg) (ROk v) (St e0 tr lg) ->
  (forall e1, (forall z, env_get z e1 = if str_eqb z x then Some v else env_get z e0) ->
              (unhelped e0 -> existsb (str_eqb x) (map lit ["@"; "+"; "str"; "exit"; "fs"; "-X"; "-r"]%string) = false ->
               unhelped e1) ->
     exists e, evaluates H 0 (EDo (y :: l)) (St e1 tr lg) (ROk ENone) (St e tr lg) /\ P e) ->
  exists e, evaluates H 0 (EDo (EAssign x a :: y :: l)) (St e0 tr lg) (ROk ENone) (St e tr lg) /\ P e.
Proof.
  intros A B. destruct (B (env_define x v e0)) as (e & E & Q).
  - intros z. apply env_get_define.
  - intros U N. now apply unhelped_kept.
  - exists e. split; [|exact Q]. eapply run_do_more; [discriminate | | exact E].
    apply (run_assign H 1 x a (St e0 tr lg) v (St e0 tr lg)); [discriminate | exact A].
Qed.

(** Looks up a name in a scope made by some definitions. *)
Ltac found :=
  lazymatch goal with
  | G : forall z, env_get z ?e = _ |- env_get ?x ?e = _ =>
      rewrite G;
      lazymatch goal with |- (if ?b then _ else _) = _ =>
        let c := eval vm_compute in b in change b with c
      end; cbv iota; first [reflexivity | found]
  | |- _ => eassumption
  end.

Ltac next :=
  eapply define_next; [first [eapply run_lambda; discriminate | apply run_value; [discriminate | exact I]] |];
  let e := fresh "e" in let G := fresh "G" in let U := fresh "U" in
  intros e G U; specialize (U ltac:(assumption) eq_refl).

Lemma helpers_run H s : unhelped (s_env s) ->
  exists e, evaluates H 0 (EDo helper_definitions) s (ROk ENone) (with_env e s)
    /\ helpers e /\ forall x, ~ In x helper_names -> env_get x e = env_get x (s_env s).
Proof.
  intros U. pose proof U as (_ & (m & F & R) & X1 & X2). known U. destruct s as [e0 tr lg]. cbn [s_env with_env s_trace s_log] in *.
  assert (RD : expr_index (EMap m) (ESymbol (lit "read")) = bi KRead "read") by (cbn [expr_index]; now rewrite R).
  unfold helper_definitions. do 4 next.
  eapply define_next; [|].
  { eapply run_builtin_call; [discriminate | eapply run_symbol; [discriminate | cbn [s_env]; found] |].
    cbn [b_id]. eapply run_at_name; [exact I | eapply run_symbol; [discriminate | cbn [s_env]; found] | exact RD]. }
  intros e5 G5 U5; specialize (U5 ltac:(assumption) eq_refl).
  do 4 next.
  eapply define_next; [eapply run_symbol; [discriminate | cbn [s_env]; found] |].
  intros e10 G10 _.
  eapply define_next; [apply run_value; [discriminate | exact I] |].
  intros e11 G11 _.
  eapply define_next; [eapply run_symbol; [discriminate | cbn [s_env]; found] |].
  intros e12 G12 _.
  exists (env_define (lit "exit") (helper_value 10) e12). split; [|split].
  - eapply run_do_one; [discriminate|]. apply (run_assign H 1 _ _ (St e12 tr lg) _ (St e12 tr lg)); [discriminate|].
    eapply run_symbol; [discriminate | cbn [s_env]; found].
  - cbn [s_env with_env].
    match goal with |- helpers (env_define ?x ?v ?e) =>
      assert (G13 : forall z, env_get z (env_define x v e) = if str_eqb z x then Some v else env_get z e)
        by (intros z; apply env_get_define);
      revert G13; generalize (env_define x v e); intros e13 G13 end. split; try found.
    all: try (eexists; split; [|found]; assumption).
    repeat constructor; found.
  - intros x N. cbn [s_env with_env with_var].
    assert (Q : forall y, In y helper_names -> str_eqb x y = false).
    { intros y I. apply str_eqb_neq. intros ->. now apply N. }
    rewrite env_get_define, Q by (vm_compute; tauto).
    repeat match goal with G : forall z, env_get z ?e = _ |- env_get _ ?e = _ => rewrite G, Q by (vm_compute; tauto); clear G end.
    reflexivity.
Qed.

Lemma helpers_same e e' : helpers e -> (forall x, In x helper_names -> env_get x e' = env_get x e) -> helpers e'.
Proof.
  intros [] K. split; try (rewrite K by (cbn; tauto); assumption).
  inversion hp_quit0 as [|? ? Q1 Q2]; subst. inversion Q2 as [|? ? Q3 Q4]; subst. inversion Q4 as [|? ? Q5 Q6]; subst.
  repeat constructor; (rewrite K by (cbn; tauto)); assumption.
Qed.

Lemma helped_helpers H e : helped H e -> helpers e.
Proof.
  intros (s & v & s1 & U & E & K). destruct (helpers_run H s U) as (e1 & E1 & P & _).
  destruct (evaluates_det _ _ _ _ _ _ _ _ E E1) as [_ ->]. cbn [s_env with_env] in K.
  now apply helpers_same with e1.
Qed.

(** ** C122 *)

(** The definitions can be made in every shell that still has its functions,
    and do nothing else. *)
Theorem C122_definitions H s : unhelped (s_env s) ->
  exists s1, evaluates H 0 (EDo helper_definitions) s (ROk ENone) s1 /\ helped H (s_env s1)
    /\ s_trace s1 = s_trace s /\ s_log s1 = s_log s
    /\ forall x, ~ In x helper_names -> env_get x (s_env s1) = env_get x (s_env s).
Proof.
  intros U. destruct (helpers_run H s U) as (e & E & P & N). exists (with_env e s).
  split; [exact E|]. split; [|split; [reflexivity | split; [reflexivity | exact N]]].
  exists s, ENone, (with_env e s). split; [exact U|]. split; [exact E|]. reflexivity.
Qed.
Print Assumptions C122_definitions.

(** [exit], [quit] and [q] end the shell with status 0 whatever they are given. *)
Theorem C122_exit H d x a s v s1 :
  In x (map lit ["exit"; "quit"; "q"]%string) -> helped H (s_env s) -> (d + 5 <= MAX_DEPTH)%N ->
  evaluates H (d + 1) a s (ROk v) s1 -> helped H (s_env s1) ->
  exists s2, evaluates H d (EApply (ESymbol x) [a]) s (RExit 0) s2.
Proof.
  intros I P D A P1. apply helped_helpers in P. apply helped_helpers in P1.
  assert (Q : env_get x (s_env s) = Some (helper_value 10)).
  { destruct P. cbn in hp_quit0. inversion hp_quit0 as [|? ? Q1 Q2]; subst. inversion Q2 as [|? ? Q3 Q4]; subst.
    inversion Q4 as [|? ? Q5 Q6]; subst. cbn [In map] in I. destruct I as [<- | [<- | [<- | []]]]; assumption. }
  eexists. eapply run_macro; [lia | eapply run_symbol; [lia | exact Q] | exact A |].
  eapply run_builtin_call; [lia | eapply run_symbol; [lia|] |].
  - cbn [s_env with_var]. apply found_below; [reflexivity | apply (hp_old _ P1)].
  - cbn [b_id]. apply (C73_exit H _ [] _ 0%Z _ 0%Z); [unfold gives; run | lia | now exists 0%Z].
Qed.
Print Assumptions C122_exit.

(** So the status that is given is not the one that is reported. *)
Theorem C122_status_refuted H s : helped H (s_env s) ->
  exists n s2, n <> 0%Z /\ evaluates H 0 (EApply (ESymbol (lit "exit")) [EInteger n]) s (RExit 0) s2.
Proof.
  intros P. destruct (C122_exit H 0 (lit "exit") (EInteger 3) s (EInteger 3) s) as [s2 E];
    [cbn; tauto | exact P | discriminate | apply run_value; [discriminate | exact I] | exact P |].
  exists 3%Z, s2. split; [discriminate | exact E].
Qed.
Print Assumptions C122_status_refuted.

(** [concat] puts the first text after the second, as a pipeline needs it. *)
Theorem C122_concat H d a b s x s1 y s2 :
  helped H (s_env s) -> (d + 20 <= MAX_DEPTH)%N ->
  evaluates H (d + 1) a s (ROk x) s1 -> evaluates H (d + 2) b s1 (ROk y) s2 ->
  evaluates H d (EApply (ESymbol (lit "concat")) [a; b]) s (ROk (EString (display H y ++ display H x))) s2.
Proof.
  intros P D A B. destruct (hp_concat _ (helped_helpers _ _ P)) as (e & U & C). known U.
  eapply run_exact; [eapply run_call_more; [lia | eapply run_symbol; [lia | exact C] | exact A
                       | unfold concat_body at 1; run |] | |].
  - run_state. eapply run_call; [lia | eapply run_lambda; lia | | ].
    + replace (with_env (s_env s1) _) with s1 by (now destruct s1). rewrite <- N.add_assoc. exact B.
    + run_state. run.
  - reflexivity.
  - now destruct s2.
Qed.
Print Assumptions C122_concat.

(** [get] looks up a key like the operator. *)
Theorem C122_get H d a b s k s1 t s2 :
  helped H (s_env s) -> (d + 20 <= MAX_DEPTH)%N ->
  evaluates H (d + 1) a s (ROk k) s1 -> evaluates H (d + 2) b s1 (ROk t) s2 ->
  exists r, evaluates H d (EApply (ESymbol (lit "get")) [a; b]) s (ROk r) s2
            /\ calls H BIndex [EQuote t; EQuote k] s2 (ROk r) s2.
Proof.
  intros P D A B. destruct (hp_get _ (helped_helpers _ _ P)) as (e & U & C). known U.
  exists (expr_index t k). split.
  - eapply run_end; [eapply run_call_more; [lia | eapply run_symbol; [lia | exact C] | exact A
                       | unfold get_body at 1; run |] |].
    + run_state. eapply run_call; [lia | eapply run_lambda; lia | | ].
      * replace (with_env (s_env s1) _) with s1 by (now destruct s1). rewrite <- N.add_assoc. exact B.
      * run_state. eapply run_builtin_call; [lia | eapply run_symbol; [lia | run_lookup] |].
        cbn [b_id]. eapply run_at; [exact I | eapply run_symbol; [run_depth | run_lookup]
                                   | eapply run_group; [run_depth | eapply run_symbol; [run_depth | run_lookup]]
                                   | reflexivity].
    + now destruct s2.
  - eapply run_at; [exact I | apply run_quote; run_depth | apply run_quote; run_depth | reflexivity].
Qed.
Print Assumptions C122_get.

(** ** C123 *)

Lemma run_do_single H d x s r s' :
  (d <= MAX_DEPTH)%N -> evaluates H (d + 1) x s r s' -> evaluates H d (EDo [x]) s r s'.
Proof.
  intros D E. apply rule_do; [exact D|]. destruct r.
  1: { left. exists [a]. split; [econstructor; [exact E | constructor] | reflexivity]. }
  4: { destruct E as [E _]. now elim E. }
  all: right; eexists; split; [eapply io_first; [exact E | constructor] | constructor].
Qed.

Lemma run_program H d f args s s1 s2 name vs :
  (d <= MAX_DEPTH)%N -> evaluates H (d + 1) f s (ROk (ESymbol name)) s1 ->
  evaluates_all H (d + 1) args s1 (ROk vs) s2 ->
  let rq := RqStatus (Command name (flat_map (leaf_words H) (flatten vs)) (env_get_cwd (s_env s2))
                              (command_envs H (s_env s1))) in
  evaluates H d (EApply f args) s (command_answer name f args (h_answer H (s_trace s2) rq)) (asked H rq s2).
Proof.
  intros L EF EA rq. apply rule_apply; [exact L|]. left. exists (ESymbol name), s1. split; [exact EF|].
  apply apply_command. left. exists vs, s2. split; [exact EA|]. split; reflexivity.
Qed.

Lemma ran H rq s prog f args ws cwd vars E :
  rq = RqStatus (Command prog ws cwd vars) ->
  runs H prog ws cwd s (command_answer prog f args (h_answer H (s_trace s) rq)) (with_env (s_env s) (asked H rq (with_env E s))).
Proof.
  intros ->. exists vars, f, args. cbv zeta. split; [now apply command_result_det|]. now destruct s.
Qed.

Lemma env_get_cwd_define x v e : str_eqb CWD x = false -> env_get_cwd (env_define x v e) = env_get_cwd e.
Proof. intros N. unfold env_get_cwd. now rewrite env_get_define, N. Qed.

Lemma env_get_cwd_set p e : env_get_cwd (env_set_cwd p e) = p.
Proof. unfold env_get_cwd, env_set_cwd. rewrite env_get_define, str_eqb_refl. reflexivity. Qed.

(** [ssh] runs exactly one program, with the user and the address as one
    argument, whatever is in them. *)
Theorem C123_ssh H d a b s x s1 y s2 :
  helped H (s_env s) -> (d + 20 <= MAX_DEPTH)%N ->
  evaluates H (d + 1) a s (ROk x) s1 -> evaluates H (d + 2) b s1 (ROk y) s2 ->
  env_get (lit "-X") (s_env s1) = None ->
  exists r s', evaluates H d (EApply (ESymbol (lit "ssh")) [a; b]) s r s'
    /\ runs H (lit "ssh") [lit "-X"; display H y ++ lit "@" ++ display H x] (env_get_cwd (s_env s1)) s2 r s'.
Proof.
  intros P D A B NX. destruct (hp_ssh _ (helped_helpers _ _ P)) as (e & U & C).
  pose proof U as (_ & _ & X1 & _). known U. do 2 eexists. split.
  - eapply run_call_more; [lia | eapply run_symbol; [lia | exact C] | exact A
                       | unfold ssh_body at 1; run |].
    run_state. eapply run_call; [lia | eapply run_lambda; lia | | ].
    + replace (with_env (s_env s1) _) with s1 by (now destruct s1). rewrite <- N.add_assoc. exact B.
    + run_state. eapply run_do_single; [lia|].
      eapply run_program; [lia | apply run_quote; lia | run].
  - cbv zeta. cbn [expr_add]. run_state. eapply ran. f_equal. f_equal.
    + cbn [flat_map flatten flatten1 leaf_words List.app]. rewrite <- app_assoc. reflexivity.
    + rewrite !env_get_cwd_define by reflexivity. apply env_get_cwd_set.
Qed.
Print Assumptions C123_ssh.

Lemma run_next H d p b c a a2 rest s s0 v s1 g r s' :
  (d + 1 <= MAX_DEPTH)%N -> s0 = s ->
  evaluates H (d + 1) a s (ROk v) s1 ->
  evaluates H (d + 1) b (with_env (call_env p v (capture (s_env s0) p b c) (s_env s)) s1) (ROk g)
    (with_env (call_env p v (capture (s_env s0) p b c) (s_env s)) s1) ->
  evaluates H (d + 1) (EApply g (a2 :: rest)) s1 r s' ->
  evaluates H d (EApply (ELambda p b c) (a :: a2 :: rest)) s0 r s'.
Proof.
  intros D -> A B R. eapply run_call_more; [lia | apply run_lambda; lia | exact A | exact B |].
  now destruct s1.
Qed.

(** [scp] likewise; the source can be a list of files. *)
Theorem C123_scp H d a b c f s x s1 y s2 z s3 w s4 ls ws :
  helped H (s_env s) -> (d + 20 <= MAX_DEPTH)%N ->
  evaluates H (d + 1) a s (ROk x) s1 -> evaluates H (d + 2) b s1 (ROk y) s2 ->
  evaluates H (d + 3) c s2 (ROk z) s3 -> evaluates H (d + 4) f s3 (ROk w) s4 ->
  Forall (fun t => env_get (lit "-r") (s_env t) = None) [s1; s2; s3] ->
  all_leaves [z] ls -> words H ls ws ->
  exists r s', evaluates H d (EApply (ESymbol (lit "scp")) [a; b; c; f]) s r s'
    /\ runs H (lit "scp") (lit "-r" :: ws ++ [display H y ++ lit "@" ++ display H x ++ lit ":" ++ display H w])
         (env_get_cwd (s_env s3)) s4 r s'.
Proof.
  intros P D A B C F NX L W. destruct (hp_scp _ (helped_helpers _ _ P)) as (e & U & G).
  pose proof U as (_ & _ & _ & X2). known U.
  inversion NX as [|? ? N1 NX2]; subst. inversion NX2 as [|? ? N2 NX3]; subst. inversion NX3 as [|? ? N3 _]; subst. 
  do 2 eexists. split.
  - eapply run_call_more; [lia | eapply run_symbol; [lia | exact G] | exact A
                       | unfold scp_body at 1; run |].
    run_state. replace (with_env (s_env s1) _) with s1 by (now destruct s1).
    eapply run_next; [lia | reflexivity | rewrite <- N.add_assoc; exact B | run |].
    eapply run_next; [lia | reflexivity | rewrite <- !N.add_assoc; exact C | run |].
    eapply run_call; [lia | eapply run_lambda; lia | rewrite <- !N.add_assoc; exact F |].
    run_state. eapply run_do_single; [lia|].
    eapply run_program; [lia | apply run_quote; lia | run].
  - cbv zeta. cbn [expr_add]. run_state. eapply ran. f_equal. f_equal.
    + apply all_leaves_det in L. apply words_det in W. subst. 
      cbn [flatten flat_map flatten1 List.app]. rewrite !app_nil_r.
      cbn [flat_map leaf_words List.app]. rewrite flat_map_app. cbn [flat_map leaf_words List.app].
      now rewrite <- !app_assoc.
    + rewrite !env_get_cwd_define by reflexivity. apply env_get_cwd_set.
Qed.
Print Assumptions C123_scp.

(** A variable of the caller with the name of the option is used in its place. *)
Definition small_shell : st :=
  match eval demo_host 100 0 (EDo helper_definitions) demo with (_, s) => s end.

Lemma small_run : evaluates demo_host 0 (EDo helper_definitions) demo (ROk ENone) small_shell.
Proof. split; [discriminate |]. exists 100%nat. vm_compute. reflexivity. Qed.

Lemma small_helped : helped demo_host (s_env small_shell).
Proof.
  exists demo, ENone, small_shell. split; [apply unhelped_new |]. split; [apply small_run | reflexivity].
Qed.

Theorem C123_option_refuted :
  exists H s s' ws cwd vars,
    helped H (s_env s)
    /\ evaluates H 0 (EApply (ESymbol (lit "ssh")) [EString (lit "host"); EString (lit "me")]) s (ROk ENone) s'
    /\ map fst (s_trace s') = [RqStatus (Command (lit "ssh") ws cwd vars)]
    /\ ws = [lit "5"; lit "me@host"].
Proof.
  exists demo_host, (with_var (lit "-X") (EInteger 5) small_shell). do 4 eexists. split; [|split; [|split; [|reflexivity]]].
  - destruct small_helped as (s & v & s1 & U & E & K). exists s, v, s1. split; [exact U|]. split; [exact E|].
    intros x I. rewrite <- K by exact I. cbn [s_env with_var with_env]. rewrite env_get_define.
    destruct (str_eqb x (lit "-X")) eqn:Q; [|reflexivity]. apply str_eqb_eq in Q. subst x. exfalso. revert I.
    vm_compute. intuition discriminate.
  - split; [discriminate |]. exists 100%nat. vm_compute. reflexivity.
  - vm_compute. reflexivity.
Qed.
Print Assumptions C123_option_refuted.

(** ** Cases *)

Example C122_case :
  helped demo_host (s_env small_shell)
  /\ fst (eval demo_host 100 0 (script "exit 3") small_shell) = RExit 0
  /\ fst (eval demo_host 100 0 (script "concat 1 ""a""") small_shell) = ROk (EString (lit "a1"))
  /\ fst (eval demo_host 100 0 (script "get ""x"" {x=7}") small_shell) = ROk (EInteger 7).
Proof. split; [exact small_helped |]. vm_compute. auto. Qed.

Example C123_case :
  match snd (eval demo_host 100 0 (script "scp ""host"" ""me"" [""a"", ""b c""] ""/d""") small_shell) with
  | St _ ((RqStatus c, _) :: _) _ =>
      c_prog c = lit "scp" /\ c_args c = [lit "-r"; lit "a"; lit "b c"; lit "me@host:/d"] /\ c_cwd c = lit "/tmp"
  | _ => False
  end
  /\ env_get (lit "-X") (s_env small_shell) = None /\ env_get (lit "-r") (s_env small_shell) = None.
Proof. vm_compute. auto. Qed.
