(** C124 and C125: the functions of the start-up script that read directories
    and files. *)

From Coq Require Import String Lia ZArith.
From Verif Require Import Base Syntax Host Ops Parser Monad ErrorFmt Text Builtins Eval Init EvalSpec
  OpsSpec EvalFacts LibSpec LibFacts OpsFacts RunFacts MapFacts CoreFacts CurryFacts SysSpec CmdFacts P_Eval P_Sys P_Start
  StrSpec P_Str P_Text P_Pipe P_Staged P_Data Prelude PreludeFacts HelperSpec P_Helpers GlobSpec Demo.

(** ** Texts that contain another one once *)

Lemma once_split p t : p <> [] -> length (str_split p t) = 2%nat <-> once p t.
Proof.
  intros N. destruct (cut_exists p N t) as [ps C]. rewrite (cut_split _ _ _ N C). split.
  - intros L. inversion C as [? I|? a r ps' F C']; subst; [discriminate|]. exists a, r. split; [exact F|].
    inversion C' as [? I|? ? ? ps2 F2 C2]; subst; [exact I|].
    inversion C2; subst; discriminate.
  - intros (a & r & F & I). assert (C' : cut p t [a; r]) by (eapply cut_first; [exact F | now apply cut_none]).
    rewrite <- (cut_split _ _ _ N C). now rewrite (cut_split _ _ _ N C').
Qed.

Lemma split_short p t : p <> [] -> (length (str_split p t) <= S (length t))%nat.
Proof.
  intros N. destruct (cut_exists p N t) as [ps C]. rewrite (cut_split _ _ _ N C).
  induction C as [|t a r ps F C IH]; cbn [length]; [lia|]. destruct F as [-> _]. rewrite !app_length in *.
  destruct p; [easy|]. cbn [length] in *. lia.
Qed.

(** ** A new shell *)

Lemma new_names m x v :
  In (x, v) [("|", BPipe); ("@", BIndex); ("==", BEq); ("+", BAdd); ("len", BLen); ("exec", BExec); ("eval", BEval)]%string ->
  stands (init m) x v.
Proof.
  intros I. unfold stands. destruct (init_parts m) as (w & a & b & math & ->). cbv zeta.
  rewrite (get_defines (fun kv => lit (fst kv)) snd). unfold define_all.
  rewrite (get_defines fst snd), env_get_define, (get_defines fst snd).
  revert I.
  generalize (define_dirs m), log_module, dict_module, (shell_module m), err_module, (os_module m),
    time_module, rand_module, fn_module, console_module, fmt_module, parse_module, string_module,
    list_module, sys_module.
  intros. cbn [In] in I.
  repeat (destruct I as [I | I]; [injection I as <- <-; eexists; vm_compute; reflexivity |]).
  contradiction.
Qed.

Lemma new_modules m x v :
  In (x, v) [("fs", fs_module m); ("fn", fn_module); ("string", string_module); ("parse", parse_module)]%string ->
  env_get (lit x) (init m) = Some (EMap v).
Proof.
  unfold init. set (math := math_module _). set (ops := operators _). clearbody ops math.
  rewrite (get_defines (fun kv => lit (fst kv)) snd). unfold define_all at 1.
  rewrite (get_defines fst snd).
  generalize (define_all ops (env_define (lit "fs") (EMap (fs_module m)) (define_dirs m))), log_module, dict_module, (shell_module m), err_module, (os_module m),
    time_module, rand_module, fn_module, console_module, fmt_module, parse_module, string_module,
    list_module, sys_module, (fs_module m), widget_module.
  intros. match goal with X : In _ _ |- _ => rename X into I; cbn [In] in I end.
  repeat (destruct I as [I | I]; [injection I as <- <-; vm_compute; reflexivity |]).
  contradiction.
Qed.

Ltac which := first [left; reflexivity | right; which].

Theorem C124_new m : searching (init m) /\ reading (init m).
Proof.
  assert (FS : forall k b, In (k, b) [("ls", KLs); ("read", KRead)]%string -> member (init m) "fs" k b).
  { intros k b I. exists (fs_module m).
    assert (G : exists nm, bm_get (lit k) (fs_module m) = Some (EBuiltin (Bi b nm)));
      [|destruct G as [nm G]; exists nm; split; [apply new_modules; which | exact G]].
    revert I. unfold fs_module. generalize (tree (known "home" (m_home m) ++ known "desk" (m_desk m)
                         ++ known "docs" (m_docs m) ++ known "down" (m_down m))).
    intros ? I. cbn [In] in I.
    repeat (destruct I as [I | I]; [injection I as <- <-; eexists; vm_compute; reflexivity |]). contradiction. }
  split; repeat split; try (apply new_names; which); try (apply FS; which).
  - exists fn_module. eexists. split; [apply new_modules; which | vm_compute; reflexivity].
  - exists string_module. eexists. split; [apply new_modules; which | vm_compute; reflexivity].
  - rewrite init_other; try (vm_compute; try reflexivity; intuition discriminate).
    destruct m as [h c k o n ? ? ? ? ?]. destruct h, c, k, o, n; vm_compute; reflexivity.
  - exists parse_module. eexists. split; [apply new_modules; which | vm_compute; reflexivity].
Qed.
Print Assumptions C124_new.

(** ** C124 *)

Lemma run_len_of_list H a s l s1 :
  evaluates H 0 a s (ROk (EList l)) s1 ->
  calls H BLen [a] s (ROk (EInteger (as_int (Z.of_nat (length l))))) s1.
Proof.
  intros E. call. unfold run_len. eapply sure_ev_arg; [reflexivity | exact E |]. apply sure_ret.
Qed.

Ltac open_stands e :=
  repeat match goal with
  | X : stands e _ _ |- _ => let nm := fresh "nm" in destruct X as [nm X]
  | X : member e _ _ _ |- _ =>
      let m := fresh "m" in let nm := fresh "nm" in let F := fresh in let G := fresh in
      destruct X as (m & nm & F & G);
      lazymatch type of G with bm_get (lit ?k) m = Some ?v =>
        let K := fresh "IX" in
        assert (K : expr_index (EMap m) (ESymbol (lit k)) = v) by (cbn [expr_index]; now rewrite G) end
  end.

Definition glob_body : expr := Eval vm_compute in match helper_value 0 with EMacro _ b => b | _ => ENone end.
(** The function that tests a file. *)
Definition file_body : expr := Eval vm_compute in
  match glob_body with
  | EGroup (EGroup (EApply _ [_; EGroup (EApply _ [EGroup (ELambda _ b _)])])) => b
  | _ => ENone
  end.

Lemma file_test H s e p t : p <> [] -> searching e -> (Z.of_nat (length t) < 2 ^ 62)%Z ->
  env_get (lit "GLOB") e = Some (EString p) ->
  acting H (ELambda (lit "file") file_body (capture e (lit "file") file_body (Env [] None))) [EString t] s
    (ROk (EBoolean (Nat.eqb (length (str_split p t)) 2))) s.
Proof.
  intros NP (S1 & S2 & S3 & S4 & S5 & S6 & S7 & S8 & S9) SZ GL. open_stands e.
  split; [reflexivity|]. intros E d g args C D G A.
  inversion A as [|a ? l ? A1 B]; subst. inversion B; subst.
  eapply run_exact; [eapply run_call; [run_depth | apply G; lia | apply A1; lia |] | |].
  - unfold file_body at 1. eapply run_group; [run_depth|].
    eapply run_builtin_call; [run_depth | run |]. cbn [b_id].
    eapply run_compare2; [reflexivity | | run | apply eq_ints].
    eapply run_group; [run_depth|]. eapply run_builtin_call; [run_depth | run |]. cbn [b_id].
    eapply run_len_of_list. eapply run_group; [run_depth|].
    eapply run_builtin_call; [run_depth | run |]. cbn [b_id].
    apply split_run; [run_lookup | intros d' L'; run | intros d' L'; run].
  - f_equal. rewrite map_length. pose proof (split_short p t NP).
    rewrite ListFacts.as_int_small by (change (2 ^ 62)%Z with 4611686018427387904%Z in SZ;
      change (2 ^ 63)%Z with 9223372036854775808%Z; lia).
    apply Bool.eq_true_iff_eq. rewrite Z.eqb_eq, Nat.eqb_eq. lia.
  - reflexivity.
Qed.

Lemma texts_nesting names : (nesting (EList (map EString names)) <= 1)%N.
Proof. induction names as [|n l IH]; cbn in *; lia. Qed.
Lemma texts_value names : value (EList (map EString names)).
Proof.
  split.
  - cbn [data]. induction names as [|n l IH]; cbn; auto.
  - transitivity 1%N; [apply texts_nesting | discriminate].
Qed.

Lemma run_listing H a s v s1 dir names :
  evaluates H 0 a s (ROk v) s1 -> joined (env_get_cwd (s_env s)) (display H v) dir ->
  h_answer H (s_trace s1) (RqList dir (display H v)) = RsTexts names ->
  calls H KLs [a] s (ROk (EList (map EString names))) (told H (RqList dir (display H v)) s1).
Proof.
  intros E J A. apply joined_path_join in J. subst dir.
  call. unfold run_ls. sure_step. apply sure_get_env. sure_step. cbv zeta.
  eapply sure_bind_const; [reflexivity |]. cbv beta. apply sure_const. unfold told. rewrite A. reflexivity.
Qed.

Definition search_call : expr := Eval vm_compute in match glob_body with EGroup (EGroup x) => x | _ => ENone end.
Definition ls_stage : expr := Eval vm_compute in
  match search_call with EApply _ [x; _] => x | _ => ENone end.
Definition filter_stage : expr := Eval vm_compute in
  match search_call with EApply _ [_; y] => y | _ => ENone end.

(** [$] gives exactly the listed names that contain the text once.  The text
    stays behind as the variable [GLOB]. *)
Theorem C124_glob H d a s p s1 dir names :
  helped H (s_env s) -> (d + 5 <= MAX_DEPTH)%N ->
  evaluates H (d + 1) a s (ROk (EString p)) s1 -> p <> [] -> searching (s_env s1) ->
  joined (env_get_cwd (s_env s1)) (lit ".") dir ->
  h_answer H (s_trace s1) (RqList dir (lit ".")) = RsTexts names ->
  Forall (fun t => (Z.of_nat (length t) < 2 ^ 62)%Z) names ->
  exists ms, those (once p) names ms
    /\ evaluates H d (EApply (ESymbol (lit "$")) [a]) s (ROk (EList (map EString ms)))
         (told H (RqList dir (lit ".")) (with_var (lit "GLOB") (EString p) s1)).
Proof.
  intros P D A NP SE J L SZ.
  set (sg := with_var (lit "GLOB") (EString p) s1).
  assert (SG : searching (s_env sg)).
  { destruct SE as (S1 & S2 & S3 & S4 & S5 & S6 & S7 & S8 & S9). unfold searching, stands, member, sg in *.
    cbn [s_env with_var with_env]. setoid_rewrite env_get_define. cbn. repeat split; assumption. }
  assert (GL : env_get (lit "GLOB") (s_env sg) = Some (EString p)) by apply found_here.
  assert (CW : env_get_cwd (s_env sg) = env_get_cwd (s_env s1)) by (now apply env_get_cwd_define).
  set (s2 := told H (RqList dir (lit ".")) sg).
  assert (E2 : s_env s2 = s_env sg) by reflexivity.
  pose proof SG as SG'. destruct SG' as (S1 & S2 & S3 & (np & S4) & S5 & S6 & (mf & nf & F7 & G7) & S8 & S9). open_stands (s_env sg).
  assert (LS : evaluates H 0 ls_stage sg (ROk (EList (map EString names))) s2).
  { unfold ls_stage. eapply run_group; [run_depth|]. eapply run_builtin_call; [run_depth | run |]. cbn [b_id].
    apply (run_listing H _ sg (ESymbol (lit ".")) sg dir names);
      [eapply run_free; [run_depth | exact S9] | rewrite CW; exact J | exact L]. }
  set (fv := ELambda (lit "file") file_body (capture (s_env sg) (lit "file") file_body (Env [] None))).
  destruct (C38_filter_staged H (EGroup (ELambda (lit "file") file_body (Env [] None))) fv s2 np) as (h & CF & AF).
  { intros d' L'. eapply run_group; [run_depth|]. eapply run_lambda. run_depth. }
  { rewrite E2. assumption. }
  set (b := fun t => Nat.eqb (length (str_split p t)) 2).
  assert (IO : forall l, Forall (fun t => (Z.of_nat (length t) < 2 ^ 62)%Z) l ->
            in_order (fun x => acting H fv [x]) (map EString l) s2 (ROk (map (fun t => EBoolean (b t)) l)) s2).
  { induction l as [|t l IH]; intros F; cbn [map]; [constructor|]. inversion F; subst.
    econstructor; [now apply file_test | now apply IH]. }
  destruct (AF filter_stage (EList (map EString names)) (map EString names) s2 (ROk (map (fun t => EBoolean (b t)) names)) s2) as [OK _];
    [| apply argument_data; [apply texts_value | pose proof (texts_nesting names); unfold MAX_DEPTH; lia]
     | apply texts_value | now apply IO |].
  { intros d' L'. unfold filter_stage. eapply run_group; [run_depth|].
    apply (run_builtin_call H _ _ (Bi FFilter nf) _ s2 s2); [run_depth | | exact CF].
    assert (IXF : expr_index (EMap mf) (ESymbol (lit "filter")) = EBuiltin (Bi FFilter nf)) by (cbn [expr_index]; now rewrite G7).
    rewrite <- IXF. eapply run_builtin_call; [run_depth | eapply run_symbol; [run_depth | rewrite E2; eassumption] |]. cbn [b_id].
    eapply run_at_name; [exact I | eapply run_symbol; [run_depth | rewrite E2; eassumption] | reflexivity]. }
  assert (K : exists ms, those (once p) names ms
     /\ kept (map EString names) (map (fun t => EBoolean (b t)) names) (map EString ms)).
  { clear - NP. induction names as [|t l (ms & T & K)]; [exists []; repeat constructor|].
    destruct (b t) eqn:B; [exists (t :: ms) | exists ms]; cbn [map]; rewrite B; split.
    - apply those_yes; [|exact T]. apply once_split; [exact NP|]. now apply Nat.eqb_eq.
    - apply kept_yes; [now apply is_truthy_iff | exact K].
    - apply those_no; [|exact T]. intros O. apply once_split in O; [|exact NP]. apply Nat.eqb_neq in B. now apply B.
    - apply kept_no; [now apply is_falsy | exact K]. }
  destruct K as (ms & T & K). exists ms. split; [exact T|].
  eapply run_macro; [run_depth | eapply run_symbol; [run_depth | apply (hp_glob _ (helped_helpers _ _ P))] | exact A |].
  match goal with |- evaluates _ _ _ ?t _ _ => change t with sg end. eapply run_group; [run_depth|]. eapply run_group; [run_depth|].
  eapply run_builtin_call; [run_depth | run |]. cbn [b_id]. fold s2.
  apply C48_pipeline.
  assert (IB : forall v, (forall b, v <> EBytes b) -> input_bytes H v (utf8_bytes (display H v))) by (intros; now apply ib_other).
  eapply flows_function; [| exact LS | apply IB; discriminate |].
  { intros q args X. inversion X as [| | | | |? ? ? Y|]; subst. inversion Y. }
  eapply flows_function; [| exact (OK _ _ eq_refl K) | apply IB; discriminate | apply flows_end].
  intros q args X. inversion X as [| | | | |? ? ? Y|]; subst. inversion Y.
Qed.
Print Assumptions C124_glob.

(** Names that contain the text more than once are left out, though they match.
    As the names of a listing begin with [./], the dot finds exactly the names
    without one. *)
Theorem C124_dot n t : joined (lit ".") n t -> hd_error n <> Some 47%N ->
  once (lit ".") t <-> ~ StrSpec.inside (lit ".") n.
Proof.
  intros J N. apply joined_path_join in J. subst t.
  assert (E : path_join (lit ".") n = lit "." ++ lit "/" ++ n).
  { symmetry. apply joined_path_join. apply (j_relative [] 46%N n N). discriminate. }
  rewrite E. split.
  - intros (a & r & [Q M] & I) (x & y & ->).
    specialize (M [] (lit "/" ++ x ++ lit "." ++ y) eq_refl). destruct a; [|cbn in M; lia].
    cbn in Q. injection Q as <-. apply I. exists (lit "/" ++ x), y. now rewrite <- app_assoc.
  - intros I. exists [], (lit "/" ++ n). split; [split; [reflexivity | cbn; lia]|].
    intros (x & y & Q). destruct x as [|c x]; [discriminate|]. injection Q as _ Q. apply I. now exists x, y.
Qed.
Print Assumptions C124_dot.

Theorem C124_contains_refuted :
  exists p t, StrSpec.inside p t /\ ~ once p t.
Proof.
  exists (lit "."), (lit "./notes.txt"). split; [exists [], (lit "/notes.txt"); reflexivity|].
  intros O. assert (J : joined (lit ".") (lit "notes.txt") (lit "./notes.txt")) by (apply joined_path_join; reflexivity).
  apply (C124_dot _ _ J) in O; [|discriminate]. apply O. exists (lit "notes"), (lit "txt"). reflexivity.
Qed.
Print Assumptions C124_contains_refuted.

Example C124_case :
  evaluates demo_host 0 (EApply (ESymbol (lit "$")) [EString (lit "b")]) small_shell
    (ROk (EList [EString (lit "b")]))
    (told demo_host (RqList (lit "/tmp/.") (lit ".")) (with_var (lit "GLOB") (EString (lit "b")) small_shell)).
Proof. split; [discriminate |]. exists 100%nat. vm_compute. reflexivity. Qed.

(** ** C125 *)

Section Files.
  Variables (H : host) (d : N) (a : expr) (s : st) (v : expr) (s1 : st).
  Hypothesis P : helped H (s_env s).
  Hypothesis D : (d + 5 <= MAX_DEPTH)%N.
  Hypothesis A : evaluates H (d + 1) a s (ROk v) s1.
  Hypothesis SR : reading (s_env s1).
  Let sf := with_var (lit "file") v s1.

  Lemma still_reading : reading (s_env sf).
  Proof.
    destruct SR as (S1 & S2 & S3 & S4 & S5). unfold reading, stands, member, sf in *.
    cbn [s_env with_var with_env]. setoid_rewrite env_get_define. cbn. repeat split; assumption.
  Qed.

  Definition parsed_file : expr := Eval vm_compute in
    match helper_value 1 with EMacro _ (EApply _ [x]) => x | _ => ENone end.

  Lemma include_by r s' : calls H BExec [parsed_file] sf r s' ->
    evaluates H d (EApply (ESymbol (lit "include")) [a]) s r s'.
  Proof.
    intros C. pose proof still_reading as (S1 & (ne & S2) & S3 & S4 & S5).
    eapply run_macro; [run_depth | eapply run_symbol; [run_depth | apply (hp_include _ (helped_helpers _ _ P))] | exact A |].
    match goal with |- evaluates _ _ _ ?t _ _ => change t with sf end.
    apply (run_builtin_call H _ _ (Bi BExec ne) _ sf sf); [run_depth | eapply run_symbol; [run_depth | exact S2] | exact C].
  Qed.
  Lemma use_by r s' : calls H BEval [parsed_file] sf r s' ->
    evaluates H d (EApply (ESymbol (lit "use")) [a]) s r s'.
  Proof.
    intros C. pose proof still_reading as (S1 & S2 & (ne & S3) & S4 & S5).
    eapply run_macro; [run_depth | eapply run_symbol; [run_depth | apply (hp_use _ (helped_helpers _ _ P))] | exact A |].
    match goal with |- evaluates _ _ _ ?t _ _ => change t with sf end.
    apply (run_builtin_call H _ _ (Bi BEval ne) _ sf sf); [run_depth | eapply run_symbol; [run_depth | exact S3] | exact C].
  Qed.

  Lemma parse_by r s' :
    (forall x, (forall r0 s0, calls H KRead [ESymbol (lit "file")] sf r0 s0 -> evaluates H 0 x sf r0 s0) ->
               calls H PExpr [x] sf r s') ->
    evaluates H 0 parsed_file sf r s'.
  Proof.
    intros C. pose proof still_reading as ((ni & S1) & S2 & S3 & (m4 & n4 & F4 & G4) & (m5 & n5 & F5 & G5)).
    unfold parsed_file. eapply run_group; [run_depth|].
    assert (X5 : expr_index (EMap m5) (ESymbol (lit "expr")) = EBuiltin (Bi PExpr n5)) by (cbn [expr_index]; now rewrite G5).
    assert (X4 : expr_index (EMap m4) (ESymbol (lit "read")) = EBuiltin (Bi KRead n4)) by (cbn [expr_index]; now rewrite G4).
    apply (run_builtin_call H _ _ (Bi PExpr n5) _ sf sf); [run_depth | |].
    { apply (run_builtin_call H _ _ (Bi BIndex ni) _ sf sf); [run_depth | eapply run_symbol; [run_depth | exact S1] |].
      eapply run_at_name; [exact I | eapply run_symbol; [run_depth | exact F5] | exact X5]. }
    apply C. intros r0 s0 R. eapply run_group; [run_depth|].
    apply (run_builtin_call H _ _ (Bi KRead n4) _ sf sf); [run_depth | | exact R].
    apply (run_builtin_call H _ _ (Bi BIndex ni) _ sf sf); [run_depth | eapply run_symbol; [run_depth | exact S1] |].
    eapply run_at_name; [exact I | eapply run_symbol; [run_depth | exact F4] | exact X4].
  Qed.

  Section Good.
    Variables (x : expr) (s2 : st) (t : str) (e : expr).
    Hypothesis R : calls H KRead [ESymbol (lit "file")] (with_var (lit "file") v s1) (ROk x) s2.
    Hypothesis T : shown H x t.
    Hypothesis NT : t <> [].
    Hypothesis PE : parse_script t = SOk e.

    Lemma parses_file : evaluates H 0 parsed_file sf (ROk e) s2.
    Proof. apply parse_by. intros y Y. apply (C83_parse H y sf x s2 t e); [now apply Y | assumption ..]. Qed.

    (** [include] runs the program of the file as if it stood in its place. *)
    Theorem C125_include r s' : evaluates H 0 e s2 r s' ->
      evaluates H d (EApply (ESymbol (lit "include")) [a]) s r s'.
    Proof. intros E. apply include_by. apply C29_exec. left. exists e, s2. split; [apply parses_file | exact E]. Qed.

    (** [use] runs it in a copy: its outcome and its effects are the same, its
        variables are gone. *)
    Theorem C125_use r s' : evaluates H 0 e (with_env (s_env (with_var (lit "file") v s1)) s2) r s' ->
      evaluates H d (EApply (ESymbol (lit "use")) [a]) s r (with_env (s_env s2) s').
    Proof. intros E. apply use_by. apply C29_eval. left. exists e, s2, s'. split; [apply parses_file | split; [exact E | reflexivity]]. Qed.
  End Good.

  (** A file that cannot be read or parsed: nothing of it is run. *)
  Theorem C125_unread r0 r s2 : 
    calls H KRead [ESymbol (lit "file")] (with_var (lit "file") v s1) r0 s2 -> fails r0 r ->
    evaluates H d (EApply (ESymbol (lit "include")) [a]) s r s2
    /\ evaluates H d (EApply (ESymbol (lit "use")) [a]) s r s2.
  Proof.
    intros R F. assert (E : evaluates H 0 parsed_file sf r s2).
    { apply parse_by. intros y Y. specialize (Y _ _ R).
      apply sure_calls; [now inversion F |]. cbn [run_builtin]. unfold run_parse_expr, exact1. sure_step.
      eapply (sure_bind_fails _ _ (fun n => ev_arg (eval H n 0) [y] 0)); [| exact F].
      unfold ev_arg, arg. cbn [nth_error]. now apply sure_ev. }
    split; [apply include_by, C29_exec | apply use_by, C29_eval]; right; exists r; (split; [exact E|]);
      inversion F; subst; constructor.
  Qed.
  Theorem C125_rejected x s2 t err :
    calls H KRead [ESymbol (lit "file")] (with_var (lit "file") v s1) (ROk x) s2 -> shown H x t -> t <> [] ->
    parse_script t = SError err \/ parse_script t = SFailure err ->
    evaluates H d (EApply (ESymbol (lit "include")) [a]) s (RErr (SyntaxErr t err)) s2
    /\ evaluates H d (EApply (ESymbol (lit "use")) [a]) s (RErr (SyntaxErr t err)) s2.
  Proof.
    intros R T NT PE. assert (E : evaluates H 0 parsed_file sf (RErr (SyntaxErr t err)) s2).
    { apply parse_by. intros y Y. apply (C83_rejected H y sf x s2 t err); [now apply Y | assumption ..]. }
    split; [apply include_by, C29_exec | apply use_by, C29_eval]; right; eexists; (split; [exact E|]); constructor.
  Qed.
  (** The empty file does nothing. *)
  Theorem C125_empty x s2 :
    calls H KRead [ESymbol (lit "file")] (with_var (lit "file") v s1) (ROk x) s2 -> shown H x [] ->
    evaluates H d (EApply (ESymbol (lit "include")) [a]) s (ROk ENone) s2
    /\ evaluates H d (EApply (ESymbol (lit "use")) [a]) s (ROk ENone) s2.
  Proof.
    intros R T. assert (E : evaluates H 0 parsed_file sf (ROk ENone) s2).
    { apply parse_by. intros y Y. specialize (Y _ _ R). apply (proj1 (shown_display _ _ _)) in T.
      call. unfold run_parse_expr, exact1. sure_step. sure_step. rewrite <- T. apply sure_ret. }
    split; [apply include_by, C29_exec | apply use_by, C29_eval]; left.
    - exists ENone, s2. split; [exact E | now apply run_value].
    - exists ENone, s2, (with_env (s_env sf) s2). split; [exact E|]. split; [now apply run_value | now destruct s2].
  Qed.
End Files.
Print Assumptions C125_include.
Print Assumptions C125_use.
Print Assumptions C125_unread.
Print Assumptions C125_rejected.
Print Assumptions C125_empty.

(** Whatever the file does, [use] leaves the variable [file] behind. *)
Theorem C125_leaves_refuted :
  exists H s s', helped H (s_env s)
    /\ evaluates H 0 (EApply (ESymbol (lit "use")) [EString (lit "lib.dune")]) s (ROk (ESymbol (lit "text"))) s'
    /\ env_get (lit "file") (s_env s) = None /\ env_get (lit "file") (s_env s') = Some (EString (lit "lib.dune")).
Proof.
  exists demo_host, small_shell. eexists. split; [exact small_helped|]. split; [|split].
  - split; [discriminate |]. exists 100%nat. vm_compute. reflexivity.
  - vm_compute. reflexivity.
  - vm_compute. reflexivity.
Qed.
Print Assumptions C125_leaves_refuted.

(** A file with a definition: included, the variable is there; used, it is not. *)
Definition lib_host : host :=
  let 'Host _ a b c d e f g h i j k l m n o p := demo_host in
  Host (fun t rq => match rq with RqRead _ => RsOutput (lit "let answer = 40 + 2; answer") | _ => demo_answer t rq end)
    a b c d e f g h i j k l m n o p.
Example C125_case :
  (exists s', evaluates lib_host 0 (EApply (ESymbol (lit "include")) [EString (lit "lib.dune")]) small_shell (ROk (EInteger 42)) s'
     /\ env_get (lit "answer") (s_env s') = Some (EInteger 42))
  /\ (exists s', evaluates lib_host 0 (EApply (ESymbol (lit "use")) [EString (lit "lib.dune")]) small_shell (ROk (EInteger 42)) s'
     /\ env_get (lit "answer") (s_env s') = None).
Proof.
  split; eexists; (split; [split; [discriminate |]; exists 100%nat; vm_compute; reflexivity | vm_compute; reflexivity]).
Qed.
