(** C128: redirection. *)

From Coq Require Import String Lia ZArith.
From Verif Require Import Base Syntax Host Ops Parser Monad ErrorFmt Text Builtins Eval Init EvalSpec
  OpsSpec EvalFacts LibSpec LibFacts OpsFacts RunFacts MapFacts CoreFacts CurryFacts SysSpec CmdFacts P_Eval P_Sys P_Start
  Utf8Facts Fs FsHost FsSpec FsFacts FilesFacts P_Fs P_Files P_Pipe P_Data HelperSpec P_Helpers GlobSpec P_Glob RedirectSpec Demo.

Definition write_body (k : string) : expr :=
  EApply (EApply (ESymbol (lit "@")) [ESymbol (lit "fs"); ESymbol (lit k)])
    [ESymbol (lit "file"); ESymbol (lit "contents")].
Definition write_inner (k : string) : expr := ELambda (lit "contents") (write_body k) (Env [] None).

Lemma member_kept e x k b y v : str_eqb (lit x) y = false -> member e x k b -> member (env_define y v e) x k b.
Proof. intros N (m & nm & A & B). exists m, nm. split; [now apply found_below | exact B]. Qed.

Lemma new_closures m :
  exists e, member e "fs" "write" KWrite /\ member e "fs" "append" KAppend /\ stands e "@" BIndex
    /\ env_get (lit ">>") (init m)
       = Some (ELambda (lit "file") (write_inner "write") (capture e (lit "file") (write_inner "write") (Env [] None)))
    /\ env_get (lit ">>>") (init m)
       = Some (ELambda (lit "file") (write_inner "append") (capture e (lit "file") (write_inner "append") (Env [] None))).
Proof.
  set (e1 := env_define (lit "fs") (EMap (fs_module m)) (define_dirs m)).
  exists (define_all basic_operators e1).
  assert (FS : forall k b, In (k, b) [("write", KWrite); ("append", KAppend)]%string ->
     member (define_all basic_operators e1) "fs" k b).
  { intros k b I. exists (fs_module m).
    assert (G : exists nm, bm_get (lit k) (fs_module m) = Some (EBuiltin (Bi b nm))).
    { revert I. unfold fs_module. generalize (tree (known "home" (m_home m) ++ known "desk" (m_desk m)
                         ++ known "docs" (m_docs m) ++ known "down" (m_down m))).
      intros ? I. cbn [In] in I.
      repeat (destruct I as [I | I]; [injection I as <- <-; eexists; vm_compute; reflexivity |]). contradiction. }
    destruct G as [nm G]. exists nm. split; [|exact G].
    unfold define_all. rewrite (get_defines fst snd).
    match goal with |- match ?t with _ => _ end = _ => let c := eval vm_compute in t in change t with c end.
    cbv iota. apply found_here. }
  split; [apply FS; which|]. split; [apply FS; which|]. split.
  { eexists. unfold define_all. rewrite (get_defines fst snd).
    match goal with |- match ?t with _ => _ end = _ => let c := eval vm_compute in t in change t with c end.
    reflexivity. }
  assert (CL : forall k e, In k ["write"; "append"]%string ->
     closure ("file -> contents -> fs@" ++ k ++ " file contents") e
     = ELambda (lit "file") (write_inner k) (capture e (lit "file") (write_inner k) (Env [] None))).
  { intros k e I. cbn [In] in I. unfold closure.
    repeat (destruct I as [<- | I]; [match goal with |- match ?t with _ => _ end = _ =>
      let c := eval vm_compute in t in replace t with c by (vm_compute; reflexivity) end; reflexivity |]).
    contradiction. }
  pose proof (CL "write"%string (define_all basic_operators e1) ltac:(which)) as C1.
  pose proof (CL "append"%string (define_all basic_operators e1) ltac:(which)) as C2.
  cbn [String.append] in C1, C2.
  unfold init. fold e1. set (math := math_module _). unfold operators. rewrite C1, C2. clear C1 C2 CL FS.
  set (v1 := ELambda (lit "file") (write_inner "write") _). set (v2 := ELambda (lit "file") (write_inner "append") _).
  clearbody math v1 v2 e1.
  rewrite !(get_defines (fun kv => lit (fst kv)) snd). unfold define_all.
  rewrite !(get_defines fst snd), !env_get_define, !(get_defines fst snd).
  generalize log_module, dict_module, (shell_module m), err_module, (os_module m),
    time_module, rand_module, fn_module, console_module, fmt_module, parse_module, string_module,
    list_module, sys_module, (fs_module m), widget_module.
  intros. split; vm_compute; reflexivity.
Qed.

Lemma redirect_stored e : redirecting e ->
  (exists e1, member e1 "fs" "write" KWrite /\ stands e1 "@" BIndex
     /\ env_get (lit ">>") e = Some (ELambda (lit "file") (write_inner "write") (capture e1 (lit "file") (write_inner "write") (Env [] None))))
  /\ (exists e1, member e1 "fs" "append" KAppend /\ stands e1 "@" BIndex
     /\ env_get (lit ">>>") e = Some (ELambda (lit "file") (write_inner "append") (capture e1 (lit "file") (write_inner "append") (Env [] None)))).
Proof.
  intros (_ & _ & m & A & B). destruct (new_closures m) as (e1 & W & P & X & C & D).
  split; exists e1; (split; [assumption|]; split; [assumption|]); congruence.
Qed.

(** The body runs with the file and the contents, in the directory of the caller. *)
Lemma body_run H k b e1 f s p s1 v w s2 r s3 :
  In k ["write"; "append"]%string ->
  member e1 "fs" k b -> stands e1 "@" BIndex ->
  let fn := ELambda (lit "file") (write_inner k) (capture e1 (lit "file") (write_inner k) (Env [] None)) in
  forall g, evaluates H 2 g s (ROk fn) s ->
  evaluates H 2 f s (ROk p) s1 -> evaluates H 1 v s1 (ROk w) s2 ->
  (forall e, env_get_cwd e = env_get_cwd (s_env s1) ->
     env_get (lit "file") e = Some p -> env_get (lit "contents") e = Some w ->
     calls H b [ESymbol (lit "file"); ESymbol (lit "contents")] (with_env e s2) r (with_env e s3)) ->
  s_env s3 = s_env s2 ->
  evaluates H 0 (EApply (EApply g [f]) [v]) s r s3.
Proof.
  intros K (fm & nm & FM & FK) (na & AT) fn g G F V C S3.
  assert (IX : expr_index (EMap fm) (ESymbol (lit k)) = EBuiltin (Bi b nm)) by (cbn [expr_index]; now rewrite FK).
  set (cc := capture (call_env (lit "file") p (capture e1 (lit "file") (write_inner k) (Env [] None)) (s_env s))
               (lit "contents") (write_body k) (Env [] None)).
  assert (FN : evaluates H 1 (EApply g [f]) s (ROk (ELambda (lit "contents") (write_body k) cc)) s1).
  { eapply run_exact; [eapply run_call; [run_depth | exact G | exact F | eapply run_lambda; run_depth] | reflexivity |].
    now destruct s1. }
  set (ce := call_env (lit "contents") w cc (s_env s1)).
  eapply run_end.
  - apply (run_call H 0 _ (lit "contents") (write_body k) cc v s s1 w s2 r (with_env ce s3)); [run_depth | exact FN | exact V |].
    + fold ce.
      assert (CW : env_get_cwd ce = env_get_cwd (s_env s1)).
      { unfold ce, cc. unfold call_env. rewrite env_get_cwd_define by reflexivity. unfold env_set_cwd, env_get_cwd at 1. now rewrite (found_here (lit "CWD")). }
      assert (G1 : env_get (lit "file") ce = Some p).
      { unfold ce, cc. cbn [In] in K. destruct K as [<- | [<- | []]]; run_lookup. }
      assert (G2 : env_get (lit "contents") ce = Some w) by (unfold ce; run_lookup).
      assert (G3 : env_get (lit "@") ce = Some (EBuiltin (Bi BIndex na))).
      { unfold ce, cc. cbn [In] in K. destruct K as [<- | [<- | []]]; run_lookup. }
      assert (G4 : env_get (lit "fs") ce = Some (EMap fm)).
      { unfold ce, cc. cbn [In] in K. destruct K as [<- | [<- | []]]; run_lookup. }
      specialize (C ce CW G1 G2). clearbody ce. unfold write_body.
      apply (run_builtin_call H _ _ (Bi b nm) _ (with_env ce s2) (with_env ce s2)); [run_depth | | exact C].
      rewrite <- IX. eapply run_builtin_call; [run_depth | eapply run_symbol; [run_depth | exact G3] |]. cbn [b_id].
      eapply run_at_name; [exact I | eapply run_symbol; [run_depth | exact G4] | reflexivity].
  - destruct s2, s3. cbn in S3. now subst.
Qed.

Lemma input_value_bytes H v b : input_bytes H v b -> b = Builtins.value_bytes H v.
Proof. destruct 1 as [|v N]; [reflexivity|]. unfold Builtins.value_bytes. destruct v; try reflexivity. now destruct (N b). Qed.

(** The left side of a redirection gives the value [v]: it is an expression with
    this value, or a program with this output. *)
Definition offered (H : host) (x : expr) (s : st) (v : expr) (s1 : st) : Prop :=
  ((forall q args, ~ program_call (s_env s) x q args) /\ evaluates H 0 x s (ROk v) s1)
  \/ (exists cmd s0 b, command_of H x s cmd s0 /\ asks H (RqStage cmd None true) s0 (RsOutput b) s1 /\ output_value b v).

Section Redirect.
  Variables (H : host) (x f : expr) (s s1 s2 s3 : st) (v w p : expr) (path : str) (b : list N) (d : N).
  Hypothesis D : (d + 2 <= MAX_DEPTH)%N.
  (** The left side gives [v], [f] the file. *)
  Hypothesis X : offered H x s v s1.
  Hypothesis F : evaluates H 2 f s1 (ROk p) s2.
  Hypothesis V : evaluates H 1 v s2 (ROk w) s3.
  Hypothesis R : redirecting (s_env s).
  Hypothesis R1 : redirecting (s_env s1).
  Hypothesis J : joined (env_get_cwd (s_env s2)) (display H p) path.
  Hypothesis B : input_bytes H w b.

  Lemma redirect_by op r s4 : In op [">>"; ">>>"]%string ->
    evaluates H 0 (EApply (EApply (ESymbol (lit op)) [f]) [v]) s1 r s4 -> (exists u, r = ROk u) \/ (exists e, r = RErr e) ->
    evaluates H d (redirected op x f) s r s4.
  Proof.
    intros O E RR. unfold redirected. eapply run_group; [run_depth|].
    pose proof R as ((np & PI) & _).
    apply (run_builtin_call H _ _ (Bi BPipe np) _ s s); [run_depth | eapply run_symbol; [run_depth | exact PI] |].
    cbn [b_id]. apply C48_pipeline.
    assert (IB : exists bs, input_bytes H v bs).
    { destruct v; try (eexists; apply ib_other; discriminate). eexists. apply ib_bytes. }
    destruct IB as [bs IB].
    assert (FL : exists c, flows H (Some (v, c)) [EApply (ESymbol (lit op)) [f]] s1 r s4 ->
                           flows H None [x; EApply (ESymbol (lit op)) [f]] s r s4).
    { destruct X as [[NP E0] | (cmd & s0 & c & CO & AS & OV)].
      - exists bs. intros K. eapply flows_function; [exact NP | exact E0 | exact IB | exact K].
      - exists c. intros K. eapply flows_program; [exact CO | exact AS | exact OV | exact K]. }
    destruct FL as [c FL]. apply FL. clear FL.
    assert (NO : forall q args, ~ program_call (s_env s1) (EApply (ESymbol (lit op)) [f]) q args).
    { destruct (redirect_stored _ R1) as [(e1 & _ & _ & G1) (e2 & _ & _ & G2)].
      intros q args P. inversion P as [|? ? ? PN| | | | |]; subst.
      cbn [In] in O. destruct O as [<- | [<- | []]]; inversion PN; congruence. }
    destruct RR as [[u ->] | [e ->]].
    - assert (IU : exists bu, input_bytes H u bu).
      { destruct u; try (eexists; apply ib_other; discriminate). eexists. apply ib_bytes. }
      destruct IU as [bu IU]. eapply flows_function; [exact NO | exact E | exact IU | apply flows_end].
    - eapply flows_function_fails; [exact NO | exact E | constructor].
  Qed.

  (** [x >> f] writes the value of [x] to the file, and nothing else happens. *)
  Theorem C128_write :
    let rq := RqWrite path b in
    ((forall k n m, h_answer H (s_trace s3) rq <> RsErr k n m) ->
       evaluates H d (redirected ">>" x f) s (ROk ENone) (told H rq s3))
    /\ (forall k n m, h_answer H (s_trace s3) rq = RsErr k n m ->
       exists t, evaluates H d (redirected ">>" x f) s (RErr (CustomError t)) (told H rq s3)).
  Proof.
    intros rq. destruct (redirect_stored _ R1) as [(e1 & W & AT & G) _].
    assert (RUN : forall r, (forall e, ask H rq (with_env e s3)
         = (ROk (h_answer H (s_trace s3) rq), with_env e (told H rq s3))) ->
       (match h_answer H (s_trace s3) rq with
        | RsErr _ _ dd => r = RErr (CustomError (lit "could not write to file " ++ display H p ++ lit ": " ++ dd))
        | _ => r = ROk ENone end) ->
       evaluates H 0 (EApply (EApply (ESymbol (lit ">>")) [f]) [v]) s1 r (told H rq s3)).
    { intros r AK RR. eapply (body_run H "write" KWrite e1 f s1 p s2 v w s3 r (told H rq s3));
        [which | exact W | exact AT | eapply run_symbol; [run_depth | exact G] | exact F | exact V | | reflexivity].
      intros e CW G1 G2. apply sure_calls; [destruct (h_answer H (s_trace s3) rq); subst r; discriminate|].
      cbn [run_builtin]. unfold run_write. sure_step. apply sure_get_env. cbn [s_env with_env].
      eapply sure_ev_arg; [reflexivity | eapply run_symbol; [run_depth | exact G1] |].
      eapply sure_ev_arg; [reflexivity | eapply run_symbol; [run_depth | exact G2] |].
      rewrite CW. apply joined_path_join in J. rewrite <- J. rewrite <- (input_value_bytes _ _ _ B). fold rq.
      eapply sure_bind_const; [apply AK|]. cbv beta.
      destruct (h_answer H (s_trace s3) rq); subst r; apply sure_const; reflexivity. }
    assert (AK : forall e, ask H rq (with_env e s3) = (ROk (h_answer H (s_trace s3) rq), with_env e (told H rq s3)))
      by reflexivity.
    split.
    - intros N. apply redirect_by; [which | | left; eauto]. apply RUN; [exact AK|].
      destruct (h_answer H (s_trace s3) rq) eqn:A; try reflexivity. now destruct (N _ _ _ eq_refl).
    - intros k n m A. eexists. apply redirect_by; [which | | right; eauto]. apply RUN; [exact AK|]. now rewrite A.
  Qed.

  (** [x >>> f] opens the file first, then appends the value. *)
  Theorem C128_append :
    let open := RqOpenAppend path in let rq := RqAppend path b in
    ((forall k n m, h_answer H (s_trace s3) open <> RsErr k n m) ->
     (forall k n m, h_answer H (s_trace (told H open s3)) rq <> RsErr k n m) ->
       evaluates H d (redirected ">>>" x f) s (ROk ENone) (told H rq (told H open s3)))
    /\ ((forall k n m, h_answer H (s_trace s3) open <> RsErr k n m) -> forall k n m,
        h_answer H (s_trace (told H open s3)) rq = RsErr k n m ->
       exists t, evaluates H d (redirected ">>>" x f) s (RErr (CustomError t)) (told H rq (told H open s3)))
    /\ (forall k n m, h_answer H (s_trace s3) open = RsErr k n m ->
       exists t, evaluates H d (redirected ">>>" x f) s (RErr (CustomError t)) (told H open s3)).
  Proof.
    intros open rq. destruct (redirect_stored _ R1) as [_ (e1 & W & AT & G)].
    assert (RUN : forall r s4,
       match h_answer H (s_trace s3) open with
       | RsErr _ _ dd => r = RErr (CustomError (lit "could not open file " ++ display H p ++ lit ": " ++ dd)) /\ s4 = told H open s3
       | _ => match h_answer H (s_trace (told H open s3)) rq with
              | RsErr _ _ dd => r = RErr (CustomError (lit "could not append to file " ++ display H p ++ lit ": " ++ dd))
              | _ => r = ROk ENone
              end /\ s4 = told H rq (told H open s3)
       end ->
       evaluates H 0 (EApply (EApply (ESymbol (lit ">>>")) [f]) [v]) s1 r s4).
    { intros r s4 RR.
      assert (OK : s_env s4 = s_env s3 /\ r <> RFuel).
      { destruct (h_answer H (s_trace s3) open); destruct RR as [RR ->];
          try (subst r; split; [reflexivity | discriminate]);
          (destruct (h_answer H (s_trace (told H open s3)) rq); subst r; (split; [reflexivity | discriminate])). }
      destruct OK as [E4 NF].
      eapply (body_run H "append" KAppend e1 f s1 p s2 v w s3 r s4);
        [which | exact W | exact AT | eapply run_symbol; [run_depth | exact G] | exact F | exact V | | exact E4].
      intros e CW G1 G2. apply sure_calls; [exact NF|].
      cbn [run_builtin]. unfold run_fs_append. sure_step. apply sure_get_env. cbn [s_env with_env].
      eapply sure_ev_arg; [reflexivity | eapply run_symbol; [run_depth | exact G1] |]. cbv zeta.
      rewrite CW. pose proof J as J'. apply joined_path_join in J'. rewrite <- J'. fold open.
      eapply sure_bind_const; [reflexivity|]. cbv beta. cbn [with_env s_trace s_env s_log].
      destruct (h_answer H (s_trace s3) open) eqn:A; destruct RR as [RR ->];
        try (eapply sure_ev_arg; [reflexivity | eapply run_symbol; [run_depth | exact G2] |];
             rewrite <- (input_value_bytes _ _ _ B); fold rq;
             eapply sure_bind_const; [reflexivity|]; cbv beta;
             unfold told in RR; rewrite A in RR; cbn [s_trace] in *;
             unfold told; rewrite A; cbn [with_env s_trace s_env s_log];
             destruct (h_answer H _ rq); subst r; apply sure_const; reflexivity).
      subst r. apply sure_const. unfold told. now rewrite A. }
    split; [|split].
    - intros N1 N2. apply redirect_by; [which | | left; eauto]. apply RUN.
      destruct (h_answer H (s_trace s3) open) eqn:A; try (now destruct (N1 _ _ _ eq_refl));
        (split; [|reflexivity]; destruct (h_answer H (s_trace (told H open s3)) rq) eqn:A2; try reflexivity; now destruct (N2 _ _ _ eq_refl)).
    - intros N1 k n m A2. eexists. apply redirect_by; [which | | right; eauto]. apply RUN.
      rewrite A2. destruct (h_answer H (s_trace s3) open) eqn:A; try (now destruct (N1 _ _ _ eq_refl)); split; reflexivity.
    - intros k n m A. eexists. apply redirect_by; [which | | right; eauto]. apply RUN. rewrite A. split; reflexivity.
  Qed.
End Redirect.
Print Assumptions C128_write.
Print Assumptions C128_append.

(** A new shell. *)
Theorem C128_new m : redirecting (init m).
Proof.
  split; [apply new_names; which|]. split; [|exists m; split; reflexivity].
  unfold stands. destruct (init_parts m) as (w & a & b & math & ->). cbv zeta. eexists.
  rewrite (get_defines (fun kv => lit (fst kv)) snd). unfold define_all.
  rewrite (get_defines fst snd), env_get_define, (get_defines fst snd).
  generalize (define_dirs m), log_module, dict_module, (shell_module m), err_module, (os_module m),
    time_module, rand_module, fn_module, console_module, fmt_module, parse_module, string_module,
    list_module, sys_module.
  intros. vm_compute. reflexivity.
Qed.
Print Assumptions C128_new.

(** The output of a program is written byte for byte. *)
Theorem C128_program H d x f s cmd s0 b s1 p s2 path :
  (d + 2 <= MAX_DEPTH)%N -> redirecting (s_env s) -> redirecting (s_env s1) ->
  command_of H x s cmd s0 -> asks H (RqStage cmd None true) s0 (RsOutput b) s1 ->
  evaluates H 2 f s1 (ROk p) s2 -> joined (env_get_cwd (s_env s2)) (display H p) path ->
  h_answer H (s_trace s2) (RqWrite path b) = RsOk ->
  evaluates H d (redirected ">>" x f) s (ROk ENone) (told H (RqWrite path b) s2).
Proof.
  intros D R R1 C A F J OK.
  assert (V : exists v, output_value b v /\ input_bytes H v b /\ evaluates H 1 v s2 (ROk v) s2).
  { destruct (from_utf8 b) as [t|] eqn:E.
    - exists (EString t). split; [now constructor|]. split; [|apply run_value; [run_depth | exact I]].
      destruct (from_utf8_sound _ _ E) as [_ <-]. apply (ib_other H (EString t)). discriminate.
    - exists (EBytes b). split; [now constructor|]. split; [constructor | apply run_value; [run_depth | exact I]]. }
  destruct V as (v & O & IB & V).
  eapply (C128_write H x f s s1 s2 s2 v v p path b d); try eassumption.
  - right. eauto 8.
  - intros k n m. rewrite OK. discriminate.
Qed.
Print Assumptions C128_program.

Lemma builtin_no_program e x q b : program_name e x q -> env_get x e = Some (EBuiltin b) -> False.
Proof. intros [N | p N] G; congruence. Qed.

(** [x << f] hands what the file contains to [x], and on to what follows. *)
Theorem C128_feed H f s p s1 path t x l r s3 :
  redirecting (s_env s) -> evaluates H 0 f s (ROk p) s1 ->
  joined (env_get_cwd (s_env s)) (display H p) path ->
  h_answer H (s_trace s1) (RqRead path) = RsOutput (utf8_bytes t) -> Forall character t ->
  flows H (Some (EString t, utf8_bytes t)) (x :: l) (told H (RqRead path) s1) r s3 ->
  forall d, (d + 2 <= MAX_DEPTH)%N ->
  evaluates H d (EGroup (EApply (ESymbol (lit "|")) (EApply (ESymbol (lit "<<")) [f] :: x :: l))) s r s3.
Proof.
  intros R F J A CH FL d D. pose proof R as ((np & PI) & (nr & RD) & _).
  eapply run_group; [run_depth|].
  apply (run_builtin_call H _ _ (Bi BPipe np) _ s s); [run_depth | eapply run_symbol; [run_depth | exact PI] |].
  cbn [b_id]. apply C48_pipeline.
  eapply flows_function; [| | apply (ib_other H (EString t)); discriminate | exact FL].
  - intros q args P. inversion P as [|? ? ? PN| | | | |]; subst. exact (builtin_no_program _ _ _ _ PN RD).
  - apply (run_builtin_call H _ _ (Bi KRead nr) _ s s); [run_depth | eapply run_symbol; [run_depth | exact RD] |].
    cbn [b_id]. call. unfold run_read. sure_step. apply sure_get_env. sure_step. cbv zeta.
    apply joined_path_join in J. rewrite <- J.
    eapply sure_bind_const; [unfold read_to_string, ask; cbn; rewrite A, from_utf8_bytes by exact CH; reflexivity|].
    apply sure_const. unfold told. now rewrite A.
Qed.
Print Assumptions C128_feed.

(** On a disk: afterwards the file contains exactly these bytes and every other
    file is as it was. *)
Section OnDisk.
  Variables (fault : nat -> option nat) (other : request -> disk -> disk) (d0 : disk) (H : host).
  Let H' := on_disk fault other d0 H.
  Let on (s : st) := files fault other d0 s.

  Theorem C128_file d x f s v s1 p s2 w s3 tp pth c :
    (d + 2 <= MAX_DEPTH)%N -> redirecting (s_env s) -> redirecting (s_env s1) ->
    offered H' x s v s1 -> evaluates H' 2 f s1 (ROk p) s2 -> evaluates H' 1 v s2 (ROk w) s3 ->
    shown H' p tp -> leads (env_get_cwd (s_env s2)) tp pth -> input_bytes H' w c -> valid (on s3) ->
    exists r s4, evaluates H' d (redirected ">>" x f) s r s4 /\ s_env s4 = s_env s3 /\ valid (on s4)
      /\ (r = ROk ENone /\ holds (on s4) pth (KFile c)
             /\ (forall q k, q <> pth -> holds (on s4) q k <-> holds (on s3) q k)
          \/ (exists m, r = RErr (CustomError m)) /\ same_apart_from pth (on s3) (on s4)).
  Proof.
    intros D R R1 O F V S L C VA. apply (proj1 (shown_display _ _ _)) in S. subst tp.
    pose proof (proj1 (leads_join _ _ _) L) as LJ.
    set (path := path_join (env_get_cwd (s_env s2)) (display H' p)) in *.
    assert (J : joined (env_get_cwd (s_env s2)) (display H' p) path) by now apply joined_path_join.
    set (rq := RqWrite path c).
    destruct (write_file fault pth c (disk_after fault other d0 (s_trace s3))) as [ok d'] eqn:W.
    assert (SV : serve fault rq (disk_after fault other d0 (s_trace s3)) = Some (done (ok, d'))).
    { unfold rq. cbn [serve]. rewrite <- LJ, W. reflexivity. }
    apply write_file_spec in W; [|exact VA]. destruct W as [W1 W2].
    assert (AN : h_answer H' (s_trace s3) rq = fst (done (ok, d'))).
    { unfold H', on_disk. cbn [h_answer with_answer]. rewrite SV. now destruct (done (ok, d')). }
    assert (FS : on (told H' rq s3) = d_root d').
    { unfold on, files, told. cbn [s_trace disk_after]. unfold next. rewrite SV. now destruct ok. }
    destruct (C128_write H' x f s s1 s2 s3 v w p path c d D O F V R R1 J C) as [OK ER].
    fold rq in OK, ER. destruct ok; cbn [done fst] in AN.
    - exists (ROk ENone), (told H' rq s3). rewrite FS. split; [|split; [reflexivity | split; [exact W1 | left; auto]]].
      apply OK. intros k n m. rewrite AN. discriminate.
    - destruct (ER _ _ _ AN) as [t E]. exists (RErr (CustomError t)), (told H' rq s3). rewrite FS.
      split; [exact E|]. split; [reflexivity | split; [exact W1 | right; split; [eauto | exact W2]]].
  Qed.
End OnDisk.
Print Assumptions C128_file.

(** As the parser reads them, and a redirection that meets the conditions. *)
Example C128_parsed :
  parse_script (lit "ls -l >> out") = SOk (EDo [redirected ">>" (EApply (ESymbol (lit "ls")) [ESymbol (lit "-l")]) (ESymbol (lit "out"))])
  /\ parse_script (lit "5 >>> out") = SOk (EDo [redirected ">>>" (EInteger 5) (ESymbol (lit "out"))])
  /\ parse_script (lit "sort << file") = SOk (EDo [fed (ESymbol (lit "sort")) (ESymbol (lit "file"))]).
Proof. vm_compute. repeat split. Qed.

Example C128_case m tr :
  let s := St (init m) tr 0 in
  evaluates demo_host 0 (redirected ">>" (EInteger 12) (EString (lit "/tmp/out"))) s (ROk ENone)
    (told demo_host (RqWrite (lit "/tmp/out") (utf8_bytes (lit "12"))) s).
Proof.
  intros s. eapply (C128_write demo_host (EInteger 12) (EString (lit "/tmp/out")) s s s s (EInteger 12) (EInteger 12)
    (EString (lit "/tmp/out")));
    [discriminate | left; split; [intros q args P; inversion P | apply run_value; [discriminate | exact I]]
    | apply run_value; [discriminate | exact I] | apply run_value; [discriminate | exact I]
    | apply C128_new | apply C128_new | apply joined_path_join; reflexivity
    | apply (ib_other demo_host (EInteger 12)); discriminate | discriminate].
Qed.
