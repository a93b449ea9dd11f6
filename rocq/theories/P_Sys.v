(** C68 to C73: the current directory, files of code, variables by name, the exit of the shell. *)

From Coq Require Import String List Lia Floats.SpecFloat.
From Verif Require Import Base Syntax Host Ops Parser ErrorFmt Text Monad Builtins Eval EvalSpec
  Init CmdFacts CoreFacts LibFacts LibSpec MapFacts EvalFacts Utf8Facts Fs FsHost FsFacts P_Fs LexFacts P_Literal SysSpec Demo.
Import ListNotations.

Lemma joined_path_join cwd t p : joined cwd t p <-> p = path_join cwd t.
Proof.
  rewrite path_join_eq. split.
  - destruct 1 as [cwd r | t N | c t N | c x t N X].
    + reflexivity.
    + destruct t as [|y t]; [reflexivity|]. cbn in *. destruct (N.eqb_spec y 47); [congruence | reflexivity].
    + rewrite rev_app_distr. cbn [rev List.app]. rewrite N.eqb_refl. rewrite <- app_assoc.
      destruct t as [|y t]; [reflexivity|]. destruct (N.eqb_spec y 47); [subst; cbn in N; congruence | reflexivity].
    + rewrite rev_app_distr. cbn [rev List.app]. apply N.eqb_neq in X. rewrite X. rewrite <- app_assoc.
      destruct t as [|y t]; [reflexivity|]. destruct (N.eqb_spec y 47); [subst; cbn in N; congruence | reflexivity].
  - intros ->.
    assert (R : hd_error t <> Some 47%N ->
      joined cwd t (match rev cwd with [] => t | x :: _ => if (x =? 47)%N then cwd ++ t else cwd ++ [47%N] ++ t end)).
    { intros N. destruct (rev cwd) as [|x r] eqn:E.
      - apply (f_equal (@rev chr)) in E. rewrite rev_involutive in E. cbn in E. subst. now constructor.
      - apply (f_equal (@rev chr)) in E. rewrite rev_involutive in E. cbn [rev] in E. subst.
        destruct (N.eqb_spec x 47) as [->|X]; rewrite <- app_assoc; now constructor. }
    destruct t as [|y t]; [apply R; discriminate|].
    destruct (N.eqb_spec y 47) as [->|Y]; [constructor|]. apply R. cbn. congruence.
Qed.

Lemma told_ask H rq s : ask H rq s = (ROk (h_answer H (s_trace s) rq), told H rq s).
Proof. reflexivity. Qed.

Lemma sure_ask B H rq (k : nat -> response -> M B) s r s' :
  sure (fun n => k n (h_answer H (s_trace s) rq)) (told H rq s) r s' ->
  sure (fun n => bind (ask H rq) (k n)) s r s'.
Proof. intros K. eapply sure_bind_const; [apply told_ask | exact K]. Qed.

Lemma sure_get_env B (k : nat -> env -> M B) s r s' :
  sure (fun n => k n (s_env s)) s r s' -> sure (fun n => bind get_env (k n)) s r s'.
Proof. intros K. eapply sure_bind_const; [reflexivity | exact K]. Qed.

Lemma sure_path_arg B H args i a (k : nat -> str -> M B) s v s1 cwd r s' :
  nth_error args i = Some a -> evaluates H 0 a s (ROk v) s1 ->
  sure (fun n => k n (path_join cwd (display H v))) s1 r s' ->
  sure (fun n => bind (path_arg H (eval H n 0) args i cwd) (k n)) s r s'.
Proof.
  intros A E K. unfold path_arg.
  refine (sure_bind _ _ (fun n => bind (ev_arg (eval H n 0) args i) (fun v => ret (path_join cwd (display H v)))) k _ _ _ _ _ _ K).
  eapply sure_ev_arg; eauto. apply sure_ret.
Qed.

(** ** C68: cd *)

(** The command [cd] goes to the directory that the path leads to from the
    current directory, or fails and stays. *)
Theorem C68_cd H a s v s1 t abs :
  gives H a s v s1 -> shown H v t -> joined (env_get_cwd (s_env s1)) t abs ->
  let s2 := told H (RqCanon abs) s1 in
  (forall c, h_answer H (s_trace s1) (RqCanon abs) = RsPath c ->
     (forall k m dbg, h_answer H (s_trace s2) (RqChdir c) <> RsErr k m dbg) ->
     exists s', calls H OCd [a] s (ROk ENone) s'
       /\ env_get_cwd (s_env s') = c /\ same_but (lit "CWD") (s_env s1) (s_env s')
       /\ s_trace s' = s_trace (told H (RqChdir c) s2) /\ s_log s' = s_log s1)
  /\ (forall c k m dbg, h_answer H (s_trace s1) (RqCanon abs) = RsPath c ->
     h_answer H (s_trace s2) (RqChdir c) = RsErr k m dbg ->
     exists msg, calls H OCd [a] s (RErr (CustomError msg)) (told H (RqChdir c) s2))
  /\ ((forall c, h_answer H (s_trace s1) (RqCanon abs) <> RsPath c) ->
     exists msg, calls H OCd [a] s (RErr (CustomError msg)) s2).
Proof.
  intros A S J s2. apply (proj1 (shown_display _ _ _)) in S. apply (proj1 (joined_path_join _ _ _)) in J.
  unfold gives in A.
  assert (P : match v with ESymbol p | EString p => p | _ => display H v end = t)
    by (subst t; destruct v; reflexivity).
  split; [|split].
  - intros c C N. eexists. split; [|split; [|split; [|split]]].
    + call. unfold run_cd. sure_step. sure_step. apply sure_get_env. rewrite P, <- J.
      apply sure_ask. rewrite C. apply sure_ask. fold s2.
      destruct (h_answer H (s_trace s2) (RqChdir c)) eqn:E;
        try (eapply sure_bind_const; [reflexivity | apply sure_ret]).
      now destruct (N kind msg dbg).
    + cbn [s_env]. unfold env_get_cwd, env_set_cwd. rewrite env_get_define. reflexivity.
    + intros y Y. cbn [s_env]. unfold env_set_cwd. rewrite env_get_define.
      destruct (str_eqb y CWD) eqn:E; [|reflexivity]. apply str_eqb_eq in E. now destruct Y.
    + reflexivity.
    + reflexivity.
  - intros c k m dbg C E. eexists. call. unfold run_cd. sure_step. sure_step. apply sure_get_env.
    rewrite P, <- J. apply sure_ask. rewrite C. apply sure_ask. fold s2. rewrite E. apply sure_throw.
  - intros N.
    destruct (h_answer H (s_trace s1) (RqCanon abs)) eqn:E;
      try (match type of E with _ = RsPath ?p => now destruct (N p) end);
      eexists; call; unfold run_cd; sure_step; sure_step; apply sure_get_env;
      rewrite P, <- J; apply sure_ask; fold s2; rewrite E; apply sure_throw.
Qed.

Example C68_example :
  let (r, s') := run_demo "cd ""x""; CWD" in
  r = ROk (EString (lit "/tmp/x"))
  /\ s_trace s' = [(RqChdir (lit "/tmp/x"), RsOk); (RqCanon (lit "/tmp/x"), RsPath (lit "/tmp/x"))].
Proof. vm_compute. auto. Qed.

(** ** C69: the directory variable and the process *)

(** "After a script in which every cd succeeded, programs run where the last cd
    went" is false: the directory is a variable, and a function has its own. *)
Theorem C69_function_refuted :
  exists e s s' p t,
    evaluates demo_host 0 e s (ROk ENone) s'
    /\ s_trace s' = (RqChdir p, RsOk) :: t
    /\ env_get_cwd (s_env s') <> p.
Proof.
  exists (script "let go = d -> cd d; go ""/x"""), demo.
  eexists. exists (lit "/x"). eexists.
  split; [compute_outcome 100%nat|]. split; [vm_compute; reflexivity|]. vm_compute. discriminate.
Qed.

(** The same for [sys@cd], which changes the variable and does not tell the
    process. *)
Theorem C69_sys_cd H a s v s1 t abs c :
  gives H a s v s1 -> shown H v t -> joined (env_get_cwd (s_env s)) t abs ->
  h_answer H (s_trace s1) (RqCanon abs) = RsPath c ->
  exists s', calls H YCd [a] s (ROk ENone) s'
    /\ env_get_cwd (s_env s') = c /\ same_but (lit "CWD") (s_env s1) (s_env s')
    /\ s_trace s' = (RqCanon abs, RsPath c) :: s_trace s1.
Proof.
  intros A S J C. apply (proj1 (shown_display _ _ _)) in S. apply (proj1 (joined_path_join _ _ _)) in J.
  unfold gives in A. eexists. split; [|split; [|split]].
  - call. unfold run_sys_cd. sure_step. apply sure_get_env.
    eapply sure_path_arg; [reflexivity | exact A |]. rewrite <- S, <- J.
    apply sure_ask. rewrite C. apply sure_get_env.
    eapply sure_bind_const; [reflexivity | apply sure_ret].
  - cbn [s_env]. unfold env_get_cwd, env_set_cwd. rewrite env_get_define. reflexivity.
  - intros y Y. cbn [s_env told]. unfold env_set_cwd. rewrite env_get_define.
    destruct (str_eqb y CWD) eqn:E; [|reflexivity]. apply str_eqb_eq in E. now destruct Y.
  - cbn [s_trace told]. now rewrite C.
Qed.

(** Outside functions the two agree after [cd]. *)
Theorem C69_agree_partial H a s s' t v s1 abs c rs :
  gives H a s v s1 -> shown H v t -> joined (env_get_cwd (s_env s1)) t abs ->
  calls H OCd [a] s (ROk ENone) s' ->
  s_trace s' = (RqChdir c, rs) :: s_trace (told H (RqCanon abs) s1) ->
  env_get_cwd (s_env s') = c.
Proof.
  intros A S J K T. destruct (C68_cd _ _ _ _ _ _ _ A S J) as (G & B & N).
  destruct (h_answer H (s_trace s1) (RqCanon abs)) eqn:E;
    try (destruct N as [m N]; [discriminate|]; pose proof (calls_det _ _ _ _ _ _ _ _ K N) as [Q _]; discriminate).
  destruct (h_answer H (s_trace (told H (RqCanon abs) s1)) (RqChdir p)) eqn:X;
    try (destruct (B p kind msg dbg eq_refl X) as [m B']; pose proof (calls_det _ _ _ _ _ _ _ _ K B') as [Q _]; discriminate).
  all: destruct (G p eq_refl) as (s2 & K2 & W & _ & T2 & _); [intros; rewrite X; discriminate|].
  all: destruct (calls_det _ _ _ _ _ _ _ _ K K2) as [_ ->].
  all: rewrite T2 in T; cbn [s_trace told] in T; injection T as -> _; exact W.
Qed.

(** ** C70: include and import *)

Section Files.
  Variables (H : host) (a : expr) (s : st) (v : expr) (s1 : st) (t abs c : str).
  Hypothesis A : gives H a s v s1.
  Hypothesis S : shown H v t.
  Hypothesis J : joined (env_get_cwd (s_env s)) t abs.
  Hypothesis C : h_answer H (s_trace s1) (RqCanon abs) = RsPath c.
  (** The state after the file was found and read. *)
  Let s3 := told H (RqRead c) (told H (RqCanon abs) s1).
  Variable text : str.
  Hypothesis R : h_answer H (s_trace (told H (RqCanon abs) s1)) (RqRead c) = RsOutput (utf8_bytes text).
  Hypothesis T : Forall character text.

  Lemma file_read name (run : nat -> expr -> M expr) r s' :
    sure (fun n => bind (catch (parse_m text) (fun _ => custom (lit "could not parse file " ++ c)))
                        (run n)) s3 r s' ->
    sure (fun n => run_file H (eval H n 0) name [a] (run n)) s r s'.
  Proof.
    intros K. apply (proj1 (shown_display _ _ _)) in S. apply (proj1 (joined_path_join _ _ _)) in J.
    unfold gives in A. unfold run_file. sure_step. apply sure_get_env.
    eapply sure_path_arg; [reflexivity | exact A |]. rewrite <- S, <- J.
    apply sure_ask. rewrite C.
    eapply sure_bind_const.
    { unfold read_to_string, bind at 1. rewrite told_ask, R. cbv iota beta.
      rewrite from_utf8_bytes by exact T. reflexivity. }
    exact K.
  Qed.

  (** [include] evaluates the contents of the file here. *)
  Lemma include_runs e r s' :
    parse_script text = SOk e -> evaluates H 0 e s3 r s' -> calls H YInclude [a] s r s'.
  Proof.
    intros P E. apply sure_calls; [apply E|]. cbn [run_builtin]. unfold run_include.
    apply file_read. eapply sure_bind_const; [unfold catch, parse_m; rewrite P; reflexivity|].
    now apply sure_ev.
  Qed.

  Lemma import_runs e r s' :
    parse_script text = SOk e -> evaluates H 0 e s3 r s' ->
    calls H YImport [a] s r (with_env (s_env s1) s').
  Proof.
    intros P E. apply sure_calls; [apply E|]. cbn [run_builtin]. unfold run_import.
    apply (file_read _ (fun n x => bind get_env (fun e0 => in_env e0 (eval H n 0 x)))).
    eapply sure_bind_const; [unfold catch, parse_m; rewrite P; reflexivity|].
    apply sure_get_env. apply sure_ev in E. destruct E as [n0 E]. exists n0. intros n L.
    unfold in_env. specialize (E n L). destruct s3 as [e3 t3 l3] eqn:E3. cbn [s_env s_trace s_log].
    rewrite E. unfold with_env. replace e3 with (s_env s1); [reflexivity|].
    change e3 with (s_env (St e3 t3 l3)). rewrite <- E3. reflexivity.
  Qed.

  Lemma rejected_file k x :
    k = YInclude \/ k = YImport ->
    parse_script text = SError x \/ parse_script text = SFailure x ->
    exists m, calls H k [a] s (RErr (CustomError m)) s3.
  Proof.
    intros K P. exists (lit "could not parse file " ++ c). apply sure_calls; [discriminate|].
    assert (F : forall (run : nat -> expr -> M expr),
      sure (fun n => bind (catch (parse_m text) (fun _ => custom (lit "could not parse file " ++ c))) (run n))
        s3 (RErr (CustomError (lit "could not parse file " ++ c))) s3).
    { intros run. exists 0%nat. intros n _. unfold bind, catch, parse_m. destruct P as [-> | ->]; reflexivity. }
    destruct K as [-> | ->]; cbn [run_builtin].
    - unfold run_include. now apply (file_read _ (fun n => eval H n 0)).
    - unfold run_import. now apply (file_read _ (fun n x => bind get_env (fun e0 => in_env e0 (eval H n 0 x)))).
  Qed.
End Files.

(** A file found and read as the text [text]. *)
Inductive loads (H : host) (a : expr) (s : st) (text : str) : env -> st -> Prop :=
| loads_file v s1 t abs c :
    gives H a s v s1 -> shown H v t -> joined (env_get_cwd (s_env s)) t abs ->
    h_answer H (s_trace s1) (RqCanon abs) = RsPath c ->
    h_answer H (s_trace (told H (RqCanon abs) s1)) (RqRead c) = RsOutput (utf8_bytes text) ->
    Forall character text ->
    loads H a s text (s_env s1) (told H (RqRead c) (told H (RqCanon abs) s1)).

(** [include] evaluates the expression in the file in the scope of the caller:
    same result, same effects, same changes of variables. *)
Theorem C70_include H a s text env1 s3 e r s' :
  loads H a s text env1 s3 -> parse_script text = SOk e ->
  evaluates H 0 e s3 r s' -> calls H YInclude [a] s r s'.
Proof. destruct 1. intros P E. eapply include_runs; eauto. Qed.

(** [import] evaluates it in a copy: same result and effects, but the variables
    of the caller stay as they were when the file was found. *)
Theorem C70_import H a s text env1 s3 e r s' :
  loads H a s text env1 s3 -> parse_script text = SOk e ->
  evaluates H 0 e s3 r s' ->
  exists s4, calls H YImport [a] s r s4
             /\ s_env s4 = env1 /\ s_trace s4 = s_trace s' /\ s_log s4 = s_log s'.
Proof. destruct 1. intros P E. eexists. split; [eapply import_runs; eauto|]. auto. Qed.

(** A file that is not accepted by the parser is not evaluated. *)
Theorem C70_rejected H a s text env1 s3 k x :
  loads H a s text env1 s3 -> k = YInclude \/ k = YImport ->
  parse_script text = SError x \/ parse_script text = SFailure x ->
  exists m, calls H k [a] s (RErr (CustomError m)) s3.
Proof. destruct 1. intros K P. eapply rejected_file; eauto. Qed.

Lemma C70_loads : loads demo_host (EString (lit "f")) demo (lit "text") demo_env
  (told demo_host (RqRead (lit "/tmp/f")) (told demo_host (RqCanon (lit "/tmp/f")) demo)).
Proof.
  apply (loads_file _ _ _ _ (EString (lit "f")) demo (lit "f") (lit "/tmp/f")).
  - apply value_evaluates, value_string.
  - constructor.
  - apply joined_path_join. vm_compute. reflexivity.
  - reflexivity.
  - vm_compute. reflexivity.
  - repeat constructor; vm_compute; congruence.
Qed.

Example C70_example :
  let H := on_disk no_fault (fun _ d => d)
             (Disk (Dir [(lit "tmp", Dir [(lit "f", File (lit "let y = 5; y + 1"));
                                          (lit "g", File (lit "let y = )"))])]) 0) demo_host in
  let run k x := let (r, s) := run_builtin H (eval H 40 0) k [EString (lit x)] demo in
                 (r, env_get (lit "y") (s_env s)) in
  run YInclude "f"%string = (ROk (EInteger 6), Some (EInteger 5))
  /\ run YImport "f"%string = (ROk (EInteger 6), None)
  /\ run YInclude "g"%string = (RErr (CustomError (lit "could not parse file /tmp/g")), None).
Proof. vm_compute. auto. Qed.

(** ** C71: int and str *)

Lemma is_digit_range c : is_digit c = true <-> (48 <= c <= 57)%N.
Proof. unfold is_digit. rewrite andb_true_iff, !N.leb_le. reflexivity. Qed.

Lemma denotes_from_digits d : forall n z,
  denotes_from n d z <->
  forallb is_digit d = true /\ z = fold_left (fun acc c => (10 * acc + (Z.of_N c - 48))%Z) d n.
Proof.
  induction d as [|c d IH]; intros n z; cbn [denotes_from forallb fold_left]; [intuition|].
  rewrite IH, andb_true_iff, is_digit_range. tauto.
Qed.

Lemma in_i64_fits z : in_i64 z = true <-> fits z.
Proof. unfold in_i64, fits, i64_min, i64_max. rewrite andb_true_iff, !Z.leb_le. lia. Qed.

Lemma parse_int_written t z : parse_int_text t = Some z <-> written t z /\ fits z.
Proof.
  assert (NUM : forall (neg : bool) d, let v := if neg then (- digits_val d)%Z else digits_val d in
    match d with
    | [] => None
    | _ => if forallb is_digit d then if in_i64 v then Some v else None else None
    end = Some z <-> d <> [] /\ (exists u, denotes_from 0 d u /\ z = if neg then (- u)%Z else u) /\ fits z).
  { intros neg d v.
    assert (X : (exists u, denotes_from 0 d u /\ z = if neg then (- u)%Z else u) <-> forallb is_digit d = true /\ z = v).
    { split.
      - intros (u & D & ->). apply denotes_from_digits in D. destruct D as [D ->]. auto.
      - intros [D ->]. exists (digits_val d). split; [|reflexivity]. apply denotes_from_digits. auto. }
    rewrite X. destruct d as [|c d]; [intuition discriminate|].
    destruct (forallb is_digit (c :: d)); [|intuition discriminate].
    destruct (in_i64 v) eqn:I.
    - apply in_i64_fits in I. split; [intros [= <-]; split; [discriminate | auto]|].
      now intros (_ & [_ ->] & _).
    - split; [discriminate|]. intros (_ & [_ ->] & F). apply in_i64_fits in F. congruence. }
  assert (W : written t z <->
     (t <> [] /\ (exists u, denotes_from 0 t u /\ z = u))
     \/ (exists d, t = 43%N :: d /\ d <> [] /\ (exists u, denotes_from 0 d u /\ z = u))
     \/ (exists d, t = 45%N :: d /\ d <> [] /\ (exists u, denotes_from 0 d u /\ z = (- u)%Z))).
  { split.
    - destruct 1; [left | right; left | right; right]; eauto 6.
    - intros [(N & u & D & ->)|[(d & -> & N & u & D & ->)|(d & -> & N & u & D & ->)]]; now constructor. }
  assert (P := NUM false t). cbv zeta beta iota in P.
  destruct t as [|c r].
  { cbn. rewrite W. split; [discriminate|]. intros [[(N & _)|[(d & E & _)|(d & E & _)]] _]; congruence. }
  destruct (N.eq_dec c 43) as [->|N43]; [|destruct (N.eq_dec c 45) as [->|N45]].
  - transitivity (match r with [] => None | _ => if forallb is_digit r then if in_i64 (digits_val r) then Some (digits_val r) else None else None end = Some z); [reflexivity|].
    rewrite (NUM false r), W. cbv zeta beta iota. split.
    + intros (N & U & F). split; [|exact F]. right. left. eauto.
    + intros [[(N & u & D & _)|[(d & E & N & U)|(d & E & _)]] F].
      * destruct D as [D _]. lia.
      * inversion E; subst. auto.
      * discriminate.
  - transitivity (match r with [] => None | _ => if forallb is_digit r then if in_i64 (- digits_val r)%Z then Some (- digits_val r)%Z else None else None end = Some z); [reflexivity|].
    rewrite (NUM true r), W. cbv zeta beta iota. split.
    + intros (N & U & F). split; [|exact F]. right. right. eauto.
    + intros [[(N & u & D & _)|[(d & E & _)|(d & E & N & U)]] F].
      * destruct D as [D _]. lia.
      * discriminate.
      * inversion E; subst. auto.
  - transitivity ((if forallb is_digit (c :: r) then if in_i64 (digits_val (c :: r)) then Some (digits_val (c :: r)) else None else None) = Some z).
    { unfold parse_int_text. destruct c as [|p]; [reflexivity|].
      repeat (destruct p as [p|p|]; try reflexivity; try congruence). }
    rewrite P, W. split.
    + intros (N & U & F). auto.
    + intros [[(N & U)|[(d & E & _)|(d & E & _)]] F]; [auto | now inversion E ..].
Qed.

(** [int] of a text gives the integer written there, if there is one in the
    range of 64 bits, and otherwise fails. *)
Theorem C71_int_text H a s t s' :
  gives H a s (EString t) s' ->
  (forall z, written t z -> fits z -> calls H BInt [a] s (ROk (EInteger z)) s')
  /\ ((forall z, written t z -> ~ fits z) -> exists m, calls H BInt [a] s (RErr (CustomError m)) s').
Proof.
  intros A. unfold gives in A. split.
  - intros z W F. assert (P := proj2 (parse_int_written t z) (conj W F)).
    call. unfold run_int. sure_step. rewrite P. apply sure_ret.
  - intros N. destruct (parse_int_text t) as [z|] eqn:P.
    + apply parse_int_written in P. now destruct (N z).
    + eexists. call. unfold run_int. sure_step. rewrite P. apply sure_throw.
Qed.

Lemma digits_is_digit d : digits d -> forallb is_digit d = true.
Proof.
  induction 1 as [|c d C D IH]; [reflexivity|]. cbn [forallb]. rewrite IH, andb_true_r. exact C.
Qed.

Lemma written_z_str z : written (z_str z) z.
Proof.
  assert (W : forall n, n_str n <> [] /\ denotes_from 0 (n_str n) (Z.of_N n)).
  { intros n. destruct (n_str_numeral n) as (D & NE & _). split; [exact NE|].
    apply denotes_from_digits. split; [now apply digits_is_digit|].
    rewrite <- n_str_value, <- digits_val_decimal. reflexivity. }
  unfold z_str. destruct (Z.ltb_spec z 0) as [L|L].
  - destruct (W (Z.to_N (- z))) as [NE D]. rewrite Z2N.id in D by lia.
    replace z with (- - z)%Z at 2 by lia. now constructor.
  - destruct (W (Z.to_N z)) as [NE D]. rewrite Z2N.id in D by lia. now constructor.
Qed.

(** [str] of an integer is a text that [int] turns back into it. *)
Theorem C71_back H a s n s' :
  gives H a s (EInteger n) s' -> fits n ->
  exists t, calls H BStr [a] s (ROk (EString t)) s'
            /\ forall b s1 s2, gives H b s1 (EString t) s2 -> calls H BInt [b] s1 (ROk (EInteger n)) s2.
Proof.
  intros A F. exists (z_str n). split.
  - unfold gives in A. call. unfold run_str. sure_step. apply sure_ret.
  - intros b s1 s2 B. apply (proj1 (C71_int_text _ _ _ _ _ B)); [apply written_z_str | exact F].
Qed.

(** [int] of a float cuts off the fraction; what is beyond the integers of 64
    bits gives the last of them. *)
Theorem C71_int_float H a s neg m e z n s' :
  gives H a s (EFloat (S754_finite neg m e)) s' ->
  whole_part (Z.pos m) e z -> nearest (if neg then - z else z) n ->
  calls H BInt [a] s (ROk (EInteger n)) s'.
Proof.
  intros A W N. unfold gives in A. call. unfold run_int. sure_step.
  assert (E : f64_to_int (S754_finite neg m e) = n); [|rewrite E; apply sure_ret].
  cbn [f64_to_int]. assert (Q : (if (0 <=? e)%Z then (Z.pos m * 2 ^ e)%Z else (Z.pos m / 2 ^ (- e))%Z) = z).
  { destruct W as [L | a0 L R].
    - now rewrite (proj2 (Z.leb_le 0 e) L).
    - rewrite (proj2 (Z.leb_gt 0 e) L). symmetry.
      apply Z.div_unique with (r := (Z.pos m - a0 * 2 ^ (- e))%Z); [left|]; lia. }
  rewrite Q. destruct N as (F & I & L & U). unfold fits in *.
  set (v := if neg then (- z)%Z else z) in *. unfold i64_min, i64_max.
  destruct (Z.ltb_spec v (- 2 ^ 63)); [symmetry; apply L; lia|].
  destruct (Z.ltb_spec (2 ^ 63 - 1) v); [symmetry; apply U; lia|]. symmetry. apply I. lia.
Qed.

Example C71_example :
  value_of "int ""-9223372036854775808""" = ROk (EInteger (- 2 ^ 63))
  /\ value_of "int ""+007""" = ROk (EInteger 7)
  /\ value_of "int (str (0 - 12))" = ROk (EInteger (-12))
  /\ value_of "int 2.75" = ROk (EInteger 2)
  /\ match value_of "int ""9223372036854775808""", value_of "int ""1 """ with
     | RErr _, RErr _ => True
     | _, _ => False
     end.
Proof. vm_compute. auto. Qed.

(** ** C72: variables by name *)

(** [set] stores the expression as it is written; nothing is evaluated. *)
Theorem C72_set H n x v s :
  shown H n x ->
  exists s', calls H YSet [n; v] s (ROk ENone) s'
    /\ env_get x (s_env s') = Some v /\ same_but x (s_env s) (s_env s')
    /\ s_trace s' = s_trace s /\ s_log s' = s_log s.
Proof.
  intros S. apply (proj1 (shown_display _ _ _)) in S. subst x.
  exists (St (env_define (display H n) v (s_env s)) (s_trace s) (s_log s)).
  split; [|split; [|split]]; [| | |auto].
  - call. apply sure_const. reflexivity.
  - cbn [s_env]. rewrite env_get_define, str_eqb_refl. reflexivity.
  - intros y Y. cbn [s_env]. rewrite env_get_define. destruct (str_eqb y (display H n)) eqn:E; [|reflexivity].
    apply str_eqb_eq in E. congruence.
Qed.

(** So the variable does not have the value of the expression. *)
Theorem C72_set_value_refuted :
  exists s, value_of "1 + 2" = ROk (EInteger 3)
    /\ evaluates demo_host 0 (script "sys@set x (1 + 2); x") demo
         (ROk (EGroup (EGroup (EApply (ESymbol (lit "+")) [EInteger 1; EInteger 2])))) s.
Proof. eexists. split; [vm_compute; reflexivity|]. compute_outcome 100%nat. Qed.

(** [unset] and [unbind] take the variable out of the scope; without an outer
    scope it is undefined then. *)
Theorem C72_unset H k n x s :
  k = YUnset /\ shown H n x \/ k = BUnbind /\ (n = ESymbol x \/ n = EString x) ->
  exists s', calls H k [n] s (ROk ENone) s'
    /\ (env_parent (s_env s) = None -> env_get x (s_env s') = None)
    /\ (forall p, env_parent (s_env s) = Some p -> env_get x (s_env s') = env_get x p)
    /\ same_but x (s_env s) (s_env s')
    /\ s_trace s' = s_trace s /\ s_log s' = s_log s.
Proof.
  intros K. exists (St (env_undefine x (s_env s)) (s_trace s) (s_log s)).
  split; [|split; [|split; [|split]]]; [| | | |auto].
  - destruct K as [[-> S] | [-> [-> | ->]]].
    + apply (proj1 (shown_display _ _ _)) in S. subst x. call. apply sure_const. reflexivity.
    + call. apply sure_const. reflexivity.
    + call. apply sure_const. reflexivity.
  - intros P. cbn [s_env]. now rewrite env_get_undefine, str_eqb_refl, P.
  - intros p P. cbn [s_env]. now rewrite env_get_undefine, str_eqb_refl, P.
  - intros y Y. cbn [s_env]. rewrite env_get_undefine. destruct (str_eqb y x) eqn:E; [|reflexivity].
    apply str_eqb_eq in E. congruence.
Qed.

(** [defined?] tells whether the variable has a value. *)
Theorem C72_defined H n x s :
  shown H n x ->
  exists b, calls H YDefined [n] s (ROk (EBoolean b)) s /\ (b = true <-> env_get x (s_env s) <> None).
Proof.
  intros S. apply (proj1 (shown_display _ _ _)) in S. subst x.
  exists (env_is_defined (display H n) (s_env s)). split; [|apply env_is_defined_get].
  call. apply sure_const. reflexivity.
Qed.

Example C72_example :
  value_of "sys@set x 3; x" = ROk (EInteger 3)
  /\ value_of "let x = 5; sys@unset x; sys@defined? x" = ROk (EBoolean false)
  /\ value_of "let x = 5; unbind x; x" = ROk (ESymbol (lit "x"))
  /\ value_of "let x = 5; sys@defined? x" = ROk (EBoolean true)
  /\ env_parent demo_env = None.
Proof. vm_compute. auto 10. Qed.

(** ** C73: exit *)

(** [exit] ends the shell with the given code, if it is an integer of 32 bits,
    and generally with the one that agrees with it in the last 32 bits. *)
Theorem C73_exit H a rest s n s' c :
  gives H a s (EInteger n) s' ->
  (- 2 ^ 31 <= c < 2 ^ 31)%Z -> (exists k, n = c + k * 2 ^ 32)%Z ->
  calls H OExit (a :: rest) s (RExit c) s'.
Proof.
  intros A R [k ->]. unfold gives in A. call. unfold run_exit.
  eapply sure_bind; [apply sure_ev; exact A|]. cbv beta iota.
  replace (as_i32 (c + k * 2 ^ 32)) with c; [now apply sure_const|].
  unfold as_i32. replace (c + k * 2 ^ 32 + 2 ^ 31)%Z with (c + 2 ^ 31 + k * 2 ^ 32)%Z by lia.
  rewrite Z.mod_add by lia. rewrite Z.mod_small; lia.
Qed.

(** Without an argument the code is 0. *)
Theorem C73_exit_plain H s : calls H OExit [] s (RExit 0) s.
Proof. call. now apply sure_const. Qed.

(** What is not an integer is refused. *)
Theorem C73_exit_other H a rest s v s' :
  gives H a s v s' -> (forall n, v <> EInteger n) ->
  exists m, calls H OExit (a :: rest) s (RErr (CustomError m)) s'.
Proof.
  intros A N. unfold gives in A. eexists. call. unfold run_exit.
  eapply sure_bind; [apply sure_ev; exact A|]. cbv beta.
  destruct v; try apply sure_throw; match type of N with forall n, EInteger ?z <> _ => now destruct (N z) end.
Qed.

(** The end of the shell is not caught. *)
Theorem C73_not_caught H a h s c s' :
  evaluates H 0 a s (RExit c) s' -> calls H ETry [a; h] s (RExit c) s'.
Proof.
  intros A. call. unfold run_try. sure_step. eapply sure_bind_const; [reflexivity|].
  eapply sure_bind_const; [reflexivity|]. apply sure_ev in A. destruct A as [n0 A]. exists n0.
  intros n L. unfold catch. now rewrite A.
Qed.

(** ... nor is anything done after it. *)
Theorem C73_last H d l1 a l2 s vs s1 c s' :
  (d <= MAX_DEPTH)%N ->
  evaluates_all H (d + 1) l1 s (ROk vs) s1 -> evaluates H (d + 1) a s1 (RExit c) s' ->
  evaluates H d (EDo (l1 ++ a :: l2)) s (RExit c) s'.
Proof.
  intros L B A. apply rule_do; [exact L|]. right. exists (RExit c). split; [|constructor].
  unfold evaluates_all in *. remember (ROk vs) as r eqn:E. revert vs E.
  induction B as [s | x v s2 l vs0 s s3 X B IH | x r r' l s s2 X F | x v s2 l r r' s s3 X B IH F];
    intros vs' E; cbn [List.app].
  - eapply io_first; [exact A | constructor].
  - eapply io_later; [exact X | eapply IH; eauto | constructor].
  - subst r'. inversion F.
  - subst r'. inversion F.
Qed.

(** "A code other than 0 is reported as such" is false. *)
Theorem C73_code_refuted :
  exists n s, n <> 0%Z /\ fits n /\ calls demo_host OExit [EInteger n] s (RExit 0) s.
Proof.
  exists (2 ^ 32)%Z, demo. split; [discriminate|]. split; [unfold fits; lia|].
  apply (C73_exit _ _ _ _ (2 ^ 32)); [apply value_evaluates, value_int | lia | exists 1%Z; lia].
Qed.

Example C73_example :
  value_of "try (exit 3) (e -> 5)" = RExit 3
  /\ run_demo "exit (0 - 1); echo 1" = (RExit (-1), snd (run_demo "exit (0 - 1)"))
  /\ value_of "exit 4294967299" = RExit 3.
Proof. vm_compute. auto. Qed.

Print Assumptions C68_cd.
Print Assumptions C69_function_refuted.
Print Assumptions C69_sys_cd.
Print Assumptions C69_agree_partial.
Print Assumptions C70_include.
Print Assumptions C70_import.
Print Assumptions C70_rejected.
Print Assumptions C71_int_text.
Print Assumptions C71_back.
Print Assumptions C71_int_float.
Print Assumptions C72_set.
Print Assumptions C72_set_value_refuted.
Print Assumptions C72_unset.
Print Assumptions C72_defined.
Print Assumptions C73_exit.
Print Assumptions C73_exit_plain.
Print Assumptions C73_exit_other.
Print Assumptions C73_not_caught.
Print Assumptions C73_last.
Print Assumptions C73_code_refuted.
