(** C48: pipelines. *)

From Coq Require Import String.
From Verif Require Import Base Syntax Host Ops Parser ErrorFmt Text Monad Builtins Eval
  EvalSpec EvalFacts MapFacts CoreFacts LibFacts LibSpec ListFacts CmdFacts Init Demo.

(** ** Vocabulary *)

(** The name [x] stands for the program [p]: no variable has this name, or the
    variable holds another name. *)
Inductive program_name (e : env) (x : str) : str -> Prop :=
| name_unbound : env_get x e = None -> program_name e x x
| name_alias p : env_get x e = Some (ESymbol p) -> program_name e x p.

(** The expression is a call of a program: a name, alone or with arguments,
    possibly in parentheses or quoted. *)
Inductive program_call (e : env) : expr -> str -> list expr -> Prop :=
| pc_symbol x p : program_name e x p -> program_call e (ESymbol x) p []
| pc_apply x p args : program_name e x p -> program_call e (EApply (ESymbol x) args) p args
| pc_apply_text x p args : program_name e x p -> program_call e (EApply (EString x) args) p args
| pc_quoted p args : program_call e (EApply (EQuote (ESymbol p)) args) p args
| pc_quoted_text p args : program_call e (EApply (EQuote (EString p)) args) p args
| pc_group x p args : program_call e x p args -> program_call e (EGroup x) p args
| pc_quote x p args : program_call e x p args -> program_call e (EQuote x) p args.

Definition not_none (x : expr) : Prop := x <> ENone.

(** [command_of H x s c s']: the stage [x] runs the command [c]; its arguments
    are evaluated, from [s] to [s']. *)
Definition command_of (H : host) (x : expr) (s : st) (c : command) (s' : st) : Prop :=
  exists p args shown vs,
    program_call (s_env s) x p args
    /\ Forall not_none shown /\ shown = filter (fun a => match a with ENone => false | _ => true end) args
    /\ evaluates_all H 0 shown s (ROk vs) s'
    /\ c = Command p (map (display H) vs) (env_get_cwd (s_env s)) (command_envs H (s_env s)).

(** The outside world takes the request and answers. *)
Definition asks (H : host) (rq : request) (s : st) (a : response) (s' : st) : Prop :=
  a = h_answer H (s_trace s) rq /\ s' = St (s_env s) ((rq, a) :: s_trace s) (s_log s).

(** What a stage hands to the next one: a value, and the bytes for the
    standard input of a program. *)
Definition carried := option (expr * list N).
Definition stdin_of (c : carried) : option (list N) := option_map snd c.

(** The output of a program as a value. *)
Inductive output_value (b : list N) : expr -> Prop :=
| ov_text t : from_utf8 b = Some t -> output_value b (EString t)
| ov_bytes : from_utf8 b = None -> output_value b (EBytes b).

(** A value as standard input. *)
Inductive input_bytes (H : host) : expr -> list N -> Prop :=
| ib_bytes b : input_bytes H (EBytes b) b
| ib_other v : (forall b, v <> EBytes b) -> input_bytes H v (utf8_bytes (display H v)).

(** Answers that mean that the program did not run, or could not be given its
    input. *)
Inductive refused (c : carried) : response -> Prop :=
| refused_not_found : refused c RsNotFound
| refused_permission : refused c RsPermission
| refused_failed : refused c RsFailed
| refused_write : c <> None -> refused c RsWriteFailed
| refused_wait : refused c RsWaitFailed.

(** [flows H c l s r s']: running the stages [l] from left to right, the first
    one being handed [c]. *)
Inductive flows (H : host) : carried -> list expr -> st -> res expr -> st -> Prop :=
| flows_end v b s : flows H (Some (v, b)) [] s (ROk v) s
| flows_program c x y l s cmd s1 b v s2 r s3 :
    command_of H x s cmd s1 ->
    asks H (RqStage cmd (stdin_of c) true) s1 (RsOutput b) s2 ->
    output_value b v ->
    flows H (Some (v, b)) (y :: l) s2 r s3 ->
    flows H c (x :: y :: l) s r s3
| flows_last_program v0 b0 x s cmd s1 a s2 :
    command_of H x s cmd s1 ->
    asks H (RqStage cmd (Some b0) false) s1 a s2 ->
    a = RsOk \/ (exists b, a = RsOutput b) ->
    flows H (Some (v0, b0)) [x] s (ROk ENone) s2
| flows_refused c x l s cmd s1 a s2 m :
    command_of H x s cmd s1 ->
    asks H (RqStage cmd (stdin_of c) (match l with [] => false | _ => true end)) s1 a s2 ->
    refused c a ->
    m = (match a with
         | RsWriteFailed => lit "error when piping into process `"
         | RsWaitFailed => lit "error when waiting for process `"
         | _ => lit "could not spawn process `"
         end ++ display H x ++ lit "`") ->
    flows H c (x :: l) s (RErr (CustomError m)) s2
| flows_argument_fails c x l s p args r0 r s1 :
    program_call (s_env s) x p args ->
    evaluates_all H 0 (filter (fun a => match a with ENone => false | _ => true end) args) s r0 s1 ->
    fails r0 r ->
    flows H c (x :: l) s r s1
| flows_function c x l s v b s1 r s2 :
    (forall p args, ~ program_call (s_env s) x p args) ->
    evaluates H 0 (match c with None => x | Some (w, _) => EApply x [w] end) s (ROk v) s1 ->
    input_bytes H v b ->
    flows H (Some (v, b)) l s1 r s2 ->
    flows H c (x :: l) s r s2
| flows_function_fails c x l s r0 r s1 :
    (forall p args, ~ program_call (s_env s) x p args) ->
    evaluates H 0 (match c with None => x | Some (w, _) => EApply x [w] end) s r0 s1 ->
    fails r0 r ->
    flows H c (x :: l) s r s1.

(** ** Facts about the model *)

Lemma stage_args_sure H args s vs s' :
  evaluates_all H 0 (filter (fun a => match a with ENone => false | _ => true end) args) s (ROk vs) s' ->
  sure (fun n => stage_args H (eval H n 0) args) s (ROk (map (display H) vs)) s'.
Proof.
  intros E. unfold stage_args. apply (sure_mapM _ _ (fun n x => bind (eval H n 0 x) (fun v => ret (display H v)))).
  remember (ROk vs) as r eqn:R. revert vs R.
  induction E; intros vs0 R; try (injection R as <-); try discriminate; cbn [map].
  - constructor.
  - econstructor; [eapply sure_ev_bind; [eassumption | apply sure_ret] | ]. exact (IHE _ eq_refl).
  - subst. match goal with X : fails _ (ROk _) |- _ => inversion X end.
  - subst. match goal with X : fails _ (ROk _) |- _ => inversion X end.
Qed.

Lemma stage_args_fails H args s r0 r s' :
  evaluates_all H 0 (filter (fun a => match a with ENone => false | _ => true end) args) s r0 s' ->
  fails r0 r ->
  sure (fun n => stage_args H (eval H n 0) args) s r s'.
Proof.
  unfold stage_args. generalize (filter (fun a => match a with ENone => false | _ => true end) args).
  clear args. intros args E. revert r.
  set (g := fun n x => bind (eval H n 0 x) (fun v => ret (display H v))).
  change (forall r, fails r0 r -> sure (fun n => mapM (g n) args) s r s').
  induction E as [| ? ? ? ? ? ? ? E1 E2 IH | x r1 r2 l s0 s1 E1 E2 | x v s1 l r1 r2 s0 s2 E1 E2 IH F1];
    intros q F; cbn [mapM]; try solve [inversion F].
  - assert (X : forall w : res str, fails r1 w -> sure (fun n => g n x) s0 w s1).
    { intros w W. unfold g. eapply (sure_bind_fails _ _ (fun n => eval H n 0 x)); [| exact W].
      now apply sure_ev. }
    inversion E2; subst; inversion F; subst;
      (eapply (sure_bind_fails _ _ (fun n => g n x) (fun n y => ys <- mapM (g n) l ;; ret (y :: ys)));
       [apply X; constructor | constructor]).
  - eapply (sure_bind _ _ (fun n => g n x) (fun n y => ys <- mapM (g n) l ;; ret (y :: ys))).
    + unfold g. eapply sure_ev_bind; [eassumption | apply sure_ret].
    + inversion F1; subst; inversion F; subst;
        (eapply (sure_bind_fails _ _ (fun n => mapM (g n) l)); [apply IH; constructor | constructor]).
Qed.

Lemma to_command H x s p args : program_call (s_env s) x p args ->
  forall r s', sure (fun n => stage_command H (eval H n 0) p args) s r s' ->
  sure (fun n => expr_to_command H (eval H n 0) x) s r s'.
Proof.
  induction 1 as [x p N | x p args N | x p args N | p args | p args | x p args P IH | x p args P IH];
    intros r s' S; cbn [expr_to_command]; auto;
    (eapply sure_bind_const; [reflexivity |]; cbv beta iota; destruct N as [N | q N]; rewrite N; exact S).
Qed.

Lemma not_command H x s : (forall p args, ~ program_call (s_env s) x p args) ->
  sure (fun n => expr_to_command H (eval H n 0) x) s (ROk None) s.
Proof.
  assert (NAME : forall n x, (forall p args, ~ program_call (s_env s) x p args) ->
            (forall p, program_name (s_env s) n p -> exists q args, program_call (s_env s) x q args) ->
            forall k, sure (fun m => bind get_env (fun e =>
              match env_get n e with Some (ESymbol a) => k m a | Some _ => ret None | None => k m n end))
              s (ROk (@None command)) s).
  { clear. intros n x N P k. eapply sure_bind_const; [reflexivity |]. cbv beta iota.
    destruct (env_get n (s_env s)) as [v |] eqn:E.
    - destruct v; try apply sure_ret. exfalso.
      destruct (P s0) as (q & args & C); [now constructor |]. now apply (N q args).
    - exfalso. destruct (P n) as (q & args & C); [now constructor |]. now apply (N q args). }
  induction x; intros N; cbn [expr_to_command]; try apply sure_ret.
  - apply IHx. intros p args C. apply (N p args). now constructor.
  - apply (NAME s0 (ESymbol s0) N (fun p P => ex_intro _ p (ex_intro _ [] (pc_symbol _ _ _ P)))
             (fun m a => stage_command H (eval H m 0) a [])).
  - destruct x; try apply sure_ret.
    + apply (NAME s0 (EApply (ESymbol s0) args) N
               (fun p P => ex_intro _ p (ex_intro _ args (pc_apply _ _ _ _ P)))
               (fun m a => stage_command H (eval H m 0) a args)).
    + apply (NAME s0 (EApply (EString s0) args) N
               (fun p P => ex_intro _ p (ex_intro _ args (pc_apply_text _ _ _ _ P)))
               (fun m a => stage_command H (eval H m 0) a args)).
    + destruct x; try apply sure_ret; exfalso; eapply N; constructor.
  - apply IHx. intros p args C. apply (N p args). now constructor.
Qed.

Lemma command_of_sure H x s c s' : command_of H x s c s' ->
  sure (fun n => expr_to_command H (eval H n 0) x) s (ROk (Some c)) s'.
Proof.
  intros (p & args & shown & vs & P & _ & -> & E & ->).
  apply (to_command H x s p args P). unfold stage_command.
  eapply sure_bind_const; [reflexivity |]. cbv beta iota.
  eapply (sure_bind _ _ (fun n => stage_args H (eval H n 0) args)); [apply stage_args_sure; exact E |].
  apply sure_ret.
Qed.

(** What the loop of the model holds when it is handed [c]. *)
Definition holds_carried (c : carried) (is_first : bool) (acc : expr * list N) : Prop :=
  match c with
  | None => is_first = true /\ acc = (ENone, [])
  | Some p => is_first = false /\ acc = p
  end.

Definition ends_with_value (f : nat -> M (expr * list N)) (s : st) (r : res expr) (s' : st) : Prop :=
  match r with
  | ROk v => exists b, sure f s (ROk (v, b)) s'
  | RErr e => sure f s (RErr e) s'
  | RPanic p => sure f s (RPanic p) s'
  | RExit c => sure f s (RExit c) s'
  | RFuel => False
  end.

Lemma ends_fails f s (r0 r1 : res expr) r s' : (forall w, fails r0 w -> sure f s w s') -> fails r0 r ->
  ends_with_value f s r s'.
Proof. intros X F. inversion F; subst; cbn; apply X; constructor. Qed.

Lemma ends_bind (f : nat -> M (expr * list N)) k s a s1 r s' :
  sure f s (ROk a) s1 -> ends_with_value (fun n => k n a) s1 r s' ->
  ends_with_value (fun n => bind (f n) (k n)) s r s'.
Proof.
  intros F K. destruct r; cbn in *; try (eapply sure_bind; eassumption); [| contradiction].
  destruct K as [b K]. exists b. eapply sure_bind; eassumption.
Qed.

Lemma flows_sure H c l s r s' : flows H c l s r s' -> forall is_first acc, holds_carried c is_first acc ->
  ends_with_value (fun n => run_stages H (eval H n 0) is_first acc l) s r s'.
Proof.
  induction 1 as [v b s | c x y l s cmd s1 b v s2 r s3 C [A ->] O F IH
    | v0 b0 x s cmd s1 a s2 C [A ->] D | c x l s cmd s1 a s2 m C [A ->] R M
    | c x l s p args r0 r s1 P E F | c x l s v b s1 r s2 NP E B F IH | c x l s r0 r s1 NP E F];
    intros is_first acc HC; cbn [run_stages].
  - destruct HC as [-> ->]. exists b. apply sure_ret.
  - assert (SI : stdin_of c = if is_first then None else Some (snd acc)).
    { destruct c as [[w b'] |]; destruct HC as [-> ->]; reflexivity. }
    eapply (ends_bind (fun n => run_stage H (eval H n 0) is_first false acc x)
              (fun n acc' => run_stages H (eval H n 0) false acc' (y :: l))).
    + unfold run_stage. eapply (sure_bind _ _ (fun n => expr_to_command H (eval H n 0) x));
        [apply command_of_sure; exact C |]. cbv beta iota. cbn [negb]. rewrite <- SI.
      eapply sure_bind_const; [unfold ask; rewrite <- A; reflexivity |]. cbv beta iota. apply sure_ret.
    + apply IH. cbn. split; [reflexivity |]. destruct O as [t T | T]; now rewrite T.
  - destruct HC as [-> ->]. exists [].
    eapply (sure_bind _ _ (fun n => run_stage H (eval H n 0) false true (v0, b0) x)
              (fun n acc' => ret acc')); [| apply sure_ret].
    unfold run_stage. eapply (sure_bind _ _ (fun n => expr_to_command H (eval H n 0) x));
        [apply command_of_sure; exact C |]. cbv beta iota. cbn [negb snd].
    eapply sure_bind_const; [unfold ask; rewrite <- A; reflexivity |]. cbv beta iota.
    destruct D as [-> | [b ->]]; apply sure_ret.
  - assert (SI : stdin_of c = if is_first then None else Some (snd acc)).
    { destruct c as [[w b'] |]; destruct HC as [-> ->]; reflexivity. }
    apply (sure_bind_fails _ _
             (fun n => run_stage H (eval H n 0) is_first (match l with [] => true | _ => false end) acc x)
             (fun n acc' => run_stages H (eval H n 0) false acc' l) s (RErr (CustomError m))); [| constructor].
    unfold run_stage. eapply (sure_bind _ _ (fun n => expr_to_command H (eval H n 0) x));
        [apply command_of_sure; exact C |]. cbv beta iota.
    rewrite <- SI. replace (negb _) with (match l with [] => false | _ => true end) by now destruct l.
    eapply sure_bind_const; [unfold ask; rewrite <- A; reflexivity |]. cbv beta iota. subst m.
    destruct R; try apply sure_throw.
    destruct c; [| congruence]. destruct HC as [-> ->]. apply sure_throw.
  - eapply ends_fails with (r0 := match r0 with RErr e => RErr e | RPanic p => RPanic p | RExit c => RExit c | _ => RFuel end);
      [exact (ROk ENone) | | inversion F; constructor].
    intros w W.
    assert (K : forall w : res (expr * list N), fails r0 w ->
               sure (fun n => run_stage H (eval H n 0) is_first (match l with [] => true | _ => false end) acc x) s w s1).
    { intros w' W'. unfold run_stage.
      assert (Q : forall w : res (option command), fails r0 w ->
                  sure (fun n => expr_to_command H (eval H n 0) x) s w s1).
      { intros w2 W2. apply (to_command H x s p args P). unfold stage_command.
        eapply sure_bind_const; [reflexivity |]. cbv beta iota.
        inversion W2; subst;
          (eapply (sure_bind_fails _ _ (fun n => stage_args H (eval H n 0) args));
           [eapply stage_args_fails; [eassumption | constructor] | constructor]). }
      inversion W'; subst;
        (eapply (sure_bind_fails _ _ (fun n => expr_to_command H (eval H n 0) x));
         [apply Q; constructor | constructor]). }
    inversion F; subst; inversion W; subst;
      (eapply (sure_bind_fails _ _
             (fun n => run_stage H (eval H n 0) is_first (match l with [] => true | _ => false end) acc x)
             (fun n acc' => run_stages H (eval H n 0) false acc' l)); [apply K; constructor | constructor]).
  - eapply (ends_bind (fun n => run_stage H (eval H n 0) is_first (match l with [] => true | _ => false end) acc x)
              (fun n acc' => run_stages H (eval H n 0) false acc' l)).
    + unfold run_stage. eapply (sure_bind _ _ (fun n => expr_to_command H (eval H n 0) x));
        [apply not_command; exact NP |]. cbv beta iota.
      replace (if is_first then x else EApply x [fst acc])
        with (match c with None => x | Some (w, _) => EApply x [w] end)
        by (destruct c as [[w b'] |]; destruct HC as [-> ->]; reflexivity).
      eapply sure_ev_bind; [exact E |]. apply sure_ret.
    + apply IH. cbn. split; [reflexivity |]. f_equal. unfold value_bytes.
      destruct B as [b | v NB]; [reflexivity |]. destruct v; try reflexivity. now destruct (NB b).
  - assert (K : forall w : res (expr * list N), fails r0 w ->
               sure (fun n => run_stage H (eval H n 0) is_first (match l with [] => true | _ => false end) acc x) s w s1).
    { intros w W. unfold run_stage. eapply (sure_bind _ _ (fun n => expr_to_command H (eval H n 0) x));
        [apply not_command; exact NP |]. cbv beta iota.
      replace (if is_first then x else EApply x [fst acc])
        with (match c with None => x | Some (w, _) => EApply x [w] end)
        by (destruct c as [[w' b'] |]; destruct HC as [-> ->]; reflexivity).
      eapply (sure_bind_fails _ _ (fun n => eval H n 0 (match c with None => x | Some (w, _) => EApply x [w] end)));
        [apply sure_ev; exact E | exact W]. }
    inversion F; subst; cbn;
      (eapply (sure_bind_fails _ _
             (fun n => run_stage H (eval H n 0) is_first (match l with [] => true | _ => false end) acc x)
             (fun n acc' => run_stages H (eval H n 0) false acc' l)); [apply K; constructor | constructor]).
Qed.

(** ** C48 *)

(** A pipeline does what [flows] says. *)
Theorem C48_pipeline H x y l s r s' :
  flows H None (x :: y :: l) s r s' -> calls H BPipe (x :: y :: l) s r s'.
Proof.
  intros F. assert (K := flows_sure H _ _ _ _ _ F true (ENone, []) (conj eq_refl eq_refl)).
  assert (NF : r <> RFuel) by (destruct r; cbn in K; congruence).
  apply sure_calls; [exact NF |]. cbn [run_builtin]. unfold run_pipe.
  destruct r; cbn in K; try contradiction.
  - destruct K as [b K].
    eapply (sure_bind _ _ (fun n => run_stages H (eval H n 0) true (ENone, []) (x :: y :: l))
              (fun n acc => ret (fst acc))); [exact K | apply sure_ret].
  - eapply (sure_bind_fails _ _ (fun n => run_stages H (eval H n 0) true (ENone, []) (x :: y :: l))
              (fun n acc => ret (fst acc))); [exact K | constructor].
  - eapply (sure_bind_fails _ _ (fun n => run_stages H (eval H n 0) true (ENone, []) (x :: y :: l))
              (fun n acc => ret (fst acc))); [exact K | constructor].
  - eapply (sure_bind_fails _ _ (fun n => run_stages H (eval H n 0) true (ENone, []) (x :: y :: l))
              (fun n acc => ret (fst acc))); [exact K | constructor].
Qed.

(** [chain H stdin cs tr ok tr']: the commands [cs] are started one after the
    other, each with the output of the one before as its input, and the first
    one that cannot be run ends the chain.  The output of the last one is not
    captured. *)
Inductive chain (H : host) : option (list N) -> list command -> trace -> bool -> trace -> Prop :=
| chain_last stdin c tr a :
    stdin <> None -> a = h_answer H tr (RqStage c stdin false) ->
    a = RsOk \/ (exists b, a = RsOutput b) ->
    chain H stdin [c] tr true ((RqStage c stdin false, a) :: tr)
| chain_more stdin c c' cs tr b ok tr' :
    h_answer H tr (RqStage c stdin true) = RsOutput b ->
    chain H (Some b) (c' :: cs) ((RqStage c stdin true, RsOutput b) :: tr) ok tr' ->
    chain H stdin (c :: c' :: cs) tr ok tr'
| chain_refused stdin c cs tr a :
    let rq := RqStage c stdin (match cs with [] => false | _ => true end) in
    a = h_answer H tr rq ->
    In a [RsNotFound; RsPermission; RsFailed] \/ (stdin <> None /\ a = RsWriteFailed) ->
    chain H stdin (c :: cs) tr false ((rq, a) :: tr).

(** A pipeline of programs with constant arguments. *)
Theorem C48_programs H xs cs s ok tr :
  (2 <= length xs)%nat ->
  Forall2 (fun x c => forall s', s_env s' = s_env s -> command_of H x s' c s') xs cs ->
  chain H None cs (s_trace s) ok tr ->
  if ok then calls H BPipe xs s (ROk ENone) (St (s_env s) tr (s_log s))
  else exists m, calls H BPipe xs s (RErr (CustomError m)) (St (s_env s) tr (s_log s)).
Proof.
  intros L F C.
  assert (K : forall cs stdin t ok tr, chain H stdin cs t ok tr -> forall xs c,
            stdin_of c = stdin ->
            Forall2 (fun x c => forall s', s_env s' = s_env s -> command_of H x s' c s') xs cs ->
            if ok then flows H c xs (St (s_env s) t (s_log s)) (ROk ENone) (St (s_env s) tr (s_log s))
            else exists m, flows H c xs (St (s_env s) t (s_log s)) (RErr (CustomError m))
                             (St (s_env s) tr (s_log s))).
  { clear. induction 1 as [stdin c tr a NE A B | stdin c c' cs tr b ok tr' A C IH | stdin c cs tr a rq A B];
      intros xs car SI F.
    - inversion F as [| x ? xs' ? F1 F2]; subst. inversion F2; subst.
      destruct car as [[v b0] |]; [| now destruct NE]. cbn in *.
      eapply flows_last_program; [apply F1; reflexivity | split; [reflexivity | reflexivity] | exact B].
    - inversion F as [| x ? xs' ? F1 F2]; subst. inversion F2 as [| x2 ? xs2 ? F3 F4]; subst.
      assert (OV : exists v, output_value b v).
      { destruct (from_utf8 b) eqn:E; [exists (EString s0) | exists (EBytes b)]; now constructor. }
      destruct OV as [v OV]. specialize (IH (x2 :: xs2) (Some (v, b)) eq_refl F2).
      assert (STEP : forall r, flows H (Some (v, b)) (x2 :: xs2)
                 (St (s_env s) ((RqStage c (stdin_of car) true, RsOutput b) :: tr) (s_log s)) r
                 (St (s_env s) tr' (s_log s)) ->
               flows H car (x :: x2 :: xs2) (St (s_env s) tr (s_log s)) r (St (s_env s) tr' (s_log s))).
      { intros r R. eapply flows_program; [apply F1; reflexivity | | exact OV | exact R].
        cbn [s_trace]. split; [symmetry; exact A | reflexivity]. }
      destruct ok; [now apply STEP |]. destruct IH as [m IH]. exists m. now apply STEP.
    - inversion F as [| x ? xs' ? F1 F2]; subst.
      assert (Q : (match xs' with [] => false | _ => true end) = match cs with [] => false | _ => true end)
        by (inversion F2; reflexivity).
      eexists. unfold rq. rewrite <- Q. eapply flows_refused; [apply F1; reflexivity | | | reflexivity].
      + split; reflexivity.
      + cbn [s_trace]. rewrite Q. fold rq.
        destruct B as [[B | [B | [B | []]]] | [NE B]]; rewrite <- B || rewrite B; constructor.
        intros ->. now apply NE. }
  assert (X := K cs None (s_trace s) ok tr C xs None eq_refl F).
  replace (St (s_env s) (s_trace s) (s_log s)) with s in X by now destruct s.
  destruct xs as [| x [| y xs]]; cbn in L; try lia.
  destruct ok; [now apply C48_pipeline |]. destruct X as [m X]. exists m. now apply C48_pipeline.
Qed.

Example C48_example :
  value_of "5 | (x -> x + 1)" = ROk (EInteger 6)
  /\ map (fun r => match r with
                   | RqStage c i o => Some (c_prog c, c_args c, i, o)
                   | _ => None
                   end) (effects_of "ls | sort -r | wc")
     = [ Some (lit "ls", [], None, true); Some (lit "sort", [lit "-r"], Some (lit "out"), true);
         Some (lit "wc", [], Some (lit "out"), false) ]
  /\ (exists c, forall s', s_env s' = s_env demo -> command_of demo_host (ESymbol (lit "ls")) s' c s')
  /\ (exists c1 c2 tr, chain demo_host None [c1; c2] [] true tr).
Proof.
  split; [vm_compute; reflexivity |]. split; [vm_compute; reflexivity |]. split.
  - eexists. intros s' E. exists (lit "ls"), [], [], []. split; [| split; [constructor | split; [reflexivity |]]].
    + constructor. apply name_unbound. rewrite E. vm_compute. reflexivity.
    + split; [constructor |]. rewrite E. reflexivity.
  - set (c1 := Command (lit "ls") [] (lit "/") []). exists c1, c1. eexists.
    eapply chain_more; [reflexivity |]. apply chain_last; [discriminate | reflexivity |].
    left. reflexivity.
Qed.

Print Assumptions C48_pipeline.
Print Assumptions C48_programs.
