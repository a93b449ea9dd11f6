(** C49: copying and moving files. *)

From Coq Require Import String List Lia.
From Verif Require Import Base Syntax Host Ops Text Monad Builtins Eval EvalSpec CmdFacts LibFacts
  LibSpec MapFacts Fs FsHost FsSpec FsFacts Demo.
Import ListNotations.

(** When the destination exists, copying and moving fail and change nothing. *)
Theorem C49_cp_existing fault fuel src dst d :
  valid (d_root d) -> present (d_root d) dst -> src <> dst ->
  exists m, copy_path fault (S fuel) src dst d = (FErr m, d).
Proof.
  intros V P N. apply present_lookup in P; auto.
  destruct (copy_path fault (S fuel) src dst d) as [r d'] eqn:E.
  destruct (copy_there _ _ _ _ _ _ _ P N E) as [[m ->] ->]. eauto.
Qed.

Theorem C49_mv_existing fault src dst d :
  valid (d_root d) -> present (d_root d) dst -> src <> dst ->
  exists m, move_path fault src dst d = (FErr m, d).
Proof.
  intros V P N. apply present_lookup in P; auto. unfold move_path.
  apply path_eqb_neq in N. rewrite N. unfold exists_at.
  destruct (lookup dst (d_root d)); [eauto | congruence].
Qed.

(** The source itself as the destination: there is success and no change. *)
Theorem C49_same fault fuel p d :
  copy_path fault (S fuel) p p d = (FOk, d) /\ move_path fault p p d = (FOk, d).
Proof.
  cbn [copy_path]. unfold move_path.
  now rewrite (proj2 (path_eqb_eq p p) eq_refl).
Qed.

(** A copy that finishes changes nothing outside the destination; when it
    succeeds, the source is as it was and the destination is equal to it. *)
Theorem C49_cp_copies fault fuel src dst d r d' :
  valid (d_root d) -> ~ below src dst ->
  copy_path fault fuel src dst d = (r, d') -> r <> FFuel ->
  valid (d_root d')
  /\ same_apart_from dst (d_root d) (d_root d')
  /\ (r = FOk -> present (d_root d) src
                 /\ same_at (d_root d) src (d_root d') src
                 /\ same_at (d_root d) src (d_root d') dst).
Proof.
  intros V B E NF. destruct (copy_done _ _ _ _ _ _ _ V B E NF) as (W & K & OK).
  split; auto. split; [now apply kept_same_apart|]. intros R. destruct (OK R) as ((n & L) & S & Q).
  split; [apply present_lookup; congruence|]. split.
  - apply same_at_kinds; auto. intros q. unfold kinds_at. now rewrite !lookup_app, S.
  - apply same_at_kinds; auto.
Qed.

(** Copying finishes, unless the destination is inside the source. *)
Theorem C49_cp_finishes_partial fault src dst d :
  valid (d_root d) -> ~ below src dst ->
  exists fuel0, forall fuel, fuel0 <= fuel -> fst (copy_path fault fuel src dst d) <> FFuel.
Proof.
  intros V B. exists (S (height (d_root d))). intros fuel L.
  destruct (copy_finishes fault fuel src dst d V B L) as (r & d' & -> & N). exact N.
Qed.

Definition no_fault : nat -> option nat := fun _ => None.

(** An empty directory copied into itself. *)
Lemma into_itself p x fuel : forall d,
  lookup p (d_root d) = Some (Dir []) ->
  fst (copy_path no_fault fuel p (p ++ [x]) d) = FFuel.
Proof.
  revert p. induction fuel as [|fuel IH]; intros p d L; [reflexivity|]. cbn [copy_path].
  assert (N : p <> p ++ [x]).
  { intros E. rewrite <- (app_nil_r p) in E at 1. apply app_inv_head in E. discriminate. }
  apply path_eqb_neq in N. rewrite N. unfold exists_at. rewrite lookup_app, L. cbn [lookup entry].
  unfold is_dir. rewrite L. unfold create_dir_all, no_fault.
  assert (M : exists t, mkdirs (p ++ [x]) (d_root d) = Some t).
  { clear - L. revert L. generalize (d_root d). induction p as [|y p IH]; intros t L.
    - inversion L. cbn. eauto.
    - cbn in L. destruct t as [b|es]; [discriminate|].
      cbn. destruct (entry y es); [|discriminate]. destruct (IH _ L) as [u ->]. eauto. }
  destruct M as [t M]. rewrite M. cbn [with_root].
  assert (NEW : lookup (p ++ [x]) t = Some (Dir [])).
  { apply (mkdirs_new _ _ _ M). now rewrite lookup_app, L. }
  assert (P : lookup p t = Some (Dir [(x, Dir [])])).
  { clear - M L. revert M L. generalize (d_root d) as u. revert t. induction p as [|y p IH]; intros t u M L.
    - inversion L; subst. cbn in M. inversion M. reflexivity.
    - cbn in L. destruct u as [b|es]; [discriminate|]. cbn in M.
      destruct (entry y es); [|discriminate]. destruct (mkdirs (p ++ [x]) n) eqn:E; inversion M; subst.
      cbn. rewrite entry_set_same. eapply IH; eauto. }
  unfold read_dir. cbn [d_root]. rewrite P. cbn [map fst copy_entries next_entry].
  set (d2 := Disk _ _).
  specialize (IH (p ++ [x]) d2 NEW).
  destruct (copy_path (fun _ : nat => None) fuel (p ++ [x]) ((p ++ [x]) ++ [x]) d2) as [r d3] eqn:E.
  unfold no_fault in IH. rewrite E in IH. cbn in IH. subst r. reflexivity.
Qed.

(** "cp always finishes" is false: a directory copied into itself is copied
    again inside every copy. *)
Theorem C49_cp_finishes_refuted :
  exists src dst d, valid (d_root d) /\ forall fuel, fst (copy_path no_fault fuel src dst d) = FFuel.
Proof.
  exists [lit "a"], [lit "a"; lit "b"], (Disk (Dir [(lit "a", Dir [])]) 0). split.
  - constructor.
    + constructor; [intros [] | constructor].
    + intros x n [E|[]]. inversion E. constructor; [constructor | contradiction].
  - intros fuel. now apply (into_itself [lit "a"] (lit "b")).
Qed.

(** A move that succeeds takes the source away and makes the destination equal
    to what it was; nothing else changes.  One that fails changes nothing. *)
Theorem C49_mv_moves fault src dst d r d' :
  valid (d_root d) -> ~ present (d_root d) dst ->
  move_path fault src dst d = (r, d') -> src <> dst ->
  (r = FOk /\ present (d_root d) src
   /\ same_at (d_root d) src (d_root d') dst
   /\ (forall q, below src q -> ~ present (d_root d') q)
   /\ forall q k, ~ below dst q -> ~ below src q -> holds (d_root d') q k <-> holds (d_root d) q k)
  \/ (exists m, r = FErr m) /\ d_root d' = d_root d.
Proof.
  intros V F E N. unfold move_path in E. apply path_eqb_neq in N. rewrite N in E.
  assert (FREE : lookup dst (d_root d) = None).
  { destruct (lookup dst (d_root d)) eqn:L; auto. destruct F. apply present_lookup; congruence. }
  unfold exists_at in E. rewrite FREE in E.
  destruct (rename fault src dst d) as [b d1] eqn:R. apply rename_free in R; auto.
  destruct b; inversion E; subst; [left | right; eauto].
  destruct R as (n & u & L & B & P & C).
  assert (VN := lookup_valid _ _ _ V L).
  assert (VU := put_valid _ _ _ _ P V VN). assert (W := cut_valid _ _ _ C VU).
  destruct (move_lookups _ _ _ _ _ _ L FREE B P C) as (A1 & A2 & A3).
  split; auto. split; [apply present_lookup; congruence|]. split; [|split].
  - apply same_at_kinds; auto. intros q. rewrite (kinds_lookup _ q _ _ L). unfold kinds_at.
    now rewrite A1.
  - intros q [x ->] X. apply present_lookup in X; auto.
  - intros q k X Y. specialize (A3 q X Y). rewrite !holds_lookup by assumption.
    destruct (lookup q (d_root d')), (lookup q (d_root d)); try discriminate; inversion A3.
    + split; intros (m & G & K); inversion G; subst; eauto.
    + reflexivity.
Qed.

Definition some_files : disk :=
  Disk (Dir [(lit "a", Dir [(lit "x", File [1; 2]%N); (lit "d", Dir [(lit "y", File [])])]);
             (lit "b", File [3]%N)]) 0.

Example C49_example :
  let a := [lit "a"] in let b := [lit "b"] in let c := [lit "n"; lit "c"] in
  let copied := snd (copy_path no_fault 9 a c some_files) in
  fst (copy_path no_fault 9 a c some_files) = FOk
  /\ lookup c (d_root copied) = lookup a (d_root some_files)
  /\ lookup [lit "n"; lit "c"; lit "d"; lit "y"] (d_root copied) = Some (File [])
  /\ fst (copy_path no_fault 9 a b some_files) = FErr (lit "destination /b already exists")
  /\ fst (move_path no_fault b [lit "a"; lit "b"] some_files) = FOk
  /\ fst (move_path no_fault a [lit "a"; lit "b"] some_files) = FErr (lit "could not move /a to /a/b")
  (* a copy that fails halfway stays *)
  /\ (let halfway := copy_path (fun k => if Nat.eqb k 3 then Some 2 else None) 9 a c some_files in
      fst halfway = FErr (lit "could not copy file /a/x to /n/c/x")
      /\ lookup [lit "n"; lit "c"] (d_root (snd halfway)) = Some (Dir [(lit "x", File [1]%N)])).
Proof. vm_compute. repeat split. Qed.

Lemma some_files_valid : valid (d_root some_files).
Proof.
  repeat (constructor; cbn; [repeat (constructor; [cbn; intuition discriminate |]); constructor
                            | intros ? ? K; repeat (destruct K as [K|K]; [inversion K; subst; clear K|]);
                              try contradiction]); constructor.
Qed.

(** ** In the shell *)

Section Shell.
  Variables (fault : nat -> option nat) (other : request -> disk -> disk) (d0 : disk) (H : host).

  (** A shell whose file system starts as [d0]. *)
  Let H' := on_disk fault other d0 H.
  (** The files in a state of the shell. *)
  Definition files (u : st) : node := d_root (disk_after fault other d0 (s_trace u)).

  Lemma two_paths k name a b s x s1 y s2 tx ty src dst r d' :
    (k = KCp /\ name = lit "cp" /\
       copy_path fault (S (height (files s2))) src dst (disk_after fault other d0 (s_trace s2)) = (r, d')
     \/ k = KMv /\ name = lit "mv" /\
       move_path fault src dst (disk_after fault other d0 (s_trace s2)) = (r, d')) ->
    gives H' a s x s1 -> gives H' b s1 y s2 -> shown H' x tx -> shown H' y ty ->
    leads (env_get_cwd (s_env s)) tx src -> leads (env_get_cwd (s_env s)) ty dst ->
    exists s', calls H' k [a; b] s (match r with FErr m => RErr (CustomError m) | _ => ROk ENone end) s'
               /\ files s' = d_root d'.
  Proof.
    intros C A B SA SB LA LB. unfold gives in *.
    apply (proj1 (shown_display _ _ _)) in SA. apply (proj1 (shown_display _ _ _)) in SB. subst tx ty.
    apply (proj1 (leads_join _ _ _)) in LA. apply (proj1 (leads_join _ _ _)) in LB.
    set (rq := RqFsOp name [path_join (env_get_cwd (s_env s)) (display H' x);
                            path_join (env_get_cwd (s_env s)) (display H' y)]).
    assert (SV : serve fault rq (disk_after fault other d0 (s_trace s2)) = Some (answer r, d')).
    { unfold rq. destruct C as [(_ & -> & C)|(_ & -> & C)]; cbn [serve];
        [ change (str_eqb (lit "cp") (lit "cp")) with true
        | change (str_eqb (lit "mv") (lit "cp")) with false; change (str_eqb (lit "mv") (lit "mv")) with true ];
        cbv iota; rewrite <- LA, <- LB; unfold files in C; cbv zeta; rewrite C; reflexivity. }
    assert (HA : h_answer H' (s_trace s2) rq = answer r).
    { unfold H', on_disk. cbn [h_answer with_answer]. now rewrite SV. }
    exists (St (s_env s2) ((rq, answer r) :: s_trace s2) (s_log s2)). split.
    2: { unfold files. cbn [s_trace disk_after]. unfold next. rewrite SV. reflexivity. }
    apply sure_calls; [destruct r; discriminate |].
    assert (K : forall n, run_builtin H' (eval H' n 0) k [a; b] = run_two_paths H' (eval H' n 0) name [a; b]).
    { intros n. destruct C as [(-> & -> & _)|(-> & -> & _)]; reflexivity. }
    apply (sure_ext _ _ (fun n => run_two_paths H' (eval H' n 0) name [a; b])); [intros n; now rewrite K|].
    unfold run_two_paths, path_arg.
    sure_step. eapply sure_bind_const; [reflexivity |]. cbv beta.
    eapply (sure_bind _ _ (fun n => bind (ev_arg (eval H' n 0) [a; b] 0)
               (fun v => ret (path_join (env_get_cwd (s_env s)) (display H' v))))).
    { sure_step. apply sure_ret. }
    eapply (sure_bind _ _ (fun n => bind (ev_arg (eval H' n 0) [a; b] 1)
               (fun v => ret (path_join (env_get_cwd (s_env s)) (display H' v))))).
    { sure_step. apply sure_ret. }
    eapply sure_bind_const.
    { unfold ask. fold rq. rewrite HA. reflexivity. }
    destruct r; cbn [answer]; cbv iota; repeat sure_step.
  Qed.

  (** [fs@cp]: the arguments are evaluated, and then the tree at the one path is
      copied to the other. *)
  Theorem C49_shell_cp a b s x s1 y s2 tx ty src dst :
    gives H' a s x s1 -> gives H' b s1 y s2 -> shown H' x tx -> shown H' y ty ->
    leads (env_get_cwd (s_env s)) tx src -> leads (env_get_cwd (s_env s)) ty dst ->
    valid (files s2) -> ~ below src dst ->
    exists r s',
      calls H' KCp [a; b] s r s' /\ valid (files s')
      /\ same_apart_from dst (files s2) (files s')
      /\ (present (files s2) dst -> (exists m, r = RErr (CustomError m)) /\ files s' = files s2)
      /\ (r = ROk ENone /\ present (files s2) src
          /\ same_at (files s2) src (files s') src /\ same_at (files s2) src (files s') dst
          \/ exists m, r = RErr (CustomError m)).
  Proof.
    intros A B SA SB LA LB V NB.
    set (d := disk_after fault other d0 (s_trace s2)).
    destruct (copy_path fault (S (height (files s2))) src dst d) as [r d'] eqn:E.
    destruct (two_paths KCp (lit "cp") a b s x s1 y s2 tx ty src dst r d') as (s' & C & F); auto.
    assert (NF : r <> FFuel).
    { destruct (copy_finishes fault (S (height (files s2))) src dst d) as (r' & d'' & E' & NF); auto.
      fold d in E. rewrite E in E'. inversion E'; subst. exact NF. }
    destruct (C49_cp_copies _ _ _ _ _ _ _ V NB E NF) as (W & S & OK).
    rewrite <- F in W, S, OK. eexists _, s'. split; [exact C|].
    split; auto. split; auto. split.
    - intros P. destruct (C49_cp_existing fault (height (files s2)) src dst d V P) as [m E'].
      + intros ->. apply NB, below_refl.
      + rewrite E in E'. inversion E'; subst. split; eauto.
    - destruct r; [| right; eauto | congruence]. left. split; auto.
  Qed.

  (** [fs@mv]. *)
  Theorem C49_shell_mv a b s x s1 y s2 tx ty src dst :
    gives H' a s x s1 -> gives H' b s1 y s2 -> shown H' x tx -> shown H' y ty ->
    leads (env_get_cwd (s_env s)) tx src -> leads (env_get_cwd (s_env s)) ty dst ->
    valid (files s2) -> src <> dst ->
    exists r s',
      calls H' KMv [a; b] s r s'
      /\ ((exists m, r = RErr (CustomError m)) /\ files s' = files s2
          \/ r = ROk ENone /\ ~ present (files s2) dst /\ present (files s2) src
             /\ same_at (files s2) src (files s') dst
             /\ (forall q, below src q -> ~ present (files s') q)
             /\ forall q k, ~ below dst q -> ~ below src q ->
                  holds (files s') q k <-> holds (files s2) q k).
  Proof.
    intros A B SA SB LA LB V N.
    set (d := disk_after fault other d0 (s_trace s2)).
    destruct (move_path fault src dst d) as [r d'] eqn:E.
    destruct (two_paths KMv (lit "mv") a b s x s1 y s2 tx ty src dst r d') as (s' & C & F); auto.
    eexists _, s'. split; [exact C|]. rewrite F.
    destruct (lookup dst (files s2)) as [n|] eqn:L.
    - destruct (C49_mv_existing fault src dst d V) as [m E']; auto.
      + apply present_lookup; auto. unfold files in L. fold d in L. congruence.
      + rewrite E in E'. inversion E'; subst. left. eauto.
    - assert (P : ~ present (files s2) dst) by (intros P; apply present_lookup in P; auto).
      destruct (C49_mv_moves _ _ _ _ _ _ V P E N) as [(-> & X)|[[m ->] X]].
      + right. split; auto.
      + left. split; eauto.
  Qed.
End Shell.

Print Assumptions C49_cp_existing.
Print Assumptions C49_mv_existing.
Print Assumptions C49_same.
Print Assumptions C49_cp_copies.
Print Assumptions C49_cp_finishes_partial.
Print Assumptions C49_cp_finishes_refuted.
Print Assumptions C49_mv_moves.
Print Assumptions C49_shell_cp.
Print Assumptions C49_shell_mv.
