(** C76, C77, C78: listings of directories. *)

From Coq Require Import String List Lia.
From Verif Require Import Base Syntax Host Ops Text Monad Builtins Eval EvalSpec CmdFacts LibFacts
  LibSpec MapFacts EvalFacts Fs FsHost FsSpec FsFacts SysSpec P_Sys P_Fs P_Files DictFacts DirSpec Demo.
Import ListNotations.

(** ** Paths *)

Lemma str_split_path s : str_split [47%N] s = split_path [] s.
Proof.
  unfold str_split. generalize (@nil chr). induction s as [| c s IH]; intros cur; [reflexivity |].
  cbn [split_go split_path starts_with].
  unfold starts_with. cbn [strip_prefix]. rewrite (N.eqb_sym 47 c).
  destruct (c =? 47)%N; [f_equal |]; apply IH.
Qed.

Lemma found_lookup n p m : valid n -> (found n p m <-> lookup p n = Some m).
Proof.
  intros V. split.
  - intros F. revert V. induction F as [| es x n p m I F IH]; intros V; [reflexivity |].
    inversion V as [| es' ND VS]; subst. cbn [lookup]. rewrite (in_entry x n es ND I). apply IH. eauto.
  - clear V. revert n. induction p as [| x p IH]; cbn [lookup]; intros n E.
    + inversion E. constructor.
    + destruct n as [| es]; [discriminate |]. destruct (entry x es) as [k |] eqn:EE; [| discriminate].
      econstructor; [apply entry_in, EE | auto].
Qed.

(** Reversed paths: [trim_path] drops what does not count. *)
Lemma components_dot a : components (a ++ [47; 46]%N) = components a.
Proof. change ([47;46]%N) with (47%N :: [46%N]). rewrite components_app. change (components [46%N]) with (@nil str). apply app_nil_r. Qed.

Lemma components_end a : components (a ++ [47%N]) = components a.
Proof. rewrite (components_app a []). apply app_nil_r. Qed.

Lemma split_path_none x : forall cur, ~ In 47%N x -> split_path cur x = [rev cur ++ x].
Proof.
  induction x as [| c x IH]; intros cur N; cbn [split_path]; [now rewrite app_nil_r |].
  destruct (N.eqb_spec c 47) as [-> | C]; [destruct N; now left |].
  rewrite IH by (intros I; apply N; now right). cbn [rev]. now rewrite <- app_assoc.
Qed.

Lemma components_name x : x <> [] -> x <> lit "." -> ~ In 47%N x -> components x = [x].
Proof.
  intros A B C. unfold components. rewrite split_path_none by exact C. cbn [rev List.app filter].
  destruct (str_eqb x []) eqn:E; [now apply str_eqb_eq in E |].
  destruct (str_eqb x (lit ".")) eqn:E2; [now apply str_eqb_eq in E2 |]. reflexivity.
Qed.

Lemma trim_path_cons c r :
  trim_path (c :: r) =
    if (c =? 47)%N then match r with [] => c :: r | _ => trim_path r end
    else if (c =? 46)%N then match r with d :: _ => if (d =? 47)%N then trim_path r else c :: r | [] => c :: r end
    else c :: r.
Proof.
  destruct (N.eqb_spec c 47) as [-> | C]; [now destruct r |].
  destruct (N.eqb_spec c 46) as [-> | D].
  - destruct r as [| d r]; [reflexivity |]. rewrite <- (is_slash d). reflexivity.
  - cbn [trim_path]. destruct c as [| q]; auto. do 6 (destruct q as [q | q |]; auto); congruence.
Qed.

(** What the trimmed path looks like. *)
Inductive trimmed_path : str -> Prop :=
| tp_root : trimmed_path [47%N]
| tp_name x r : x <> [] -> x <> lit "." -> ~ In 47%N x -> trimmed_path (x ++ 47%N :: r).

Lemma trim_path_spec r0 : absolute (rev r0) ->
  components (rev (trim_path r0)) = components (rev r0)
  /\ absolute (rev (trim_path r0)) /\ trimmed_path (trim_path r0).
Proof.
  (* [r0] ends with a separator *)
  intros [t A].
  assert (exists u, r0 = u ++ [47%N]) as [u ->].
  { exists (rev t). apply (f_equal (@rev chr)) in A. rewrite rev_involutive in A. exact A. }
  clear t A.
  assert (G : forall n u, length u <= n ->
    components (rev (trim_path (u ++ [47%N]))) = components (rev (u ++ [47%N]))
    /\ absolute (rev (trim_path (u ++ [47%N]))) /\ trimmed_path (trim_path (u ++ [47%N]))).
  { clear u. induction n as [| n IH]; intros u L.
    - destruct u; [| cbn in L; lia]. cbn. split; [reflexivity |]. split; [now eexists | constructor].
    - destruct u as [| c u]; [apply (IH []); cbn; lia |]. cbn [length] in L.
      cbn [List.app]. rewrite trim_path_cons.
      destruct (N.eqb_spec c 47) as [-> | C].
      + destruct (u ++ [47%N]) as [| d w] eqn:E; [now destruct u |]. rewrite <- E.
        destruct (IH u ltac:(lia)) as (P & Q & R). split; [| now split].
        rewrite P. cbn [rev]. now rewrite components_end.
      + assert (STOP : components (rev (c :: u ++ [47%N])) = components (rev (c :: u ++ [47%N]))
          /\ absolute (rev (c :: u ++ [47%N])) /\
          ((c <> 46%N \/ hd_error (u ++ [47%N]) <> Some 47%N) -> trimmed_path (c :: u ++ [47%N]))).
        { split; [reflexivity |]. split.
          - exists (rev u ++ [c]). cbn [rev]. rewrite rev_app_distr. reflexivity.
          - intros D.
            assert (S : exists x r, u ++ [47%N] = x ++ 47%N :: r /\ ~ In 47%N x).
            { clear. induction u as [| d u (x & r & E & N)]; [now exists [], [] |].
              destruct (N.eqb_spec d 47) as [-> | D]; [exists [], (u ++ [47%N]); auto |].
              exists (d :: x), r. cbn [List.app]. rewrite E. split; [reflexivity |].
              intros [X | X]; congruence || auto. }
            destruct S as (x & r & E & N). rewrite E in *.
            change (c :: x ++ 47%N :: r) with ((c :: x) ++ 47%N :: r). constructor.
            + discriminate.
            + intros X. inversion X; subst. destruct D as [D | D]; [congruence |]. now apply D.
            + intros [X | X]; congruence || auto. }
        destruct STOP as (S1 & S2 & S3).
        destruct (N.eqb_spec c 46) as [-> | D].
        * destruct (u ++ [47%N]) as [| d w] eqn:E; [now destruct u |]. cbn [N.eqb Pos.eqb].
          destruct (N.eqb_spec d 47) as [-> | D2].
          -- rewrite <- E. destruct (IH u ltac:(lia)) as (P & Q & R). split; [| now split].
             rewrite P, E. cbn [rev]. rewrite <- app_assoc. cbn [List.app].
             now rewrite components_dot, components_end.
          -- split; [exact S1 |]. split; [exact S2 |]. apply S3. right. cbn. congruence.
        * split; [exact S1 |]. split; [exact S2 |]. apply S3. now left. }
  apply (G (length u)); lia.
Qed.

Lemma span_name x r : ~ In 47%N x ->
  span (fun c => negb (c =? 47)%N) (x ++ 47%N :: r) = (x, 47%N :: r).
Proof.
  induction x as [| c x IH]; intros N; cbn [List.app span]; [reflexivity |].
  destruct (N.eqb_spec c 47) as [-> | C]; [destruct N; now left |]. cbn [negb].
  rewrite IH; [reflexivity | intros I; apply N; now right].
Qed.

Lemma parent_spec p : absolute p ->
  match path_parent p with Some q => one_up p q | None => components p = [] end.
Proof.
  intros A. destruct (trim_path_spec (rev p)) as (C & B & T); [now rewrite rev_involutive |].
  rewrite rev_involutive in C. unfold path_parent. revert C B T. generalize (trim_path (rev p)).
  intros t C B T. destruct T as [| x r X1 X2 X3]; [now rewrite <- C |].
  match goal with |- match ?m with _ => _ end => assert (N : m = Some (rev (trim_path (47%N :: r)))) end.
  { pose proof (span_name x r X3) as SP. destruct x as [| c x]; [congruence |]. cbn [List.app] in *.
    destruct (x ++ 47%N :: r) eqn:D; [now destruct x |]. unfold str, chr in *. rewrite D in SP.
    destruct c as [| q]; [now rewrite SP |]. do 6 (destruct q as [q | q |]; try now rewrite SP). }
  rewrite N. clear N.
    destruct (trim_path_spec (47%N :: r)) as (C2 & B2 & _).
    { destruct B as [t B]. rewrite rev_app_distr in B. cbn [rev] in *. unfold str, chr in *.
      destruct (rev r) as [| d w]; [exists []; reflexivity |]. cbn [List.app] in *. inversion B. now eexists. }
    split; [exact B2 |]. exists (rev x). rewrite C2, <- C, rev_app_distr. cbn [rev].
    rewrite components_end, <- app_assoc. cbn [List.app]. rewrite components_app. f_equal.
    apply components_name.
    + intros R. apply X1. apply (f_equal (@rev chr)) in R. now rewrite rev_involutive in R.
    + intros R. apply X2. apply (f_equal (@rev chr)) in R. now rewrite rev_involutive in R.
    + intros I. apply X3. now apply in_rev.
Qed.

Lemma join_relative a b : hd_error b <> Some 47%N ->
  components (path_join a b) = components a ++ components b.
Proof.
  intros R. rewrite path_join_eq. destruct b as [| c b]; [apply components_join |].
  destruct (N.eqb_spec c 47) as [-> | C]; [now destruct R | apply components_join].
Qed.

Lemma join_head_none b : hd_error b <> Some 47%N -> path_join [] b = b.
Proof.
  intros R. rewrite path_join_eq. destruct b as [| c b]; [reflexivity |]. now destruct (c =? 47)%N.
Qed.

Lemma join_head d a b : hd_error b <> Some 47%N -> exists w, path_join (d :: a) b = d :: w.
Proof.
  intros R. rewrite path_join_eq.
  assert (E : exists w, match rev (d :: a) with
                        | [] => b
                        | x :: _ => if (x =? 47)%N then (d :: a) ++ b else (d :: a) ++ [47%N] ++ b
                        end = d :: w).
  { destruct (rev (d :: a)) as [| y w] eqn:Q.
    - apply (f_equal (@rev chr)) in Q. rewrite rev_involutive in Q. discriminate.
    - destruct (y =? 47)%N; eexists; reflexivity. }
  destruct b as [| c b]; [exact E |].
  destruct (N.eqb_spec c 47) as [-> | C]; [now destruct R | exact E].
Qed.

Lemma get_fold_nodup {A} (l : list (str * A)) : forall m k,
  NoDup (map fst l) ->
  (forall v, In (k, v) l -> bm_get k (fold_left (fun m kv => bm_insert (fst kv) (snd kv) m) l m) = Some v)
  /\ (~ In k (map fst l) -> bm_get k (fold_left (fun m kv => bm_insert (fst kv) (snd kv) m) l m) = bm_get k m).
Proof.
  induction l as [| [x w] l IH]; intros m k N; cbn [fold_left fst snd map] in *; [split; [intros v [] | auto] |].
  inversion N as [| y r N1 N2]; subst. split.
  - intros v [I | I].
    + inversion I; subst. rewrite (proj2 (IH _ _ N2)) by exact N1. now rewrite bm_get_insert, str_eqb_refl.
    + now apply IH.
  - intros NI. rewrite (proj2 (IH _ _ N2)) by (intros I; apply NI; now right).
    rewrite bm_get_insert. destruct (str_eqb k x) eqn:E; [| reflexivity].
    apply str_eqb_eq in E. subst x. destruct NI. now left.
Qed.

(** The items of the map for a directory. *)
Lemma dir_map p q (l : list (str * expr)) :
  path_parent p = Some q -> NoDup (map fst l) -> ~ In (lit ".") (map fst l) -> ~ In (lit "..") (map fst l) ->
  exists m,
    fold_left (fun m kv => bm_insert (fst kv) (snd kv) m) l
      (bm_of_list ((lit ".", EString p)
         :: match path_parent p with Some q => [(lit "..", EString q)] | None => [] end)) = m
    /\ NoDup (map fst m)
    /\ forall k v, In (k, v) m <-> (k, v) = (lit ".", EString p) \/ (k, v) = (lit "..", EString q) \/ In (k, v) l.
Proof.
  intros P N D1 D2. eexists. split; [reflexivity |]. rewrite P.
  set (m0 := bm_of_list _). set (m := fold_left _ _ _).
  assert (S0 : sorted m0) by apply sorted_of_list.
  assert (S : sorted m) by (apply sorted_fold_insert; exact S0).
  split; [now apply sorted_keys_NoDup |]. intros k v. rewrite in_get by exact S.
  destruct (get_fold_nodup l m0 k N) as [G1 G2]. fold m in G1, G2.
  assert (G0 : bm_get k m0 = if str_eqb k (lit "..") then Some (EString q)
                             else if str_eqb k (lit ".") then Some (EString p) else None).
  { unfold m0, bm_of_list. cbn [fold_left fst snd]. now rewrite !bm_get_insert. }
  destruct (in_dec (list_eq_dec N.eq_dec) k (map fst l)) as [I | I].
  - apply in_map_iff in I. destruct I as ([k1 w] & E & I). cbn in E. subst k1. rewrite (G1 w I). split.
    + intros E. inversion E; subst. auto.
    + intros [E | [E | J]].
      * inversion E; subst. destruct D1. apply in_map_iff. now exists (lit ".", w).
      * inversion E; subst. destruct D2. apply in_map_iff. now exists (lit "..", w).
      * specialize (G1 v J). specialize (get_fold_nodup l m0 k N). intros [G3 _]. rewrite <- (G3 w I). now fold m.
  - rewrite (G2 I), G0. split.
    + destruct (str_eqb k (lit "..")) eqn:E1; [apply str_eqb_eq in E1; subst; intros E; inversion E; auto |].
      destruct (str_eqb k (lit ".")) eqn:E2; [apply str_eqb_eq in E2; subst; intros E; inversion E; auto | discriminate].
    + intros [E | [E | J]].
      * inversion E; subst. reflexivity.
      * inversion E; subst. reflexivity.
      * destruct I. apply in_map_iff. now exists (k, v).
Qed.

(** ** C76: listing a directory *)

Section Shell.
  Variables (fault : nat -> option nat) (other : request -> disk -> disk) (d0 : disk) (H : host).
  Let H' := on_disk fault other d0 H.
  Let files := files fault other d0.
  Let disk_of (s : st) := disk_after fault other d0 (s_trace s).

  Let after (rq : request) (rs : response) (s : st) : st := St (s_env s) ((rq, rs) :: s_trace s) (s_log s).

  Lemma ask_served rq s rs d' :
    serve fault rq (disk_of s) = Some (rs, d') ->
    ask H' rq s = (ROk rs, after rq rs s) /\ disk_of (after rq rs s) = d'.
  Proof.
    intros S. unfold ask, H', on_disk. cbn [h_answer with_answer]. unfold disk_of in *. rewrite S. split; auto.
    unfold after. cbn [s_trace disk_after]. unfold next. now rewrite S.
  Qed.

  Lemma list_entries_spec short names : forall d,
    let (o, d') := list_entries fault short names d in
    d_root d' = d_root d
    /\ match o with
       | Some l => l = map (path_join short) names
       | None => ~ (forall k, fault k = None)
       end.
  Proof.
    induction names as [| x r IH]; intros d; cbn [list_entries]; [split; reflexivity |].
    unfold next_entry. destruct (fault (d_tick d)) as [f |] eqn:F.
    - split; [reflexivity |]. intros N. rewrite N in F. discriminate.
    - specialize (IH (Disk (d_root d) (S (d_tick d)))).
      destruct (list_entries fault short r _) as [[l |] d2]; destruct IH as [R E]; (split; [exact R |]);
        [now rewrite E | exact E].
  Qed.

  (** The listing names exactly the entries of a directory, each once, or there
      is an error of the operating system; the listing of a file is its path;
      otherwise there is an error.  No file changes. *)
  Theorem C76_ls a s x s1 tx p abs :
    gives H' a s x s1 -> shown H' x tx ->
    leads (env_get_cwd (s_env s)) tx p -> joined (env_get_cwd (s_env s)) tx abs ->
    valid (files s1) ->
    exists r s',
      calls H' KLs [a] s r s' /\ files s' = files s1
      /\ (holds (files s1) p KDir ->
            (exists names ts, r = ROk (EList (map EString ts)) /\ Forall2 (joined tx) names ts
               /\ NoDup names /\ forall n, In n names <-> present (files s1) (p ++ [n]))
            \/ (exists m, r = RErr (CustomError m)) /\ ~ (forall k, fault k = None))
      /\ (forall c, holds (files s1) p (KFile c) -> r = ROk (EList [EString abs]))
      /\ (~ present (files s1) p -> exists m, r = RErr (CustomError m)).
  Proof.
    intros A S L J V. apply (proj1 (shown_display _ _ _)) in S. subst tx.
    apply (proj1 (leads_join _ _ _)) in L. apply joined_path_join in J.
    set (short := display H' x) in *.
    set (rq := RqList (path_join (env_get_cwd (s_env s)) short) short).
    destruct (list_directory fault p abs short (disk_of s1)) as [o d'] eqn:W.
    set (rs := match o with inl l => RsTexts l | inr m => RsErr (lit "Other") m [] end).
    assert (SV : serve fault rq (disk_of s1) = Some (rs, d')).
    { unfold rq, rs. cbn [serve]. rewrite <- L, <- J, W. now destruct o. }
    apply ask_served in SV. destruct SV as [AS FS]. unfold gives in *.
    exists (match o with inl l => ROk (strings l) | inr m => RErr (CustomError m) end), (after rq rs s1).
    split; [| split].
    - apply sure_calls; [now destruct o |]. cbn [run_builtin]. unfold run_ls. sure_step.
      apply sure_get_env. sure_step. cbv zeta. fold short. fold rq.
      eapply sure_bind_const; [exact AS |]. cbv beta. unfold rs. destruct o; [apply sure_ret | apply sure_throw].
    - transitivity (d_root d'); [exact (f_equal d_root FS) |].
      unfold list_directory in W. destruct (is_dir p (disk_of s1)).
      + unfold read_dir in W. change (d_root (disk_of s1)) with (files s1) in W.
        destruct (fault (d_tick (disk_of s1))); [now inversion W |].
        destruct (lookup p (files s1)) as [[| es] |]; try now inversion W.
        pose proof (list_entries_spec short (map fst es) (Disk (files s1) (S (d_tick (disk_of s1))))) as E.
        destruct (list_entries fault short _ _) as [[l |] d2]; inversion W; subst; now destruct E.
      + destruct (is_file p (disk_of s1)); now inversion W.
    - unfold list_directory, is_dir, is_file in W. change (d_root (disk_of s1)) with (files s1) in W.
      split; [| split].
      + intros D. apply holds_lookup in D; [| exact V]. destruct D as ([| es] & E & K); [discriminate |].
        rewrite E in W. unfold read_dir in W. change (d_root (disk_of s1)) with (files s1) in W. rewrite E in W.
        destruct (fault (d_tick (disk_of s1))) eqn:F.
        * right. inversion W. split; [eauto |]. intros N. rewrite N in F. discriminate.
        * pose proof (list_entries_spec short (map fst es) (Disk (files s1) (S (d_tick (disk_of s1))))) as X.
          destruct (list_entries fault short _ _) as [[l |] d2]; inversion W; destruct X as [_ X].
          -- left. exists (map fst es), l. split; [reflexivity |].
             assert (VD : valid (Dir es)) by (eapply lookup_valid; eassumption).
             inversion VD as [| es' ND VS]; subst es'. split; [| split; [exact ND |]].
             ++ rewrite X. clear. induction (map fst es) as [| y r IH]; cbn [map]; constructor; [| exact IH].
                now apply joined_path_join.
             ++ intros n. rewrite present_lookup by exact V. rewrite lookup_app, E. cbn [lookup].
                pose proof (entry_none n es) as EN. destruct (entry n es) as [m |].
                ** split; [discriminate |]. intros _. destruct (in_dec (list_eq_dec N.eq_dec) n (map fst es)) as [I | I]; [exact I |].
                   apply EN in I. discriminate.
                ** split; [intros I; now destruct (proj1 EN eq_refl) | congruence].
          -- right. split; [eauto | exact X].
      + intros c D. apply holds_lookup in D; [| exact V]. destruct D as ([b | es] & E & K); [| discriminate].
        rewrite E in W. now inversion W.
      + intros N. rewrite present_lookup in N by exact V.
        destruct (lookup p (files s1)) as [[b | es] |] eqn:E; try (destruct N; congruence).
        inversion W. eauto.
  Qed.

  (** What is listed can be used as a path from the same directory. *)
  Theorem C76_usable cwd tx p n t :
    leads cwd tx p -> proper n -> joined tx n t -> leads cwd t (p ++ [n]).
  Proof.
    intros L (N1 & N2 & _ & N3) J. apply leads_join in L. apply joined_path_join in J. subst.
    apply leads_join.
    assert (C : components n = [n]) by now apply components_name.
    assert (R : hd_error n <> Some 47%N).
    { destruct n as [| c n]; [discriminate |]. cbn. intros X. apply N3. left. congruence. }
    destruct tx as [| d tx].
    - rewrite (join_head_none n R).
      rewrite !join_relative, C by (exact R || discriminate). now rewrite app_nil_r.
    - destruct (join_head d tx n R) as [w E].
      pose proof (join_relative (d :: tx) n R) as CJ. rewrite E in *.
      destruct (N.eqb_spec d 47) as [-> | D].
      + cbn [path_join]. rewrite CJ, C. reflexivity.
      + rewrite !join_relative by (cbn; congruence). rewrite CJ, C. now rewrite app_assoc.
  Qed.

  (** ** C77: the tree of a directory *)

  Fixpoint tree_entries (es : list (str * node)) (k : nat) : list (str * dirtree) * nat :=
    match es with
    | [] => ([], k)
    | (x, m) :: r =>
        match fault k with
        | Some _ => tree_entries r (S k)
        | None =>
            let (t, k1) := tree_of fault m (S k) in
            let (ts, k2) := tree_entries r k1 in
            ((x, t) :: ts, k2)
        end
    end.

  Lemma tree_of_dir es k :
    tree_of fault (Dir es) k =
      match fault k with
      | Some _ => (DtDir [], S k)
      | None => let (ts, k') := tree_entries es (S k) in (DtDir ts, k')
      end.
  Proof.
    cbn [tree_of]. destruct (fault k); [reflexivity |].
    match goal with |- (let (_, _) := ?f es (S k) in _) = _ => assert (E : forall es k, f es k = tree_entries es k) end.
    { clear. induction es as [| [x m] es IH]; intros k; [reflexivity |]. cbn [tree_entries].
      destruct (fault k); [apply IH |]. destruct (tree_of fault m (S k)) as [t k1]. now rewrite IH. }
    now rewrite E.
  Qed.

  Lemma tree_entries_spec es : forall k ts k',
    tree_entries es k = (ts, k') ->
    (forall x t, In (x, t) ts -> exists n k0 k1, In (x, n) es /\ tree_of fault n k0 = (t, k1))
    /\ (NoDup (map fst es) -> NoDup (map fst ts))
    /\ ((forall k, fault k = None) -> map fst ts = map fst es).
  Proof.
    induction es as [| [x m] es IH]; intros k ts k' E; cbn [tree_entries] in E.
    - inversion E. split; [intros ? ? [] |]. split; auto.
    - destruct (fault k) as [f |] eqn:F.
      + destruct (IH _ _ _ E) as (A & B & C). split; [| split].
        * intros y t I. destruct (A y t I) as (n & k0 & k1 & I2 & T). exists n, k0, k1. split; [now right | exact T].
        * intros N. inversion N; auto.
        * intros N. rewrite N in F. discriminate.
      + destruct (tree_of fault m (S k)) as [t k1] eqn:T.
        destruct (tree_entries es k1) as [ts2 k2] eqn:E2. inversion E; subst. clear E.
        destruct (IH _ _ _ E2) as (A & B & C). split; [| split].
        * intros y u [I | I].
          -- inversion I; subst. exists m, (S k), k1. split; [now left | exact T].
          -- destruct (A y u I) as (n & k0 & k3 & I2 & T2). exists n, k0, k3. split; [now right | exact T2].
        * intros N. inversion N as [| y l N1 N2]; subst. cbn [map fst]. constructor; [| auto].
          intros I. apply N1. apply in_map_iff in I. destruct I as ([y u] & E3 & I). cbn in E3. subst y.
          destruct (A x u I) as (n & k0 & k3 & I2 & _). apply in_map_iff. now exists (x, n).
        * intros N. cbn [map fst]. now rewrite C.
  Qed.


  Lemma join_entry p x : absolute p -> proper x ->
    absolute (path_join p x) /\ components (path_join p x) = components p ++ [x].
  Proof.
    intros [r ->] (N1 & N2 & _ & N3).
    assert (R : hd_error x <> Some 47%N).
    { destruct x as [| c x]; [discriminate |]. cbn. intros X. apply N3. left. congruence. }
    split.
    - destruct (join_head 47%N r x R) as [w E]. exists w. exact E.
    - rewrite join_relative by exact R. now rewrite (components_name x).
  Qed.

  Lemma tree_of_spec h : forall n, height n <= h -> valid n -> named n ->
    forall p, absolute p -> components p <> [] ->
    forall k t k', tree_of fault n k = (t, k') ->
      hints_at p n (tree_expr p t)
      /\ ((forall k, fault k = None) -> describes p n (tree_expr p t)).
  Proof.
    induction h as [| h IH]; intros n L V N p A C k t k' T.
    - destruct n as [b |]; [| cbn in L; lia]. inversion T; subst. split; intros; constructor.
    - destruct n as [b | es]; [inversion T; subst; split; intros; constructor |].
      pose proof (parent_spec p A) as PS. destruct (path_parent p) as [q |] eqn:P; [| contradiction].
      inversion V as [| es' ND VS]; subst es'. inversion N as [| es' NS]; subst es'.
      assert (GO : exists ts, t = DtDir ts
        /\ (forall x t, In (x, t) ts -> exists n k0 k1, In (x, n) es /\ tree_of fault n k0 = (t, k1))
        /\ NoDup (map fst ts) /\ ((forall k, fault k = None) -> map fst ts = map fst es)).
      { rewrite tree_of_dir in T. destruct (fault k) as [f |] eqn:F.
        - inversion T; subst. exists []. split; [reflexivity |]. split; [intros ? ? [] |].
          split; [constructor |]. intros Z. rewrite Z in F. discriminate.
        - destruct (tree_entries es (S k)) as [ts k2] eqn:E. inversion T; subst. exists ts. split; [reflexivity |].
          destruct (tree_entries_spec _ _ _ _ E) as (X & Y & Z). auto. }
      destruct GO as (ts & -> & IN & NDT & ALL). cbn [tree_expr].
      set (l := map (fun kv => (fst kv, tree_expr (path_join p (fst kv)) (snd kv))) ts).
      assert (KEYS : map fst l = map fst ts).
      { unfold l. rewrite map_map. reflexivity. }
      assert (SUB : forall x, In x (map fst ts) -> exists n, In (x, n) es).
      { intros x I. apply in_map_iff in I. destruct I as ([y u] & E & I). cbn in E. subst y.
        destruct (IN x u I) as (n & _ & _ & J & _). eauto. }
      destruct (dir_map p q l P) as (m & EM & NDM & INM).
      { now rewrite KEYS. }
      { rewrite KEYS. intros I. apply SUB in I. destruct I as [n I]. destruct (NS _ _ I) as [(_ & X & _) _]. congruence. }
      { rewrite KEYS. intros I. apply SUB in I. destruct I as [n I]. destruct (NS _ _ I) as [(_ & _ & X & _) _]. congruence. }
      rewrite P in EM |- *. rewrite EM.
      assert (ITEM : forall x v, In (x, v) l -> exists n, In (x, n) es
                /\ hints_at (path_join p x) n v
                /\ ((forall k, fault k = None) -> describes (path_join p x) n v)).
      { intros x v I. apply in_map_iff in I. destruct I as ([y u] & E & I). cbn in E. inversion E; subst.
        destruct (IN x u I) as (n & k0 & k1 & J & T1). exists n. split; [exact J |].
        destruct (NS _ _ J) as [PX NX]. destruct (join_entry p x A PX) as [A1 C1].
        eapply IH; [| eauto | exact NX | exact A1 | | exact T1].
        - pose proof (height_entry x n es J). lia.
        - rewrite C1. now destruct (components p). }
      split.
      + apply hints_dir with (q := q); auto.
        * apply INM. auto.
        * apply INM. auto.
        * intros x v I D1 D2. apply INM in I. destruct I as [E | [E | I]]; [congruence | congruence |].
          destruct (ITEM x v I) as (n & J & HH & _). exists n, (path_join p x). split; [exact J |]. split; [| exact HH].
          now apply joined_path_join.
      + intros NF. apply describes_dir with (q := q); auto.
        * intros x. rewrite <- (ALL NF), <- KEYS. split.
          -- intros I. apply in_map_iff in I. destruct I as ([y v] & E & I). cbn in E. subst y.
             apply INM in I. destruct I as [E | [E | I]]; [inversion E; auto | inversion E; auto |].
             right. right. apply in_map_iff. now exists (x, v).
          -- intros [-> | [-> | I]].
             ++ apply in_map_iff. exists (lit ".", EString p). split; [reflexivity |]. apply INM. auto.
             ++ apply in_map_iff. exists (lit "..", EString q). split; [reflexivity |]. apply INM. auto.
             ++ apply in_map_iff in I. destruct I as ([y v] & E & I). cbn in E. subst y.
                apply in_map_iff. exists (x, v). split; [reflexivity |]. apply INM. auto.
        * apply INM. auto.
        * apply INM. auto.
        * intros x n J.
          assert (I : In x (map fst l)).
          { rewrite KEYS, (ALL NF). apply in_map_iff. now exists (x, n). }
          apply in_map_iff in I. destruct I as ([y v] & E & I). cbn in E. subst y.
          destruct (ITEM x v I) as (n' & J' & _ & D).
          assert (n' = n).
          { apply in_entry in J; [| exact ND]. apply in_entry in J'; [| exact ND]. congruence. }
          subst n'. exists (path_join p x), v. split; [now apply joined_path_join |].
          split; [apply INM; auto | exact (D NF)].
  Qed.

  Lemma levels_holds h : forall n, height n <= h ->
    forall k t k', tree_of fault n k = (t, k') ->
    exists q kd, holds n q kd /\ dir_levels t = Z.of_nat (length q).
  Proof.
    induction h as [| h IH]; intros n L k t k' T.
    - destruct n as [b |]; [| cbn in L; lia]. inversion T; subst. exists [], (KFile b). split; [constructor | reflexivity].
    - destruct n as [b | es]; [inversion T; subst; exists [], (KFile b); split; [constructor | reflexivity] |].
      rewrite tree_of_dir in T. destruct (fault k) as [f |].
      { inversion T; subst. exists [], KDir. split; [constructor | reflexivity]. }
      destruct (tree_entries es (S k)) as [ts k2] eqn:E. inversion T; subst.
      destruct (tree_entries_spec _ _ _ _ E) as (IN & _ & _). clear E T.
      cbn [dir_levels].
      induction ts as [| [x u] ts IHt].
      + exists [], KDir. split; [constructor | reflexivity].
      + destruct IHt as (q & kd & HQ & EQ); [intros y w I; apply IN; now right |].
        cbn [fold_right snd]. destruct u as [| es1]; [now exists q, kd |].
        rewrite EQ. clear EQ.
        destruct (IN x (DtDir es1)) as (n & k0 & k1 & J & T1); [now left |].
        destruct (IH n ltac:(pose proof (height_entry x n es J); lia) _ _ _ T1) as (q1 & kd1 & HQ1 & EQ1).
        rewrite EQ1.
        destruct (Z.max_spec (1 + Z.of_nat (length q1)) (Z.of_nat (length q))) as [[_ ->] | [_ ->]].
        * now exists q, kd.
        * exists (x :: q1), kd1. split; [econstructor; eauto |]. cbn [length]. lia.
  Qed.

  (** The text of a path, or a word. *)
  Definition path_text (x : expr) (tx : str) : Prop := x = EString tx \/ x = ESymbol tx.

  Lemma tree_served cwd tx p abs s1 n :
    leads cwd tx p -> joined cwd tx abs -> absolute abs -> p <> [] ->
    valid (files s1) -> found (files s1) p n -> (exists es, n = Dir es) -> named n ->
    exists q t, path_parent abs = Some q /\
      let rq := RqTree abs in let s' := after rq (RsTree t) s1 in
      ask H' rq s1 = (ROk (RsTree t), s') /\ files s' = files s1
      /\ hints_at abs n (tree_expr abs t)
      /\ ((forall k, fault k = None) -> describes abs n (tree_expr abs t))
      /\ exists q kd, holds n q kd /\ dir_levels t = Z.of_nat (length q).
  Proof.
    intros L J A NE V F [es ->] N. apply leads_join in L. apply joined_path_join in J. rewrite <- J in L.
    pose proof (parent_spec abs A) as PS. destruct (path_parent abs) as [q |]; [| congruence].
    apply found_lookup in F; [| exact V].
    destruct (get_dir_tree fault p (disk_of s1)) as [t d'] eqn:G.
    assert (SV : serve fault (RqTree abs) (disk_of s1) = Some (RsTree t, d')).
    { cbn [serve]. now rewrite <- L, G. }
    apply ask_served in SV. destruct SV as [AS FS].
    unfold get_dir_tree in G. change (d_root (disk_of s1)) with (files s1) in G. rewrite F in G.
    destruct (tree_of fault (Dir es) (d_tick (disk_of s1))) as [t' k] eqn:T. injection G as E1 E2. subst t'.
    destruct (tree_of_spec (height (Dir es)) (Dir es) (le_n _) (lookup_valid _ _ _ V F) N abs A
                ltac:(congruence) _ _ _ T) as [HH DD].
    exists q, t. split; [reflexivity |]. cbv zeta. split; [exact AS |].
    split; [rewrite <- E2 in FS; exact (f_equal d_root FS) |]. split; [exact HH |]. split; [exact DD |].
    eapply levels_holds; eauto.
  Qed.

  (** The tree of a directory that is not the root: nothing is in it that is not
      there, and without failures of the operating system it is complete. *)
  Theorem C77_tree_partial a s x s1 tx p abs n :
    gives H' a s x s1 -> path_text x tx ->
    leads (env_get_cwd (s_env s)) tx p -> joined (env_get_cwd (s_env s)) tx abs -> absolute abs ->
    p <> [] -> valid (files s1) -> found (files s1) p n -> (exists es, n = Dir es) -> named n ->
    exists v s',
      calls H' KTree [a] s (ROk v) s' /\ files s' = files s1
      /\ hints_at abs n v /\ ((forall k, fault k = None) -> describes abs n v).
  Proof.
    intros G PT L J A NE V F D N.
    destruct (tree_served _ _ _ _ _ _ L J A NE V F D N) as (q & t & P & AS & FS & HH & DD & _).
    apply joined_path_join in J. unfold gives in *.
    exists (tree_expr abs t), (after (RqTree abs) (RsTree t) s1). split; [| auto].
    call. unfold run_tree, check_one_or_two. eapply sure_bind_const; [reflexivity |]. cbv beta.
    apply sure_get_env. sure_step. destruct PT; subst x; cbv beta iota zeta; sure_step; cbv beta iota zeta;
      rewrite <- J, P; (eapply sure_bind_const; [exact AS |]); cbv beta iota zeta; apply sure_ret.
  Qed.

  (** A depth makes no difference: the whole tree is given. *)
  Theorem C77_depth_partial a b d s s0 x s1 tx p abs n :
    gives H' a s (EInteger d) s0 -> gives H' b s0 x s1 -> path_text x tx ->
    leads (env_get_cwd (s_env s)) tx p -> joined (env_get_cwd (s_env s)) tx abs -> absolute abs ->
    p <> [] -> valid (files s1) -> found (files s1) p n -> (exists es, n = Dir es) -> named n ->
    fits d -> (forall q kd, holds n q kd -> (- 2 ^ 63 <= d - Z.of_nat (length q))%Z) ->
    exists v s',
      calls H' KTree [a; b] s (ROk v) s' /\ files s' = files s1
      /\ hints_at abs n v /\ ((forall k, fault k = None) -> describes abs n v).
  Proof.
    intros G0 G PT L J A NE V F D N FD LOW.
    destruct (tree_served _ _ _ _ _ _ L J A NE V F D N) as (q & t & P & AS & FS & HH & DD & q1 & kd & HQ & EQ).
    apply joined_path_join in J. unfold gives in *.
    assert (AR : arith (h_overflow H') (d - dir_levels t) = inl (d - dir_levels t)%Z).
    { unfold arith. replace (in_i64 (d - dir_levels t)) with true; [reflexivity |]. symmetry.
      apply in_i64_fits. specialize (LOW _ _ HQ). rewrite EQ. unfold fits in *. lia. }
    exists (tree_expr abs t), (after (RqTree abs) (RsTree t) s1). split; [| auto].
    call. unfold run_tree, check_one_or_two. eapply sure_bind_const; [reflexivity |]. cbv beta.
    apply sure_get_env. sure_step. cbv beta iota zeta. cbn [nth].
    eapply sure_bind; [now apply sure_ev; eassumption |].
    destruct PT; subst x; cbv beta iota zeta;
      rewrite <- J, P; (eapply sure_bind_const; [exact AS |]); cbv beta iota zeta; rewrite AR; cbn [or_panic];
      (eapply sure_bind_const; [reflexivity |]); apply sure_ret.
  Qed.

  (** The tree of the root crashes the shell. *)
  Theorem C77_root a s x s1 tx abs :
    gives H' a s x s1 -> path_text x tx ->
    leads (env_get_cwd (s_env s)) tx [] -> joined (env_get_cwd (s_env s)) tx abs -> absolute abs ->
    calls H' KTree [a] s (RPanic PUnwrap) s1.
  Proof.
    intros G PT L J A. apply leads_join in L. apply joined_path_join in J. rewrite <- J in L.
    pose proof (parent_spec abs A) as PS. destruct (path_parent abs) as [q |] eqn:P.
    - destruct PS as [_ [y E]]. rewrite E in L. now destruct (components q).
    - unfold gives in *. call. unfold run_tree, check_one_or_two. eapply sure_bind_const; [reflexivity |]. cbv beta.
      apply sure_get_env. sure_step. destruct PT; subst x; cbv beta iota zeta; sure_step; cbv beta iota zeta;
        rewrite <- J, P; apply sure_const; reflexivity.
  Qed.
End Shell.

(** The depth does not bound the tree. *)
Theorem C77_depth_refuted :
  exists fault d0 depth tx v s',
    let H := on_disk fault (fun _ d => d) d0 demo_host in
    (forall k, fault k = None) /\ valid (d_root d0) /\
    calls H KTree [EInteger depth; EString tx] demo (ROk v) s' /\ (0 <= depth)%Z
    /\ nested v (Z.to_nat depth + 3).
Proof.
  exists no_fault, (Disk (Dir [(lit "a", Dir [(lit "b", Dir [(lit "c", Dir [])])])]) 0), 0%Z, (lit "/a").
  eexists _, _. cbv zeta. split; [reflexivity |]. split.
  { do 3 (constructor; [constructor; [easy | constructor] | intros ? ? [E | []]; injection E as <- <-]).
    constructor; [constructor | intros ? ? []]. }
  split; [compute_outcome 3%nat |]. split; [easy |]. cbn [Z.to_nat Nat.add].
  apply nested_map with (k := lit "b") (v := EMap [(lit ".", EString (lit "/a/b")); (lit "..", EString (lit "/a"));
     (lit "c", EMap [(lit ".", EString (lit "/a/b/c")); (lit "..", EString (lit "/a/b"))])]).
  { vm_compute. auto. }
  apply nested_map with (k := lit "c") (v := EMap [(lit ".", EString (lit "/a/b/c")); (lit "..", EString (lit "/a/b"))]).
  { vm_compute. auto. }
  apply nested_map with (k := lit ".") (v := EString (lit "/a/b/c")); [vm_compute; auto | constructor].
Qed.

(** A directory that cannot be read looks like an empty one. *)
Theorem C77_unreadable_refuted :
  exists fault d0 tx n v s',
    let H := on_disk fault (fun _ d => d) d0 demo_host in
    found (d_root d0) (components tx) n /\ (exists es, n = Dir es) /\ named n /\
    calls H KTree [EString tx] demo (ROk v) s' /\ ~ describes tx n v.
Proof.
  exists (fun _ => Some 0), (Disk (Dir [(lit "a", Dir [(lit "f", File [])])]) 0), (lit "/a"), (Dir [(lit "f", File [])]).
  eexists _, _. cbv zeta. split; [| split; [| split; [| split]]].
  - econstructor; [now left | constructor].
  - eauto.
  - constructor. intros x n [E | []]. inversion E; subst. split; [| constructor].
    repeat split; try discriminate. vm_compute. intuition discriminate.
  - compute_outcome 3%nat.
  - intros D. inversion D as [| p q es m U N K]; subst. specialize (proj2 (K (lit "f"))).
    vm_compute. intros X. destruct X as [X | [X | []]]; auto; discriminate.
Qed.

(** ** C78: file name patterns *)

Lemma filter_parts x : forall cur,
  ~ In 47%N cur ->
  Forall (fun y => ~ In 47%N y) (split_path cur x).
Proof.
  induction x as [| c x IH]; intros cur N; cbn [split_path].
  - constructor; [now rewrite <- in_rev | constructor].
  - destruct (N.eqb_spec c 47) as [-> | C].
    + constructor; [now rewrite <- in_rev | apply IH; easy].
    + apply IH. intros [X | X]; congruence || auto.
Qed.

Definition part (x : str) : Prop := x <> [] /\ x <> lit "." /\ ~ In 47%N x.

Lemma components_parts s : Forall part (components s).
Proof.
  apply Forall_forall. intros x I. apply filter_In in I. destruct I as [I E].
  pose proof (filter_parts s [] ltac:(easy)) as F. rewrite Forall_forall in F. specialize (F x I).
  apply andb_prop in E. destruct E as [E1 E2].
  split; [intros ->; discriminate |]. split; [intros ->; discriminate | exact F].
Qed.

Lemma components_joined l : Forall part l -> components (join [47%N] l) = l /\ ~ absolute (join [47%N] l).
Proof.
  induction 1 as [| x l (X1 & X2 & X3) F [IH _]]; [split; [reflexivity | now intros [r E]] |].
  assert (A : forall t, ~ absolute (x ++ t)).
  { intros t [r E]. destruct x as [| c x]; [congruence |]. inversion E. subst. apply X3. now left. }
  cbn [join]. destruct l as [| y l].
  - split; [now apply components_name | rewrite <- (app_nil_r x); apply A].
  - split; [| apply A]. cbn [List.app].
    rewrite components_app, IH, components_name by assumption. reflexivity.
Qed.

Lemma starts_absolute p : starts_with [47%N] p = true <-> absolute p.
Proof.
  unfold starts_with. destruct p as [| c p]; cbn [strip_prefix].
  - split; [discriminate | now intros [r E]].
  - destruct (N.eqb_spec 47 c) as [<- | C]; [split; [now exists p | reflexivity] |].
    split; [discriminate |]. intros [r E]. congruence.
Qed.

Fixpoint strip_parts (b q : list str) {struct b} : option str :=
  match b, q with
  | [], _ => Some (join [47%N] q)
  | x :: b', y :: q' => if str_eqb x y then strip_parts b' q' else None
  | _ :: _, [] => None
  end.

Lemma path_strip_eq cwd p :
  path_strip cwd p =
    if Bool.eqb (starts_with [47%N] cwd) (starts_with [47%N] p)
    then strip_parts (components cwd) (components p) else None.
Proof.
  unfold path_strip. change (lit "/") with [47%N]. rewrite !str_split_path. reflexivity.
Qed.

Lemma strip_parts_spec b : forall q, Forall part q ->
  match strip_parts b q with
  | Some t => ~ absolute t /\ q = b ++ components t
  | None => ~ below b q
  end.
Proof.
  induction b as [| x b IH]; intros q F; cbn [strip_parts].
  - destruct (components_joined q F) as [E N]. split; [exact N | now rewrite E].
  - destruct q as [| y q]; [intros [r E]; discriminate |].
    inversion F as [| ? ? _ F1]; subst.
    destruct (str_eqb x y) eqn:E.
    + apply str_eqb_eq in E. subst y. specialize (IH q F1). destruct (strip_parts b q).
      * destruct IH as [N E]. split; [exact N |]. cbn [List.app]. now rewrite <- E.
      * intros X. apply below_cons in X. now destruct X.
    + intros X. apply below_cons in X. destruct X as [-> _]. now rewrite str_eqb_refl in E.
Qed.

Lemma strip_seen cwd p : absolute cwd ->
  seen_from cwd p (match path_strip cwd p with Some q => q | None => p end).
Proof.
  intros A. rewrite path_strip_eq, (proj2 (starts_absolute cwd) A).
  destruct (starts_with [47%N] p) eqn:B; cbn [Bool.eqb].
  - apply starts_absolute in B.
    pose proof (strip_parts_spec (components cwd) (components p) (components_parts p)) as G.
    destruct (strip_parts (components cwd) (components p)) as [t |].
    + split; [intros _ _; exact G |]. intros N. destruct N. split; [exact B |]. destruct G as [_ E].
      exists (components t). exact E.
    + split; [intros _ X; contradiction | reflexivity].
  - split; [| reflexivity]. intros X. apply starts_absolute in X. congruence.
Qed.

(** Every match is given, in order, as it is seen from the working directory. *)
Theorem C78_glob H a s x s1 pattern ps :
  gives H a s x s1 -> shown H x pattern ->
  h_answer H (s_trace s1) (RqGlob pattern) = RsGlob (map inl ps) ->
  absolute (env_get_cwd (s_env s)) ->
  exists ts,
    calls H KGlob [a] s (ROk (EList (map EString ts))) (told H (RqGlob pattern) s1)
    /\ Forall2 (seen_from (env_get_cwd (s_env s))) ps ts.
Proof.
  intros A S E C. apply (proj1 (shown_display _ _ _)) in S. subst pattern. unfold gives in *.
  set (f := fun p => match path_strip (env_get_cwd (s_env s)) p with Some q => q | None => p end).
  exists (map f ps). split.
  - call. unfold run_glob. sure_step. apply sure_get_env. sure_step. cbv zeta. apply sure_ask. rewrite E.
    eapply sure_bind_const; [| apply sure_ret].
    clear - ps. set (s' := told _ _ _). clearbody s'. revert s'.
    induction ps as [| p ps IH]; intros s'; cbn [map glob_paths]; [reflexivity |].
    unfold bind at 1. rewrite IH. reflexivity.
  - clear - C. induction ps as [| p ps IH]; cbn [map]; constructor; [| exact IH]. now apply strip_seen.
Qed.

(** From the working directory, what is given leads to the match. *)
Theorem C78_usable cwd p t r :
  absolute cwd -> seen_from cwd p t -> (leads cwd t r <-> leads cwd p r).
Proof.
  intros A [S1 S2]. rewrite !leads_join.
  assert (REL : forall u, ~ absolute u -> components (path_join cwd u) = components cwd ++ components u).
  { intros u N. apply join_relative. intros X. apply N. destruct u as [| c u]; [discriminate |].
    cbn in X. injection X as ->. now exists u. }
  destruct (starts_with [47%N] p) eqn:B.
  - apply starts_absolute in B. destruct (below_dec (components cwd) (components p)) as [D | D].
    + destruct (S1 B D) as [N E]. rewrite (REL t N), <- E. destruct B as [w ->]. reflexivity.
    + rewrite S2; [reflexivity |]. intros [_ X]. contradiction.
  - rewrite S2; [reflexivity |]. intros [X _]. apply starts_absolute in X. congruence.
Qed.

(** A directory that cannot be read gives an error, and none of the matches. *)
Theorem C78_error H a s x s1 pattern ps e rest :
  gives H a s x s1 -> shown H x pattern ->
  h_answer H (s_trace s1) (RqGlob pattern) = RsGlob (map inl ps ++ inr e :: rest) ->
  exists m, calls H KGlob [a] s (RErr (CustomError m)) (told H (RqGlob pattern) s1).
Proof.
  intros A S E. apply (proj1 (shown_display _ _ _)) in S. subst pattern. unfold gives in *.
  exists (lit "could not glob pattern " ++ display H x ++ lit ": " ++ e). call. unfold run_glob. sure_step. apply sure_get_env. sure_step. cbv zeta. apply sure_ask. rewrite E.
  eapply (sure_bind_fails _ _ (fun _ => glob_paths _ _ _)); [| constructor].
  apply sure_const. clear - ps. set (s' := told _ _ _). clearbody s'.
  set (p := display H x). clearbody p. revert s'.
  induction ps as [| q ps IH]; intros s'; cbn [map List.app glob_paths]; [reflexivity |].
  unfold bind at 1. rewrite IH. reflexivity.
Qed.

(** A pattern that is not well formed crashes the shell. *)
Theorem C78_malformed H a s x s1 pattern :
  gives H a s x s1 -> shown H x pattern ->
  (forall l, h_answer H (s_trace s1) (RqGlob pattern) <> RsGlob l) ->
  calls H KGlob [a] s (RPanic PUnwrap) (told H (RqGlob pattern) s1).
Proof.
  intros A S E. apply (proj1 (shown_display _ _ _)) in S. subst pattern. unfold gives in *.
  call. unfold run_glob. sure_step. apply sure_get_env. sure_step. cbv zeta. apply sure_ask.
  destruct (h_answer H (s_trace s1) (RqGlob (display H x))) eqn:F; try (apply sure_const; reflexivity).
  now destruct (E l).
Qed.

Example C76_example :
  fst (on_files "fs@ls ""/a""") = ROk (EList [EString (lit "/a/x"); EString (lit "/a/d")])
  /\ fst (on_files "fs@ls ""/b""") = ROk (EList [EString (lit "/b")])
  /\ fst (on_files "fs@ls ""/c""") = RErr (CustomError (lit "/c does not exist")).
Proof. vm_compute. repeat split. Qed.

Example C77_example :
  fst (on_files "fs@tree ""/a""")
    = ROk (EMap [(lit ".", EString (lit "/a")); (lit "..", EString (lit "/"));
                 (lit "d", EMap [(lit ".", EString (lit "/a/d")); (lit "..", EString (lit "/a"));
                                 (lit "y", EString (lit "/a/d/y"))]);
                 (lit "x", EString (lit "/a/x"))])
  /\ fst (on_files "fs@tree ""/""") = RPanic PUnwrap.
Proof. vm_compute. repeat split. Qed.

(** The hypotheses of the theorems for [fs@tree "/a"] in that shell. *)
Example C77_hypotheses :
  let a := EString (lit "/a") in
  gives disk_shell a demo a demo /\ path_text a (lit "/a")
  /\ leads (env_get_cwd (s_env demo)) (lit "/a") [lit "a"]
  /\ joined (env_get_cwd (s_env demo)) (lit "/a") (lit "/a") /\ absolute (lit "/a")
  /\ valid (files no_fault (fun _ d => d) some_files demo)
  /\ exists es, found (files no_fault (fun _ d => d) some_files demo) [lit "a"] (Dir es) /\ named (Dir es).
Proof.
  cbv zeta. split; [compute_outcome 3%nat |]. split; [now left |]. split; [apply leads_join; reflexivity |].
  split; [constructor |]. split; [now eexists |]. split; [exact some_files_valid |].
  eexists. split; [econstructor; [now left | constructor] |].
  assert (P : forall x, In x [lit "x"; lit "d"; lit "y"] -> proper x).
  { intros x [<- | [<- | [<- | []]]]; (split; [discriminate |]); (split; [discriminate |]);
      (split; [discriminate |]); vm_compute; intuition discriminate. }
  constructor. intros x n [E | [E | []]]; injection E as <- <-.
  - split; [apply P; now left | constructor].
  - split; [apply P; right; now left |]. constructor. intros x n [E | []]; injection E as <- <-.
    split; [apply P; right; right; now left | constructor].
Qed.

Example C78_example :
  value_of "fs@glob ""*""" = ROk (EList [EString (lit "a"); EString (lit "/b")])
  /\ env_get_cwd (s_env demo) = lit "/tmp"
  /\ h_answer demo_host (s_trace demo) (RqGlob (lit "*")) = RsGlob (map inl [lit "/tmp/a"; lit "/b"]).
Proof. vm_compute. repeat split. Qed.

Print Assumptions C76_ls.
Print Assumptions C76_usable.
Print Assumptions C77_tree_partial.
Print Assumptions C77_depth_partial.
Print Assumptions C77_root.
Print Assumptions C77_depth_refuted.
Print Assumptions C77_unreadable_refuted.
Print Assumptions C78_glob.
Print Assumptions C78_usable.
Print Assumptions C78_error.
Print Assumptions C78_malformed.
