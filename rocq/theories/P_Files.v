(** C64, C65: reading, writing, making and removing files. *)

From Coq Require Import String List Lia.
From Verif Require Import Base Syntax Host Ops Text Monad Builtins Eval EvalSpec CmdFacts LibFacts
  LibSpec MapFacts EvalFacts Utf8Facts Fs FsHost FsSpec FsFacts FilesFacts P_Fs Demo.
Import ListNotations.

(** What is written to a file for a value: bytes as they are, otherwise the
    text of the value. *)
Inductive contents (H : host) : expr -> list N -> Prop :=
| c_bytes b : contents H (EBytes b) b
| c_text v t : (forall b, v <> EBytes b) -> shown H v t -> contents H v (utf8_bytes t).

Lemma contents_bytes H v b : contents H v b -> b = value_bytes H v.
Proof.
  destruct 1 as [|v t N S]; [reflexivity|]. apply (proj1 (shown_display _ _ _)) in S. subst.
  destruct v; try reflexivity. now destruct (N b).
Qed.

Section Shell.
  Variables (fault : nat -> option nat) (other : request -> disk -> disk) (d0 : disk) (H : host).
  Let H' := on_disk fault other d0 H.
  Let files := files fault other d0.
  Let disk_of (s : st) := disk_after fault other d0 (s_trace s).

  (** The state after a request about files. *)
  Let after (rq : request) (rs : response) (s : st) : st := St (s_env s) ((rq, rs) :: s_trace s) (s_log s).

  Lemma ask_served rq s rs d' :
    serve fault rq (disk_of s) = Some (rs, d') ->
    ask H' rq s = (ROk rs, after rq rs s) /\ disk_of (after rq rs s) = d'.
  Proof.
    intros S. unfold ask, H', on_disk. cbn [h_answer with_answer]. unfold disk_of in *. rewrite S. split; auto.
    unfold after. cbn [s_trace disk_after]. unfold next. now rewrite S.
  Qed.

  Lemma sure_path_arg B args i a (k : nat -> str -> M B) s v s1 cwd r s' :
    nth_error args i = Some a -> evaluates H' 0 a s (ROk v) s1 ->
    sure (fun n => k n (path_join cwd (display H' v))) s1 r s' ->
    sure (fun n => bind (path_arg H' (eval H' n 0) args i cwd) (k n)) s r s'.
  Proof.
    intros A E K. unfold path_arg.
    refine (sure_bind _ _ (fun n => bind (ev_arg (eval H' n 0) args i) (fun v => ret (path_join cwd (display H' v)))) k _ _ _ _ _ _ K).
    eapply sure_ev_arg; eauto. apply sure_ret.
  Qed.

  (** ** C64 *)

  (** Writing puts the text or the bytes of the value into the file and changes
      nothing else. *)
  Theorem C64_write a b s x s1 v s2 tx p c :
    gives H' a s x s1 -> gives H' b s1 v s2 -> shown H' x tx ->
    leads (env_get_cwd (s_env s)) tx p -> contents H' v c -> valid (files s2) ->
    exists r s',
      calls H' KWrite [a; b] s r s' /\ valid (files s')
      /\ (r = ROk ENone /\ holds (files s') p (KFile c)
          /\ (forall q k, q <> p -> holds (files s') q k <-> holds (files s2) q k)
          \/ (exists m, r = RErr (CustomError m)) /\ same_apart_from p (files s2) (files s')).
  Proof.
    intros A B S L C V. apply (proj1 (shown_display _ _ _)) in S. subst tx.
    apply (proj1 (leads_join _ _ _)) in L. apply contents_bytes in C.
    set (rq := RqWrite (path_join (env_get_cwd (s_env s)) (display H' x)) (value_bytes H' v)).
    destruct (write_file fault p c (disk_of s2)) as [ok d'] eqn:W.
    assert (SV : serve fault rq (disk_of s2) = Some (done (ok, d'))).
    { unfold rq. cbn [serve]. rewrite <- L, <- C, W. reflexivity. }
    apply write_file_spec in W; [|exact V]. destruct W as [W1 W2].
    apply ask_served in SV. destruct SV as [AS FS]. cbn [done fst snd] in AS, FS.
    unfold gives in *.
    destruct ok; eexists _, _; (split; [apply sure_calls; cycle 1; [cbn [run_builtin]; unfold run_write;
      sure_step; eapply sure_bind_const; [reflexivity|]; cbv beta; sure_step; sure_step;
      eapply sure_bind_const; [fold rq; exact AS|]; cbv beta iota; sure_step | discriminate] |]);
    (replace (files _) with (d_root d') by (symmetry; exact (f_equal d_root FS)));
    (split; [exact W1|]).
    - left. split; auto.
    - right. split; eauto.
  Qed.

  (** Reading gives the text of the file, or its bytes when they are not the
      bytes of a text. *)
  Theorem C64_read a s x s1 tx p :
    gives H' a s x s1 -> shown H' x tx ->
    leads (env_get_cwd (s_env s)) tx p -> valid (files s1) ->
    exists r s',
      calls H' KRead [a] s r s' /\ files s' = files s1
      /\ ((exists t, r = ROk (EString t) /\ Forall character t
                     /\ holds (files s1) p (KFile (utf8_bytes t)))
          \/ (exists b, r = ROk (EBytes b) /\ holds (files s1) p (KFile b)
                /\ ((forall k, fault k = None) -> forall t, Forall character t -> utf8_bytes t <> b))
          \/ (exists m, r = RErr (CustomError m))
             /\ ((forall k, fault k = None) -> forall b, ~ holds (files s1) p (KFile b))).
  Proof.
    intros A S L V. apply (proj1 (shown_display _ _ _)) in S. subst tx.
    apply (proj1 (leads_join _ _ _)) in L.
    set (rq := RqRead (path_join (env_get_cwd (s_env s)) (display H' x))).
    assert (RD : forall u, files u = files s1 -> exists o u',
      ask H' rq u = (ROk (match o with Some b => RsOutput b | None => RsErr (lit "Other") [] [] end), u')
      /\ files u' = files s1 /\
      match o with
      | Some b => holds (files s1) p (KFile b)
      | None => (forall k, fault k = None) -> forall b, ~ holds (files s1) p (KFile b)
      end).
    { intros u FU. destruct (read_file fault p (disk_of u)) as [o d'] eqn:W.
      assert (SV : serve fault rq (disk_of u) =
        Some (match o with Some b => RsOutput b | None => RsErr (lit "Other") [] [] end, d')).
      { unfold rq. cbn [serve]. rewrite <- L, W. now destruct o. }
      apply read_file_spec in W; [|change (valid (files u)); now rewrite FU].
      change (d_root (disk_of u)) with (files u) in W. rewrite FU in W. destruct W as [W1 W2].
      apply ask_served in SV. destruct SV as [AS FS].
      exists o. eexists. split; [exact AS|]. split.
      - rewrite <- W1. exact (f_equal d_root FS).
      - destruct o; auto. intros F. destruct W2 as [W2|W2]; auto. }
    destruct (RD s1 eq_refl) as (o1 & u1 & AS1 & F1 & R1).
    destruct (RD u1 F1) as (o2 & u2 & AS2 & F2 & R2).
    unfold gives in *.
    assert (START : forall r s', sure (fun n => match match o1 with
                      | Some b => match from_utf8 b with Some t => inl t | None => inr (lit "stream did not contain valid UTF-8") end
                      | None => inr [] end with
                      | inl t => ret (EString t)
                      | inr _ => bind (ask H' rq) (fun rs => match rs with RsOutput b => ret (EBytes b)
                                   | _ => custom (lit "could not read file " ++ display H' x) end) end) u1 r s' ->
                    r <> RFuel -> calls H' KRead [a] s r s').
    { intros r s' K NF. apply sure_calls; [exact NF|]. cbn [run_builtin]. unfold run_read.
      sure_step. eapply sure_bind_const; [reflexivity|]. cbv beta. sure_step.
      eapply sure_bind_const.
      { unfold read_to_string. fold rq. unfold bind at 1. rewrite AS1. reflexivity. }
      fold rq. destruct o1; exact K. }
    destruct o1 as [b|].
    - destruct (from_utf8 b) as [t|] eqn:U.
      + exists (ROk (EString t)), u1. split; [apply START; [apply sure_ret | discriminate]|]. split; auto.
        left. exists t. apply from_utf8_sound in U. destruct U as [U1 U2]. rewrite U2. auto.
      + destruct o2 as [b2|].
        * exists (ROk (EBytes b2)), u2. split.
          { apply START; [|discriminate]. eapply sure_bind_const; [exact AS2|]. apply sure_ret. }
          split; auto. right. left. exists b2. split; auto. split; auto.
          assert (b2 = b).
          { apply holds_lookup in R1; auto. apply holds_lookup in R2; auto.
            destruct R1 as (m & E & K), R2 as (m2 & E2 & K2). rewrite E in E2. inversion E2; subst.
            rewrite K in K2. congruence. }
          subst b2. intros _. now apply from_utf8_none.
        * eexists _, u2. split.
          { apply START; [eapply sure_bind_const; [exact AS2|]; apply sure_throw | discriminate]. }
          split; auto. right. right. split; eauto.
    - destruct o2 as [b2|].
      + exists (ROk (EBytes b2)), u2. split.
        { apply START; [|discriminate]. eapply sure_bind_const; [exact AS2|]. apply sure_ret. }
        split; auto. right. left. exists b2. split; auto. split; auto.
        intros F. now destruct (R1 F b2).
      + eexists _, u2. split.
        { apply START; [eapply sure_bind_const; [exact AS2|]; apply sure_throw | discriminate]. }
        split; auto. right. right. split; eauto.
  Qed.

  (** Without failures of the operating system, a text that was written is read
      back: whenever the file still has the contents. *)
  Theorem C64_read_back a b s x s1 v s2 tx p t s' a' s3 x' s4 tx' :
    (forall k, fault k = None) ->
    gives H' a s x s1 -> gives H' b s1 v s2 -> shown H' x tx ->
    leads (env_get_cwd (s_env s)) tx p -> shown H' v t -> (forall y, v <> EBytes y) ->
    Forall character t -> valid (files s2) ->
    calls H' KWrite [a; b] s (ROk ENone) s' ->
    gives H' a' s3 x' s4 -> shown H' x' tx' -> leads (env_get_cwd (s_env s3)) tx' p ->
    files s4 = files s' ->
    exists s5, calls H' KRead [a'] s3 (ROk (EString t)) s5.
  Proof.
    intros NF A B SX L SV NB C V W A' SX' L' SAME.
    destruct (C64_write a b s x s1 v s2 tx p (utf8_bytes t) A B SX L (c_text H' v t NB SV) V)
      as (r & s'' & W' & V' & R).
    destruct (calls_det _ _ _ _ _ _ _ _ W W') as [<- <-].
    destruct R as [(_ & HD & _)|[[m E] _]]; [|discriminate].
    rewrite <- SAME in HD, V'.
    destruct (C64_read a' s3 x' s4 tx' p A' SX' L' V') as (r & s5 & R & _ & K).
    assert (ONE : forall c, holds (files s4) p (KFile c) -> c = utf8_bytes t).
    { intros c HC. apply holds_lookup in HD; auto. apply holds_lookup in HC; auto.
      destruct HD as (m & E & K1), HC as (m2 & E2 & K2). rewrite E in E2. inversion E2; subst.
      rewrite K1 in K2. congruence. }
    destruct K as [(t' & -> & C' & HT)|[(c & -> & HC & N)|[_ N]]].
    - apply ONE in HT. assert (t' = t).
      { apply (f_equal from_utf8) in HT. rewrite !from_utf8_bytes in HT by assumption. congruence. }
      subst. eauto.
    - apply ONE in HC. subst c. now destruct (N NF t C).
    - now destruct (N NF _ HD).
  Qed.

  (** Appending adds to the end of a file that is there; otherwise it fails
      and changes nothing. *)
  Theorem C64_append a b s x s1 tx p :
    gives H' a s x s1 -> shown H' x tx ->
    leads (env_get_cwd (s_env s)) tx p -> valid (files s1) ->
    exists opened,
      files opened = files s1 /\ s_env opened = s_env s1 /\ s_log opened = s_log s1
      /\ (((forall c, ~ holds (files s1) p (KFile c)) \/ exists k, fault k <> None) 
           /\ (exists m, calls H' KAppend [a; b] s (RErr (CustomError m)) opened)
          \/ forall v s2 c old,
               gives H' b opened v s2 -> contents H' v c -> valid (files s2) ->
               holds (files s2) p (KFile old) ->
               exists r s',
                 calls H' KAppend [a; b] s r s' /\ valid (files s')
                 /\ (r = ROk ENone /\ holds (files s') p (KFile (old ++ c))
                     /\ (forall q k, q <> p -> holds (files s') q k <-> holds (files s2) q k)
                     \/ (exists m, r = RErr (CustomError m)) /\ same_apart_from p (files s2) (files s'))).
  Proof.
    intros A S L V. apply (proj1 (shown_display _ _ _)) in S. subst tx.
    apply (proj1 (leads_join _ _ _)) in L.
    set (pt := path_join (env_get_cwd (s_env s)) (display H' x)) in *.
    destruct (open_append fault p (disk_of s1)) as [ok d'] eqn:W.
    assert (SV : serve fault (RqOpenAppend pt) (disk_of s1) = Some (done (ok, d'))).
    { cbn [serve]. rewrite <- L, W. reflexivity. }
    apply ask_served in SV. destruct SV as [AS FS]. cbn [done fst snd] in AS, FS.
    set (opened := after _ _ s1) in AS, FS. exists opened.
    assert (ROOT : d_root d' = files s1) by (unfold open_append in W; inversion W; reflexivity).
    split; [now rewrite <- ROOT; exact (f_equal d_root FS)|]. split; [reflexivity|]. split; [reflexivity|].
    unfold gives in *. destruct ok.
    - right. intros v s2 c old B C V2 OLD. apply contents_bytes in C.
      set (rq := RqAppend pt (value_bytes H' v)).
      destruct (append_file fault p c (disk_of s2)) as [ok2 d2] eqn:W2.
      assert (SV : serve fault rq (disk_of s2) = Some (done (ok2, d2))).
      { unfold rq. cbn [serve]. rewrite <- L, <- C, W2. reflexivity. }
      apply (append_file_spec _ _ old) in W2; [|exact V2|exact OLD]. destruct W2 as [W3 W4].
      apply ask_served in SV. destruct SV as [AS2 FS2]. cbn [done fst snd] in AS2, FS2.
      destruct ok2; eexists _, _; (split; [apply sure_calls; cycle 1; [cbn [run_builtin]; unfold run_fs_append;
        sure_step; eapply sure_bind_const; [reflexivity|]; cbv beta; sure_step;
        eapply sure_bind_const; [fold pt; exact AS|]; cbv beta iota; sure_step;
        eapply sure_bind_const; [fold pt; fold rq; exact AS2|]; cbv beta iota; sure_step | discriminate] |]);
      (replace (files _) with (d_root d2) by (symmetry; exact (f_equal d_root FS2)));
      (split; [exact W3|]).
      + left. split; auto.
      + right. split; eauto.
    - left. split.
      + unfold open_append in W. change (d_root (disk_of s1)) with (files s1) in W.
        destruct (fault (d_tick (disk_of s1))) eqn:F; [right; exists (d_tick (disk_of s1)); congruence|].
        left. intros c HC. apply holds_lookup in HC; auto. destruct HC as (m & E & K).
        rewrite E in W. destruct m; [discriminate | discriminate K].
      + eexists. apply sure_calls; cycle 1; [cbn [run_builtin]; unfold run_fs_append;
        sure_step; eapply sure_bind_const; [reflexivity|]; cbv beta; sure_step;
        eapply sure_bind_const; [fold pt; exact AS|]; cbv beta iota; sure_step | discriminate].
  Qed.

  (** ** C65 *)

  (** Removing takes away what is at the path and nothing else. *)
  Theorem C65_rm a s x s1 tx p :
    gives H' a s x s1 -> shown H' x tx ->
    leads (env_get_cwd (s_env s)) tx p -> valid (files s1) ->
    exists r s',
      calls H' KRm [a] s r s' /\ valid (files s')
      /\ (r = ROk ENone /\ present (files s1) p /\ (forall q, below p q -> ~ present (files s') q)
          /\ (forall q k, ~ below p q -> holds (files s') q k <-> holds (files s1) q k)
          \/ (exists m, r = RErr (CustomError m)) /\ same_apart_from p (files s1) (files s')).
  Proof.
    intros A S L V. apply (proj1 (shown_display _ _ _)) in S. subst tx.
    apply (proj1 (leads_join _ _ _)) in L.
    set (pt := path_join (env_get_cwd (s_env s)) (display H' x)) in *.
    destruct (remove_path fault p (disk_of s1)) as [r d'] eqn:W.
    assert (SV : serve fault (RqFsOp (lit "rm") [pt]) (disk_of s1) = Some (answer r, d')).
    { cbn [serve]. change (str_eqb (lit "rm") (lit "rm")) with true. cbv iota zeta. rewrite <- L, W. reflexivity. }
    apply remove_path_spec in W; [|exact V]. destruct W as [W1 W2].
    apply ask_served in SV. destruct SV as [AS FS]. unfold gives in *.
    destruct W2 as [(-> & W2)|[[m ->] W2]]; cbn [answer] in AS, FS; eexists _, _;
      (split; [apply sure_calls; cycle 1; [cbn [run_builtin]; unfold run_rm;
      sure_step; eapply sure_bind_const; [reflexivity|]; cbv beta;
      eapply sure_path_arg; [reflexivity|exact A|]; cbv beta;
      eapply sure_bind_const; [fold pt; exact AS|]; cbv beta iota; sure_step | discriminate] |]);
    (replace (files _) with (d_root d') by (symmetry; exact (f_equal d_root FS)));
    (split; [exact W1|]); eauto.
  Qed.

  (** Making a directory makes directories on the way to it, and leaves all
      files as they are. *)
  Theorem C65_mkdir a s x s1 tx p :
    gives H' a s x s1 -> shown H' x tx ->
    leads (env_get_cwd (s_env s)) tx p -> valid (files s1) ->
    exists r s',
      calls H' KMkdir [a] s r s' /\ valid (files s')
      /\ (forall q c, holds (files s') q (KFile c) <-> holds (files s1) q (KFile c))
      /\ (forall q, holds (files s1) q KDir -> holds (files s') q KDir)
      /\ (forall q, holds (files s') q KDir -> holds (files s1) q KDir \/ below q p)
      /\ (r = ROk ENone /\ holds (files s') p KDir \/ exists m, r = RErr (CustomError m)).
  Proof.
    intros A S L V. apply (proj1 (shown_display _ _ _)) in S. subst tx.
    apply (proj1 (leads_join _ _ _)) in L.
    set (pt := path_join (env_get_cwd (s_env s)) (display H' x)) in *.
    destruct (create_dir_all fault p (disk_of s1)) as [ok d'] eqn:W.
    assert (SV : serve fault (RqFsOp (lit "mkdir") [pt]) (disk_of s1) = Some (done (ok, d'))).
    { cbn [serve]. change (str_eqb (lit "mkdir") (lit "rm")) with false.
      change (str_eqb (lit "mkdir") (lit "mkdir")) with true. cbv iota zeta. rewrite <- L, W. reflexivity. }
    apply create_dir_all_spec in W; [|exact V]. destruct W as (W1 & W2 & W3 & W4 & W5).
    apply ask_served in SV. destruct SV as [AS FS]. unfold gives in *. cbn [done fst snd] in AS, FS.
    destruct ok; eexists _, _;
      (split; [apply sure_calls; cycle 1; [cbn [run_builtin]; unfold run_dir;
      sure_step; eapply sure_bind_const; [reflexivity|]; cbv beta;
      eapply sure_path_arg; [reflexivity|exact A|]; cbv beta;
      eapply sure_bind_const; [fold pt; exact AS|]; cbv beta iota; sure_step | discriminate] |]);
    (replace (files _) with (d_root d') by (symmetry; exact (f_equal d_root FS)));
    (split; [exact W1|]); (split; [exact W2|]); (split; [exact W3|]); (split; [exact W4|]); eauto.
  Qed.

  (** [rmdir] removes an empty directory and nothing else. *)
  Theorem C65_rmdir a s x s1 tx p :
    gives H' a s x s1 -> shown H' x tx ->
    leads (env_get_cwd (s_env s)) tx p -> valid (files s1) ->
    exists r s',
      calls H' KRmdir [a] s r s' /\ valid (files s')
      /\ (r = ROk ENone /\ holds (files s1) p KDir
          /\ (forall q, below p q -> q <> p -> ~ present (files s1) q)
          /\ ~ present (files s') p
          /\ (forall q k, q <> p -> holds (files s') q k <-> holds (files s1) q k)
          \/ (exists m, r = RErr (CustomError m)) /\ files s' = files s1).
  Proof.
    intros A S L V. apply (proj1 (shown_display _ _ _)) in S. subst tx.
    apply (proj1 (leads_join _ _ _)) in L.
    set (pt := path_join (env_get_cwd (s_env s)) (display H' x)) in *.
    destruct (remove_dir fault p (disk_of s1)) as [ok d'] eqn:W.
    assert (SV : serve fault (RqFsOp (lit "rmdir") [pt]) (disk_of s1) = Some (done (ok, d'))).
    { cbn [serve]. change (str_eqb (lit "rmdir") (lit "rm")) with false.
      change (str_eqb (lit "rmdir") (lit "mkdir")) with false.
      change (str_eqb (lit "rmdir") (lit "rmdir")) with true. cbv iota zeta. rewrite <- L, W. reflexivity. }
    apply remove_dir_spec in W; [|exact V]. destruct W as (W1 & W2).
    apply ask_served in SV. destruct SV as [AS FS]. unfold gives in *. cbn [done fst snd] in AS, FS.
    destruct ok; eexists _, _;
      (split; [apply sure_calls; cycle 1; [cbn [run_builtin]; unfold run_dir;
      sure_step; eapply sure_bind_const; [reflexivity|]; cbv beta;
      eapply sure_path_arg; [reflexivity|exact A|]; cbv beta;
      eapply sure_bind_const; [fold pt; exact AS|]; cbv beta iota; sure_step | discriminate] |]);
    (replace (files _) with (d_root d') by (symmetry; exact (f_equal d_root FS)));
    (split; [exact W1|]); eauto.
  Qed.

  (** The tests tell what is there. *)
  Theorem C65_tests a s x s1 tx p :
    gives H' a s x s1 -> shown H' x tx ->
    leads (env_get_cwd (s_env s)) tx p -> valid (files s1) ->
    forall k P, In (k, P) [(KExists, present (files s1) p); (KIsDir, holds (files s1) p KDir);
                           (KIsFile, exists c, holds (files s1) p (KFile c))] ->
    exists t s', calls H' k [a] s (ROk (EBoolean t)) s' /\ files s' = files s1 /\ (t = true <-> P).
  Proof.
    intros A S L V k P I. apply (proj1 (shown_display _ _ _)) in S. subst tx.
    apply (proj1 (leads_join _ _ _)) in L.
    set (pt := path_join (env_get_cwd (s_env s)) (display H' x)) in *.
    assert (K : exists what t,
      (forall n, run_builtin H' (eval H' n 0) k [a] = run_fs_test H' (eval H' n 0) what [a])
      /\ serve fault (RqTest what pt) (disk_of s1) = Some (RsBool t, disk_of s1)
      /\ (t = true <-> P)).
    { cbn [In] in I. destruct I as [I|[I|[I|[]]]]; inversion I; subst k P.
      - exists (lit "exists"), (exists_at p (disk_of s1)). split; [reflexivity|]. split.
        + cbn [serve]. rewrite L. reflexivity.
        + rewrite present_lookup by exact V. unfold exists_at. change (d_root (disk_of s1)) with (files s1).
          destruct (lookup p (files s1)); split; try discriminate; congruence.
      - exists (lit "isdir"), (is_dir p (disk_of s1)). split; [reflexivity|]. split.
        + cbn [serve]. rewrite L. reflexivity.
        + rewrite holds_lookup by exact V. unfold is_dir. change (d_root (disk_of s1)) with (files s1).
          destruct (lookup p (files s1)) as [[c|es]|]; split; try discriminate; try (intros (m & E & K); inversion E; subst; discriminate); eauto.
      - exists (lit "isfile"), (is_file p (disk_of s1)). split; [reflexivity|]. split.
        + cbn [serve]. rewrite L. reflexivity.
        + unfold is_file. change (d_root (disk_of s1)) with (files s1).
          split.
          * destruct (lookup p (files s1)) as [[c|es]|] eqn:E; try discriminate.
            intros _. exists c. apply holds_lookup; eauto.
          * intros [c HC]. apply holds_lookup in HC; auto. destruct HC as ([c'|es] & -> & K); [reflexivity | discriminate]. }
    destruct K as (what & t & K & SV & T).
    apply ask_served in SV. destruct SV as [AS FS]. unfold gives in *.
    exists t, (after (RqTest what pt) (RsBool t) s1). split; [|split; [exact (f_equal d_root FS) | exact T]].
    apply sure_calls; [discriminate|].
    apply (sure_ext _ _ (fun n => run_fs_test H' (eval H' n 0) what [a])); [intros n; now rewrite K|].
    unfold run_fs_test. sure_step. eapply sure_bind_const; [reflexivity|]; cbv beta.
    eapply sure_path_arg; [reflexivity|exact A|]; cbv beta.
    eapply sure_bind_const; [fold pt; exact AS|]; cbv beta iota; sure_step.
  Qed.
End Shell.

(** A shell on the files [some_files]. *)
Definition disk_shell : host := on_disk no_fault (fun _ d => d) some_files demo_host.
Definition on_files (source : string) : res expr * node :=
  let (r, s) := eval disk_shell 200 0 (script source) demo in
  (r, files no_fault (fun _ d => d) some_files s).
Arguments on_files source%string_scope.

Example C64_example :
  on_files "fs@write ""/a/n"" ""h\u{e9}\n""; fs@append ""/a/n"" 12; fs@read ""/a/n"""
    = (ROk (EString [104; 233; 10; 49; 50]%N),
       Dir [(lit "a", Dir [(lit "x", File [1; 2]%N); (lit "d", Dir [(lit "y", File [])]);
                           (lit "n", File [104; 195; 169; 10; 49; 50]%N)]); (lit "b", File [3]%N)])
  /\ fst (on_files "fs@append ""/new"" 1")
     = RErr (CustomError (lit "could not open file /new: "))
  (* bytes of a text come back as a text *)
  /\ fst (on_files "fs@read ""/a/x""") = ROk (EString [1; 2]%N).
Proof. vm_compute. repeat split. Qed.

Example C65_example :
  on_files "fs@rm ""/a/d""; fs@mkdir ""/b/c""" = (RErr (CustomError (lit "could not create directory /b/c")),
       Dir [(lit "a", Dir [(lit "x", File [1; 2]%N)]); (lit "b", File [3]%N)])
  /\ on_files "fs@mkdir ""/q/r""; fs@rmdir ""/a""" =
       (RErr (CustomError (lit "could not remove directory /a, is it empty?")),
        Dir [(lit "a", Dir [(lit "x", File [1; 2]%N); (lit "d", Dir [(lit "y", File [])])]);
             (lit "b", File [3]%N); (lit "q", Dir [(lit "r", Dir [])])])
  /\ fst (on_files "fs@cp ""/a"" ""/z/w""; [fs@is-dir? ""/z/w/d"", fs@is-file? ""/z/w/x"", fs@exists? ""/z/w/y""]")
     = ROk (EList [EBoolean true; EBoolean true; EBoolean false]).
Proof. vm_compute. repeat split. Qed.

(** The hypotheses of the theorems for [fs@write "/a/n" "t"] in that shell. *)
Example C64_hypotheses :
  let a := EString (lit "/a/n") in let b := EString (lit "t") in
  gives disk_shell a demo a demo /\ gives disk_shell b demo b demo
  /\ shown disk_shell a (lit "/a/n") /\ leads (env_get_cwd (s_env demo)) (lit "/a/n") [lit "a"; lit "n"]
  /\ contents disk_shell b (utf8_bytes (lit "t"))
  /\ valid (files no_fault (fun _ d => d) some_files demo).
Proof.
  split; [compute_outcome 3%nat|]. split; [compute_outcome 3%nat|]. split; [constructor|].
  split; [apply leads_join; reflexivity|].
  split; [apply c_text; [discriminate | constructor] | exact some_files_valid].
Qed.

Print Assumptions C64_write.
Print Assumptions C64_read.
Print Assumptions C64_read_back.
Print Assumptions C64_append.
Print Assumptions C65_rm.
Print Assumptions C65_mkdir.
Print Assumptions C65_rmdir.
Print Assumptions C65_tests.
