(** C67: lines of texts and files. *)

From Coq Require Import String List Lia.
From Verif Require Import Base Syntax Host Ops ErrorFmt Text Monad Builtins Eval EvalSpec CmdFacts
  LibFacts LibSpec MapFacts EvalFacts Utf8Facts Fs FsHost FsSpec FsFacts FilesFacts P_Fs P_Files
  P_ErrLine LinesSpec Demo.
Import ListNotations.

(** ** Lines *)

Lemma strip_cr_return l : strip_cr (l ++ [13%N]) = l.
Proof.
  induction l as [|c l IH]; [reflexivity|].
  change (strip_cr (c :: (l ++ [13%N])) = c :: l). destruct (l ++ [13%N]) as [|d r] eqn:E.
  - destruct l; discriminate.
  - transitivity (c :: strip_cr (d :: r)); [reflexivity|]. f_equal. exact IH.
Qed.

Lemma strip_cr_none l : (forall x, l <> x ++ [13%N]) -> strip_cr l = l.
Proof.
  induction l as [|c [|d l] IH]; intros N; [reflexivity | |].
  - cbn. destruct (N.eqb_spec c 13); [|reflexivity]. subst. now destruct (N []).
  - transitivity (c :: strip_cr (d :: l)); [reflexivity|]. rewrite IH; [reflexivity|]. intros x E. apply (N (c :: x)). cbn. now rewrite E.
Qed.

Lemma without_return_strip x l : without_return x l <-> strip_cr x = l.
Proof.
  split.
  - destruct 1; [apply strip_cr_return | now apply strip_cr_none].
  - intros <-. destruct (list_eq_dec N.eq_dec (strip_cr x) x) as [E|E].
    + rewrite E. apply wr_none. intros y Y. subst x. rewrite strip_cr_return in E.
      apply (f_equal (@length N)) in E. rewrite app_length in E. cbn in E. lia.
    + assert (X : exists y, x = y ++ [13%N]).
      { clear - E. induction x as [|c [|d x] IH].
        - now destruct E.
        - cbn in E. destruct (N.eqb_spec c 13); [|easy]. subst. now exists [].
        - change (strip_cr (c :: d :: x)) with (c :: strip_cr (d :: x)) in E. destruct IH as [y Y]; [congruence|]. exists (c :: y). now rewrite Y. }
      destruct X as [y ->]. rewrite strip_cr_return. constructor.
Qed.

Lemma lines_of_cons p r : r <> [] -> lines_of (p :: r) = strip_cr p :: lines_of r.
Proof. now destruct r. Qed.

Lemma split_nl_some s : split_nl s <> [].
Proof.
  intros E. apply (f_equal (@length str)) in E. rewrite split_nl_length in E. discriminate.
Qed.

Lemma lines_str_lines t ls : lines t ls -> str_lines t = ls.
Proof.
  unfold str_lines. induction 1 as [|t N S|x l r ls S W L IH]; [reflexivity| |].
  - rewrite split_nl_one by exact S. now destruct t.
  - rewrite split_nl_feed, (split_nl_one x S). cbn [List.app].
    rewrite lines_of_cons by apply split_nl_some. now rewrite IH, (proj1 (without_return_strip _ _) W).
Qed.

Lemma str_lines_lines t : lines t (str_lines t).
Proof.
  remember (length t) as n. revert t Heqn. induction n as [n IH] using lt_wf_ind. intros t ->.
  destruct (in_dec N.eq_dec 10%N t) as [I|I].
  - assert (X : exists x r, single x /\ t = x ++ 10%N :: r).
    { clear - I. induction t as [|c t IH]; [easy|]. destruct (N.eq_dec c 10) as [->|N].
      - exists [], t. split; [intros [] | reflexivity].
      - destruct IH as (x & r & S & ->); [now destruct I|]. exists (c :: x), r. split; [now intros [E|E] | reflexivity]. }
    destruct X as (x & r & S & ->). unfold str_lines. rewrite split_nl_feed, (split_nl_one x S). cbn [List.app].
    rewrite lines_of_cons by apply split_nl_some. constructor; [exact S| |].
    + now apply without_return_strip.
    + apply (IH (length r)); [|reflexivity]. rewrite app_length. cbn [length]. unfold chr in *. lia.
  - unfold str_lines. rewrite split_nl_one by exact I. destruct t as [|c t]; [constructor|].
    cbn. constructor; [discriminate | exact I].
Qed.

(** Every text has lines, and only one list of them. *)
Theorem C67_lines_unique t : exists ls, lines t ls /\ forall ls', lines t ls' -> ls' = ls.
Proof.
  exists (str_lines t). split; [apply str_lines_lines|]. intros ls' L. symmetry. now apply lines_str_lines.
Qed.

(** [lines] and [string@lines] give the lines of a text. *)
Theorem C67_lines H a s t s' ls :
  gives H a s (EString t) s' -> lines t ls ->
  calls H BLines [a] s (ROk (EList (map EString ls))) s'
  /\ calls H SLines [a] s (ROk (EList (map EString ls))) s'.
Proof.
  intros A L. apply lines_str_lines in L. subst ls. unfold gives in *. split.
  - call. unfold run_lines. repeat sure_step.
  - call. unfold run_pieces, exact1. repeat sure_step.
Qed.

(** ** The beginning and the end of a file *)

Section Shell.
  Variables (fault : nat -> option nat) (other : request -> disk -> disk) (d0 : disk) (H : host).
  Let H' := on_disk fault other d0 H.
  Let files := files fault other d0.

  Lemma fs_lines k name pick a b s x s1 n s2 tx p :
    (k = KHead /\ name = lit "head" /\ pick = (fun l : list str => l)
     \/ k = KTail /\ name = lit "tail" /\ pick = @rev str) ->
    gives H' a s x s1 -> gives H' b s1 (EInteger n) s2 -> shown H' x tx ->
    leads (env_get_cwd (s_env s)) tx p -> valid (files s2) ->
    exists r s',
      calls H' k [a; b] s r s' /\ files s' = files s2
      /\ ((exists t ls, Forall character t /\ holds (files s2) p (KFile (utf8_bytes t)) /\ lines t ls
                        /\ r = ROk (EString (with_feeds (firstn (Z.to_nat n) (pick ls)))))
          \/ (exists m, r = RErr (CustomError m))
             /\ ((exists i, fault i <> None)
                 \/ forall t, Forall character t -> ~ holds (files s2) p (KFile (utf8_bytes t)))).
  Proof.
    intros C A B S L V. apply (proj1 (shown_display _ _ _)) in S. subst tx.
    apply (proj1 (leads_join _ _ _)) in L.
    set (rq := RqRead (path_join (env_get_cwd (s_env s)) (display H' x))).
    set (d := disk_after fault other d0 (s_trace s2)).
    destruct (read_file fault p d) as [o d'] eqn:W.
    assert (SV : serve fault rq d =
      Some (match o with Some b => RsOutput b | None => RsErr (lit "Other") [] [] end, d')).
    { unfold rq. cbn [serve]. rewrite <- L, W. now destruct o. }
    apply read_file_spec in W; [|exact V]. destruct W as [W1 W2].
    apply (ask_served fault other d0 H) in SV. destruct SV as [AS FS].
    match type of AS with _ = (_, ?u) => set (s3 := u) in * end.
    assert (F3 : files s3 = files s2) by (exact (eq_trans (f_equal d_root FS) W1)).
    assert (K : forall m, run_builtin H' (eval H' m 0) k [a; b] = run_fs_lines H' (eval H' m 0) name pick [a; b]).
    { intros m. destruct C as [(-> & -> & ->)|(-> & -> & ->)]; reflexivity. }
    unfold gives in *.
    assert (START : forall r s', sure (fun m => match match o with
                      | Some b => match from_utf8 b with Some t => inl t | None => inr (lit "stream did not contain valid UTF-8") end
                      | None => inr [] end with
                      | inl t => ret (EString (unlines (take_usize (Z.to_N n) (pick (str_lines t)))))
                      | inr _ => custom (lit "could not read file " ++ display H' x) end) s3 r s' ->
                    r <> RFuel -> calls H' k [a; b] s r s').
    { intros r s' KK NF. apply sure_calls; [exact NF|].
      apply (sure_ext _ _ (fun m => run_fs_lines H' (eval H' m 0) name pick [a; b])); [intros m; now rewrite K|].
      unfold run_fs_lines.
      sure_step. eapply sure_bind_const; [reflexivity|]. cbv beta. sure_step. sure_step.
      eapply sure_bind_const.
      { unfold read_to_string. fold rq. unfold bind at 1. fold H' in AS. rewrite AS. reflexivity. }
      destruct o; exact KK. }
    assert (BAD : forall m, (exists i, fault i <> None) \/ (forall t, Forall character t -> ~ holds (files s2) p (KFile (utf8_bytes t))) ->
      calls H' k [a; b] s (RErr (CustomError m)) s3 ->
      exists r s',
      calls H' k [a; b] s r s' /\ files s' = files s2
      /\ ((exists t ls, Forall character t /\ holds (files s2) p (KFile (utf8_bytes t)) /\ lines t ls
                        /\ r = ROk (EString (with_feeds (firstn (Z.to_nat n) (pick ls)))))
          \/ (exists m, r = RErr (CustomError m))
             /\ ((exists i, fault i <> None)
                 \/ forall t, Forall character t -> ~ holds (files s2) p (KFile (utf8_bytes t))))).
    { intros m X Y. eexists _, s3. split; [exact Y|]. split; [exact F3|]. right. split; [eauto | exact X]. }
    destruct o as [c|].
    - destruct (from_utf8 c) as [t|] eqn:U.
      + eexists _, s3. split; [apply START; [apply sure_ret | discriminate]|]. split; [exact F3|].
        left. exists t, (str_lines t). apply from_utf8_sound in U. destruct U as [U1 U2]. subst c.
        split; [exact U1|]. split; [exact W2|]. split; [apply str_lines_lines|]. do 2 f_equal.
        unfold unlines, with_feeds. rewrite flat_map_concat_map. do 2 f_equal. unfold take_usize.
        rewrite Z_N_nat. destruct (N.leb_spec (N.of_nat (length (pick (str_lines t)))) (Z.to_N n)); [|reflexivity].
        rewrite firstn_all2; [reflexivity | lia].
      + apply (BAD (lit "could not read file " ++ display H' x)).
        * right. intros t CT HT. assert (E : utf8_bytes t = c).
          { apply holds_lookup in W2; auto. apply holds_lookup in HT; auto.
            destruct W2 as (m & E & K1), HT as (m2 & E2 & K2). fold files in E.
            change (d_root d) with (files s2) in E. rewrite E in E2. inversion E2; subst.
            rewrite K1 in K2. congruence. }
          exact (proj1 (from_utf8_none _) U t CT E).
        * apply START; [apply sure_throw | discriminate].
    - apply (BAD (lit "could not read file " ++ display H' x)).
      + destruct W2 as [F|N]; [left; eauto | right; auto].
      + apply START; [apply sure_throw | discriminate].
  Qed.

  Lemma one_text (u : st) p t t' :
    valid (files u) -> Forall character t -> Forall character t' ->
    holds (files u) p (KFile (utf8_bytes t)) -> holds (files u) p (KFile (utf8_bytes t')) -> t = t'.
  Proof.
    intros V C C' A B. apply holds_lookup in A; auto. apply holds_lookup in B; auto.
    destruct A as (m & E & K1), B as (m2 & E2 & K2). rewrite E in E2. inversion E2; subst.
    rewrite K1 in K2. inversion K2 as [Q]. apply (f_equal from_utf8) in Q.
    rewrite !from_utf8_bytes in Q by assumption. congruence.
  Qed.

  (** [fs@head] gives the first lines of a file, each with a line feed. *)
  Theorem C67_head a b s x s1 n s2 tx p t ls :
    gives H' a s x s1 -> gives H' b s1 (EInteger n) s2 -> shown H' x tx ->
    leads (env_get_cwd (s_env s)) tx p -> valid (files s2) ->
    Forall character t -> holds (files s2) p (KFile (utf8_bytes t)) -> lines t ls ->
    exists r s',
      calls H' KHead [a; b] s r s' /\ files s' = files s2
      /\ (r = ROk (EString (with_feeds (firstn (Z.to_nat n) ls)))
          \/ (exists m, r = RErr (CustomError m)) /\ exists i, fault i <> None).
  Proof.
    intros A B S L V CT HT LT.
    destruct (fs_lines KHead (lit "head") (fun l => l) a b s x s1 n s2 tx p)
      as (r & s' & C & F & K); auto.
    exists r, s'. split; [exact C|]. split; [exact F|].
    destruct K as [(t' & ls' & CT' & HT' & LT' & ->)|[E [X|N]]].
    - left. rewrite (one_text s2 p t' t V CT' CT HT' HT) in LT'.
      apply lines_str_lines in LT, LT'. congruence.
    - right. auto.
    - now destruct (N t CT).
  Qed.

  (** [fs@tail] takes the lines from the end and gives them in reverse order. *)
  Theorem C67_tail_partial a b s x s1 n s2 tx p t ls :
    gives H' a s x s1 -> gives H' b s1 (EInteger n) s2 -> shown H' x tx ->
    leads (env_get_cwd (s_env s)) tx p -> valid (files s2) ->
    Forall character t -> holds (files s2) p (KFile (utf8_bytes t)) -> lines t ls ->
    exists r s',
      calls H' KTail [a; b] s r s' /\ files s' = files s2
      /\ (r = ROk (EString (with_feeds (firstn (Z.to_nat n) (rev ls))))
          \/ (exists m, r = RErr (CustomError m)) /\ exists i, fault i <> None).
  Proof.
    intros A B S L V CT HT LT.
    destruct (fs_lines KTail (lit "tail") (@rev str) a b s x s1 n s2 tx p)
      as (r & s' & C & F & K); auto.
    exists r, s'. split; [exact C|]. split; [exact F|].
    destruct K as [(t' & ls' & CT' & HT' & LT' & ->)|[E [X|N]]].
    - left. rewrite (one_text s2 p t' t V CT' CT HT' HT) in LT'.
      apply lines_str_lines in LT, LT'. congruence.
    - right. auto.
    - now destruct (N t CT).
  Qed.

  (** Both fail on what is not a file with a text. *)
  Theorem C67_no_text a b s x s1 n s2 tx p k :
    k = KHead \/ k = KTail ->
    gives H' a s x s1 -> gives H' b s1 (EInteger n) s2 -> shown H' x tx ->
    leads (env_get_cwd (s_env s)) tx p -> valid (files s2) ->
    (forall t, Forall character t -> ~ holds (files s2) p (KFile (utf8_bytes t))) ->
    exists m s', calls H' k [a; b] s (RErr (CustomError m)) s' /\ files s' = files s2.
  Proof.
    intros KK A B S L V N.
    assert (X : exists name pick, k = KHead /\ name = lit "head" /\ pick = (fun l : list str => l)
                               \/ k = KTail /\ name = lit "tail" /\ pick = @rev str).
    { destruct KK as [-> | ->].
      - exists (lit "head"), (fun l => l). auto.
      - exists (lit "tail"), (@rev str). auto. }
    destruct X as (name & pick & X).
    destruct (fs_lines k name pick a b s x s1 n s2 tx p) as (r & s' & C & F & K); auto.
    destruct K as [(t' & ls' & CT' & HT' & LT' & ->)|[[m ->] _]]; [now destruct (N t' CT')|].
    eauto.
  Qed.
End Shell.

(** "[tail] gives the last lines" is false. *)
Theorem C67_tail_refuted :
  exists d0 t ls r s',
    let H := on_disk no_fault (fun _ d => d) d0 demo_host in
    holds (d_root d0) (components (lit "/tmp/f")) (KFile (utf8_bytes t)) /\ lines t ls
    /\ calls H KTail [EString (lit "f"); EInteger 2] demo (ROk (EString r)) s'
    /\ r <> with_feeds (skipn (length ls - 2) ls).
Proof.
  exists (Disk (Dir [(lit "tmp", Dir [(lit "f", File (lit "a
b
c"))])]) 0), (lit "a
b
c"), [lit "a"; lit "b"; lit "c"], (lit "c
b
").
  eexists. cbv zeta. split; [|split; [|split]].
  - vm_compute. econstructor; [now left|]. econstructor; [now left|]. constructor.
  - apply str_lines_lines.
  - compute_outcome 20%nat.
  - vm_compute. discriminate.
Qed.

Example C67_example :
  let H := on_disk no_fault (fun _ d => d)
             (Disk (Dir [(lit "tmp", Dir [(lit "f", File (lit "a
b
c"))])]) 0) demo_host in
  fst (run_builtin H (eval H 20 0) KHead [EString (lit "f"); EInteger 2] demo) = ROk (EString (lit "a
b
"))
  /\ value_of "lines ""a\r\nb\n\nc\r""" = ROk (EList (map EString [lit "a"; lit "b"; []; [99; 13]%N])).
Proof. split; vm_compute; reflexivity. Qed.

Print Assumptions C67_lines_unique.
Print Assumptions C67_lines.
Print Assumptions C67_head.
Print Assumptions C67_tail_partial.
Print Assumptions C67_no_text.
Print Assumptions C67_tail_refuted.
