(** C47: what the interactive loop evaluates. *)

From Coq Require Import String List Lia.
From Verif Require Import Base Syntax Host Ops Parser Monad ErrorFmt Builtins Eval
  Repl ReplSpec P_Parse Init Demo.
Import ListNotations.

(** ** Texts *)

Lemma join_one_text ls : join [10%N] ls = one_text ls.
Proof.
  destruct ls as [| l ls]; [reflexivity |]. cbn [one_text].
  revert l. induction ls as [| m ls IH]; intros l.
  - cbn. now rewrite app_nil_r.
  - cbn [join]. specialize (IH m). cbn [join map concat] in *.
    rewrite IH. unfold with_newline at 2. now rewrite <- app_comm_cons.
Qed.

Lemma last_snoc (l : list str) x d : last (l ++ [x]) d = x.
Proof. induction l as [| y l IH]; [reflexivity |]. cbn. rewrite IH. now destruct (l ++ [x]) eqn:E; [destruct l |]. Qed.

Lemma accepted_rejected t e err : accepted t e -> rejected t err -> False.
Proof. unfold accepted, rejected. intros A [R | R]; rewrite A in R; discriminate. Qed.

(** Two beginnings of one list. *)
Lemma two_beginnings (a b c d : list str) :
  a ++ b = c ++ d ->
  (exists x, c = a ++ x) \/ (exists x y, a = c ++ x :: y).
Proof.
  revert c. induction a as [| x a IH]; intros c E; [left; now exists c |].
  destruct c as [| y c]; [right; now exists x, a |].
  cbn in E. injection E as -> E. destruct (IH c E) as [[z ->] | [z [w ->]]].
  - left. now exists z.
  - right. now exists z, w.
Qed.

Lemma unfinished_input kept i more :
  unfinished kept -> is_input i -> kept <> input_lines i ++ more.
Proof.
  intros U (b & l & E & _ & K) X.
  destruct (U (input_lines i) more X) as [[err R] L].
  { rewrite E. now destruct b. }
  destruct i as [ls e | ls e]; cbn in *.
  - exact (accepted_rejected _ _ _ K R).
  - destruct K as [-> _]. now rewrite E, last_snoc in L.
Qed.

Lemma unfinished_nil : unfinished [].
Proof. intros f r E N. symmetry in E. apply app_eq_nil in E. now destruct E. Qed.

Lemma unfinished_snoc kept l err :
  unfinished kept -> l <> [] -> rejected (one_text (kept ++ [l])) err -> unfinished (kept ++ [l]).
Proof.
  intros U L R f r E N. destruct (two_beginnings _ _ _ _ E) as [[x X] | [x [y X]]].
  - assert (f = kept \/ f = kept ++ [l]) as [-> | ->].
    { subst f. rewrite <- app_assoc in E. apply app_inv_head in E.
      destruct x; [left; now rewrite app_nil_r |]. cbn in E. injection E as -> E.
      symmetry in E. apply app_eq_nil in E. destruct E as [-> _]. now right. }
    + apply (U kept []); [now rewrite app_nil_r | exact N].
    + split; [now exists err | now rewrite last_snoc].
  - apply (U f (x :: y) X N).
Qed.

(** What follows lines that are kept starts with an input that has them. *)
Lemma next_input kept l more i is rest :
  kept ++ l :: more = concat (map input_lines (i :: is)) ++ rest ->
  unfinished kept -> is_input i ->
  (exists t, input_lines i = kept ++ l :: t).
Proof.
  intros E U I. cbn in E. rewrite <- app_assoc in E.
  destruct (two_beginnings _ _ _ _ E) as [[x X] | [x [y X]]].
  - destruct x as [| x xs].
    + exfalso. apply (unfinished_input kept i [] U I). rewrite X. now rewrite !app_nil_r.
    + rewrite X in E. rewrite <- app_assoc in E. apply app_inv_head in E. cbn in E.
      injection E as <- E. now exists xs.
  - exfalso. exact (unfinished_input _ _ _ U I X).
Qed.

Lemma input_before i kept l t :
  is_input i -> input_lines i = kept ++ l :: t -> t <> [] ->
  (exists err, rejected (one_text (kept ++ [l])) err) /\ l <> [].
Proof.
  intros (b & x & E & U & _) X N. rewrite E in X.
  destruct (exists_last N) as (t' & y & ->).
  replace (kept ++ l :: t' ++ [y]) with ((kept ++ l :: t') ++ [y]) in X
    by now rewrite <- app_assoc.
  apply app_inj_tail in X as [-> ->].
  destruct (U (kept ++ [l]) t') as [R L].
  - now rewrite <- app_assoc.
  - now destruct kept.
  - split; [exact R | now rewrite last_snoc in L].
Qed.

(** ** The loop *)

Section Loop.
  Variable H : host.
  Variable n : nat.

  (** What is left to do when the lines [kept] are there. *)
  Definition act (i : input) : M unit :=
    match i with
    | Complete _ e =>
        r <- attempt (ev H n e) ;;
        match r with inl v => show_value H n v | inr err => eprint H err end
    | Abandoned ls err => eprint H (SyntaxErr (one_text ls) err)
    end.

  Definition finish (keys : list key) (rest : list str) : M (list str) :=
    if ended keys then exits 0 else ret rest.

  Definition to_end (is : list input) (rest : list str) (keys : list key) : M (list str) :=
    handle_all H n is ;;; asks H n [] rest ;;; prompt H n rest ;;; finish keys rest.

  Definition after (kept : list str) (is : list input) (rest : list str)
      (keys : list key) : M (list str) :=
    match is with
    | [] =>
        match skipn (length kept) rest with
        | [] => finish keys rest
        | l :: t => asks H n (kept ++ [l]) t ;;; prompt H n rest ;;; finish keys rest
        end
    | i :: is' =>
        asks H n (kept ++ [hd [] (skipn (length kept) (input_lines i))])
          (tl (skipn (length kept) (input_lines i))) ;;; act i ;;; to_end is' rest keys
    end.

  Lemma bind_assoc {A B C} (m : M A) (f : A -> M B) (g : B -> M C) s :
    bind (bind m f) g s = bind m (fun x => bind (f x) g) s.
  Proof. unfold bind. now destruct (m s) as [[] s1]. Qed.

  Lemma bind_ext {A B} (m : M A) (f g : A -> M B) s :
    (forall x s', f x s' = g x s') -> bind m f s = bind m g s.
  Proof. intros K. unfold bind. destruct (m s) as [[] s1]; auto. Qed.

  Lemma bind_cong {A B} (m m' : M A) (f : A -> M B) s :
    (forall s', m s' = m' s') -> bind m f s = bind m' f s.
  Proof. intros K. unfold bind. now rewrite K. Qed.

  Lemma bind_ret {A B} (a : A) (f : A -> M B) s : bind (ret a) f s = f a s.
  Proof. reflexivity. Qed.

  Lemma skipn_next {A} (kept : list A) l t :
    skipn (length kept) (kept ++ l :: t) = l :: t
    /\ skipn (length (kept ++ [l])) (kept ++ l :: t) = t.
  Proof.
    split.
    - rewrite skipn_app, skipn_all, Nat.sub_diag. reflexivity.
    - replace (kept ++ l :: t) with ((kept ++ [l]) ++ t) by now rewrite <- app_assoc.
      rewrite skipn_app, skipn_all, Nat.sub_diag. reflexivity.
  Qed.

  Lemma after_start is rest keys s :
    Forall is_input is ->
    (prompt H n [] ;;; after [] is rest keys) s = to_end is rest keys s.
  Proof.
    intros F. unfold after, to_end. destruct is as [| i is].
    - cbn [handle_all length skipn]. rewrite bind_ret. destruct rest as [| l t].
      + cbn [asks]. rewrite bind_ret. reflexivity.
      + cbn [asks app]. rewrite bind_assoc. reflexivity.
    - inversion F as [| ? ? (b & l & E & _) _]; subst. cbn [handle_all length skipn].
      rewrite bind_assoc.
      assert (exists x t, input_lines i = x :: t) as (x & t & X).
      { destruct b; eexists _, _; rewrite E; reflexivity. }
      rewrite X. cbn [hd tl app].
      assert (forall s', handle H n i s' = (asks H n [] (x :: t) ;;; act i) s') as HH.
      { intros s'. destruct i; cbn [handle act input_lines] in *; now rewrite X. }
      rewrite (bind_cong _ _ _ s HH).
      rewrite bind_assoc. cbn [asks app]. rewrite bind_assoc. reflexivity.
  Qed.

  Lemma finish_skip k ks rest : k <> EndOfInput -> finish (k :: ks) rest = finish ks rest.
  Proof. now destruct k. Qed.

  Lemma attempt_parse text s :
    attempt (parse_m text) s =
    match parse_script text with
    | SOk e => (ROk (inl e), s)
    | SError e | SFailure e => (ROk (inr (SyntaxErr text e)), s)
    | SPanic => (RPanic PBoundary, s)
    | SFuel => (RFuel, s)
    end.
  Proof. unfold attempt, parse_m, catch, bind. now destruct (parse_script text). Qed.

  Lemma enter_accepted kept l e s :
    accepted (one_text (kept ++ [l])) e ->
    enter H n kept l s = (act (Complete (kept ++ [l]) e) ;;; ret []) s.
  Proof.
    intros A. unfold enter. unfold bind at 1.
    rewrite attempt_parse, join_one_text, A. cbn [act]. rewrite bind_assoc.
    apply bind_ext. intros [v | err] s'; reflexivity.
  Qed.

  Lemma enter_abandoned (kept : list str) (l : str) err s :
    l = [] -> rejected (one_text (kept ++ [l])) err ->
    enter H n kept l s = (act (Abandoned (kept ++ [l]) err) ;;; ret []) s.
  Proof.
    intros L A. unfold enter. unfold bind at 1.
    rewrite attempt_parse, join_one_text. destruct A as [-> | ->]; rewrite L; reflexivity.
  Qed.

  Lemma enter_more (kept : list str) (l : str) err s :
    rejected (one_text (kept ++ [l])) err -> l <> [] ->
    enter H n kept l s = (ROk (kept ++ [l]), s).
  Proof.
    intros A N. unfold enter. unfold bind at 1.
    rewrite attempt_parse, join_one_text.
    destruct A as [-> | ->]; (destruct l; [easy |]); reflexivity.
  Qed.

  Lemma repl_false kept keys s :
    repl H n false kept keys s = (prompt H n kept ;;; repl H n true kept keys) s.
  Proof.
    destruct keys; cbn [repl]; unfold bind; destruct (prompt H n kept s) as [[] s1]; reflexivity.
  Qed.

  Lemma step keys kept l ks is rest s :
    (forall kept is rest s, unfinished kept -> falls_into (kept ++ lines_of ks) is rest ->
       repl H n true kept ks s = after kept is rest ks s) ->
    (forall r, finish keys r = finish ks r) ->
    unfinished kept -> falls_into (kept ++ l :: lines_of ks) is rest ->
    (kept <- enter H n kept l ;; repl H n false kept ks) s = after kept is rest keys s.
  Proof.
    intros IH FK U (E & F & R).
    assert (C : (exists t, rest = kept ++ l :: t /\ is = [])
                \/ exists i is' t, is = i :: is' /\ input_lines i = kept ++ l :: t).
    { destruct is as [| i is].
      - left. cbn in E. now exists (lines_of ks).
      - right. destruct (next_input _ _ _ _ _ _ E U (Forall_inv F)) as [t T]. now exists i, is, t. }
    assert (MORE : forall err, rejected (one_text (kept ++ [l])) err -> l <> [] ->
              unfinished (kept ++ [l])
              -> (kept <- enter H n kept l ;; repl H n false kept ks) s
                 = (prompt H n (kept ++ [l]) ;;; after (kept ++ [l]) is rest ks) s).
    { intros err A N U'. unfold bind at 1. rewrite (enter_more _ _ _ _ A N).
      rewrite repl_false. apply bind_ext. intros _ s'. apply IH; [exact U' |].
      split; [| now split; auto]. now rewrite <- app_assoc. }
    destruct C as [(t & -> & ->) | (i & is' & t & -> & T)].
    - destruct (R (kept ++ [l]) t) as [[err A] N].
      { now rewrite <- app_assoc. }
      { now destruct kept. }
      rewrite last_snoc in N.
      rewrite (MORE err A N (unfinished_snoc _ _ _ U N A)).
      unfold after. destruct (skipn_next kept l t) as [-> ->].
      destruct t as [| l' t].
      + cbn [asks]. rewrite bind_ret. apply bind_ext. intros _ s'. now rewrite FK.
      + cbn [asks]. rewrite bind_assoc. apply bind_ext. intros _ s'. apply bind_ext.
        intros _ s2. apply bind_ext. intros _ s3. now rewrite FK.
    - inversion F as [| ? ? I F' ]; subst. destruct t as [| l' t].
      + assert (ACT : enter H n kept l s = (act i ;;; ret []) s).
        { destruct I as (b & x & X & _ & K). rewrite T in X. apply app_inj_tail in X as [-> ->].
          destruct i as [ls e | ls err]; cbn [input_lines] in T; subst ls.
          - exact (enter_accepted _ _ _ _ K).
          - exact (enter_abandoned _ _ _ _ (proj1 K) (proj2 K)). }
        unfold bind at 1. rewrite ACT. unfold bind at 1.
        unfold after. rewrite T. destruct (skipn_next kept l []) as [-> _].
        cbn [hd tl asks]. rewrite bind_ret. unfold bind at 1.
        destruct (act i s) as [[] s1]; cbn [ret]; try reflexivity.
        rewrite repl_false.
        rewrite (bind_ext _ _ (fun _ => after [] is' rest ks)).
        * rewrite after_start by exact F'. unfold to_end.
          apply bind_ext. intros _ s3. apply bind_ext. intros _ s4. apply bind_ext. intros _ s5.
          now rewrite FK.
        * intros _ s'. apply IH; [exact unfinished_nil |]. split; [| now split; auto].
          cbn [map concat] in E. rewrite T, <- !app_assoc in E.
          apply app_inv_head in E. cbn in E. now injection E.
      + destruct (input_before i kept l (l' :: t) I T) as [[err A] N]; [discriminate |].
        rewrite (MORE err A N (unfinished_snoc _ _ _ U N A)).
        unfold after. rewrite T. destruct (skipn_next kept l (l' :: t)) as [-> ->].
        cbn [hd tl asks]. rewrite bind_assoc. apply bind_ext. intros _ s'.
        apply bind_ext. intros _ s2. apply bind_ext. intros _ s3.
        unfold to_end.
        apply bind_ext. intros _ s4. apply bind_ext. intros _ s5. apply bind_ext. intros _ s6.
        now rewrite FK.
  Qed.

  Lemma repl_after keys kept is rest s :
    unfinished kept -> falls_into (kept ++ lines_of keys) is rest ->
    repl H n true kept keys s = after kept is rest keys s.
  Proof.
    revert kept is rest s. induction keys as [| k ks IH]; intros kept is rest s U FI.
    - cbn [repl lines_of] in *. rewrite bind_ret.
      destruct FI as (E & F & R). rewrite app_nil_r in E.
      destruct is as [| i is].
      + cbn in E. subst rest. cbn [after]. now rewrite skipn_all.
      + exfalso. cbn in E. rewrite <- app_assoc in E.
        exact (unfinished_input _ _ _ U (Forall_inv F) E).
    - destruct k as [l | | |]; cbn [repl lines_of] in *; rewrite bind_ret.
      + now apply step.
      + now apply step.
      + destruct FI as (E & F & R). rewrite app_nil_r in E.
        destruct is as [| i is].
        * cbn in E. subst rest. cbn [after]. now rewrite skipn_all.
        * exfalso. cbn in E. rewrite <- app_assoc in E.
          exact (unfinished_input _ _ _ U (Forall_inv F) E).
      + apply (IH kept is rest s U FI).
  Qed.
End Loop.

(** If the typed lines fall into the inputs [is] and the unfinished lines
    [rest], then the loop does this and nothing else: it handles the inputs in
    order, each once, asks for the lines of [rest] and for one more, and waits,
    or leaves at the end of the input. *)
Theorem C47_session H n keys is rest s :
  falls_into (lines_of keys) is rest ->
  repl H n false [] keys s =
  (handle_all H n is ;;; asks H n [] rest ;;; prompt H n rest ;;;
   if ended keys then exits 0 else ret rest) s.
Proof.
  intros FI. rewrite repl_false.
  rewrite (bind_ext _ _ (fun _ => after H n [] is rest keys)).
  - apply after_start. apply FI.
  - intros _ s'. apply repl_after; [exact unfinished_nil | exact FI].
Qed.

(** Lines fall into inputs in at most one way, *)
Theorem C47_one_way lines is rest is' rest' :
  falls_into lines is rest -> falls_into lines is' rest' -> is = is' /\ rest = rest'.
Proof.
  revert lines is'. induction is as [| i is IH]; intros lines is' (E & F & U) (E' & F' & U').
  - destruct is' as [| i' is']; [cbn in *; subst; auto |].
    exfalso. cbn in E, E'. subst lines. rewrite <- app_assoc in E'.
    exact (unfinished_input _ _ _ U (Forall_inv F') E').
  - inversion F as [| ? ? I F0]; subst. destruct is' as [| i' is'].
    + exfalso. cbn in E'. rewrite <- app_assoc in E'. symmetry in E'.
      exact (unfinished_input _ _ _ U' I E').
    + inversion F' as [| ? ? I' F0']; subst. cbn in E'. rewrite <- !app_assoc in E'.
      assert (i = i') as <-.
      { assert (input_lines i = input_lines i') as L.
        { destruct (two_beginnings _ _ _ _ E') as [[x X] | [x [y X]]].
          - destruct x as [| x xs]; [now rewrite app_nil_r in X |]. exfalso.
            destruct I as (b & l & B & _ & K). rewrite B, <- app_assoc in X.
            destruct (input_before i' b l (x :: xs) I' X) as [[err R] N]; [discriminate |].
            destruct i; cbn in *; subst.
            + exact (accepted_rejected _ _ _ K R).
            + now destruct K.
          - exfalso.
            destruct I' as (b & l & B & _ & K). rewrite B, <- app_assoc in X.
            destruct (input_before i b l (x :: y) I X) as [[err R] N]; [discriminate |].
            destruct i'; cbn in *; subst.
            + exact (accepted_rejected _ _ _ K R).
            + now destruct K. }
        destruct I as (b & l & _ & _ & K), I' as (b' & l' & _ & _ & K').
        destruct i, i'; cbn in L, K, K'; subst.
        - unfold accepted in *. rewrite K in K'. now injection K' as ->.
        - exfalso. exact (accepted_rejected _ _ _ K (proj2 K')).
        - exfalso. exact (accepted_rejected _ _ _ K' (proj2 K)).
        - destruct K as [_ [K | K]], K' as [_ [K' | K']]; rewrite K in K';
            try discriminate; now injection K' as ->. }
      apply app_inv_head in E'.
      destruct (IH (concat (map input_lines is) ++ rest) is') as [-> ->];
        [now split | now split | auto].
Qed.

(** and in one, unless the parser crashes on a beginning of an input. *)
Theorem C47_some_way lines :
  (forall before some after, lines = before ++ some ++ after ->
     parse_script (one_text some) <> SPanic) ->
  exists is rest, falls_into lines is rest.
Proof.
  intros NP.
  assert (OK : forall before some after, lines = before ++ some ++ after ->
     exists e err, accepted (one_text some) e \/ rejected (one_text some) err).
  { intros b t a E. specialize (NP b t a E). pose proof (C06_script_finishes (one_text t)) as NF.
    unfold accepted, rejected.
    destruct (parse_script (one_text t)) as [e | err | err | |]; try easy.
    - exists e, InternalError. now left.
    - exists ENone, err. right. now left.
    - exists ENone, err. right. now right. }
  clear NP. revert OK.
  assert (G : forall ls kept, unfinished kept ->
    (forall before some after, kept ++ ls = before ++ some ++ after ->
       exists e err, accepted (one_text some) e \/ rejected (one_text some) err) ->
    exists is rest, falls_into (kept ++ ls) is rest).
  2: { intros K. exact (G lines [] unfinished_nil K). }
  induction ls as [| l ls IH]; intros kept U K.
  - exists [], kept. rewrite app_nil_r. now split.
  - destruct (K [] (kept ++ [l]) ls) as (e & err & AR); [now rewrite <- app_assoc |].
    assert (NEXT : forall i, input_lines i = kept ++ [l] -> is_input i ->
              exists is rest, falls_into (kept ++ l :: ls) is rest).
    { intros i L I. destruct (IH [] unfinished_nil) as (is & rest & E & F & R).
      - intros b t a X. cbn in X. apply (K ((kept ++ [l]) ++ b) t a).
        rewrite <- !app_assoc. cbn. now rewrite X.
      - exists (i :: is), rest. split; [| now split; auto]. cbn [map concat] in *. cbn in E.
        rewrite L, <- !app_assoc. cbn. now rewrite E. }
    destruct AR as [A | R].
    + apply (NEXT (Complete (kept ++ [l]) e)); [reflexivity |]. now exists kept, l.
    + destruct l as [| c l].
      * apply (NEXT (Abandoned (kept ++ [[]]) err)); [reflexivity |].
        exists kept, []. now split; [| split; [| split]].
      * destruct (IH (kept ++ [c :: l])) as (is & rest & FI).
        -- now apply (unfinished_snoc _ _ err).
        -- intros b t a X. apply (K b t a). rewrite <- X. now rewrite <- app_assoc.
        -- exists is, rest. now rewrite <- app_assoc in FI.
Qed.

(** ** A session *)

(** A function over two lines, a block that is given up by Ctrl-C, a call, and
    a list that is not finished. *)
Definition session : list key :=
  [ Typed (lit "let f = x ->"); Typed (lit "x + 1"); Typed (lit "echo {"); Interrupt; ReadError;
    Typed (lit "echo (f 2)"); Typed (lit "[1,") ].

Definition error_of (text : str) : syntax_error :=
  match parse_script text with
  | SError e | SFailure e => e
  | _ => InternalError
  end.

Definition session_inputs : list input :=
  [ Complete [lit "let f = x ->"; lit "x + 1"] (script "let f = x -> x + 1");
    Abandoned [lit "echo {"; []] (error_of (lit "echo {" ++ [10%N]));
    Complete [lit "echo (f 2)"] (script "echo (f 2)") ].

Lemma unfinished_line l :
  rejected (one_text [l]) (error_of l) -> l <> [] -> unfinished [l].
Proof. intros R N. exact (unfinished_snoc [] l _ unfinished_nil N R). Qed.

Example C47_session_inputs : falls_into (lines_of session) session_inputs [lit "[1,"].
Proof.
  split; [reflexivity |]. split.
  - repeat apply Forall_cons; [| | | apply Forall_nil].
    + exists [lit "let f = x ->"], (lit "x + 1"). split; [reflexivity |]. split.
      * apply unfinished_line; [| discriminate]. right. vm_compute. reflexivity.
      * vm_compute. reflexivity.
    + exists [lit "echo {"], []. split; [reflexivity |]. split.
      * apply unfinished_line; [| discriminate]. right. vm_compute. reflexivity.
      * split; [reflexivity |]. right. vm_compute. reflexivity.
    + exists [], (lit "echo (f 2)"). split; [reflexivity |]. split; [exact unfinished_nil |].
      vm_compute. reflexivity.
  - apply unfinished_line; [| discriminate]. right. vm_compute. reflexivity.
Qed.

(** The call in it ran once: 3 was printed once, and nothing else. *)
Example C47_session_runs :
  let r := (startup demo_host 200 ;;; repl demo_host 200 false [] session) demo in
  fst r = ROk [lit "[1,"] /\ map fst (s_trace (snd r)) = [RqPrint (lit "3" ++ [10%N])].
Proof. vm_compute. split; reflexivity. Qed.

(** At the end of the input the program leaves. *)
Example C47_session_ends :
  fst (repl demo_host 200 false [] (session ++ [EndOfInput; Typed (lit "echo 1")]) demo) = RExit 0.
Proof. vm_compute. reflexivity. Qed.

Print Assumptions C47_session.
Print Assumptions C47_one_way.
Print Assumptions C47_some_way.
