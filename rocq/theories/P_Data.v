(** C82, C83: reading JSON, TOML and Dune. *)

From Coq Require Import String List Lia SpecFloat.
From Verif Require Import Base Syntax Host Ops Text Parser Monad Builtins Eval EvalSpec LibFacts LibSpec
  CmdFacts MapFacts DictFacts EvalFacts SysSpec P_Sys P_Eval DataSpec Demo.
Import ListNotations.

(** ** C82 *)

Lemma exists_last_or {A} (l : list A) : l = [] \/ exists b x, l = b ++ [x].
Proof. destruct l as [| y l] using rev_ind; eauto. Qed.

Lemma of_list_items {A} (l : list (str * A)) :
  NoDup (map fst (bm_of_list l))
  /\ (forall k, In k (map fst (bm_of_list l)) <-> In k (map fst l))
  /\ (forall k v, In (k, v) (bm_of_list l) -> last_item k v l).
Proof.
  assert (S : sorted (bm_of_list l)) by apply sorted_of_list.
  assert (G : forall k v, bm_get k (bm_of_list l) = Some v <-> last_item k v l).
  { intros k v. clear S. unfold bm_of_list. induction l as [| [x w] l IH] using rev_ind.
    - cbn. split; [discriminate |]. intros (a & b & E & _). now destruct a.
    - rewrite fold_left_app. cbn [fold_left fst snd]. rewrite bm_get_insert.
      destruct (str_eqb k x) eqn:E.
      + apply str_eqb_eq in E. subst x. split.
        * intros X. inversion X; subst. exists l, []. split; [reflexivity | easy].
        * intros (a & b & F & N). destruct (exists_last_or b) as [-> | (b' & y & ->)].
          -- apply app_inj_tail in F. destruct F as [_ F]. congruence.
          -- rewrite app_comm_cons, app_assoc in F. apply app_inj_tail in F. destruct F as [_ <-].
             destruct N. rewrite map_app. apply in_or_app. right. now left.
      + rewrite IH. split.
        * intros (a & b & -> & N). exists a, (b ++ [(x, w)]). split; [now rewrite <- app_assoc |].
          rewrite map_app. intros I. apply in_app_or in I. destruct I as [I | [I | []]]; [auto |].
          cbn in I. subst x. now rewrite str_eqb_refl in E.
        * intros (a & b & F & N). destruct (exists_last_or b) as [-> | (b' & y & ->)].
          -- apply app_inj_tail in F. destruct F as [_ F]. inversion F; subst. now rewrite str_eqb_refl in E.
          -- rewrite app_comm_cons, app_assoc in F. apply app_inj_tail in F. destruct F as [-> _].
             exists a, b'. split; [reflexivity |]. intros I. apply N. rewrite map_app. apply in_or_app. now left. }
  split; [now apply sorted_keys_NoDup |]. split.
  - intros k. split.
    + intros I. apply in_map_iff in I. destruct I as ([y v] & E & I). cbn in E. subst y.
      apply in_get, G in I; [| exact S]. destruct I as (a & b & -> & _). rewrite map_app. apply in_or_app. right. now left.
    + intros I. destruct (bm_get k (bm_of_list l)) as [v |] eqn:E.
      * apply in_get in E; [| exact S]. apply in_map_iff. now exists (k, v).
      * exfalso. clear S. assert (L : exists v, last_item k v l).
        { clear - I. induction l as [| [x w] l IH] using rev_ind; [easy |].
          rewrite map_app in I. apply in_app_or in I.
          destruct (list_eq_dec N.eq_dec k x) as [-> | D].
          - exists w, l, []. split; [reflexivity | easy].
          - destruct I as [I | [I | []]]; [| cbn in I; congruence].
            destruct (IH I) as (v & a & b & -> & N). exists v, a, (b ++ [(x, w)]). split; [now rewrite <- app_assoc |].
            rewrite map_app. intros J. apply in_app_or in J. destruct J as [J | [J | []]]; [auto | cbn in J; congruence]. }
        destruct L as [v L]. apply G in L. congruence.
  - intros k v I. apply G. now apply in_get in I.
Qed.

Lemma last_item_map {A B} (f : A -> B) k y (l : list (str * A)) :
  last_item k y (map (fun kv => (fst kv, f (snd kv))) l) -> exists x, y = f x /\ last_item k x l.
Proof.
  intros (a & b & E & N). revert a E. induction l as [| [u x] l IH]; intros [| [u' y'] a] E; try discriminate; cbn in E.
  - inversion E; subst. exists x. split; [reflexivity |]. exists [], l. split; [reflexivity |].
    intros I. apply N. rewrite map_map. exact I.
  - inversion E; subst. destruct (IH a H2) as (z & -> & c & d & -> & M).
    exists z. split; [reflexivity |]. exists ((u', x) :: c), d. split; [reflexivity | exact M].
Qed.

Lemma object_value {A} (R : A -> expr -> Prop) (f : A -> expr) m :
  (forall x, In x (map snd m) -> R x (f x)) ->
  let vs := bm_of_list (map (fun kv => (fst kv, f (snd kv))) m) in
  NoDup (map fst vs) /\ (forall k, In k (map fst vs) <-> In k (map fst m))
  /\ (forall k v, In (k, v) vs -> exists j, last_item k j m /\ R j v).
Proof.
  intros F vs. destruct (of_list_items (map (fun kv => (fst kv, f (snd kv))) m)) as (A1 & A2 & A3).
  split; [exact A1 |]. split.
  - intros k. unfold vs. etransitivity; [apply A2 |]. rewrite map_map. reflexivity.
  - intros k v I. apply A3, last_item_map in I. destruct I as (x & -> & L). exists x. split; [exact L |].
    apply F. destruct L as (a & b & -> & _). rewrite map_app. apply in_or_app. right. now left.
Qed.

Fixpoint json_expr_value (j : json) : json_value j (json_expr j).
Proof.
  destruct j as [| b | f | s | l | m]; cbn [json_expr]; try solve [constructor].
  - constructor. induction l as [| x l IH]; cbn [map]; constructor; [apply json_expr_value | exact IH].
  - assert (F : forall x, In x (map snd m) -> json_value x (json_expr x)).
    { induction m as [| [k x] m IH]; intros y []; [subst y; apply json_expr_value | now apply IH]. }
    destruct (object_value json_value json_expr m F) as (A & B & C). now constructor.
Qed.

Lemma wrap64_fits z : (- 2 ^ 63 <= z < 2 ^ 63)%Z -> wrap64 z = z.
Proof. intros F. unfold wrap64. rewrite Z.mod_small by lia. lia. Qed.

Fixpoint toml_expr_value (t : toml) : toml_fits t -> toml_value t (toml_expr t).
Proof.
  destruct t as [b | f | z | s | s | l | m]; cbn [toml_expr]; intros T; try solve [constructor].
  - inversion T; subst. rewrite wrap64_fits by assumption. constructor.
  - constructor. assert (F : Forall toml_fits l) by now inversion T. clear T.
    induction l as [| x l IH]; cbn [map]; constructor; inversion F; subst; [now apply toml_expr_value | now apply IH].
  - assert (F : Forall (fun kv => toml_fits (snd kv)) m) by now inversion T. clear T.
    assert (G : forall x, In x (map snd m) -> toml_value x (toml_expr x)).
    { induction m as [| [k x] m IH]; intros y []; inversion F; subst; [now apply toml_expr_value | now apply IH]. }
    destruct (object_value toml_value toml_expr m G) as (A & B & C). now constructor.
Qed.

(** What is read is the value that stands for the text. *)
Theorem C82_json H a s x s1 t j :
  gives H a s x s1 -> shown H x t -> t <> [] -> h_json H t = Some j ->
  exists v, calls H PJson [a] s (ROk v) s1 /\ json_value j v.
Proof.
  intros A S N E. apply (proj1 (shown_display _ _ _)) in S. subst t. unfold gives in *.
  exists (json_expr j). split; [| apply json_expr_value].
  call. unfold run_json, exact1. sure_step. sure_step. cbv zeta.
  destruct (str_eqb (display H x) []) eqn:F; [now apply str_eqb_eq in F |]. rewrite E. apply sure_ret.
Qed.

Theorem C82_toml H a s x s1 t j :
  gives H a s x s1 -> shown H x t -> h_toml H t = Some j -> toml_fits j ->
  exists v, calls H PToml [a] s (ROk v) s1 /\ toml_value j v.
Proof.
  intros A S E F. apply (proj1 (shown_display _ _ _)) in S. subst t. unfold gives in *.
  exists (toml_expr j). split; [| now apply toml_expr_value].
  call. unfold run_toml, exact1. sure_step. sure_step. cbv zeta. rewrite E. apply sure_ret.
Qed.

(** Other texts are refused. *)
Theorem C82_refused H a s x s1 t k :
  gives H a s x s1 -> shown H x t ->
  k = PJson /\ t <> [] /\ h_json H t = None \/ k = PToml /\ h_toml H t = None ->
  exists m, calls H k [a] s (RErr (CustomError m)) s1.
Proof.
  intros A S K. apply (proj1 (shown_display _ _ _)) in S. subst t. unfold gives in *.
  destruct K as [(-> & N & E) | (-> & E)]; eexists; call.
  - unfold run_json, exact1. sure_step. sure_step. cbv zeta.
    destruct (str_eqb (display H x) []) eqn:F; [now apply str_eqb_eq in F |]. rewrite E. apply sure_throw.
  - unfold run_toml, exact1. sure_step. sure_step. cbv zeta. rewrite E. apply sure_throw.
Qed.

(** The empty text, which is no JSON, is accepted. *)
Theorem C82_empty_refuted :
  exists H t v, h_json H t = None /\ calls H PJson [EString t] demo (ROk v) demo.
Proof. exists demo_host, [], ENone. split; [reflexivity | compute_outcome 3%nat]. Qed.

(** ** C83 *)

(** [parse@expr] gives the expression of the parser, which is not evaluated. *)
Theorem C83_parse H a s x s1 t e :
  gives H a s x s1 -> shown H x t -> t <> [] -> parse_script t = SOk e ->
  calls H PExpr [a] s (ROk e) s1.
Proof.
  intros A S N E. apply (proj1 (shown_display _ _ _)) in S. subst t. unfold gives in *.
  call. unfold run_parse_expr, exact1. sure_step. sure_step.
  destruct (display H x) as [| c t]; [easy |]. apply sure_const. unfold parse_m. now rewrite E.
Qed.

Theorem C83_rejected H a s x s1 t e :
  gives H a s x s1 -> shown H x t -> t <> [] -> parse_script t = SError e \/ parse_script t = SFailure e ->
  calls H PExpr [a] s (RErr (SyntaxErr t e)) s1.
Proof.
  intros A S N E. apply (proj1 (shown_display _ _ _)) in S. subst t. unfold gives in *.
  call. unfold run_parse_expr, exact1. sure_step. sure_step.
  destruct (display H x) as [| c t]; [easy |]. apply sure_const. unfold parse_m. destruct E as [-> | ->]; reflexivity.
Qed.

Section Run.
  Variables (H : host) (s s1 : st) (f g a x : expr) (be bp : builtin) (t : str) (e : expr).
  Hypothesis F : evaluates H 1 f s (ROk (EBuiltin be)) s.
  Hypothesis G : evaluates H 1 g s (ROk (EBuiltin bp)) s.
  Hypothesis P : b_id bp = PExpr.
  Hypothesis A : gives H a s x s1.
  Hypothesis T : shown H x t.
  Hypothesis N : t <> [].

  Lemma parsed : parse_script t = SOk e -> evaluates H 0 (EApply g [a]) s (ROk e) s1.
  Proof.
    intros E. apply (application_of_builtin H 0 g [a] bp s s (ROk e) s1); [easy | exact G |].
    rewrite P. eapply C83_parse; eauto.
  Qed.

  (** A text given to [exec] runs like the script it is. *)
  Theorem C83_exec r s' :
    b_id be = BExec -> parse_script t = SOk e ->
    (evaluates H 0 (EApply f [EApply g [a]]) s r s' <-> evaluates H 0 e s1 r s').
  Proof.
    intros B E. rewrite (application_of_builtin H 0 f _ be s s r s') by easy. rewrite B, C29_exec.
    assert (Q := parsed E). split.
    - intros [(v & s2 & V & R) | (r1 & V & X)]; destruct (evaluates_det _ _ _ _ _ _ _ _ Q V) as [Y Z]; subst.
      + now injection Y as <-.
      + inversion X.
    - intros R. left. eauto.
  Qed.

  (** Given to [eval], it runs with the variables as they were before, and its
      changes of variables are dropped. *)
  Theorem C83_eval r s' :
    b_id be = BEval -> parse_script t = SOk e ->
    (evaluates H 0 (EApply f [EApply g [a]]) s r s' <->
     exists s2, evaluates H 0 e (St (s_env s) (s_trace s1) (s_log s1)) r s2
                /\ s' = St (s_env s1) (s_trace s2) (s_log s2)).
  Proof.
    intros B E. rewrite (application_of_builtin H 0 f _ be s s r s') by easy. rewrite B, C29_eval.
    assert (Q := parsed E). split.
    - intros [(v & s2 & s3 & V & R & ->) | (r1 & V & X)]; destruct (evaluates_det _ _ _ _ _ _ _ _ Q V) as [Y Z]; subst.
      + injection Y as <-. exists s3. split; [exact R | reflexivity].
      + inversion X.
    - intros (s2 & R & ->). left. exists e, s1, s2. split; [exact Q |]. split; [exact R | reflexivity].
  Qed.

  (** A text that is no script runs nothing at all. *)
  Theorem C83_not_run y :
    b_id be = BExec \/ b_id be = BEval ->
    parse_script t = SError y \/ parse_script t = SFailure y ->
    evaluates H 0 (EApply f [EApply g [a]]) s (RErr (SyntaxErr t y)) s1.
  Proof.
    intros B E. apply (application_of_builtin H 0 f _ be s s _ s1); [easy | exact F |].
    assert (Q : evaluates H 0 (EApply g [a]) s (RErr (SyntaxErr t y)) s1).
    { apply (application_of_builtin H 0 g [a] bp s s _ s1); [easy | exact G |]. rewrite P. eapply C83_rejected; eauto. }
    destruct B as [-> | ->]; [apply C29_exec | apply C29_eval]; right; eexists; (split; [exact Q | constructor]).
  Qed.
End Run.

(** A host whose libraries know one text each. *)
Definition some_json : json :=
  JObject [(lit "b", JArray [JNull; JBoolean true]); (lit "a", JString (lit "x")); (lit "b", JNumber (S754_zero false))].
Definition some_toml : toml :=
  TmTable [(lit "t", TmTable [(lit "n", TmInteger (-5))]); (lit "d", TmDatetime (lit "1979-05-27"))].
Definition data_host : host :=
  Host demo_answer
       (fun _ => lit "0") (fun c => (c <? 65536)%N) (fun _ => lit "table")
       (fun b => b) (fun _ => true) (fun _ => false) (fun _ => true) (fun _ => false)
       (fun c => [c]) (fun c => [c]) OvfWrap (fun _ _ => S754_zero false) (fun p => p)
       (fun s _ => s)
       (fun t => if str_eqb t (lit "j") then Some some_json else None)
       (fun t => if str_eqb t (lit "t") then Some some_toml else None).

Example C82_example :
  fst (eval data_host 50 0 (script "parse@json ""j""") demo)
  = ROk (EMap [(lit "a", EString (lit "x")); (lit "b", EFloat (S754_zero false))])
  /\ fst (eval data_host 50 0 (script "parse@toml ""t""") demo)
     = ROk (EMap [(lit "d", EString (lit "1979-05-27")); (lit "t", EMap [(lit "n", EInteger (-5))])])
  /\ fst (eval data_host 50 0 (script "parse@toml ""j""") demo)
     = RErr (CustomError (lit "could not parse `j` as TOML"))
  /\ toml_fits some_toml.
Proof.
  repeat split; try (vm_compute; reflexivity).
  constructor. repeat constructor; cbn; lia.
Qed.

Example C83_example :
  value_of "parse@expr ""1 + 2""" = ROk (script "1 + 2")
  /\ value_of "exec (parse@expr ""let y = 4""); y + 1" = ROk (EInteger 5)
  /\ value_of "let y = 1; eval (parse@expr ""let y = 4""); y + 1" = ROk (EInteger 2)
  /\ (exists y, value_of "exec (parse@expr ""echo 1; 1 +"")" = RErr (SyntaxErr (lit "echo 1; 1 +") y))
  /\ effects_of "exec (parse@expr ""echo 1; 1 +"")" = [].
Proof. repeat split; try (vm_compute; reflexivity). eexists. vm_compute. reflexivity. Qed.

Example C83_hypotheses :
  exists be bp,
    evaluates demo_host 1 (ESymbol (lit "exec")) demo (ROk (EBuiltin be)) demo
    /\ evaluates demo_host 1 (EApply (ESymbol (lit "@")) [ESymbol (lit "parse"); ESymbol (lit "expr")]) demo (ROk (EBuiltin bp)) demo
    /\ b_id be = BExec /\ b_id bp = PExpr.
Proof. exists (Bi BExec (lit "exec")), (Bi PExpr (lit "expr")). split; [compute_outcome 5%nat |].
  split; [compute_outcome 5%nat |]. split; reflexivity.
Qed.

Print Assumptions C82_json.
Print Assumptions C82_toml.
Print Assumptions C82_refused.
Print Assumptions C82_empty_refuted.
Print Assumptions C83_parse.
Print Assumptions C83_rejected.
Print Assumptions C83_exec.
Print Assumptions C83_eval.
Print Assumptions C83_not_run.

