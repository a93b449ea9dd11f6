(** C106, C107: expressions as values, and the variables as a value. *)

From Coq Require Import String List Lia NArith ZArith.
From Verif Require Import Base Syntax Host Ops Tokenizer Parser ErrorFmt Text Monad Builtins Eval EvalSpec
  LibFacts LibSpec MapFacts CoreFacts EvalFacts CmdFacts OpsSpec OpsFacts StrSpec DictFacts ReplSpec
  Init Demo P_Parse P_Outer.
Import ListNotations.

(** ** C106 *)

(** [sys@parse] shows its argument and reads the text: the expression, nothing if
    the text is no script, and a crash if it cannot even be cut into tokens. *)
Theorem C106_parse H a s v t s1 :
  gives H a s v s1 -> shown H v t ->
  (forall e, accepted t e -> calls H YParse [a] s (ROk e) s1)
  /\ (forall err, rejected t err -> calls H YParse [a] s (ROk ENone) s1)
  /\ ((forall e, ~ accepted t e) -> (forall err, ~ rejected t err) ->
      calls H YParse [a] s (RPanic PBoundary) s1).
Proof.
  intros A S. apply shown_display in S. subst t. unfold gives in A.
  assert (K : forall r, catch (parse_m (display H v)) (fun _ => ret ENone) s1 = (r, s1) -> r <> RFuel ->
                        calls H YParse [a] s r s1).
  { intros r E N. apply sure_calls; [exact N |].
    apply (sure_ext _ _ (fun n => run_parse H (eval H n 0) [a])); [reflexivity |].
    unfold run_parse, exact1. repeat sure_step. apply (sure_const _ _ _ _ _ E). }
  unfold accepted, rejected. split; [| split].
  - intros e P. apply K; [| discriminate]. unfold catch, parse_m. now rewrite P.
  - intros err [P | P]; (apply K; [| discriminate]; unfold catch, parse_m; now rewrite P).
  - intros NA NR. apply K; [| discriminate]. unfold catch, parse_m.
    destruct (parse_script (display H v)) as [e | e | e | |] eqn:P; try reflexivity.
    + now destruct (NA e).
    + destruct (NR e); auto.
    + destruct (NR e); auto.
    + destruct (C06_script_finishes _ P).
Qed.

(** What it reads is a block of statements, never [None]: so [None] says that
    the text is no script. *)
Theorem C106_block t e : accepted t e -> exists l, e = EDo l.
Proof.
  unfold accepted, parse_script. destruct (tokenize t) as [ts ds | |]; try discriminate.
  cbv beta iota. destruct (filter not_valid _); [| discriminate]. destruct (adjacent_error _); [discriminate |].
  cbv zeta. set (i := filter significant ts). unfold parse_fuel.
  change (12 * Datatypes.S (length i)) with (Datatypes.S (length i + 11 * Datatypes.S (length i))).
  set (n := length i + 11 * Datatypes.S (length i)). clearbody n i. cbn [parse body].
  destruct (many0 _ i) as [j l | | | |]; cbn [pbind]; try discriminate.
  destruct (opt _ j) as [k x | | | |]; cbn [pbind]; try discriminate.
  destruct k; [| discriminate]. intros E. injection E as <-. eauto.
Qed.

Theorem C106_none H a s v t s1 :
  gives H a s v s1 -> shown H v t ->
  (calls H YParse [a] s (ROk ENone) s1 <-> exists err, rejected t err).
Proof.
  intros A S. destruct (C106_parse H a s v t s1 A S) as (PA & PR & PC). split.
  - intros E. destruct (parse_script t) as [e | e | e | |] eqn:P.
    + destruct (C106_block t e P) as [l ->]. assert (Q := PA _ P).
      destruct (calls_det _ _ _ _ _ _ _ _ E Q) as [X _]. discriminate X.
    + exists e. now left.
    + exists e. now right.
    + assert (Q : calls H YParse [a] s (RPanic PBoundary) s1).
      { apply PC; unfold accepted, rejected; rewrite P; [discriminate | intros ? [X | X]; discriminate]. }
      destruct (calls_det _ _ _ _ _ _ _ _ E Q) as [X _]. discriminate X.
    + destruct (C06_script_finishes _ P).
  - intros [err R]. exact (PR _ R).
Qed.

(** [sys@quote e] is the quotation [' e], whose value is [e]; the expression
    [' e] is [e] already.  So what [sys@quote] gives must be evaluated once
    more. *)
Theorem C106_quote H e s :
  calls H YQuote [e] s (ROk (EQuote e)) s
  /\ evaluates H 0 (EQuote e) s (ROk e) s
  /\ forall args, length args <> 1%nat -> exists m, calls H YQuote args s (RErr (CustomError m)) s.
Proof.
  split; [split; [discriminate | exists 0%nat; reflexivity] |]. split.
  - apply rule_quote; [discriminate | auto].
  - intros [| x [| y l]] L; try (cbn in L; lia); eexists; (split; [discriminate | exists 0%nat; reflexivity]).
Qed.

(** Evaluating a quoted expression with [sys@eval] does not evaluate it. *)
Theorem C106_eval_quote_refuted :
  value_of "sys@eval '(1 + 2)" = ROk (EInteger 3)
  /\ value_of "sys@eval (sys@quote (1 + 2))"
     = ROk (EGroup (EGroup (EApply (ESymbol (lit "+")) [EInteger 1; EInteger 2])))
  /\ value_of "sys@eval (sys@eval (sys@quote (1 + 2)))" = ROk (EInteger 3).
Proof. repeat split; vm_compute; reflexivity. Qed.

Example C106_example :
  value_of "sys@parse ""1 +""" = ROk ENone
  /\ value_of "sys@parse ""None""" = ROk (EDo [ENone])
  /\ value_of "sys@parse """"" = ROk (EDo [])
  /\ value_of "sys@eval (sys@parse ""let q = 5; q + 1"")" = ROk (EInteger 6).
Proof. repeat split; vm_compute; reflexivity. Qed.

(** ** C107 *)

(** [vars] and [sys@env] give a map of the variables of the innermost scope: every
    entry is a variable with its value, and if there is no enclosing scope all
    variables are there.  Arguments are not looked at. *)
Theorem C107_vars H b args s :
  In b [BVars; YEnv] -> sorted (env_bindings (s_env s)) ->
  exists m, calls H b args s (ROk (EMap m)) s
    /\ (forall x v, In (x, v) m -> env_get x (s_env s) = Some v)
    /\ (env_parent (s_env s) = None -> forall x v, env_get x (s_env s) = Some v -> In (x, v) m)
    /\ NoDup (map fst m).
Proof.
  intros I S. destruct s as [[m p] tr lg]. exists m. cbn [s_env env_bindings env_parent] in *. split.
  { destruct I as [<- | [<- | []]]; (split; [discriminate | exists 0%nat; reflexivity]). }
  split; [| split].
  - intros x v X. cbn [env_get]. apply in_get in X; [| exact S]. now rewrite X.
  - intros -> x v. cbn [env_get]. intros X. apply in_get; [exact S |].
    destruct (bm_get x m); [exact X | discriminate].
  - clear -S. unfold sorted in S. induction S as [| [k v] m S IH F]; cbn; constructor; auto.
    intros X. apply in_map_iff in X. destruct X as ((k2 & v2) & E & X). cbn in E. subst k2.
    rewrite Forall_forall in F. apply F in X. unfold key_lt in X. cbn in X.
    now rewrite str_cmp_refl in X.
Qed.

(** A program that starts without enclosing scopes never gets any. *)
Theorem C107_no_enclosing_scope H d e s r s1 b args :
  env_parent (s_env s) = None -> sorted (env_bindings (s_env s1)) -> evaluates H d e s r s1 ->
  In b [BVars; YEnv] ->
  exists m, calls H b args s1 (ROk (EMap m)) s1
    /\ forall x v, In (x, v) m <-> env_get x (s_env s1) = Some v.
Proof.
  intros P S E I. destruct (C107_vars H b args s1 I S) as (m & C & A & B & _).
  exists m. split; [exact C |]. intros x v. split; [apply A |]. apply B.
  destruct (C28_outer_scopes H d e s r s1 E) as [-> _]. exact P.
Qed.

(** [sys@cwd] is the text of the variable [CWD], or the root directory. *)
Theorem C107_cwd H args s :
  (forall p, env_get (lit "CWD") (s_env s) = Some (EString p) ->
             calls H YCwd args s (ROk (EString p)) s)
  /\ ((forall p, env_get (lit "CWD") (s_env s) <> Some (EString p)) ->
      calls H YCwd args s (ROk (EString (lit "/"))) s).
Proof.
  split; [intros p E | intros E]; (split; [discriminate |]); exists 0%nat; cbn [run_builtin];
    unfold run_cwd, bind, get_env, ret, env_get_cwd, CWD.
  - now rewrite E.
  - destruct (env_get (lit "CWD") (s_env s)) as [[] |]; try reflexivity. now destruct (E s0).
Qed.

Example C107_example :
  value_of "{ let q = 5; (vars 0)@q }" = ROk (EInteger 5)
  /\ value_of "((x -> keys (vars 0)) 5)"
     = ROk (EList [EString (lit "CWD"); EString (lit "keys"); EString (lit "vars"); EString (lit "x")])
  /\ env_parent (s_env demo) = None.
Proof. repeat split; vm_compute; reflexivity. Qed.

Print Assumptions C106_parse.
Print Assumptions C106_block.
Print Assumptions C106_none.
Print Assumptions C106_quote.
Print Assumptions C106_eval_quote_refuted.
Print Assumptions C107_vars.
Print Assumptions C107_no_enclosing_scope.
Print Assumptions C107_cwd.
