(** C129: [math@max] and [math@min]. *)

From Coq Require Import String Lia ZArith.
From Coq Require SpecFloat.
From Verif Require Import Base Syntax Host Ops Parser Monad ErrorFmt Text Builtins Eval Init EvalSpec
  OpsSpec EvalFacts LibSpec LibFacts OpsFacts RunFacts MapFacts CoreFacts CurryFacts SysSpec CmdFacts P_Eval P_Sys P_Start
  OrderFacts P_Ops P_Data HelperSpec P_Helpers GlobSpec P_Glob RedirectSpec Demo.

Definition pick_body (op : string) : expr :=
  EIf (EGroup (EGroup (EApply (ESymbol (lit op)) [ESymbol (lit "x"); ESymbol (lit "y")])))
    (EDo [ESymbol (lit "x")]) (EGroup (EDo [ESymbol (lit "y")])).
Definition pick_inner (op : string) : expr := ELambda (lit "y") (pick_body op) (Env [] None).

Lemma new_picks m :
  exists e mm, stands e ">" BGt /\ stands e "<" BLt
    /\ env_get (lit "math") (init m) = Some (EMap mm)
    /\ bm_get (lit "max") mm = Some (ELambda (lit "x") (pick_inner ">") (capture e (lit "x") (pick_inner ">") (Env [] None)))
    /\ bm_get (lit "min") mm = Some (ELambda (lit "x") (pick_inner "<") (capture e (lit "x") (pick_inner "<") (Env [] None))).
Proof.
  set (e1 := env_define (lit "fs") (EMap (fs_module m)) (define_dirs m)).
  set (e2 := define_all (operators e1) e1).
  exists e2, (math_module e2).
  assert (OP : forall x b, In (x, b) [(">", BGt); ("<", BLt)]%string -> stands e2 x b).
  { intros x b I. unfold e2, operators. set (v1 := closure _ _). set (v2 := closure _ _). clear e2. clearbody v1 v2 e1.
    unfold stands, define_all. rewrite (get_defines fst snd). cbn [In] in I.
    repeat (destruct I as [I | I]; [injection I as <- <-; eexists; vm_compute; reflexivity |]). contradiction. }
  split; [apply OP; which|]. split; [apply OP; which|]. split.
  { unfold init. fold e1. fold e2. set (math := math_module _). clearbody math e2.
    rewrite (get_defines (fun kv => lit (fst kv)) snd). unfold define_all at 1. rewrite (get_defines fst snd).
    generalize (operators e1), log_module, dict_module, (shell_module m), err_module, (os_module m),
      time_module, rand_module, fn_module, console_module, fmt_module, parse_module, string_module,
      list_module, sys_module, (fs_module m), widget_module.
    intros. vm_compute. reflexivity. }
  assert (CL : forall k e, In k [">"; "<"]%string ->
     closure ("x -> y -> if (x " ++ k ++ " y) { x } else { y }") e
     = ELambda (lit "x") (pick_inner k) (capture e (lit "x") (pick_inner k) (Env [] None))).
  { intros k e I. cbn [In] in I. unfold closure.
    repeat (destruct I as [<- | I]; [match goal with |- match ?t with _ => _ end = _ =>
      let c := eval vm_compute in t in replace t with c by (vm_compute; reflexivity) end; reflexivity |]).
    contradiction. }
  pose proof (CL ">"%string e2 ltac:(which)) as C1. pose proof (CL "<"%string e2 ltac:(which)) as C2.
  cbn [String.append] in C1, C2. unfold math_module. rewrite C1, C2. clear.
  set (v1 := ELambda (lit "x") (pick_inner ">") _). set (v2 := ELambda (lit "x") (pick_inner "<") _). clearbody v1 v2.
  split; vm_compute; reflexivity.
Qed.

Theorem C129_new m : counting (init m).
Proof. split; [apply new_names; which | exists m; reflexivity]. Qed.
Print Assumptions C129_new.

(** The name and the comparison. *)
Definition picks : list (string * (string * bid)) := [("max", (">", BGt)); ("min", ("<", BLt))]%string.

(** Both arguments are evaluated once, the first one first; the first is given if
    the comparison says so, otherwise the second. *)
Theorem C129_pick H k op b d a1 a2 s x s1 y s2 answer :
  In (k, (op, b)) picks -> counting (s_env s) -> (d + 7 <= MAX_DEPTH)%N ->
  evaluates H (d + 1) a1 s (ROk x) s1 -> evaluates H (d + 2) a2 s1 (ROk y) s2 ->
  says H b (EQuote x) (EQuote y) answer ->
  evaluates H d (EApply (of_math k) [a1; a2]) s (ROk (if answer then x else y)) s2.
Proof.
  intros K ((na & AT) & m & MA) D A1 A2 SA.
  destruct (new_picks m) as (e & mm & GT & LT & MM & MX & MN). rewrite MM in MA.
  assert (P : exists c, stands c op b
     /\ expr_index (EMap mm) (ESymbol (lit k)) = ELambda (lit "x") (pick_inner op) (capture c (lit "x") (pick_inner op) (Env [] None))).
  { exists e. cbn [picks In] in K. destruct K as [K | [K | []]]; injection K as <- <- <-; cbn [expr_index];
      [rewrite MX | rewrite MN]; auto. }
  destruct P as (c & (no & OP) & IX).
  assert (F : forall y0, evaluates H 0 (EQuote y0) s (ROk y0) s) by (intros; apply run_quote; run_depth).
  set (cx := call_env (lit "x") x (capture c (lit "x") (pick_inner op) (Env [] None)) (s_env s)).
  set (cy := capture cx (lit "y") (pick_body op) (Env [] None)).
  eapply (run_call_more H d _ (lit "x") (pick_inner op) (capture c (lit "x") (pick_inner op) (Env [] None)) a1 a2 [] s s x s1 (ELambda (lit "y") (pick_body op) cy) (with_env cx s1));
    [run_depth | | exact A1 | apply (run_lambda H (d + 1) (lit "y") (pick_body op) (Env [] None) (with_env cx s1)); run_depth |].
  { rewrite <- IX. eapply run_builtin_call; [run_depth | eapply run_symbol; [run_depth | exact AT] |]. cbn [b_id].
    eapply run_at_name; [exact I | eapply run_symbol; [run_depth | exact MA] | reflexivity]. }
  match goal with |- evaluates _ _ _ ?t _ _ => replace t with s1 by now destruct s1 end.
  set (ce := call_env (lit "y") y (capture (s_env s1) (lit "y") (pick_body op) cy) (s_env s1)).
  assert (G1 : env_get (lit "x") ce = Some x).
  { unfold ce, cy, cx. cbn [picks In] in K. destruct K as [K | [K | []]]; injection K as <- <- <-; run_lookup. }
  assert (G2 : env_get (lit "y") ce = Some y) by (unfold ce; run_lookup).
  assert (G3 : env_get (lit op) ce = Some (EBuiltin (Bi b no))).
  { unfold ce, cy, cx. cbn [picks In] in K. destruct K as [K | [K | []]]; injection K as <- <- <-; run_lookup. }
  eapply run_end; [apply (run_call H (d + 1) _ (lit "y") (pick_body op) (capture (s_env s1) (lit "y") (pick_body op) cy) a2 s1 s1 y s2 _ (with_env ce s2)) |].
  - run_depth.
  - apply (run_lambda H _ (lit "y") (pick_body op) cy s1). run_depth.
  - replace (d + 1 + 1)%N with (d + 2)%N by lia. exact A2.
  - fold ce. clearbody ce. unfold pick_body.
    eapply (run_if H _ _ _ _ _ (EBoolean answer) (with_env ce s2)); [run_depth | |].
    + eapply run_group; [run_depth|]. eapply run_group; [run_depth|].
      apply (run_builtin_call H _ _ (Bi b no) _ (with_env ce s2) (with_env ce s2)); [run_depth | eapply run_symbol; [run_depth | exact G3] |].
      cbn [b_id].
      assert (Q : exists g, compare_op b = Some g /\ g x y = answer).
      { specialize (SA s). cbn [picks In] in K. destruct K as [K | [K | []]]; injection K as <- <- <-;
          (eexists; split; [reflexivity|]);
          [pose proof (run_compare2 H BGt expr_gt _ _ s x s y s _ eq_refl (F x) (F y) eq_refl) as Z
          |pose proof (run_compare2 H BLt expr_lt _ _ s x s y s _ eq_refl (F x) (F y) eq_refl) as Z];
          destruct (calls_det _ _ _ _ _ _ _ _ Z SA) as [EQ _]; congruence. }
      destruct Q as (g & CO & GX).
      eapply run_compare2; [exact CO | eapply run_symbol; [run_depth | exact G1] | eapply run_symbol; [run_depth | exact G2] | exact GX].
    + destruct answer; cbn [is_truthy]; [|eapply run_group; [run_depth|]];
        (apply run_do_one; [run_depth|]; eapply run_symbol; [run_depth | assumption]).
  - now destruct s2.
Qed.
Print Assumptions C129_pick.

(** Integers. *)
Theorem C129_integers H d a1 a2 s x s1 y s2 :
  counting (s_env s) -> (d + 7 <= MAX_DEPTH)%N ->
  evaluates H (d + 1) a1 s (ROk (EInteger x)) s1 -> evaluates H (d + 2) a2 s1 (ROk (EInteger y)) s2 ->
  evaluates H d (EApply (of_math "max") [a1; a2]) s (ROk (EInteger (Z.max x y))) s2
  /\ evaluates H d (EApply (of_math "min") [a1; a2]) s (ROk (EInteger (Z.min x y))) s2.
Proof.
  intros C D A1 A2.
  assert (F : forall s y0, evaluates H 0 (EQuote y0) s (ROk y0) s) by (intros; apply run_quote; run_depth).
  split; (eapply run_exact; [eapply C129_pick; [| exact C | exact D | exact A1 | exact A2 |] | | reflexivity]).
  - left. reflexivity.
  - intros s0. exact (run_compare2 H BGt expr_gt _ _ s0 _ s0 _ s0 _ eq_refl (F _ _) (F _ _) (gt_ints x y)).
  - cbv beta. destruct (Z.gtb_spec x y); f_equal; lia.
  - right. left. reflexivity.
  - intros s0. exact (run_compare2 H BLt expr_lt _ _ s0 _ s0 _ s0 _ eq_refl (F _ _) (F _ _) (lt_ints x y)).
  - cbv beta. destruct (Z.ltb_spec x y); f_equal; lia.
Qed.
Print Assumptions C129_integers.

(** Values of one type: the result of [max] is one of the two and not less than
    either, the result of [min] one of the two and not greater. *)
Theorem C129_bound H t d a1 a2 s x s1 y s2 :
  counting (s_env s) -> (d + 7 <= MAX_DEPTH)%N -> has_type t x -> has_type t y -> value x -> value y ->
  evaluates H (d + 1) a1 s (ROk x) s1 -> evaluates H (d + 2) a2 s1 (ROk y) s2 ->
  (exists z, evaluates H d (EApply (of_math "max") [a1; a2]) s (ROk z) s2
     /\ (z = x \/ z = y) /\ says H BGe z x true /\ says H BGe z y true)
  /\ (exists z, evaluates H d (EApply (of_math "min") [a1; a2]) s (ROk z) s2
     /\ (z = x \/ z = y) /\ says H BLe z x true /\ says H BLe z y true).
Proof.
  intros C D T1 T2 V1 V2 A1 A2.
  assert (Q : forall s y0, evaluates H 0 (EQuote y0) s (ROk y0) s) by (intros; apply run_quote; run_depth).
  assert (E : forall z, value z -> forall s, evaluates H 0 z s (ROk z) s) by (intros; now apply value_evaluates).
  assert (R : forall z, has_type t z -> expr_cmp z z = Some Eq).
  { intros z T. destruct (cmp_typed z t z T T) as (c & CC & EE).
    pose proof (expr_cmp_antisym z z) as AS. rewrite CC in AS. cbn in AS. destruct c; [exact CC | discriminate AS | discriminate AS]. }
  pose proof (expr_cmp_antisym x y) as AS. destruct (cmp_typed x t y T1 T2) as (c & CC & _). rewrite CC in AS. cbn in AS.
  assert (GE : forall z u, value z -> value u -> expr_ge z u = true -> says H BGe z u true).
  { intros z u VZ VU X. apply (says_iff H BGe expr_ge z u true ltac:(cbn; tauto) z u (E z VZ) (E u VU)). exact X. }
  assert (LE : forall z u, value z -> value u -> expr_le z u = true -> says H BLe z u true).
  { intros z u VZ VU X. apply (says_iff H BLe expr_le z u true ltac:(cbn; tauto) z u (E z VZ) (E u VU)). exact X. }
  split.
  - exists (if expr_gt x y then x else y). split; [|split; [destruct (expr_gt x y); auto|]].
    + eapply C129_pick; [left; reflexivity | exact C | exact D | exact A1 | exact A2 |].
      intros s0. exact (run_compare2 H BGt expr_gt _ _ s0 _ s0 _ s0 _ eq_refl (Q _ _) (Q _ _) eq_refl).
    + split; (apply GE; [destruct (expr_gt x y); assumption | assumption |];
        unfold expr_gt, expr_ge; rewrite CC; destruct c; rewrite ?AS, ?CC, ?(R x T1), ?(R y T2); reflexivity).
  - exists (if expr_lt x y then x else y). split; [|split; [destruct (expr_lt x y); auto|]].
    + eapply C129_pick; [right; left; reflexivity | exact C | exact D | exact A1 | exact A2 |].
      intros s0. exact (run_compare2 H BLt expr_lt _ _ s0 _ s0 _ s0 _ eq_refl (Q _ _) (Q _ _) eq_refl).
    + split; (apply LE; [destruct (expr_lt x y); assumption | assumption |];
        unfold expr_lt, expr_le; rewrite CC; destruct c; rewrite ?AS, ?CC, ?(R x T1), ?(R y T2); reflexivity).
Qed.
Print Assumptions C129_bound.

(** An integer and a float are not compared as numbers: the second argument is
    given, though the first is greater. *)
Theorem C129_mixed_refuted :
  exists s', evaluates demo_host 0 (EApply (of_math "max") [EInteger 3; EFloat (SpecFloat.S754_finite false 1 1)]) demo
    (ROk (EFloat (SpecFloat.S754_finite false 1 1))) s'.
Proof. eexists. split; [discriminate|]. exists 20%nat. vm_compute. reflexivity. Qed.
Print Assumptions C129_mixed_refuted.

Example C129_case m tr :
  let s := St (init m) tr 0 in
  evaluates demo_host 0 (EApply (of_math "max") [EInteger 3; EInteger (-4)]) s (ROk (EInteger 3)) s
  /\ evaluates demo_host 0 (EApply (of_math "min") [EInteger 3; EInteger (-4)]) s (ROk (EInteger (-4))) s
  /\ parse_script (lit "math@max 3 (-4)") = SOk (EDo [EApply (of_math "max") [EInteger 3; EGroup (EInteger (-4))]])
  /\ has_type TString (EString (lit "a")) /\ value (EString (lit "a")).
Proof.
  intros s. assert (V : forall d z, (d <= MAX_DEPTH)%N -> evaluates demo_host d (EInteger z) s (ROk (EInteger z)) s)
    by (intros d z L; apply run_value; [exact L | exact I]).
  destruct (C129_integers demo_host 0 (EInteger 3) (EInteger (-4)) s 3 s (-4) s (C129_new m)) as [A B];
    [discriminate | now apply V | now apply V |].
  split; [exact A|]. split; [exact B|]. split; [vm_compute; reflexivity|]. split; [exact I | apply value_string].
Qed.
