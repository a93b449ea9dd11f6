(** C130: the banner of the start-up scripts. *)

From Coq Require Import String Lia ZArith.
From Verif Require Import Base Syntax Host Ops Parser Monad ErrorFmt Text Builtins Eval Init EvalSpec
  OpsSpec EvalFacts LibSpec LibFacts OpsFacts RunFacts MapFacts CoreFacts SysSpec CmdFacts P_Start
  PrintSpec P_Print Prelude PreludeFacts ReportSpec P_Prompt BannerSpec Demo.
From Verif Require P_Report P_Sys.

(** ** A new shell *)

(** Both scripts define the banner in the same way. *)
Theorem C130_same : In banner_definition default_program /\ In banner_definition intro_program.
Proof.
  split; [apply (nth_error_In _ 32) | apply (nth_error_In _ 11)]; vm_compute; reflexivity.
Qed.
Print Assumptions C130_same.

Lemma festive_all e : festive e ->
  fold_right (fun p P => env_get (fst p) e = Some (snd p) /\ P) True banner_names.
Proof.
  unfold festive. induction banner_names as [| [x v] l IH]; intros S; cbn; [exact I |].
  split; [apply S; now left | apply IH; intros; apply S; now right].
Qed.

Ltac known S ::=
  let A := fresh in
  pose proof (festive_all _ S) as A;
  lazy beta iota zeta delta [fold_right banner_names fst snd] in A;
  repeat match type of A with _ /\ _ => let B := fresh "KNOWN" in destruct A as [B A] end; clear A.

Theorem C130_new m : festive (init m).
Proof.
  intros x v I. destruct (init_parts m) as (w & a & b & math & ->). cbv zeta.
  rewrite (get_defines (fun kv => lit (fst kv)) snd). unfold define_all.
  rewrite (get_defines fst snd), env_get_define, (get_defines fst snd).
  unfold banner_names in I. revert I.
  generalize (define_dirs m), log_module, dict_module, (shell_module m), err_module, (os_module m),
    time_module, rand_module, fn_module, console_module, fmt_module, parse_module, string_module,
    list_module, sys_module.
  intros. cbn [In] in I.
  repeat (destruct I as [I | I]; [injection I as <- <-; vm_compute; reflexivity |]).
  contradiction.
Qed.
Print Assumptions C130_new.

Lemma festive_kept x v e : festive e -> existsb (fun p => str_eqb (fst p) x) banner_names = false ->
  festive (env_define x v e).
Proof.
  intros F N y w I. rewrite env_get_define. replace (str_eqb y x) with false; [now apply F|].
  symmetry. rewrite <- not_true_iff_false. intros E. rewrite <- not_true_iff_false in N. apply N.
  apply existsb_exists. exists (y, w). split; [exact I | exact E].
Qed.

(** ** Pieces *)

Definition banner_body : expr := Eval vm_compute in
  match banner_definition with EAssign _ (EMacro _ b) => b | _ => ENone end.
Definition inner : list expr := Eval vm_compute in
  match banner_body with EDo [_; _; EApply (EGroup (ELambda _ (EDo l) _)) _] => l | _ => [] end.
Definition paint_body : expr := Eval vm_compute in
  match nth 5 inner ENone with EFor _ _ b => b | _ => ENone end.

Lemma run_echo H d f args s s' nm : (d + 2 <= MAX_DEPTH)%N ->
  evaluates H (d + 1) f s (ROk (EBuiltin (Bi BPrintln nm))) s -> printing H [10%N] args s (ROk ENone) s' ->
  evaluates H d (EApply f args) s (ROk ENone) s'.
Proof.
  intros D F P. eapply run_builtin_call; [lia | exact F |]. apply (C93_printing H BPrintln [10%N]); [cbn; tauto | exact P].
Qed.
Lemma run_print H d f args s s' nm : (d + 2 <= MAX_DEPTH)%N ->
  evaluates H (d + 1) f s (ROk (EBuiltin (Bi BPrint nm))) s -> printing H [] args s (ROk ENone) s' ->
  evaluates H d (EApply f args) s (ROk ENone) s'.
Proof.
  intros D F P. eapply run_builtin_call; [lia | exact F |]. apply (C93_printing H BPrint []); [cbn; tauto | exact P].
Qed.

Ltac run_special ::=
  lazymatch goal with
  | |- evaluates _ _ (EApply _ [_; ESymbol _; ESymbol _]) _ _ _ =>
      eapply run_at_names; [run_depth | solve [run] | run | vm_compute; reflexivity]
  | |- _ => eapply run_styled; [run_depth | solve [run] | run]
  end.

Lemma print_one H last a s t s1 : evaluates H 0 a s (ROk (EString t)) s1 ->
  printing H last [a] s (ROk ENone) (told H (RqPrint (t ++ last)) s1).
Proof. intros E. eapply printing_last; [exact E | now apply shown_display]. Qed.

Lemma paint_run H d s c : festive (s_env s) -> env_get (lit "ch") (s_env s) = Some (EString [c]) ->
  (d + 20 <= MAX_DEPTH)%N ->
  evaluates H d paint_body s (ROk ENone) (told H (RqPrint (painted c)) s).
Proof.
  intros F C L. known F. destruct s as [e tr lg]. cbn [s_env] in *. unfold paint_body.
  eapply run_do_one; [lia|]. eapply run_print; [lia | run |].
  rewrite <- (app_nil_r (painted c)). apply print_one. unfold painted.
  assert (Q : str_eqb [c] [9608%N] = (c =? 9608)%N).
  { destruct (N.eqb_spec c 9608) as [-> | N]; [reflexivity|]. apply str_eqb_neq. congruence. }
  destruct (c =? 9608)%N eqn:N.
  - eapply run_exact; [run; (match goal with |- context [str_eqb ?a ?b] => change (str_eqb a b) with (str_eqb [c] [9608%N]) end);
      rewrite Q; cbv iota; run | reflexivity | reflexivity].
  - eapply run_exact; [run; (match goal with |- context [str_eqb ?a ?b] => change (str_eqb a b) with (str_eqb [c] [9608%N]) end);
      rewrite Q; cbv iota; run | reflexivity | reflexivity].
Qed.

Lemma told_env H rq e s : told H rq (with_env e s) = with_env e (told H rq s).
Proof. reflexivity. Qed.
Lemma prints_with H ts e s : prints H ts (with_env e s) = with_env e (prints H ts s).
Proof. revert s. induction ts as [|t ts IH]; intros s; [reflexivity | apply (IH (told H (RqPrint t) s))]. Qed.

Lemma paint_all H d l : (d + 20 <= MAX_DEPTH)%N -> forall s, festive (s_env s) ->
  exists vs e', in_order (iteration H d (lit "ch") paint_body) (map (fun c => EString [c]) l) s (ROk vs)
                  (with_env e' (prints H (map painted l) s))
    /\ forall x, x <> lit "ch" -> env_get x e' = env_get x (s_env s).
Proof.
  intros L. induction l as [|c l IH]; intros s F.
  - exists [], (s_env s). split; [|reflexivity]. destruct s. constructor.
  - set (s1 := told H (RqPrint (painted c)) (with_var (lit "ch") (EString [c]) s)).
    assert (F1 : festive (s_env s1)) by (now apply festive_kept).
    destruct (IH s1 F1) as (vs & e' & E & K). exists (ENone :: vs), e'. split.
    + cbn [map]. eapply io_cons; [apply paint_run; [now apply festive_kept | apply found_here | exact L] |].
      eapply eq_ind; [exact E|]. unfold s1, with_var. rewrite told_env, prints_with. reflexivity.
    + intros x N. rewrite K by exact N. apply found_below; [now apply str_eqb_neq | reflexivity].
Qed.

Lemma run_chars_of H a s t s1 :
  evaluates H 0 a s (ROk (EString t)) s1 ->
  calls H SChars [a] s (ROk (EList (map (fun c => EString [c]) t))) s1.
Proof.
  intros E. call. unfold run_chars, exact1. sure_step. eapply sure_ev_arg; [reflexivity | exact E |].
  unfold strings. rewrite map_map. apply sure_ret.
Qed.

Lemma run_now_of H d f a s s0 nm y m dd h time date : (d + 2 <= MAX_DEPTH)%N ->
  evaluates H (d + 1) f s (ROk (EBuiltin (Bi INow nm))) s0 ->
  h_answer H (s_trace s0) RqNow = RsTime y m dd h time date ->
  SysSpec.fits y -> SysSpec.fits m -> SysSpec.fits dd -> SysSpec.fits h ->
  evaluates H d (EApply f [a]) s
    (ROk (EMap [ (lit "date", EMap [(lit "str", EString date)]); (lit "day", EInteger dd); (lit "hour", EInteger h);
                 (lit "month", EInteger m); (lit "time", EMap [(lit "str", EString time)]); (lit "year", EInteger y) ]))
    (told H RqNow s0).
Proof.
  intros L F E Y M D HH. eapply run_builtin_call; [lia | exact F |]. cbn [b_id].
  call. unfold run_now. apply P_Sys.sure_ask. rewrite E.
  assert (W : forall z, SysSpec.fits z -> wrap64 z = z).
  { intros z X. unfold wrap64, SysSpec.fits in *. rewrite Z.mod_small by lia. lia. }
  rewrite !W by assumption. apply sure_ret.
Qed.

(** ** The function inside *)

Section Either.
  Variable H : host.
  Definition settles d e s := exists t, evaluates H d e s (ROk (EString t)) s.
  Lemma settles_text d t s : (d <= MAX_DEPTH)%N -> settles d (EString t) s.
  Proof. intros L. exists t. apply run_value; [exact L | exact I]. Qed.
  Lemma settles_group d e s : (d <= MAX_DEPTH)%N -> settles (d + 1) e s -> settles d (EGroup e) s.
  Proof. intros L (t & E). exists t. apply run_group; [exact L | exact E]. Qed.
  Lemma settles_if d c a b s v : (d <= MAX_DEPTH)%N -> evaluates H (d + 1) c s (ROk v) s ->
    settles (d + 1) a s -> settles (d + 1) b s -> settles d (EIf c a b) s.
  Proof.
    intros L C (t & A) (u & B).
    destruct (is_truthy v) eqn:T; [exists t | exists u]; (eapply run_if; [exact L | exact C | rewrite T; assumption]).
  Qed.
End Either.

Lemma end_state H e e0 e1 top l a b c tr lg :
  told H (RqPrint c) (told H (RqPrint b) (told H (RqPrint a) (with_env e (prints H l (told H (RqPrint top) (St e1 tr lg))))))
  = with_env e (prints H (top :: l ++ [a; b; c]) (St e0 tr lg)).
Proof.
  change (prints H (top :: l ++ [a; b; c]) (St e0 tr lg)) with (prints H (l ++ [a; b; c]) (told H (RqPrint top) (St e0 tr lg))).
  rewrite P_Report.prints_app. change (told H (RqPrint top) (St e1 tr lg)) with (with_env e1 (told H (RqPrint top) (St e0 tr lg))).
  rewrite prints_with. reflexivity.
Qed.

Lemma forgotten H ts rq e e' ea eb tr lg :
  with_env e (with_env e' (prints H ts (told H rq (St ea tr lg)))) = with_env e (prints H ts (told H rq (St eb tr lg))).
Proof.
  change (told H rq (St ea tr lg)) with (with_env ea (told H rq (St eb tr lg))). now rewrite prints_with.
Qed.

Definition moment (y m d h : Z) (time date : str) : expr :=
  EMap [ (lit "date", EMap [(lit "str", EString date)]); (lit "day", EInteger d); (lit "hour", EInteger h);
         (lit "month", EInteger m); (lit "time", EMap [(lit "str", EString time)]); (lit "year", EInteger y) ].

Lemma inner_run H d s y m dd h time date pic :
  festive (s_env s) -> env_get (lit "logo") (s_env s) = Some (EString logo_text) ->
  h_answer H (s_trace s) RqNow = RsTime y m dd h time date ->
  SysSpec.fits y -> SysSpec.fits m -> SysSpec.fits dd -> SysSpec.fits h -> sky h pic -> (d + 60 <= MAX_DEPTH)%N ->
  exists e', evaluates H d (EDo inner) s (ROk ENone) (with_env e' (prints H (banner_texts pic time date) (told H RqNow s))).
Proof.
  intros F LG A Y M D HH SK L. destruct s as [e0 tr0 lg]. cbn [s_env s_trace] in *.
  set (tr := s_trace (told H RqNow (St e0 tr0 lg))).
  set (e1 := env_define (lit "now") (moment y m dd h time date) e0).
  set (e2 := env_define (lit "time-emoji") (EString pic) e1).
  assert (F1 : festive e1) by (now apply festive_kept).
  assert (F2 : festive e2) by (now apply festive_kept).
  assert (N1 : env_get (lit "now") e1 = Some (moment y m dd h time date)) by apply found_here.
  assert (N2 : env_get (lit "now") e2 = Some (moment y m dd h time date)) by (apply found_below; [reflexivity | exact N1]).
  unfold moment in N1, N2.
  assert (E1 : evaluates H (d + 1) (nth 0 inner ENone) (St e0 tr0 lg) (ROk ENone) (St e1 tr lg)).
  { unfold inner. cbn [nth]. eapply run_exact; [eapply run_assign; [lia|]; eapply (run_now_of H _ _ _ _ (St e0 tr0 lg)); [lia | | exact A | exact Y | exact M | exact D | exact HH] | reflexivity | reflexivity].
    known F. run. }
  assert (E2 : evaluates H (d + 1) (nth 1 inner ENone) (St e1 tr lg) (ROk ENone) (St e2 tr lg)).
  { unfold inner. cbn [nth]. known F1. clear E1.
    assert (X : exists u, evaluates H (d + 1 + 1) (match nth 1 inner ENone with EAssign _ v => v | _ => ENone end) (St e1 tr lg) (ROk (EString u)) (St e1 tr lg) /\ u = pic).
    { unfold inner. cbn [nth]. 
      destruct SK; eexists.
      - assert (Q : (h <=? 6)%Z = true) by lia. split; [run | reflexivity].
      - assert (Q : (h <=? 6)%Z = false) by lia. assert (Q2 : (h <=? 10)%Z = true) by lia. split; [run | reflexivity].
      - assert (Q : (h <=? 6)%Z = false) by lia. assert (Q2 : (h <=? 10)%Z = false) by lia.
        assert (Q3 : (h <=? 18)%Z = true) by lia. split; [run | reflexivity].
      - assert (Q : (h <=? 6)%Z = false) by lia. assert (Q2 : (h <=? 10)%Z = false) by lia.
        assert (Q3 : (h <=? 18)%Z = false) by lia. split; [run | reflexivity]. }
    destruct X as (u & X & ->). eapply run_exact; [eapply run_assign; [lia | exact X] | reflexivity | reflexivity]. }
  assert (ST : forall k e, festive e ->
     env_get (lit "now") e = Some (EMap [ (lit "date", EMap [(lit "str", EString date)]); (lit "day", EInteger dd); (lit "hour", EInteger h);
         (lit "month", EInteger m); (lit "time", EMap [(lit "str", EString time)]); (lit "year", EInteger y) ]) ->
     (k = 2 \/ k = 3)%nat ->
     settles H (d + 1 + 1) (match nth k inner ENone with EAssign _ v => v | _ => ENone end) (St e tr lg)).
  { clear - L. intros k e F N K. known F. clear F. destruct K as [-> | ->]; unfold inner; cbn [nth];
      repeat first [ apply settles_text; lia | apply settles_group; [lia|]
                   | eapply settles_if; [lia | run | |] ]. }
  destruct (ST 2%nat e2 F2 N2 ltac:(tauto)) as (t3 & E3).
  set (e3 := env_define (lit "date-emoji") (EString t3) e2).
  assert (F3 : festive e3) by (now apply festive_kept).
  assert (N3 : env_get (lit "now") e3 = env_get (lit "now") e2) by (now apply found_below). rewrite N2 in N3.
  destruct (ST 3%nat e3 F3 N3 ltac:(tauto)) as (t4 & E4).
  set (e4 := env_define (lit "zodiac-emoji") (EString t4) e3).
  assert (F4 : festive e4) by (now apply festive_kept).
  assert (N4 : env_get (lit "now") e4 = env_get (lit "now") e3) by (now apply found_below). rewrite N3 in N4.
  assert (L4 : env_get (lit "logo") e4 = Some (EString logo_text)).
  { unfold e4, e3, e2, e1. do 4 (apply found_below; [reflexivity|]). exact LG. }
  assert (P4 : env_get (lit "time-emoji") e4 = Some (EString pic)).
  { unfold e4, e3, e2. do 2 (apply found_below; [reflexivity|]). apply found_here. }
  clear ST N2 N3 F2 F3 N1 F1 LG. change (St e1 tr lg) with (St e1 tr lg) in *.
  assert (ECHO : forall s t, festive (s_env s) ->
     evaluates H (d + 1) (EApply (ESymbol (lit "echo")) [EString t]) s (ROk ENone) (told H (RqPrint (t ++ [10%N])) s)).
  { intros [e t l] u FE. cbn [s_env] in FE. known FE. eapply run_echo; [lia | run |]. apply print_one. run. }
  set (s5 := told H (RqPrint (hd [] (banner_texts pic time date))) (St e4 tr lg)).
  assert (E5 : evaluates H (d + 1) (nth 4 inner ENone) (St e4 tr lg) (ROk ENone) s5).
  { eapply eq_ind; [apply ECHO; exact F4 | reflexivity]. }
  destruct (paint_all H (d + 1 + 1) logo_text ltac:(lia) s5 F4) as (vs & e6 & E6 & K6).
  set (s6 := with_env e6 (prints H (map painted logo_text) s5)) in *.
  assert (F6 : festive e6).
  { intros x v I. rewrite K6; [now apply F4|]. intros ->. revert I. vm_compute. intuition discriminate. }
  assert (E7 : evaluates H (d + 1) (nth 5 inner ENone) s5 (ROk (EList vs)) s6).
  { unfold inner. cbn [nth]. known F4. eapply run_for; [lia | | exact E6].
    apply run_group; [lia|].
    eapply eq_ind; [apply (run_builtin_call H _ _ (Bi SChars (lit "chars")) _ s5 s5); [lia | run |] |].
    - cbn [b_id]. apply (run_chars_of H _ s5 logo_text s5). run.
    - reflexivity. }
  set (s7 := told H (RqPrint [10%N]) s6).
  assert (E8 : evaluates H (d + 1) (nth 6 inner ENone) s6 (ROk ENone) s7).
  { exact (ECHO s6 [] F6). }
  set (tl := lit "        The time is " ++ in_style "95" time ++ lit " " ++ pic ++ lit " on " ++ in_style "96" date).
  assert (E9 : evaluates H (d + 1) (nth 7 inner ENone) s7 (ROk ENone) (told H (RqPrint (tl ++ [10%N])) s7)).
  { assert (N6 : env_get (lit "now") e6 = env_get (lit "now") e4) by (apply K6; discriminate). rewrite N4 in N6.
    assert (P6 : env_get (lit "time-emoji") e6 = env_get (lit "time-emoji") e4) by (apply K6; discriminate). rewrite P4 in P6.
    assert (S7 : s_env s7 = e6) by reflexivity.
    clear - N6 P6 F6 L S7. known F6. clearbody s7. destruct s7 as [e7 tr' lg']. cbn [s_env] in S7. subst e7. unfold inner. cbn [nth].
    eapply run_echo; [lia | run |]. apply (print_one H [10%N] _ _ tl).
    set (s := St e6 tr' lg').
    assert (PL : forall a b x z, evaluates H 0 a s (ROk (EString x)) s -> evaluates H 0 b s (ROk (EString z)) s ->
       evaluates H 0 (EGroup (EApply (ESymbol (lit "+")) [a; b])) s (ROk (EString (x ++ z))) s).
    { intros a b x z A B. apply run_group; [discriminate|]. eapply run_builtin_call; [discriminate | run |].
      eapply run_arith; [reflexivity | exact A | exact B | apply value_string | apply value_string | reflexivity | discriminate]. }
    assert (NW : forall k x,
       expr_index (expr_index (moment y m dd h time date) (ESymbol k)) (ESymbol (lit "str")) = EString x ->
       evaluates H 0 (EApply (ESymbol (lit "@")) [ESymbol (lit "now"); ESymbol k; ESymbol (lit "str")]) s (ROk (EString x)) s).
    { intros k x X. eapply run_at_names; [discriminate | run | | exact X]. apply run_symbol; [discriminate | exact N6]. }
    assert (SY : forall code k a x, expr_index (EMap fmt_module) (ESymbol k) = EBuiltin (Bi (TStyle (lit code)) k) ->
       evaluates H 0 a s (ROk (EString x)) s ->
       evaluates H 0 (EGroup (EApply (EApply (ESymbol (lit "@")) [ESymbol (lit "fmt"); ESymbol k]) [a])) s (ROk (EString (in_style code x))) s).
    { intros code k a x K A. apply run_group; [discriminate|].
      apply (run_styled H _ _ (lit code) k a s s (EString x) s); [discriminate | | exact A].
      eapply run_builtin_call; [discriminate | run |]. eapply run_at_name; [exact I | run | exact K]. }
    eapply run_exact; [| | reflexivity].
    - apply PL; [apply PL; [apply PL; [apply PL; [apply PL; [run | apply SY; [reflexivity | apply NW; reflexivity]] | run] | run] | run] |
        apply SY; [reflexivity | apply NW; reflexivity]].
    - unfold tl. now rewrite <- !app_assoc. }
  set (bt := [9492%N] ++ repeat 9472%N 48 ++ [9496%N]).
  assert (E10 : evaluates H (d + 1) (nth 8 inner ENone) (told H (RqPrint (tl ++ [10%N])) s7) (ROk ENone)
                  (told H (RqPrint (bt ++ [10%N])) (told H (RqPrint (tl ++ [10%N])) s7))).
  { exact (ECHO (told H (RqPrint (tl ++ [10%N])) s7) bt F6). }
  exists e6. eapply run_end; [| apply (end_state H e6 e0 e4)].
  change inner with [nth 0 inner ENone; nth 1 inner ENone; nth 2 inner ENone; nth 3 inner ENone; nth 4 inner ENone;
    nth 5 inner ENone; nth 6 inner ENone; nth 7 inner ENone; nth 8 inner ENone] at 1.
  eapply run_do_more; [lia | exact E1 |]. eapply run_do_more; [lia | exact E2 |].
  eapply run_do_more; [lia | apply (run_assign H _ _ _ (St e2 tr lg) (EString t3) (St e2 tr lg)); [lia | exact E3] |].
  change (with_var _ _ _) with (St e3 tr lg).
  eapply run_do_more; [lia | apply (run_assign H _ _ _ (St e3 tr lg) (EString t4) (St e3 tr lg)); [lia | exact E4] |].
  change (with_var _ _ _) with (St e4 tr lg).
  eapply run_do_more; [lia | exact E5 |]. eapply run_do_more; [lia | exact E7 |]. 
  eapply run_do_more; [lia | exact E8 |]. eapply run_do_more; [lia | exact E9 |].
  eapply run_do_one; [lia|]. eapply run_end; [exact E10 |].
  assert (T : tl ++ [10%N] = lit "        The time is " ++ in_style "95" time ++ lit " " ++ pic ++ lit " on " ++ in_style "96" date ++ [10%N]).
  { unfold tl. now rewrite <- !app_assoc. }
  rewrite T. reflexivity.
Qed.

(** ** C130 *)

Definition banner_value : expr := Eval vm_compute in
  match banner_definition with EAssign _ v => v | _ => ENone end.

(** The definition can be made in every shell. *)
Theorem C130_definition H s :
  exists s1, evaluates H 0 banner_definition s (ROk ENone) s1 /\ has_banner (s_env s1)
    /\ s_trace s1 = s_trace s /\ s_log s1 = s_log s
    /\ forall x, x <> lit "welcomebanner" -> env_get x (s_env s1) = env_get x (s_env s).
Proof.
  exists (with_var (lit "welcomebanner") banner_value s). split; [|split; [|split; [|split]]]; try reflexivity.
  - apply (run_assign H 0 (lit "welcomebanner") banner_value s banner_value s); [discriminate|].
    apply run_value; [discriminate | exact I].
  - apply found_here.
  - intros x N. apply found_below; [now apply str_eqb_neq | reflexivity].
Qed.
Print Assumptions C130_definition.

Theorem C130_banner H d s y m dd h time date pic :
  festive (s_env s) -> has_banner (s_env s) -> (d + 80 <= MAX_DEPTH)%N ->
  h_answer H (s_trace s) RqNow = RsTime y m dd h time date ->
  SysSpec.fits y -> SysSpec.fits m -> SysSpec.fits dd -> SysSpec.fits h -> sky h pic ->
  exists e, evaluates H d (EApply (ESymbol (lit "welcomebanner")) [ENone]) s (ROk ENone)
              (with_env e (prints H (banner_texts pic time date) (told H RqNow s)))
    /\ env_get (lit "logo") e = Some (EString logo_text)
    /\ forall x, x <> lit "_" -> x <> lit "logo" -> env_get x e = env_get x (s_env s).
Proof.
  intros F B L A Y M D HH SK. destruct s as [e0 tr lg]. cbn [s_env s_trace] in *.
  set (first_logo := match banner_body with EDo (EAssign _ v :: _) => v | _ => ENone end).
  set (e1 := env_define (lit "_") ENone e0).
  set (e2 := env_define (lit "logo") first_logo e1).
  set (e3 := env_define (lit "logo") (EString logo_text) e2).
  assert (F3 : festive e3) by (unfold e3, e2, e1; now do 3 (apply festive_kept; [|reflexivity])).
  exists e3. split.
  - set (cp := capture e3 (lit "_") (EDo inner) (Env [] None)).
    set (ci := call_env (lit "_") ENone cp e3).
    assert (FI : festive ci).
    { intros x v I. unfold banner_names in I. cbn [In] in I.
      known F3. clear F3 F. clearbody e3.
      repeat (destruct I as [I | I]; [injection I as <- <-; unfold ci, call_env, cp; run_lookup |]). contradiction. }
    assert (LI : env_get (lit "logo") ci = Some (EString logo_text)).
    { unfold ci, call_env, cp. apply found_below; [reflexivity|]. apply found_below; [reflexivity|].
      apply found_outside; try reflexivity. apply found_here. }
    destruct (inner_run H (d + 1 + 1 + 1) (St ci tr lg) y m dd h time date pic FI LI A Y M D HH SK ltac:(lia)) as (e' & E).
    eapply run_macro; [lia | apply (run_symbol H _ _ _ banner_value); [lia | exact B] | apply run_value; [lia | exact I] |].
    change (with_var _ _ _) with (St e1 tr lg).
    eapply run_do_more; [lia | apply (run_assign H _ _ _ (St e1 tr lg) first_logo (St e1 tr lg)); [lia | apply run_value; [lia | exact I]] |].
    change (with_var _ _ _) with (St e2 tr lg).
    eapply run_do_more; [lia | apply (run_assign H _ _ _ (St e2 tr lg) (EString logo_text) (St e2 tr lg)); [lia | apply run_value; [lia | exact I]] |].
    change (with_var _ _ _) with (St e3 tr lg).
    eapply run_do_one; [lia|]. eapply run_end.
    + eapply (run_call H _ _ (lit "_") (EDo inner) cp ENone (St e3 tr lg) (St e3 tr lg) ENone (St e3 tr lg));
        [lia | apply run_group; [lia | apply run_lambda; lia] | apply run_value; [lia | exact I] |].
      exact E.
    + apply forgotten.
  - split; [apply found_here|]. intros x N1 N2. unfold e3, e2, e1.
    do 3 (apply found_below; [now apply str_eqb_neq|]). reflexivity.
Qed.
Print Assumptions C130_banner.

(** ** A case *)

(** The afternoon of 29 February 2024 in a new shell; the texts that are
    printed first and last. *)
Example C130_case :
  let run := eval demo_host 100 0 (EDo [banner_definition; EApply (ESymbol (lit "welcomebanner")) [ENone]]) demo in
  fst run = ROk ENone
  /\ match rev (map fst (s_trace (snd run))) with
     | RqNow :: RqPrint t :: RqPrint u :: _ => t = hd [] (banner_texts [] [] []) /\ u = painted 10
     | _ => False
     end
  /\ nth_error (map fst (s_trace (snd run))) 1
     = Some (RqPrint (lit "        The time is " ++ in_style "95" (lit "1:05 PM") ++ [32; 127780; 65039; 32; 32]%N
                      ++ lit "on " ++ in_style "96" (lit "02/29/24") ++ [10%N])).
Proof. vm_compute. auto. Qed.
Example C130_hours : sky 13 [127780; 65039; 32]%N /\ sky 23 [127747%N] /\ sky 0 [127747%N].
Proof. repeat constructor; lia. Qed.
