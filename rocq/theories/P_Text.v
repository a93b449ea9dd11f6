(** C43, C44, C46: the text library. *)

From Coq Require Import String.
From Verif Require Import Base Syntax Host Ops Parser ErrorFmt Text Monad Builtins Eval
  EvalSpec EvalFacts MapFacts CoreFacts LibFacts OpsSpec OpsFacts LibSpec ListFacts
  CurryFacts TextFacts Init Demo P_List.

(** ** C43 *)

(** [split] gives the pieces between the separators. *)
Lemma split_run H a b s sep t :
  env_get (lit "arg0") (s_env s) = None ->
  argument H 2 s a (EString sep) -> argument H 2 s b (EString t) ->
  calls H SSplit [a; b] s (ROk (EList (map EString (str_split sep t)))) s.
Proof.
  intros F A B. assert (FR : forall i, (S i < 2)%nat -> env_get (arg_name i) (s_env s) = None).
  { intros [| i] L; [exact F | lia]. }
  set (sp := EBuiltin (Bi SSplitInner [])).
  assert (U := curry_used sp 2 eq_refl).
  set (body := EApply sp (map (fun i => ESymbol (arg_name i)) (seq 0 2))) in U.
  assert (P2 : (0 < 2)%nat) by lia.
  destruct (curry_again H (s_env s) 2 body P2 U 0 (curry_scope (s_env s) body 2 0) s
              ltac:(discriminate) (holds_cs0 (s_env s) 2 body P2 U)) as (c & HC & EC).
  destruct (curry_again H (s_env s) 2 body P2 U 1 c s ltac:(discriminate) HC) as (c' & HC' & EC').
  set (E := args_env arg_name (env_get_cwd (s_env s)) [EString sep; EString t]).
  assert (G : forall i v, nth_error [EString sep; EString t] i = Some v -> env_get (arg_name i) E = Some v)
    by (apply (args_env_spec arg_name 2 (fun i j _ _ => arg_name_inj i j)); cbn; lia).
  assert (K : evaluates H 0
    (EApply (ELambda (arg_name 0) (stage arg_name 2 (curry_scope (s_env s) body 2) body 1) c) [a; b]) s
    (ROk (EList (map EString (str_split sep t)))) s).
  { apply (curry_all H (s_env s) 2 body P2 U FR [a; b] [EString sep; EString t] _ c' s _ s
             eq_refl ltac:(discriminate)); [auto | exact HC' | exact EC' |].
    exists (with_env E s). split; [| destruct s; reflexivity].
    unfold body, sp. apply builtin_at; [reflexivity |].
    assert (GA : gives H (ESymbol (arg_name 0)) (with_env E s) (EString sep) (with_env E s)).
    { apply rule_symbol; [discriminate |]. cbn [s_env with_env]. now rewrite (G 0%nat _ eq_refl). }
    assert (GC : gives H (ESymbol (arg_name 1)) (with_env E s) (EString t) (with_env E s)).
    { apply rule_symbol; [discriminate |]. cbn [s_env with_env]. now rewrite (G 1%nat _ eq_refl). }
    unfold gives in *. cbn [seq map]. call. unfold run_split_inner. cbn [length Nat.eqb].
    repeat sure_step. }
  call. unfold run_split. eapply sure_bind_const; [reflexivity |]. cbv beta iota.
  unfold curry_env. rewrite (curry_lambdas_stage (s_env s) 2 _ P2). fold sp body.
  apply (sure_bind _ _ (fun n => eval H n 0 (ELambda (arg_name 0) (stage arg_name 2 (curry_scope (s_env s) body 2) body 1) (curry_scope (s_env s) body 2 0)))
           (fun n f => eval H n 0 (EApply f [a; b])) s
           (ELambda (arg_name 0) (stage arg_name 2 (curry_scope (s_env s) body 2) body 1) c) s).
  - now apply sure_ev.
  - now apply sure_ev.
Qed.

(** Joining the pieces gives back the text; no piece contains the separator. *)
Theorem C43_split_join_partial H a b s sep t :
  env_get (lit "arg0") (s_env s) = None ->
  argument H 2 s a (EString sep) -> argument H 2 s b (EString t) ->
  exists pieces,
    calls H SSplit [a; b] s (ROk (EList (map EString pieces))) s
    /\ (forall c c2 s0 s1 s2, gives H c s0 (EList (map EString pieces)) s1 ->
          gives H c2 s1 (EString sep) s2 -> calls H SJoin [c; c2] s0 (ROk (EString t)) s2)
    /\ (sep <> [] -> Forall (fun p => forall x y, p <> x ++ sep ++ y) pieces).
Proof.
  intros F A B. exists (str_split sep t). split; [now apply split_run | split].
  - intros c c2 s0 s1 s2 C C2. unfold gives in *. call. unfold run_join, exact2. repeat sure_step.
    assert (D : map (display H) (map EString (str_split sep t)) = str_split sep t)
      by (rewrite map_map; cbn [display]; apply map_id).
    rewrite D. cbn [display]. rewrite split_join. apply sure_ret.
  - intros NE. now apply split_free.
Qed.

(** A variable called arg0 breaks [split]: it is used in place of the
    separator. *)
Theorem C43_split_refuted :
  exists s sep t pieces u,
    sep <> []
    /\ calls demo_host SSplit [EString sep; EString t] s (ROk (EList (map EString pieces))) s
    /\ calls demo_host SJoin [EList (map EString pieces); EString sep] s (ROk (EString u)) s
    /\ u <> t.
Proof.
  exists (with_var (lit "arg0") (EString (lit "b")) demo), (lit ","), (lit "a,b"),
    [lit "a,"; []], (lit "a,,").
  split; [discriminate |]. split; [compute_outcome 20%nat |].
  split; [compute_outcome 20%nat | discriminate].
Qed.

(** [len] counts characters; [string@len] counts bytes. *)
Theorem C43_len H a s t s' :
  gives H a s (EString t) s' -> storable t -> calls H BLen [a] s (ROk (EInteger (size t))) s'.
Proof.
  intros A S. unfold gives in *. call. unfold run_len. repeat sure_step.
  fold (size t). rewrite as_int_size by exact S. apply sure_ret.
Qed.

Theorem C43_string_len_refuted :
  bm_get (lit "len") string_module = Some (EBuiltin (Bi LLen (lit "len")))
  /\ exists t n, calls demo_host LLen [EString t] demo (ROk (EInteger n)) demo
                 /\ n <> Z.of_nat (length t).
Proof.
  split; [vm_compute; reflexivity |]. exists [233%N], 2%Z.
  split; [compute_outcome 20%nat | discriminate].
Qed.

Theorem C43_string_len_partial H a s t s' :
  gives H a s (EString t) s' -> Forall (fun c => (c < 128)%N) t -> storable t ->
  calls H LLen [a] s (ROk (EInteger (size t))) s'.
Proof.
  intros A AS S. unfold gives in *. call. unfold run_list_len. repeat sure_step.
  replace (Z.of_N (utf8_len t)) with (size t); [rewrite as_int_size by exact S; apply sure_ret |].
  clear A S. unfold size. induction AS as [| c t C AS IH]; [reflexivity |].
  assert (Q : utf8_len (c :: t) = (1 + utf8_len t)%N).
  { cbn [utf8_len]. unfold chr_len. now rewrite (proj2 (N.ltb_lt c 128) C). }
  rewrite Q. cbn [length]. lia.
Qed.

(** Reversing twice. *)
Theorem C43_rev H a s t s' :
  gives H a s (EString t) s' -> calls H LRev [app LRev [a]] s (ROk (EString t)) s'.
Proof. apply C36_rev_text. Qed.

Example C43_example :
  value_of "string@split "","" ""a,b,,c""" = ROk (EList (map EString [lit "a"; lit "b"; []; lit "c"]))
  /\ value_of "string@join (string@split "","" ""a,b,,c"") "",""" = ROk (EString (lit "a,b,,c"))
  /\ value_of "string@split ""aa"" ""aaa""" = ROk (EList (map EString [[]; lit "a"]))
  /\ value_of "let arg0 = ""b""; string@split "","" ""a,b"""
     = ROk (EList (map EString [lit "a,"; []]))
  /\ env_get (lit "arg0") (s_env demo) = None
  /\ argument demo_host 2 demo (EString (lit ",")) (EString (lit ",")).
Proof.
  do 5 (split; [vm_compute; reflexivity |]). apply argument_data; [exact I | discriminate].
Qed.

(** ** C44 *)

(** The letter [k] places after [c], going round from z to a. *)
Definition rotated (k : Z) (c d : chr) : Prop :=
  (forall base, In base [97; 65]%N -> (base <= c < base + 26)%N ->
     (base <= d < base + 26)%N /\ ((Z.of_N d - Z.of_N c - k) mod 26 = 0)%Z)
  /\ (~ (97 <= c < 123)%N -> ~ (65 <= c < 91)%N -> d = c).

Lemma caesar_case ovf i c d : caesar_chr ovf i c = inl d ->
  ((97 <= c <= 122)%N <-> (97 <= d <= 122)%N)
  /\ ((65 <= c <= 90)%N <-> (65 <= d <= 90)%N)
  /\ (~ (97 <= c <= 122)%N -> ~ (65 <= c <= 90)%N -> d = c).
Proof.
  unfold caesar_chr. destruct (is_lower c) eqn:LO; cbn [orb].
  - apply lower_range in LO.
    assert (M : forall n, (n mod 26 < 26)%N) by (intros; apply N.mod_lt; discriminate).
    cbv zeta. destruct (_ <? 256)%N; [| destruct ovf; [discriminate |]];
      intros E; injection E as <-; match goal with |- context [(?x mod 26)%N] => specialize (M x); revert M; generalize (x mod 26)%N; intros q M end; lia.
  - assert (NL : ~ (97 <= c <= 122)%N) by (rewrite <- lower_range, LO; discriminate).
    destruct (is_upper c) eqn:UP.
    + apply upper_range in UP.
      assert (M : forall n, (n mod 26 < 26)%N) by (intros; apply N.mod_lt; discriminate).
      cbv zeta. destruct (_ <? 256)%N; [| destruct ovf; [discriminate |]];
        intros E; injection E as <-; match goal with |- context [(?x mod 26)%N] => specialize (M x); revert M; generalize (x mod 26)%N; intros q M end; lia.
    + intros E. injection E as <-. tauto.
Qed.

Lemma caesar_rotates ovf k c : (0 <= k <= 230)%Z ->
  exists d, caesar_chr ovf k c = inl d /\ rotated k c d.
Proof.
  intros K. unfold caesar_chr.
  assert (KM : Z.to_N (k mod 256) = Z.to_N k) by (rewrite Z.mod_small by lia; reflexivity).
  rewrite KM.
  assert (R : forall base, (base <= c < base + 26)%N -> In base [97; 65]%N ->
    rotated k c ((c - base + Z.to_N k) mod 26 + base)%N).
  { intros base B IB. assert (M : ((c - base + Z.to_N k) mod 26 < 26)%N) by (apply N.mod_lt; discriminate).
    split.
    - intros base' IB' B'. assert (base' = base) as ->.
      { cbn in IB, IB'. lia. }
      split; [revert M; generalize ((c - base + Z.to_N k) mod 26)%N; intros; lia |]. clear M.
      rewrite N2Z.inj_add, N2Z.inj_mod, N2Z.inj_add, N2Z.inj_sub by lia.
      rewrite Z2N.id by lia. change (Z.of_N 26) with 26%Z.
      rewrite (Z.mod_eq (Z.of_N c - Z.of_N base + k) 26) by discriminate.
      replace (_ - _ - k)%Z with ((- ((Z.of_N c - Z.of_N base + k) / 26)) * 26)%Z by lia.
      apply Z.mod_mul. discriminate.
    - cbn in IB. lia. }
  destruct (is_lower c) eqn:LO; cbn [orb].
  - apply lower_range in LO. cbv zeta.
    replace (c - 97 + Z.to_N k <? 256)%N with true by (symmetry; apply N.ltb_lt; lia).
    eexists. split; [reflexivity |]. apply R; [lia | now left].
  - assert (NL : ~ (97 <= c <= 122)%N) by (rewrite <- lower_range, LO; discriminate).
    destruct (is_upper c) eqn:UP.
    + apply upper_range in UP. cbv zeta.
      replace (c - 65 + Z.to_N k <? 256)%N with true by (symmetry; apply N.ltb_lt; lia).
      eexists. split; [reflexivity |]. apply R; [lia | right; now left].
    + assert (NU : ~ (65 <= c <= 90)%N) by (rewrite <- upper_range, UP; discriminate).
      exists c. split; [reflexivity |]. split; [| auto].
      intros base IB B. cbn in IB. lia.
Qed.

Lemma caesar_text ovf k t : (0 <= k <= 230)%Z ->
  exists t', caesar ovf k t = inl t' /\ Forall2 (rotated k) t t'.
Proof.
  intros K. unfold caesar. induction t as [| c t IH]; [exists []; split; [reflexivity | constructor] |].
  destruct (caesar_rotates ovf k c K) as (d & E & R). destruct IH as (t' & E' & R').
  exists (d :: t'). cbn. rewrite E, E'. split; [reflexivity | constructor; auto].
Qed.

Lemma rotated_back k m c d e : ((k + m) mod 26 = 0)%Z -> rotated k c d -> rotated m d e -> e = c.
Proof.
  intros KM [A1 B1] [A2 B2].
  assert (X : forall base, In base [97; 65]%N -> (base <= c < base + 26)%N -> e = c).
  { intros base IB B. destruct (A1 base IB B) as [D E1]. destruct (A2 base IB D) as [F E2].
    apply Z.mod_divide in KM, E1, E2; try discriminate.
    destruct KM as [p P], E1 as [q Q], E2 as [r R]. lia. }
  destruct (N.le_gt_cases 97 c), (N.le_gt_cases 123 c), (N.le_gt_cases 65 c), (N.le_gt_cases 91 c);
    try (apply (X 97%N); [now left | lia]);
    try (apply (X 65%N); [right; now left | lia]);
    (assert (d = c) as -> by (apply B1; lia); apply B2; lia).
Qed.

(** Only letters change, and their case stays the same. *)
Theorem C44_only_letters H a b s t i s1 s2 r s3 :
  gives H a s (EString t) s1 -> gives H b s1 (EInteger i) s2 ->
  calls H SCaesar [a; b] s (ROk r) s3 ->
  s3 = s2 /\ exists t', r = EString t'
    /\ Forall2 (fun c d => ((97 <= c <= 122)%N <-> (97 <= d <= 122)%N)
                           /\ ((65 <= c <= 90)%N <-> (65 <= d <= 90)%N)
                           /\ (~ (97 <= c <= 122)%N -> ~ (65 <= c <= 90)%N -> d = c)) t t'.
Proof.
  intros A B C. unfold gives in *. destruct (caesar (h_overflow H) i t) as [t' | p] eqn:E.
  - assert (K : calls H SCaesar [a; b] s (ROk (EString t')) s2).
    { call. unfold run_caesar. eapply sure_bind_const; [reflexivity |]. cbv beta iota.
      cbn [length Nat.ltb Nat.leb]. repeat sure_step. rewrite E. repeat sure_step. }
    destruct (calls_det _ _ _ _ _ _ _ _ C K) as [X ->]. injection X as ->. split; [reflexivity |].
    exists t'. split; [reflexivity |]. apply map_panic_inv in E. clear - E.
    induction E; constructor; auto. eapply caesar_case; eassumption.
  - assert (K : calls H SCaesar [a; b] s (RPanic p) s2).
    { call. unfold run_caesar. eapply sure_bind_const; [reflexivity |]. cbv beta iota.
      cbn [length Nat.ltb Nat.leb]. repeat sure_step. rewrite E. apply sure_const. reflexivity. }
    destruct (calls_det _ _ _ _ _ _ _ _ C K) as [X ->]. discriminate.
Qed.

(** Between 0 and 230 the cipher rotates the alphabet. *)
Theorem C44_rotates_partial H a b s t k s1 s2 :
  gives H a s (EString t) s1 -> gives H b s1 (EInteger k) s2 -> (0 <= k <= 230)%Z ->
  exists t', calls H SCaesar [a; b] s (ROk (EString t')) s2 /\ Forall2 (rotated k) t t'.
Proof.
  intros A B K. unfold gives in *. destruct (caesar_text (h_overflow H) k t K) as (t' & E & R).
  exists t'. split; [| exact R]. call. unfold run_caesar. eapply sure_bind_const; [reflexivity |].
  cbv beta iota. cbn [length Nat.ltb Nat.leb]. repeat sure_step. rewrite E. repeat sure_step.
Qed.

(** So a shift by [k] is undone by a shift by [26 - k], or any [m] with [k + m]
    a multiple of 26. *)
Theorem C44_undone_partial H a b c d s t k s1 s2 t' s3 m s4 :
  gives H a s (EString t) s1 -> gives H b s1 (EInteger k) s2 -> (0 <= k <= 230)%Z ->
  calls H SCaesar [a; b] s (ROk (EString t')) s2 ->
  gives H c s2 (EString t') s3 -> gives H d s3 (EInteger m) s4 -> (0 <= m <= 230)%Z ->
  ((k + m) mod 26 = 0)%Z ->
  calls H SCaesar [c; d] s2 (ROk (EString t)) s4.
Proof.
  intros A B K C1 C D M KM.
  destruct (C44_rotates_partial H a b s t k s1 s2 A B K) as (u & U & R1).
  destruct (calls_det _ _ _ _ _ _ _ _ C1 U) as [X _]. injection X as <-.
  destruct (C44_rotates_partial H c d s2 t' m s3 s4 C D M) as (v & V & R2).
  assert (v = t) as <-; [| exact V]. clear - R1 R2 KM. revert v R2.
  induction R1; intros v R2; inversion R2; subst; [reflexivity |].
  f_equal; [eapply rotated_back; eassumption | auto].
Qed.

(** Without a shift the cipher uses 13 and undoes itself. *)
Theorem C44_rot13 H a s t s1 :
  gives H a s (EString t) s1 ->
  exists t', calls H SCaesar [a] s (ROk (EString t')) s1
    /\ forall c s2 s3, gives H c s2 (EString t') s3 -> calls H SCaesar [c] s2 (ROk (EString t)) s3.
Proof.
  intros A. destruct (caesar_text (h_overflow H) 13 t ltac:(lia)) as (t' & E & R).
  destruct (caesar_text (h_overflow H) 13 t' ltac:(lia)) as (t2 & E2 & R2).
  assert (t2 = t) as ->.
  { clear - R R2. revert t2 R2. induction R; intros v R2; inversion R2; subst; [reflexivity |].
    f_equal; [eapply rotated_back; [| eassumption | eassumption]; reflexivity | auto]. }
  unfold gives in *. exists t'. split.
  - call. unfold run_caesar. eapply sure_bind_const; [reflexivity |].
    cbv beta iota. cbn [length Nat.ltb Nat.leb]. repeat sure_step. rewrite E. repeat sure_step.
  - intros c s2 s3 C. call. unfold run_caesar. eapply sure_bind_const; [reflexivity |].
    cbv beta iota. cbn [length Nat.ltb Nat.leb]. repeat sure_step. rewrite E2. repeat sure_step.
Qed.

(** Negative shifts do not go backwards: shifting a by -1 gives v, not z, and
    with overflow checks shifting back by -3 panics. *)
Theorem C44_undone_refuted :
  (exists t k t' u, calls demo_host SCaesar [EString t; EInteger k] demo (ROk (EString t')) demo
     /\ calls demo_host SCaesar [EString t'; EInteger (- k)] demo (ROk (EString u)) demo /\ u <> t)
  /\ caesar OvfPanic 3 (lit "a") = inl (lit "d") /\ caesar OvfPanic (-3) (lit "d") = inr PArith.
Proof.
  split; [| split; vm_compute; reflexivity].
  exists (lit "z"), 1%Z, (lit "a"), (lit "v").
  split; [compute_outcome 20%nat |]. split; [compute_outcome 20%nat | discriminate].
Qed.

Example C44_example :
  value_of "string@caesar ""Hello, World!"" 3" = ROk (EString (lit "Khoor, Zruog!"))
  /\ value_of "string@caesar ""Khoor, Zruog!"" 23" = ROk (EString (lit "Hello, World!"))
  /\ value_of "string@caesar (string@caesar ""Hello"")" = ROk (EString (lit "Hello")).
Proof. repeat split; vm_compute; reflexivity. Qed.

(** ** C46 *)

Theorem C46_no_escapes H a s t s' :
  gives H a s (EString t) s' ->
  exists u, calls H TStrip [a] s (ROk (EString u)) s'
    /\ ~ In 27%N u
    /\ (~ In 27%N t -> u = t)
    /\ forall c s1 s2, gives H c s1 (EString u) s2 -> calls H TStrip [c] s1 (ROk (EString u)) s2.
Proof.
  intros A. exists (strip_ansi t).
  assert (N : ~ In 27%N (strip_ansi t)) by apply strip_go_no_esc.
  assert (K : forall a s t s', gives H a s (EString t) s' ->
                calls H TStrip [a] s (ROk (EString (strip_ansi t))) s').
  { clear. intros a s t s' A. unfold gives in A. call. unfold run_strip, exact1. repeat sure_step. }
  split; [now apply K |]. split; [exact N |]. split; [apply strip_clean |].
  intros c s1 s2 C. assert (X := K _ _ _ _ C). now rewrite (strip_clean _ N) in X.
Qed.

(** All styles and colours except dark white: removing the escapes from the
    styled text gives the same as removing them from the text itself. *)
Theorem C46_undoes_styles_partial H name code a s t s1 b s2 s3 u :
  In (EBuiltin (Bi (TStyle code) name))
     (map snd fmt_module
      ++ match bm_get (lit "dark") fmt_module with Some (EMap m) => map snd m | _ => [] end) ->
  gives H a s (EString t) s1 ->
  calls H TStrip [a] s (ROk (EString u)) s1 ->
  exists v, calls H (TStyle code) [a] s (ROk (EString v)) s1
    /\ (gives H b s2 (EString v) s3 -> calls H TStrip [b] s2 (ROk (EString u)) s3).
Proof.
  intros I A ST.
  assert (NM : ~ In 109%N code).
  { revert I. assert (X : Forall (fun e => match e with
                        | EBuiltin (Bi (TStyle code) _) => existsb (N.eqb 109) code = false
                        | _ => True end)
      (map snd fmt_module
      ++ match bm_get (lit "dark") fmt_module with Some (EMap m) => map snd m | _ => [] end)).
    { vm_compute. repeat constructor. }
    rewrite Forall_forall in X. intros I. apply X in I. intros C.
    assert (E : existsb (N.eqb 109) code = true) by (apply existsb_exists; exists 109%N; now split).
    cbn in E, I. congruence. }
  unfold gives in *.
  assert (u = strip_ansi t) as ->.
  { assert (K : calls H TStrip [a] s (ROk (EString (strip_ansi t))) s1)
      by (call; unfold run_strip, exact1; repeat sure_step).
    destruct (calls_det _ _ _ _ _ _ _ _ ST K) as [X _]. congruence. }
  exists (ESC ++ lit "[" ++ code ++ lit "m" ++ t ++ RESET). split.
  - call. unfold run_style. repeat sure_step.
  - intros B. call. unfold run_strip, exact1. repeat sure_step. cbn [display].
    replace (strip_ansi (ESC ++ lit "[" ++ code ++ lit "m" ++ t ++ RESET)) with (strip_ansi t);
      [apply sure_ret |].
    unfold strip_ansi. change (strip_ansi_go false (ESC ++ lit "[" ++ code ++ lit "m" ++ t ++ RESET))
      with (strip_ansi_go true (code ++ 109%N :: t ++ RESET)).
    rewrite strip_go_escape by exact NM.
    destruct (strip_go_app t false RESET) as [b' ->]. destruct b'; cbn; now rewrite app_nil_r.
Qed.

(** Dark white and links leave something behind or remove too much. *)
Theorem C46_undoes_styles_refuted :
  exists t, ~ In 27%N t
    /\ calls demo_host TStrip [app TDarkWhite [EString t]] demo (ROk (EString (t ++ lit "k[0m"))) demo
    /\ calls demo_host TStrip [app THref [EString (lit "http://x"); EString t]] demo
         (ROk (EString [])) demo.
Proof.
  exists (lit "hi"). split; [cbn; intuition discriminate |].
  split; compute_outcome 20%nat.
Qed.

Example C46_example :
  value_of "fmt@strip (fmt@red ""hi"")" = ROk (EString (lit "hi"))
  /\ In (EBuiltin (Bi (TStyle (lit "91")) (lit "red"))) (map snd fmt_module)
  /\ value_of "fmt@strip (fmt@dark@white ""hi"")" = ROk (EString (lit "hik[0m")).
Proof. split; [vm_compute; reflexivity |]. split; vm_compute; [tauto | reflexivity]. Qed.

Print Assumptions C43_split_join_partial.
Print Assumptions C43_split_refuted.
Print Assumptions C43_len.
Print Assumptions C43_string_len_refuted.
Print Assumptions C43_string_len_partial.
Print Assumptions C43_rev.
Print Assumptions C44_only_letters.
Print Assumptions C44_rotates_partial.
Print Assumptions C44_undone_partial.
Print Assumptions C44_rot13.
Print Assumptions C44_undone_refuted.
Print Assumptions C46_no_escapes.
Print Assumptions C46_undoes_styles_partial.
Print Assumptions C46_undoes_styles_refuted.
