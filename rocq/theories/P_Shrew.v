(** C134: the shrew of the start-up scripts. *)

From Coq Require Import String Lia ZArith List.
From Verif Require Import Base Syntax Host Ops Parser Monad ErrorFmt Builtins Eval Init EvalSpec
  OpsSpec EvalFacts LibSpec LibFacts OpsFacts RunFacts MapFacts CoreFacts P_Start
  LinesSpec WidgetSpec Prelude PreludeFacts SysSpec PrintSpec ReportSpec GlobSpec RedirectSpec ShrewSpec Demo.
From Verif Require DashSpec P_Dash P_Widget P_Lines P_Mode P_Case P_Extreme P_Prompt P_Banner CmdFacts CalendarRun P_Sys StrSpec BannerSpec.
Import ListNotations.
Notation plain := DashSpec.plain.
Notation keeps_short := DashSpec.keeps_short.

(** ** Texts *)

Lemma trimmed_tidy ls ls' : DashSpec.trimmed ls ls' ->
  Forall (fun l => exists a c, l = a ++ [c] /\ c <> 32%N) ls -> ls' = ls.
Proof.
  induction 1 as [|l l' ls ls' (k & E) T IH]; intros F; [reflexivity|].
  rewrite (IH (Forall_inv_tail F)). f_equal. destruct (Forall_inv F) as (a & c & X & N). rewrite X in E |- *. clear X F IH.
  destruct k as [|k]; [now rewrite app_nil_r in E|].
  exfalso. replace (S k) with (k + 1) in E by lia. rewrite repeat_app, app_assoc in E. apply app_inj_tail in E as [_ E].
  cbn in E. congruence.
Qed.

Lemma wrap_tidy H t ls w : keeps_short H -> plain t -> stacked ls t -> tidy ls ->
  Forall (fun l => length l <= N.to_nat w) ls -> h_wrap H t w = t.
Proof.
  intros K P ST (NE & T) F. destruct (K t ls w P ST F) as (ls' & S' & TR).
  rewrite (trimmed_tidy _ _ TR T) in S'.
  destruct (P_Widget.join_stacked _ _ ST) as [-> _]. destruct (P_Widget.join_stacked _ _ S') as [-> _]. reflexivity.
Qed.

Lemma plain_returns t l ls : plain t -> stacked ls t -> In l ls -> ~ In 13%N l.
Proof.
  intros P ST I X. destruct (P _ (P_Dash.in_stacked _ _ _ _ ST I X)) as [Y|Y]; [discriminate|lia].
Qed.

Lemma tidy_lines t ls : stacked ls t -> plain t -> tidy ls -> lines t ls.
Proof.
  intros ST P (NE & T).
  assert (NR : forall l, In l ls -> ~ In 13%N l) by (intros l I; exact (plain_returns t l ls P ST I)).
  clear P. induction ST as [| l X | l m ls t X ST IH]; [easy| |].
  - constructor; [|exact X]. inversion T as [|? ? (a & c & -> & _) _]; subst. destruct a; discriminate.
  - inversion T as [|? ? T1 T2]; subst. constructor; [exact X| |apply IH; [discriminate|exact T2|]].
    + apply wr_none. intros x ->. apply (NR _ (or_introl eq_refl)). apply in_app_iff. right. now left.
    + intros y I. apply NR. now right.
Qed.

(** Padding with spaces only makes the last line longer. *)
Lemma padded_stacked ls t k : stacked ls t -> ls <> [] ->
  exists ls', stacked ls' (t ++ repeat 32%N k) /\ Forall2 (fun l l' => exists j, l' = l ++ repeat 32%N j) ls ls'
    /\ forall l', In l' ls' -> In l' ls \/ exists l, In l ls /\ l' = l ++ repeat 32%N k.
Proof.
  intros ST NE. induction ST as [| l X | l m ls t X ST IH]; [easy| |].
  - exists [l ++ repeat 32%N k]. split.
    + constructor. unfold single in *. rewrite in_app_iff. intros [I|I]; [auto|]. apply repeat_spec in I. discriminate.
    + split; [constructor; [now exists k|constructor]|]. intros l' [<-|[]]. right. exists l. split; [now left|reflexivity].
  - destruct (IH ltac:(discriminate)) as (ls' & S' & F & Q). inversion F as [|? m' ? ls2 FM FL]; subst.
    exists (l :: m' :: ls2). split; [|split].
    + rewrite <- app_assoc. cbn [app]. now constructor.
    + constructor; [exists 0; now rewrite app_nil_r|exact F].
    + intros l' [<-|I]; [left; now left|]. destruct (Q l' I) as [Y|(y & Y & ->)]; [left; now right|].
      right. exists y. split; [now right|reflexivity].
Qed.

Lemma line_short ls t l : stacked ls t -> In l ls -> length l <= length t.
Proof.
  induction 1 as [| x X | x m ls t X ST IH]; intros I; [easy| |].
  - destruct I as [->|[]]. lia.
  - rewrite app_length. destruct I as [->|I]; [lia|]. specialize (IH I). cbn [length]. unfold str, chr in *. lia.
Qed.

(** A row of a widget does not depend on spaces at the end of the line. *)
Lemma framed_pad title ls ls1 ls2 w h t :
  Forall2 (fun l l' => exists j, l' = l ++ repeat 32%N j) ls ls1 -> DashSpec.trimmed ls1 ls2 ->
  Forall (fun l => exists a c, l = a ++ [c] /\ c <> 32%N) ls ->
  framed title ls2 w h t -> framed title ls w h t.
Proof.
  intros F T TI (a & b & rows & A & B & L & R & ST). exists a, b, rows. split; [exact A|]. split; [exact B|].
  split; [exact L|]. split; [|exact ST]. clear - F T TI R. intros k r K. specialize (R k r K). revert R. clear K.
  revert ls1 ls2 k F T TI. induction ls as [|l ls IH]; intros ls1 ls2 k F T TI.
  - inversion F; subst. inversion T; subst. auto.
  - inversion F as [|? l1 ? ls1' (j & ->) F']; subst. destruct ls2 as [|l2 ls2]; [inversion T|].
    assert (X : DashSpec.trimmed ls1' ls2 /\ exists i, l ++ repeat 32%N j = l2 ++ repeat 32%N i) by (inversion T; subst; now split).
    destruct X as (T' & i & E).
    pose proof (Forall_inv_tail TI) as TI'. destruct (Forall_inv TI) as (a & c & X & N). subst l. destruct k as [|k]; [|exact (IH _ _ k F' T' TI')].
    cbn [nth_error row_of]. intros (q & -> & Q).
    assert (X : exists p, l2 = (a ++ [c]) ++ repeat 32%N p).
    { clear - E N. revert l2 E. revert j. induction i as [|i IH]; intros j l2 E.
      - rewrite app_nil_r in E. now exists j.
      - destruct j as [|j].
        + exfalso. rewrite app_nil_r in E. replace (S i) with (i + 1) in E by lia.
          rewrite repeat_app, app_assoc in E. apply app_inj_tail in E as [_ E]. cbn in E. congruence.
        + replace (S i) with (i + 1) in E by lia. replace (S j) with (j + 1) in E by lia.
          rewrite !repeat_app, !app_assoc in E. apply app_inj_tail in E as [E _]. rewrite <- app_assoc in E.
          apply (IH j). rewrite <- app_assoc. exact E. }
    destruct X as (p & ->). exists (p + q). rewrite <- !app_assoc in *. cbn [app] in *. rewrite repeat_app.
    split; [reflexivity|exact Q].
Qed.

(** ** The bubble *)

Lemma bubble H a b c d s s1 w s2 s3 h s4 title text ls :
  keeps_short H -> plain title -> single title -> plain text -> stacked ls text -> tidy ls ->
  (5 <= w)%Z -> (3 <= h)%Z -> (Z.of_nat (length title) + 2 <= w)%Z ->
  Forall (fun l => (Z.of_nat (length l) + 2 <= w)%Z) ls ->
  gives H a s (EString title) s1 -> gives H c s1 (EInteger w) s2 ->
  gives H b s2 (EString text) s3 -> gives H d s3 (EInteger h) s4 ->
  exists t rows, calls H WCreate [a; b; c; d] s (ROk (EString t)) s4
    /\ framed title ls (Z.to_nat w) (Z.to_nat h) t /\ lines t rows
    /\ length rows = Z.to_nat h /\ Forall (fun r => length r = Z.to_nat w) rows.
Proof.
  intros KS PT ST PX SX (NE & TI) W Hh TL F A C B D.
  assert (N13 : forall t, plain t -> ~ In 13%N t) by (intros t P I; destruct (P _ I) as [X | X]; [discriminate | lia]).
  set (pad := Z.to_nat (w - 2) * 2 / 3 - length text).
  destruct (padded_stacked ls text pad SX NE) as (ls1 & S1 & P1 & Q1).
  assert (PP : plain (text ++ repeat 32%N pad)).
  { intros x I. apply in_app_iff in I as [I|I]; [now apply PX|]. apply repeat_spec in I. subst. right. lia. }
  assert (SH : Forall (fun l => length l <= N.to_nat (Z.to_N (w - 2))) ls1).
  { apply Forall_forall. intros l I. rewrite Forall_forall in F. destruct (Q1 l I) as [J|(x & J & ->)].
    - specialize (F _ J). unfold str, chr in *. lia.
    - pose proof (F _ J). pose proof (line_short _ _ _ SX J). rewrite app_length, repeat_length.
      pose proof (Nat.div_le_upper_bound (Z.to_nat (w - 2) * 2) 3 (Z.to_nat (w - 2)) ltac:(lia) ltac:(lia)).
      unfold pad, str, chr in *. lia. }
  destruct (KS _ _ _ PP S1 SH) as (ls2 & S2 & TR).
  assert (NL : forall l, In l ls2 -> ~ In 13%N l).
  { intros l I X. destruct (P_Dash.trimmed_in _ _ _ _ TR I X) as (x & I2 & X2).
    exact (N13 _ PP (P_Dash.in_stacked _ _ _ _ S1 I2 X2)). }
  assert (NW : ~ In 13%N (h_wrap H (text ++ repeat 32%N pad) (Z.to_N (w - 2)))).
  { intros I. destruct (P_Dash.stacked_in _ _ _ S2 I) as [X | (l & I2 & X)]; [discriminate | exact (NL l I2 X)]. }
  destruct (P_Widget.C74_create_partial H a b c d s (EString title) s1 w s2 (EString text) s3 h s4 title text
      (text ++ repeat 32%N pad) ls2) as (t & CT & FR & RE); try assumption.
  - now apply CmdFacts.shown_display.
  - now apply CmdFacts.shown_display.
  - exists pad. split; [reflexivity|]. rewrite app_length, repeat_length. unfold pad. unfold str, chr in *. split; intros; lia.
  - rewrite P_Dash.no_returns by exact NW. exact S2.
  - intros ->. inversion TR; subst. inversion P1; subst. now apply NE.
  - apply Forall_forall. intros l I. destruct (In_nth_error _ _ I) as (k & K).
    assert (X : exists l1, In l1 ls1 /\ length l <= length l1).
    { clear - TR I. induction TR as [|x x' y y' (j & ->) T IH]; [easy|]. destruct I as [->|I].
      - eexists. split; [now left|]. rewrite app_length. unfold str, chr in *. lia.
      - destruct (IH I) as (z & Z1 & Z2). exists z. split; [now right|exact Z2]. }
    destruct X as (l1 & I1 & L1). rewrite Forall_forall in SH. specialize (SH _ I1). unfold str, chr in *. lia.
  - destruct (P_Widget.rectangle_lines (Z.to_nat w) (Z.to_nat h) t ltac:(lia) RE) as (rows & LR & HR & WR).
    { eapply P_Dash.framed_no_return; [exact FR | now apply N13 | exact NL]. }
    exists t, rows. split; [exact CT|]. split; [exact (framed_pad _ _ _ _ _ _ _ P1 TR TI FR)|].
    split; [exact LR|]. split; [exact HR|]. eapply Forall_impl; [|exact WR]. cbv beta. intros r X. apply X.
Qed.

(** ** The parts of the program *)

Definition at_ (a b : string) : expr := EApply (ESymbol (lit "@")) [ESymbol (lit a); ESymbol (lit b)].
Definition sym (x : string) : expr := ESymbol (lit x).
Definition width_part : expr := EGroup (EApply (at_ "console" "width") [ENone]).
Definition row_body : expr :=
  EDo [EApply (sym "echo") [EGroup (EApply (sym "*") [EString (lit " "); sym "spacing"]); sym "line"]].
Definition stroke_body : expr :=
  EDo [EApply (sym "echo") [EGroup (EApply (sym "*") [EString (lit " "); EGroup (EGroup (EApply (sym "-") [sym "spacing"; sym "i"]))]);
                            EString [9585%N]]].
Definition bubble_part : expr :=
  EGroup (EApply (at_ "widget" "create")
    [sym "title"; sym "text"; EGroup (EApply (sym "+") [sym "cols"; EInteger 2]); EGroup (EApply (sym "+") [sym "rows"; EInteger 2])]).
Definition say_body : list expr :=
  [ EAssign (lit "title") (EString (lit "Wild Dune Shrew"));
    EAssign (lit "text") (EGroup (EApply (EApply (sym "@") [sym "std"; sym "string"; sym "to-string"]) [sym "text"]));
    EAssign (lit "cols") (EApply (of_math "min")
      [ EGroup (EApply (of_math "max") [EGroup (EGroup (EApply (sym "//") [width_part; EInteger 2]));
                                        EGroup (EApply (at_ "string" "get-width") [sym "text"])]);
        width_part ]);
    EAssign (lit "text") (EApply (at_ "fmt" "wrap") [sym "text"; sym "cols"]);
    EAssign (lit "text-lines") (EApply (sym "lines") [sym "text"]);
    EIf (EGroup (EApply (sym "==") [EGroup (EApply (sym "len") [sym "text-lines"]); EInteger 1]))
      (EDo [EIf (EGroup (EApply (sym "<") [EGroup (EApply (sym "len") [sym "text"]); sym "cols"]))
              (EDo [EAssign (lit "cols") (EApply (sym "len") [sym "text"])]) ENone]) ENone;
    EAssign (lit "cols") (EApply (of_math "max") [sym "cols"; EGroup (EApply (sym "len") [sym "title"])]);
    EAssign (lit "rows") (EApply (sym "len") [sym "text-lines"]);
    EAssign (lit "spacing") (EInteger 25);
    EFor (lit "line") (EGroup (EApply (sym "lines") [bubble_part])) row_body;
    EFor (lit "i") (EApply (sym "to") [EInteger 0; EInteger 2]) stroke_body;
    EApply (sym "echo") [EGroup (EApply (sym "shrew") [ENone])] ].

Lemma say_is : say_definition = EAssign (lit "shrewsay") (ELambda (lit "text") (EDo say_body) (Env [] None)).
Proof. vm_compute. reflexivity. Qed.

Definition talking (e : env) : Prop := eloquent e /\ with_shrew e.

Lemma say_all e : eloquent e -> fold_right (fun p P => env_get (fst p) e = Some (snd p) /\ P) True say_names.
Proof. intros (F & _). exact (CalendarRun.names_all _ _ F). Qed.

Ltac known F :=
  let A := fresh in
  pose proof (say_all _ F) as A;
  lazy beta iota zeta delta [fold_right say_names fst snd] in A;
  repeat match type of A with _ /\ _ => let B := fresh "KNOWN" in destruct A as [B A] end; clear A.

(** Names that are not used by the function. *)
Definition own : list str := map lit ["title"; "text"; "cols"; "text-lines"; "rows"; "spacing"; "line"; "i"; "_"]%string.

Lemma talking_kept x v e : In x own -> talking e -> talking (env_define x v e).
Proof.
  intros I ((F & (m & M) & (st & S1 & S2)) & W).
  assert (K : forall y, ~ In y own -> env_get y (env_define x v e) = env_get y e).
  { intros y N. rewrite env_get_define. replace (str_eqb y x) with false; [reflexivity|].
    symmetry. apply str_eqb_neq. intros ->. now apply N. }
  clear I. assert (N : forall y, existsb (str_eqb y) own = false -> ~ In y own).
  { intros y B X. apply not_true_iff_false in B. apply B, existsb_exists. exists y. split; [exact X|apply str_eqb_refl]. }
  split; [split; [|split]|].
  - intros y u I. rewrite K; [now apply F|]. apply N. clear - I. cbn [say_names In] in I.
    repeat (destruct I as [I|I]; [injection I as <- _; vm_compute; reflexivity|]). destruct I.
  - exists m. rewrite K; [exact M|]. apply N. reflexivity.
  - exists st. rewrite K; [now split|]. apply N. reflexivity.
  - cbv beta iota delta [with_shrew shrew_definition] in W |- *. rewrite K; [exact W|]. apply N. reflexivity.
Qed.

Lemma talking_counting e : talking e -> counting e.
Proof. intros ((F & M & _) & _). split; [|exact M]. eexists. apply F. now left. Qed.

(** A name of a module. *)
Lemma run_member H d s a b v r : (d + 1 <= MAX_DEPTH)%N -> talking (s_env s) -> env_get (lit a) (s_env s) = Some v ->
  expr_index v (ESymbol (lit b)) = r -> evaluates H d (at_ a b) s (ROk r) s.
Proof.
  intros L (F & _) A R. known F. unfold at_. eapply run_builtin_call; [lia | apply run_symbol; [lia | eassumption] |].
  eapply run_at_name; [exact I | apply run_symbol; [discriminate | exact A] | exact R].
Qed.

Lemma run_name H d s x v : (d <= MAX_DEPTH)%N -> env_get (lit x) (s_env s) = Some v -> evaluates H d (sym x) s (ROk v) s.
Proof. intros. now apply run_symbol. Qed.

Lemma width_run H d s w : terminal H w -> talking (s_env s) -> (d + 3 <= MAX_DEPTH)%N ->
  evaluates H d width_part s (ROk (EInteger (Z.of_N w))) (told H RqSize s).
Proof.
  intros (W & T) E L. destruct (T (s_trace s)) as (h & Hh & A). unfold width_part. apply run_group; [lia|].
  pose proof E as (F & _). known F.
  eapply run_builtin_call; [lia | eapply run_member; [lia | exact E | eassumption | vm_compute; reflexivity] |].
  exact (proj1 (proj1 (P_Mode.C113_size H [ENone] s) w h A W Hh)).
Qed.

(** The indentation. *)
Lemma indent_run H s n : talking (s_env s) -> (0 <= n < 2 ^ 63)%Z -> forall a, evaluates H 3 a s (ROk (EInteger n)) s ->
  evaluates H 0 (EGroup (EApply (sym "*") [EString (lit " "); a])) s (ROk (EString (spaces (Z.to_nat n)))) s.
Proof.
  intros (F & _) N a A. known F. apply run_group; [discriminate|].
  eapply (run_curried H (0 + 1) _ BMul); [discriminate | apply run_name; [discriminate | eassumption] | apply run_value; [discriminate | exact I]
    | | reflexivity | apply value_string | apply value_int | apply CalendarRun.blanks; exact N | discriminate].
  exact A.
Qed.

Lemma echo_two H d s a b x y : (d + 2 <= MAX_DEPTH)%N -> talking (s_env s) ->
  evaluates H 0 a s (ROk (EString x)) s ->
  (forall tr, let s' := St (s_env s) tr (s_log s) in evaluates H 0 b s' (ROk (EString y)) s') ->
  evaluates H d (EApply (sym "echo") [a; b]) s (ROk ENone) (prints H [x ++ [32%N]; y ++ [10%N]] s).
Proof.
  intros L (F & _) A B. known F. eapply P_Banner.run_echo; [lia | apply run_name; [lia | eassumption] |].
  eapply printing_more; [exact A | now apply CmdFacts.shown_display |].
  apply (P_Banner.print_one H [10%N] b (told H (RqPrint (x ++ [32%N])) s)). apply B.
Qed.

Lemma row_run H d s r : (d + 20 <= MAX_DEPTH)%N -> talking (s_env s) -> env_get (lit "spacing") (s_env s) = Some (EInteger 25) ->
  env_get (lit "line") (s_env s) = Some (EString r) ->
  evaluates H d row_body s (ROk ENone) (prints H [spaces 25 ++ [32%N]; r ++ [10%N]] s).
Proof.
  intros L T SP LN. unfold row_body. apply run_do_one; [lia|]. apply echo_two; [lia | exact T | |].
  - apply (indent_run H s 25 T); [lia|]. apply run_name; [discriminate | exact SP].
  - intros tr s'. apply run_name; [discriminate | exact LN].
Qed.

Lemma stroke_run H d s i : (d + 20 <= MAX_DEPTH)%N -> (0 <= i <= 25)%Z -> talking (s_env s) ->
  env_get (lit "spacing") (s_env s) = Some (EInteger 25) -> env_get (lit "i") (s_env s) = Some (EInteger i) ->
  evaluates H d stroke_body s (ROk ENone) (prints H [spaces (Z.to_nat (25 - i)) ++ [32%N]; [9585%N; 10%N]] s).
Proof.
  intros L B T SP LN. unfold stroke_body. apply run_do_one; [lia|]. apply (echo_two H (d + 1) s _ _ _ [9585%N]); [lia | exact T | |].
  - apply (indent_run H s (25 - i) T); [lia|]. apply run_group; [discriminate|]. apply run_group; [discriminate|].
    pose proof T as (F & _). known F.
    eapply run_builtin_call; [discriminate | apply run_name; [discriminate | eassumption] |].
    eapply run_arith; [reflexivity | apply run_name; [discriminate | exact SP] | apply run_name; [discriminate | exact LN]
      | apply value_int | apply value_int | apply sub_ints; run_fits | discriminate].
  - intros tr s'. apply run_value; [discriminate | exact I].
Qed.

Lemma prints_app H a b s : prints H (a ++ b) s = prints H b (prints H a s).
Proof. apply fold_left_app. Qed.

Lemma prints_env H ts s : s_env (prints H ts s) = s_env s.
Proof. revert s. induction ts as [|t ts IH]; intros s; [reflexivity|]. cbn [prints fold_left]. exact (IH (told H (RqPrint t) s)). Qed.

Lemma rows_run H d rows : (d + 20 <= MAX_DEPTH)%N -> forall s, talking (s_env s) -> env_get (lit "spacing") (s_env s) = Some (EInteger 25) ->
  exists vs e', in_order (iteration H d (lit "line") row_body) (map EString rows) s (ROk vs)
                  (with_env e' (prints H (flat_map (fun r => [spaces 25 ++ [32%N]; r ++ [10%N]]) rows) s))
    /\ talking e' /\ env_get (lit "spacing") e' = Some (EInteger 25).
Proof.
  intros L. induction rows as [|r rows IH]; intros s T SP.
  - exists [], (s_env s). split; [|now split]. destruct s. constructor.
  - set (s0 := with_var (lit "line") (EString r) s).
    assert (T0 : talking (s_env s0)) by (apply talking_kept; [cbn; tauto | exact T]).
    assert (SP0 : env_get (lit "spacing") (s_env s0) = Some (EInteger 25)) by (apply found_below; [reflexivity | exact SP]).
    set (s1 := prints H [spaces 25 ++ [32%N]; r ++ [10%N]] s0).
    destruct (IH s1) as (vs & e' & E & K); [unfold s1; rewrite prints_env; exact T0 | unfold s1; rewrite prints_env; exact SP0 |].
    exists (ENone :: vs), e'. split; [|exact K]. cbn [map flat_map]. eapply io_cons.
    + apply row_run; [exact L | exact T0 | exact SP0 | apply found_here].
    + eapply eq_ind; [exact E|]. unfold s1, s0, with_var. rewrite prints_app, !P_Banner.prints_with. reflexivity.
Qed.

(** ** The whole body *)

Lemma stacked_cut ls t : stacked ls t -> ls <> [] -> StrSpec.cut [10%N] t ls.
Proof.
  intros ST NE. induction ST as [| l X | l m ls t X ST IH]; [easy| |].
  - constructor. intros (a & b & ->). apply X. rewrite in_app_iff. right. now left.
  - econstructor; [|apply IH; discriminate]. split; [reflexivity|]. intros x y E. clear - X E.
    revert x E. induction l as [|c l IH]; intros x E; [cbn; lia|].
    destruct x as [|c' x]; cbn [app] in E.
    + injection E as -> _. exfalso. apply X. now left.
    + injection E as -> E. cbn [length]. apply le_n_S, IH; [|exact E]. intros I. apply X. now right.
Qed.

Lemma stacked_count ls t : stacked ls t -> length ls <= S (length t).
Proof.
  induction 1 as [| l X | l m ls t X ST IH]; cbn [length] in *; [lia|lia|]. rewrite app_length. cbn [length].
  unfold str, chr in *. lia.
Qed.

Lemma small z : (0 <= z < 2 ^ 63)%Z -> as_int z = z.
Proof. intros B. apply CalendarRun.as_int_small. run_fits. Qed.

Lemma len_of_list H a s l s1 : evaluates H 0 a s (ROk (EList l)) s1 -> (Z.of_nat (length l) < 2 ^ 63)%Z ->
  calls H BLen [a] s (ROk (EInteger (Z.of_nat (length l)))) s1.
Proof.
  intros E B. rewrite <- (small (Z.of_nat (length l))) by lia.
  call. unfold run_len. eapply sure_ev_arg; [reflexivity | exact E |]. apply sure_ret.
Qed.

Lemma len_of_text H a s t s1 : evaluates H 0 a s (ROk (EString t)) s1 -> (Z.of_nat (length t) < 2 ^ 63)%Z ->
  calls H BLen [a] s (ROk (EInteger (Z.of_nat (length t)))) s1.
Proof. intros E B. rewrite <- (small (Z.of_nat (length t))) by lia. now apply run_len_of_text. Qed.

(** A builtin function by its name. *)
Lemma run_named H d x b nm args s r s' : (d + 1 <= MAX_DEPTH)%N -> env_get (lit x) (s_env s) = Some (bi b nm) ->
  calls H b args s r s' -> evaluates H d (EApply (sym x) args) s r s'.
Proof. intros L G C. eapply run_builtin_call; [lia | apply run_name; [lia | exact G] | exact C]. Qed.

Lemma cols_run H d s w n t ls :
  terminal H w -> talking (s_env s) -> env_get (lit "text") (s_env s) = Some (EString t) -> LibSpec.storable t ->
  stacked ls t -> ls <> [] -> (d + 30 <= MAX_DEPTH)%N ->
  Forall (fun l => length l <= n) ls -> Exists (fun l => length l = n) ls -> (n <= N.to_nat w)%nat ->
  evaluates H d (EApply (of_math "min")
      [ EGroup (EApply (of_math "max") [EGroup (EGroup (EApply (sym "//") [width_part; EInteger 2]));
                                        EGroup (EApply (at_ "string" "get-width") [sym "text"])]);
        width_part ]) s (ROk (EInteger (Z.of_nat (Nat.max (Nat.div (N.to_nat w) 2) n)))) (told H RqSize (told H RqSize s)).
Proof.
  intros TE T TX STO ST NE L FA EX NW. pose proof T as (F & _). known F.
  set (s1 := told H RqSize s).
  assert (T1 : talking (s_env s1)) by exact T. 
  destruct (P_Case.C92_width H (sym "text") s1 (EString t) t s1 ls) as (k & CW & K1 & K2);
    [apply run_name; [discriminate | exact TX] | constructor | exact STO | now apply stacked_cut |].
  assert (k = Z.of_nat n) as ->.
  { apply Exists_exists in K2 as (l & I & <-). apply Exists_exists in EX as (l2 & I2 & <-).
    rewrite Forall_forall in FA, K1. specialize (FA _ I). specialize (K1 _ I2). unfold LibSpec.size, str, chr in *. lia. }
  pose proof (proj1 TE) as WB.
  assert (DV : evaluates H (d + 1 + 1) (EApply (of_math "max") [EGroup (EGroup (EApply (sym "//") [width_part; EInteger 2]));
                                        EGroup (EApply (at_ "string" "get-width") [sym "text"])]) s
               (ROk (EInteger (Z.max (Z.quot (Z.of_N w) 2) (Z.of_nat n)))) s1).
  { apply (P_Extreme.C129_integers H (d + 1 + 1) _ _ s _ s1 _ s1); [now apply talking_counting | lia | |].
    - apply run_group; [lia|]. apply run_group; [lia|].
      eapply (run_curried H _ _ BDiv _ _ _ s s (EInteger (Z.of_N w)) s1 (EInteger 2) s1);
        [lia | apply run_name; [lia | eassumption] | apply width_run; [exact TE | exact T | lia]
        | apply run_value; [lia | exact I] | reflexivity | apply value_int | apply value_int | | discriminate].
      apply quot_ints_pos; [run_fits | lia].
    - apply run_group; [lia|]. eapply run_builtin_call;
        [lia | eapply (run_member H _ s1); [lia | exact T1 | exact KNOWN11 | vm_compute; reflexivity] | exact CW]. }
  eapply run_exact; [eapply (P_Extreme.C129_integers H d _ _ s _ s1 _ (told H RqSize s1)); [now apply talking_counting | lia | |] | | reflexivity].
  - apply run_group; [lia | exact DV].
  - apply width_run; [exact TE | exact T1 | lia].
  - f_equal. rewrite Z.quot_div_nonneg by lia. rewrite Nat2Z.inj_max, Nat2Z.inj_div.
    replace (Z.of_nat (N.to_nat w)) with (Z.of_N w) by lia.
    pose proof (Z.div_le_upper_bound (Z.of_N w) 2 (Z.of_N w) ltac:(lia) ltac:(lia)). change (Z.of_nat 2) with 2%Z. lia.
Qed.

Lemma tidy_count ls t : stacked ls t -> tidy ls -> 2 * length ls <= S (length t).
Proof.
  intros ST (_ & T). induction ST as [| l X | l m ls t X ST IH]; [cbn; lia| |].
  - destruct (Forall_inv T) as (a & c & -> & _). rewrite app_length. cbn [length]. unfold str, chr in *. lia.
  - specialize (IH (Forall_inv_tail T)). destruct (Forall_inv T) as (a & c & -> & _). rewrite !app_length.
    cbn [length] in *. unfold str, chr in *. lia.
Qed.

Definition if_part : expr := nth 5 say_body ENone.

Lemma fit_run H d s t ls k :
  talking (s_env s) -> (d + 20 <= MAX_DEPTH)%N -> LibSpec.storable t -> stacked ls t -> tidy ls ->
  env_get (lit "text") (s_env s) = Some (EString t) ->
  env_get (lit "text-lines") (s_env s) = Some (EList (map EString ls)) ->
  env_get (lit "cols") (s_env s) = Some (EInteger (Z.of_nat k)) -> Forall (fun l => length l <= k) ls ->
  exists e, evaluates H d if_part s (ROk ENone) (with_env e s) /\ talking e
    /\ env_get (lit "cols") e = Some (EInteger (Z.of_nat (match ls with [l] => length l | _ => k end)))
    /\ forall x, x <> lit "cols" -> env_get x e = env_get x (s_env s).
Proof.
  intros T L STO ST TI TX TL CO FA. pose proof T as (F & _). known F. pose proof (tidy_count _ _ ST TI) as CN.
  unfold LibSpec.storable, LibSpec.size in STO.
  set (lt := Nat.ltb (length t) k).
  set (e := if Nat.eqb (length ls) 1 then if lt then env_define (lit "cols") (EInteger (Z.of_nat (length t))) (s_env s) else s_env s else s_env s).
  assert (LN : evaluates H (d + 1) (EGroup (EApply (sym "==") [EGroup (EApply (sym "len") [sym "text-lines"]); EInteger 1])) s
                 (ROk (EBoolean (Nat.eqb (length ls) 1))) s).
  { apply run_group; [lia|]. eapply run_named; [lia | eassumption |].
    eapply run_compare2; [reflexivity | apply run_group; [discriminate|]; eapply run_named; [discriminate | eassumption |]
      | apply run_value; [discriminate | exact I] |].
    - eapply len_of_list; [apply run_name; [discriminate | exact TL]|]. rewrite map_length. unfold str, chr in *. lia.
    - rewrite map_length. cbn. destruct (Nat.eqb_spec (length ls) 1) as [->|N]; [reflexivity|]. apply Z.eqb_neq. lia. }
  exists e. split; [|split; [|split]].
  - unfold if_part. cbn [nth say_body]. eapply run_if; [lia | exact LN |]. cbn [is_truthy]. unfold e.
    destruct (Nat.eqb (length ls) 1).
    + apply run_do_one; [lia|]. eapply (run_if H _ _ _ _ s (EBoolean lt) s); [lia | |].
      * apply run_group; [lia|]. eapply run_named; [lia | eassumption |].
        eapply run_compare2; [reflexivity | apply run_group; [discriminate|]; eapply run_named; [discriminate | eassumption |]
          | apply run_name; [discriminate | exact CO] |].
        -- eapply len_of_text; [apply run_name; [discriminate | exact TX]|]. unfold str, chr in *. lia.
        -- etransitivity; [apply lt_ints|]. unfold lt.
           destruct (Nat.ltb_spec (length t) k); [apply Z.ltb_lt | apply Z.ltb_ge]; unfold str, chr in *; lia.
      * cbn [is_truthy]. destruct lt.
        -- apply run_do_one; [lia|]. apply run_assign; [lia|]. eapply run_named; [lia | eassumption |].
           eapply len_of_text; [apply run_name; [discriminate | exact TX]|]. unfold str, chr in *. lia.
        -- eapply run_end; [apply run_value; [lia | exact I]|]. now destruct s.
    + eapply run_end; [apply run_value; [lia | exact I]|]. now destruct s.
  - unfold e. destruct (Nat.eqb _ _); [destruct lt|]; [apply talking_kept; [cbn; tauto | exact T] | exact T | exact T].
  - destruct ls as [|l [|l2 ls]]; [destruct TI; easy| |exact CO].
    assert (X : t = l) by (destruct (P_Widget.join_stacked _ _ ST) as [-> _]; reflexivity). subst t.
    unfold e. cbn [length Nat.eqb]. unfold lt. destruct (Nat.ltb_spec (length l) k) as [A|A]; [apply found_here|].
    rewrite CO. pose proof (Forall_inv FA). do 3 f_equal. unfold str, chr in *. lia.
  - intros x N. unfold e. destruct (Nat.eqb _ _); [destruct lt|]; [|reflexivity|reflexivity].
    apply found_below; [now apply str_eqb_neq | reflexivity].
Qed.

Lemma room_longest w ls c : ls <> [] -> room w ls c -> exists n, Forall (fun l => length l <= n) ls /\ Exists (fun l => length l = n) ls
  /\ c = Nat.max (match ls with [l] => length l | _ => Nat.max (Nat.div (N.to_nat w) 2) n end) 15.
Proof.
  destruct ls as [|l [|l2 ls]]; intros NE R; [easy| |].
  - cbn in R. subst c. exists (length l). split; [now repeat constructor|]. split; [now left|reflexivity].
  - destruct R as (k & A & B & ->). exists k. auto.
Qed.

Lemma more_assign H d x e y l s v s1 w s' : (d + 2 <= MAX_DEPTH)%N -> evaluates H (d + 1 + 1) e s (ROk v) s1 ->
  evaluates H d (EDo (y :: l)) (with_var x v s1) (ROk w) s' -> evaluates H d (EDo (EAssign x e :: y :: l)) s (ROk w) s'.
Proof. intros L E R. eapply run_do_more; [lia | apply run_assign; [lia | exact E] | exact R]. Qed.

Lemma shrew_run H s : talking (s_env s) ->
  evaluates H 0 (EGroup (EApply (sym "shrew") [ENone])) s (ROk (EString shrew_text)) (with_var (lit "_") ENone s).
Proof.
  intros (_ & W). apply run_group; [discriminate|].
  eapply (run_macro H _ _ (lit "_") (EDo [EString shrew_text])); [discriminate | apply run_name; [discriminate | exact W]
    | apply run_value; [discriminate | exact I] |].
  apply run_do_one; [discriminate|]. apply run_value; [discriminate | exact I].
Qed.

Lemma end_run H d s rows : (d + 30 <= MAX_DEPTH)%N -> talking (s_env s) -> env_get (lit "spacing") (s_env s) = Some (EInteger 25) ->
  evaluates H (d + 1 + 1) (EGroup (EApply (sym "lines") [bubble_part])) s (ROk (EList (map EString rows))) s ->
  exists e, evaluates H d (EDo [ EFor (lit "line") (EGroup (EApply (sym "lines") [bubble_part])) row_body;
    EFor (lit "i") (EApply (sym "to") [EInteger 0; EInteger 2]) stroke_body;
    EApply (sym "echo") [EGroup (EApply (sym "shrew") [ENone])] ]) s (ROk ENone) (with_env e (prints H (spoken rows) s)).
Proof.
  intros L T SP BU. destruct (rows_run H (d + 1 + 1) rows ltac:(lia) s T SP) as (vs & e & IO & T1 & SP1).
  set (bub := flat_map (fun r => [spaces 25 ++ [32%N]; r ++ [10%N]]) rows).
  change (in_order (iteration H (d + 1 + 1) (lit "line") row_body) (map EString rows) s (ROk vs) (with_env e (prints H bub s))) in IO.
  set (s1 := with_env e (prints H bub s)).
  set (s2 := prints H [spaces 25 ++ [32%N]; [9585%N; 10%N]] (with_var (lit "i") (EInteger 0) s1)).
  set (s3 := prints H [spaces 24 ++ [32%N]; [9585%N; 10%N]] (with_var (lit "i") (EInteger 1) s2)).
  assert (E2 : s_env s2 = env_define (lit "i") (EInteger 0) e) by (unfold s2; rewrite prints_env; reflexivity).
  assert (E3 : s_env s3 = env_define (lit "i") (EInteger 1) (s_env s2)) by (unfold s3; rewrite prints_env; reflexivity).
  assert (T2 : talking (s_env s2)) by (rewrite E2; apply talking_kept; [cbn; tauto | exact T1]).
  assert (SP2 : env_get (lit "spacing") (s_env s2) = Some (EInteger 25)) by (rewrite E2; apply found_below; [reflexivity | exact SP1]).
  assert (T3 : talking (s_env s3)) by (rewrite E3; apply talking_kept; [cbn; tauto | exact T2]).
  exists (env_define (lit "_") ENone (s_env s3)). eapply run_end.
  - eapply run_do_more; [lia | eapply run_for; [lia | exact BU | exact IO] |]. fold s1.
    eapply run_do_more; [lia | eapply run_for; [lia | | ] |].
    + pose proof T1 as (F & _). known F. eapply run_named; [lia | eassumption |].
      eapply CalendarRun.run_to_of; apply run_value; first [discriminate | exact I].
    + eapply io_cons; [apply (stroke_run H (d + 1 + 1) (with_var (lit "i") (EInteger 0) s1) 0); [lia | lia | | |] |].
      * apply talking_kept; [cbn; tauto | exact T1].
      * apply found_below; [reflexivity | exact SP1].
      * apply found_here.
      * eapply io_cons; [apply (stroke_run H (d + 1 + 1) (with_var (lit "i") (EInteger 1) s2) 1); [lia | lia | | |] | apply io_nil].
        -- apply talking_kept; [cbn; tauto | exact T2].
        -- apply found_below; [reflexivity | exact SP2].
        -- apply found_here.
    + apply run_do_one; [lia|]. pose proof T3 as (F & _). known F.
      eapply P_Banner.run_echo; [lia | apply run_name; [lia | eassumption] |].
      apply P_Banner.print_one, shrew_run. exact T3.
  - transitivity (told H (RqPrint (shrew_text ++ [10%N])) (with_env (env_define (lit "_") ENone (s_env s3)) s3)); [reflexivity|].
    generalize (env_define (lit "_") ENone (s_env s3)). intros e'. unfold spoken.
    change (flat_map (fun r => [spaces 25 ++ [32%N]; r ++ [10%N]]) rows) with bub.
    rewrite !prints_app. unfold s3, s2, s1, with_var. rewrite !P_Banner.prints_with. generalize (shrew_text ++ [10%N]). reflexivity.
Qed.

Lemma body_run H d s w t ls c : keeps_short H -> plain t -> stacked ls t -> tidy ls -> LibSpec.storable t ->
  terminal H w -> Forall (fun l => length l <= N.to_nat w) ls -> room w ls c ->
  talking (s_env s) -> env_get (lit "text") (s_env s) = Some (EString t) -> (d + 40 <= MAX_DEPTH)%N ->
  exists e box rows, framed (lit "Wild Dune Shrew") ls (c + 2) (length ls + 2) box /\ lines box rows
    /\ length rows = length ls + 2 /\ Forall (fun r => length r = c + 2) rows
    /\ evaluates H d (EDo say_body) s (ROk ENone) (with_env e (prints H (spoken rows) (told H RqSize (told H RqSize s)))).
Proof.
  intros KS PT ST TI STO TE FW R T TX L. pose proof TI as (NE & TD). pose proof TE as (WB & _).
  destruct (room_longest w ls c NE R) as (n & FA & EX & C). pose proof (tidy_count _ _ ST TI) as CN.
  pose proof STO as LT. unfold LibSpec.storable, LibSpec.size in LT.
  assert (NW : n <= N.to_nat w).
  { apply Exists_exists in EX as (l & I & <-). rewrite Forall_forall in FW. now apply FW. }
  assert (CW : c <= Nat.max (N.to_nat w) 15).
  { pose proof (Nat.div_le_upper_bound (N.to_nat w) 2 (N.to_nat w) ltac:(lia) ltac:(lia)).
    destruct ls as [|l [|l2 ls]]; [easy| |]; subst c; [|lia]. pose proof (Forall_inv FW). unfold str, chr in *. lia. }
  set (k := Nat.max (Nat.div (N.to_nat w) 2) n) in *.
  set (s1 := with_var (lit "title") (EString (lit "Wild Dune Shrew")) s).
  assert (T1 : talking (s_env s1)) by (apply talking_kept; [cbn; tauto | exact T]).
  set (s2 := with_var (lit "text") (EString t) s1).
  assert (T2 : talking (s_env s2)) by (apply talking_kept; [cbn; tauto | exact T1]).
  set (s3 := with_var (lit "cols") (EInteger (Z.of_nat k)) (told H RqSize (told H RqSize s2))).
  assert (T3 : talking (s_env s3)) by (apply talking_kept; [cbn; tauto | exact T2]).
  set (s4 := with_var (lit "text") (EString t) s3).
  assert (T4 : talking (s_env s4)) by (apply talking_kept; [cbn; tauto | exact T3]).
  set (s5 := with_var (lit "text-lines") (EList (map EString ls)) s4).
  assert (T5 : talking (s_env s5)) by (apply talking_kept; [cbn; tauto | exact T4]).
  assert (X1 : env_get (lit "text") (s_env s5) = Some (EString t)) by (apply found_below; [reflexivity | apply found_here]).
  assert (X2 : env_get (lit "cols") (s_env s5) = Some (EInteger (Z.of_nat k)))
    by (do 2 (apply found_below; [reflexivity|]); apply found_here).
  assert (X3 : env_get (lit "title") (s_env s5) = Some (EString (lit "Wild Dune Shrew")))
    by (do 4 (apply found_below; [reflexivity|]); apply found_here).
  destruct (fit_run H (d + 1) s5 t ls k T5 ltac:(lia) STO ST TI X1 (found_here _ _ _) X2) as (e6 & E6 & T6 & C6 & K6).
  { eapply Forall_impl; [|exact FA]. cbv beta. intros. unfold k. lia. }
  set (c0 := match ls with [l] => length l | _ => k end) in *.
  set (s6 := with_env e6 s5) in *.
  set (s7 := with_var (lit "cols") (EInteger (Z.of_nat c)) s6).
  assert (T7 : talking (s_env s7)) by (apply talking_kept; [cbn; tauto | exact T6]).
  set (s8 := with_var (lit "rows") (EInteger (Z.of_nat (length ls))) s7).
  assert (T8 : talking (s_env s8)) by (apply talking_kept; [cbn; tauto | exact T7]).
  set (s9 := with_var (lit "spacing") (EInteger 25) s8).
  assert (T9 : talking (s_env s9)) by (apply talking_kept; [cbn; tauto | exact T8]).
  assert (Y0 : forall x v, existsb (str_eqb x) (map lit ["cols"; "rows"; "spacing"]%string) = false ->
            env_get x (s_env s5) = Some v -> env_get x (s_env s9) = Some v).
  { intros x v N G. cbn [existsb map] in N. apply orb_false_iff in N as (N1 & N). apply orb_false_iff in N as (N2 & N).
    apply orb_false_iff in N as (N3 & _). apply found_below; [exact N3|]. apply found_below; [exact N2|].
    apply found_below; [exact N1|]. change (env_get x e6 = Some v). rewrite K6; [exact G|]. now apply str_eqb_neq. }
  pose proof (Y0 (lit "text") _ eq_refl X1) as Y1. pose proof (Y0 (lit "title") _ eq_refl X3) as Y3.
  pose proof (Y0 (lit "text-lines") _ eq_refl (found_here _ _ _)) as Y5.
  assert (FC : Forall (fun l => length l <= c) ls).
  { clear - FA C. apply Forall_forall. intros l I. rewrite Forall_forall in FA. specialize (FA l I).
    destruct ls as [|l1 [|l2 ls]]; [easy| |]; subst c; [destruct I as [->|[]]|]; unfold k, str, chr in *; lia. }
  assert (Y2 : env_get (lit "cols") (s_env s9) = Some (EInteger (Z.of_nat c)))
    by (do 2 (apply found_below; [reflexivity|]); apply found_here).
  assert (Y4 : env_get (lit "rows") (s_env s9) = Some (EInteger (Z.of_nat (length ls))))
    by (apply found_below; [reflexivity | apply found_here]).
  (* the bubble *)
  destruct (bubble H (sym "title") (sym "text") (EGroup (EApply (sym "+") [sym "cols"; EInteger 2]))
      (EGroup (EApply (sym "+") [sym "rows"; EInteger 2])) s9 s9 (Z.of_nat c + 2) s9 s9 (Z.of_nat (length ls) + 2) s9
      (lit "Wild Dune Shrew") t ls) as (box & rows & BX & FR & LR & HR & WR); try assumption.
  { intros x I. right. revert x I. apply Forall_forall. repeat constructor; vm_compute; repeat split; discriminate. }
  { intros I. vm_compute in I. repeat (destruct I as [I|I]; [discriminate|]). destruct I. }
  { lia. }
  { destruct ls; [easy|]. cbn [length]. lia. }
  { change (Z.of_nat (length (lit "Wild Dune Shrew"))) with 15%Z. lia. }
  { eapply Forall_impl; [|exact FC]. cbv beta. intros l A. unfold str, chr in *. lia. }
  { apply run_name; [discriminate | exact Y3]. }
  { pose proof T9 as (F & _). known F. apply run_group; [discriminate|]. eapply run_named; [discriminate | eassumption |].
    eapply run_arith; [reflexivity | apply run_name; [discriminate | exact Y2] | apply run_value; [discriminate | exact I]
      | apply value_int | apply value_int | apply add_ints; run_fits | discriminate]. }
  { apply run_name; [discriminate | exact Y1]. }
  { pose proof T9 as (F & _). known F. apply run_group; [discriminate|]. eapply run_named; [discriminate | eassumption |].
    eapply run_arith; [reflexivity | apply run_name; [discriminate | exact Y4] | apply run_value; [discriminate | exact I]
      | apply value_int | apply value_int | apply add_ints; run_fits | discriminate]. }
  destruct (end_run H d s9 rows ltac:(lia) T9 (found_here _ _ _)) as (e10 & E10).
  { pose proof T9 as (F & _). known F. apply run_group; [lia|]. eapply run_named; [lia | eassumption |].
    refine (proj1 (P_Lines.C67_lines H _ _ box _ rows _ LR)). apply run_group; [discriminate|].
    eapply run_builtin_call; [discriminate | eapply run_member; [discriminate | exact T9 | eassumption | vm_compute; reflexivity] | exact BX]. }
  replace (Z.to_nat (Z.of_nat c + 2)) with (c + 2) in * by lia.
  replace (Z.to_nat (Z.of_nat (length ls) + 2)) with (length ls + 2) in * by lia.
  exists e10, box, rows. split; [exact FR|]. split; [exact LR|]. split; [exact HR|]. split; [exact WR|].
  unfold say_body. eapply run_end.
  - eapply more_assign; [lia | apply run_value; [lia | exact I] |]. fold s1.
    eapply more_assign; [lia | |].
    { pose proof T1 as (F & _). pose proof F as (_ & _ & sm & G1 & G2). known F. apply run_group; [lia|].
      eapply run_builtin_call; [lia | |].
      - eapply (P_Prompt.run_at_names H _ _ _ (lit "string") (lit "to-string") s1 s1 (EMap sm) s1);
          [lia | apply run_name; [lia | eassumption] | apply run_name; [discriminate | exact G1] |].
        cbn [expr_index]. rewrite G2. vm_compute. reflexivity.
      - apply (P_Mode.C114_to_string H (sym "text") s1 (EString t) t s1); [|now apply CmdFacts.shown_display].
        apply run_name; [discriminate|]. apply found_below; [reflexivity | exact TX]. }
    fold s2. eapply more_assign; [lia | |].
    { eapply cols_run; [exact TE | exact T2 | apply found_here | exact STO | exact ST | exact NE | lia | exact FA | exact EX | exact NW]. }
    fold k. fold s3. eapply more_assign; [lia | |].
    { pose proof T3 as (F & _). known F.
      eapply run_builtin_call; [lia | eapply run_member; [lia | exact T3 | eassumption | vm_compute; reflexivity] |].
      apply (CalendarRun.run_exact_call H TWrap [sym "text"; sym "cols"] s3 (EString (h_wrap H t (Z.to_N (Z.of_nat k)))) s3 (EString t)).
      - apply (P_Mode.C114_wrap H (sym "text") (sym "cols") s3 (Z.of_nat k) s3 (EString t) t s3);
          [apply run_name; [discriminate | apply found_here]
          | apply run_name; [discriminate | apply found_below; [reflexivity | apply found_here]]
          | now apply CmdFacts.shown_display |].
        pose proof (Nat.div_le_upper_bound (N.to_nat w) 2 (N.to_nat w) ltac:(lia) ltac:(lia)). lia.
      - f_equal. apply (wrap_tidy H t ls); [exact KS | exact PT | exact ST | exact TI |].
        eapply Forall_impl; [|exact FA]. cbv beta. intros. unfold k, str, chr in *. lia. }
    fold s4. eapply more_assign; [lia | |].
    { pose proof T4 as (F & _). known F. eapply run_named; [lia | eassumption |].
      apply (P_Lines.C67_lines H (sym "text") s4 t s4 ls); [apply run_name; [discriminate | apply found_here]|].
      now apply tidy_lines. }
    fold s5. eapply run_do_more; [lia | exact E6 |].
    eapply (more_assign H d _ _ _ _ s6 (EInteger (Z.of_nat c)) s6); [lia | |].
    { eapply run_exact; [eapply (P_Extreme.C129_integers H (d + 1 + 1) (sym "cols") (EGroup (EApply (sym "len") [sym "title"])) s6 (Z.of_nat c0) s6 15 s6);
        [now apply talking_counting | lia | apply run_name; [lia | exact C6] |] | | reflexivity].
      - pose proof T6 as (F & _). known F. apply run_group; [lia|]. eapply run_named; [lia | eassumption |].
        apply (len_of_text H (sym "title") s6 (lit "Wild Dune Shrew") s6); [|reflexivity].
        apply run_name; [discriminate|]. change (env_get (lit "title") e6 = Some (EString (lit "Wild Dune Shrew"))).
        rewrite K6; [exact X3 | discriminate].
      - f_equal. change (c = Nat.max c0 15) in C. rewrite C. clearbody c0. lia. }
    fold s7. eapply (more_assign H d _ _ _ _ s7 (EInteger (Z.of_nat (length ls))) s7); [lia | |].
    { pose proof T7 as (F & _). known F. eapply run_named; [lia | eassumption |].
      rewrite <- (map_length EString ls). apply (len_of_list H (sym "text-lines") s7 (map EString ls) s7);
        [|rewrite map_length; unfold str, chr in *; lia].
      apply run_name; [discriminate|]. apply found_below; [reflexivity|].
      change (env_get (lit "text-lines") e6 = Some (EList (map EString ls))). rewrite K6; [apply found_here | discriminate]. }
    fold s8. eapply more_assign; [lia | apply run_value; [lia | exact I] |]. fold s9. exact E10.
  - assert (X9 : s9 = with_env (s_env s9) (told H RqSize (told H RqSize s))) by reflexivity.
    rewrite X9, P_Banner.prints_with. generalize (prints H (spoken rows) (told H RqSize (told H RqSize s))). reflexivity.
Qed.

(** ** C134 *)

(** Both scripts define the shrew in the same way. *)
Theorem C134_same : In shrew_definition default_program /\ In shrew_definition intro_program
  /\ In say_definition default_program /\ In say_definition intro_program.
Proof.
  repeat split; [apply (nth_error_In _ 27) | apply (nth_error_In _ 6) | apply (nth_error_In _ 29) | apply (nth_error_In _ 8)];
    vm_compute; reflexivity.
Qed.
Print Assumptions C134_same.

(** A new shell has what the shrew needs. *)
Theorem C134_new m : eloquent (init m).
Proof.
  split; [|split; [now exists m|]].
  - intros x v I. destruct (init_parts m) as (w & a & b & math & ->). cbv zeta.
    rewrite (get_defines (fun kv => lit (fst kv)) snd). unfold define_all.
    rewrite (get_defines fst snd), env_get_define, (get_defines fst snd).
    unfold say_names in I. revert I.
    generalize (define_dirs m), log_module, dict_module, (shell_module m), err_module, (os_module m),
      time_module, rand_module, fn_module, console_module, fmt_module, parse_module, string_module,
      list_module, sys_module, widget_module.
    intros. cbn [In] in I.
    repeat (destruct I as [I | I]; [injection I as <- <-; vm_compute; reflexivity |]).
    contradiction.
  - destruct (init_parts m) as (w & a & b & math & ->). cbv zeta.
    rewrite (get_defines (fun kv => lit (fst kv)) snd). unfold define_all.
    rewrite (get_defines fst snd), env_get_define, (get_defines fst snd).
    generalize (define_dirs m), log_module, dict_module, (shell_module m), err_module, (os_module m),
      time_module, rand_module, fn_module, console_module, fmt_module, parse_module, string_module,
      list_module, sys_module, widget_module.
    intros. eexists. split; vm_compute; reflexivity.
Qed.
Print Assumptions C134_new.

(** What the function finds where it runs. *)
Lemma talking_called e1 v caller : talking e1 ->
  talking (call_env (lit "text") v (capture e1 (lit "text") (EDo say_body) (Env [] None)) caller).
Proof.
  intros ((F & (m & M) & (sm & S1 & S2)) & W). set (e := call_env _ _ _ _).
  assert (K : forall x, str_eqb x (lit "text") = false -> str_eqb x CWD = false ->
            existsb (str_eqb x) (used_symbols (EDo say_body)) = true -> env_get x e = env_get x e1).
  { intros x A B C. unfold e, call_env. apply found_below; [exact A|]. unfold env_set_cwd. apply found_below; [exact B|].
    apply found_outside; [exact B | exact A | reflexivity | exact C | reflexivity]. }
  split; [split; [|split]|].
  - intros x u I. rewrite K; [now apply F | | |]; clear - I; cbn [say_names In] in I;
      (repeat (destruct I as [I|I]; [injection I as <- _; vm_compute; reflexivity|]); destruct I).
  - exists m. rewrite K; [exact M | vm_compute; reflexivity ..].
  - exists sm. rewrite K; [now split | vm_compute; reflexivity ..].
  - cbv beta iota delta [with_shrew shrew_definition] in W |- *. rewrite K; [exact W | vm_compute; reflexivity ..].
Qed.

Lemma say_made H d s : (d + 2 <= MAX_DEPTH)%N ->
  evaluates H d say_definition s (ROk ENone)
    (with_var (lit "shrewsay") (ELambda (lit "text") (EDo say_body) (capture (s_env s) (lit "text") (EDo say_body) (Env [] None))) s).
Proof. intros L. rewrite say_is. apply run_assign; [lia|]. apply run_lambda. lia. Qed.

(** The two definitions make a shell in which the shrew can talk. *)
Theorem C134_defined H s : eloquent (s_env s) ->
  exists s1 s2, evaluates H 0 shrew_definition s (ROk ENone) s1 /\ evaluates H 0 say_definition s1 (ROk ENone) s2
    /\ says_shrew H (s_env s2) /\ s_trace s2 = s_trace s.
Proof.
  intros F.
  assert (X : exists v, shrew_definition = EAssign (lit "shrew") v /\ exists p b, v = EMacro p b)
    by (eexists; split; [reflexivity | now eexists _, _]).
  destruct X as (v & SD & p & b & V).
  set (s1 := with_var (lit "shrew") v s).
  assert (F1 : eloquent (s_env s1)).
  { destruct F as (F & (m & M) & (sm & S1 & S2)). split; [|split].
    - intros x u I. apply found_below; [|now apply F]. clear - I. cbn [say_names In] in I.
      repeat (destruct I as [I|I]; [injection I as <- _; vm_compute; reflexivity|]). destruct I.
    - exists m. apply found_below; [reflexivity | exact M].
    - exists sm. split; [|exact S2]. apply found_below; [reflexivity | exact S1]. }
  eexists s1, _. split; [rewrite SD; apply run_assign; [discriminate | rewrite V; apply run_value; [discriminate | exact I]]|].
  split; [apply say_made; discriminate|]. split; [|reflexivity].
  exists s1. eexists _, _. split; [exact F1|]. split; [|split; [apply say_made; discriminate | reflexivity]].
  unfold with_shrew. rewrite SD. apply found_here.
Qed.
Print Assumptions C134_defined.

Lemma end_state H ts e ce s :
  with_env (s_env s) (with_env e (prints H ts (told H RqSize (told H RqSize (with_env ce s)))))
  = prints H ts (told H RqSize (told H RqSize s)).
Proof.
  change (told H RqSize (told H RqSize (with_env ce s))) with (with_env ce (told H RqSize (told H RqSize s))).
  rewrite P_Banner.prints_with.
  assert (X : s_env s = s_env (prints H ts (told H RqSize (told H RqSize s)))) by (rewrite prints_env; reflexivity).
  rewrite X. generalize (prints H ts (told H RqSize (told H RqSize s))). intros []. reflexivity.
Qed.

(** The shrew says a text: two questions about the size of the terminal, the
    bubble with the lines of the text, two strokes and the picture. *)
Theorem C134_say H d s a t s1 ls w c :
  says_shrew H (s_env s) -> keeps_short H -> terminal H w -> (d + 50 <= MAX_DEPTH)%N ->
  evaluates H (d + 1) a s (ROk (EString t)) s1 ->
  plain t -> LibSpec.storable t -> stacked ls t -> tidy ls -> Forall (fun l => length l <= N.to_nat w) ls -> room w ls c ->
  exists box rows, framed (lit "Wild Dune Shrew") ls (c + 2) (length ls + 2) box /\ lines box rows
    /\ length rows = length ls + 2 /\ Forall (fun r => length r = c + 2) rows
    /\ evaluates H d (EApply (ESymbol (lit "shrewsay")) [a]) s (ROk ENone)
         (prints H (spoken rows) (told H RqSize (told H RqSize s1))).
Proof.
  intros (s0 & v & s0' & F0 & W0 & E0 & G) KS TE L A PT STO ST TI FW R.
  destruct (evaluates_det _ _ _ _ _ _ _ _ E0 (say_made H 0 s0 ltac:(discriminate))) as (_ & X). subst s0'.
  set (cap := capture (s_env s0) (lit "text") (EDo say_body) (Env [] None)) in G.
  assert (G1 : env_get (lit "shrewsay") (s_env s) = Some (ELambda (lit "text") (EDo say_body) cap)).
  { rewrite G. apply found_here. }
  clear G E0.
  set (ce := call_env (lit "text") (EString t) cap (s_env s)).
  assert (T : talking ce) by (apply talking_called; split; assumption).
  destruct (body_run H (d + 1) (with_env ce s1) w t ls c KS PT ST TI STO TE FW R T (found_here _ _ _) ltac:(lia))
    as (e & box & rows & FR & LR & HR & WR & E).
  exists box, rows. split; [exact FR|]. split; [exact LR|]. split; [exact HR|]. split; [exact WR|].
  eapply run_end.
  - eapply run_call; [lia | apply run_symbol; [lia | exact G1] | exact A | exact E].
  - apply end_state.
Qed.
Print Assumptions C134_say.

(** The width of the bubble takes no account of the 26 columns before it: a text
    that fits in the terminal is framed by a bubble that does not. *)
Theorem C134_fits_refuted : exists H s t w rows,
  says_shrew H (s_env s) /\ keeps_short H /\ terminal H w /\ plain t /\ single t /\ (length t < N.to_nat w)
  /\ evaluates H 0 (EApply (ESymbol (lit "shrewsay")) [EString t]) s (ROk ENone)
       (prints H (spoken rows) (told H RqSize (told H RqSize s)))
  /\ rows <> [] /\ Forall (fun r => N.to_nat w < length (spaces 25 ++ [32%N]) + length r) rows.
Proof.
  destruct (C134_defined demo_host demo (C134_new _)) as (s1 & s & _ & _ & SA & _).
  set (t := repeat 97%N 60).
  assert (PT : plain t) by (intros x I; apply repeat_spec in I; subst; right; lia).
  assert (ST : single t) by (intros I; apply repeat_spec in I; discriminate).
  assert (KS : keeps_short demo_host).
  { intros u ls w _ X _. exists ls. split; [exact X|]. clear. induction ls; constructor; [|assumption].
    exists 0. now rewrite app_nil_r. }
  assert (TE : terminal demo_host 80) by (split; [reflexivity|]; intros u; exists 24%N; split; reflexivity).
  destruct (C134_say demo_host 0 s (EString t) t s [t] 80 60 SA KS TE) as (box & rows & _ & _ & HR & WR & E).
  - discriminate.
  - apply run_value; [discriminate | exact I].
  - exact PT.
  - reflexivity.
  - now constructor.
  - split; [discriminate|]. constructor; [|constructor]. exists (repeat 97%N 59), 97%N. split; [reflexivity | discriminate].
  - constructor; [|constructor]. apply Nat.leb_le. reflexivity.
  - reflexivity.
  - exists demo_host, s, t, 80%N, rows. repeat (split; [assumption|]). split; [apply Nat.ltb_lt; reflexivity|].
    split; [exact E|]. split; [intros ->; discriminate HR|].
    eapply Forall_impl; [|exact WR]. cbv beta. intros r X. unfold str, chr in *. rewrite X. apply Nat.ltb_lt. reflexivity.
Qed.
Print Assumptions C134_fits_refuted.

(** Two lines in a terminal of 80 columns: the bubble is 42 wide and has 4 rows. *)
Example C134_case : exists s box rows,
  says_shrew demo_host (s_env s)
  /\ framed (lit "Wild Dune Shrew") [lit "Hello"; lit "world!"] 42 4 box /\ lines box rows
  /\ evaluates demo_host 0 (EApply (ESymbol (lit "shrewsay")) [EString (lit "Hello" ++ [10%N] ++ lit "world!")]) s (ROk ENone)
       (prints demo_host (spoken rows) (told demo_host RqSize (told demo_host RqSize s))).
Proof.
  destruct (C134_defined demo_host demo (C134_new _)) as (s1 & s & _ & _ & SA & _).
  set (ls := [lit "Hello"; lit "world!"]). set (t := lit "Hello" ++ [10%N] ++ lit "world!").
  destruct (C134_say demo_host 0 s (EString t) t s ls 80 40 SA) as (box & rows & FR & LR & _ & _ & E).
  - intros u us w _ X _. exists us. split; [exact X|]. clear. induction us; constructor; [|assumption].
    exists 0. now rewrite app_nil_r.
  - split; [reflexivity|]; intros u; exists 24%N; split; reflexivity.
  - discriminate.
  - apply run_value; [discriminate | exact I].
  - intros x I. vm_compute in I. repeat (destruct I as [<- | I]; [vm_compute; first [now left | right; now split] |]). destruct I.
  - reflexivity.
  - apply (stacked_more (lit "Hello") (lit "world!") [] (lit "world!")); [|constructor];
      intros I; vm_compute in I; repeat (destruct I as [I|I]; [discriminate|]); destruct I.
  - split; [discriminate|]. constructor; [exists (lit "Hell"), 111%N; split; [reflexivity | discriminate]|].
    constructor; [exists (lit "world"), 33%N; split; [reflexivity | discriminate] | constructor].
  - repeat constructor; apply Nat.leb_le; reflexivity.
  - exists 6. split; [repeat constructor; apply Nat.leb_le; reflexivity|]. split; [right; left; reflexivity | reflexivity].
  - exists s, box, rows. split; [exact SA|]. split; [exact FR|]. split; [exact LR | exact E].
Qed.
