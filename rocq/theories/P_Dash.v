(** C132: the dashboard of the start-up script. *)

From Coq Require Import String Lia ZArith List.
From Verif Require Import Base Syntax Host Ops Parser Monad Builtins Eval Init EvalSpec
  OpsSpec EvalFacts LibSpec LibFacts OpsFacts RunFacts MapFacts CoreFacts P_Start
  LinesSpec WidgetSpec CalendarSpec PageSpec Prelude PreludeFacts CalendarDefs GregorianFacts CalendarFacts CalendarRun CalendarPage
  SysSpec PrintSpec ReportSpec BannerSpec P_Banner DashSpec Demo.
From Verif Require P_Widget P_Calendar CmdFacts P_FloatFmt LexFacts ListFacts P_Sys P_Report P_Weather.
Import ListNotations.

(** ** Boxes *)

Lemma join_in c ls : In c (join [10%N] ls) -> c = 10%N \/ exists l, In l ls /\ In c l.
Proof.
  induction ls as [|l ls IH]; [intros []|]. destruct ls as [|m ls].
  - cbn. intros I. right. exists l. auto.
  - rewrite P_Widget.join_cons by discriminate. rewrite !in_app_iff. cbn [In].
    intros [I | [I | I]]; [right; exists l; split; [now left | exact I] | left; now symmetry |].
    destruct (IH I) as [-> | (x & X & Y)]; [now left | right; exists x; split; [now right | exact Y]].
Qed.

Lemma stacked_in c ls t : stacked ls t -> In c t -> c = 10%N \/ exists l, In l ls /\ In c l.
Proof. intros ST I. destruct (P_Widget.join_stacked _ _ ST) as [-> _]. now apply join_in. Qed.

Lemma in_stacked c l ls t : stacked ls t -> In l ls -> In c l -> In c t.
Proof.
  induction 1 as [| x X | x m ls t X ST IH]; [intros [] | intros [-> | []]; auto |].
  rewrite in_app_iff. cbn [In]. intros [-> | I] C; [auto|]. right. right. now apply IH.
Qed.

Lemma trimmed_in c ls ls' l' : trimmed ls ls' -> In l' ls' -> In c l' -> exists l, In l ls /\ In c l.
Proof.
  intros T I C. induction T as [| x x' ls ls' (k & ->) T IH]; [easy|].
  destruct I as [-> | I].
  - eexists. split; [now left|]. rewrite in_app_iff. auto.
  - destruct (IH I) as (l & A & B). exists l. split; [now right | exact B].
Qed.

Lemma repeat_not (c x : N) n : c <> x -> ~ In c (repeat x n).
Proof. intros N I. apply repeat_spec in I. auto. Qed.

Lemma framed_no_return title ls w h t : framed title ls w h t -> ~ In 13%N title ->
  (forall l, In l ls -> ~ In 13%N l) -> ~ In 13%N t.
Proof.
  intros (a & b & rows & A & B & L & R & ST) NT NL I.
  destruct (stacked_in _ _ _ ST I) as [X | (r & RI & C)]; [discriminate|].
  destruct RI as [<- | RI].
  - rewrite !in_app_iff in C. cbn [In] in C.
    pose proof (repeat_not 13%N 9472%N a ltac:(discriminate)). pose proof (repeat_not 13%N 9472%N b ltac:(discriminate)).
    intuition discriminate.
  - apply in_app_iff in RI as [RI | [<- | []]].
    + destruct (In_nth_error _ _ RI) as [k K]. specialize (R _ _ K). destruct (nth_error ls k) as [l|] eqn:E; cbn [row_of] in R.
      * destruct R as (j & -> & _). destruct C as [C | C]; [discriminate|]. apply in_app_iff in C as [C | C].
        -- exact (NL l (nth_error_In _ _ E) C).
        -- now apply repeat_spec in C.
      * subst r. now apply repeat_spec in C.
    + rewrite !in_app_iff in C. cbn [In] in C.
      pose proof (repeat_not 13%N 9472%N (w - 2) ltac:(discriminate)). intuition discriminate.
Qed.

Lemma box H a b c d s s1 w s2 s3 h s4 title text ls :
  keeps_short H -> plain title -> single title -> plain text -> stacked ls text -> ls <> [] ->
  (5 <= w)%Z -> (3 <= h)%Z -> (Z.of_nat (length title) + 2 <= w)%Z ->
  Forall (fun l => (Z.of_nat (length l) + 2 <= w)%Z) ls -> (Z.to_nat (w - 2) * 2 / 3 <= length text)%nat ->
  gives H a s (EString title) s1 -> gives H c s1 (EInteger w) s2 ->
  gives H b s2 (EString text) s3 -> gives H d s3 (EInteger h) s4 ->
  exists t ls', calls H WCreate [a; b; c; d] s (ROk (EString t)) s4
    /\ trimmed ls ls' /\ framed title ls' (Z.to_nat w) (Z.to_nat h) t
    /\ rectangle (Z.to_nat w) (Z.to_nat h) t /\ ~ In 13%N t.
Proof.
  intros KS PT ST PX SX NE W Hh TL F FI A C B D.
  assert (N13 : forall t, plain t -> ~ In 13%N t) by (intros t P I; destruct (P _ I) as [X | X]; [discriminate | lia]).
  destruct (KS text ls (Z.to_N (w - 2)) PX SX) as (ls' & SW & TR).
  { eapply Forall_impl; [|exact F]. cbv beta. intros l X. unfold str, chr in *. lia. }
  assert (NL : forall l, In l ls' -> ~ In 13%N l).
  { intros l I X. destruct (trimmed_in _ _ _ _ TR I X) as (x & I2 & X2). exact (N13 text PX (in_stacked _ _ _ _ SX I2 X2)). }
  destruct (P_Widget.C74_create_partial H a b c d s (EString title) s1 w s2 (EString text) s3 h s4 title text text ls')
    as (t & CT & FR & RE); try assumption.
  - now apply CmdFacts.shown_display.
  - now apply CmdFacts.shown_display.
  - exists 0. rewrite app_nil_r. split; [reflexivity|]. split; [reflexivity|]. intros; lia.
  - replace (filter _ _) with (h_wrap H text (Z.to_N (w - 2))); [exact SW|].
    assert (NW : ~ In 13%N (h_wrap H text (Z.to_N (w - 2)))).
    { intros I. destruct (stacked_in _ _ _ SW I) as [X | (l & I2 & X)]; [discriminate | exact (NL l I2 X)]. }
    revert NW. generalize (h_wrap H text (Z.to_N (w - 2))). intros u NW.
    induction u as [| x u IH]; [reflexivity |]. cbn [filter In] in *.
    destruct (N.eqb_spec x 13); [tauto |]. cbn [negb]. f_equal. tauto.
  - intros ->. inversion TR. now subst.
  - clear - F TR. induction TR as [| l l' ls ls' (k & ->) TR IH]; [constructor |].
    inversion F as [| ? ? X Y]; subst. constructor; [rewrite app_length in X; unfold str, chr in *; lia | now apply IH].
  - exists t, ls'. split; [exact CT|]. split; [exact TR|]. split; [exact FR|]. split; [exact RE|].
    eapply framed_no_return; [exact FR | now apply N13 | exact NL].
Qed.

(** ** The calendar *)

Lemma calendar_plain y m d : (1 <= y)%Z -> (1 <= m <= 12)%Z -> (1 <= d <= 31)%Z -> plain (calendar_text y m d).
Proof.
  intros Y M D.
  assert (AP : forall a b, plain a -> plain b -> plain (a ++ b)).
  { intros a b A B c I. apply in_app_iff in I as [I | I]; auto. }
  assert (DG : forall z, (0 <= z)%Z -> plain (z_str z)).
  { intros z Z0 c I. destruct (P_FloatFmt.z_str_digits z Z0) as (X & _).
    unfold LexFacts.digits in X. rewrite Forall_forall in X. apply X in I. unfold is_digit in I. apply andb_true_iff in I as [I1 I2].
    apply N.leb_le in I1, I2. unfold chr in *. lia. }
  assert (RP : forall k, plain (repeat 32%N k)) by (intros k c I; apply repeat_spec in I; lia).
  assert (LT : forall t, forallb (fun c => (c =? 10)%N || ((32 <=? c)%N && (c <? 127)%N)) t = true -> plain t).
  { intros t T c I. rewrite forallb_forall in T. apply T in I. apply orb_true_iff in I as [I | I].
    - apply N.eqb_eq in I. auto.
    - apply andb_true_iff in I as [I1 I2]. apply N.leb_le in I1. apply N.ltb_lt in I2. unfold chr in *. lia. }
  unfold calendar_text, title_text. repeat apply AP; try apply RP; try (apply DG; lia); try (apply LT; reflexivity).
  - apply LT. apply months in M. repeat destruct M as [-> | M]; try (subst m); reflexivity.
  - intros c I. apply in_flat_map in I as (i & I & X). apply ListFacts.zrange_in in I. rewrite in_app_iff in X.
    pose proof (month_length_range y m _ (month_length_days y m M)) as [_ B].
    pose proof (Z.mod_pos_bound i 10 ltac:(lia)). assert (0 <= i / 10 <= 9)%Z by (split; [apply Z.div_pos; lia | apply Z.div_le_upper_bound; lia]).
    unfold day_text, mark, day_end in X.
    destruct (i <? 10)%Z, (d =? i)%Z, (Z.rem (i + week_number y m 1) 7 =? 0)%Z; cbn [In] in X; unfold chr in *; lia.
Qed.

Lemma first_line a b l ls : ~ In 10%N a -> stacked (l :: ls) (a ++ 10%N :: b) -> l = a.
Proof.
  intros N ST. inversion ST as [| x X E1 E2 | x m ls' t X ST' E1 E2]; subst.
  - exfalso. apply X. rewrite in_app_iff. cbn. auto.
  - clear ST ST'. revert l X E2 N. induction a as [|c a IH]; intros [|c' l] X E N; cbn [app] in E; try reflexivity.
    + injection E as -> _. exfalso. apply X. now left.
    + injection E as <- _. exfalso. apply N. now left.
    + injection E as -> E. f_equal. apply IH; [intros I; apply X; now right | exact E | intros I; apply N; now right].
Qed.

Lemma calendar_lines y m d ls : (1 <= y <= 999999)%Z -> (1 <= m <= 12)%Z -> (1 <= d <= 31)%Z ->
  stacked ls (calendar_text y m d) -> page y m d ls ->
  ls <> [] /\ Forall (fun l => (Z.of_nat (length l) + 2 <= 30)%Z) ls /\ (18 <= length (calendar_text y m d))%nat.
Proof.
  intros Y M D ST (P1 & P2 & _ & _ & P5 & P6).
  destruct ls as [|l0 ls]; [discriminate P2|]. split; [discriminate|].
  assert (DG : forall z, (0 <= z)%Z -> ~ In 10%N (z_str z)).
  { intros z Z0 I. destruct (P_FloatFmt.z_str_digits z Z0) as (X & _).
    unfold LexFacts.digits in X. rewrite Forall_forall in X. apply X in I. discriminate. }
  assert (MN : ~ In 10%N (nth (Z.to_nat (m - 1)) month_names [])).
  { apply months in M. repeat destruct M as [-> | M]; try (subst m); vm_compute; intuition discriminate. }
  set (title := (((nth (Z.to_nat (m - 1)) month_names [] ++ [32%N]) ++ z_str d) ++ [44%N; 32%N]) ++ z_str y).
  assert (TL : (length title <= 20)%nat).
  { unfold title. rewrite !app_length. pose proof (month_name_length m).
    pose proof (P_FloatFmt.z_str_length d 2 ltac:(lia) ltac:(lia)).
    pose proof (P_FloatFmt.z_str_length y 6 ltac:(lia) ltac:(lia)). cbn [length]. lia. }
  assert (TN : ~ In 10%N title).
  { pose proof (DG d ltac:(lia)). pose proof (DG y ltac:(lia)). unfold title. rewrite !in_app_iff. cbn [In]. intuition discriminate. }
  assert (TT : title_text y m d = title ++ [10%N]) by reflexivity.
  set (k := Z.to_nat (Z.quot (28 - Z.of_nat (length (title_text y m d))) 2 + 1)).
  assert (KB : (k + length title <= 28)%nat).
  { unfold k. rewrite TT, app_length. cbn [length]. rewrite Z.quot_div_nonneg by lia.
    pose proof (Z.div_le_upper_bound (28 - Z.of_nat (length title + 1)) 2 (27 - Z.of_nat (length title)) ltac:(lia) ltac:(lia)).
    pose proof (Z.div_pos (28 - Z.of_nat (length title + 1)) 2 ltac:(lia) ltac:(lia)). lia. }
  unfold calendar_text in *. fold k in ST |- *. clearbody k. rewrite TT in *. clearbody title. split.
  - assert (L0 : l0 = repeat 32%N k ++ title).
    { rewrite <- !app_assoc in ST. cbn [app] in ST. rewrite (app_assoc (repeat 32%N k)) in ST.
      eapply first_line; [|exact ST]. rewrite in_app_iff. intros [I | I]; [apply repeat_spec in I; discriminate | auto]. }
    constructor.
    + rewrite L0, app_length, repeat_length. unfold str, chr in *. lia.
    + cbn [tl] in P6. eapply Forall_impl; [|exact P6]. cbv beta. intros l X. unfold str, chr in *. lia.
  - rewrite !app_length. change (length weekdays_text) with 28%nat. lia.
Qed.

(** The calendar as a box. *)
Lemma calendar_box H y m d : keeps_short H -> (1 <= y <= 999999)%Z -> valid (y, m, d) ->
  exists t lines lines', calendar_value H y m d = EString t /\ page y m d lines /\ trimmed lines lines'
    /\ framed (lit "Calendar") lines' 30 10 t /\ rectangle 30 10 t /\ ~ In 13%N t.
Proof.
  intros KS Y V. destruct V as (k & K & D). pose proof (month_length_range _ _ _ K) as [M B].
  destruct (calendar_page y m d ltac:(lia) M ltac:(lia)) as (lines & ST & PG).
  destruct (calendar_lines y m d lines Y M ltac:(lia) ST PG) as (NE & F & L).
  destruct (box H (EString (lit "Calendar")) (EString (calendar_text y m d)) (EInteger 30) (EInteger 10)
    demo demo 30 demo demo 10 demo (lit "Calendar") (calendar_text y m d) lines) as (t & lines' & C & TR & FR & RE & N);
    try assumption; try lia.
  - intros c I. vm_compute in I. intuition (subst; lia).
  - vm_compute. intuition discriminate.
  - apply calendar_plain; lia.
  - cbn. lia.
  - apply run_value; [discriminate | exact I].
  - apply run_value; [discriminate | exact I].
  - apply run_value; [discriminate | exact I].
  - apply run_value; [discriminate | exact I].
  - exists t, lines, lines'. split; [|split; [exact PG|]; split; [exact TR|]; split; [exact FR|]; split; [exact RE | exact N]].
    assert (C2 : calls H WCreate [EString (lit "Calendar"); EString (calendar_text y m d); EInteger 30; EInteger 10] demo
                  (ROk (calendar_value H y m d)) demo).
    { eapply run_exact_call.
      + eapply run_create_of; [run | run | run | run | lia | lia | cbn; lia].
      + unfold calendar_value. rewrite (proj2 (Nat.sub_0_le _ _)); [now rewrite app_nil_r | exact L]. }
    destruct (calls_det _ _ _ _ _ _ _ _ C C2) as [E _]. unfold calendar_value in *. congruence.
Qed.

(** ** The parts of the program *)

Definition at_ (a b : string) : expr := EApply (ESymbol (lit "@")) [ESymbol (lit a); ESymbol (lit b)].

Definition calendar_part : expr :=
  EGroup (EApply (ESymbol (lit "make-calendar")) [at_ "now" "month"; at_ "now" "day"; at_ "now" "year"]).
Definition cat_part : expr :=
  EGroup (EApply (at_ "widget" "create")
    [EString (lit "Cat"); EGroup (EApply (at_ "rand" "choose") [ESymbol (lit "CATS")]); EInteger 20; EInteger 10]).
Definition weather_part : expr := Eval vm_compute in
  match dash_definition with EAssign _ (EMacro _ (EDo [_; _; _; EIf _ a _])) => a | _ => ENone end.
Definition dash_body : list expr :=
  [ EAssign (lit "now") (EApply (at_ "time" "now") [ENone]);
    EApply (ESymbol (lit "welcomebanner")) [ENone];
    EAssign (lit "default-widgets") (EGroup (EApply (at_ "widget" "joinx") [calendar_part; cat_part]));
    EIf (EGroup (EApply (ESymbol (lit "!=")) [ESymbol (lit "WEATHER-API-KEY"); ENone])) weather_part
      (EGroup (EDo [EApply (ESymbol (lit "echo")) [ESymbol (lit "default-widgets")]])) ].

Lemma dash_is : dash_definition = EAssign (lit "dashboard") (EMacro (lit "_") (EDo dash_body)).
Proof. vm_compute. reflexivity. Qed.

Lemma run_choose_of H a s l s1 : gives H a s (EList l) s1 -> l <> [] ->
  exists x, In x l /\ calls H RChoose [a] s (ROk x) (told H (RqRandom 0 (Z.of_nat (length l))) s1).
Proof.
  intros A N. unfold gives in *.
  set (z := match h_answer H (s_trace s1) (RqRandom 0 (Z.of_nat (length l))) with
            | RsInt z => if ((0 <=? z) && (z <? Z.of_nat (length l)))%Z then z else 0%Z | _ => 0%Z end).
  assert (ZB : (0 <= z < Z.of_nat (length l))%Z).
  { assert (0 < length l)%nat by (destruct l; [easy | cbn; lia]).
    unfold z. destruct (h_answer H (s_trace s1) _); try lia. destruct ((0 <=? z0) && (z0 <? Z.of_nat (length l)))%Z eqn:E; lia. }
  destruct (nth_error l (Z.to_nat z)) as [x|] eqn:X; [|apply nth_error_None in X; lia].
  exists x. split; [exact (nth_error_In _ _ X)|]. call. unfold run_choose, exact1. repeat sure_step.
  destruct l as [| y l]; [easy |]. 
  eapply sure_bind_const; [reflexivity|]. fold z. rewrite X. apply sure_ret.
Qed.

Lemma cats_fit c : In c cats ->
  exists ls, stacked ls c /\ ls <> [] /\ plain c /\ (12 <= length c)%nat
    /\ Forall (fun l => (Z.of_nat (length l) + 2 <= 20)%Z) ls.
Proof.
  intros I. exists (P_Weather.broken c). split; [apply P_Weather.broken_stacked|].
  assert (T : forallb (fun c => (12 <=? length c)%nat && forallb (fun x => (x =? 10)%N || ((32 <=? x)%N && (x <? 127)%N)) c
     && forallb (fun l => (length l <=? 18)%nat) (P_Weather.broken c)) cats = true) by (vm_compute; reflexivity).
  rewrite forallb_forall in T. specialize (T _ I). apply andb_true_iff in T as [T T3]. apply andb_true_iff in T as [T1 T2].
  apply Nat.leb_le in T1. split; [|split; [|split; [exact T1|]]].
  - intros E. pose proof (P_Weather.broken_stacked c) as S1. rewrite E in S1. inversion S1. subst. cbn in T1. lia.
  - intros x X. rewrite forallb_forall in T2. apply T2 in X. apply orb_true_iff in X as [X | X].
    + apply N.eqb_eq in X. auto.
    + apply andb_true_iff in X as [I1 I2]. apply N.leb_le in I1. apply N.ltb_lt in I2. unfold chr in *. lia.
  - apply Forall_forall. intros l L. rewrite forallb_forall in T3. apply T3, Nat.leb_le in L. unfold str, chr in *. lia.
Qed.

(** ** C132 *)

Ltac known S ::=
  let A := fresh in
  pose proof (festive_all _ S) as A;
  lazy beta iota zeta delta [fold_right banner_names fst snd] in A;
  repeat match type of A with _ /\ _ => let B := fresh "KNOWN" in destruct A as [B A] end; clear A.

Lemma no_returns l : ~ In 13%N l -> filter (fun c => negb (c =? 13)%N) l = l.
Proof.
  induction l as [| x l IH]; [reflexivity |]. cbn [filter In]. intros N.
  destruct (N.eqb_spec x 13); [tauto |]. cbn [negb]. f_equal. tauto.
Qed.

Lemma widgets_run H s y m dd h time date :
  keeps_short H -> (1 <= y <= 999999)%Z -> valid (y, m, dd) ->
  festive (s_env s) -> prepared H (s_env s) ->
  env_get (lit "now") (s_env s) = Some (moment y m dd h time date) ->
  env_get (lit "CATS") (s_env s) = Some (EList (map EString cats)) ->
  env_get (lit "widget") (s_env s) = Some (EMap widget_module) ->
  env_get (lit "rand") (s_env s) = Some (EMap rand_module) ->
  exists cat rows, In cat cats /\ dash_rows y m dd cat rows
    /\ calls H WJoinx [calendar_part; cat_part] s (ROk (EString (with_feeds rows))) (told H (RqRandom 0 6) s).
Proof.
  intros KS Y V F P NW CS WM RM.
  assert (AT : forall d e a b v r, (d + 1 <= MAX_DEPTH)%N -> festive (s_env e) -> env_get (lit a) (s_env e) = Some v ->
     expr_index v (ESymbol (lit b)) = r -> evaluates H d (at_ a b) e (ROk r) e).
  { clear. intros d e a b v r L F A R. known F. unfold at_.
    eapply run_builtin_call; [lia | apply run_symbol; [lia | eassumption] |].
    eapply run_at_name; [exact I | apply run_symbol; [discriminate | exact A] | exact R]. }
  destruct (calendar_box H y m dd KS Y V) as (t1 & days & days' & CV & PG & TD & FD & RD & ND).
  set (s1 := told H (RqRandom 0 6) s).
  assert (E1 : evaluates H 0 calendar_part s (ROk (EString t1)) s).
  { destruct (P_Calendar.prepared_parts _ _ P) as (_ & _ & _ & (e1 & S1 & G1)).
    destruct V as (k & K & D). pose proof (month_length_range _ _ _ K) as [M B].
    unfold calendar_part. apply run_group; [discriminate|]. rewrite <- CV.
    eapply calendar_run; [exact S1 | lia | exact M | lia | discriminate | | | |].
    - eapply run_symbol; [discriminate | exact G1].
    - eapply AT; [discriminate | exact F | exact NW | reflexivity].
    - eapply AT; [discriminate | exact F | exact NW | reflexivity].
    - eapply AT; [discriminate | exact F | exact NW | reflexivity]. }
  destruct (run_choose_of H (ESymbol (lit "CATS")) s (map EString cats) s) as (x & IX & CH).
  { apply run_symbol; [discriminate | exact CS]. } { discriminate. }
  apply in_map_iff in IX as (cat & <- & IC).
  change (Z.of_nat (length (map EString cats))) with 6%Z in CH. fold s1 in CH.
  destruct (cats_fit cat IC) as (pic & SP & NP & PC & LC & FC).
  destruct (box H (EString (lit "Cat")) (EGroup (EApply (at_ "rand" "choose") [ESymbol (lit "CATS")])) (EInteger 20) (EInteger 10)
    s s 20 s s1 10 s1 (lit "Cat") cat pic) as (t2 & pic' & C2 & TP & FP & RP & N2); try assumption; try lia.
  - intros c I. vm_compute in I. intuition (subst; lia).
  - vm_compute. intuition discriminate.
  - cbn. lia.
  - apply run_value; [discriminate | exact I].
  - apply run_value; [discriminate | exact I].
  - apply run_group; [discriminate|]. eapply run_builtin_call; [discriminate | eapply AT; [discriminate | exact F | exact RM | reflexivity] | exact CH].
  - apply run_value; [discriminate | exact I].
  - assert (E2 : evaluates H 0 cat_part s (ROk (EString t2)) s1).
    { unfold cat_part. apply run_group; [discriminate|].
      eapply run_builtin_call; [discriminate | eapply AT; [discriminate | exact F | exact WM | reflexivity] | exact C2]. }
    destruct (P_Widget.rectangle_lines 30 10 t1 ltac:(lia) RD ND) as (l1 & L1 & N1 & F1).
    destruct (P_Widget.rectangle_lines 20 10 t2 ltac:(lia) RP N2) as (l2 & L2 & M2 & F2).
    destruct (P_Widget.C75_joinx H [calendar_part; cat_part] s [t1; t2] s1 [l1; l2] 10) as (rows & [NR BS] & C).
    + econstructor; [exact E1 |]. econstructor; [exact E2 |]. constructor.
    + cbn. lia.
    + repeat constructor; assumption.
    + repeat constructor; assumption.
    + exists cat, rows. split; [exact IC|]. split; [|exact C].
      exists days, days', t1, l1, pic, pic', t2, l2.
      repeat (split; [first [assumption | eapply Forall_impl; [|eassumption]; cbv beta; tauto]|]).
      intros k KL. destruct (nth_error rows k) as [r|] eqn:ER; [|apply nth_error_None in ER; lia].
      destruct (BS k r ER) as (parts & FF & ->).
      inversion FF as [| ? ? ? ? (a & A1 & A2) FF2]; subst. inversion FF2 as [| ? ? ? ? (b & B1 & B2) FF3]; subst. inversion FF3; subst.
      rewrite Forall_forall in F1, F2.
      destruct (F1 _ (nth_error_In _ _ A1)) as [_ X1]. destruct (F2 _ (nth_error_In _ _ B1)) as [_ X2].
      exists a, b. split; [exact A1|]. split; [exact B1|]. cbn [concat]. now rewrite !no_returns, app_nil_r by assumption.
Qed.

Lemma furnished_kept H e e' :
  furnished H e -> (forall x, x <> lit "_" -> x <> lit "logo" -> x <> lit "now" -> env_get x e' = env_get x e) ->
  furnished H e'.
Proof.
  intros (A1 & A2 & A3 & A4 & A5 & A6 & A7 & A8 & A9 & A10) K.
  split; [|split; [|split; [|repeat split]]].
  - intros x v I. rewrite K; [now apply A1 | | |]; intros ->; revert I; vm_compute; intuition discriminate.
  - unfold has_banner in *. cbn. rewrite K; [exact A2 | | |]; discriminate.
  - destruct A3 as (s & v & s1 & S1 & E & G). exists s, v, s1. split; [exact S1|]. split; [exact E|].
    intros x I. rewrite K; [now apply G | | |]; intros ->; revert I; vm_compute; intuition discriminate.
  - unfold as_defined in *. cbn. rewrite K; [exact A4 | | |]; discriminate.
  - unfold as_defined in *. cbn. rewrite K; [exact A5 | | |]; discriminate.
  - rewrite K; [exact A6 | | |]; discriminate.
  - rewrite K; [exact A7 | | |]; discriminate.
  - rewrite K; [exact A8 | | |]; discriminate.
  - rewrite K; [exact A9 | | |]; discriminate.
  - rewrite K; [exact A10 | | |]; discriminate.
Qed.

Lemma final_state H x v a b ts rq (e2 e3 : env) s :
  told H a (with_var x v (told H b (with_env e3 (prints H ts (told H rq (with_env e2 s))))))
  = with_env (env_define x v e3) (told H a (told H b (prints H ts (told H rq s)))).
Proof.
  rewrite (told_env H rq e2 s), prints_with. reflexivity.
Qed.

Lemma dash_core H d e0 tr lg y m dd h0 time0 date0 ts e3 :
  furnished H e0 -> keeps_short H -> (d + 100 <= MAX_DEPTH)%N ->
  h_answer H tr RqNow = RsTime y m dd h0 time0 date0 ->
  (1 <= y <= 999999)%Z -> valid (y, m, dd) -> fits h0 ->
  let e2 := env_define (lit "now") (moment y m dd h0 time0 date0) (env_define (lit "_") ENone e0) in
  let s2 := with_env e2 (told H RqNow (St e0 tr lg)) in
  (furnished H e2 -> evaluates H (d + 1 + 1) (EApply (ESymbol (lit "welcomebanner")) [ENone]) s2 (ROk ENone)
     (with_env e3 (prints H ts (told H RqNow s2)))) ->
  (forall x, x <> lit "_" -> x <> lit "logo" -> env_get x e3 = env_get x e2) ->
  exists cat rows e, In cat cats /\ dash_rows y m dd cat rows
    /\ evaluates H d (EApply (ESymbol (lit "dashboard")) [ENone]) (St e0 tr lg) (ROk ENone)
         (with_env e (told H (RqPrint (with_feeds rows ++ [10%N])) (told H (RqRandom 0 6)
            (prints H ts (told H RqNow (told H RqNow (St e0 tr lg)))))))
    /\ forall x, ~ In x (map lit ["_"; "now"; "logo"; "default-widgets"]%string) -> env_get x e = env_get x e0.
Proof.
  intros FU KS L A1 Y V H0 e2 s2 E2 K3.
  assert (FY : fits y /\ fits m /\ fits dd).
  { destruct V as (k & K & D). pose proof (month_length_range _ _ _ K) as [M B]. unfold fits. lia. }
  destruct FY as (FY & FM & FD).
  set (e1 := env_define (lit "_") ENone e0) in *.
  assert (K1 : forall x, x <> lit "_" -> env_get x e1 = env_get x e0) by (intros x N; apply found_below; [now apply str_eqb_neq | reflexivity]).
  assert (K2 : forall x, x <> lit "_" -> x <> lit "now" -> env_get x e2 = env_get x e0).
  { intros x N N2. apply found_below; [now apply str_eqb_neq | now apply K1]. }
  assert (F1 : furnished H e1) by (eapply furnished_kept; [exact FU | intros; now apply K1]).
  assert (F2 : furnished H e2) by (eapply furnished_kept; [exact FU | intros; now apply K2]).
  assert (N2 : env_get (lit "now") e2 = Some (moment y m dd h0 time0 date0)) by apply found_here.
  assert (E1 : evaluates H (d + 1 + 1) (nth 0 dash_body ENone) (St e1 tr lg) (ROk ENone) s2).
  { unfold dash_body. cbn [nth]. destruct F1 as [F1 _]. known F1.
    eapply run_exact; [eapply run_assign; [lia|];
      eapply (run_now_of H _ _ _ _ (St e1 tr lg)); [lia | | exact A1 | exact FY | exact FM | exact FD | exact H0] | reflexivity | reflexivity].
    unfold at_. eapply run_builtin_call; [lia | apply run_symbol; [lia | eassumption] |].
    eapply run_at_name; [exact I | apply run_symbol; [discriminate | eassumption] | reflexivity]. }
  specialize (E2 F2).
  set (s3 := with_env e3 (prints H ts (told H RqNow s2))) in *.
  assert (F3 : furnished H e3) by (eapply furnished_kept; [exact F2 | intros; now apply K3]).
  assert (N3 : env_get (lit "now") e3 = Some (moment y m dd h0 time0 date0)) by (rewrite K3; [exact N2 | discriminate | discriminate]).
  pose proof F3 as (B1 & _ & B3 & _ & _ & B6 & B7 & B8 & B9 & B10).
  assert (S3 : s_env s3 = e3) by reflexivity.
  destruct (widgets_run H s3 y m dd h0 time0 date0 KS Y V) as (cat & rows & IC & DR & CJ); rewrite ?S3; try assumption.
  exists cat, rows, (env_define (lit "default-widgets") (EString (with_feeds rows)) e3).
  split; [exact IC|]. split; [exact DR|]. split.
  - set (text := with_feeds rows) in *. clearbody text.
    eapply run_end.
    + eapply (run_macro H _ _ (lit "_") (EDo dash_body) _ (St e0 tr lg) (St e0 tr lg) ENone (St e0 tr lg));
        [lia | apply run_symbol; [lia|] | apply run_value; [lia | exact I] |].
      { destruct FU as (_ & _ & _ & _ & D & _). rewrite dash_is in D. exact D. }
      change (with_var _ _ _) with (St e1 tr lg).
      change dash_body with [nth 0 dash_body ENone; nth 1 dash_body ENone; nth 2 dash_body ENone; nth 3 dash_body ENone].
      eapply run_do_more; [lia | exact E1 |]. eapply run_do_more; [lia | exact E2 |].
      fold s3. clearbody s3.
      eapply run_do_more; [lia | apply (run_assign H _ _ _ s3 (EString text) (told H (RqRandom 0 6) s3)); [lia|] |].
      { known B1. apply run_group; [lia|]. apply (run_builtin_call H _ _ (Bi WJoinx (lit "joinx")) _ s3 s3); [lia | | exact CJ].
        unfold at_. eapply run_builtin_call; [lia | apply run_symbol; [lia | rewrite S3; eassumption] |].
        eapply run_at_name; [exact I | apply run_symbol; [discriminate | rewrite S3; exact B9] | reflexivity]. }
      set (s4 := with_var _ _ _).
      assert (S4 : s_env s4 = env_define (lit "default-widgets") (EString text) e3) by (unfold s4; cbn; now rewrite S3).
      eapply run_do_one; [lia|]. eapply (run_if H _ _ _ _ s4 (EBoolean false) s4); [lia | |].
      { apply run_group; [lia|]. eapply run_builtin_call; [lia | apply run_symbol; [lia | rewrite S4; apply found_below; [reflexivity | exact B8]] |].
        eapply run_compare2; [reflexivity | apply run_symbol; [discriminate | rewrite S4; apply found_below; [reflexivity | exact B7]]
          | apply run_value; [discriminate | exact I] | reflexivity]. }
      cbn [is_truthy]. apply run_group; [lia|]. eapply run_do_one; [lia|].
      eapply run_echo; [lia | apply run_symbol; [lia|] | apply print_one; apply run_symbol; [discriminate | rewrite S4; apply found_here]].
      rewrite S4. apply found_below; [reflexivity|]. apply B1. do 5 right. now left.
    + exact (final_state H (lit "default-widgets") (EString text) (RqPrint (text ++ [10%N])) (RqRandom 0 6)
               ts RqNow e2 e3 (told H RqNow (St e0 tr lg))).
  - intros x N. assert (NX : forall k, In k ["_"; "now"; "logo"; "default-widgets"]%string -> x <> lit k).
    { intros k I ->. apply N. now apply in_map. }
    rewrite env_get_define, (proj2 (str_eqb_neq _ _) (NX "default-widgets"%string ltac:(now right; right; right; left))).
    assert (X1 := NX "_"%string ltac:(now left)). assert (X2 := NX "now"%string ltac:(now right; left)).
    assert (X3 := NX "logo"%string ltac:(now right; right; left)).
    rewrite (K3 x X1 X3). exact (K2 x X1 X2).
Qed.

Theorem C132_dashboard H d s y m dd h0 time0 date0 y1 m1 dd1 h time date pic :
  furnished H (s_env s) -> keeps_short H -> (d + 100 <= MAX_DEPTH)%N ->
  h_answer H (s_trace s) RqNow = RsTime y m dd h0 time0 date0 ->
  (1 <= y <= 999999)%Z -> valid (y, m, dd) -> fits h0 ->
  h_answer H (s_trace (told H RqNow s)) RqNow = RsTime y1 m1 dd1 h time date ->
  fits y1 -> fits m1 -> fits dd1 -> fits h -> sky h pic ->
  exists cat rows e, In cat cats /\ dash_rows y m dd cat rows
    /\ evaluates H d (EApply (ESymbol (lit "dashboard")) [ENone]) s (ROk ENone)
         (with_env e (told H (RqPrint (with_feeds rows ++ [10%N])) (told H (RqRandom 0 6)
            (prints H (banner_texts pic time date) (told H RqNow (told H RqNow s))))))
    /\ forall x, ~ In x (map lit ["_"; "now"; "logo"; "default-widgets"]%string) -> env_get x e = env_get x (s_env s).
Proof.
  intros FU KS L A1 Y V H0 A2 Y1 M1 D1 HH SK. destruct s as [e0 tr lg]. cbn [s_env] in *.
  set (e1 := env_define (lit "_") ENone e0). set (e2 := env_define (lit "now") (moment y m dd h0 time0 date0) e1).
  assert (F2 : furnished H e2).
  { eapply furnished_kept; [exact FU|]. intros x N1 N2 N3. unfold e2, e1. do 2 (apply found_below; [now apply str_eqb_neq|]). reflexivity. }
  destruct (C130_banner H (d + 1 + 1) (with_env e2 (told H RqNow (St e0 tr lg))) y1 m1 dd1 h time date pic) as (e3 & E2 & _ & K3);
    [apply F2 | apply F2 | lia | exact A2 | exact Y1 | exact M1 | exact D1 | exact HH | exact SK |].
  revert E2. generalize (banner_texts pic time date). intros ts E2.
  exact (dash_core H d e0 tr lg y m dd h0 time0 date0 ts e3 FU KS L A1 Y V H0 (fun _ => E2) K3).
Qed.
Print Assumptions C132_dashboard.
