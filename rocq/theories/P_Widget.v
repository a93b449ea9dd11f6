(** C74 and C75: widgets. *)

From Coq Require Import String List Lia.
From Verif Require Import Base Syntax Host Ops ErrorFmt Text Monad Builtins Eval EvalSpec CmdFacts
  LibFacts LibSpec EvalFacts P_ErrLine LinesSpec P_Lines TextSpec TrimFacts WidgetSpec Demo.
Import ListNotations.
Local Open Scope nat_scope.

Lemma stacked_join rows : Forall single rows -> stacked rows (join NL rows).
Proof.
  induction 1 as [| r rows S F IH]; [constructor |].
  destruct rows as [| r' rows]; [now constructor |].
  change (stacked (r :: r' :: rows) (r ++ [10%N] ++ join NL (r' :: rows))).
  now constructor.
Qed.

Lemma join_stacked ls t : stacked ls t -> t = join NL ls /\ Forall single ls.
Proof.
  induction 1 as [| l S | l m ls t S K [IH F]]; [now split | now split; repeat constructor |].
  split; [| now constructor]. subst t. reflexivity.
Qed.

Lemma join_cons l ls : ls <> [] -> join NL (l :: ls) = l ++ 10%N :: join NL ls.
Proof. destruct ls; [congruence | reflexivity]. Qed.

Lemma join_app a b : a <> [] -> b <> [] -> join NL (a ++ b) = join NL a ++ 10%N :: join NL b.
Proof.
  intros A B. induction a as [| x a IH]; [congruence |]. destruct a as [| y a].
  - cbn [List.app]. now rewrite join_cons.
  - change ((x :: y :: a) ++ b) with (x :: (y :: a) ++ b).
    rewrite !(join_cons x) by discriminate. rewrite IH by discriminate. now rewrite <- app_assoc.
Qed.

(** The number of lines of a text. *)
Lemma count_lines rows : Forall single rows -> Forall (fun r => r <> []) rows ->
  length (str_lines (join NL rows)) = length rows.
Proof.
  intros S. induction S as [| r rows S F IH]; intros N; [reflexivity |].
  inversion N as [| ? ? Nr Ns]; subst. destruct rows as [| r' rows].
  - cbn [join]. unfold str_lines. rewrite split_nl_one by exact S. now destruct r.
  - rewrite join_cons by discriminate. unfold str_lines.
    rewrite split_nl_feed, (split_nl_one r S). cbn [List.app].
    rewrite lines_of_cons by apply split_nl_some. cbn [length]. f_equal. apply IH. exact Ns.
Qed.

Section Rows.
  Variables w h : nat.
  Hypothesis W : 5 <= w.
  Hypothesis Hh : 3 <= h.

  Definition row (l : str) : str := 32%N :: l ++ repeat 32%N (w - 1 - length l).

  Lemma row_length l : length l + 2 <= w -> length (row l) = w.
  Proof. clear W Hh. intros L. unfold row. cbn [length]. rewrite app_length, repeat_length. lia. Qed.

  Lemma row_single l : single l -> single (row l).
  Proof.
    unfold single, row. intros S [X | X]; [discriminate |]. apply in_app_or in X.
    destruct X as [X | X]; [now apply S |]. apply repeat_spec in X. discriminate.
  Qed.

  (** The characters of one line. *)
  Lemma rows_line l r m : single l -> m <> h - 1 -> forall i, 1 <= i -> i + length l <= w - 1 ->
    widget_rows w h i m (l ++ r)
    = (l ++ fst (widget_rows w h (i + length l) m r), snd (widget_rows w h (i + length l) m r)).
  Proof.
    intros S M. induction l as [| c l IH]; intros i I L.
    - cbn [List.app length]. rewrite Nat.add_0_r. now destruct (widget_rows w h i m r).
    - cbn [length] in L. cbn [List.app widget_rows].
      destruct (Nat.eqb_spec i 0); [lia |].
      destruct (N.eqb_spec c 10) as [-> | C]; [exfalso; apply S; now left |].
      cbv zeta. destruct (Nat.eqb_spec m (h - 1)); [congruence |].
      destruct (Nat.leb_spec (w - 1) i); [lia |].
      rewrite IH; [| intros X; apply S; now right | lia | lia].
      cbn [length]. rewrite Nat.add_succ_r. reflexivity.
  Qed.

  (** A line from its beginning. *)
  Lemma rows_start l r m : single l -> m <> h - 1 -> l <> [] -> length l + 2 <= w ->
    widget_rows w h 0 m (l ++ r)
    = (32%N :: l ++ fst (widget_rows w h (1 + length l) m r), snd (widget_rows w h (1 + length l) m r)).
  Proof.
    intros S M N L. destruct l as [| c l]; [congruence |].
    transitivity (32%N :: fst (widget_rows w h 1 m ((c :: l) ++ r)), snd (widget_rows w h 1 m ((c :: l) ++ r))).
    - cbn [List.app widget_rows]. cbn [Nat.eqb].
      destruct (N.eqb_spec c 10) as [-> | C]; [exfalso; apply S; now left |].
      cbv zeta. destruct (Nat.eqb_spec m (h - 1)); [congruence |].
      destruct (Nat.leb_spec (w - 1) 1); [lia |].
      now destruct (widget_rows w h 2 m (l ++ r)).
    - rewrite rows_line; auto with arith. cbn [length] in *. lia.
  Qed.

  (** The end of a line. *)
  Lemma rows_feed i m r : 1 <= i <= w -> m <> h - 1 ->
    widget_rows w h i m (10%N :: r)
    = if Nat.eqb (S m) (h - 1) then (repeat 32%N (w - i), w)
      else (repeat 32%N (w - i) ++ 10%N :: fst (widget_rows w h 0 (S m) r),
            snd (widget_rows w h 0 (S m) r)).
  Proof.
    intros I M. cbn [widget_rows]. destruct (Nat.eqb_spec i 0); [lia |]. cbn [N.eqb Pos.eqb]. cbv zeta.
    destruct (Nat.eqb_spec (S m) (h - 1)); [reflexivity |].
    destruct (Nat.leb_spec (w - 1) w); [| lia]. now destruct (widget_rows w h 0 (S m) r).
  Qed.
  Lemma rows_feed_start m r : m <> h - 1 ->
    widget_rows w h 0 m (10%N :: r)
    = if Nat.eqb (S m) (h - 1) then (row [], w)
      else (row [] ++ 10%N :: fst (widget_rows w h 0 (S m) r), snd (widget_rows w h 0 (S m) r)).
  Proof.
    intros M. unfold row. cbn [List.app length]. rewrite Nat.sub_0_r.
    cbn [widget_rows]. change (0 =? 0) with true. change (10 =? 10)%N with true. cbv zeta iota.
    destruct (Nat.eqb_spec (S m) (h - 1)); [reflexivity |].
    destruct (Nat.leb_spec (w - 1) w); [| lia]. now destruct (widget_rows w h 0 (S m) r).
  Qed.

  Lemma rows_all ls : forall l m, 1 <= m -> m + 2 <= h ->
    Forall single (l :: ls) -> Forall (fun l => length l + 2 <= w) (l :: ls) ->
    fst (widget_rows w h 0 m (join NL (l :: ls)))
    ++ repeat 32%N (w - snd (widget_rows w h 0 m (join NL (l :: ls))))
    = join NL (map row (firstn (h - 1 - m) (l :: ls))).
  Proof.
    induction ls as [| l' ls IH]; intros l m M1 M2 SS L;
      inversion SS as [| ? ? S1 S2]; subst; inversion L as [| ? ? L1 L2]; subst.
    - destruct (h - 1 - m) as [| k] eqn:K; [lia |].
      assert (F : firstn (S k) [l] = [l]) by (now destruct k). rewrite F. clear F.
      cbn [map join]. destruct l as [| c l].
      + cbn [widget_rows fst snd List.app]. unfold row. cbn [List.app length].
        replace (w - 0) with (S (w - 1 - 0)) by lia. reflexivity.
      + rewrite <- (app_nil_r (c :: l)) at 1 2. rewrite rows_start; [| exact S1 | lia | discriminate | exact L1].
        cbn [widget_rows fst snd]. rewrite app_nil_r. unfold row. cbn [List.app]. do 2 f_equal.
        replace (w - 1 - length (c :: l)) with (w - (1 + length (c :: l))) by lia. reflexivity.
    - rewrite join_cons by discriminate.
      assert (E : widget_rows w h 0 m (l ++ 10%N :: join NL (l' :: ls))
                  = if Nat.eqb (S m) (h - 1) then (row l, w)
                    else (row l ++ 10%N :: fst (widget_rows w h 0 (S m) (join NL (l' :: ls))),
                          snd (widget_rows w h 0 (S m) (join NL (l' :: ls))))).
      { destruct l as [| c l]; [apply rows_feed_start; lia |].
        rewrite rows_start; [| exact S1 | lia | discriminate | exact L1].
        rewrite rows_feed by lia. unfold row.
        replace (w - 1 - length (c :: l)) with (w - (1 + length (c :: l))) by lia.
        destruct (Nat.eqb (S m) (h - 1)); cbn [fst snd]; [reflexivity |].
        f_equal. cbn [List.app]. now rewrite <- app_assoc. }
      rewrite E. clear E. destruct (Nat.eqb_spec (S m) (h - 1)) as [E | E].
      + replace (h - 1 - m) with 1 by lia. cbn [firstn map join fst snd].
        rewrite Nat.sub_diag. apply app_nil_r.
      + cbn [fst snd]. rewrite <- app_assoc. cbn [List.app]. rewrite IH; [| lia | lia | exact S2 | exact L2].
        replace (h - 1 - m) with (S (h - 1 - S m)) by lia. cbn [firstn map].
        rewrite join_cons; [reflexivity |]. destruct (h - 1 - S m) eqn:K; [lia | discriminate].
  Qed.
End Rows.

Lemma join_flat l k r : l <> [] ->
  join NL l ++ flat_map (fun _ : nat => 10%N :: r) (seq 0 k) = join NL (l ++ repeat r k).
Proof.
  intros N. assert (G : forall j, flat_map (fun _ : nat => 10%N :: r) (seq j k)
                       = match repeat r k with [] => [] | _ => 10%N :: join NL (repeat r k) end).
  { induction k as [| k IH]; intros j; [reflexivity |]. cbn [seq flat_map repeat]. rewrite IH.
    destruct k; [cbn; now rewrite app_nil_r |]. cbn [repeat]. now rewrite (join_cons r (r :: _)). }
  rewrite G. destruct k as [| k]; [cbn [repeat]; now rewrite !app_nil_r |].
  rewrite join_app by (auto; discriminate). reflexivity.
Qed.

Lemma half free : S free / 2 * 2 = free \/ S free / 2 * 2 = S free.
Proof.
  pose proof (Nat.div_mod (S free) 2 ltac:(lia)). pose proof (Nat.mod_upper_bound (S free) 2 ltac:(lia)). lia.
Qed.

Lemma widget_framed title ls text w h :
  5 <= w -> 3 <= h -> length title + 2 <= w -> single title ->
  stacked ls (filter (fun c => negb (c =? 13)%N) text) -> ls <> [] -> Forall (fun l => length l + 2 <= w) ls ->
  framed title ls w h (widget title text (w - 2) h).
Proof.
  intros W Hh T TT K N F. apply join_stacked in K. destruct K as [E F1].
  unfold widget. cbv zeta. fold (no_cr text).
  set (b := S (w - 2 - length title) / 2).
  set (a := if Nat.ltb (w - 2) (b * 2 + length title) then b - 1 else b).
  assert (A : a + length title + b + 2 = w /\ (b = a \/ b = S a)).
  { unfold a. pose proof (half (w - 2 - length title)) as X. fold b in X.
    destruct (Nat.ltb_spec (w - 2) (b * 2 + length title)); lia. }
  destruct A as [A1 A2].
  set (top := [9484%N] ++ repeat 9472%N a ++ title ++ repeat 9472%N b ++ [9488%N]).
  assert (TL : length top = w).
  { unfold top. rewrite !app_length, !repeat_length. cbn [length]. lia. }
  assert (TS : single top).
  { unfold top, single. rewrite !in_app_iff. intros [[X | []] | [X | [X | [X | [X | []]]]]]; try discriminate;
      try (apply repeat_spec in X; discriminate). now apply TT. }
  replace ([9484%N] ++ repeat 9472%N a ++ title ++ repeat 9472%N b ++ [9488%N] ++ NL) with (top ++ NL).
  2: { unfold top. now rewrite <- !app_assoc. }
  replace (length (top ++ NL) - 1) with w by (rewrite app_length; cbn [length NL]; lia).
  destruct ls as [| l0 ls0]; [congruence |]. set (ls := l0 :: ls0) in *.
  pose proof (rows_all w h W Hh ls0 l0 1 ltac:(lia) ltac:(lia) F1 F) as R. fold ls in R.
  change (no_cr text) with (filter (fun c => negb (c =? 13)%N) text). rewrite E. 
  destruct (widget_rows w h 0 1 (join NL ls)) as [x i]. cbn [fst snd] in R.
  rewrite <- !app_assoc, (app_assoc x), R. clear R x i.
  set (body := map (row w) (firstn (h - 1 - 1) ls)).
  assert (BN : body <> []) by (unfold body, ls; destruct (h - 1 - 1) eqn:Q; [lia | discriminate]).
  match goal with |- context [str_lines ?x] =>
    replace (str_lines x) with (str_lines (join NL (top :: body))) by (now rewrite join_cons) end.
  assert (BS : Forall single body).
  { unfold body. apply Forall_map, Forall_forall. intros l I. apply row_single.
    eapply Forall_forall in F1; [exact F1 |]. rewrite <- (firstn_skipn (h - 1 - 1) ls). apply in_or_app. now left. }
  assert (BL : Forall (fun r => length r = w) body).
  { unfold body. apply Forall_map, Forall_forall. intros l I. apply row_length.
    eapply Forall_forall in F; [exact F |]. rewrite <- (firstn_skipn (h - 1 - 1) ls). apply in_or_app. now left. }
  rewrite count_lines; [| now constructor | constructor; [intros X; rewrite X in TL; cbn in TL; lia |]].
  2: { eapply Forall_impl; [| exact BL]. intros r Z ->. cbn in Z. lia. }
  set (k := h - 1 - length (top :: body)).
  set (bottom := [9492%N] ++ repeat 9472%N a ++ repeat 9472%N (length title) ++ repeat 9472%N b ++ [9496%N]).
  assert (BB : bottom = [9492%N] ++ repeat 9472%N (w - 2) ++ [9496%N]).
  { unfold bottom. replace (w - 2) with (a + (length title + b)) by lia. now rewrite !repeat_app, <- !app_assoc. }
  change (flat_map (fun _ : nat => NL ++ repeat 32%N w) (seq 0 k))
    with (flat_map (fun _ : nat => 10%N :: repeat 32%N w) (seq 0 k)).
  match goal with |- framed _ _ _ _ ?t =>
    replace t with ((join NL (top :: body) ++ flat_map (fun _ : nat => 10%N :: repeat 32%N w) (seq 0 k)) ++ NL ++ bottom) end.
  2: { rewrite join_cons by exact BN. now rewrite <- !app_assoc. }
  rewrite join_flat by discriminate.
  change (NL ++ bottom) with (10%N :: join NL [bottom]). rewrite <- join_app by discriminate.
  exists a, b, (body ++ repeat (repeat 32%N w) k). split; [exact A1 |]. split; [exact A2 |].
  assert (BN2 : length body <= h - 2).
  { unfold body. rewrite map_length, firstn_length. lia. }
  split.
  { rewrite app_length, repeat_length. unfold k. cbn [length]. clear - BN2 Hh. unfold str, chr in *. lia. }
  split.
  - intros j r J. destruct (Nat.lt_ge_cases j (length body)) as [B | B].
    + rewrite nth_error_app1 in J by exact B. unfold body in J, B. rewrite nth_error_map in J.
      rewrite map_length, firstn_length in B.
      destruct (nth_error (firstn (h - 1 - 1) ls) j) as [l |] eqn:Q; [| discriminate]. injection J as <-.
      replace (nth_error ls j) with (Some l).
      * cbn [row_of]. exists (w - 1 - length l). split; [reflexivity |]. apply row_length.
        apply nth_error_In in Q. eapply Forall_forall in F; [exact F |].
        rewrite <- (firstn_skipn (h - 1 - 1) ls). apply in_or_app. now left.
      * rewrite <- Q. rewrite <- (firstn_skipn (h - 1 - 1) ls) at 2. rewrite nth_error_app1; [reflexivity |].
        rewrite firstn_length. lia.
    + rewrite nth_error_app2 in J by exact B. pose proof J as I. apply nth_error_In in I.
      apply repeat_spec in I. subst r. replace (nth_error ls j) with (@None str); [reflexivity |].
      symmetry. apply nth_error_None. assert (X : j - length body < k).
      { rewrite <- (repeat_length (repeat 32%N w) k). apply nth_error_Some. intros Y. unfold str, chr in *. congruence. }
      unfold k in X. cbn [length] in X. unfold body in X, B.
      clear - X B. unfold str, chr in *. rewrite !map_length, !firstn_length in X, B. lia.
  - fold top. rewrite <- BB. change (top :: (body ++ repeat (repeat 32%N w) k) ++ [bottom])
      with (((top :: body) ++ repeat (repeat 32%N w) k) ++ [bottom]).
    apply stacked_join. repeat (apply Forall_app; split); [now constructor | |].
    + apply Forall_forall. intros r I. apply repeat_spec in I. subst r. intros I. apply repeat_spec in I. discriminate.
    + constructor; [| constructor]. rewrite BB. unfold single. rewrite !in_app_iff.
      intros [[X | []] | [X | [X | []]]]; try discriminate. apply repeat_spec in X. discriminate.
Qed.

(** ** C74: a widget is a rectangle *)

Lemma framed_rectangle title ls w h t : single title -> framed title ls w h t -> rectangle w h t.
Proof.
  intros T (a & b & rows & A & B & L & R & S). eexists. split; [exact S |]. split.
  - cbn [length]. rewrite app_length. cbn [length]. lia.
  - constructor; [| apply Forall_app; split].
    + rewrite !app_length, !repeat_length. cbn [length]. lia.
    + apply Forall_forall. intros r I. apply In_nth_error in I. destruct I as [k K].
      specialize (R k r K). unfold row_of in R. destruct (nth_error ls k).
      * destruct R as (n & _ & E). exact E.
      * subst r. apply repeat_length.
    + constructor; [| constructor]. rewrite !app_length, repeat_length. cbn [length]. lia.
Qed.

(** Title, width, text and height are evaluated in this order.  The text is
    filled up with spaces, broken into lines by the library and framed. *)
Theorem C74_create_partial H a b c d s vt s1 w s2 vx s3 h s4 title text p ls :
  gives H a s vt s1 -> gives H c s1 (EInteger w) s2 ->
  gives H b s2 vx s3 -> gives H d s3 (EInteger h) s4 ->
  shown H vt title -> shown H vx text ->
  (5 <= w)%Z -> (3 <= h)%Z -> (Z.of_nat (length title) + 2 <= w)%Z -> single title ->
  filled text (Z.to_nat (w - 2) * 2 / 3) p ->
  stacked ls (filter (fun c => negb (c =? 13)%N) (h_wrap H p (Z.to_N (w - 2)))) -> ls <> [] ->
  Forall (fun l => (Z.of_nat (length l) + 2 <= w)%Z) ls ->
  exists t, calls H WCreate [a; b; c; d] s (ROk (EString t)) s4
            /\ framed title ls (Z.to_nat w) (Z.to_nat h) t
            /\ rectangle (Z.to_nat w) (Z.to_nat h) t.
Proof.
  intros A C B D ST SX W Hh T TT P K N F. unfold gives in *.
  apply (proj1 (shown_display _ _ _)) in ST. apply (proj1 (shown_display _ _ _)) in SX. subst title text.
  assert (E : p = display H vx ++ repeat 32%N (Z.to_nat (w - 2) * 2 / 3 - length (display H vx))).
  { destruct P as (k & -> & P1 & P2). rewrite app_length, repeat_length in P2. do 2 f_equal.
    destruct (Nat.le_gt_cases (Z.to_nat (w - 2) * 2 / 3) (length (display H vx))).
    - rewrite P1 by assumption. lia.
    - specialize (P2 ltac:(lia)). lia. }
  assert (Fr : framed (display H vt) ls (Z.to_nat w) (Z.to_nat h)
                 (widget (display H vt) (h_wrap H p (Z.to_N (w - 2))) (Z.to_nat (w - 2)) (Z.to_nat h))).
  { replace (Z.to_nat (w - 2)) with (Z.to_nat w - 2) by lia. apply widget_framed; auto; try lia.
    eapply Forall_impl; [| exact F]. cbv beta. intros l L. lia. }
  eexists. split; [| split; [exact Fr | now apply (framed_rectangle (display H vt) ls)]].
  call. unfold run_create. sure_step. sure_step. sure_step.
  rewrite (proj2 (Z.ltb_lt 4 w)) by lia. cbv zeta. sure_step. rewrite <- E. sure_step.
  rewrite (proj2 (Z.leb_le 3 h)) by lia.
  destruct (Nat.ltb_spec (Z.to_nat (w - 2)) (length (display H vt))); [lia |].
  apply sure_ret.
Qed.

(** Too small a width is refused before the text is evaluated, too small a
    height or no room for the title after everything is. *)
Theorem C74_refused H a b c d s vt s1 w s2 vx s3 h s4 title :
  gives H a s vt s1 -> gives H c s1 (EInteger w) s2 -> shown H vt title ->
  ((w <= 4)%Z -> exists m, calls H WCreate [a; b; c; d] s (RErr (CustomError m)) s2)
  /\ (gives H b s2 vx s3 -> gives H d s3 (EInteger h) s4 ->
      (4 < w)%Z -> (h <= 2 \/ w < Z.of_nat (length title) + 2)%Z ->
      exists m, calls H WCreate [a; b; c; d] s (RErr (CustomError m)) s4).
Proof.
  intros A C ST. unfold gives in *. apply (proj1 (shown_display _ _ _)) in ST. subst title. split.
  - intros W. eexists. call. unfold run_create. sure_step. sure_step. sure_step.
    rewrite (proj2 (Z.ltb_ge 4 w)) by lia. apply sure_throw.
  - intros B D W X. destruct (Z.leb_spec 3 h) as [Hh | Hh].
    + eexists. call. unfold run_create. sure_step. sure_step. sure_step.
      rewrite (proj2 (Z.ltb_lt 4 w)) by lia. cbv zeta. sure_step. sure_step.
      rewrite (proj2 (Z.leb_le 3 h)) by lia.
      destruct (Nat.ltb_spec (Z.to_nat (w - 2)) (length (display H vt))); [apply sure_throw | lia].
    + eexists. call. unfold run_create. sure_step. sure_step. sure_step.
      rewrite (proj2 (Z.ltb_lt 4 w)) by lia. cbv zeta. sure_step. sure_step.
      rewrite (proj2 (Z.leb_gt 3 h)) by lia. apply sure_throw.
Qed.

Lemma stacked_feeds rows t : stacked rows t -> rows <> [] -> S (count_occ N.eq_dec t 10%N) = length rows.
Proof.
  induction 1 as [| l L | l m ls t L K IH]; intros N; [congruence | |].
  - cbn [length]. f_equal. now apply count_occ_not_In.
  - rewrite count_occ_app. cbn [count_occ]. destruct (N.eq_dec 10 10) as [_ | X]; [| congruence].
    pose proof (proj1 (count_occ_not_In N.eq_dec l 10%N) L) as X. unfold str, chr in *. rewrite X. cbn [length Nat.add]. f_equal.
    apply IH. discriminate.
Qed.

(** A line feed in the title breaks the border. *)
Theorem C74_create_refuted :
  exists H title text w h s t,
    calls H WCreate [EString title; EString text; EInteger w; EInteger h] s (ROk (EString t)) s
    /\ (5 <= w)%Z /\ (3 <= h)%Z /\ (Z.of_nat (length title) + 2 <= w)%Z
    /\ ~ rectangle (Z.to_nat w) (Z.to_nat h) t.
Proof.
  exists demo_host, [97%N; 10%N; 98%N], (lit "text"), 10%Z, 3%Z, demo.
  exists (widget [97%N; 10%N; 98%N] (lit "text ") 8 3). split; [compute_outcome 5%nat |].
  repeat (split; [now vm_compute |]). intros (rows & S & L & _).
  apply stacked_feeds in S; [| intros ->; discriminate]. rewrite L in S. vm_compute in S. discriminate.
Qed.

Example C74_example :
  value_of "widget@create ""ab"" ""some text"" 14 5"
  = ROk (EString (join NL
      [ [9484%N] ++ repeat 9472%N 5 ++ lit "ab" ++ repeat 9472%N 5 ++ [9488%N];
        lit " some text    "; repeat 32%N 14; repeat 32%N 14;
        [9492%N] ++ repeat 9472%N 12 ++ [9496%N] ])).
Proof. vm_compute. reflexivity. Qed.

(** ** C75: widgets side by side and above each other *)

Lemma sure_joinx H args : forall ts s s' i h,
  evaluates_all H 0 args s (ROk (map EString ts)) s' ->
  Forall (fun t => length (str_lines t) = h) ts ->
  sure (fun n => joinx_args H (eval H n 0) i (Some h) args) s (ROk (map str_lines ts)) s'.
Proof.
  induction args as [| a args IH]; intros ts s s' i h E F; inversion E; subst; cbn [joinx_args];
    try match goal with X : fails _ (ROk _) |- _ => inversion X end.
  - destruct ts; [apply sure_ret | discriminate].
  - destruct ts as [| t ts]; [discriminate |]. cbn [map] in *.
    match goal with X : _ :: _ = _ :: _ |- _ => injection X as -> -> end.
    inversion F; subst.
    eapply sure_bind; [now apply sure_ev; eassumption |]. cbv beta iota zeta. rewrite Nat.eqb_refl.
    eapply (sure_bind _ _ _ (fun n rest => ret (str_lines t :: rest))); [eapply IH; eassumption |]. apply sure_ret.
Qed.

Lemma lines_beside n blocks :
  Forall (fun b : list str => length b = n) blocks ->
  beside n blocks (map (fun k => flat_map (fun ls => no_cr (nth k ls [])) blocks) (seq 0 n)).
Proof.
  intros F. split; [now rewrite map_length, seq_length |]. intros k r E. rewrite nth_error_map in E.
  destruct (nth_error (seq 0 n) k) as [j |] eqn:J; [| discriminate]. injection E as <-.
  assert (B : k < n). { rewrite <- (seq_length n 0). apply nth_error_Some. congruence. }
  apply nth_error_nth with (d := 0) in J. rewrite seq_nth in J by exact B. cbn [Nat.add] in J. subst j.
  exists (map (fun ls => no_cr (nth k ls [])) blocks). split; [| apply flat_map_concat_map].
  induction F as [| b bs L F IH]; cbn [map]; constructor; [| exact IH].
  exists (nth k b []). split; [| reflexivity]. apply nth_error_nth'. lia.
Qed.

(** The lines of the arguments, one row after the other. *)
Theorem C75_joinx H args s ts s' blocks n :
  evaluates_all H 0 args s (ROk (map EString ts)) s' -> 2 <= length args ->
  Forall2 lines ts blocks -> Forall (fun b => length b = n) blocks ->
  exists rows, beside n blocks rows /\ calls H WJoinx args s (ROk (EString (with_feeds rows))) s'.
Proof.
  intros E L B F. exists (map (fun k => flat_map (fun ls => no_cr (nth k ls [])) blocks) (seq 0 n)).
  split; [now apply lines_beside |].
  assert (M : map str_lines ts = blocks).
  { clear - B. induction B as [| t b ts bs X B IH]; [reflexivity |]. cbn [map]. rewrite IH. f_equal.
    now apply lines_str_lines. }
  call. unfold run_joinx, check_two_or_more. destruct args as [| a [| a' args]]; cbn [length] in L; try lia.
  eapply sure_bind_const; [reflexivity |].
  eapply (sure_bind _ _ (fun n => joinx_args H (eval H n 0) 0 None (a :: a' :: args)) (fun n l => ret (EString (joinx_lines l))) s blocks s').
  - inversion E as [| ? ? s1 ? ? ? ? E1 E2 | |]; subst;
      try match goal with X : fails _ (ROk _) |- _ => inversion X end.
    destruct ts as [| t ts]; [discriminate |]. cbn [map] in *.
    match goal with X : _ :: _ = _ :: _ |- _ => injection X as -> -> end.
    inversion F as [| ? ? F1 F2]; subst.
    cbn [joinx_args]. eapply sure_bind; [now apply sure_ev; eassumption |]. cbv beta iota zeta. rewrite Nat.eqb_refl.
    eapply (sure_bind _ _ _ (fun n rest => ret (str_lines t :: rest))); [| apply sure_ret].
    apply (sure_joinx H (a' :: args)); [exact E2 |]. apply Forall_map in F2. exact F2.
  - unfold joinx_lines. destruct blocks as [| b0 bs]; [inversion B; subst; inversion E; subst; try discriminate;
      match goal with X : fails _ (ROk _) |- _ => inversion X end |].
    cbn [hd]. inversion F; subst. unfold with_feeds, unlines. rewrite flat_map_concat_map. apply sure_ret.
Qed.

(** Rectangles of the same height, side by side: the widths add up.  Each row of
    the result ends with a line feed. *)
Lemma rectangle_lines w h t : 0 < w -> rectangle w h t -> ~ In 13%N t ->
  exists rows, lines t rows /\ length rows = h /\ Forall (fun r => length r = w /\ ~ In 13%N r) rows.
Proof.
  intros W (rows & S & L & F) C. exists rows. split; [| split; [exact L |]].
  - clear L. induction S as [| l S | l m ls t S K IH].
    + constructor.
    + constructor; [| exact S]. inversion F; subst. intros ->. cbn in *. lia.
    + inversion F; subst. constructor; [exact S | | apply IH].
      * constructor. intros x ->. apply C. rewrite !in_app_iff. left. right. now left.
      * assumption.
      * intros X. apply C. apply in_or_app. right. now right.
  - assert (G : forall r, In r rows -> incl r t).
    { clear - S. induction S as [| l S | l m ls t S K IH]; intros r I; [destruct I | |].
      - destruct I as [<- | []]. apply incl_refl.
      - destruct I as [<- | I]; [apply incl_appl, incl_refl |]. apply incl_appr. apply incl_tl. now apply IH. }
    apply Forall_forall. intros r I. split; [eapply Forall_forall in F; eassumption |].
    intros X. apply C. exact (G r I 13%N X).
Qed.

Lemma no_cr_same r : ~ In 13%N r -> filter (fun c => negb (c =? 13)%N) r = r.
Proof.
  induction r as [| c r IH]; intros N; [reflexivity |]. cbn [filter].
  destruct (N.eqb_spec c 13) as [-> | _]; [exfalso; apply N; now left |]. cbn [negb]. f_equal.
  apply IH. intros X. apply N. now right.
Qed.

Theorem C75_joinx_rectangles H a b s t1 s1 t2 s2 w1 w2 h :
  gives H a s (EString t1) s1 -> gives H b s1 (EString t2) s2 ->
  0 < w1 -> 0 < w2 -> rectangle w1 h t1 -> rectangle w2 h t2 -> ~ In 13%N t1 -> ~ In 13%N t2 ->
  exists rows, calls H WJoinx [a; b] s (ROk (EString (with_feeds rows))) s2
               /\ length rows = h /\ Forall (fun r => length r = w1 + w2) rows.
Proof.
  intros A B W1 W2 R1 R2 C1 C2.
  destruct (rectangle_lines _ _ _ W1 R1 C1) as (l1 & L1 & N1 & F1).
  destruct (rectangle_lines _ _ _ W2 R2 C2) as (l2 & L2 & N2 & F2).
  destruct (C75_joinx H [a; b] s [t1; t2] s2 [l1; l2] h) as (rows & [N X] & C).
  - econstructor; [exact A |]. econstructor; [exact B |]. constructor.
  - cbn. lia.
  - repeat constructor; assumption.
  - repeat constructor; assumption.
  - exists rows. split; [exact C |]. split; [exact N |]. apply Forall_forall. intros r I.
    apply In_nth_error in I. destruct I as [k K]. destruct (X k r K) as (parts & P & ->).
    inversion P as [| ? p1 ? ps (x1 & X1 & ->) P2]; subst. inversion P2 as [| ? p2 ? ? (x2 & X2 & ->) P3]; subst.
    inversion P3; subst. cbn [concat]. rewrite app_nil_r, app_length.
    apply nth_error_In in X1, X2. rewrite Forall_forall in F1, F2.
    destruct (F1 _ X1) as [E1 D1]. destruct (F2 _ X2) as [E2 D2]. rewrite !no_cr_same by assumption. lia.
Qed.

(** Different heights are refused. *)
Theorem C75_joinx_heights H a b s t1 s1 t2 s2 l1 l2 rest :
  gives H a s (EString t1) s1 -> gives H b s1 (EString t2) s2 ->
  lines t1 l1 -> lines t2 l2 -> length l1 <> length l2 ->
  exists m, calls H WJoinx (a :: b :: rest) s (RErr (CustomError m)) s2.
Proof.
  intros A B L1 L2 D. unfold gives in *. apply lines_str_lines in L1, L2. subst l1 l2. eexists. call.
  unfold run_joinx, check_two_or_more. eapply sure_bind_const; [reflexivity |].
  eapply (sure_bind_fails _ _ (fun n => joinx_args H (eval H n 0) 0 None (a :: b :: rest))); [| constructor].
  cbn [joinx_args]. eapply sure_bind; [now apply sure_ev; eassumption |]. cbv beta iota zeta. rewrite Nat.eqb_refl.
  eapply (sure_bind_fails _ _ _ (fun n rest => ret (str_lines t1 :: rest))); [| constructor].
  eapply sure_bind; [now apply sure_ev; eassumption |]. cbv beta iota zeta.
  destruct (Nat.eqb_spec (length (str_lines t1)) (length (str_lines t2))); [congruence |]. apply sure_throw.
Qed.

Lemma piled_join l : piled l (join NL l).
Proof. induction l as [| x [| y l] IH]; constructor. exact IH. Qed.

Lemma sure_joiny H args : forall ts s s' i w,
  evaluates_all H 0 args s (ROk (map EString ts)) s' ->
  Forall (fun t => exists l ls, str_lines (trim t) = l :: ls /\ length l = w) ts ->
  sure (fun n => joiny_args H (eval H n 0) i (Some w) args) s (ROk (map trim ts)) s'.
Proof.
  induction args as [| a args IH]; intros ts s s' i w E F; inversion E; subst; cbn [joiny_args];
    try match goal with X : fails _ (ROk _) |- _ => inversion X end.
  - destruct ts; [apply sure_ret | discriminate].
  - destruct ts as [| t ts]; [discriminate |]. cbn [map] in *.
    match goal with X : _ :: _ = _ :: _ |- _ => injection X as -> -> end.
    inversion F as [| ? ? (l & ls & X & Y) F2]; subst.
    eapply sure_bind; [now apply sure_ev; eassumption |]. cbv beta iota zeta. rewrite X, Nat.eqb_refl.
    eapply (sure_bind _ _ _ (fun n rest => ret (trim t :: rest))); [eapply IH; eassumption |]. apply sure_ret.
Qed.

(** The arguments without the spaces and empty lines at their ends, above each
    other, when their first lines have the same length. *)
Theorem C75_joiny_partial H args s ts s' us w :
  evaluates_all H 0 args s (ROk (map EString ts)) s' -> 2 <= length args ->
  Forall2 trimmed ts us -> Forall (fun u => exists l ls, lines u (l :: ls) /\ length l = w) us ->
  exists t, piled (map (filter (fun c => negb (c =? 13)%N)) us) t
            /\ calls H WJoiny args s (ROk (EString t)) s'.
Proof.
  intros E L T F.
  assert (M : map trim ts = us).
  { clear - T. induction T as [| t u ts us X T IH]; [reflexivity |]. cbn [map]. rewrite IH. f_equal.
    now apply trimmed_trim. }
  exists (join NL (map no_cr us)). split; [apply piled_join |].
  assert (G : Forall (fun t => exists l ls, str_lines (trim t) = l :: ls /\ length l = w) ts).
  { subst us. rewrite Forall_map in F. eapply Forall_impl; [| exact F]. intros t (l & ls & X & Y).
    exists l, ls. split; [now apply lines_str_lines | exact Y]. }
  call. unfold run_joiny, check_two_or_more. destruct args as [| a [| a' args]]; cbn [length] in L; try lia.
  eapply sure_bind_const; [reflexivity |].
  eapply (sure_bind _ _ (fun n => joiny_args H (eval H n 0) 0 None (a :: a' :: args))
            (fun n l => ret (EString (join NL (map no_cr l)))) s us s'); [| apply sure_ret].
  inversion E as [| ? ? s1 ? ? ? ? E1 E2 | |]; subst;
    try match goal with X : fails _ (ROk _) |- _ => inversion X end.
  destruct ts as [| t ts]; [discriminate |]. cbn [map] in *.
  match goal with X : _ :: _ = _ :: _ |- _ => injection X as -> -> end.
  inversion G as [| ? ? (l & ls & X & Y) G2]; subst.
  cbn [joiny_args]. eapply sure_bind; [now apply sure_ev; eassumption |]. cbv beta iota zeta.
  rewrite X, Nat.eqb_refl. eapply (sure_bind _ _ _ (fun n rest => ret (trim t :: rest))); [| apply sure_ret].
  apply (sure_joiny H (a' :: args)); [exact E2 | exact G2].
Qed.

Lemma stacked_app rows1 t1 rows2 t2 : rows1 <> [] -> rows2 <> [] ->
  stacked rows1 t1 -> stacked rows2 t2 -> stacked (rows1 ++ rows2) (t1 ++ 10%N :: t2).
Proof.
  intros N1 N2 S1 S2. apply join_stacked in S1, S2. destruct S1 as [-> F1], S2 as [-> F2].
  rewrite <- join_app by assumption. apply stacked_join. now apply Forall_app.
Qed.

(** Rectangles of the same width without spaces at their ends: the heights add up. *)
Theorem C75_joiny_rectangles_partial H a b s t1 s1 t2 s2 w h1 h2 :
  gives H a s (EString t1) s1 -> gives H b s1 (EString t2) s2 ->
  0 < w -> 0 < h1 -> 0 < h2 -> rectangle w h1 t1 -> rectangle w h2 t2 -> ~ In 13%N t1 -> ~ In 13%N t2 ->
  trimmed t1 t1 -> trimmed t2 t2 ->
  exists t, calls H WJoiny [a; b] s (ROk (EString t)) s2 /\ rectangle w (h1 + h2) t.
Proof.
  intros A B W N1 N2 R1 R2 C1 C2 T1 T2.
  assert (X : forall t h, 0 < h -> rectangle w h t -> ~ In 13%N t -> exists l ls, lines t (l :: ls) /\ length l = w).
  { intros t h N R C. destruct (rectangle_lines _ _ _ W R C) as (rows & L & E & F).
    destruct rows as [| l ls]; [cbn in E; lia |]. exists l, ls. inversion F; subst. intuition. }
  destruct (C75_joiny_partial H [a; b] s [t1; t2] s2 [t1; t2] w) as (t & P & C).
  - econstructor; [exact A |]. econstructor; [exact B |]. constructor.
  - cbn. lia.
  - repeat constructor; assumption.
  - constructor; [now apply (X t1 h1) |]. constructor; [now apply (X t2 h2) | constructor].
  - exists t. split; [exact C |]. cbn [map] in P. rewrite !no_cr_same in P by assumption.
    inversion P as [| | ? ? ? ? P2]; subst. inversion P2; subst.
    destruct R1 as (r1 & S1 & L1 & F1). destruct R2 as (r2 & S2 & L2 & F2).
    exists (r1 ++ r2). split; [apply stacked_app; auto; intros ->; cbn in *; lia |].
    split; [rewrite app_length; lia | now apply Forall_app].
Qed.

(** A text of spaces crashes the shell. *)
Theorem C75_joiny_blank H a b rest s t1 s1 :
  gives H a s (EString t1) s1 -> Forall space t1 ->
  calls H WJoiny (a :: b :: rest) s (RPanic PUnwrap) s1.
Proof.
  intros A F. unfold gives in *.
  assert (T : trim t1 = []).
  { apply trimmed_trim. exists t1, []. cbn [List.app]. rewrite app_nil_r. repeat split; auto; intros c r X; [discriminate |].
    now destruct r. }
  call. unfold run_joiny, check_two_or_more. eapply sure_bind_const; [reflexivity |].
  eapply (sure_bind_fails _ _ (fun n => joiny_args H (eval H n 0) 0 None (a :: b :: rest))); [| constructor].
  cbn [joiny_args]. eapply sure_bind; [now apply sure_ev; eassumption |]. cbv beta iota zeta. rewrite T.
  now apply sure_const.
Qed.

(** Rows of spaces at the top or the bottom are lost. *)
Theorem C75_joiny_refuted :
  exists H t1 t2 w h1 h2 s t,
    rectangle w h1 t1 /\ rectangle w h2 t2
    /\ calls H WJoiny [EString t1; EString t2] s (ROk (EString t)) s
    /\ ~ rectangle w (h1 + h2) t.
Proof.
  exists demo_host, ([32; 32; 10] ++ lit "ab")%N, (lit "cd"), 2, 2, 1, demo, (lit "ab" ++ [10%N] ++ lit "cd").
  split; [| split; [| split]].
  - exists [[32; 32]%N; lit "ab"]. split; [| split; [reflexivity | repeat constructor]].
    apply stacked_join. repeat constructor; unfold single; cbn; intuition discriminate.
  - exists [lit "cd"]. split; [| split; [reflexivity | repeat constructor]].
    apply stacked_one. unfold single. cbn. intuition discriminate.
  - compute_outcome 5%nat.
  - intros (rows & S & L & _). apply stacked_feeds in S; [| intros ->; discriminate].
    rewrite L in S. vm_compute in S. discriminate.
Qed.

Example C75_example :
  value_of "widget@joinx (widget@create ""a"" ""b"" 5 3) (widget@create ""c"" ""d"" 5 3)"
  = ROk (EString (with_feeds
      [ [9484; 9472; 97; 9472; 9488; 9484; 9472; 99; 9472; 9488]%N;
        lit " b    d   "; [9492; 9472; 9472; 9472; 9496; 9492; 9472; 9472; 9472; 9496]%N ]))
  /\ value_of "widget@joiny (widget@create ""a"" ""b"" 5 3) ""12345"""
  = ROk (EString (join NL
      [ [9484; 9472; 97; 9472; 9488]%N; lit " b   "; [9492; 9472; 9472; 9472; 9496]%N; lit "12345" ]))
  /\ value_of "widget@joiny "" "" ""x""" = RPanic PUnwrap.
Proof. vm_compute. auto. Qed.

Print Assumptions C74_create_partial.
Print Assumptions C74_refused.
Print Assumptions C74_create_refuted.
Print Assumptions C75_joinx.
Print Assumptions C75_joinx_rectangles.
Print Assumptions C75_joinx_heights.
Print Assumptions C75_joiny_partial.
Print Assumptions C75_joiny_rectangles_partial.
Print Assumptions C75_joiny_blank.
Print Assumptions C75_joiny_refuted.
