(** C79, C80, C81: time, the terminal and keys. *)

From Coq Require Import String List Lia SpecFloat.
From Verif Require Import Base Syntax Host Ops Text Monad Builtins Eval EvalSpec LibFacts LibSpec
  CmdFacts MapFacts EvalFacts ErrorFmt SysSpec P_Sys LinesSpec P_Lines P_Math TermSpec Init Demo.
Import ListNotations.

(** ** C80: the terminal *)

Lemma reads_app a c c1 : reads a c c1 -> forall b c2, reads b c1 c2 -> reads (a ++ b) c c2.
Proof.
  induction 1; intros u c2 R; cbn [List.app]; unfold csi in *; cbn [List.app];
    repeat (rewrite <- app_assoc; cbn [List.app]); [exact R | ..].
  - apply reads_visible; auto.
  - apply reads_save; auto.
  - apply reads_restore; auto.
  - eapply reads_go; eauto.
  - apply reads_home; auto.
  - apply reads_clear; auto.
  - eapply reads_up; eauto.
  - eapply reads_down; eauto.
  - eapply reads_right; eauto.
  - eapply reads_left; eauto.
Qed.

Lemma reads_text l : Forall visible l -> forall c row col, cursor c = (row, col) ->
  exists c', reads l c c' /\ cursor c' = (row, col + Z.of_nat (length l))%Z /\ saved c' = saved c
    /\ drawn row col [l] c c'.
Proof.
  induction 1 as [| x l V F IH]; intros c row col E.
  - exists c. split; [constructor |]. split; [rewrite E; f_equal; cbn; lia |]. split; [reflexivity |]. split; auto.
    intros i l j x I J. destruct i as [| [| i]]; inversion I; subst; now destruct j.
  - destruct (IH (put x c) row (col + 1)%Z) as (c' & R & C & SV & D1 & D2).
    { unfold put. now rewrite E. }
    exists c'. split; [now constructor |]. split; [| split].
    + rewrite C. f_equal. cbn [length]. lia.
    + rewrite SV. unfold put. now rewrite E.
    + split.
      * intros i m j y I J. destruct i as [| [| i]]; inversion I; subst m. clear I.
        destruct j as [| j]; cbn [nth_error] in J.
        -- inversion J; subst y. rewrite D2.
           ++ unfold put. rewrite E. cbn [cell]. rewrite !Z.add_0_r, !Z.eqb_refl. reflexivity.
           ++ intros i m k z I K X. inversion X. destruct i as [| [| i]]; inversion I; subst m; lia.
        -- replace (col + Z.of_nat (S j))%Z with (col + 1 + Z.of_nat j)%Z by lia.
           now apply (D1 0%nat l j y).
      * intros a b N. rewrite D2.
        -- unfold put. rewrite E. cbn [cell].
           destruct (Z.eqb_spec a row) as [-> |]; [| reflexivity].
           destruct (Z.eqb_spec b col) as [-> |]; [| reflexivity].
           exfalso. apply (N 0%nat (x :: l) 0%nat x eq_refl eq_refl). f_equal; cbn; lia.
        -- intros i m k z I K X. destruct i as [| [| i]]; inversion I; subst m.
           apply (N 0%nat (x :: l) (S k) z eq_refl K). inversion X. f_equal; cbn; lia.
Qed.

Definition piece (row col : Z) (l : str) : str :=
  let at_ := ESC ++ lit "[" ++ z_str row ++ lit ";" ++ z_str col in
  ESC ++ lit "[s" ++ at_ ++ lit "H" ++ at_ ++ lit "f" ++ l ++ ESC ++ lit "[u".

Lemma reads_piece row col l c : Forall visible l -> (0 < row)%Z -> (0 < col)%Z ->
  exists c', reads (piece row col l) c c' /\ cursor c' = cursor c /\ drawn row col [l] c c'.
Proof.
  intros V R C.
  set (c1 := Screen (cursor c) (cursor c) (cell c)). set (c2 := go row col (go row col c1)).
  destruct (reads_text l V c2 row col eq_refl) as (c3 & RD & CU & SV & DR).
  exists (Screen (saved c3) (saved c3) (cell c3)). split; [| split].
  - unfold piece. cbv zeta.
    match goal with |- reads ?t _ _ => replace t with
      (csi (115%N :: csi (z_str row ++ 59%N :: z_str col ++ 72%N ::
         csi (z_str row ++ 59%N :: z_str col ++ 102%N :: (l ++ csi [117%N]))))) end.
    2: { unfold csi, ESC. cbn. repeat (rewrite <- app_assoc; cbn). reflexivity. }
    apply reads_save. eapply reads_go; [apply written_z_str .. | exact R | exact C | now left |].
    eapply reads_go; [apply written_z_str .. | exact R | exact C | now right |].
    eapply reads_app; [exact RD |]. apply reads_restore. constructor.
  - cbn [cursor]. now rewrite SV.
  - exact DR.
Qed.

Lemma reads_pieces ls : forall row col c, Forall (Forall visible) ls -> (0 < row)%Z -> (0 < col)%Z ->
  exists c', reads (concat (map (fun k => piece (row + Z.of_nat (fst k)) col (snd k)) (combine (seq 0 (length ls)) ls))) c c'
    /\ cursor c' = cursor c /\ drawn row col ls c c'.
Proof.
  induction ls as [| l ls IH]; intros row col c V R C.
  - exists c. split; [constructor |]. split; [reflexivity |]. split; [| auto].
    intros i l j x I. now destruct i.
  - inversion V as [| ? ? V1 V2]; subst.
    destruct (reads_piece (row + 0) col l c V1 ltac:(lia) C) as (c1 & R1 & C1 & D1 & D1').
    destruct (IH (row + 1)%Z col c1 V2 ltac:(lia) C) as (c2 & R2 & C2 & D2 & D2').
    exists c2. split; [| split; [congruence |]].
    + cbn [length seq combine map concat fst snd]. eapply reads_app; [exact R1 |].
      rewrite <- seq_shift.
      replace (map _ (combine (map S (seq 0 (length ls))) ls))
        with (map (fun k => piece (row + 1 + Z.of_nat (fst k)) col (snd k)) (combine (seq 0 (length ls)) ls)); [exact R2 |].
      clear. generalize (seq 0 (length ls)). induction ls as [| l ls IH]; intros [| n ns]; cbn [map combine]; try reflexivity.
      cbn [fst snd]. f_equal; [f_equal; lia | apply IH].
    + split.
      * intros i m j x I J. destruct i as [| i]; cbn [nth_error] in I.
        -- inversion I; subst m. rewrite D2'.
           ++ rewrite <- (D1 0%nat l j x eq_refl J). f_equal; cbn; lia.
           ++ intros k m n y _ _ X. inversion X. lia.
        -- rewrite <- (D2 i m j x I J). f_equal; lia.
      * intros a b N. rewrite D2', D1'.
        -- reflexivity.
        -- intros k m n y I J X. destruct k as [| [| k]]; inversion I; subst m.
           apply (N 0%nat l n y eq_refl J). rewrite X. f_equal; cbn; lia.
        -- intros k m n y I J X. apply (N (S k) m n y I J). rewrite X. f_equal; lia.
Qed.

Lemma writes_app H a s s1 : writes H s a s1 -> forall b s2, writes H s1 b s2 -> writes H s (a ++ b) s2.
Proof.
  induction 1; intros b s2 W; [exact W |]. rewrite <- app_assoc. apply writes_more. auto.
Qed.

Lemma write_lines_prints H x y ls : forall k s,
  (0 < y)%Z -> (y + Z.of_nat (k + length ls) <= 2 ^ 63)%Z ->
  exists s', write_lines H x y k ls s = (ROk tt, s')
    /\ writes H s (concat (map (fun z => piece (y + Z.of_nat (fst z)) x (snd z)) (combine (seq k (length ls)) ls))) s'.
Proof.
  induction ls as [| l ls IH]; intros k s L U; cbn [write_lines].
  - exists s. split; [reflexivity | constructor].
  - assert (A : arith (h_overflow H) (y + as_int (Z.of_nat k)) = inl (y + Z.of_nat k)%Z).
    { cbn [length] in U. unfold as_int, wrap64. rewrite Z.mod_small by lia.
      replace (y + (Z.of_nat k + 2 ^ 63 - 2 ^ 63))%Z with (y + Z.of_nat k)%Z by lia. unfold arith.
      replace (in_i64 (y + Z.of_nat k)) with true; [reflexivity |]. symmetry. apply in_i64_fits.
      unfold fits. lia. }
    rewrite A. cbn [or_panic]. unfold bind at 1. cbn [ret]. unfold print.
    set (s1 := snd (ask H (RqPrint (piece (y + Z.of_nat k) x l)) s)).
    destruct (IH (S k) s1 L ltac:(cbn [length] in U; lia)) as (s' & E & W).
    exists s'. split.
    + unfold bind at 1. unfold bind at 1. exact E.
    + cbn [length seq combine map concat fst snd]. apply writes_print. exact W.
Qed.

(** Between [s] and [s'] a text is printed that makes the terminal do [what]. *)
Definition shows (H : host) (s s' : st) (what : screen -> screen -> Prop) : Prop :=
  exists t, writes H s t s' /\ forall c, exists c', reads t c c' /\ what c c'.

(** [console@write] puts the lines of a text below each other at the place given
    and leaves the cursor where it was. *)
Theorem C80_write H a b d s s1 s2 s3 x y v t ls :
  gives H a s (EInteger x) s1 -> gives H b s1 (EInteger y) s2 -> gives H d s2 v s3 ->
  shown H v t -> lines t ls -> Forall (Forall visible) ls ->
  (0 < x)%Z -> (0 < y)%Z -> (y + Z.of_nat (length ls) <= 2 ^ 63)%Z ->
  exists s', calls H CWrite [a; b; d] s (ROk ENone) s'
    /\ shows H s3 s' (fun c c' => cursor c' = cursor c /\ drawn y x ls c c').
Proof.
  intros A B D SH L V X Y U. apply (proj1 (shown_display _ _ _)) in SH. subst t.
  apply lines_str_lines in L. unfold gives in *.
  destruct (write_lines_prints H x y ls 0 s3 Y ltac:(cbn; lia)) as (s' & E & W).
  exists s'. split.
  - call. unfold run_console_write, exact3. sure_step. sure_step. sure_step. sure_step.
    rewrite L. eapply sure_bind_const; [exact E |]. apply sure_ret.
  - eexists. split; [exact W |]. intros c.
    destruct (reads_pieces ls y x c V Y X) as (c' & R & C & DR). exists c'. auto.
Qed.

(** [console@clear] empties the screen; the cursor is in the corner. *)
Theorem C80_clear H a s :
  exists s', calls H CClear [a] s (ROk ENone) s'
    /\ shows H s s' (fun c c' => cursor c' = (1, 1)%Z /\ forall i j, cell c' i j = None).
Proof.
  eexists. split.
  - call. unfold run_clear. sure_step. unfold print. eapply sure_bind_const; [reflexivity |]. apply sure_ret.
  - eexists. split; [apply writes_one |]. intros c. eexists. split.
    + apply reads_clear, reads_home. constructor.
    + split; reflexivity.
Qed.

(** [move-to] goes to the place given. *)
Theorem C80_move_to H a b s s1 s2 x y :
  gives H a s (EInteger x) s1 -> gives H b s1 (EInteger y) s2 -> (0 < x)%Z -> (0 < y)%Z ->
  exists s', calls H CMoveTo [a; b] s (ROk ENone) s'
    /\ shows H s2 s' (fun c c' => c' = go y x c).
Proof.
  intros A B X Y. unfold gives in *. eexists. split.
  - call. unfold run_move_to, exact2. sure_step. sure_step. sure_step.
    unfold print. eapply sure_bind_const; [reflexivity |]. apply sure_ret.
  - eexists. split; [apply writes_one |]. intros c. eexists. split; [| reflexivity].
    change (reads (csi (z_str y ++ 59%N :: z_str x ++ 102%N :: [])) c (go y x c)).
    eapply reads_go; [apply written_z_str .. | exact Y | exact X | now right | constructor].
Qed.

(** The movements: by so many rows and columns. *)
Inductive movement : bid -> (Z -> Z * Z -> Z * Z) -> Prop :=
| mv_up : movement (CMove 65%N) (fun n p => (Z.max 1 (fst p - n), snd p)%Z)
| mv_down : movement (CMove 66%N) (fun n p => (fst p + n, snd p)%Z)
| mv_right : movement (CMove 67%N) (fun n p => (fst p, snd p + n)%Z)
| mv_left : movement (CMove 68%N) (fun n p => (fst p, Z.max 1 (snd p - n))%Z).

Theorem C80_move_partial H b f a s s1 n :
  movement b f -> gives H a s (EInteger n) s1 -> (0 < n)%Z ->
  exists s', calls H b [a] s (ROk ENone) s'
    /\ shows H s1 s' (fun c c' => cursor c' = f n (cursor c) /\ cell c' = cell c).
Proof.
  intros M A N. unfold gives in *.
  assert (P : forall letter,
    exists s', calls H (CMove letter) [a] s (ROk ENone) s'
      /\ writes H s1 (csi (z_str n ++ letter :: [])) s').
  { intros letter. eexists. split; [| apply writes_one].
    call. unfold run_move, exact1. sure_step. sure_step.
    unfold print. eapply sure_bind_const; [reflexivity |]. apply sure_ret. }
  assert (ST : steps n = n) by (unfold steps; lia).
  destruct M.
  - destruct (P 65%N) as (s' & C & W). exists s'. split; [exact C |]. eexists. split; [exact W |].
    intros c. eexists. split; [eapply reads_up; [apply written_z_str | lia | constructor] |].
    rewrite ST. split; reflexivity.
  - destruct (P 66%N) as (s' & C & W). exists s'. split; [exact C |]. eexists. split; [exact W |].
    intros c. eexists. split; [eapply reads_down; [apply written_z_str | lia | constructor] |].
    rewrite ST. split; reflexivity.
  - destruct (P 67%N) as (s' & C & W). exists s'. split; [exact C |]. eexists. split; [exact W |].
    intros c. eexists. split; [eapply reads_right; [apply written_z_str | lia | constructor] |].
    rewrite ST. split; reflexivity.
  - destruct (P 68%N) as (s' & C & W). exists s'. split; [exact C |]. eexists. split; [exact W |].
    intros c. eexists. split; [eapply reads_left; [apply written_z_str | lia | constructor] |].
    rewrite ST. split; reflexivity.
Qed.

(** [move-up 0] does not leave the cursor alone: a terminal takes 0 for 1. *)
Theorem C80_move_refuted :
  exists n s t s' c,
    (0 <= n)%Z /\ calls demo_host (CMove 65%N) [EInteger n] s (ROk ENone) s'
    /\ writes demo_host s t s'
    /\ forall c', reads t c c' -> cursor c' <> (Z.max 1 (fst (cursor c) - n), snd (cursor c))%Z.
Proof.
  exists 0%Z, demo, (csi (lit "0A")), (snd (ask demo_host (RqPrint (csi (lit "0A"))) demo)).
  exists (Screen (5, 5)%Z (1, 1)%Z (fun _ _ => None)). split; [easy |]. split; [compute_outcome 3%nat |].
  split; [apply writes_one |]. intros c' R.
  assert (P : forall (a : str) x b, a ++ x :: b = [48; 65]%N ->
            (a = [] /\ x = 48%N) \/ (a = [48%N] /\ x = 65%N /\ b = [])).
  { intros a x b E. destruct a as [| u [| v a]]; cbn in E; inversion E; auto. now destruct a. }
  inversion R; subst; try discriminate.
  - match goal with V : visible 27%N |- _ => destruct V as [V _]; now destruct V end.
  - match goal with E : _ ++ 59%N :: _ = _ |- _ => destruct (P _ _ _ E) as [[_ X] | (_ & X & _)]; discriminate end.
  - match goal with E : _ ++ 65%N :: _ = _ |- _ => destruct (P _ _ _ E) as [[_ X] | (-> & _ & ->)]; [discriminate |] end.
    assert (n = 0%Z).
    { match goal with W : written [48%N] n |- _ => inversion W as [d z ND DN E1 E2 | d z ND DN E1 E2 | d z ND DN E1 E2]; subst end;
        [cbn in DN; destruct DN as [_ ->]; reflexivity]. }
    subst n. match goal with R : reads [] _ _ |- _ => inversion R; subst end. vm_compute. discriminate.
  - match goal with E : _ ++ 66%N :: _ = _ |- _ => destruct (P _ _ _ E) as [[_ X] | (_ & X & _)]; discriminate end.
  - match goal with E : _ ++ 67%N :: _ = _ |- _ => destruct (P _ _ _ E) as [[_ X] | (_ & X & _)]; discriminate end.
  - match goal with E : _ ++ 68%N :: _ = _ |- _ => destruct (P _ _ _ E) as [[_ X] | (_ & X & _)]; discriminate end.
Qed.

(** [console@title] never prints a sequence that sets a title: it does not end. *)
Theorem C80_title_refuted H a s v s1 t :
  gives H a s v s1 -> shown H v t ->
  exists out s', calls H CTitle [a] s (ROk ENone) s' /\ writes H s1 out s' /\ forall u, ~ sets_title u out.
Proof.
  intros A S. apply (proj1 (shown_display _ _ _)) in S. subst t. unfold gives in *. eexists _, _. split; [| split].
  - call. unfold run_title, exact1. sure_step. sure_step. unfold print. eapply sure_bind_const; [reflexivity |]. apply sure_ret.
  - apply writes_one.
  - intros u T.
    assert (L : last (ESC ++ lit "]2;" ++ display H v ++ ESC ++ lit "[0m") 0%N = 109%N).
    { rewrite !app_assoc. change (lit "[0m") with ([91; 48]%N ++ [109%N]). rewrite app_assoc. apply last_last. }
    revert L T. generalize (ESC ++ lit "]2;" ++ display H v ++ ESC ++ lit "[0m"). intros out L T.
    destruct T as [w V | w V]; revert L.
    + change (27%N :: lit "]2;" ++ w ++ [7%N]) with ((27%N :: lit "]2;") ++ w ++ [7%N]).
      rewrite app_assoc, last_last. discriminate.
    + change (27%N :: lit "]2;" ++ w ++ [27; 92]%N) with ((27%N :: lit "]2;") ++ w ++ [27%N] ++ [92%N]).
      rewrite !app_assoc, last_last. discriminate.
Qed.

(** ** C79: time *)

(** [time@sleep] of an integer that is not negative waits so many milliseconds. *)
Theorem C79_sleep_partial H a s n s1 :
  gives H a s (EInteger n) s1 -> (0 <= n < 2 ^ 64)%Z ->
  calls H ISleep [a] s (ROk ENone) (told H (RqSleep (Z.to_N n)) s1).
Proof.
  intros A N. unfold gives in *. call. unfold run_sleep, exact1. sure_step. sure_step.
  unfold as_usize. rewrite Z.mod_small by lia. apply sure_ask. apply sure_ret.
Qed.

(** A negative one waits for more than two hundred million years. *)
Theorem C79_sleep_refuted :
  exists n ms s, (n < 0)%Z
    /\ calls demo_host ISleep [EInteger n] s (ROk ENone) (told demo_host (RqSleep ms) s)
    /\ (200 * 1000000 * 366 * 86400 * 1000 < ms)%N.
Proof.
  exists (-1)%Z, (2 ^ 64 - 1)%N, demo. split; [easy |]. split; [compute_outcome 3%nat | easy].
Qed.

Theorem C79_negative H a s n s1 :
  gives H a s (EInteger n) s1 -> (- 2 ^ 63 <= n < 0)%Z ->
  calls H ISleep [a] s (ROk ENone) (told H (RqSleep (Z.to_N (2 ^ 64 + n))) s1).
Proof.
  intros A N. unfold gives in *. call. unfold run_sleep, exact1. sure_step. sure_step.
  unfold as_usize.
  replace (n mod 2 ^ 64)%Z with (2 ^ 64 + n)%Z by (apply Z.mod_unique with (q := (-1)%Z); lia).
  apply sure_ask. apply sure_ret.
Qed.

(** A float waits for its whole part, at most [2 ^ 64 - 1]; a negative one not at
    all. *)
Theorem C79_float H a s neg m e z s1 :
  gives H a s (EFloat (S754_finite neg m e)) s1 -> whole_part (Z.pos m) e z ->
  calls H ISleep [a] s (ROk ENone)
    (told H (RqSleep (Z.to_N (if neg then 0 else Z.min z (2 ^ 64 - 1)))) s1).
Proof.
  intros A W. unfold gives in *. call. unfold run_sleep, exact1. sure_step. sure_step.
  assert (E : f64_to_u64 (S754_finite neg m e) = Z.to_N (if neg then 0 else Z.min z (2 ^ 64 - 1))).
  { destruct neg; [reflexivity |]. cbn [f64_to_u64].
    assert (Q : (if (0 <=? e)%Z then (Z.pos m * 2 ^ e)%Z else (Z.pos m / 2 ^ (- e))%Z) = z).
    { destruct W as [L | a0 L R].
      - now rewrite (proj2 (Z.leb_le 0 e) L).
      - rewrite (proj2 (Z.leb_gt 0 e) L). symmetry.
        apply Z.div_unique with (r := (Z.pos m - a0 * 2 ^ (- e))%Z); [left|]; lia. }
    rewrite Q. destruct (Z.ltb_spec (2 ^ 64 - 1) z) as [L | L].
    - rewrite Z.min_r by lia. reflexivity.
    - now rewrite Z.min_l by lia. }
  rewrite E. apply sure_ask. apply sure_ret.
Qed.

(** Anything else is refused. *)
Theorem C79_other H a s v s1 :
  gives H a s v s1 -> (forall n, v <> EInteger n) -> (forall f, v <> EFloat f) ->
  exists m, calls H ISleep [a] s (RErr (CustomError m)) s1.
Proof.
  intros A N F. unfold gives in *. eexists. call. unfold run_sleep, exact1. sure_step. sure_step.
  destruct v; try apply sure_throw; [now destruct (N z) | now destruct (F f)].
Qed.

(** ** C81: keys *)

(** The names of the keys. *)
Definition key_names : list (keypress * string) :=
  [ (KeyEnter, "enter"); (KeyBackspace, "backspace"); (KeyDelete, "delete"); (KeyLeft, "left");
    (KeyRight, "right"); (KeyUp, "up"); (KeyDown, "down"); (KeyHome, "home"); (KeyEnd, "end");
    (KeyPageUp, "page-up"); (KeyPageDown, "page-down"); (KeyTab, "tab"); (KeyEsc, "esc");
    (KeyInsert, "insert"); (KeyNull, "null"); (KeyBackTab, "back-tab") ]%string.

(** A key other than a function key is given as the text that the table of keys
    has for its name. *)
Theorem C81_named_partial H k name args s :
  In (k, name) key_names -> h_answer H (s_trace s) RqReadKey = RsKey k ->
  exists v, In (lit name, v) keys
    /\ calls H CReadKey args s (ROk v) (told H RqReadKey s).
Proof.
  intros I E. exists (key_text k). split.
  - cbn in I. repeat destruct I as [I | I]; try contradiction; injection I as <- <-; vm_compute; tauto.
  - call. unfold run_read_key. apply sure_ask. rewrite E. apply sure_ret.
Qed.

(** The same for characters: they are given as they are. *)
Theorem C81_character H c args s :
  h_answer H (s_trace s) RqReadKey = RsKey (KeyChar c) ->
  calls H CReadKey args s (ROk (EString [c])) (told H RqReadKey s).
Proof. intros E. call. unfold run_read_key. apply sure_ask. rewrite E. apply sure_ret. Qed.

(** No function key is given as the table says. *)
Theorem C81_function_keys_refuted H i args s :
  (1 <= i <= 12)%N -> h_answer H (s_trace s) RqReadKey = RsKey (KeyF i) ->
  exists v w, calls H CReadKey args s (ROk v) (told H RqReadKey s)
    /\ In (lit "f" ++ n_str i, w) keys /\ w <> v.
Proof.
  intros I E.
  assert (W : exists w, In (lit "f" ++ n_str i, w) keys /\ w <> key_text (KeyF i)).
  { assert (C : In i [1; 2; 3; 4; 5; 6; 7; 8; 9; 10; 11; 12]%N) by (cbn; lia).
    clear - C. assert (S : MapFacts.sorted keys) by (apply sorted_of_list). cbn in C.
    repeat destruct C as [<- | C]; try contradiction;
      (eexists; split; [apply sorted_get_in; [exact S | vm_compute; reflexivity] | discriminate]). }
  destruct W as (w & W1 & W2). exists (key_text (KeyF i)), w. split; [| auto].
  call. unfold run_read_key. apply sure_ask. rewrite E. apply sure_ret.
Qed.

(** Different keys give the same text. *)
Theorem C81_distinct_refuted :
  exists H k1 k2 s1 s2 v, k1 <> k2
    /\ h_answer H (s_trace s1) RqReadKey = RsKey k1 /\ h_answer H (s_trace s2) RqReadKey = RsKey k2
    /\ calls H CReadKey [] s1 (ROk v) (told H RqReadKey s1)
    /\ calls H CReadKey [] s2 (ROk v) (told H RqReadKey s2).
Proof.
  set (H := with_answer (fun t rq => match t with [] => RsKey (KeyF 5) | _ => RsKey KeyPageUp end) demo_host).
  exists H, (KeyF 5), KeyPageUp, demo, (told H RqReadKey demo), (EString (27%N :: lit "[5~")).
  split; [discriminate |]. split; [reflexivity |]. split; [reflexivity |].
  split; (call; unfold run_read_key; apply sure_ask; apply sure_ret).
Qed.

(** All keys but the function keys are told apart. *)
Theorem C81_distinct_partial H k1 k2 n1 n2 args s1 s2 v t1 t2 :
  In (k1, n1) key_names -> In (k2, n2) key_names ->
  h_answer H (s_trace s1) RqReadKey = RsKey k1 -> h_answer H (s_trace s2) RqReadKey = RsKey k2 ->
  calls H CReadKey args s1 (ROk v) t1 -> calls H CReadKey args s2 (ROk v) t2 -> k1 = k2.
Proof.
  intros I1 I2 E1 E2 C1 C2.
  assert (D1 : calls H CReadKey args s1 (ROk (key_text k1)) (told H RqReadKey s1)).
  { call. unfold run_read_key. apply sure_ask. rewrite E1. apply sure_ret. }
  assert (D2 : calls H CReadKey args s2 (ROk (key_text k2)) (told H RqReadKey s2)).
  { call. unfold run_read_key. apply sure_ask. rewrite E2. apply sure_ret. }
  destruct (calls_det _ _ _ _ _ _ _ _ C1 D1) as [X1 _]. destruct (calls_det _ _ _ _ _ _ _ _ C2 D2) as [X2 _].
  assert (X : key_text k1 = key_text k2) by congruence. clear - I1 I2 X.
  cbn in I1, I2.
  repeat destruct I1 as [I1 | I1]; try contradiction; injection I1 as <- <-;
    repeat destruct I2 as [I2 | I2]; try contradiction; injection I2 as <- <-; try reflexivity; discriminate.
Qed.

(** The current time as the machine tells it. *)
Theorem C79_now H args s y m d h time date :
  h_answer H (s_trace s) RqNow = RsTime y m d h time date ->
  fits y -> fits m -> fits d -> fits h ->
  exists v, calls H INow args s (ROk (EMap v)) (told H RqNow s)
    /\ forall k x, In (k, x) v <->
         In (k, x) [ (lit "year", EInteger y); (lit "month", EInteger m); (lit "day", EInteger d);
                     (lit "hour", EInteger h); (lit "time", EMap [(lit "str", EString time)]);
                     (lit "date", EMap [(lit "str", EString date)]) ].
Proof.
  intros E Y M D HH. eexists. split.
  - call. unfold run_now. apply sure_ask. rewrite E. apply sure_ret.
  - assert (W : forall z, fits z -> wrap64 z = z).
    { intros z F. unfold wrap64, fits in *. rewrite Z.mod_small by lia. lia. }
    rewrite !W by assumption. intros k x. cbn. intuition.
Qed.

Example C79_example :
  effects_of "time@sleep 250" = [RqSleep 250%N]
  /\ effects_of "time@sleep 2.9" = [RqSleep 2%N]
  /\ effects_of "time@sleep (0 - 1)" = [RqSleep (2 ^ 64 - 1)%N]
  /\ whole_part 5 (-1) 2.
Proof. split; [vm_compute; reflexivity |]. split; [vm_compute; reflexivity |]. split; [vm_compute; reflexivity |]. constructor; lia. Qed.

Example C80_example :
  effects_of "console@write 3 4 ""ab\nc"""
    = [RqPrint (ESC ++ lit "[s" ++ ESC ++ lit "[4;3H" ++ ESC ++ lit "[4;3fab" ++ ESC ++ lit "[u");
       RqPrint (ESC ++ lit "[s" ++ ESC ++ lit "[5;3H" ++ ESC ++ lit "[5;3fc" ++ ESC ++ lit "[u")]
  /\ lines [97; 98; 10; 99]%N [[97; 98]%N; [99%N]] /\ Forall (Forall visible) [[97; 98]%N; [99%N]]
  /\ effects_of "console@cursor@move-left 2" = [RqPrint (ESC ++ lit "[2D")]
  /\ effects_of "console@title ""t""" = [RqPrint (ESC ++ lit "]2;t" ++ ESC ++ lit "[0m")].
Proof.
  split; [vm_compute; reflexivity |]. split.
  - apply (str_lines_lines [97; 98; 10; 99]%N).
  - split; [| split; vm_compute; reflexivity].
    repeat constructor; unfold visible; try discriminate; lia.
Qed.

Example C81_example :
  value_of "console@keyboard@keys@f5" = ROk (EString (ESC ++ lit "[15~"))
  /\ value_of "console@keyboard@keys@page-up" = ROk (EString (ESC ++ lit "[5~"))
  /\ exists H, h_answer H [] RqReadKey = RsKey KeyUp.
Proof.
  split; [vm_compute; reflexivity |]. split; [vm_compute; reflexivity |].
  now exists (with_answer (fun _ _ => RsKey KeyUp) demo_host).
Qed.

Print Assumptions C79_sleep_partial.
Print Assumptions C79_negative.
Print Assumptions C79_sleep_refuted.
Print Assumptions C79_float.
Print Assumptions C79_other.
Print Assumptions C79_now.
Print Assumptions C80_write.
Print Assumptions C80_clear.
Print Assumptions C80_move_to.
Print Assumptions C80_move_partial.
Print Assumptions C80_move_refuted.
Print Assumptions C80_title_refuted.
Print Assumptions C81_named_partial.
Print Assumptions C81_character.
Print Assumptions C81_function_keys_refuted.
Print Assumptions C81_distinct_refuted.
Print Assumptions C81_distinct_partial.
