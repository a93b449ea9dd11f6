(** The function of the start-up scripts that draws a calendar. *)

From Coq Require Import String Lia ZArith Floats.SpecFloat.
From Verif Require Import Base Syntax Host Ops Monad Builtins Eval Init EvalSpec OpsSpec EvalFacts
  LibFacts OpsFacts RunFacts MapFacts Parser Prelude PreludeFacts GregorianFacts CalendarDefs CalendarFacts.
From Verif Require P_FloatFmt ListFacts.

(** ** More rules *)

Lemma as_int_small z : fits z -> as_int z = z.
Proof. unfold fits, as_int, wrap64. intros F. rewrite Z.mod_small; lia. Qed.

Lemma blanks n : (0 <= n < 2 ^ 63)%Z ->
  expr_mul (EString [32%N]) (EInteger n) = inl (EString (repeat 32%N (Z.to_nat n))).
Proof.
  intros B. unfold expr_mul, str_repeat, as_usize. rewrite Z.mod_small by lia.
  change (utf8_len [32%N]) with 1%N. change (1 =? 0)%N with false. cbv iota.
  rewrite (proj2 (N.ltb_lt _ _)) by lia. do 2 f_equal.
  replace (N.to_nat (Z.to_N n)) with (Z.to_nat n) by lia.
  induction (Z.to_nat n) as [| k IH]; [reflexivity |]. cbn [repeat_list repeat List.app]. now rewrite IH.
Qed.

Section Rules.
  Variable H : host.

  Lemma run_to_of a b s m s1 n s2 :
    evaluates H 0 a s (ROk (EInteger m)) s1 -> evaluates H 0 b s1 (ROk (EInteger n)) s2 ->
    calls H BTo [a; b] s (ROk (EList (map EInteger (zrange m (Z.to_nat (n - m)))))) s2.
  Proof.
    intros A B. call. unfold run_to. sure_step. sure_step. sure_step. apply sure_ret.
  Qed.

  Lemma run_create_of a b c d s t s1 w s2 x s3 h s4 :
    evaluates H 0 a s (ROk (EString t)) s1 -> evaluates H 0 c s1 (ROk (EInteger w)) s2 ->
    evaluates H 0 b s2 (ROk (EString x)) s3 -> evaluates H 0 d s3 (ROk (EInteger h)) s4 ->
    (4 < w)%Z -> (3 <= h)%Z -> (length t <= Z.to_nat (w - 2))%nat ->
    calls H WCreate [a; b; c; d] s
      (ROk (EString (widget t (h_wrap H (x ++ repeat 32%N (Nat.div (Z.to_nat (w - 2) * 2) 3 - length x))
                                      (Z.to_N (w - 2))) (Z.to_nat (w - 2)) (Z.to_nat h)))) s4.
  Proof.
    intros A C B D W Hh T. call. unfold run_create. sure_step. sure_step. sure_step.
    rewrite (proj2 (Z.ltb_lt 4 w)) by lia. cbv zeta. sure_step. sure_step.
    rewrite (proj2 (Z.leb_le 3 h)) by lia. cbn [display].
    destruct (Nat.ltb_spec (Z.to_nat (w - 2)) (length t)); [lia |]. apply sure_ret.
  Qed.
End Rules.

Ltac run_op ::=
  lazymatch goal with
  | |- pure_op expr_add (EInteger _) (EInteger _) = _ => apply add_ints; try run_fits
  | |- pure_op expr_sub (EInteger _) (EInteger _) = _ => apply sub_ints; try run_fits
  | |- pure_op expr_div (EInteger _) (EFloat _) = _ => apply div_int_float
  | |- pure_op expr_div (EInteger _) (EInteger _) = _ => apply quot_ints_pos; [try run_fits | lia]
  | |- expr_rem (EInteger _) (EInteger _) = _ => apply rem_ints_pos; [try run_fits | lia]
  | |- expr_mul (EString [32%N]) (EInteger _) = _ => apply blanks
  | |- _ => reflexivity
  end.

(** ** The parts of the program *)

Definition part (k : nat) : expr := match calendar_body with EDo l => nth k l ENone | _ => ENone end.
Definition loop_body (e : expr) : expr := match e with EFor _ _ b => b | _ => ENone end.
Definition blank_body : expr := Eval vm_compute in loop_body (part 6).
Definition day_body : expr := Eval vm_compute in loop_body (part 7).

(** The names both loops use. *)
Definition loop_names : list (str * expr) :=
  [ (lit "+", bi BAdd "+"); (lit "%", curry (bi BRem "%") 2); (lit "==", bi BEq "==");
    (lit "<", bi BLt "<"); (lit "@", bi BIndex "@"); (lit "str", bi BStr "str");
    (lit "len", bi BLen "len"); (lit "to", bi BTo "to"); (lit "widget", EMap widget_module) ]%string.

Definition today (y m d : Z) : expr :=
  EMap [(lit "day", EInteger d); (lit "month", EInteger m); (lit "year", EInteger y)].

(** The variables while the days are written. *)
Definition drawing (y m d w n : Z) (t : str) (tr : _) (lg : _) (s : st) : Prop :=
  (forall x v, In (x, v) loop_names -> env_get x (s_env s) = Some v)
  /\ env_get (lit "now") (s_env s) = Some (today y m d)
  /\ env_get (lit "dof") (s_env s) = Some (EInteger w)
  /\ env_get (lit "dim") (s_env s) = Some (EInteger n)
  /\ env_get (lit "result") (s_env s) = Some (EString t)
  /\ s_trace s = tr /\ s_log s = lg.

Lemma names_all l e : (forall x v, In (x, v) l -> env_get x e = Some v) ->
  fold_right (fun p P => env_get (fst p) e = Some (snd p) /\ P) True l.
Proof.
  induction l as [| [x v] l IH]; intros S; cbn; [exact I |].
  split; [apply S; now left | apply IH; intros; apply S; now right].
Qed.
Ltac known_loop S :=
  let A := fresh in
  pose proof (names_all _ _ S) as A;
  lazy beta iota zeta delta [fold_right loop_names fst snd] in A;
  repeat match type of A with _ /\ _ => let B := fresh "KNOWN" in destruct A as [B A] end; clear A.

(** Assigning to other names keeps what is known. *)
Lemma names_kept l x v e :
  (forall y u, In (y, u) l -> env_get y e = Some u) ->
  existsb (fun p => str_eqb (fst p) x) l = false ->
  forall y u, In (y, u) l -> env_get y (env_define x v e) = Some u.
Proof.
  intros K N y u I. rewrite env_get_define. destruct (str_eqb y x) eqn:E; [| now apply K].
  apply str_eqb_eq in E. subst y. exfalso. rewrite <- not_true_iff_false in N. apply N.
  apply existsb_exists. exists (x, u). split; [exact I |]. apply str_eqb_refl.
Qed.

Ltac draws :=
  repeat split;
  [ run_state; repeat (apply names_kept; [| vm_compute; reflexivity]); assumption
  | run_state; run_lookup .. | assumption | assumption ].

Lemma drawing_text y m d w n t t' tr lg s :
  drawing y m d w n t tr lg s -> t = t' -> drawing y m d w n t' tr lg s.
Proof. now intros D <-. Qed.

Section Loops.
  Variable H : host.

  Lemma blank_step n0 y m d w n t tr lg i s :
    (n0 + 20 <= MAX_DEPTH)%N -> drawing y m d w n t tr lg s ->
    exists v s', iteration H n0 (lit "i") blank_body (EInteger i) s (ROk v) s'
                 /\ drawing y m d w n (t ++ repeat 32%N 4) tr lg s'.
  Proof.
    intros L (K & D1 & D2 & D3 & D4 & D5 & D6). known_loop K. eexists. eexists. split.
    - unfold iteration, blank_body. run.
    - draws.
  Qed.

  (** How a day is written. *)
  Definition mark (d i : Z) : N := if (d =? i)%Z then 42%N else 32%N.
  Definition day_text (d i : Z) : str :=
    if (i <? 10)%Z then [32%N; mark d i; Z.to_N (48 + i)]
    else [mark d i; Z.to_N (48 + i / 10); Z.to_N (48 + i mod 10)].
  Definition day_end (k : Z) : N := if (Z.rem k 7 =? 0)%Z then 10%N else 32%N.

  Lemma days i : (1 <= i <= 31)%Z ->
    (as_int (Z.of_nat (length (z_str i))) <? 2)%Z = (i <? 10)%Z
    /\ z_str i = (if (i <? 10)%Z then [Z.to_N (48 + i)] else [Z.to_N (48 + i / 10); Z.to_N (48 + i mod 10)]).
  Proof.
    intros I. assert (A : In i (zrange 1 31)) by (apply ListFacts.zrange_in; lia). revert A. clear I.
    revert i. apply Forall_forall. repeat constructor.
  Qed.

  Lemma day_step n0 y m d w n t tr lg i s :
    (n0 + 20 <= MAX_DEPTH)%N -> (0 <= w <= 6)%Z -> (1 <= i <= 31)%Z -> drawing y m d w n t tr lg s ->
    exists v s', iteration H n0 (lit "i") day_body (EInteger i) s (ROk v) s'
                 /\ drawing y m d w n (t ++ day_text d i ++ [day_end (i + w)]) tr lg s'.
  Proof.
    intros L W I (K & D1 & D2 & D3 & D4 & D5 & D6). known_loop K.
    destruct (days i I) as [A B]. unfold day_text, day_end, mark.
    change (z_str i) with (display H (EInteger i)) in A.
    destruct (i <? 10)%Z, (d =? i)%Z eqn:X, (Z.rem (i + w) 7 =? 0)%Z eqn:Y.
    all: eexists; eexists; split; [unfold iteration, day_body; run |].
    all: eapply drawing_text; [draws |]; change (display H (EInteger i)) with (z_str i); rewrite B;
      cbn [List.app]; now rewrite <- !app_assoc.
  Qed.

  Lemma blank_loop n0 y m d w n tr lg l : (n0 + 20 <= MAX_DEPTH)%N ->
    forall t s, drawing y m d w n t tr lg s ->
    exists vs s', in_order (iteration H n0 (lit "i") blank_body) (map EInteger l) s (ROk vs) s'
                  /\ drawing y m d w n (t ++ repeat 32%N (4 * length l)) tr lg s'.
  Proof.
    intros L. induction l as [| i l IH]; intros t s D.
    - exists [], s. split; [constructor |]. cbn [length Nat.mul repeat]. now rewrite app_nil_r.
    - destruct (blank_step n0 y m d w n t tr lg i s L D) as (v & s1 & E1 & D1).
      destruct (IH _ _ D1) as (vs & s2 & E2 & D2). exists (v :: vs), s2. split.
      + cbn [map]. eapply io_cons; eassumption.
      + eapply drawing_text; [exact D2 |]. rewrite <- app_assoc, <- repeat_app. do 2 f_equal. cbn [length]. lia.
  Qed.

  Lemma day_loop n0 y m d w n tr lg l : (n0 + 20 <= MAX_DEPTH)%N -> (0 <= w <= 6)%Z ->
    Forall (fun i => (1 <= i <= 31)%Z) l ->
    forall t s, drawing y m d w n t tr lg s ->
    exists vs s', in_order (iteration H n0 (lit "i") day_body) (map EInteger l) s (ROk vs) s'
                  /\ drawing y m d w n (t ++ flat_map (fun i => day_text d i ++ [day_end (i + w)]) l) tr lg s'.
  Proof.
    intros L W F. induction F as [| i l I F IH]; intros t s D.
    - exists [], s. split; [constructor |]. cbn [flat_map]. now rewrite app_nil_r.
    - destruct (day_step n0 y m d w n t tr lg i s L W I D) as (v & s1 & E1 & D1).
      destruct (IH _ _ D1) as (vs & s2 & E2 & D2). exists (v :: vs), s2. split.
      + cbn [map]. eapply io_cons; eassumption.
      + eapply drawing_text; [exact D2 |]. cbn [flat_map]. now rewrite <- !app_assoc.
  Qed.
End Loops.

(** ** The whole function *)

Definition month_names : list str :=
  map lit ["January"; "February"; "March"; "April"; "May"; "June"; "July"; "August"; "September";
           "October"; "November"; "December"]%string.

Lemma month_name_run m : (1 <= m <= 12)%Z ->
  expr_index (EList (map EString month_names)) (EInteger (m - 1))
  = EString (nth (Z.to_nat (m - 1)) month_names []).
Proof. intros M. apply months in M. repeat destruct M as [-> | M]; try (subst m); reflexivity. Qed.
Lemma month_name_length m : (length (nth (Z.to_nat (m - 1)) month_names []) <= 9)%nat.
Proof.
  generalize (Z.to_nat (m - 1)). intros n. do 12 (destruct n as [| n]; [cbn; lia |]). cbn. destruct n; cbn; lia.
Qed.

Definition title_text (y m d : Z) : str :=
  ((((nth (Z.to_nat (m - 1)) month_names [] ++ [32%N]) ++ z_str d) ++ [44%N; 32%N]) ++ z_str y) ++ [10%N].

Lemma title_length y m d : (1 <= y <= 2 ^ 53)%Z -> (1 <= d <= 31)%Z ->
  (length (title_text y m d) <= 31)%nat.
Proof.
  intros Y D. unfold title_text. rewrite !app_length. pose proof (month_name_length m).
  pose proof (P_FloatFmt.z_str_length d 2 ltac:(lia) ltac:(lia)).
  pose proof (P_FloatFmt.z_str_length y 16 ltac:(lia) ltac:(lia)). cbn [length]. lia.
Qed.

Definition weekdays_text : str := lit " Su  Mo  Tu  We  Th  Fr  Sa" ++ [10%N].
Definition calendar_text (y m d : Z) : str :=
  (((repeat 32%N (Z.to_nat (Z.quot (28 - Z.of_nat (length (title_text y m d))) 2 + 1)) ++ title_text y m d)
    ++ weekdays_text)
   ++ repeat 32%N (4 * Z.to_nat (week_number y m 1)))
  ++ flat_map (fun i => day_text d i ++ [day_end (i + week_number y m 1)])
       (zrange 1 (Z.to_nat (month_days y m))).

Definition calendar_function (e : env) : expr :=
  let f := ELambda (lit "d") (ELambda (lit "y") calendar_body (Env [] None)) (Env [] None) in
  ELambda (lit "m") f (capture e (lit "m") f (Env [] None)).

(** What the function needs to know. *)
Definition calendar_env (e : env) : Prop :=
  standard e
  /\ (exists e1, standard e1 /\ env_get (lit "day-of-week") e = Some (week_function e1))
  /\ (exists e1 e2, standard e1 /\ standard e2 /\ env_get (lit "is-leapyear") e1 = Some (leap_function e2)
                    /\ env_get (lit "days-in-month") e = Some (month_function e1))
  /\ env_get (lit "MONTHS") e = Some (EList (map EString month_names)).

Definition calendar_value (H : host) (y m d : Z) : expr :=
  EString (widget (lit "Calendar") (h_wrap H (calendar_text y m d) 28) 28 10).

(** Evaluation whose last state is not named. *)
Definition arrives (H : host) (d : N) (e : expr) (s : st) (v : expr) (s0 : st) : Prop :=
  exists s', evaluates H d e s (ROk v) s' /\ s_trace s' = s_trace s0 /\ s_log s' = s_log s0.
Lemma arrives_more H d x y l s v s1 w s0 :
  (d <= MAX_DEPTH)%N -> evaluates H (d + 1) x s (ROk v) s1 -> arrives H d (EDo (y :: l)) s1 w s0 ->
  arrives H d (EDo (x :: y :: l)) s w s0.
Proof. intros L E (s' & A & B). exists s'. split; [eapply run_do_more; eassumption | exact B]. Qed.
Lemma arrives_call H d f p b c a s s0 v s1 r :
  (d <= MAX_DEPTH)%N -> evaluates H (d + 1) f s (ROk (ELambda p b c)) s0 ->
  evaluates H (d + 1) a s0 (ROk v) s1 ->
  arrives H (d + 1) b (with_env (call_env p v c (s_env s0)) s1) r s1 ->
  evaluates H d (EApply f [a]) s (ROk r) s1.
Proof.
  intros L F A (s2 & B & T & G). eapply run_end; [eapply run_call; [exact L | exact F | exact A | exact B] |].
  destruct s1, s2. cbn in *. now subst.
Qed.

Lemma run_exact_call H b args s v s1 w :
  calls H b args s (ROk v) s1 -> v = w -> calls H b args s (ROk w) s1.
Proof. now intros E <-. Qed.

Lemma calendar_run H n f a1 a2 a3 s y m d e s0 s1 s2 s3 :
  calendar_env e -> (1 <= y <= 2 ^ 53)%Z -> (1 <= m <= 12)%Z -> (1 <= d <= 31)%Z ->
  (n + 60 <= MAX_DEPTH)%N ->
  evaluates H (n + 1) f s (ROk (calendar_function e)) s0 ->
  evaluates H (n + 1) a1 s0 (ROk (EInteger m)) s1 ->
  evaluates H (n + 1 + 1) a2 s1 (ROk (EInteger d)) s2 ->
  evaluates H (n + 1 + 1 + 1) a3 s2 (ROk (EInteger y)) s3 ->
  evaluates H n (EApply f [a1; a2; a3]) s (ROk (calendar_value H y m d)) s3.
Proof.
  intros (S & (e1 & S1 & W1) & (e2 & e3 & S2 & S3 & L2 & M2) & MN) Y M D L EF E1 E2 E3.
  eapply run_call_more; [lia | exact EF | exact E1 | eapply run_lambda; lia |].
  match goal with |- evaluates _ _ _ ?t _ _ => replace t with s1 by now destruct s1 end.
  eapply run_call_more; [lia | eapply run_lambda; lia | exact E2 | eapply run_lambda; lia |].
  match goal with |- evaluates _ _ _ ?t _ _ => replace t with s2 by now destruct s2 end.
  pose proof (month_name_run m M) as MI. pose proof (title_length y m d Y D) as TL.
  eapply arrives_call; [lia | eapply run_lambda; lia | exact E3 |].
  known S. unfold calendar_body at 1.
    eapply arrives_more; [lia | run |]. cbn [combine map fst].
    eapply arrives_more; [lia | run |].
    eapply arrives_more; [lia | run |].
    all: change (((((nth (Z.to_nat (m - 1)) month_names [] ++ [32%N]) ++ display H (EInteger d))
                  ++ [44%N; 32%N]) ++ display H (EInteger y)) ++ [10%N]) with (title_text y m d) in *.
    all: rewrite (as_int_small (Z.of_nat (length (title_text y m d)))) by (unfold fits; lia).
    1-4: unfold fits; Z.to_euclidean_division_equations; lia.
    eapply arrives_more; [lia | run |].
    eapply arrives_more; [lia | eapply run_assign; [lia |] |].
    1: { eapply week_run;
           [exact S1 | exact Y | exact M | | lia | eapply run_symbol; [lia | run_lookup] | run | run | run]; lia. }
    eapply arrives_more; [lia | eapply run_assign; [lia |] |].
    1: { eapply month_run;
           [exact S2 | exact S3 | exact L2 | | exact M | lia | eapply run_symbol; [lia | run_lookup] | run | run].
         unfold fits. lia. }
    match goal with |- arrives _ _ _ ?st _ _ =>
      assert (DR : drawing y m d (week_number y m 1) (month_days y m)
        ((repeat 32%N (Z.to_nat (Z.quot (28 - Z.of_nat (length (title_text y m d))) 2 + 1)) ++ title_text y m d)
         ++ weekdays_text) (s_trace st) (s_log st) st) end.
    { repeat split.
      - intros x v I. unfold loop_names in I. cbn [In] in I.
        repeat (destruct I as [I | I]; [injection I as <- <-; run_state; run_lookup |]). contradiction.
      - run_state. run_lookup.
      - run_state. run_lookup.
      - run_state. run_lookup.
      - run_state. run_lookup. }
    cbn [s_trace s_log with_var with_env] in DR.
    match type of DR with drawing _ _ _ _ _ _ _ _ ?st => set (SS := st) in * end.
    assert (WB : (0 <= week_number y m 1 <= 6)%Z) 
      by (rewrite week_number_day by lia; unfold week_day;
          pose proof (Z.mod_pos_bound (week_sum y m 1) 7 ltac:(lia)); lia).
    assert (MB : (28 <= month_days y m <= 31)%Z)
      by (apply (month_length_range y m); now apply month_length_days).
    destruct (blank_loop H (n + 1 + 1 + 1 + 1 + 1) y m d (week_number y m 1) (month_days y m) (s_trace s3) (s_log s3)
      (zrange 0 (Z.to_nat (week_number y m 1 - 0))) ltac:(lia) _ _ DR) as (vs1 & SS1 & I1 & DR1).
    destruct (day_loop H (n + 1 + 1 + 1 + 1 + 1) y m d (week_number y m 1) (month_days y m) (s_trace s3) (s_log s3)
      (zrange 1 (Z.to_nat (month_days y m + 1 - 1))) ltac:(lia) WB) with (2 := DR1) as (vs2 & SS2 & I2 & DR2).
    { apply Forall_forall. intros i I. apply ListFacts.zrange_in in I. lia. }
    eapply arrives_more; [lia | eapply run_for; [lia | | exact I1] |].
    1: { destruct DR as (K & D1 & D2 & D3 & D4 & _). clearbody SS. clear - K D2 L. known_loop K.
         eapply run_builtin_call; [lia | run | cbn [b_id]]. eapply run_to_of; run. }
    eapply arrives_more; [lia | eapply run_for; [lia | | exact I2] |].
    1: { destruct DR1 as (K & D1 & D2 & D3 & D4 & _). clear - K D3 L MB. known_loop K.
         eapply run_builtin_call; [lia | run | cbn [b_id]]. eapply run_to_of; run. }
    exists SS2. eapply and_comm. split; [destruct DR2 as (_ & _ & _ & _ & _ & X); exact X |].
    eapply run_do_one; [lia |].
    assert (TX : forall t1 t2 t3 t4 : str, length (((((t1 ++ t2) ++ weekdays_text) ++ t3) ++ t4)) >= 28).
    { intros. rewrite !app_length. change (length weekdays_text) with 28%nat. lia. }
    replace (week_number y m 1 - 0)%Z with (week_number y m 1) in DR2 by lia.
    replace (month_days y m + 1 - 1)%Z with (month_days y m) in DR2 by lia.
    unfold zrange at 1 in DR2. rewrite map_length, seq_length in DR2.
    match type of DR2 with drawing _ _ _ _ _ ?t _ _ _ => change t with (calendar_text y m d) in DR2 end.
    destruct DR2 as (K & D1 & D2 & D3 & D4 & D5 & D6). known_loop K.
    assert (WC : expr_index (EMap widget_module) (ESymbol (lit "create")) = bi WCreate "create") by reflexivity.
    clear MI. eapply run_builtin_call; [lia | run | cbn [b_id]].
    eapply run_exact_call.
    + eapply run_create_of; [run | run | run | run | lia | lia | cbn; lia].
    + unfold calendar_value. rewrite (proj2 (Nat.sub_0_le _ _)).
      * now rewrite app_nil_r.
      * specialize (TX (repeat 32%N (Z.to_nat (Z.quot (28 - Z.of_nat (length (title_text y m d))) 2 + 1)))
          (title_text y m d) (repeat 32%N (4 * Z.to_nat (week_number y m 1)))
          (flat_map (fun i => day_text d i ++ [day_end (i + week_number y m 1)])
             (zrange 1 (Z.to_nat (month_days y m))))).
        change (28 <= length (calendar_text y m d)) in TX. etransitivity; [| exact TX].
        change (Z.to_nat (30 - 2)) with 28%nat. vm_compute. lia.
Qed.
