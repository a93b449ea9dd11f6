(** The calendar functions of the start-up scripts. *)

From Coq Require Import String Lia ZArith Floats.SpecFloat.
From Verif Require Import Base Syntax Host Ops Monad Builtins Eval Init EvalSpec OpsSpec EvalFacts
  LibFacts OpsFacts RunFacts MapFacts Parser Prelude PreludeFacts.
From Verif Require Import CalendarDefs P_Start.
From Verif Require TruncFacts.
From Verif Require Import GregorianFacts.

Definition leap_body : expr :=
  Eval vm_compute in body_of (assigned (lit "is-leapyear") default_program).
Definition month_body : expr :=
  Eval vm_compute in body_of (body_of (assigned (lit "days-in-month") default_program)).
Definition week_body : expr :=
  Eval vm_compute in body_of (body_of (body_of (assigned (lit "day-of-week") default_program))).
Definition calendar_body : expr :=
  Eval vm_compute in body_of (body_of (body_of (assigned (lit "make-calendar") default_program))).

Lemma standard_new m : standard (init m).
Proof.
  intros x v I. destruct (init_parts m) as (w & a & b & math & ->). cbv zeta.
  rewrite (get_defines (fun kv => lit (fst kv)) snd). unfold define_all.
  rewrite (get_defines fst snd), env_get_define, (get_defines fst snd).
  generalize (define_dirs m), log_module, dict_module, (shell_module m), err_module, (os_module m),
    time_module, rand_module, fn_module, console_module, fmt_module, parse_module, string_module,
    list_module, sys_module.
  intros. unfold shell_names in I. cbn [In] in I.
  repeat (destruct I as [I | I]; [injection I as <- <-; vm_compute; reflexivity |]).
  contradiction.
Qed.

(** ** Leap years *)

Lemma standard_all e : standard e ->
  fold_right (fun p P => env_get (fst p) e = Some (snd p) /\ P) True shell_names.
Proof.
  unfold standard. induction shell_names as [| [x v] l IH]; intros S; cbn; [exact I |].
  split; [apply S; now left | apply IH; intros; apply S; now right].
Qed.

(** Adds what is known about the names of the shell in [e]. *)
Ltac known S :=
  let A := fresh in
  pose proof (standard_all _ S) as A;
  lazy beta iota zeta delta [fold_right shell_names fst snd] in A;
  repeat match type of A with _ /\ _ => let B := fresh "KNOWN" in destruct A as [B A] end; clear A.

Definition leap_function (e : env) : expr :=
  ELambda (lit "year") leap_body (capture e (lit "year") leap_body (Env [] None)).

Lemma leap_run H d f a s y e s0 s1 :
  standard e -> fits y -> (d + 20 <= MAX_DEPTH)%N ->
  evaluates H (d + 1) f s (ROk (leap_function e)) s0 ->
  evaluates H (d + 1) a s0 (ROk (EInteger y)) s1 ->
  evaluates H d (EApply f [a]) s (ROk (EBoolean (is_leap y))) s1.
Proof.
  intros S F L EF EA. eapply run_end; [eapply run_call; [lia | exact EF | exact EA |] |].
  - known S. unfold leap_body at 1. unfold is_leap.
    destruct (Z.rem y 4 =? 0)%Z eqn:A, (Z.rem y 100 =? 0)%Z eqn:B, (Z.rem y 400 =? 0)%Z eqn:C;
      cbn [andb orb negb]; run.
  - now destruct s1.
Qed.

Ltac run_special ::=
  eapply leap_run; [| | | solve [run] | run | ..]; cycle 3; [eassumption | run_fits | run_depth].

(** ** The lengths of the months *)

Definition month_function (e : env) : expr :=
  ELambda (lit "month") (ELambda (lit "year") month_body (Env [] None))
    (capture e (lit "month") (ELambda (lit "year") month_body (Env [] None)) (Env [] None)).

Lemma month_run H d f a1 a2 s y m e e' s0 s1 s2 :
  standard e -> standard e' -> env_get (lit "is-leapyear") e = Some (leap_function e') ->
  fits y -> (1 <= m <= 12)%Z -> (d + 40 <= MAX_DEPTH)%N ->
  evaluates H (d + 1) f s (ROk (month_function e)) s0 ->
  evaluates H (d + 1) a1 s0 (ROk (EInteger m)) s1 ->
  evaluates H (d + 1 + 1) a2 s1 (ROk (EInteger y)) s2 ->
  evaluates H d (EApply f [a1; a2]) s (ROk (EInteger (month_days y m))) s2.
Proof.
  intros S S' LF F M L EF E1 E2.
  eapply run_call_more; [lia | exact EF | exact E1 | eapply run_lambda; lia |].
  match goal with |- evaluates _ _ _ ?t _ _ => replace t with s1 by now destruct s1 end.
  eapply run_end; [eapply run_call; [lia | eapply run_lambda; lia | exact E2 |] |].
  - known S. unfold month_body at 1. unfold month_days.
    destruct (m =? 2)%Z eqn:A; [destruct (is_leap y) eqn:B |].
    + run.
    + run.
    + pose proof (Z.rem_bound_pos (m - 1) 7 ltac:(lia) ltac:(lia)) as R1.
      pose proof (Z.rem_bound_pos (Z.rem (m - 1) 7) 2 ltac:(lia) ltac:(lia)) as R2.
      run.
  - now destruct s2.
Qed.

(** ** The days of the week *)

Definition week_function (e : env) : expr :=
  ELambda (lit "m") (ELambda (lit "d") (ELambda (lit "y") week_body (Env [] None)) (Env [] None))
    (capture e (lit "m") (ELambda (lit "d") (ELambda (lit "y") week_body (Env [] None)) (Env [] None)) (Env [] None)).

Lemma quarter y : (0 <= y <= 2 ^ 53)%Z ->
  f64_to_int (f64_div (f64_of_int y) (S754_finite false 4503599627370496 (-50))) = (y / 4)%Z.
Proof.
  intros Y. apply (TruncFacts.quotient_truncates y 4 2); [exact Y | lia | lia | | reflexivity].
  left. lia.
Qed.
Lemma hundredth y : (0 <= y <= 2 ^ 53)%Z ->
  f64_to_int (f64_div (f64_of_int y) (S754_finite false 7036874417766400 (-46))) = (y / 100)%Z.
Proof.
  intros Y. apply (TruncFacts.quotient_truncates y 100 6); [exact Y | lia | lia | | reflexivity].
  left. lia.
Qed.
Lemma four_hundredth y : (0 <= y <= 2 ^ 53)%Z ->
  f64_to_int (f64_div (f64_of_int y) (S754_finite false 7036874417766400 (-44))) = (y / 400)%Z.
Proof.
  intros Y. apply (TruncFacts.quotient_truncates y 400 8); [exact Y | lia | lia | | reflexivity].
  left. lia.
Qed.

Lemma table_run m : (1 <= m <= 12)%Z ->
  expr_index (EList (map EInteger table)) (EInteger (m - 1))
  = EInteger (nth (Z.to_nat (m - 1)) table 0%Z).
Proof.
  intros M. apply months in M. repeat destruct M as [-> | M]; try (subst m); reflexivity.
Qed.
Lemma week_run H n f a1 a2 a3 s y m d e s0 s1 s2 s3 :
  standard e -> (1 <= y <= 2 ^ 53)%Z -> (1 <= m <= 12)%Z -> (1 <= d <= 31)%Z ->
  (n + 40 <= MAX_DEPTH)%N ->
  evaluates H (n + 1) f s (ROk (week_function e)) s0 ->
  evaluates H (n + 1) a1 s0 (ROk (EInteger m)) s1 ->
  evaluates H (n + 1 + 1) a2 s1 (ROk (EInteger d)) s2 ->
  evaluates H (n + 1 + 1 + 1) a3 s2 (ROk (EInteger y)) s3 ->
  evaluates H n (EApply f [a1; a2; a3]) s (ROk (EInteger (week_number y m d))) s3.
Proof.
  intros S Y M D L EF E1 E2 E3.
  eapply run_call_more; [lia | exact EF | exact E1 | eapply run_lambda; lia |].
  match goal with |- evaluates _ _ _ ?t _ _ => replace t with s1 by now destruct s1 end.
  eapply run_call_more; [lia | eapply run_lambda; lia | exact E2 | eapply run_lambda; lia |].
  match goal with |- evaluates _ _ _ ?t _ _ => replace t with s2 by now destruct s2 end.
  pose proof (table_run m M) as T. pose proof (table_small m) as TS. cbn [map table] in T.
  assert (DIV : forall a, (0 <= a -> 0 <= a / 4 <= a /\ 0 <= a / 100 <= a /\ 0 <= a / 400 <= a)%Z).
  { intros a A. repeat split; try (apply Z.div_pos; lia); apply Z.div_le_upper_bound; lia. }
  destruct (m <? 3)%Z eqn:A.
  - pose proof (quarter (y - 1) ltac:(lia)) as Q4. pose proof (hundredth (y - 1) ltac:(lia)) as Q100.
    pose proof (four_hundredth (y - 1) ltac:(lia)) as Q400. pose proof (DIV (y - 1)%Z ltac:(lia)) as B.
    eapply run_exact; [eapply run_call; [lia | eapply run_lambda; lia | exact E3 |] | |].
    + known S. unfold week_body at 1. run.
    + unfold week_number, week_sum, week_year. rewrite A. now rewrite Q4, Q100, Q400.
    + now destruct s3.
  - pose proof (quarter y ltac:(lia)) as Q4. pose proof (hundredth y ltac:(lia)) as Q100.
    pose proof (four_hundredth y ltac:(lia)) as Q400. pose proof (DIV y ltac:(lia)) as B.
    eapply run_exact; [eapply run_call; [lia | eapply run_lambda; lia | exact E3 |] | |].
    + known S. unfold week_body at 1. run.
    + unfold week_number, week_sum, week_year. rewrite A. now rewrite Q4, Q100, Q400.
    + now destruct s3.
Qed.
