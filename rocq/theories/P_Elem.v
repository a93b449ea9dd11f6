(** C110 to C112: square roots, functions of one number, logarithms, and
    factorials of floats. *)

From Coq Require Import String ZArith QArith Qabs List Lia Lqa SpecFloat.
From Verif Require Import Base Syntax Host Ops ErrorFmt Text Monad Builtins Eval EvalSpec
  LibFacts LibSpec MapFacts EvalFacts FloatSpec FloatFacts SqrtSpec SqrtFacts Init Demo.
From Verif Require P_Math P_Num FloatFmt.
Import ListNotations.
Open Scope Q_scope.

(** What [MFloat] does with a float and with an integer. *)
Lemma float_calls H fn what dbg a s f s' :
  gives H a s (EFloat f) s' ->
  calls H (MFloat fn what dbg) [a] s (ROk (EFloat (f64_call H fn f))) s'.
Proof.
  intros E. call. unfold run_float, exact1. sure_step.
  eapply sure_ev_arg; [reflexivity|exact E|]. apply sure_ret.
Qed.

Lemma int_calls H fn what dbg a s i s' :
  gives H a s (EInteger i) s' ->
  calls H (MFloat fn what dbg) [a] s (ROk (EFloat (f64_call H fn (f64_of_int i)))) s'.
Proof.
  intros E. call. unfold run_float, exact1. sure_step.
  eapply sure_ev_arg; [reflexivity|exact E|]. apply sure_ret.
Qed.

(** ** C110: square roots *)

(** The builtin under the name [sqrt]. *)
Definition sqrt_builtin : bid := MFloat (lit "sqrt") (lit "sqrt") false.

Theorem C110_root H a s f s' :
  gives H a s (EFloat f) s' -> finite f -> 0 < value f ->
  exists g, calls H sqrt_builtin [a] s (ROk (EFloat g)) s' /\ root_rounded (value f) g.
Proof.
  intros E F P. exists (SFsqrt 53 1024 f). split; [exact (float_calls H _ _ _ a s f s' E)|].
  destruct f as [z|z| |z m e]; [|destruct F|destruct F|].
  - change (value (S754_zero z)) with 0 in P. lra.
  - destruct z; [|now apply sqrt_rounded]. exfalso. cbn [value] in P. fold (pw e) in P.
    pose proof (pw_pos e). assert (inject_Z (Zneg m) < 0) by (apply (inj_lt _ 0); lia). nra.
Qed.

(** Only one float is the nearest to a root. *)
Theorem C110_unique q f g : 0 < q -> root_rounded q f -> root_rounded q g ->
  finite f -> finite g -> 0 <= value f -> 0 <= value g -> (exists x, square x == q) \/ value f == value g.
Proof.
  intros Q [x X0 X _|_ _ UF DF] [y Y0 Y _|_ _ UG DG] F G F0 G0; try (left; eexists; eassumption).
  right. destruct (Q_dec (value f) (value g)) as [[L|L]|L]; [exfalso|exfalso|exact L].
  - pose proof (UF g G L) as A. pose proof (DG f F F0 L) as B. unfold square in *.
    setoid_replace ((value g + value f) / 2) with ((value f + value g) / 2) in B by field. lra.
  - pose proof (UG f F L) as A. pose proof (DF g G G0 L) as B. unfold square in *.
    setoid_replace ((value g + value f) / 2) with ((value f + value g) / 2) in A by field. lra.
Qed.

(** The root of a square is exact: for floats whose square is a float, ... *)
Theorem C110_square H a s f r s' :
  gives H a s (EFloat f) s' -> finite f -> finite r -> 0 < value r -> square (value r) == value f ->
  exists g, calls H sqrt_builtin [a] s (ROk (EFloat g)) s' /\ finite g /\ value g == value r.
Proof.
  intros E F R P V. assert (0 < value f) by (rewrite <- V; unfold square; nra).
  destruct (C110_root H a s f s' E F H0) as (g & C & RR). exists g. split; [exact C|].
  eapply root_of_square; [exact R| |exact V|exact RR]. lra.
Qed.

(** ... and for all integers whose square is an integer of the language, even
    if the square has no float of its own. *)
Theorem C110_integer_square H a s n s' :
  gives H a s (EInteger (n * n)) s' -> (0 < n)%Z -> (n * n < 2 ^ 63)%Z ->
  exists g, calls H sqrt_builtin [a] s (ROk (EFloat g)) s' /\ finite g /\ value g == inject_Z n.
Proof.
  intros E N B. exists (SFsqrt 53 1024 (f64_of_int (n * n))).
  split; [exact (int_calls H _ _ _ a s _ s' E)|].
  apply root_of_whole; [nia|apply of_int_rounded].
Qed.

(** Zeros and the positive infinity are their own roots; NaN, negative numbers
    and the negative infinity have none. *)
Theorem C110_special H a s f s' :
  gives H a s (EFloat f) s' ->
  (In f [S754_zero false; S754_zero true; S754_infinity false] ->
     calls H sqrt_builtin [a] s (ROk (EFloat f)) s')
  /\ (f = S754_nan \/ f = S754_infinity true \/ finite f /\ value f < 0 ->
     calls H sqrt_builtin [a] s (ROk (EFloat S754_nan)) s').
Proof.
  intros E. pose proof (float_calls H (lit "sqrt") (lit "sqrt") false a s f s' E) as C. split.
  - intros I. repeat destruct I as [<-|I]; [exact C|exact C|exact C|destruct I].
  - intros [->|[->|[F L]]]; [exact C|exact C|].
    destruct f as [z|z| |z m e]; [|destruct F|destruct F|].
    + change (value (S754_zero z)) with 0 in L. lra.
    + destruct z; [exact C|]. pose proof (value_pos m e). lra.
Qed.

Example C110_example :
  value_of "(math@sqrt 2.25) == 1.5" = ROk (EBoolean true)
  /\ value_of "(math@sqrt 9223372030926249001) == 3037000499.0" = ROk (EBoolean true)
  /\ fst (eval (FloatFmt.with_floats demo_host) 200 0 (script "math@sqrt 2") demo)
     = ROk (EFloat (S754_finite false 6369051672525773 (-52)))
  /\ finite (f64_of_int 2) /\ 0 < value (f64_of_int 2) /\ f64_of_int 2 = S754_finite false 4503599627370496 (-51).
Proof.
  do 3 (split; [vm_compute; reflexivity|]).
  assert (E : f64_of_int 2 = S754_finite false 4503599627370496 (-51)) by (vm_compute; reflexivity).
  rewrite E. split; [left; lia|]. split; reflexivity.
Qed.

(** ** C111: functions of one number, and logarithms *)

(** An integer is treated like the nearest float. *)
Theorem C111_integer H fn what dbg a b s i f s' r t :
  gives H a s (EInteger i) s' -> gives H b s (EFloat f) s' ->
  rounded (inject_Z i) f -> (i = 0%Z -> f = S754_zero false) ->
  (calls H (MFloat fn what dbg) [a] s r t <-> calls H (MFloat fn what dbg) [b] s r t).
Proof.
  intros A B R Z. assert (f64_of_int i = f) as <-.
  { destruct (rounded_unique _ _ _ (of_int_rounded i) R) as [E|E]; [exact E|].
    assert (I0 : i = 0%Z) by (unfold Qeq in E; cbn in E; lia). rewrite (Z I0), I0. reflexivity. }
  pose proof (int_calls H fn what dbg a s i s' A) as CA.
  pose proof (float_calls H fn what dbg b s _ s' B) as CB.
  split; intros C.
  - destruct (calls_det _ _ _ _ _ _ _ _ CA C) as [<- <-]. exact CB.
  - destruct (calls_det _ _ _ _ _ _ _ _ CB C) as [<- <-]. exact CA.
Qed.

(** Other values are errors, after they were evaluated once. *)
Theorem C111_others H fn what dbg a s v s' :
  gives H a s v s' -> (forall z, v <> EInteger z) -> (forall f, v <> EFloat f) ->
  exists m, calls H (MFloat fn what dbg) [a] s (RErr (CustomError m)) s'.
Proof.
  intros E N1 N2. eexists. call. unfold run_float, exact1. sure_step.
  eapply sure_ev_arg; [reflexivity|exact E|].
  destruct v; try (now destruct (N1 z)); try (now destruct (N2 f)); apply sure_throw.
Qed.

(** The functions that are the host's of the same name ... *)
Definition host_functions : list string :=
  ["sinh"; "cosh"; "tanh"; "asinh"; "acosh"; "atanh"; "ln"; "cbrt";
   "sin"; "cos"; "tan"; "asin"; "acos"; "atan"]%string.

Theorem C111_host H fn what dbg a s f s' :
  In fn host_functions -> gives H a s (EFloat f) s' ->
  calls H (MFloat (lit fn) what dbg) [a] s (ROk (EFloat (h_libm H (lit fn) [f]))) s'.
Proof.
  intros I E. pose proof (float_calls H (lit fn) what dbg a s f s' E) as C.
  repeat destruct I as [<-|I]; try destruct I; exact C.
Qed.

(** ... and those of a number times pi, where the product is rounded. *)
Theorem C111_pi H fn g what dbg a s f s' :
  In (fn, g) [("sinpi", "sin"); ("cospi", "cos"); ("tanpi", "tan")]%string ->
  gives H a s (EFloat f) s' -> finite f ->
  exists p, rounded (value f * value (S754_finite false 7074237752028440 (-51))) p
    /\ calls H (MFloat (lit fn) what dbg) [a] s (ROk (EFloat (h_libm H (lit g) [p]))) s'.
Proof.
  intros I E F. exists (f64_mul f f64_pi). split.
  - apply mul_rounded; [exact F|]. cbn. left. lia.
  - pose proof (float_calls H (lit fn) what dbg a s f s' E) as C.
    destruct I as [I|[I|[I|[]]]]; injection I as <- <-; exact C.
Qed.

(** The constant [PI] of the library is that number. *)
Theorem C111_pi_constant e :
  bm_get (lit "PI") (math_module e) = Some (EFloat (S754_finite false 7074237752028440 (-51))).
Proof. reflexivity. Qed.

(** All of them are in the library under their names. *)
Theorem C111_library e fn :
  In fn (host_functions ++ ["sinpi"; "cospi"; "tanpi"; "log2"; "log10"; "sqrt"]%string) ->
  exists what dbg,
    bm_get (lit fn) (math_module e) = Some (EBuiltin (Bi (MFloat (lit fn) (lit what) dbg) (lit fn))).
Proof.
  intros I. cbn [host_functions app] in I.
  repeat destruct I as [<-|I]; try destruct I; do 2 eexists; reflexivity.
Qed.

(** A number for a logarithm: a float, or the float nearest to an integer. *)
Inductive as_float : expr -> f64 -> Prop :=
| as_float_float f : as_float (EFloat f) f
| as_float_int i f : rounded (inject_Z i) f -> (i = 0%Z -> f = S754_zero false) -> as_float (EInteger i) f.

Lemma as_float_of_int i f : as_float (EInteger i) f -> f64_of_int i = f.
Proof.
  intros A. inversion A as [|? ? R Z]; subst.
  destruct (rounded_unique _ _ _ (of_int_rounded i) R) as [E|E]; [exact E|].
  assert (I0 : i = 0%Z) by (unfold Qeq in E; cbn in E; lia). rewrite (Z I0), I0. reflexivity.
Qed.

Lemma log_calls H a1 a2 s v1 v2 b x s1 s2 :
  gives H a1 s v1 s1 -> gives H a2 s1 v2 s2 -> as_float v1 b -> as_float v2 x ->
  calls H MLog [a1; a2] s (ROk (EFloat (f64_log H x b))) s2.
Proof.
  intros E1 E2 A1 A2. call. unfold run_log. sure_step.
  eapply sure_ev_arg; [reflexivity|exact E1|].
  destruct v1; try solve [inversion A1].
  - rewrite (as_float_of_int _ _ A1). sure_step. eapply sure_ev_arg; [reflexivity|exact E2|].
    destruct v2; try solve [inversion A2].
    + rewrite (as_float_of_int _ _ A2). sure_step. apply sure_ret.
    + inversion A2; subst. sure_step. apply sure_ret.
  - inversion A1; subst. sure_step. eapply sure_ev_arg; [reflexivity|exact E2|].
    destruct v2; try solve [inversion A2].
    + rewrite (as_float_of_int _ _ A2). sure_step. apply sure_ret.
    + inversion A2; subst. sure_step. apply sure_ret.
Qed.

(** The logarithm is the rounded quotient of the host's natural logarithms; the
    base is the first argument and is evaluated first. *)
Theorem C111_log H a1 a2 s v1 v2 b x s1 s2 :
  gives H a1 s v1 s1 -> gives H a2 s1 v2 s2 -> as_float v1 b -> as_float v2 x ->
  let lb := h_libm H (lit "ln") [b] in let lx := h_libm H (lit "ln") [x] in
  finite lb -> finite lx -> ~ value lb == 0 ->
  exists q, rounded (value lx / value lb) q /\ calls H MLog [a1; a2] s (ROk (EFloat q)) s2.
Proof.
  intros E1 E2 A1 A2 lb lx FB FX NZ. exists (f64_log H x b). split; [|exact (log_calls _ _ _ _ _ _ _ _ _ _ E1 E2 A1 A2)].
  now apply div_rounded.
Qed.

(** The logarithm of a number to itself is one. *)
Theorem C111_log_self H a1 a2 s v1 v2 b s1 s2 :
  gives H a1 s v1 s1 -> gives H a2 s1 v2 s2 -> as_float v1 b -> as_float v2 b ->
  finite (h_libm H (lit "ln") [b]) -> ~ value (h_libm H (lit "ln") [b]) == 0 ->
  exists q, calls H MLog [a1; a2] s (ROk (EFloat q)) s2 /\ finite q /\ value q == 1.
Proof.
  intros E1 E2 A1 A2 F NZ.
  destruct (C111_log H a1 a2 s v1 v2 b b s1 s2 E1 E2 A1 A2 F F NZ) as (q & R & C).
  exists q. split; [exact C|].
  assert (R1 : rounded 1 q) by (eapply rounded_eq; [|exact R]; field; exact NZ).
  destruct (rounded_unique 1 q (S754_finite false (2 ^ 52) (-52)) R1) as [->|E]; [|split; [left; lia|reflexivity]|discriminate].
  apply (rounded_eq (value (S754_finite false (2 ^ 52) (-52)))); [reflexivity|].
  apply finite_rounded. left. lia.
Qed.

(** [log2] and [log10] are [log] with the bases 2 and 10. *)
Theorem C111_log_base H fn base what dbg a1 a2 s v x s' r t :
  In (fn, base) [("log2"%string, 2%Z); ("log10"%string, 10%Z)] ->
  gives H a1 s (EInteger base) s -> gives H a2 s v s' -> as_float v x ->
  (calls H (MFloat (lit fn) what dbg) [a2] s r t <-> calls H MLog [a1; a2] s r t).
Proof.
  intros I E1 E2 A.
  assert (AB : as_float (EInteger base) (f64_of_int base)).
  { constructor; [apply of_int_rounded|]. intros ->. reflexivity. }
  pose proof (log_calls H a1 a2 s _ _ _ _ _ _ E1 E2 AB A) as CL.
  assert (CF : calls H (MFloat (lit fn) what dbg) [a2] s (ROk (EFloat (f64_log H x (f64_of_int base)))) s').
  { destruct v; try solve [inversion A].
    - rewrite <- (as_float_of_int _ _ A). pose proof (int_calls H (lit fn) what dbg a2 s z s' E2) as C.
      destruct I as [I|[I|[]]]; injection I as <- <-; exact C.
    - inversion A; subst. pose proof (float_calls H (lit fn) what dbg a2 s x s' E2) as C.
      destruct I as [I|[I|[]]]; injection I as <- <-; exact C. }
  split; intros C.
  - destruct (calls_det _ _ _ _ _ _ _ _ CF C) as [<- <-]. exact CL.
  - destruct (calls_det _ _ _ _ _ _ _ _ CL C) as [<- <-]. exact CF.
Qed.

(** [H] with other functions of floats. *)
Definition with_libm (f : str -> list f64 -> f64) (H : host) : host :=
  {| h_answer := h_answer H;
     h_float := h_float H; h_printable := h_printable H; h_table := h_table H;
     h_lossy := h_lossy H; h_alphabetic := h_alphabetic H; h_numeric := h_numeric H;
     h_lowercase := h_lowercase H; h_uppercase := h_uppercase H;
     h_to_lower := h_to_lower H; h_to_upper := h_to_upper H; h_overflow := h_overflow H;
     h_libm := f; h_path_debug := h_path_debug H; h_wrap := h_wrap H;
     h_json := h_json H; h_toml := h_toml H |}.

(** The floats nearest to the natural logarithms of 10 and of 1000. *)
Definition ln10 : f64 := S754_finite false 5184960683398422 (-51).
Definition ln1000 : f64 := S754_finite false 7777441025097632 (-50).

(** It is not so that the logarithms of powers of the base are exact: with
    natural logarithms as good as floats can be, [log10 1000] is less than 3. *)
Theorem C111_powers_refuted H a s s' :
  h_libm H (lit "ln") [f64_of_int 10] = ln10 -> h_libm H (lit "ln") [f64_of_int 1000] = ln1000 ->
  gives H a s (EInteger 1000) s' ->
  exists q, calls H (MFloat (lit "log10") (lit "log10") false) [a] s (ROk (EFloat q)) s'
    /\ finite q /\ value q < 3.
Proof.
  intros L1 L2 E. exists (S754_finite false 6755399441055743 (-51)). split; [|split].
  - pose proof (int_calls H (lit "log10") (lit "log10") false a s 1000 s' E) as C.
    change (f64_call H (lit "log10") (f64_of_int 1000))
      with (f64_div (h_libm H (lit "ln") [f64_of_int 1000]) (h_libm H (lit "ln") [f64_of_int 10])) in C.
    rewrite L1, L2 in C. exact C.
  - left. lia.
  - reflexivity.
Qed.

(** A host with these logarithms, and others that are wrong but not zero. *)
Definition log_host : host :=
  with_libm
    (fun fn xs => match xs with
                  | [x] => if f64_eqb x (f64_of_int 10) then ln10
                           else if f64_eqb x (f64_of_int 1000) then ln1000 else f64_one
                  | _ => f64_one
                  end) demo_host.

Example C111_example :
  fst (eval log_host 200 0 (script "(math@log10 1000) < 3.0") demo) = ROk (EBoolean true)
  /\ fst (eval log_host 200 0 (script "(math@log 10 1000) == (math@log10 1000)") demo) = ROk (EBoolean true)
  /\ fst (eval log_host 200 0 (script "(math@log 10 10) == 1.0") demo) = ROk (EBoolean true)
  /\ (exists m, fst (eval log_host 200 0 (script "math@sin True") demo) = RErr (CustomError m))
  /\ finite (h_libm log_host (lit "ln") [f64_of_int 10]) /\ ~ value (h_libm log_host (lit "ln") [f64_of_int 10]) == 0.
Proof.
  split; [vm_compute; reflexivity|]. split; [vm_compute; reflexivity|]. split; [vm_compute; reflexivity|].
  split; [eexists; vm_compute; reflexivity|].
  split; [left; vm_compute; intuition congruence|vm_compute; discriminate].
Qed.

(** ** C112: factorials of floats *)

(** Floats below zero give an error; all others a float, and nothing else is
    asked of the world than the value of the argument. *)
Theorem C112_outcome H a s f s' :
  gives H a s (EFloat f) s' ->
  (finite f /\ value f < 0 \/ f = S754_infinity true ->
     exists m, calls H MFact [a] s (RErr (CustomError m)) s')
  /\ (finite f /\ 0 <= value f \/ f = S754_infinity false \/ f = S754_nan ->
     exists g, calls H MFact [a] s (ROk (EFloat g)) s').
Proof.
  intros E.
  assert (C : forall r, (if SFltb f f64_zero then r = RErr (CustomError (lit "cannot take the factorial of a negative number"))
                         else r = ROk (EFloat (f64_fact H f))) -> calls H MFact [a] s r s').
  { intros r R. call.
    - now destruct (SFltb f f64_zero); subst r.
    - unfold run_fact, exact1. sure_step. eapply sure_ev_arg; [reflexivity|exact E|].
      cbv zeta beta iota. destruct (SFltb f f64_zero); subst r; [apply sure_throw|apply sure_ret]. }
  split.
  - intros L. assert (B : SFltb f f64_zero = true).
    { destruct L as [[F L]| ->]; [|reflexivity]. destruct f as [z|z| |z m e]; [|destruct F|destruct F|].
      - change (value (S754_zero z)) with 0 in L. lra.
      - destruct z; [reflexivity|]. pose proof (value_pos m e). lra. }
    rewrite B in C. eexists. now apply C.
  - intros L. assert (B : SFltb f f64_zero = false).
    { destruct L as [[F L]|[-> | ->]]; [|reflexivity|reflexivity]. destruct f as [z|z| |z m e]; [|destruct F|destruct F|].
      - reflexivity.
      - destruct z; [|reflexivity]. exfalso. cbn [value] in L. fold (pw e) in L.
        pose proof (pw_pos e). assert (inject_Z (Zneg m) < 0) by (apply (inj_lt _ 0); lia). nra. }
    rewrite B in C. eexists. now apply C.
Qed.

Lemma nan_mul_r x : f64_mul x S754_nan = S754_nan.
Proof. now destruct x as [[]|[]| |[] m e]. Qed.

(** The factorial of [0.0] is NaN, whatever the host computes. *)
Theorem C112_zero_refuted H a s z s' :
  gives H a s (EFloat (S754_zero z)) s' ->
  calls H MFact [a] s (ROk (EFloat S754_nan)) s'.
Proof.
  intros E. call. unfold run_fact, exact1. sure_step. eapply sure_ev_arg; [reflexivity|exact E|].
  cbv zeta beta iota. replace (SFltb (S754_zero z) f64_zero) with false by now destruct z.
  assert (N : f64_fact H (S754_zero z) = S754_nan).
  { unfold f64_fact. cbv zeta.
    match goal with |- f64_rounded _ (f64_mul ?x ?y) = _ =>
      replace y with S754_nan by (destruct z; vm_compute; reflexivity) end.
    now rewrite nan_mul_r. }
  rewrite N. apply sure_ret.
Qed.

(** The factorial of [1.0] is [3.0] on every host that knows that the logarithm
    of one is zero and that the exponential of zero is one. *)
Theorem C112_one_refuted H a s s' :
  h_libm H (lit "ln") [f64_one] = S754_zero false ->
  h_libm H (lit "exp") [S754_zero false] = f64_one ->
  gives H a s (EFloat f64_one) s' ->
  exists g, calls H MFact [a] s (ROk (EFloat g)) s' /\ finite g /\ value g == 3.
Proof.
  intros L X E. exists (S754_finite false 6755399441055744 (-51)). split; [|split; [left; lia|reflexivity]].
  call. unfold run_fact, exact1. sure_step. eapply sure_ev_arg; [reflexivity|exact E|].
  cbv zeta beta iota. change (SFltb f64_one f64_zero) with false.
  assert (N : f64_fact H f64_one = S754_finite false 6755399441055744 (-51)).
  { unfold f64_fact. cbv zeta. rewrite L.
    assert (Y : h_libm H (lit "exp") [f64_mul (S754_zero false) (S754_zero false)] = f64_one) by exact X. rewrite Y.
    vm_compute. reflexivity. }
  rewrite N. apply sure_ret.
Qed.

(** So the factorial of a float that is a whole number is in general not the
    factorial of the number. *)
Theorem C112_whole_refuted :
  exists H f n k v, finite f /\ value f == inject_Z n /\ P_Math.factorial n k
    /\ calls H MFact [EFloat f] demo (ROk (EFloat v)) demo /\ (finite v -> ~ value v == inject_Z k).
Proof.
  exists demo_host, (S754_zero false), 0%Z, 1%Z, S754_nan.
  split; [exact I|]. split; [reflexivity|]. split; [constructor|]. split; [|intros []].
  apply C112_zero_refuted with (z := false). apply value_evaluates. split; [constructor|vm_compute; discriminate].
Qed.

Example C112_example :
  let H := with_libm (fun fn _ => if str_eqb fn (lit "ln") then S754_zero false else f64_one) demo_host in
  fst (eval H 200 0 (script "(math@fact 1.0) == 3.0") demo) = ROk (EBoolean true)
  /\ fst (eval H 200 0 (script "(math@fact 0.0) == (math@fact 0.0)") demo) = ROk (EBoolean false)
  /\ fst (eval H 200 0 (script "math@fact 0") demo) = ROk (EInteger 1).
Proof. repeat split; vm_compute; reflexivity. Qed.

Print Assumptions C110_root.
Print Assumptions C110_unique.
Print Assumptions C110_square.
Print Assumptions C110_integer_square.
Print Assumptions C110_special.
Print Assumptions C111_integer.
Print Assumptions C111_others.
Print Assumptions C111_host.
Print Assumptions C111_pi.
Print Assumptions C111_pi_constant.
Print Assumptions C111_library.
Print Assumptions C111_log.
Print Assumptions C111_log_self.
Print Assumptions C111_log_base.
Print Assumptions C111_powers_refuted.
Print Assumptions C112_outcome.
Print Assumptions C112_zero_refuted.
Print Assumptions C112_one_refuted.
Print Assumptions C112_whole_refuted.
