(** C51: integers never leave the 64 bit range. *)

From Coq Require Import String.
From Verif Require Import Base Syntax OpsSpec RangeSpec Parser Host Monad Eval Init Demo RangeFacts.

(** A state of the shell in which all integers are 64 bit integers: those in the
    variables and the log level. *)
Definition in_range (s : st) : Prop := env_fit (s_env s) /\ fits (s_log s).

(** Literals outside the range are not accepted: a script that is accepted
    contains no integer that does not fit. *)
Theorem C51_accepted_scripts source e : parse_script source = SOk e -> all_fit e.
Proof. apply parse_script_small. Qed.

Lemma fits_forallb l :
  forallb (fun z => (- 2 ^ 63 <=? z)%Z && (z <? 2 ^ 63)%Z) l = true -> Forall fits l.
Proof.
  intros B. rewrite forallb_forall in B. apply Forall_forall. intros z Z. specialize (B z Z).
  apply andb_prop in B. destruct B as [L R]. apply Z.leb_le in L. apply Z.ltb_lt in R. now split.
Qed.

(** The environment in which the shell starts. *)
Theorem C51_start m : env_fit (init m).
Proof.
  destruct m as [[h |] [c |] [d |] [o |] [w |] os v [x |] g [|]];
    unfold env_fit; apply fits_forallb; vm_compute; reflexivity.
Qed.

(** Evaluation, with whatever builtin functions and whatever the outside world
    answers: the variables and the value stay in range, and the variables do so
    when evaluation fails, too. *)
Theorem C51_integers_fit H fuel depth e s :
  all_fit e -> in_range s ->
  in_range (snd (eval H fuel depth e s))
  /\ forall v, fst (eval H fuel depth e s) = ROk v -> all_fit v.
Proof.
  intros E S. destruct (safe_eval H fuel depth e E s S) as [S' V]. split; [exact S' |].
  intros v X. rewrite X in V. exact V.
Qed.

(** A session: the shell reads scripts and evaluates those it accepts. *)
Inductive session (H : host) : st -> st -> Prop :=
| session_start m log : session H (St (init m) [] log) (St (init m) [] log)
| session_step s s' fuel source e :
    session H s s' -> parse_script source = SOk e -> session H s (snd (eval H fuel 0 e s')).

(** No variable ever has a value with an integer outside the range, and neither
    has what the next script evaluates to. *)
Theorem C51_session H s s' fuel source e v :
  session H s s' -> fits (s_log s) -> parse_script source = SOk e ->
  in_range s' /\ (fst (eval H fuel 0 e s') = ROk v -> all_fit v).
Proof.
  intros T L P.
  assert (R : in_range s').
  { clear P. induction T as [m log | s s' n src e' T IH P].
    - split; [apply C51_start | exact L].
    - apply C51_integers_fit; [now apply (C51_accepted_scripts src) | auto]. }
  split; [exact R |]. apply C51_integers_fit; [now apply (C51_accepted_scripts source) | exact R].
Qed.

(** Sums and powers beyond the range are errors, and a literal beyond the range
    is not accepted. *)
Example C51_example :
  session demo_host demo (snd (eval demo_host 300 0 (script "let x = 9223372036854775807; let y = x - 1") demo))
  /\ fst (eval demo_host 300 0 (script "let x = 9223372036854775807; let f = z -> x - z; [f 0, f 7, 0 - x]") demo)
     = ROk (EList [EInteger (2 ^ 63 - 1); EInteger (2 ^ 63 - 8); EInteger (- (2 ^ 63) + 1)])
  /\ (exists m, fst (eval demo_host 300 0 (script "9223372036854775807 + 1") demo) = RErr m)
  /\ (exists m, fst (eval demo_host 300 0 (script "math@pow 10 19") demo) = RErr m)
  /\ (forall e, parse_script (lit "9223372036854775808") <> SOk e).
Proof.
  split; [| split; [| split; [| split]]].
  - apply (session_step _ _ demo _ (lit "let x = 9223372036854775807; let y = x - 1")).
    + apply session_start.
    + vm_compute. reflexivity.
  - vm_compute. reflexivity.
  - eexists. vm_compute. reflexivity.
  - eexists. vm_compute. reflexivity.
  - intros e. vm_compute. discriminate.
Qed.

Print Assumptions C51_accepted_scripts.
Print Assumptions C51_start.
Print Assumptions C51_integers_fit.
Print Assumptions C51_session.
