(** A concrete outside world and the initial variables, for the examples that
    stand beside the theorems. *)

From Coq Require Import String Floats.SpecFloat.
From Verif Require Import Base Syntax Host Ops Parser Monad Builtins Eval Init EvalSpec.

(** Every request succeeds; every program prints "out"; every file contains
    "text". *)
Definition demo_answer (t : trace) (rq : request) : response :=
  match rq with
  | RqStage _ _ true => RsOutput (lit "out")
  | RqCanon p => RsPath p
  | RqRead _ => RsOutput (lit "text")
  | RqTest _ _ => RsBool true
  | RqRandom lo _ => RsInt lo
  | RqList _ _ => RsTexts [lit "a"; lit "b"]
  | RqTree _ => RsTree (DtDir [(lit "a", DtFile); (lit "b", DtDir [(lit "c", DtFile)])])
  | RqGlob _ => RsGlob [inl (lit "/tmp/a"); inl (lit "/b")]
  | RqNow => RsTime 2024 2 29 13 (lit "1:05 PM") (lit "02/29/24")
  | RqSize => RsSize 80 24
  | RqReadLine => RsText (lit "line" ++ [10%N])
  | RqReadPassword | RqInput _ => RsText (lit "line")
  | RqReadKey => RsKey (KeyF 1)
  | _ => RsOk
  end.

Definition demo_host : host :=
  Host demo_answer
       (fun _ => lit "0") (fun c => (c <? 65536)%N) (fun _ => lit "table")
       (fun b => b) (fun _ => true) (fun _ => false) (fun _ => true) (fun _ => false)
       (fun c => [c]) (fun c => [c]) OvfWrap (fun _ _ => S754_zero false) (fun p => p)
       (fun s _ => s) (fun _ => None) (fun _ => None).

Definition demo_env : env := init (Machine (Some (lit "/home/me")) (Some (lit "/tmp")) None
    (Some (lit "/home/me/Documents")) None OsDebian (lit "12") (Some (lit "/usr/bin/dunesh"))
    (lit "Use the `fs` module!") false).
Definition demo : st := St demo_env [] 0.

(** The expression of a script; one that cannot be evaluated when the script
    is not accepted. *)
Definition script (source : string) : expr :=
  match parse_script (lit source) with SOk e => e | _ => EApply ENone [] end.
Arguments script source%string_scope.

(** The outcome of a script in a new shell. *)
Definition run_demo (source : string) : res expr * st :=
  eval demo_host 200 0 (script source) demo.
Arguments run_demo source%string_scope.

Definition value_of (source : string) : res expr := fst (run_demo source).
Arguments value_of source%string_scope.
(** What the script printed and ran, first event first. *)
Definition effects_of (source : string) : list request :=
  rev (map fst (s_trace (snd (run_demo source)))).
Arguments effects_of source%string_scope.

(** Proves [evaluates] or [calls] for closed terms by computing. *)
Ltac compute_outcome fuel :=
  split; [discriminate | exists fuel; vm_compute; reflexivity].

Lemma run_demo_evaluates source r s' :
  run_demo source = (r, s') -> r <> RFuel ->
  evaluates demo_host 0 (script source) demo r s'.
Proof.
  unfold run_demo, evaluates, lim. generalize 200%nat (script source).
  intros n e E N. split; [exact N |]. exists n. exact E.
Qed.
