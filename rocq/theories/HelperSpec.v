(** Vocabulary of the theorems about the small functions of the start-up script. *)

From Coq Require Import String List NArith.
From Verif Require Import Base Syntax Host Monad EvalSpec Init Builtins Prelude PreludeFacts.
Import ListNotations.

(** src/.default-dune-prelude:33-58, as the parser reads them. *)
Definition helper_definitions : list expr := Eval vm_compute in firstn 13 default_program.

Definition helper_names : list str :=
  map lit ["$"; "include"; "use"; "get"; "open"; "concat"; "ssh"; "scp"; "~";
           "OLD-EXIT"; "quit"; "q"; "exit"]%string.

(** What the names they use are in a new shell.
    src/binary/init/mod.rs:28-437. *)
Definition helper_uses : list (str * expr) :=
  [ (lit "@", bi BIndex "@"); (lit "+", bi BAdd "+"); (lit "str", bi BStr "str");
    (lit "exit", bi OExit "exit") ]%string.
Definition unhelped (e : env) : Prop :=
  (forall x v, In (x, v) helper_uses -> env_get x e = Some v)
  /\ (exists m, env_get (lit "fs") e = Some (EMap m) /\ bm_get (lit "read") m = Some (bi KRead "read"))
  /\ env_get (lit "-X") e = None /\ env_get (lit "-r") e = None.

(** The helpers are as the script defined them in such a shell. *)
Definition helped (H : host) (e : env) : Prop :=
  exists s v s1, unhelped (s_env s) /\ evaluates H 0 (EDo helper_definitions) s (ROk v) s1
                 /\ forall x, In x helper_names -> env_get x e = env_get x (s_env s1).

(** Statements of a script are part of another one, in order and together. *)
Definition part_of (l whole : list expr) : Prop := exists a b, whole = a ++ l ++ b.

(** One program is run with exactly these arguments in the directory [cwd]; the
    answer of the operating system decides the outcome [r]. *)
Definition runs (H : host) (prog : str) (ws : list str) (cwd : str) (s : st) (r : res expr) (s' : st) : Prop :=
  exists vars f args,
    let rq := RqStatus (Command prog ws cwd vars) in
    let answer := h_answer H (s_trace s) rq in
    command_result prog f args answer r
    /\ s_trace s' = (rq, answer) :: s_trace s /\ s_env s' = s_env s /\ s_log s' = s_log s.
