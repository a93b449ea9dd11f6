(** The statements of the start-up scripts that define the calendar. *)

From Coq Require Import String NArith List.
From Verif Require Import Base Syntax Host Monad EvalSpec Init Builtins Prelude PreludeFacts.
Import ListNotations.

(** src/.default-dune-prelude:630-707 and src/.intro-dune-prelude:285-362, as the parser
    reads them. *)
Definition calendar_definitions : list expr := Eval vm_compute in firstn 6 (skipn 33 default_program).

(** The text they are read from. *)
Definition calendar_source : str := Eval vm_compute in firstn (N.to_nat (19495 - 17853)) (skipn (N.to_nat 17853) default_prelude).

Definition calendar_names : list str :=
  map lit ["is-leapyear"; "days-in-month"; "day-of-week"; "WEEKDAYS"; "MONTHS"; "make-calendar"]%string.

(** What the operators and some functions are in a new shell.
    src/binary/init/mod.rs:28-437. *)
Definition shell_names : list (str * expr) :=
  [ (lit "+", bi BAdd "+"); (lit "-", bi BSub "-"); (lit "*", curry (bi BMul "*") 2);
    (lit "//", curry (bi BDiv "//") 2); (lit "%", curry (bi BRem "%") 2);
    (lit "&&", bi BAnd "&&"); (lit "==", bi BEq "=="); (lit "!=", bi BNe "!=");
    (lit "<", bi BLt "<"); (lit "@", bi BIndex "@"); (lit "int", bi BInt "int");
    (lit "str", bi BStr "str"); (lit "len", bi BLen "len"); (lit "to", bi BTo "to");
    (lit "widget", EMap widget_module) ]%string.
Definition standard (e : env) : Prop :=
  forall x v, In (x, v) shell_names -> env_get x e = Some v.

(** The names of the calendar are as the script defined them in a shell where
    the names above had their first values. *)
Definition prepared (H : host) (e : env) : Prop :=
  exists s v s1, standard (s_env s) /\ evaluates H 0 (EDo calendar_definitions) s (ROk v) s1
                 /\ forall x, In x calendar_names -> env_get x e = env_get x (s_env s1).
