(** Vocabulary of the theorems about redirection and about the functions that are
    written in the language of the shell. *)

From Coq Require Import String List NArith.
From Verif Require Import Base Syntax Host Monad EvalSpec Init Builtins GlobSpec.
Import ListNotations.

(** The names of redirection are what they are in a new shell.
    src/binary/init/operator_module.rs:267-290. *)
Definition redirecting (e : env) : Prop :=
  stands e "|" BPipe /\ stands e "<<" KRead
  /\ exists m, env_get (lit ">>") e = env_get (lit ">>") (init m)
            /\ env_get (lit ">>>") e = env_get (lit ">>>") (init m).

(** What the parser makes of [x >> f], [x >>> f] and [x << f].
    src/parser.rs:541-613. *)
Definition redirected (op : string) (x f : expr) : expr :=
  EGroup (EApply (ESymbol (lit "|")) [x; EApply (ESymbol (lit op)) [f]]).
Definition fed (x f : expr) : expr :=
  EGroup (EApply (ESymbol (lit "|")) [EApply (ESymbol (lit "<<")) [f]; x]).

(** The functions of the module [math] are what they are in a new shell. *)
Definition counting (e : env) : Prop :=
  stands e "@" BIndex /\ exists m, env_get (lit "math") e = env_get (lit "math") (init m).
Definition of_math (k : string) : expr :=
  EApply (ESymbol (lit "@")) [ESymbol (lit "math"); ESymbol (lit k)].
