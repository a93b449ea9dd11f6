(** Vocabulary of the theorems about the functions of the start-up script that
    read directories and files. *)

From Coq Require Import String List NArith ZArith.
From Verif Require Import Base Syntax Host Monad EvalSpec Init Builtins StrSpec.
Import ListNotations.

(** The function [k] of the module [x] is the builtin function [b]. *)
Definition member (e : env) (x k : string) (b : bid) : Prop :=
  exists m nm, env_get (lit x) e = Some (EMap m) /\ bm_get (lit k) m = Some (EBuiltin (Bi b nm)).
Definition stands (e : env) (x : string) (b : bid) : Prop :=
  exists nm, env_get (lit x) e = Some (EBuiltin (Bi b nm)).

(** The names that [$] uses are what they are in a new shell.
    src/binary/init/mod.rs:28-437. *)
Definition searching (e : env) : Prop :=
  stands e "|" BPipe /\ stands e "@" BIndex /\ stands e "==" BEq /\ stands e "+" BAdd
  /\ stands e "len" BLen /\ member e "fs" "ls" KLs /\ member e "fn" "filter" FFilter
  /\ member e "string" "split" SSplit /\ env_get (lit ".") e = None.

(** The names that [include] and [use] use. *)
Definition reading (e : env) : Prop :=
  stands e "@" BIndex /\ stands e "exec" BExec /\ stands e "eval" BEval
  /\ member e "fs" "read" KRead /\ member e "parse" "expr" PExpr.

(** The text [t] contains [p], and what follows the first [p] does not. *)
Definition once (p t : str) : Prop := exists a r, first_at p a r t /\ ~ inside p r.

(** The members of [l] with the property [P], in their order. *)
Inductive those {A} (P : A -> Prop) : list A -> list A -> Prop :=
| those_nil : those P [] []
| those_yes x l m : P x -> those P l m -> those P (x :: l) (x :: m)
| those_no x l m : ~ P x -> those P l m -> those P (x :: l) m.
