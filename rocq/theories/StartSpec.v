(** Vocabulary of the theorems about the variables of a new shell. *)

From Coq Require Import String List.
From Verif Require Import Base Syntax Host Monad EvalSpec LibSpec Init.
Import ListNotations.

(** In the environment [e] the variable [x] has the value [v], or none. *)
Definition variable (e : env) (x : string) (v : expr) : Prop :=
  forall H t n, gives H (ESymbol (lit x)) (St e t n) v (St e t n).

(** The modules. *)
Definition modules : list string :=
  ["log"; "math"; "dict"; "shell"; "err"; "os"; "widget"; "time"; "rand"; "fn"; "console"; "fmt"; "parse"; "fs";
   "ops"; "string"; "list"; "sys"]%string.

(** The systems that are distributions of Linux. *)
Definition distributions : list os_type :=
  [OsAlpine; OsAmazon; OsArch; OsCentOS; OsDebian; OsFedora; OsLinux; OsManjaro; OsMint; OsOpenSUSE; OsEndeavourOS;
   OsOracleLinux; OsPop; OsRedhat; OsRedHatEnterprise; OsSolus; OsSUSE; OsUbuntu].
