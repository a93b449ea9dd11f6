(** Vocabulary of the theorems about the prompts and [join]. *)

From Coq Require Import String List NArith.
From Verif Require Import Base Syntax Host Builtins Init.
Import ListNotations.

(** [shown t v]: the text [t], with colour codes in it, looks like [v]. *)
Inductive shown : str -> str -> Prop :=
| shown_none : shown [] []
| shown_char c t v : c <> 27%N -> shown t v -> shown (c :: t) (c :: v)
| shown_code code t v : Forall (fun c => (48 <= c <= 57)%N) code -> shown t v ->
    shown ([27; 91]%N ++ code ++ [109]%N ++ t) v.

(** The texts with [sep] between each two. *)
Fixpoint separated (sep : str) (x : str) (l : list str) : str :=
  match l with
  | [] => x
  | y :: l => x ++ sep ++ separated sep y l
  end.

(** The names that the definitions of src/bin.rs:573-594 use, in a new shell.
    src/binary/init/mod.rs:28-437. *)
Definition opening_names : list (str * expr) :=
  [ (lit "+", bi BAdd "+"); (lit "*", curry (bi BMul "*") 2); (lit "@", bi BIndex "@");
    (lit "str", bi BStr "str"); (lit "len", bi BLen "len"); (lit "fmt", EMap fmt_module);
    (lit "fn", EMap fn_module); (lit "list", EMap list_module) ]%string.
Definition opening (e : env) : Prop :=
  forall x v, In (x, v) opening_names -> env_get x e = Some v.
