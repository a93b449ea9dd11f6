(** Printing, asking and explaining. *)

From Coq Require Import String List.
From Verif Require Import Base Syntax Host Monad Eval EvalSpec LibSpec SysSpec.
Import ListNotations.

(** Every argument is evaluated and then printed, with a space after it, the
    last one with [last] after it; an argument that fails ends this. *)
Inductive printing (H : host) (last : str) : list expr -> st -> res expr -> st -> Prop :=
| printing_nothing s : printing H last [] s (ROk ENone) s
| printing_last a s v t s1 :
    gives H a s v s1 -> shown H v t ->
    printing H last [a] s (ROk ENone) (told H (RqPrint (t ++ last)) s1)
| printing_more a b l s v t s1 r s' :
    gives H a s v s1 -> shown H v t ->
    printing H last (b :: l) (told H (RqPrint (t ++ [32%N])) s1) r s' ->
    printing H last (a :: b :: l) s r s'
| printing_fails a l s r r' s1 :
    evaluates H 0 a s r s1 -> fails r r' -> printing H last (a :: l) s r' s1.

(** The topics of [help]. *)
Definition topics : list str :=
  map lit ["me"; "prelude"; "types"; "scripting"; "builtin"; "lib"; "syntax"]%string.

Definition is_topic (a : expr) : Prop := exists x, a = ESymbol x /\ In x topics.

(** Topics are explained by their names; of other arguments the values that are
    builtin functions. *)
Inductive explaining (H : host) : list expr -> st -> res expr -> st -> Prop :=
| explaining_nothing s : explaining H [] s (ROk ENone) s
| explaining_topic x l s r s' :
    In x topics -> explaining H l (told H (RqHelp x) s) r s' ->
    explaining H (ESymbol x :: l) s r s'
| explaining_builtin a l s b s1 r s' :
    ~ is_topic a -> gives H a s (EBuiltin b) s1 ->
    explaining H l (told H (RqHelp (b_name b)) s1) r s' -> explaining H (a :: l) s r s'
| explaining_other a l s v s1 r s' :
    ~ is_topic a -> gives H a s v s1 -> (forall b, v <> EBuiltin b) ->
    explaining H l s1 r s' -> explaining H (a :: l) s r s'
| explaining_fails a l s r r' s1 :
    ~ is_topic a -> evaluates H 0 a s r s1 -> fails r r' -> explaining H (a :: l) s r' s1.
