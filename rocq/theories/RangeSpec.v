(** All integers inside an expression. *)

From Coq Require Import String.
From Verif Require Import Base Syntax OpsSpec.

(** Every integer in [e]: in literals, in lists and maps, in quoted code, in the
    bodies of functions and in the variables that functions have captured. *)
Fixpoint ints (e : expr) : list Z :=
  match e with
  | EInteger z => [z]
  | ESymbol _ | EFloat _ | EBytes _ | EString _ | EBoolean _ | ENone | EBuiltin _ => []
  | EGroup e | EQuote e | EAssign _ e | EMacro _ e => ints e
  | EList l | EDo l => flat_map ints l
  | EMap m => flat_map (fun kv => ints (snd kv)) m
  | EFor _ l b => ints l ++ ints b
  | EIf c t f => ints c ++ ints t ++ ints f
  | EApply f args => ints f ++ flat_map ints args
  | ELambda _ b c => ints b ++ env_ints c
  end
with env_ints (e : env) : list Z :=
  match e with
  | Env b p =>
      flat_map (fun kv => ints (snd kv)) b
      ++ match p with Some p' => env_ints p' | None => [] end
  end.

(** All of them are signed 64 bit integers. *)
Definition all_fit (e : expr) : Prop := Forall fits (ints e).
Definition env_fit (e : env) : Prop := Forall fits (env_ints e).
