(** All maps and scopes inside an expression. *)

From Coq Require Import String Sorted.
From Verif Require Import Base Syntax.

(** A map with its keys, or a scope of variables with the names defined in it
    and whether it has an enclosing scope. *)
Inductive part :=
| Dict (keys : list str)
| Scope (names : list str) (enclosed : bool).

(** Every map and every scope in [e]: in lists and maps, in quoted code, in the
    bodies of functions and in the variables that functions have captured. *)
Fixpoint parts (e : expr) : list part :=
  match e with
  | ESymbol _ | EInteger _ | EFloat _ | EBytes _ | EString _ | EBoolean _ | ENone | EBuiltin _ => []
  | EGroup e | EQuote e | EAssign _ e | EMacro _ e => parts e
  | EList l | EDo l => flat_map parts l
  | EMap m => Dict (map fst m) :: flat_map (fun kv => parts (snd kv)) m
  | EFor _ l b => parts l ++ parts b
  | EIf c t f => parts c ++ parts t ++ parts f
  | EApply f args => parts f ++ flat_map parts args
  | ELambda _ b c => parts b ++ env_parts c
  end
with env_parts (e : env) : list part :=
  match e with
  | Env b p =>
      Scope (map fst b) (match p with Some _ => true | None => false end)
      :: flat_map (fun kv => parts (snd kv)) b
      ++ match p with Some p' => env_parts p' | None => [] end
  end.

(** Each key comes before all that follow it, in the order of code points. *)
Definition increasing (l : list str) : Prop := StronglySorted (fun x y => str_cmp x y = Lt) l.

(** A map has increasing keys; a scope has increasing names and no enclosing
    scope. *)
Definition proper (p : part) : Prop :=
  match p with
  | Dict ks => increasing ks
  | Scope ks enclosed => increasing ks /\ enclosed = false
  end.

Definition orderly (e : expr) : Prop := Forall proper (parts e).
Definition env_orderly (e : env) : Prop := Forall proper (env_parts e).
