(** Vocabulary of the theorems about operators. *)

From Coq Require Import String Floats.SpecFloat.
From Verif Require Import Base Syntax Host Ops Monad Builtins Eval EvalSpec.

(** ** Integer arithmetic *)

(** The integers of the language. *)
Definition fits (z : Z) : Prop := (- 2 ^ 63 <= z < 2 ^ 63)%Z.

(** [exactly op z l o]: combining [z] with the numbers of [l] from left to
    right by the mathematical operation [op]; [None] when an operation is
    undefined or has a result that does not fit. *)
Inductive exactly (op : Z -> Z -> option Z) : Z -> list Z -> option Z -> Prop :=
| exactly_nil z : exactly op z [] (Some z)
| exactly_step z y w l o :
    op z y = Some w -> fits w -> exactly op w l o -> exactly op z (y :: l) o
| exactly_undefined z y l : op z y = None -> exactly op z (y :: l) None
| exactly_range z y w l : op z y = Some w -> ~ fits w -> exactly op z (y :: l) None.

Definition sum (a b : Z) : option Z := Some (a + b)%Z.
Definition difference (a b : Z) : option Z := Some (a - b)%Z.
Definition product (a b : Z) : option Z := Some (a * b)%Z.
(** The quotient rounded toward zero. *)
Definition quotient (a b : Z) : option Z := if (b =? 0)%Z then None else Some (Z.quot a b).

(** ** Comparisons *)

(** The comparison or other builtin [b] says yes to the operands [x] and [y],
    without side effects. *)
Definition says (H : host) (b : bid) (x y : expr) (answer : bool) : Prop :=
  forall s, calls H b [x; y] s (ROk (EBoolean answer)) s.

(** Types of values that are compared by their contents. *)
Inductive ty := TInt | TFloat | TString | TBytes | TList (t : ty) | TMap (t : ty).

Fixpoint has_type (t : ty) (e : expr) {struct e} : Prop :=
  match t, e with
  | TInt, EInteger _ | TString, EString _ | TBytes, EBytes _ => True
  | TFloat, EFloat f => f <> S754_nan
  | TList t', EList l =>
      (fix all (l : list expr) := match l with [] => True | x :: r => has_type t' x /\ all r end) l
  | TMap t', EMap m =>
      (fix all (m : list (str * expr)) :=
         match m with [] => True | (_, x) :: r => has_type t' x /\ all r end) m
  | _, _ => False
  end.

(** No float that is not a number, including the variables of functions. *)
Fixpoint nan_free (e : expr) : Prop :=
  let fix all (l : list expr) := match l with [] => True | x :: r => nan_free x /\ all r end in
  match e with
  | EFloat f => f <> S754_nan
  | EGroup e | EAssign _ e | EQuote e | EMacro _ e => nan_free e
  | EFor _ l b => nan_free l /\ nan_free b
  | EIf c t f => nan_free c /\ nan_free t /\ nan_free f
  | EList l | EDo l => all l
  | EApply f l => nan_free f /\ all l
  | EMap m =>
      (fix all (m : list (str * expr)) :=
         match m with [] => True | (_, x) :: r => nan_free x /\ all r end) m
  | ELambda _ b c => nan_free b /\ nan_free_env c
  | ESymbol _ | EInteger _ | EBytes _ | EString _ | EBoolean _ | ENone | EBuiltin _ => True
  end
with nan_free_env (e : env) : Prop :=
  match e with
  | Env b p =>
      (fix all (m : list (str * expr)) :=
         match m with [] => True | (_, x) :: r => nan_free x /\ all r end) b
      /\ match p with Some p' => nan_free_env p' | None => True end
  end.

(** ** Errors *)

(** The name under which the kind of an error is published. *)
Definition kind_name (e : error) : str :=
  match e with
  | CannotApply _ _ => lit "cannot-apply"
  | SymbolNotDefined _ => lit "symbol-not-defined"
  | CommandFailed _ _ => lit "command-failed"
  | ForNonList _ => lit "for-non-list"
  | RecursionDepth _ => lit "recursion-depth"
  | PermissionDenied _ => lit "permission-denied"
  | ProgramNotFound _ => lit "program-not-found"
  | SyntaxErr _ _ => lit "syntax-error"
  | CustomError _ => lit "custom-error"
  end.
