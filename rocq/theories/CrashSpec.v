(** Which builtin functions can crash the shell, and how. *)

From Coq Require Import String.
From Verif Require Import Base Syntax Host Ops.

(** How many arguments a builtin function uses without looking how many there
    are. *)
Definition needs (b : bid) : nat :=
  match b with
  | BAdd | BSub | BMul | BDiv | BRem => 1
  | BEq | BNe | BLt | BLe | BGt | BGe => 2
  | BIndex | BStr | BInt | BKeys | BVals | BLen | BLines | BEval | BExec | BReport => 1
  | SIsWhitespace | SIsAlpha | SIsAlphanumeric | SIsNumeric
  | SToLower | SToUpper | SToTitle | SIsLower | SIsUpper | SIsTitle
  | STrim | STrimStart | STrimEnd => 1
  | TStyle _ | TDarkWhite => 1
  | _ => 0
  end.

(** The crashes that depend on the values of the arguments or on the world. *)
Definition crashes (b : bid) : list panic :=
  match b with
  | BMul | FCurry => [PCapacity]                      (* too long a list *)
  | BRem => [PRemZero]                                (* by 0, or least by -1 *)
  | BInsert | SSplitAt => [PBoundary]                 (* no such position in a text *)
  | LNth => [PIndex]                                  (* no such position in a list *)
  | YParse | YInclude | YImport | PExpr => [PBoundary] (* a text the tokenizer cannot read *)
  | KTree => [PUnwrap]                                (* the root directory *)
  | KGlob => [PUnwrap]                                (* an invalid pattern *)
  | RInt | RChoose => [PAssert]                       (* nothing to choose from *)
  | WJoiny => [PUnwrap]                               (* an empty widget *)
  | CFlush | CReadLine | CReadPassword | CReadKey => [PUnwrap] (* the terminal fails *)
  | _ => []
  end.

(** The crashes of a program built with overflow checks. *)
Definition overflows (b : bid) : list panic :=
  match b with
  | BSub => [PNegOverflow]
  | LNth | SCaesar | MLRsh | MARsh | MLsh | MSum | MProduct | MFact | MAbs
  | ETry | KTree | CWrite => [PArith]
  | _ => []
  end.

(** [b] called with [n] arguments can crash with [p]. *)
Definition can_crash (ovf : overflow_mode) (b : bid) (n : nat) (p : panic) : Prop :=
  (p = PIndex /\ n < needs b) \/ In p (crashes b) \/ (ovf = OvfPanic /\ In p (overflows b)).
