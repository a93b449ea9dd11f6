(** Vocabulary of the theorem about the banner of the start-up scripts. *)

From Coq Require Import String List NArith ZArith.
From Verif Require Import Base Syntax Host ErrorFmt Monad EvalSpec Init Builtins Prelude PreludeFacts.
Import ListNotations.

(** The definition of the banner.  src/.default-dune-prelude:560-627 and
    src/.intro-dune-prelude:215-282, as the parser reads them. *)
Definition banner_definition : expr := Eval vm_compute in
  match find (fun e => match e with EAssign x _ => str_eqb x (lit "welcomebanner") | _ => false end) default_program with
  | Some e => e | None => ENone
  end.

(** The names that the banner uses are what they are in a new shell.
    src/binary/init/mod.rs:28-437. *)
Definition banner_names : list (str * expr) :=
  [ (lit "+", bi BAdd "+"); (lit "==", bi BEq "=="); (lit "<", bi BLt "<"); (lit "<=", bi BLe "<=");
    (lit "@", bi BIndex "@"); (lit "echo", bi BPrintln "println"); (lit "print", bi BPrint "print");
    (lit "time", EMap time_module); (lit "fmt", EMap fmt_module); (lit "string", EMap string_module) ]%string.
Definition festive (e : env) : Prop := forall x v, In (x, v) banner_names -> env_get x e = Some v.

(** The sky at an hour: night, sunrise, day. *)
Inductive sky : Z -> str -> Prop :=
| sky_early h : (h <= 6)%Z -> sky h [127747%N]
| sky_morning h : (6 < h <= 10)%Z -> sky h [127749%N]
| sky_day h : (10 < h <= 18)%Z -> sky h [127780; 65039; 32]%N
| sky_late h : (18 < h)%Z -> sky h [127747%N].

(** A text in a style of the terminal. *)
Definition in_style (code : string) (t : str) : str :=
  [27%N] ++ lit "[" ++ lit code ++ lit "m" ++ t ++ [27%N] ++ lit "[m" ++ [27%N] ++ lit "[0m".

(** A character of the logo: full blocks in red, the others in dark blue. *)
Definition painted (c : N) : str :=
  in_style "1" (in_style "2" (in_style (if (c =? 9608)%N then "91" else "34") [c])).

(** The logo.  src/.default-dune-prelude:573-581. *)
Definition logo_text : str := Eval vm_compute in
  match banner_definition with
  | EAssign _ (EMacro _ (EDo (_ :: EAssign _ (EString t) :: _))) => t
  | _ => []
  end.

(** What is printed, piece by piece. *)
Definition banner_texts (pic time date : str) : list str :=
  ([9484%N] ++ repeat 9472%N 17 ++ lit "Welcome to ..." ++ repeat 9472%N 17 ++ [9488%N] ++ [10%N])
  :: map painted logo_text
  ++ [ [10%N];
       lit "        The time is " ++ in_style "95" time ++ lit " " ++ pic ++ lit " on " ++ in_style "96" date ++ [10%N];
       [9492%N] ++ repeat 9472%N 48 ++ [9496%N] ++ [10%N] ].

(** The banner is as the script defines it. *)
Definition has_banner (e : env) : Prop :=
  match banner_definition with EAssign x v => env_get x e = Some v | _ => False end.
