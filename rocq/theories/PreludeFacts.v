(** The programs of the two start-up scripts, read by the parser of the shell. *)

From Coq Require Import String.
From Verif Require Import Base Syntax Host Parser Prelude.

(** The statements of a script. *)
Definition statements (text : str) : list expr :=
  match parse_script text with SOk (EDo l) => l | _ => [] end.

(** What a list of statements assigns last to the name [x]. *)
Definition assigned (x : str) (l : list expr) : expr :=
  fold_left (fun acc e => match e with EAssign y v => if str_eqb x y then v else acc | _ => acc end)
    l ENone.

(** The body of a function and the one of the function it returns. *)
Definition body_of (e : expr) : expr :=
  match e with ELambda _ b _ | EMacro _ b => b | _ => ENone end.

Definition default_program : list expr := Eval vm_compute in statements default_prelude.
Definition intro_program : list expr := Eval vm_compute in statements intro_prelude.
