(** What an interactive session does, as a specification: the typed lines fall
    into consecutive inputs, and each input is handled once. *)

From Coq Require Import String List.
From Verif Require Import Base Syntax Host Ops Parser Monad Repl.
Import ListNotations.

(** A text that parses, and one that is a syntax error. *)
Definition accepted (text : str) (e : expr) : Prop := parse_script text = SOk e.
Definition rejected (text : str) (err : syntax_error) : Prop :=
  parse_script text = SError err \/ parse_script text = SFailure err.

(** Lines as one text, a newline between any two. *)
Definition with_newline (line : str) : str := 10%N :: line.
Definition one_text (lines : list str) : str :=
  match lines with [] => [] | l :: ls => l ++ concat (map with_newline ls) end.

(** Lines after which the loop asks for more: every beginning of them is a
    syntax error, and no line is empty. *)
Definition unfinished (lines : list str) : Prop :=
  forall first rest, lines = first ++ rest -> first <> [] ->
    (exists err, rejected (one_text first) err) /\ last first [] <> [].

(** An input: lines that parse as an expression, or lines given up. *)
Inductive input :=
| Complete (lines : list str) (e : expr)
| Abandoned (lines : list str) (err : syntax_error).

Definition input_lines (i : input) : list str :=
  match i with Complete ls _ | Abandoned ls _ => ls end.

Definition is_input (i : input) : Prop :=
  exists before line,
    input_lines i = before ++ [line] /\ unfinished before
    /\ match i with
       | Complete ls e => accepted (one_text ls) e
       | Abandoned ls err => line = [] /\ rejected (one_text ls) err
       end.

(** [lines] are the inputs [is] one after the other, and then [rest]. *)
Definition falls_into (lines : list str) (is : list input) (rest : list str) : Prop :=
  lines = concat (map input_lines is) ++ rest /\ Forall is_input is /\ unfinished rest.

(** What handling the inputs amounts to: before each line its prompt, then,
    for a complete input, one evaluation of its expression, and for an
    abandoned one an error message. *)
Section Handle.
  Variable H : host.
  Variable n : nat.

  (** The prompts of [lines], typed when the lines [kept] are there already. *)
  Fixpoint asks (kept lines : list str) : M unit :=
    match lines with
    | [] => ret tt
    | l :: ls => prompt H n kept ;;; asks (kept ++ [l]) ls
    end.

  Definition handle (i : input) : M unit :=
    match i with
    | Complete ls e =>
        asks [] ls ;;;
        r <- attempt (ev H n e) ;;
        match r with inl v => show_value H n v | inr err => eprint H err end
    | Abandoned ls err => asks [] ls ;;; eprint H (SyntaxErr (one_text ls) err)
    end.

  Fixpoint handle_all (is : list input) : M unit :=
    match is with [] => ret tt | i :: r => handle i ;;; handle_all r end.
End Handle.

(** The lines among what the editor gives back; Ctrl-C counts as an empty one.
    Nothing counts after the end of the input. *)
Fixpoint lines_of (keys : list key) : list str :=
  match keys with
  | [] => []
  | Typed l :: ks => l :: lines_of ks
  | Interrupt :: ks => [] :: lines_of ks
  | ReadError :: ks => lines_of ks
  | EndOfInput :: _ => []
  end.

Fixpoint ended (keys : list key) : bool :=
  match keys with
  | [] => false
  | EndOfInput :: _ => true
  | _ :: ks => ended ks
  end.
