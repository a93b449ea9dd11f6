(** The interactive loop and the ways the command line runs a text:
    src/bin.rs:84-104, 433-544. *)

From Coq Require Import String.
From Verif Require Import Base Syntax Host Ops Parser Monad ErrorFmt Text Builtins Eval Init.

(** What the line editor gives back: a line, Ctrl-C, end of input, or another
    error (the results of [rustyline::Editor::readline], src/bin.rs:92-101). *)
Inductive key :=
| Typed (line : str)
| Interrupt
| EndOfInput
| ReadError.

Section Repl.
  Variable H : host.
  (** The bound on the recursion of the evaluator. *)
  Variable n : nat.

  (** src/bin.rs:536. *)
  Definition ev (e : expr) : M expr := eval H n 0 e.

  (** [eprintln!("{}", e)].  What is written to the error output is not
      recorded, but building the message may panic.  src/bin.rs:517,525,600,625. *)
  Definition eprint (e : error) : M unit :=
    match error_display H e with
    | inl _ => ret tt
    | inr p => panics p
    end.

  (** src/bin.rs:454-471: the prompt is the value of a call in the user's
      environment.  An error is replaced by a fixed prompt; how the prompt is
      drawn is not modelled, but its text is returned. *)
  Definition prompt (lines : list str) : M str :=
    e <- get_env ;;
    let cwd := env_get_cwd e in
    let name := match lines with [] => lit "prompt" | _ => lit "incomplete_prompt" end in
    v <- catch (ev (EApply (ESymbol name) [EString cwd]))
               (fun _ => ret (EString (cwd ++ lit "$ "))) ;;
    ret (display H v).

  (** src/bin.rs:490-523: what is done with the value of the text. *)
  Definition show_value (v : expr) : M unit :=
    match v with
    | ESymbol name => catch (ev (EApply (ESymbol name) []) ;;; ret tt) eprint
    | ENone => ret tt
    | EMacro _ _ =>
        e <- get_env ;;
        catch (ev (EApply (ESymbol (lit "report"))
                     [EApply v [EString (env_get_cwd e)]]) ;;; ret tt) (fun _ => ret tt)
    | _ => catch (ev (EApply (ESymbol (lit "report")) [EQuote v]) ;;; ret tt)
                 (fun _ => ret tt)
    end.

  (** [Result] as a value: [match r { Ok(v) => .., Err(e) => .. }].  src/bin.rs:505-527. *)
  Definition attempt {A} (m : M A) : M (A + error) :=
    catch (v <- m ;; ret (inl v)) (fun e => ret (inr e)).

  (** src/bin.rs:474-531: one line, given the lines kept so far; the result are
      the lines kept from now on.  The history file is not modelled. *)
  Definition enter (lines : list str) (line : str) : M (list str) :=
    let lines := lines ++ [line] in
    let text := join [10%N] lines in
    p <- attempt (parse_m text) ;;
    match p with
    | inl expr =>
        r <- attempt (ev expr) ;;
        match r with
        | inl v => show_value v ;;; ret []
        | inr e => eprint e ;;; ret []
        end
    | inr e =>
        match line with
        | [] => eprint e ;;; ret []
        | _ => ret lines
        end
    end.

  (** src/bin.rs:445-533 [repl] with [readline] (84-104) on what the line editor
      gives back.  [asked] says that the prompt is already there: [readline]
      asks again after an error of the editor without computing it anew.  The
      result, once nothing more comes, are the lines kept; the program itself
      waits there.  The second loop that the Ctrl-C handler starts when the
      signal does not come through the editor (src/bin.rs:675-678) is not
      modelled. *)
  Fixpoint repl (asked : bool) (lines : list str) (keys : list key) : M (list str) :=
    (if asked then ret tt else prompt lines ;;; ret tt) ;;;
    match keys with
    | [] => ret lines
    | Typed line :: ks => kept <- enter lines line ;; repl false kept ks
    | Interrupt :: ks => kept <- enter lines [] ;; repl false kept ks
    | EndOfInput :: _ => exits 0
    | ReadError :: ks => repl true lines ks
    end.

  (** src/bin.rs:535-537 [run_text]; [parse] (433-443) is [parse_m]. *)
  Definition run_text (text : str) : M expr := e <- parse_m text ;; ev e.

  (** src/bin.rs:539-544 [run_file]. *)
  Definition run_path (path : str) : M expr :=
    t <- read_to_string H path ;;
    match t with
    | inl text => run_text text
    | inr m => throw (CustomError (lit "Failed to read file: " ++ m))
    end.

  (** src/bin.rs:573-594: the definitions made first. *)
  Definition startup : M unit :=
    foldM (fun _ source => run_text (lit source) ;;; ret tt) tt main_source.

  (** src/bin.rs:84-104 [readline] outside the loop: the line, if one comes,
      and what the editor gives back after it. *)
  Fixpoint readline (keys : list key) : M (option (str * list key)) :=
    match keys with
    | [] => ret None
    | Typed line :: ks => ret (Some (line, ks))
    | Interrupt :: ks => ret (Some ([], ks))
    | EndOfInput :: _ => exits 0
    | ReadError :: ks => readline ks
    end.

  (** The texts included from src/.intro-dune-prelude and
      src/.default-dune-prelude (src/bin.rs:30-32). *)
  Variables intro_prelude default_prelude : str.

  (** [response.to_lowercase().trim() == "y"].  src/bin.rs:641,655. *)
  Definition says_yes (line : str) : bool := str_eqb (trim (to_lowercase H line)) (lit "y").

  (** [if let Err(e) = m { eprintln!(.., e) }].  src/bin.rs:642-657. *)
  Definition or_report (m : M expr) : M unit :=
    r <- attempt m ;;
    match r with inl _ => ret tt | inr e => eprint e end.

  (** src/bin.rs:633-661: the prelude in the home directory.  The result is what
      the editor still gives, or [None] when the program waits for an answer. *)
  Definition prelude (home : option str) (keys : list key) : M (option (list key)) :=
    match home with
    | None => ret (Some keys)
    | Some dir =>
        let path := path_join dir (lit ".dune-prelude") in
        rs <- ask H (RqTest (lit "exists?") path) ;;
        match rs with
        | RsBool true =>
            r <- attempt (run_path path) ;;
            match r with
            | inl _ => ret (Some keys)
            | inr e =>
                eprint e ;;;
                a <- readline keys ;;
                match a with
                | None => ret None
                | Some (line, ks) =>
                    (if says_yes line then or_report (run_text intro_prelude) else ret tt) ;;;
                    ret (Some ks)
                end
            end
        | _ =>
            a <- readline keys ;;
            match a with
            | None => ret None
            | Some (line, ks) =>
                (if says_yes line
                 then ask H (RqWrite path (utf8_bytes default_prelude)) ;;; ret tt
                 else ret tt) ;;;
                or_report (run_text intro_prelude) ;;;
                ret (Some ks)
            end
        end
    end.

  (** src/bin.rs:546-683 [main] after [binary::init], which makes the variables
      of the first state ([init] in Init.v): the arguments are the file, the
      texts of [-x] and whether [-i] is there (how clap reads them is not
      modelled), the home directory and what the editor gives back. *)
  Definition main (file : option str) (exec : option (list str)) (interactive : bool)
      (home : option str) (keys : list key) : M unit :=
    startup ;;;
    match file with
    | Some path => or_report (run_path path)
    | None => ret tt
    end ;;;
    if match file, exec with Some _, None => negb interactive | _, _ => false end then ret tt
    else
      match exec with
      | Some words =>
          r <- attempt (run_text (join [32%N] words)) ;;
          match r with
          | inl v => ev (EApply (ESymbol (lit "report")) [v]) ;;; ret tt
          | inr e => eprint e
          end
      | None => ret tt
      end ;;;
      if match exec with Some _ => negb interactive | None => false end then ret tt
      else
        ks <- prelude home keys ;;
        match ks with
        | None => ret tt
        | Some ks => repl false [] ks ;;; ret tt
        end.
End Repl.
