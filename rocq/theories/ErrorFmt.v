(** src/error.rs: error codes and messages. *)

From Coq Require Import String.
From Verif Require Import Base Syntax Host Ops.

(** src/error.rs:50-62 [Error::code]. *)
Definition error_code (e : error) : Z :=
  (match e with
   | CannotApply _ _ => 1
   | SymbolNotDefined _ => 2
   | CommandFailed _ _ => 3
   | ForNonList _ => 4
   | RecursionDepth _ => 5
   | CustomError _ => 9
   | PermissionDenied _ => 9
   | ProgramNotFound _ => 9
   | SyntaxErr _ _ => 9
   end)%Z.

(** src/error.rs:35-47 [Error::codes]: the table [err@codes]. *)
Definition error_codes : bmap expr :=
  bm_of_list
    [ (lit "cannot-apply", EInteger 1);
      (lit "symbol-not-defined", EInteger 2);
      (lit "command-failed", EInteger 3);
      (lit "for-non-list", EInteger 4);
      (lit "recursion-depth", EInteger 5);
      (lit "permission-denied", EInteger 6);
      (lit "program-not-found", EInteger 7);
      (lit "syntax-error", EInteger 8);
      (lit "custom-error", EInteger 9) ].

(** src/error.rs:255-257. *)
Definition ESC : str := [27%N].
(** src/error.rs:255-257. *)
Definition RED_START : str := ESC ++ lit "[38;5;9m".
(** src/error.rs:255-257. *)
Definition BOLD : str := ESC ++ lit "[1m".
(** src/error.rs:255-257. *)
Definition RESET : str := ESC ++ lit "[m" ++ ESC ++ lit "[0m".
(** src/error.rs:193-244. *)
Definition NL : str := [10%N].

(** ** Standard library functions on text *)

(** [str.split('\n')]: the pieces between the line feeds.  src/error.rs:193-205. *)
Fixpoint split_nl (s : str) : list str :=
  match s with
  | [] => [[]]
  | c :: r =>
      if (c =? 10)%N then [] :: split_nl r
      else match split_nl r with
           | p :: ps => (c :: p) :: ps
           | [] => [[c]]
           end
  end.

(** Removes one trailing carriage return.  src/error.rs:193-205. *)
Fixpoint strip_cr (s : str) : str :=
  match s with
  | [] => []
  | [c] => if (c =? 13)%N then [] else [c]
  | c :: r => c :: strip_cr r
  end.

(** [str::lines]: the text cut after each line feed, without the line feed and
    a carriage return before it; an empty last piece is dropped.  A carriage
    return at the very end of the text is kept, as in current Rust releases.
    src/error.rs:193-205. *)
Fixpoint lines_of (pieces : list str) : list str :=
  match pieces with
  | [] => []
  | [last] => match last with [] => [] | _ => [last] end
  | p :: r => strip_cr p :: lines_of r
  end.
(** src/error.rs:193-205. *)
Definition str_lines (s : str) : list str := lines_of (split_nl s).

(** [str::trim_start], [str::trim_end], [str::trim].  src/error.rs:158,166. *)
Definition trim_start (s : str) : str := snd (span is_ws s).
(** src/error.rs:158,166. *)
Definition trim_end (s : str) : str := rev (trim_start (rev s)).
(** src/error.rs:158,166. *)
Definition trim (s : str) : str := trim_end (trim_start s).

(** [StrSlice::to_str] and [&string[a..b]]; [None] is a panic.  src/error.rs:199-200. *)
Definition str_sub (s : str) (a b : N) : option str :=
  match split_bytes a s with
  | Some (_, r) =>
      if (a <=? b)%N
      then match split_bytes (b - a) r with Some (x, _) => Some x | None => None end
      else None
  | None => None
  end.

(** [{:>5}] of a number.  src/error.rs:221. *)
Definition pad5 (s : str) : str := repeat 32%N (5 - length s) ++ s.

Section Display.
  Variable H : host.

  (** src/error.rs:193-205 (panics of slicing). *)
  Definition bindp {A B} (r : A + panic) (k : A -> B + panic) : B + panic :=
    match r with inl a => k a | inr p => inr p end.

  (** src/error.rs:193-205 (panics of slicing). *)
  Definition or_boundary {A} (o : option A) : A + panic :=
    match o with Some a => inl a | None => inr PBoundary end.

  (** [a - b] on [usize], used as a bound for [take].  src/error.rs:218,244. *)
  Definition usize_sub (a b : N) : N + panic :=
    if (b <=? a)%N then inl (a - b)%N
    else match h_overflow H with
         | OvfPanic => inr PArith
         | OvfWrap => inl (2 ^ 64 + a - b)%N
         end.

  (** src/error.rs:210-218,244. *)
  Definition take_n (n : N) (s : str) : str :=
    if (N.of_nat (length s) <=? n)%N then s else firstn (N.to_nat n) s.

  (** src/error.rs:187-253 [print_error_lines] with [max_width] 72. *)
  Definition print_error_lines (s : str) (at_ : slice) : str + panic :=
    let width := 72%N in
    bindp (or_boundary (str_sub s (sl_start at_) (sl_end at_))) (fun txt =>
    bindp (or_boundary (split_bytes (sl_start at_) s)) (fun b =>
    bindp (or_boundary (split_bytes (sl_end at_) s)) (fun a =>
    let lines := match str_lines txt with [] => [[]] | l => l end in
    let before := fst b in
    let after := snd a in
    let line_before := last (str_lines before) [] in
    let line_after := hd [] (str_lines after) in
    let first_line_number := Nat.max (length (str_lines before)) 1 in
    let rule := lit "      |" ++ NL in
    let number n := pad5 (n_str (N.of_nat n)) ++ lit " | " in
    match lines with
    | [l0] =>
        let before_len := N.min (N.of_nat (length (take_n width line_before))) width in
        bindp (usize_sub width before_len) (fun room =>
        inl (rule ++ number first_line_number
             ++ take_n width line_before ++ RED_START ++ l0 ++ RESET
             ++ take_n room line_after ++ NL ++ rule))
    | _ =>
        let first := take_n width (line_before ++ RED_START ++ hd [] lines) ++ RESET in
        let rest :=
          (fix go (n : nat) (l : list str) : str :=
             match l with
             | [] => []
             | x :: r => NL ++ number n ++ RED_START ++ take_n width x ++ RESET
                         ++ go (S n) r
             end) (S first_line_number) (tl lines) in
        bindp (usize_sub width (N.of_nat (length (last lines [])))) (fun room =>
        inl (rule ++ number first_line_number ++ first ++ rest
             ++ NL ++ take_n room line_after ++ RESET ++ NL ++ rule))
    end))).

  (** src/error.rs:109. *)
  Definition headline (what : str) : str := RED_START ++ BOLD ++ what ++ RESET.

  (** src/error.rs:152-185 [fmt_token_error]. *)
  Definition fmt_token_error (s : str) (d : diagnostic) : str + panic :=
    let one (start : str) (at_ : slice) (msg : str -> str) :=
      bindp (or_boundary (str_sub s (sl_start at_) (sl_end at_))) (fun txt =>
      bindp (print_error_lines s at_) (fun p =>
      inl (headline start ++ lit ": " ++ msg txt ++ NL ++ p))) in
    match d with
    | DValid => inl []
    | DInvalidStringEscapes ranges =>
        (fix go (l : list slice) : str + panic :=
           match l with
           | [] => inl []
           | at_ :: r =>
               bindp (one (lit "syntax error") at_
                        (fun t => lit "invalid string escape sequence `" ++ trim t ++ lit "`"))
                 (fun a => bindp (go r) (fun b => inl (a ++ b)))
           end) ranges
    | DInvalidNumber at_ =>
        one (lit "syntax error") at_ (fun t => lit "invalid number `" ++ trim t ++ lit "`")
    | DIllegalChar at_ =>
        one (lit "syntax error") at_ (fun t => lit "invalid token " ++ debug_str H t)
    | DNotTokenized at_ =>
        one (lit "error") at_
          (fun t => lit "there are leftover tokens after tokenizing: " ++ t)
    end.

  (** [{:?}] of nom's [ErrorKind].  src/error.rs:137. *)
  Definition nom_kind_str (k : nom_kind) : str :=
    match k with
    | KAlt => lit "Alt"
    | KMany0 => lit "Many0"
    | KMany1 => lit "Many1"
    | KSeparatedList => lit "SeparatedList"
    | KEof => lit "Eof"
    end.

  (** src/error.rs:101-150 [fmt_syntax_error]. *)
  Fixpoint fmt_syntax_error (s : str) (e : syntax_error) : str + panic :=
    match e with
    | Expected at_ expected found hint =>
        bindp (print_error_lines s at_) (fun p =>
        inl (headline (lit "syntax error") ++ lit ": expected " ++ expected
             ++ match found with Some f => lit ", found " ++ f | None => [] end
             ++ NL ++ p
             ++ match hint with Some h => lit "    hint: " ++ h ++ NL | None => [] end))
    | TokenizationErrors ds =>
        (fix go (l : list diagnostic) : str + panic :=
           match l with
           | [] => inl []
           | d :: r =>
               bindp (fmt_token_error s d) (fun a =>
               bindp (go r) (fun b => inl (a ++ b)))
           end) ds
    | NomError k at_ cause =>
        bindp (match at_ with Some a => print_error_lines s a | None => inl [] end) (fun p =>
        bindp (match cause with Some c => fmt_syntax_error s c | None => inl [] end) (fun c =>
        inl (headline (lit "unexpected syntax error") ++ lit ": `" ++ nom_kind_str k
             ++ lit "`" ++ NL ++ p ++ c)))
    | InternalError => inl (headline (lit "unexpected syntax error") ++ NL)
    end.

  (** src/error.rs:65-99 [impl fmt::Display for Error]; a panic can only come
      from the excerpt printed with a syntax error. *)
  Definition error_display (e : error) : str + panic :=
    match e with
    | CannotApply f args =>
        inl (lit "cannot apply `" ++ debug H f ++ lit "` to the arguments " ++ debug_list H args)
    | PermissionDenied f => inl (lit "permission denied while evaluating " ++ debug H f)
    | ProgramNotFound n => inl (lit "program " ++ [34%N] ++ n ++ [34%N] ++ lit " not found")
    | SymbolNotDefined n => inl (lit "symbol " ++ [34%N] ++ n ++ [34%N] ++ lit " not defined")
    | RecursionDepth f => inl (lit "recursion depth exceeded while evaluating " ++ debug H f)
    | CommandFailed n args =>
        inl (lit "command `" ++ debug H (EApply (ESymbol n) args) ++ lit "` failed")
    | ForNonList f => inl (lit "attempted to iterate over non-list `" ++ debug H f ++ lit "`")
    | CustomError m => inl m
    | SyntaxErr s se => fmt_syntax_error s se
    end.
End Display.
