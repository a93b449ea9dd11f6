(** How lists and maps are printed: src/expr.rs:225-352 ([impl fmt::Display for
    Expression]) with the part of the crate prettytable-rs 0.10 it uses,
    transcribed from the documented behaviour of that crate.  Simplifications:
    the width of a text is the sum of the widths of its characters (the crate
    also skips colour codes), lines end in a line feed (Unix), and the width
    given to a formatter is not limited. *)

From Coq Require Import String List NArith.
From Verif Require Import Base Syntax Host Ops ErrorFmt.
Import ListNotations.

(** prettytable [LineSeparator::new(line, junc, ljunc, rjunc)].  src/expr.rs:259-262,296-299. *)
Record lsep := Lsep { r_line : chr; r_junc : chr; r_left : chr; r_right : chr }.

(** prettytable [TableFormat]: borders, column separator and the separators of
    lines; both paddings are 1.  src/expr.rs:256-262,292-299. *)
Record style := Style { y_bar : chr; y_top : lsep; y_intern : lsep; y_bottom : lsep }.

(** The style of lists.  src/expr.rs:256-262. *)
Definition list_style : style :=
  Style 9475%N (Lsep 9473 9523 9487 9491)%N (Lsep 9473 9547 9507 9515)%N
    (Lsep 9473 9531 9495 9499)%N.

(** The style of maps.  src/expr.rs:292-299. *)
Definition map_style : style :=
  Style 9474%N (Lsep 9552 9572 9554 9557)%N (Lsep 9472 9532 9500 9508)%N
    (Lsep 9472 9524 9492 9496)%N.

(** The results of a list of computations, or the first panic.  src/expr.rs:266-281,301-327. *)
Fixpoint collect {A : Type} (l : list (A + panic)) : list A + panic :=
  match l with
  | [] => inl []
  | inr p :: _ => inr p
  | inl x :: r => match collect r with inl xs => inl (x :: xs) | inr p => inr p end
  end.

(** [specified_width - key.len() - 3].  src/expr.rs:314. *)
Definition width_left (ovf : overflow_mode) (sw : N) (key : str) : N + panic :=
  let n := (utf8_len key + 3)%N in
  if (n <=? sw)%N then inl (sw - n)%N
  else match ovf with
       | OvfPanic => inr PArith
       | OvfWrap => inl (2 ^ 64 + sw - n)%N
       end.

(** The bytes of the first line of a text.  src/expr.rs:271-277. *)
Definition first_len (t : str) : N :=
  if existsb (N.eqb 10) t then utf8_len (hd [] (str_lines t)) else utf8_len t.

(** The variable [total_len].  src/expr.rs:265-279. *)
Definition total_len (ts : list str) : N :=
  fold_right (fun t n => (first_len t + 1 + n)%N) 1%N ts.

Section Table.
  (** the width of a character on the terminal (unicode-width).  src/expr.rs:283-286 *)
  Variable cw : chr -> nat.

  (** prettytable [display_width].  src/expr.rs:283-286,330. *)
  Definition text_width (s : str) : nat := list_sum (map cw s).

  (** prettytable [Cell::get_width]; a cell is the list of its lines.  src/expr.rs:283-286,330. *)
  Definition cell_width (c : list str) : nat := list_max (map text_width c).

  (** prettytable [Table::get_all_column_width].  src/expr.rs:286,330. *)
  Definition col_widths (rows : list (list (list str))) : list nat :=
    map (fun j => list_max (map (fun r => cell_width (nth j r [])) rows))
        (seq 0 (list_max (map (@length _) rows))).

  (** prettytable [Row::get_height].  src/expr.rs:286,330. *)
  Definition row_height (r : list (list str)) : nat := Nat.max 1 (list_max (map (@length _) r)).

  (** prettytable [print_align], to the left.  src/expr.rs:286,330. *)
  Definition print_cell (w : nat) (line : str) : str := line ++ repeat 32%N (w - text_width line).

  (** Line [i] of the cells of a row, with the padding; a row may have fewer
      cells than the table has columns.  src/expr.rs:286,330. *)
  Fixpoint pieces (ws : list nat) (r : list (list str)) (i : nat) : list str :=
    match ws with
    | [] => []
    | w :: ws => ([32%N] ++ print_cell w (nth i (hd [] r) []) ++ [32%N]) :: pieces ws (tl r) i
    end.

  (** prettytable [Row::print], one line of the terminal.  src/expr.rs:286,330. *)
  Definition print_line (bar : chr) (ws : list nat) (r : list (list str)) (i : nat) : str :=
    [bar] ++ join [bar] (pieces ws r i) ++ [bar; 10%N].

  (** prettytable [Row::print].  src/expr.rs:286,330. *)
  Definition print_row (bar : chr) (ws : list nat) (r : list (list str)) : str :=
    concat (map (print_line bar ws r) (seq 0 (row_height r))).

  (** prettytable [LineSeparator::print].  src/expr.rs:286,330. *)
  Definition print_rule (ws : list nat) (u : lsep) : str :=
    [r_left u] ++ join [r_junc u] (map (fun w => repeat (r_line u) (w + 2)) ws)
               ++ [r_right u; 10%N].

  (** prettytable [Table::print].  src/expr.rs:286,330. *)
  Definition print_table (y : style) (rows : list (list (list str))) : str :=
    let ws := col_widths rows in
    print_rule ws (y_top y)
      ++ join (print_rule ws (y_intern y)) (map (print_row (y_bar y) ws) rows)
      ++ print_rule ws (y_bottom y).

  Variable H : host.
  (** the help texts of the builtins (src/binary/init/*.rs) are not in the model.  src/expr.rs:303-308 *)
  Variable help : builtin -> str.
  (** the width of the terminal, 120 when it is not known.  src/expr.rs:227-231 *)
  Variable term : N.

  (** src/expr.rs:225-352 [impl fmt::Display for Expression]; [sw] is [specified_width]. *)
  Fixpoint show (sw : N) (e : expr) {struct e} : str + panic :=
    match e with
    | EString s => inl s
    | EList l =>
        match collect (map (fun x => match x with
                                     | EString s => inl (debug_str H s)
                                     | _ => show term x
                                     end) l) with
        | inr p => inr p
        | inl ts =>
            inl (if (sw <? total_len ts)%N then debug H e
                 else print_table list_style [map str_lines ts])
        end
    | EMap m =>
        match collect (map (fun kv =>
                 match snd kv with
                 | EBuiltin b => inl [fst kv; builtin_str b; h_wrap H (help b) (sw / 6)]
                 | EMap _ =>
                     match show sw (snd kv) with
                     | inl t => inl [fst kv; t]
                     | inr p => inr p
                     end
                 | EList _ =>
                     match width_left (h_overflow H) sw (fst kv) with
                     | inr p => inr p
                     | inl w =>
                         match show w (snd kv) with
                         | inl t => inl [fst kv; h_wrap H t w]
                         | inr p => inr p
                         end
                     end
                 | v => inl [fst kv; h_wrap H (debug H v) (sw / 3)]
                 end) m) with
        | inr p => inr p
        | inl rows => inl (print_table map_style (map (map str_lines) rows))
        end
    | _ => inl (debug H e)
    end.

  (** [format!("{}", e)]: no width is given.  src/expr.rs:225-231. *)
  Definition printed (e : expr) : str + panic := show term e.

  (** [H] with this way of printing lists and maps; a panic leaves the readable
      form here, where the program stops (see [printed]).  src/expr.rs:225-352. *)
  Definition with_tables : host :=
    {| h_answer := h_answer H; h_float := h_float H; h_printable := h_printable H;
       h_table := fun e => match printed e with inl t => t | inr _ => debug H e end;
       h_lossy := h_lossy H; h_alphabetic := h_alphabetic H; h_numeric := h_numeric H;
       h_lowercase := h_lowercase H; h_uppercase := h_uppercase H;
       h_to_lower := h_to_lower H; h_to_upper := h_to_upper H; h_overflow := h_overflow H;
       h_libm := h_libm H; h_path_debug := h_path_debug H; h_wrap := h_wrap H;
       h_json := h_json H; h_toml := h_toml H |}.
End Table.
