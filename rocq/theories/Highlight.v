(** src/bin.rs:183-297: syntax highlighting of the line being edited. *)

From Coq Require Import String.
From Verif Require Import Base Syntax Tokenizer ErrorFmt.

(** "\x1b" followed by an ASCII code.  src/bin.rs:183-297. *)
Definition esc (s : string) : str := 27%N :: lit s.

(** src/bin.rs:206. *)
Definition HL_RESET : str := esc "[m" ++ esc "[0m".

(** src/bin.rs:196-199: punctuation shown in colour. *)
Definition colored_punctuation (o : str) : bool :=
  existsb (str_eqb o)
    [lit "@"; lit "'"; lit "="; lit "|"; lit ">>"; lit "<<"; lit ">>>"; lit "->"; lit "~>"].

(** src/bin.rs:255: commands shown in colour. *)
Definition colored_command (l : str) : bool :=
  existsb (str_eqb l) [lit "echo"; lit "exit"; lit "clear"; lit "cd"; lit "rm"].

(** src/bin.rs:225-232: the loop over the invalid escapes of a string literal;
    [None] is the panic of slicing outside the text, between the bytes of a
    character or backwards. *)
Fixpoint hl_escapes (line : str) (last_end : N) (ranges : list slice) : option (str * N) :=
  match ranges with
  | [] => Some ([], last_end)
  | r :: rest =>
      match str_sub line last_end (sl_start r), str_sub line (sl_start r) (sl_end r) with
      | Some a, Some b =>
          match hl_escapes line (sl_end r) rest with
          | Some (o, e) => Some (a ++ esc "[38;5;9m" ++ b ++ esc "[38;5;208m" ++ o, e)
          | None => None
          end
      | _, _ => None
      end
  end.

(** src/bin.rs:189-277: what one token appends to [result], and the new
    [is_colored]; [None] is a panic. *)
Definition hl_token (line : str) (t : token) (d : diagnostic) (colored : bool)
  : option (str * bool) :=
  match str_sub line (sl_start (t_range t)) (sl_end (t_range t)) with
  | None => None
  | Some s =>
      let paint code := Some (esc code ++ s, true) in
      let plain := Some ((if colored then HL_RESET else []) ++ s, false) in
      let wrong (e : slice) :=
        match str_sub line (sl_start e) (sl_end e) with
        | Some x => Some (esc "[38;5;9m" ++ x, true)
        | None => None
        end in
      match t_kind t with
      | TkBooleanLiteral => paint "[95m"%string
      | TkPunctuation => if colored_punctuation s then paint "[96m"%string else plain
      | TkKeyword => paint "[95m"%string
      | TkOperator => paint "[38;5;220m"%string
      | TkStringLiteral =>
          match d with
          | DInvalidStringEscapes ranges =>
              match hl_escapes line (sl_start (t_range t)) ranges with
              | Some (o, e) =>
                  match str_sub line e (sl_end (t_range t)) with
                  | Some x => Some (esc "[38;5;208m" ++ o ++ x, true)
                  | None => None
                  end
              | None => None
              end
          | _ => paint "[38;5;208m"%string
          end
      | TkIntegerLiteral | TkFloatLiteral =>
          match d with
          | DInvalidNumber e => wrong e
          | _ => plain
          end
      | TkSymbol =>
          match d with
          | DIllegalChar e => wrong e
          | _ =>
              if str_eqb s (lit "None") then paint "[91m"%string
              else if colored_command s then paint "[94m"%string
              else plain
          end
      | TkWhitespace => Some (s, colored)
      | TkComment => paint "[38;5;247m"%string
      end
  end.

(** src/bin.rs:189-278: the loop over [tokens.iter().zip(&diagnostics)]. *)
Fixpoint hl_tokens (line : str) (ts : list token) (ds : list diagnostic) (colored : bool)
  : option (str * bool) :=
  match ts, ds with
  | t :: ts', d :: ds' =>
      match hl_token line t d colored with
      | Some (o, c) =>
          match hl_tokens line ts' ds' c with
          | Some (o', c') => Some (o ++ o', c')
          | None => None
          end
      | None => None
      end
  | _, _ => Some ([], colored)
  end.

(** src/bin.rs:279-287: diagnostics beyond the last token. *)
Fixpoint hl_leftover (line : str) (ds : list diagnostic) (colored : bool) : option (str * bool) :=
  match ds with
  | [] => Some ([], colored)
  | DNotTokenized e :: ds' =>
      match str_sub line (sl_start e) (sl_end e), hl_leftover line ds' true with
      | Some x, Some (o, c) => Some (esc "[38;5;9m" ++ x ++ o, c)
      | _, _ => None
      end
  | _ :: ds' => hl_leftover line ds' colored
  end.

(** src/bin.rs:183-297 [syntax_highlight]; [None] is a panic, of the tokenizer
    or of slicing. *)
Definition syntax_highlight (line : str) : option str :=
  match tokenize line with
  | TokOk ts ds =>
      match hl_tokens line ts ds false with
      | Some (o, c) =>
          match hl_leftover line (skipn (length ts) ds) c with
          | Some (o', c') => Some (o ++ o' ++ (if c' then HL_RESET else []))
          | None => None
          end
      | None => None
      end
  | _ => None
  end.
