(** The game of chess: src/binary/init/chess_module.rs.  It is compiled on
    request only (src/binary/init/mod.rs:5-6, 421-422), so it is not among the
    variables of a new shell in Init.v. *)

From Coq Require Import String.
From Verif Require Import Base Syntax Host Ops ErrorFmt Monad Builtins.

(** chess-engine 0.1.2 [Color].  src/binary/init/chess_module.rs:7-12. *)
Inductive color := White | Black.

(** [Color] as [PartialEq].  src/binary/init/chess_module.rs:26,63. *)
Definition color_eqb (a b : color) : bool :=
  match a, b with White, White | Black, Black => true | _, _ => false end.

(** [!color].  src/binary/init/chess_module.rs:61. *)
Definition other (c : color) : color := match c with White => Black | Black => White end.

(** chess-engine 0.1.2 [GameResult].  src/binary/init/chess_module.rs:52-74. *)
Inductive after (B Mv : Type) :=
| Continuing (b : B)
| Victory (winner : color)
| IllegalMove (m : Mv)
| Stalemate.
Arguments Continuing {B Mv} b.
Arguments Victory {B Mv} winner.
Arguments IllegalMove {B Mv} m.
Arguments Stalemate {B Mv}.

(** chess-engine 0.1.2, as far as it is called here: [Board::default],
    [get_turn_color], [get_best_next_move], [Move::try_from], [play_move] and
    how boards and colours are displayed.  The functions are taken to return.
    src/binary/init/chess_module.rs:20-60. *)
Record engine := Engine {
  e_board : Type;
  e_move : Type;
  e_start : e_board;
  e_turn : e_board -> color;
  e_best : e_board -> N -> e_move;
  e_read : str -> e_move + str;
  e_play : e_board -> e_move -> after e_board e_move;
  e_show : e_board -> str;
  e_name : color -> str }.

Section Chess.
  Variable H : host.
  Variable E : engine.

  (** What a turn comes to: a move, another turn ([continue]) or the end of the
      game ([break]).  src/binary/init/chess_module.rs:26-50. *)
  Inductive choice := Makes (m : e_move E) | Again | Quits.

  (** chess_module.rs:30-50: the player's turn.  The line editor is made anew
      (31); the end of the input ends the shell, Ctrl-C counts as an empty line
      (src/bin.rs:92-97).  What is written to the error output is not recorded. *)
  Definition players_turn (b : e_board E) : M choice :=
    print H (lit "Your move!" ++ [10%N] ++ e_show E b ++ [10%N]) ;;;
    rs <- ask H (RqInput (lit "Enter move: ")) ;;
    line <- match rs with
            | RsText s => ret s
            | RsEnd => exits 0
            | _ => ret []
            end ;;
    let s := trim line in
    match s with
    | [] => ret Again
    | _ =>
        if str_eqb s (lit "q") || str_eqb s (lit "quit") || str_eqb s (lit "exit")
        then print H (lit "Bye!" ++ [10%N]) ;;; ret Quits
        else match e_read E s with
             | inl m => ret (Makes m)
             | inr _ => ret Again
             end
    end.

  (** chess_module.rs:26-28: the turn of the engine. *)
  Definition engines_turn (b : e_board E) : M choice :=
    print H (lit "Waiting for CPU to annihilate your position..." ++ [10%N]) ;;;
    ret (Makes (e_best E b 4)).

  (** chess_module.rs:22-76: the loop; the result is [won].  The list [history]
      is never read and left out. *)
  Fixpoint game (fuel : nat) (player : color) (b : e_board E) : M bool :=
    match fuel with
    | O => out_of_fuel
    | S n =>
        c <- (if color_eqb player (e_turn E b) then players_turn b else engines_turn b) ;;
        match c with
        | Again => game n player b
        | Quits => ret false
        | Makes m =>
            match e_play E b m with
            | Continuing b' => game n player b'
            | Victory winner =>
                print H (e_show E b ++ [10%N]) ;;;
                print H (lit "Checkmate! " ++ e_name E (other winner) ++ lit " loses. "
                         ++ e_name E winner ++ lit " is victorious!" ++ [10%N]) ;;;
                ret (color_eqb player winner)
            | IllegalMove _ => game n player b
            | Stalemate => print H (lit "Drawn game." ++ [10%N]) ;;; ret false
            end
        end
    end.

  (** chess_module.rs:3-80 [chess_fn]: the arguments come as they are written. *)
  Definition chess (fuel : nat) (args : list expr) : M expr :=
    match args with
    | [] => panics PIndex
    | a :: _ =>
        let color :=
          match a with
          | EString c | ESymbol c =>
              if str_eqb c (lit "white") then Some White
              else if str_eqb c (lit "black") then Some Black else None
          | _ => None
          end in
        match color with
        | None => custom (lit "call chess with a color, like ""black"" or ""white""")
        | Some player => won <- game fuel player (e_start E) ;; ret (EBoolean won)
        end
    end.
End Chess.
