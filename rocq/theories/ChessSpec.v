(** Vocabulary of the theorems about the game of chess. *)

From Coq Require Import String List NArith Lia.
From Verif Require Import Base Syntax Host Monad TextSpec Chess.
Import ListNotations.

(** What was asked of the outside world between two states, first request
    first. *)
Definition asked_between (s s' : st) (rqs : list request) : Prop :=
  exists t, s_trace s' = t ++ s_trace s /\ map fst t = rev rqs.

(** The lines typed between two states. *)
Definition line_of (a : request * response) : list str :=
  match a with
  | (RqInput _, RsText l) => [l]
  | (RqInput _, _) => [[]]
  | _ => []
  end.
Definition typed_between (s s' : st) (ls : list str) : Prop :=
  exists t, s_trace s' = t ++ s_trace s /\ flat_map line_of (rev t) = ls.

Section Spec.
  Variable E : engine.
  Variable p : color.

  (** What the user reads, and where a line is asked for. *)
  Definition waiting : request := RqPrint (lit "Waiting for CPU to annihilate your position..." ++ [10%N]).
  Definition your_move (b : e_board E) : list request :=
    [RqPrint (lit "Your move!" ++ [10%N] ++ e_show E b ++ [10%N]); RqInput (lit "Enter move: ")].
  Definition bye : request := RqPrint (lit "Bye!" ++ [10%N]).
  Definition drawn : request := RqPrint (lit "Drawn game." ++ [10%N]).
  Definition mate (b : e_board E) (loser winner : color) : list request :=
    [RqPrint (e_show E b ++ [10%N]);
     RqPrint (lit "Checkmate! " ++ e_name E loser ++ lit " loses. " ++ e_name E winner
              ++ lit " is victorious!" ++ [10%N])].

  (** A line that ends the game. *)
  Definition farewell (line : str) : Prop :=
    exists t, trimmed line t /\ In t (map lit ["q"; "quit"; "exit"]%string).
  (** A line that stands for a move. *)
  Definition stands_for (line : str) (m : e_move E) : Prop :=
    ~ farewell line /\ exists t, trimmed line t /\ t <> [] /\ e_read E t = inl m.
  (** A line that is neither. *)
  Definition nonsense (line : str) : Prop := ~ farewell line /\ forall m, ~ stands_for line m.

  (** A match: from the first position, with these lines typed and these requests
      made, the moves lead to the last position. *)
  Inductive leads : e_board E -> list str -> list request -> list (e_move E) -> e_board E -> Prop :=
  | leads_nowhere b : leads b [] [] [] b
  | leads_engine b b1 m ls rqs ms b2 :
      e_turn E b <> p -> m = e_best E b 4 -> e_play E b m = Continuing b1 -> leads b1 ls rqs ms b2 ->
      leads b ls (waiting :: rqs) (m :: ms) b2
  | leads_player b b1 l m ls rqs ms b2 :
      e_turn E b = p -> stands_for l m -> e_play E b m = Continuing b1 -> leads b1 ls rqs ms b2 ->
      leads b (l :: ls) (your_move b ++ rqs) (m :: ms) b2
  | leads_nonsense b l ls rqs ms b2 :
      e_turn E b = p -> nonsense l -> leads b ls rqs ms b2 ->
      leads b (l :: ls) (your_move b ++ rqs) ms b2
  | leads_illegal b l m x ls rqs ms b2 :
      e_turn E b = p -> stands_for l m -> e_play E b m = IllegalMove x -> leads b ls rqs ms b2 ->
      leads b (l :: ls) (your_move b ++ rqs) ms b2.

  (** How a move ends the game in a position, and whether the player has won. *)
  Inductive decides (b : e_board E) (m : e_move E) : list request -> bool -> Prop :=
  | decides_won : e_play E b m = Victory p -> forall c, c <> p -> decides b m (mate b c p) true
  | decides_lost c : e_play E b m = Victory c -> c <> p -> decides b m (mate b p c) false
  | decides_drawn : e_play E b m = Stalemate -> decides b m [drawn] false.

  (** The end of a match in a position. *)
  Inductive ends (b : e_board E) : list str -> list request -> bool -> Prop :=
  | ends_quit l : e_turn E b = p -> farewell l -> ends b [l] (your_move b ++ [bye]) false
  | ends_player l m rqs w :
      e_turn E b = p -> stands_for l m -> decides b m rqs w -> ends b [l] (your_move b ++ rqs) w
  | ends_engine rqs w :
      e_turn E b <> p -> decides b (e_best E b 4) rqs w -> ends b [] (waiting :: rqs) w.

  (** The whole match. *)
  Definition match_ (b : e_board E) (ls : list str) (rqs : list request) (w : bool) : Prop :=
    exists ls1 ls2 rqs1 rqs2 ms b', ls = ls1 ++ ls2 /\ rqs = rqs1 ++ rqs2
      /\ leads b ls1 rqs1 ms b' /\ ends b' ls2 rqs2 w.

  (** The engine only makes moves that are allowed, and then it is the player's
      turn. *)
  Definition honest : Prop :=
    forall b, e_turn E b <> p ->
      (forall x, e_play E b (e_best E b 4) <> IllegalMove x)
      /\ forall b', e_play E b (e_best E b 4) = Continuing b' -> e_turn E b' = p.
End Spec.

(** The name of a colour. *)
Inductive names_color : expr -> color -> Prop :=
| nc_string c t : In (t, c) [(lit "white", White); (lit "black", Black)] -> names_color (EString t) c
| nc_symbol c t : In (t, c) [(lit "white", White); (lit "black", Black)] -> names_color (ESymbol t) c.

(** The number of lines asked for so far. *)
Fixpoint lines_asked (t : trace) : nat :=
  match t with
  | [] => 0
  | (RqInput _, _) :: r => S (lines_asked r)
  | _ :: r => lines_asked r
  end.

(** A user who types the given lines one after the other, whatever is shown. *)
Definition types (H : host) (line : nat -> str) : Prop :=
  forall t q, h_answer H t (RqInput q) = RsText (line (lines_asked t)).
