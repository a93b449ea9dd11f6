(** The helper of the line editor: src/bin.rs:107-181, 300-353. *)

From Coq Require Import String.
From Verif Require Import Base Syntax Host Text ErrorFmt.

(** src/bin.rs:143-150, 308-315: the characters that end a word. *)
Definition ends_word (c : chr) : bool :=
  is_ws c || existsb (N.eqb c) (lit ";'(){}" ++ [34%N]).

(** src/bin.rs:142-160, 307-325: the word at [pos]; [i] is the number of
    characters before [s], [cur] the word so far, reversed. *)
Fixpoint segment_go (s cur : str) (i pos : N) : str :=
  match s with
  | [] => rev cur
  | c :: r =>
      let cur' := if ends_word c then [] else c :: cur in
      if (i =? pos)%N then rev cur' else segment_go r cur' (i + 1) pos
  end.

(** src/bin.rs:139-160. *)
Definition segment (line : str) (pos : N) : str := segment_go line [] 0 pos.

(** [str::trim_start_matches] with a non-empty pattern; [fuel] is at least the
    length of [s].  src/bin.rs:334. *)
Fixpoint trim_matches (fuel : nat) (p s : str) : str :=
  match fuel with
  | O => s
  | S n => match strip_prefix p s with Some r => trim_matches n p r | None => s end
  end.

(** src/bin.rs:327-329. *)
Definition hint_commands : list str :=
  [lit "exit 0"; lit "ls "; lit "rm -ri "; lit "cp -r "; lit "head "; lit "tail "; lit "cd "; lit "clear"].

(** src/bin.rs:303-339 [hint]; [history] is the answer of [HistoryHinter] for
    this line and position. *)
Definition hint (history : option str) (line : str) : option str :=
  if str_eqb (trim line) [] then history
  else match find (str_contains line) hint_commands with
       | Some cmd => Some (trim_matches (length cmd) line cmd)
       | None => history
       end.

(** src/bin.rs:351-353 [highlight_hint]. *)
Definition highlight_hint (h : str) : str := 27%N :: lit "[1m" ++ h ++ 27%N :: lit "[m".

(** src/bin.rs:161-170: the path that is completed when the working directory
    cannot be entered. *)
Definition completed_path (cwd line : str) (pos : N) : str :=
  let seg := segment line pos in
  let p := match seg with [] => cwd ++ lit "/" | _ => path_join cwd seg end in
  str_replace (lit "//") (lit "/") (str_replace (lit "/./") (lit "/") p).

(** src/bin.rs:127-179 [complete].  [enters]: whether the working directory can
    be entered; [files] is [FilenameCompleter::complete], which gives a start
    position and pairs of a text to show and a replacement, or fails. *)
Definition complete (files : str -> N -> option (N * list (str * str))) (enters : bool) (cwd line : str) (pos : N)
  : option (N * list (str * str)) :=
  if enters then files line pos
  else
    let path := completed_path cwd line pos in
    match files path (utf8_len path) with
    | Some (start, pairs) =>
        Some (start, map (fun pr => (fst pr, line ++ str_replace path [] (snd pr))) pairs)
    | None => None
    end.
