(** A terminal with two screens and a cursor that can be hidden. *)

From Coq Require Import String List.
From Verif Require Import Base TermSpec.
Import ListNotations.

(** The alternate screen is there while it is in use. *)
Record terminal := Terminal {
  normal : screen;
  alternate : option screen;
  seen : bool                          (* the cursor *)
}.

Definition current (d : terminal) : screen :=
  match alternate d with Some c => c | None => normal d end.

Definition set_current (c : screen) (d : terminal) : terminal :=
  match alternate d with
  | Some _ => Terminal (normal d) (Some c) (seen d)
  | None => Terminal c None (seen d)
  end.

Definition save_cursor (d : terminal) : terminal :=
  let c := current d in set_current (Screen (cursor c) (cursor c) (cell c)) d.
Definition restore_cursor (d : terminal) : terminal :=
  let c := current d in set_current (Screen (saved c) (saved c) (cell c)) d.
Definition show_cursor (b : bool) (d : terminal) : terminal :=
  Terminal (normal d) (alternate d) b.

(** The alternate screen starts empty; the place of the cursor is kept. *)
Definition enter_alternate (d : terminal) : terminal :=
  match alternate d with
  | Some _ => d
  | None =>
      let c := normal d in
      Terminal (Screen (cursor c) (cursor c) (cell c)) (Some (Screen (cursor c) (saved c) (fun _ _ => None))) (seen d)
  end.
Definition leave_alternate (d : terminal) : terminal :=
  match alternate d with
  | Some _ => let c := normal d in Terminal (Screen (saved c) (saved c) (cell c)) None (seen d)
  | None => d
  end.

(** The terminal reads one sequence, or a text without private sequences. *)
Inductive obeys : str -> terminal -> terminal -> Prop :=
| obeys_text t d c : reads t (current d) c -> obeys t d (set_current c d)
| obeys_hide d : obeys (csi (lit "?25l")) d (show_cursor false d)
| obeys_show d : obeys (csi (lit "?25h")) d (show_cursor true d)
| obeys_enter d : obeys (csi (lit "?1049h")) d (enter_alternate d)
| obeys_leave d : obeys (csi (lit "?1049l")) d (leave_alternate d).

(** A number of them. *)
Inductive obeys_all : list str -> terminal -> terminal -> Prop :=
| obeys_none d : obeys_all [] d d
| obeys_more t l d d1 d2 : obeys t d d1 -> obeys_all l d1 d2 -> obeys_all (t :: l) d d2.
