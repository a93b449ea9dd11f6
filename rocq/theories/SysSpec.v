(** Vocabulary of the theorems about directories, files of code and conversions. *)

From Coq Require Import String List.
From Verif Require Import Base Syntax Host Monad.
Import ListNotations.

(** The path [t] as seen from the directory [cwd]. *)
Inductive joined : str -> str -> str -> Prop :=
| j_absolute cwd r : joined cwd (47%N :: r) (47%N :: r)
| j_empty t : hd_error t <> Some 47%N -> joined [] t t
| j_slash c t : hd_error t <> Some 47%N -> joined (c ++ [47%N]) t (c ++ [47%N] ++ t)
| j_relative c x t :
    hd_error t <> Some 47%N -> x <> 47%N -> joined (c ++ [x]) t (c ++ [x] ++ [47%N] ++ t).

(** The state after the request [rq], answered by the outside world. *)
Definition told (H : host) (rq : request) (s : st) : st :=
  St (s_env s) ((rq, h_answer H (s_trace s) rq) :: s_trace s) (s_log s).

(** The two sets of variables differ at most in the variable [x]. *)
Definition same_but (x : str) (e e' : env) : Prop :=
  forall y, y <> x -> env_get y e = env_get y e'.

(** The integer denoted by digits. *)
Fixpoint denotes_from (n : Z) (d : str) (z : Z) : Prop :=
  match d with
  | [] => z = n
  | c :: r => (48 <= c <= 57)%N /\ denotes_from (10 * n + (Z.of_N c - 48)) r z
  end.

(** The integer denoted by a text: digits, with a sign or without. *)
Inductive written : str -> Z -> Prop :=
| w_plain d z : d <> [] -> denotes_from 0 d z -> written d z
| w_plus d z : d <> [] -> denotes_from 0 d z -> written (43%N :: d) z
| w_minus d z : d <> [] -> denotes_from 0 d z -> written (45%N :: d) (- z).

Definition fits (z : Z) : Prop := (- 2 ^ 63 <= z < 2 ^ 63)%Z.

(** The integer between [m * 2 ^ e] and zero that is nearest to it. *)
Inductive whole_part (m e : Z) : Z -> Prop :=
| whole_part_int : (0 <= e)%Z -> whole_part m e (m * 2 ^ e)
| whole_part_cut a :
    (e < 0)%Z -> (a * 2 ^ (- e) <= m < (a + 1) * 2 ^ (- e))%Z -> whole_part m e a.

(** The integer of 64 bits nearest to [z]. *)
Definition nearest (z n : Z) : Prop :=
  fits n /\ (fits z -> n = z)
  /\ (z < - 2 ^ 63 -> n = - 2 ^ 63)%Z /\ (2 ^ 63 <= z -> n = 2 ^ 63 - 1)%Z.
