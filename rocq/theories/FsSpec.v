(** What the file operations should do, in terms of what there is at each path. *)

From Coq Require Import List.
From Verif Require Import Base Fs.
Import ListNotations.

Inductive kind := KFile (contents : list N) | KDir.

(** In the tree there is a file or a directory at a path. *)
Inductive holds : node -> path -> kind -> Prop :=
| h_file b : holds (File b) [] (KFile b)
| h_dir es : holds (Dir es) [] KDir
| h_in es x n p k : In (x, n) es -> holds n p k -> holds (Dir es) (x :: p) k.

(** No directory has two entries of one name. *)
Inductive valid : node -> Prop :=
| v_file b : valid (File b)
| v_dir es :
    NoDup (map fst es) -> (forall x n, In (x, n) es -> valid n) -> valid (Dir es).

Definition below (p q : path) : Prop := exists r, q = p ++ r.

Definition present (t : node) (p : path) : Prop := exists k, holds t p k.

(** What is at [p] in the one tree is the same as what is at [q] in the other. *)
Definition same_at (t : node) (p : path) (u : node) (q : path) : Prop :=
  forall r k, holds t (p ++ r) k <-> holds u (q ++ r) k.

(** Apart from what is at [p], the two trees differ at most in directories
    leading to [p] that are new. *)
Definition same_apart_from (p : path) (t u : node) : Prop :=
  forall q, ~ below p q ->
    (forall b, holds t q (KFile b) <-> holds u q (KFile b)) /\
    (holds t q KDir -> holds u q KDir) /\
    (holds u q KDir -> holds t q KDir \/ below q p).

(** Where a path given to the shell leads from the working directory [cwd]. *)
Inductive leads (cwd given : str) : path -> Prop :=
| leads_abs r : given = 47%N :: r -> leads cwd given (components given)
| leads_rel : hd_error given <> Some 47%N -> leads cwd given (components cwd ++ components given).
