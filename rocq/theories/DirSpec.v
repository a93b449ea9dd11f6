(** Vocabulary of the theorems about listings of directories. *)

From Coq Require Import String List.
From Verif Require Import Base Syntax Fs FsSpec SysSpec.
Import ListNotations.

(** In the tree there is [m] at a path. *)
Inductive found : node -> path -> node -> Prop :=
| found_here n : found n [] n
| found_in es x n p m : In (x, n) es -> found n p m -> found (Dir es) (x :: p) m.

(** What can be the name of a file. *)
Definition proper (x : str) : Prop :=
  x <> [] /\ x <> lit "." /\ x <> lit ".." /\ ~ In 47%N x.

(** All names in the tree can be names of files. *)
Inductive named : node -> Prop :=
| named_file b : named (File b)
| named_dir es : (forall x n, In (x, n) es -> proper x /\ named n) -> named (Dir es).

Definition absolute (p : str) : Prop := exists r, p = 47%N :: r.

(** [q] is the directory that the absolute path [p] is in. *)
Definition one_up (p q : str) : Prop :=
  absolute q /\ exists x, components p = components q ++ [x].

(** The value [v] describes the file or directory [n], which is at the path [p]:
    a file by its path, a directory by a map of its entries. *)
Inductive describes : str -> node -> expr -> Prop :=
| describes_file p b : describes p (File b) (EString p)
| describes_dir p q es m :
    one_up p q -> NoDup (map fst m) ->
    (forall k, In k (map fst m) <-> k = lit "." \/ k = lit ".." \/ In k (map fst es)) ->
    In (lit ".", EString p) m -> In (lit "..", EString q) m ->
    (forall x n, In (x, n) es -> exists t v, joined p x t /\ In (x, v) m /\ describes t n v) ->
    describes p (Dir es) (EMap m).

(** The same, but entries of directories can be missing. *)
Inductive hints_at : str -> node -> expr -> Prop :=
| hints_file p b : hints_at p (File b) (EString p)
| hints_dir p q es m :
    one_up p q -> NoDup (map fst m) ->
    In (lit ".", EString p) m -> In (lit "..", EString q) m ->
    (forall k v, In (k, v) m -> k <> lit "." -> k <> lit ".." ->
       exists n t, In (k, n) es /\ joined p k t /\ hints_at t n v) ->
    hints_at p (Dir es) (EMap m).

(** There are [n] maps inside each other. *)
Inductive nested : expr -> nat -> Prop :=
| nested_any v : nested v 0
| nested_map m k v n : In (k, v) m -> nested v n -> nested (EMap m) (S n).

(** The path [p] as it is given when the working directory is [cwd]. *)
Definition seen_from (cwd p t : str) : Prop :=
  (absolute p -> below (components cwd) (components p) ->
     ~ absolute t /\ components p = components cwd ++ components t)
  /\ (~ (absolute p /\ below (components cwd) (components p)) -> t = p).
