(** The operating system of the model (Host.v) with the file system of Fs.v. *)

From Coq Require Import String List.
From Verif Require Import Base Text Syntax Host Fs.
Import ListNotations.

(** The height of a tree, to bound the recursion of [copy_path].
    src/binary/init/fs_module.rs:165-323 (the requests about files). *)
Fixpoint height (n : node) : nat :=
  match n with
  | File _ => 0
  | Dir es => S (fold_right Nat.max 0 (map (fun e => height (snd e)) es))
  end.

(** An outcome as an answer.  [FFuel] stands for a call that does not return.
    src/binary/init/fs_module.rs:165-323 (the requests about files). *)
Definition answer (r : fres) : response :=
  match r with
  | FOk => RsOk
  | FErr m => RsErr (lit "Other") m []
  | FFuel => RsFailed
  end.

(** src/binary/init/fs_module.rs:165-323 (the requests about files). *)
Definition done (r : bool * disk) : response * disk :=
  (if fst r then RsOk else RsErr (lit "Other") [] [], snd r).

Section FsHost.
  Variable fault : nat -> option nat.
  (** What other requests (programs) do to the files. *)
  Variable other : request -> disk -> disk.

  (** The requests about files: src/binary/init/fs_module.rs:76-323 calls
      these functions of the standard library, and [move_path], [copy_path],
      [remove_path] of lines 352-457.  The texts of errors show the path
      without empty parts and [.]. *)
  Definition serve (rq : request) (d : disk) : option (response * disk) :=
    match rq with
    | RqFsOp op [a] =>
        if str_eqb op (lit "rm") then
          let r := remove_path fault (components a) d in Some (answer (fst r), snd r)
        else if str_eqb op (lit "mkdir") then Some (done (create_dir_all fault (components a) d))
        else if str_eqb op (lit "rmdir") then Some (done (remove_dir fault (components a) d))
        else None
    | RqFsOp op [a; b] =>
        if str_eqb op (lit "cp") then
          let r := copy_path fault (S (height (d_root d))) (components a) (components b) d in
          Some (answer (fst r), snd r)
        else if str_eqb op (lit "mv") then
          let r := move_path fault (components a) (components b) d in Some (answer (fst r), snd r)
        else None
    | RqTest what a =>
        if str_eqb what (lit "exists") then Some (RsBool (exists_at (components a) d), d)
        else if str_eqb what (lit "isdir") then Some (RsBool (is_dir (components a) d), d)
        else if str_eqb what (lit "isfile") then Some (RsBool (is_file (components a) d), d)
        else None
    | RqRead a =>
        match read_file fault (components a) d with
        | (Some b, d') => Some (RsOutput b, d')
        | (None, d') => Some (RsErr (lit "Other") [] [], d')
        end
    | RqWrite a b => Some (done (write_file fault (components a) b d))
    | RqOpenAppend a => Some (done (open_append fault (components a) d))
    | RqAppend a b => Some (done (append_file fault (components a) b d))
    | RqList dir short =>
        match list_directory fault (components dir) dir short d with
        | (inl l, d') => Some (RsTexts l, d')
        | (inr m, d') => Some (RsErr (lit "Other") m [], d')
        end
    | RqTree p => let (t, d') := get_dir_tree fault (components p) d in Some (RsTree t, d')
    | _ => None
    end.

  (** src/binary/init/fs_module.rs:165-323 (the requests about files). *)
  Definition next (rq : request) (d : disk) : disk :=
    match serve rq d with Some (_, d') => d' | None => other rq d end.

  (** The files after the requests of a history (latest first).
      src/binary/init/fs_module.rs:165-323 (the requests about files). *)
  Fixpoint disk_after (d0 : disk) (t : trace) : disk :=
    match t with
    | [] => d0
    | (rq, _) :: t' => next rq (disk_after d0 t')
    end.

  (** [H] with the files [d0] at the start.
      src/binary/init/fs_module.rs:165-323 (the requests about files). *)
  Definition on_disk (d0 : disk) (H : host) : host :=
    with_answer
      (fun t rq =>
         match serve rq (disk_after d0 t) with Some (rs, _) => rs | None => h_answer H t rq end) H.
End FsHost.
