(** A file system and the functions of src/binary/init/fs_module.rs:352-507 that
    copy, move, remove and list.

    Simplifications: there are no symbolic links, and paths are absolute and
    free of [..]; other processes do not change the file system meanwhile.  That
    an operation fails for a reason outside the tree of files (permissions, a
    full disk) is left open by [fault]. *)

From Coq Require Import String List.
From Verif Require Import Base Text Host.
Import ListNotations.

(** ** Trees *)

(** src/binary/init/fs_module.rs:352-507 (what these functions work on). *)
Inductive node :=
| File (contents : list N)
| Dir (entries : list (str * node)).

(** [std::path::Components] of an absolute path: no empty parts, no [.].
    src/binary/init/fs_module.rs:355,363. *)
Definition path := list str.

(** The parts of [s] between separators; [cur] is the current part, reversed.
    src/binary/init/fs_module.rs:355,363. *)
Fixpoint split_path (cur : str) (s : str) : list str :=
  match s with
  | [] => [rev cur]
  | c :: r => if (c =? 47)%N then rev cur :: split_path [] r else split_path (c :: cur) r
  end.
(** src/binary/init/fs_module.rs:355,363. *)
Definition components (s : str) : path :=
  filter (fun x => negb (str_eqb x []) && negb (str_eqb x (lit "."))) (split_path [] s).

(** [Path::display] of an absolute path.  src/binary/init/fs_module.rs:355,363. *)
Definition path_str (p : path) : str :=
  match p with [] => lit "/" | _ => concat (map (fun x => lit "/" ++ x) p) end.

(** src/binary/init/fs_module.rs:355,363. *)
Fixpoint path_eqb (p q : path) : bool :=
  match p, q with
  | [], [] => true
  | x :: p', y :: q' => str_eqb x y && path_eqb p' q'
  | _, _ => false
  end.

(** src/binary/init/fs_module.rs:352-507 (the tree the system calls there change). *)
Fixpoint entry (x : str) (es : list (str * node)) : option node :=
  match es with
  | [] => None
  | (y, n) :: r => if str_eqb x y then Some n else entry x r
  end.

(** Replace the entry [x], or add it at the end.
    src/binary/init/fs_module.rs:352-507 (the tree the system calls there change). *)
Fixpoint set_entry (x : str) (m : node) (es : list (str * node)) : list (str * node) :=
  match es with
  | [] => [(x, m)]
  | (y, n) :: r => if str_eqb x y then (x, m) :: r else (y, n) :: set_entry x m r
  end.

(** src/binary/init/fs_module.rs:352-507 (the tree the system calls there change). *)
Definition drop_entry (x : str) (es : list (str * node)) : list (str * node) :=
  filter (fun e => negb (str_eqb x (fst e))) es.

(** src/binary/init/fs_module.rs:352-507 (the tree the system calls there change). *)
Fixpoint lookup (p : path) (n : node) : option node :=
  match p with
  | [] => Some n
  | x :: r =>
      match n with
      | Dir es => match entry x es with Some m => lookup r m | None => None end
      | File _ => None
      end
  end.

(** Put [m] at [p]; the directory it goes into must be there.
    src/binary/init/fs_module.rs:352-507 (the tree the system calls there change). *)
Fixpoint put (p : path) (m : node) (n : node) : option node :=
  match p with
  | [] => Some m
  | x :: r =>
      match n with
      | File _ => None
      | Dir es =>
          match entry x es, r with
          | Some k, _ =>
              match put r m k with Some k' => Some (Dir (set_entry x k' es)) | None => None end
          | None, [] => Some (Dir (set_entry x m es))
          | None, _ => None
          end
      end
  end.

(** Remove what is at [p]; not the root.
    src/binary/init/fs_module.rs:352-507 (the tree the system calls there change). *)
Fixpoint cut (p : path) (n : node) : option node :=
  match p with
  | [] => None
  | x :: r =>
      match n with
      | File _ => None
      | Dir es =>
          match entry x es, r with
          | Some _, [] => Some (Dir (drop_entry x es))
          | Some k, _ =>
              match cut r k with Some k' => Some (Dir (set_entry x k' es)) | None => None end
          | None, _ => None
          end
      end
  end.

(** Make [p] and the directories above it.
    src/binary/init/fs_module.rs:352-507 (the tree the system calls there change). *)
Fixpoint mkdirs (p : path) (n : node) : option node :=
  match n with
  | File _ => None
  | Dir es =>
      match p with
      | [] => Some n
      | x :: r =>
          match entry x es with
          | Some k => match mkdirs r k with Some k' => Some (Dir (set_entry x k' es)) | None => None end
          | None => match mkdirs r (Dir []) with Some k' => Some (Dir (set_entry x k' es)) | None => None end
          end
      end
  end.

(** src/binary/init/fs_module.rs:352-507 (the tree the system calls there change). *)
Fixpoint prefixb (p q : path) : bool :=
  match p, q with
  | [], _ => true
  | x :: p', y :: q' => str_eqb x y && prefixb p' q'
  | _, [] => false
  end.

(** ** The operating system *)

(** The files, and the number of operations done.
    src/binary/init/fs_module.rs:352-507 (what these functions work on). *)
Record disk := Disk { d_root : node; d_tick : nat }.

(** src/binary/init/fs_module.rs:354. *)
Inductive fres :=
| FOk
| FErr (msg : str)
| FFuel.           (* the bound on the recursion was too small *)

Section Fs.
  (** [fault k = Some n]: operation number [k] fails for a reason outside the
      tree, after a part of its work measured by [n]. *)
  Variable fault : nat -> option nat.

  (** [Path::exists], [Path::is_dir], [Path::is_file].
      src/binary/init/fs_module.rs:360,368,442,497. *)
  Definition exists_at (p : path) (d : disk) : bool :=
    match lookup p (d_root d) with Some _ => true | None => false end.
  (** src/binary/init/fs_module.rs:360,368,442,497. *)
  Definition is_dir (p : path) (d : disk) : bool :=
    match lookup p (d_root d) with Some (Dir _) => true | _ => false end.
  (** src/binary/init/fs_module.rs:360,368,442,497. *)
  Definition is_file (p : path) (d : disk) : bool :=
    match lookup p (d_root d) with Some (File _) => true | _ => false end.

  (** src/binary/init/fs_module.rs:370,403,429,443 (effect of a system call). *)
  Definition with_root (d : disk) (r : option node) : bool * disk :=
    match r with
    | Some n => (true, Disk n (S (d_tick d)))
    | None => (false, Disk (d_root d) (S (d_tick d)))
    end.
  (** The same for an operation that fails: what it did anyway.
      src/binary/init/fs_module.rs:370,403,429,443 (effect of a system call). *)
  Definition broken (d : disk) (r : option node) : bool * disk := (false, snd (with_root d r)).

  (** [std::fs::create_dir_all]; a failure may come after some directories.
      src/binary/init/fs_module.rs:370. *)
  Definition create_dir_all (p : path) (d : disk) : bool * disk :=
    match fault (d_tick d) with
    | None => with_root d (mkdirs p (d_root d))
    | Some n =>
        broken d (if Nat.ltb n (length p) then mkdirs (firstn n p) (d_root d) else None)
    end.

  (** [std::fs::copy] of a file: the destination is not a directory.  A failure
      may leave the beginning of the contents.  src/binary/init/fs_module.rs:403. *)
  Definition copy_file (src dst : path) (d : disk) : bool * disk :=
    match lookup src (d_root d) with
    | Some (File b) =>
        if is_dir dst d then broken d None
        else
          match fault (d_tick d) with
          | None => with_root d (put dst (File b) (d_root d))
          | Some O => broken d None
          | Some (S n) => broken d (put dst (File (firstn n b)) (d_root d))
          end
    | _ => broken d None
    end.

  (** [std::fs::read_dir]: the names there are when the directory is opened.
      src/binary/init/fs_module.rs:378-381. *)
  Definition read_dir (p : path) (d : disk) : option (list str) * disk :=
    let d' := Disk (d_root d) (S (d_tick d)) in
    match fault (d_tick d), lookup p (d_root d) with
    | None, Some (Dir es) => (Some (map fst es), d')
    | _, _ => (None, d')
    end.

  (** One step of the iteration over a directory; it may fail.
      src/binary/init/fs_module.rs:378-381. *)
  Definition next_entry (d : disk) : bool * disk :=
    (match fault (d_tick d) with None => true | Some _ => false end,
     Disk (d_root d) (S (d_tick d))).

  (** [std::fs::rename]: the source is there, the destination is not inside it,
      and it is free, or a file is replaced by a file, or an empty directory by
      a directory.  src/binary/init/fs_module.rs:429. *)
  Definition rename (src dst : path) (d : disk) : bool * disk :=
    match fault (d_tick d), lookup src (d_root d) with
    | None, Some n =>
        if prefixb src dst then broken d None
        else
          match lookup dst (d_root d), n with
          | None, _ | Some (File _), File _ | Some (Dir []), Dir _ =>
              match put dst n (d_root d) with
              | Some t => with_root d (cut src t)
              | None => broken d None
              end
          | _, _ => broken d None
          end
    | _, _ => broken d None
    end.

  (** [std::fs::remove_dir_all], which may fail after a part of the entries, and
      [std::fs::remove_file].  src/binary/init/fs_module.rs:443. *)
  Definition remove_dir_all (p : path) (d : disk) : bool * disk :=
    match fault (d_tick d), lookup p (d_root d) with
    | None, Some (Dir _) => with_root d (cut p (d_root d))
    | Some n, Some (Dir es) => broken d (put p (Dir (skipn n es)) (d_root d))
    | _, _ => broken d None
    end.
  (** src/binary/init/fs_module.rs:449. *)
  Definition remove_file (p : path) (d : disk) : bool * disk :=
    match fault (d_tick d), lookup p (d_root d) with
    | None, Some (File _) => with_root d (cut p (d_root d))
    | _, _ => broken d None
    end.

  (** [std::fs::remove_dir]: an empty directory.  src/binary/init/fs_module.rs:187-196. *)
  Definition remove_dir (p : path) (d : disk) : bool * disk :=
    match fault (d_tick d), lookup p (d_root d) with
    | None, Some (Dir []) => with_root d (cut p (d_root d))
    | _, _ => broken d None
    end.

  (** [std::fs::read].  src/binary/init/fs_module.rs:262-267. *)
  Definition read_file (p : path) (d : disk) : option (list N) * disk :=
    let d' := Disk (d_root d) (S (d_tick d)) in
    match fault (d_tick d), lookup p (d_root d) with
    | None, Some (File b) => (Some b, d')
    | _, _ => (None, d')
    end.

  (** [std::fs::write]: makes or replaces a file.  A failure may leave the
      beginning of the contents.  src/binary/init/fs_module.rs:282-287. *)
  Definition write_file (p : path) (b : list N) (d : disk) : bool * disk :=
    if is_dir p d then broken d None
    else
      match fault (d_tick d) with
      | None => with_root d (put p (File b) (d_root d))
      | Some O => broken d None
      | Some (S n) => broken d (put p (File (firstn n b)) (d_root d))
      end.

  (** [OpenOptions::new().append(true).open]: the file has to be there.
      src/binary/init/fs_module.rs:301. *)
  Definition open_append (p : path) (d : disk) : bool * disk :=
    (match fault (d_tick d), lookup p (d_root d) with
     | None, Some (File _) => true
     | _, _ => false
     end, Disk (d_root d) (S (d_tick d))).

  (** [write_all] to a file opened for appending.  A failure may come after a
      part of the bytes.  src/binary/init/fs_module.rs:306-313. *)
  Definition append_file (p : path) (b : list N) (d : disk) : bool * disk :=
    match lookup p (d_root d) with
    | Some (File a) =>
        match fault (d_tick d) with
        | None => with_root d (put p (File (a ++ b)) (d_root d))
        | Some n => broken d (put p (File (a ++ firstn n b)) (d_root d))
        end
    | _ => broken d None
    end.

  (** ** src/binary/init/fs_module.rs *)

  (** Lines 380-396: the loop over the entries.  src/binary/init/fs_module.rs:379-394. *)
  Fixpoint copy_entries (rec : path -> path -> disk -> fres * disk) (src dst : path)
      (names : list str) (d : disk) : fres * disk :=
    match names with
    | [] => (FOk, d)
    | x :: r =>
        match next_entry d with
        | (false, d1) => (FErr (lit "could not read directory " ++ path_str src), d1)
        | (true, d1) =>
            match rec (src ++ [x]) (dst ++ [x]) d1 with
            | (FOk, d2) => copy_entries rec src dst r d2
            | bad => bad
            end
        end
    end.

  (** Lines 354-412 [copy_path].  src/binary/init/fs_module.rs:354-412. *)
  Fixpoint copy_path (fuel : nat) (src dst : path) (d : disk) : fres * disk :=
    match fuel with
    | O => (FFuel, d)
    | S f =>
        if path_eqb src dst then (FOk, d)
        else if exists_at dst d
        then (FErr (lit "destination " ++ path_str dst ++ lit " already exists"), d)
        else if is_dir src d then
          match create_dir_all dst d with
          | (false, d1) => (FErr (lit "could not create directory " ++ path_str dst), d1)
          | (true, d1) =>
              match read_dir src d1 with
              | (None, d2) => (FErr (lit "could not create directory " ++ path_str dst), d2)
              | (Some names, d2) => copy_entries (copy_path f) src dst names d2
              end
          end
        else
          match copy_file src dst d with
          | (true, d1) => (FOk, d1)
          | (false, d1) =>
              (FErr (lit "could not copy file " ++ path_str src ++ lit " to " ++ path_str dst), d1)
          end
    end.

  (** Lines 415-438 [move_path].  src/binary/init/fs_module.rs:415-438. *)
  Definition move_path (src dst : path) (d : disk) : fres * disk :=
    if path_eqb src dst then (FOk, d)
    else if exists_at dst d
    then (FErr (lit "destination " ++ path_str dst ++ lit " already exists"), d)
    else
      match rename src dst d with
      | (true, d1) => (FOk, d1)
      | (false, d1) =>
          (FErr (lit "could not move " ++ path_str src ++ lit " to " ++ path_str dst), d1)
      end.

  (** Lines 441-457 [remove_path].  src/binary/init/fs_module.rs:441-457. *)
  Definition remove_path (p : path) (d : disk) : fres * disk :=
    if is_dir p d then
      match remove_dir_all p d with
      | (true, d1) => (FOk, d1)
      | (false, d1) => (FErr (lit "could not remove directory " ++ path_str p), d1)
      end
    else
      match remove_file p d with
      | (true, d1) => (FOk, d1)
      | (false, d1) => (FErr (lit "could not remove file " ++ path_str p), d1)
      end.

  (** Lines 470-487: the entries as paths below [short].
      src/binary/init/fs_module.rs:467-486. *)
  Fixpoint list_entries (short : str) (names : list str) (d : disk) : option (list str) * disk :=
    match names with
    | [] => (Some [], d)
    | x :: r =>
        match next_entry d with
        | (false, d1) => (None, d1)
        | (true, d1) =>
            match list_entries short r d1 with
            | (Some l, d2) => (Some (path_join short x :: l), d2)
            | bad => bad
            end
        end
    end.

  (** [list_directory]; [inr] is the text of the error, [shown] the text of the
      path [dir].  All names are texts.  src/binary/init/fs_module.rs:460-507. *)
  Definition list_directory (dir : path) (shown short : str) (d : disk) : (list str + str) * disk :=
    if is_dir dir d then
      match read_dir dir d with
      | (None, d1) => (inr (lit "could not read directory " ++ shown), d1)
      | (Some names, d1) =>
          match list_entries short names d1 with
          | (Some l, d2) => (inl l, d2)
          | (None, d2) => (inr (lit "could not read entries in " ++ shown), d2)
          end
      end
    else if is_file dir d then (inl [shown], d)
    else (inr (shown ++ lit " does not exist"), d).

  (** [get_dir_tree] on what is at a path, from operation [k] on: a directory that
      cannot be read is taken for an empty one, an entry that cannot be read is
      skipped.  src/binary/init/fs_module.rs:20-38. *)
  Fixpoint tree_of (n : node) (k : nat) : dirtree * nat :=
    match n with
    | File _ => (DtFile, k)
    | Dir es =>
        match fault k with
        | Some _ => (DtDir [], S k)
        | None =>
            let fix entries es k :=
              match es with
              | [] => ([], k)
              | (x, m) :: r =>
                  match fault k with
                  | Some _ => entries r (S k)
                  | None =>
                      let (t, k1) := tree_of m (S k) in
                      let (ts, k2) := entries r k1 in
                      ((x, t) :: ts, k2)
                  end
              end in
            let (ts, k') := entries es (S k) in (DtDir ts, k')
        end
    end.

  (** The same for the path the search starts from.
      src/binary/init/fs_module.rs:11-41. *)
  Definition get_dir_tree (p : path) (d : disk) : dirtree * disk :=
    match lookup p (d_root d) with
    | Some (Dir es) =>
        let (t, k) := tree_of (Dir es) (d_tick d) in (t, Disk (d_root d) k)
    | _ => (DtDir [], Disk (d_root d) (S (d_tick d)))
    end.
End Fs.
