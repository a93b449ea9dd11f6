(** Pure functions on text used by the builtins. *)

From Coq Require Import String.
From Verif Require Import Base Syntax Host Ops ErrorFmt.

(** src/bin.rs:63-82 [strip_ansi_escapes]. *)
Fixpoint strip_ansi_go (esc : bool) (s : str) : str :=
  match s with
  | [] => []
  | c :: r =>
      if (c =? 27)%N then strip_ansi_go true r
      else if esc && (c =? 109)%N then strip_ansi_go false r
      else if negb esc then c :: strip_ansi_go esc r
      else strip_ansi_go esc r
  end.
(** src/bin.rs:63-82. *)
Definition strip_ansi (s : str) : str := strip_ansi_go false s.

(** [str::starts_with].  src/binary/init/string_module.rs:414. *)
Definition starts_with (p s : str) : bool :=
  match strip_prefix p s with Some _ => true | None => false end.
(** [str::ends_with].  src/binary/init/string_module.rs:426. *)
Definition ends_with (p s : str) : bool := starts_with (rev p) (rev s).
(** [str::contains].  src/binary/init/string_module.rs:438. *)
Fixpoint str_contains (p s : str) : bool :=
  starts_with p s || match s with [] => false | _ :: r => str_contains p r end.

(** [str::split] with a non-empty pattern: [skip] characters of a match are
    still to be dropped, [cur] is the current piece, reversed.
    src/binary/init/string_module.rs:5-28. *)
Fixpoint split_go (pat : str) (skip : nat) (s cur : str) : list str :=
  match s with
  | [] => [rev cur]
  | c :: r =>
      match skip with
      | S k => split_go pat k r cur
      | O => if starts_with pat s
             then rev cur :: split_go pat (length pat - 1) r []
             else split_go pat O r (c :: cur)
      end
  end.

(** [str::split].  src/binary/init/string_module.rs:5-28. *)
Definition str_split (pat s : str) : list str :=
  match pat with
  | [] => [] :: map (fun c => [c]) s ++ [[]]
  | _ => split_go pat O s []
  end.

(** [str::replace].  src/binary/init/string_module.rs:402. *)
Definition str_replace (old new s : str) : str := join new (str_split old s).

(** [str::split_whitespace].  src/binary/init/string_module.rs:318-329. *)
Fixpoint words_go (s cur : str) : list str :=
  let flush := match cur with [] => [] | _ => [rev cur] end in
  match s with
  | [] => flush
  | c :: r => if is_ws c then flush ++ words_go r [] else words_go r (c :: cur)
  end.
(** src/binary/init/string_module.rs:318-329. *)
Definition split_whitespace (s : str) : list str := words_go s [].

(** src/binary/init/string_module.rs:79-105: the longest line, in characters. *)
Fixpoint width_go (s : str) (width max_width : N) : N :=
  match s with
  | [] => if (max_width <? width)%N then width else max_width
  | c :: r =>
      if (c =? 10)%N
      then width_go r 0 (if (max_width <? width)%N then width else max_width)
      else width_go r (width + 1) max_width
  end.
(** src/binary/init/string_module.rs:79-105. *)
Definition get_width (s : str) : N := width_go s 0 0.

(** src/binary/init/string_module.rs:49-70: one character of the caesar
    cipher; [offset + (i as u8)] is computed in [u8]. *)
Definition caesar_chr (ovf : overflow_mode) (i : Z) (c : chr) : chr + panic :=
  if is_lower c || is_upper c then
    let base := if is_lower c then 97%N else 65%N in
    let sum := (c - base + Z.to_N (i mod 256))%N in
    if (sum <? 256)%N then inl (sum mod 26 + base)%N
    else match ovf with
         | OvfPanic => inr PArith
         | OvfWrap => inl ((sum mod 256) mod 26 + base)%N
         end
  else inl c.

(** src/binary/init/string_module.rs:37-75. *)
Fixpoint map_panic {A B} (f : A -> B + panic) (l : list A) : list B + panic :=
  match l with
  | [] => inl []
  | x :: r =>
      match f x with
      | inl y => match map_panic f r with inl ys => inl (y :: ys) | inr p => inr p end
      | inr p => inr p
      end
  end.

(** src/binary/init/string_module.rs:37-75. *)
Definition caesar (ovf : overflow_mode) (i : Z) (s : str) : str + panic :=
  map_panic (caesar_chr ovf i) s.

(** [str::parse::<i64>] of any text: an optional sign and decimal digits.
    src/binary/init/mod.rs:204. *)
Definition parse_int_text (s : str) : option Z :=
  let num (neg : bool) (d : str) :=
    match d with
    | [] => None
    | _ => if forallb is_digit d
           then let v := if neg then (- digits_val d)%Z else digits_val d in
                if in_i64 v then Some v else None
           else None
    end in
  match s with
  | 43%N :: r => num false r
  | 45%N :: r => num true r
  | _ => num false s
  end.

Section Chars.
  Variable H : host.

  (** [char::is_alphabetic], [is_numeric], [is_alphanumeric], [is_lowercase],
      [is_uppercase].  src/binary/init/string_module.rs:122. *)
  Definition chr_alphabetic (c : chr) : bool :=
    if (c <? 128)%N then is_lower c || is_upper c else h_alphabetic H c.
  (** src/binary/init/string_module.rs:146. *)
  Definition chr_numeric (c : chr) : bool :=
    if (c <? 128)%N then is_digit c else h_numeric H c.
  (** src/binary/init/string_module.rs:134. *)
  Definition chr_alphanumeric (c : chr) : bool := chr_alphabetic c || chr_numeric c.
  (** src/binary/init/string_module.rs:214. *)
  Definition chr_lowercase (c : chr) : bool :=
    if (c <? 128)%N then is_lower c else h_lowercase H c.
  (** src/binary/init/string_module.rs:226. *)
  Definition chr_uppercase (c : chr) : bool :=
    if (c <? 128)%N then is_upper c else h_uppercase H c.

  (** [char::to_lowercase], [char::to_uppercase].  src/binary/init/string_module.rs:165,196. *)
  Definition chr_to_lower (c : chr) : str :=
    if (c <? 128)%N then [if is_upper c then (c + 32)%N else c] else h_to_lower H c.
  (** src/binary/init/string_module.rs:177,193. *)
  Definition chr_to_upper (c : chr) : str :=
    if (c <? 128)%N then [if is_lower c then (c - 32)%N else c] else h_to_upper H c.

  (** [str::to_lowercase], [str::to_uppercase].  Simplification: Rust maps a
      final capital sigma to its final form, here each character is mapped by
      itself.  src/binary/init/string_module.rs:165,196. *)
  Definition to_lowercase (s : str) : str := flat_map chr_to_lower s.
  (** src/binary/init/string_module.rs:177,193. *)
  Definition to_uppercase (s : str) : str := flat_map chr_to_upper s.

  (** src/binary/init/string_module.rs:189-201: the first character of the
      text and each character after white space in upper case, the others in
      lower case. *)
  Fixpoint title_go (capitalize : bool) (s : str) : str :=
    match s with
    | [] => []
    | c :: r =>
        hd c (if capitalize then chr_to_upper c else chr_to_lower c)
          :: title_go (is_ws c) r
    end.
  (** src/binary/init/string_module.rs:186-209. *)
  Definition to_title (s : str) : str := title_go true s.
End Chars.

(** [PathBuf::from(a).join(b)] on Unix.  src/binary/init/sys_module.rs:35-36. *)
Definition path_join (a b : str) : str :=
  match b with
  | 47%N :: _ => b
  | _ => match rev a with
         | [] => b
         | 47%N :: _ => a ++ b
         | _ => a ++ [47%N] ++ b
         end
  end.

(** A path without the separators and the [.] parts at its end, both reversed;
    the root keeps its separator.  [Components::as_path], used by [Path::parent] in
    src/binary/init/fs_module.rs:17. *)
Fixpoint trim_path (r : str) : str :=
  match r with
  | 47%N :: ((_ :: _) as r1) => trim_path r1
  | 46%N :: ((47%N :: _) as r1) => trim_path r1
  | _ => r
  end.

(** [Path::parent] on Unix; [None] for the root and the empty path.
    src/binary/init/fs_module.rs:17. *)
Definition path_parent (p : str) : option str :=
  match trim_path (rev p) with
  | [] | [47%N] => None
  | t => Some (rev (trim_path (snd (span (fun c => negb (c =? 47)%N) t))))
  end.

(** [Path::strip_prefix] on Unix: what follows the parts of [base].
    Simplification: the rest is put together with single separators.
    src/binary/init/fs_module.rs:335. *)
Definition path_strip (base p : str) : option str :=
  let parts s := filter (fun x => negb (str_eqb x []) && negb (str_eqb x (lit "."))) (str_split (lit "/") s) in
  let fix go b q :=
    match b, q with
    | [], _ => Some (join (lit "/") q)
    | x :: b', y :: q' => if str_eqb x y then go b' q' else None
    | _ :: _, [] => None
    end in
  if Bool.eqb (starts_with (lit "/") base) (starts_with (lit "/") p) then go (parts base) (parts p)
  else None.
