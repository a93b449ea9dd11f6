(** Text, machine integers and ordered maps: the Rust standard library types
    that the Dune sources are written with. *)

From Coq Require Import String Ascii.
From Coq Require Export List NArith ZArith Lia Bool.
Export ListNotations.
Open Scope list_scope.

(** ** Text *)

(** Rust [char] (a Unicode scalar value) as its code point.
    Simplification: [N] also contains numbers that are not scalar values; the
    functions below never depend on that.  src/tokenizer.rs:344. *)
Definition chr := N.

(** Rust [String]/[&str]: the sequence of characters.  Byte positions are
    obtained with [utf8_len].  src/expr.rs:96,104. *)
Definition str := list chr.

(** ASCII string constants of the Rust sources.  src/tokenizer.rs:76-133. *)
Fixpoint lit (s : string) : str :=
  match s with
  | EmptyString => []
  | String a r => N_of_ascii a :: lit r
  end.

Arguments lit s%string_scope.

(** One-character ASCII constants.  src/tokenizer.rs:234-235. *)
Definition ch (s : string) : chr :=
  match s with
  | EmptyString => 0%N
  | String a _ => N_of_ascii a
  end.

Arguments ch s%string_scope.

(** [char::len_utf8].  src/tokenizer.rs:59,194. *)
Definition chr_len (c : chr) : N :=
  (if c <? 128 then 1 else if c <? 2048 then 2 else if c <? 65536 then 3 else 4)%N.

(** [str::len]: length in bytes.  src/tokens.rs:57-68. *)
Fixpoint utf8_len (s : str) : N :=
  match s with
  | [] => 0%N
  | c :: r => (chr_len c + utf8_len r)%N
  end.

(** [str == str].  src/parser.rs:112. *)
Fixpoint str_eqb (a b : str) : bool :=
  match a, b with
  | [], [] => true
  | x :: a', y :: b' => (x =? y)%N && str_eqb a' b'
  | _, _ => false
  end.

(** [str::cmp].  UTF-8 preserves the order of code points, so comparing bytes
    lexicographically is comparing code points lexicographically.  src/expr.rs:359. *)
Fixpoint str_cmp (a b : str) : comparison :=
  match a, b with
  | [], [] => Eq
  | [], _ :: _ => Lt
  | _ :: _, [] => Gt
  | x :: a', y :: b' =>
      match (x ?= y)%N with
      | Eq => str_cmp a' b'
      | c => c
      end
  end.

(** [str::strip_prefix].  src/tokens.rs:66-72. *)
Fixpoint strip_prefix (p s : str) : option str :=
  match p, s with
  | [], _ => Some s
  | x :: p', y :: s' => if (x =? y)%N then strip_prefix p' s' else None
  | _ :: _, [] => None
  end.

(** [iter.take_while(f)] on characters, and what follows.  src/tokenizer.rs:153,173,193,205. *)
Fixpoint span (f : chr -> bool) (s : str) : str * str :=
  match s with
  | [] => ([], [])
  | c :: r => if f c then let (a, b) := span f r in (c :: a, b) else ([], s)
  end.

(** [str.split_at(n)] for a byte offset [n]: [None] is the panic raised when
    [n] is past the end or not on a character boundary.  src/tokens.rs:47-54. *)
Fixpoint split_bytes (n : N) (s : str) : option (str * str) :=
  if (n =? 0)%N then Some ([], s) else
  match s with
  | [] => None
  | c :: r =>
      if (chr_len c <=? n)%N then
        match split_bytes (n - chr_len c) r with
        | Some (a, b) => Some (c :: a, b)
        | None => None
        end
      else None
  end.

(** [[..].join(sep)] / [concat].  src/expr.rs:180,190. *)
Fixpoint join (sep : str) (l : list str) : str :=
  match l with
  | [] => []
  | [x] => x
  | x :: r => x ++ sep ++ join sep r
  end.

(** src/tokenizer.rs:153. *)
Definition is_digit (c : chr) : bool := ((48 <=? c) && (c <=? 57))%N.
(** src/tokenizer.rs:359. *)
Definition is_upper (c : chr) : bool := ((65 <=? c) && (c <=? 90))%N.
(** src/tokenizer.rs:359. *)
Definition is_lower (c : chr) : bool := ((97 <=? c) && (c <=? 122))%N.
(** [char::is_ascii_hexdigit].  src/tokenizer.rs:259. *)
Definition is_hexdigit (c : chr) : bool :=
  is_digit c || ((65 <=? c) && (c <=? 70))%N || ((97 <=? c) && (c <=? 102))%N.
(** [char::is_ascii_whitespace]: space, tab, line feed, form feed, carriage return.
    src/tokenizer.rs:205. *)
Definition is_ascii_ws (c : chr) : bool :=
  ((c =? 32) || (c =? 9) || (c =? 10) || (c =? 12) || (c =? 13))%N.

(** ** Decimal numbers *)

(** [{}] of an unsigned number.  src/expr.rs:168. *)
Fixpoint uint_str (u : Decimal.uint) : str :=
  (match u with
   | Decimal.Nil => []
   | Decimal.D0 u => 48 :: uint_str u
   | Decimal.D1 u => 49 :: uint_str u
   | Decimal.D2 u => 50 :: uint_str u
   | Decimal.D3 u => 51 :: uint_str u
   | Decimal.D4 u => 52 :: uint_str u
   | Decimal.D5 u => 53 :: uint_str u
   | Decimal.D6 u => 54 :: uint_str u
   | Decimal.D7 u => 55 :: uint_str u
   | Decimal.D8 u => 56 :: uint_str u
   | Decimal.D9 u => 57 :: uint_str u
   end)%N.

(** src/expr.rs:168. *)
Definition n_str (n : N) : str := uint_str (N.to_uint n).

(** [{}] of an [i64].  src/expr.rs:168. *)
Definition z_str (z : Z) : str :=
  if (z <? 0)%Z then 45%N :: n_str (Z.to_N (- z)) else n_str (Z.to_N z).

(** Value of a string of ASCII digits, most significant first.  src/parser.rs:254. *)
Definition digits_val (s : str) : Z :=
  fold_left (fun acc c => (10 * acc + (Z.of_N c - 48))%Z) s 0%Z.

(** ** Machine integers *)

(** src/lib.rs:4 [Int]. *)
Definition i64_min : Z := (- 2 ^ 63)%Z.
(** src/lib.rs:4 [Int]. *)
Definition i64_max : Z := (2 ^ 63 - 1)%Z.
(** src/lib.rs:4 [Int]. *)
Definition in_i64 (z : Z) : bool := ((i64_min <=? z) && (z <=? i64_max))%Z.

(** Two's complement wrap-around to [i64].  src/binary/init/mod.rs:298-301. *)
Definition wrap64 (z : Z) : Z := ((z + 2 ^ 63) mod 2 ^ 64 - 2 ^ 63)%Z.

(** [n as Int] of a length or position.  src/binary/init/mod.rs:298-301. *)
Definition as_int (z : Z) : Z := wrap64 z.

(** [z as usize] (64 bit target).  src/expr.rs:720,805. *)
Definition as_usize (z : Z) : N := Z.to_N (z mod 2 ^ 64)%Z.

(** [str::parse::<i64>] restricted to texts of the form [-?digits] (the only
    ones the tokenizer produces): [None] is the overflow error.  src/parser.rs:254. *)
Definition parse_i64 (s : str) : option Z :=
  let v := match s with
           | 45%N :: r => (- digits_val r)%Z
           | _ => digits_val s
           end in
  if in_i64 v then Some v else None.

(** ** Ordered maps *)

(** [BTreeMap<String, A>] as a list sorted by key.  src/env.rs:8, src/expr.rs:110. *)
Definition bmap (A : Type) := list (str * A).

(** [BTreeMap::get].  src/env.rs:50. *)
Fixpoint bm_get {A} (k : str) (m : bmap A) : option A :=
  match m with
  | [] => None
  | (k', v) :: r => if str_eqb k k' then Some v else bm_get k r
  end.

(** [BTreeMap::insert].  src/env.rs:73. *)
Fixpoint bm_insert {A} (k : str) (v : A) (m : bmap A) : bmap A :=
  match m with
  | [] => [(k, v)]
  | (k', v') :: r =>
      match str_cmp k k' with
      | Lt => (k, v) :: m
      | Eq => (k, v) :: r
      | Gt => (k', v') :: bm_insert k v r
      end
  end.

(** [BTreeMap::remove].  src/env.rs:69. *)
Definition bm_remove {A} (k : str) (m : bmap A) : bmap A :=
  filter (fun kv => negb (str_eqb k (fst kv))) m.

(** [BTreeMap::contains_key].  src/env.rs:60. *)
Definition bm_mem {A} (k : str) (m : bmap A) : bool :=
  match bm_get k m with Some _ => true | None => false end.

(** Building a map by inserting pairs in order ([collect], [b_tree_map!]).
    src/expr.rs:66-68. *)
Definition bm_of_list {A} (l : list (str * A)) : bmap A :=
  fold_left (fun m kv => bm_insert (fst kv) (snd kv) m) l [].

(** ** Other *)

(** [Option::map], src/parser.rs:316. *)
Definition opt_map {A B} (f : A -> B) (o : option A) : option B :=
  match o with Some a => Some (f a) | None => None end.

(** Debug-build and release-build behaviour of unchecked integer arithmetic
    ([overflow-checks]): the Cargo manifest has no profile section, so debug
    builds panic and release builds wrap.  src/expr.rs:730, src/error.rs:218,244. *)
Inductive overflow_mode := OvfPanic | OvfWrap.
