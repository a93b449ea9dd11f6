(** The parts outside the modelled code: operating system, terminal, float and
    table formatting.  All of them are fields of [host]; every theorem
    quantifies over an arbitrary host. *)

From Coq Require Import String Floats.SpecFloat.
From Verif Require Import Base Syntax.

(** An external program to run: [std::process::Command] as built in
    src/expr.rs:563-573 and src/binary/init/operator_module.rs:457-533. *)
Record command := Command {
  c_prog : str;            (* Command::new *)
  c_args : list str;       (* .args(...) *)
  c_cwd : str;             (* .current_dir(...) *)
  c_envs : bmap str;       (* .envs(...) *)
}.

(** Requests the shell makes to the outside world.
    src/expr.rs:562-585, src/binary/init/operator_module.rs:349-446, src/binary/init/fs_module.rs:165-323. *)
Inductive request :=
| RqStatus (c : command)
    (* Command::status with inherited standard streams *)
| RqStage (c : command) (stdin : option (list N)) (capture : bool)
    (* one stage of a pipeline: spawn, write the given bytes to its standard
       input ([None]: inherited), wait, collect its standard output when
       [capture] (otherwise inherited) *)
| RqPrint (s : str)
    (* print!/println! *)
| RqCanon (p : str)                     (* dunce::canonicalize *)
| RqChdir (p : str)                     (* std::env::set_current_dir *)
| RqRead (p : str)                      (* std::fs::read, read_to_string *)
| RqWrite (p : str) (b : list N)        (* std::fs::write *)
| RqOpenAppend (p : str)                (* OpenOptions::new().append(true).open *)
| RqAppend (p : str) (b : list N)       (* write_all to the file opened for appending *)
| RqTest (what p : str)                 (* Path::exists, is_dir, is_file *)
| RqFsOp (op : str) (paths : list str)
    (* mkdir, rmdir and the functions move_path, copy_path, remove_path of
       src/binary/init/fs_module.rs, modelled on a concrete file system in Fs.v *)
| RqRandom (lo hi : Z)                  (* a uniform sample of lo..hi *)
| RqList (dir short : str)
    (* the function list_directory of src/binary/init/fs_module.rs *)
| RqTree (p : str)
    (* the calls of read_dir and is_dir in get_dir_tree of the same file *)
| RqGlob (pattern : str)                (* glob::glob *)
| RqSleep (ms : N)                      (* std::thread::sleep *)
| RqNow                                 (* chrono::Local::now *)
| RqSize                                (* terminal_size::terminal_size *)
| RqFlush                               (* std::io::stdout().flush *)
| RqRaw (on : bool)                     (* crossterm enable_raw_mode, disable_raw_mode *)
| RqReadLine                            (* std::io::stdin().read_line *)
| RqReadPassword                        (* rpassword::read_password *)
| RqReadKey                             (* crossterm::event::read *)
| RqInput (prompt : str)
    (* readline of src/bin.rs:84-103: a line from the line editor, asking again
       after an error *)
| RqHelp (topic : str).
    (* println! of a help text: of src/binary/help/<topic>.txt or of the builtin
       of that name *)

(** crossterm 0.27 [KeyCode], as far as src/binary/init/console_module.rs:137-156
    tells the keys apart. *)
Inductive keypress :=
| KeyChar (c : chr)
| KeyEnter | KeyBackspace | KeyDelete | KeyLeft | KeyRight | KeyUp | KeyDown
| KeyHome | KeyEnd | KeyPageUp | KeyPageDown | KeyTab | KeyEsc | KeyInsert
| KeyF (i : N)
| KeyNull | KeyBackTab
| KeyOther.

(** What src/binary/init/fs_module.rs:20-38 [get_dir_tree] finds below a path. *)
Inductive dirtree :=
| DtFile
| DtDir (entries : list (str * dirtree)).

(** json 0.12 [JsonValue]; src/binary/init/parse_module.rs:50-72. *)
Inductive json :=
| JNull
| JBoolean (b : bool)
| JNumber (f : spec_float)
| JString (s : str)              (* Short and String *)
| JArray (l : list json)
| JObject (m : list (str * json)).

(** toml 0.5 [Value]; src/binary/init/parse_module.rs:87-109. *)
Inductive toml :=
| TmBoolean (b : bool)
| TmFloat (f : spec_float)
| TmInteger (z : Z)
| TmDatetime (s : str)
| TmString (s : str)
| TmArray (l : list toml)
| TmTable (m : list (str * toml)).

(** Answers.
    src/expr.rs:562-585, src/binary/init/operator_module.rs:349-446, src/binary/init/fs_module.rs:165-323. *)
Inductive response :=
| RsOk
| RsNotFound            (* ErrorKind::NotFound *)
| RsPermission          (* ErrorKind::PermissionDenied *)
| RsFailed              (* any other failure to start *)
| RsWriteFailed         (* writing to the child's standard input failed *)
| RsWaitFailed          (* waiting for the child failed *)
| RsOutput (b : list N)  (* captured standard output, or contents of a file *)
| RsPath (p : str)
| RsBool (b : bool)
| RsInt (z : Z)
| RsErr (kind msg dbg : str)  (* std::io::Error: {:?} of kind(), {}, {:?} *)
| RsText (s : str)             (* a line of input *)
| RsTexts (l : list str)       (* list_directory *)
| RsTree (t : dirtree)
| RsGlob (l : list (str + str))  (* paths, and errors as {:?} *)
| RsTime (year month day hour : Z) (time date : str)  (* the last two formatted *)
| RsSize (width height : N)
| RsKey (k : keypress)
| RsInterrupt           (* ReadlineError::Interrupted, or an event that is no key *)
| RsEnd.                (* ReadlineError::Eof *)

(** src/expr.rs:562-585, src/binary/init/operator_module.rs:349-446, src/binary/init/fs_module.rs:165-323. *)
Definition event := (request * response)%type.

(** The history of requests and answers, latest first.
    src/expr.rs:562-585, src/binary/init/operator_module.rs:349-446, src/binary/init/fs_module.rs:165-323. *)
Definition trace := list event.

(** src/expr.rs:562-585, src/binary/init/operator_module.rs:349-446, src/binary/init/fs_module.rs:165-323. *)
Record host := Host {
  h_answer : trace -> request -> response;
  h_float : spec_float -> str;        (* {} of f64 *)
  h_printable : chr -> bool;          (* core::unicode printable and not grapheme-extending *)
  h_table : expr -> str;              (* {} of List and Map: prettytable, textwrap, terminal width *)
  h_lossy : list N -> str;            (* String::from_utf8_lossy *)
  h_alphabetic : chr -> bool;         (* char::is_alphabetic on non-ASCII *)
  h_numeric : chr -> bool;            (* char::is_numeric on non-ASCII *)
  h_lowercase : chr -> bool;          (* char::is_lowercase on non-ASCII *)
  h_uppercase : chr -> bool;          (* char::is_uppercase on non-ASCII *)
  h_to_lower : chr -> str;            (* char::to_lowercase on non-ASCII *)
  h_to_upper : chr -> str;            (* char::to_uppercase on non-ASCII *)
  h_overflow : overflow_mode;         (* build profile *)
  h_libm : str -> list spec_float -> spec_float;  (* sin, exp, powf, ... *)
  h_path_debug : str -> str;          (* {:?} of a path *)
  h_wrap : str -> N -> str;           (* textwrap::fill *)
  h_json : str -> option json;        (* json::parse *)
  h_toml : str -> option toml;        (* str::parse::<toml::Value> *)
}.

(** [H] with other answers (no counterpart in the sources; src/expr.rs:562-585 is
    where the answers matter). *)
Definition with_answer (f : trace -> request -> response) (H : host) : host :=
  {| h_answer := f;
     h_float := h_float H; h_printable := h_printable H; h_table := h_table H;
     h_lossy := h_lossy H; h_alphabetic := h_alphabetic H; h_numeric := h_numeric H;
     h_lowercase := h_lowercase H; h_uppercase := h_uppercase H;
     h_to_lower := h_to_lower H; h_to_upper := h_to_upper H; h_overflow := h_overflow H;
     h_libm := h_libm H; h_path_debug := h_path_debug H; h_wrap := h_wrap H;
     h_json := h_json H; h_toml := h_toml H |}.

(** ** Unicode helpers *)

(** [char::is_whitespace]: the Unicode White_Space property.  src/error.rs:158. *)
Definition is_ws (c : chr) : bool :=
  (((9 <=? c) && (c <=? 13)) || (c =? 32) || (c =? 133) || (c =? 160)
   || (c =? 5760) || ((8192 <=? c) && (c <=? 8202)) || (c =? 8232)
   || (c =? 8233) || (c =? 8239) || (c =? 8287) || (c =? 12288))%N.

(** UTF-8 encoding of a character ([String::into_bytes]).
    src/binary/init/operator_module.rs:442. *)
Definition utf8_chr (c : chr) : list N :=
  (if c <? 128 then [c]
   else if c <? 2048 then [192 + c / 64; 128 + c mod 64]
   else if c <? 65536 then [224 + c / 4096; 128 + (c / 64) mod 64; 128 + c mod 64]
   else [240 + c / 262144; 128 + (c / 4096) mod 64; 128 + (c / 64) mod 64;
         128 + c mod 64])%N.

(** src/binary/init/operator_module.rs:442. *)
Definition utf8_bytes (s : str) : list N := flat_map utf8_chr s.

(** [String::from_utf8]: strict decoding, [None] on invalid input.
    src/binary/init/fs_module.rs:262. *)
Definition is_cont (b : N) : bool := ((128 <=? b) && (b <? 192))%N.

(** src/binary/init/fs_module.rs:262. *)
Fixpoint utf8_decode (fuel : nat) (b : list N) : option str :=
  match fuel with
  | O => match b with [] => Some [] | _ => None end
  | S fuel' =>
      let more (c : chr) (r : list N) :=
        match utf8_decode fuel' r with Some s => Some (c :: s) | None => None end in
      (match b with
       | [] => Some []
       | b0 :: r0 =>
           if b0 <? 128 then more b0 r0
           else match r0 with
           | b1 :: r1 =>
             if (194 <=? b0) && (b0 <? 224) && is_cont b1 then
               more ((b0 - 192) * 64 + (b1 - 128)) r1
             else match r1 with
             | b2 :: r2 =>
               if (224 <=? b0) && (b0 <? 240) && is_cont b1 && is_cont b2 then
                 let c := (b0 - 224) * 4096 + (b1 - 128) * 64 + (b2 - 128) in
                 if (2048 <=? c) && negb ((55296 <=? c) && (c <? 57344))
                 then more c r2 else None
               else match r2 with
               | b3 :: r3 =>
                 if (240 <=? b0) && (b0 <? 245) && is_cont b1 && is_cont b2 && is_cont b3 then
                   let c := (b0 - 240) * 262144 + (b1 - 128) * 4096
                            + (b2 - 128) * 64 + (b3 - 128) in
                   if (65536 <=? c) && (c <? 1114112) then more c r3 else None
                 else None
               | [] => None
               end
             | [] => None
             end
           | [] => None
           end
       end)%N
  end.

(** src/binary/init/fs_module.rs:262. *)
Definition from_utf8 (b : list N) : option str := utf8_decode (length b) b.

(** ** Floats: IEEE binary64 *)

(** src/expr.rs:676-776. *)
Definition f64 := spec_float.
(** src/expr.rs:676-776. *)
Definition f64_add : f64 -> f64 -> f64 := SFadd 53 1024.
(** src/expr.rs:676-776. *)
Definition f64_sub : f64 -> f64 -> f64 := SFsub 53 1024.
(** src/expr.rs:676-776. *)
Definition f64_mul : f64 -> f64 -> f64 := SFmul 53 1024.
(** src/expr.rs:676-776. *)
Definition f64_div : f64 -> f64 -> f64 := SFdiv 53 1024.
(** src/expr.rs:676-776. *)
Definition f64_neg : f64 -> f64 := SFopp.
(** src/expr.rs:676-776. *)
Definition f64_eqb : f64 -> f64 -> bool := SFeqb.
(** [i as f64]: nearest, ties to even.  src/expr.rs:688. *)
Definition f64_of_int (z : Z) : f64 := binary_normalize 53 1024 z 0 false.
(** [f as i64]: truncation, saturating, NaN to 0.  src/binary/init/mod.rs:202. *)
Definition f64_to_int (f : f64) : Z :=
  match f with
  | S754_zero _ => 0
  | S754_nan => 0
  | S754_infinity s => if s then i64_min else i64_max
  | S754_finite s m e =>
      let a := (if 0 <=? e then Z.pos m * 2 ^ e else Z.pos m / 2 ^ (- e))%Z in
      let v := (if s then - a else a)%Z in
      if (v <? i64_min)%Z then i64_min else if (i64_max <? v)%Z then i64_max else v
  end.
(** [f as u64]: truncation, saturating, NaN to 0.
    src/binary/init/time_module.rs:21. *)
Definition f64_to_u64 (f : f64) : N :=
  match f with
  | S754_finite false m e =>
      let v := (if 0 <=? e then Z.pos m * 2 ^ e else Z.pos m / 2 ^ (- e))%Z in
      if (2 ^ 64 - 1 <? v)%Z then 2 ^ 64 - 1 else Z.to_N v
  | S754_infinity false => 2 ^ 64 - 1
  | _ => 0
  end%N.
(** [digits.digits] parsed as f64: correctly rounded quotient [m / 10^k].  src/parser.rs:262. *)
Definition f64_of_decimal (neg : bool) (m : Z) (k : Z) : f64 :=
  match m with
  | Zpos p =>
      if (k =? 0)%Z then binary_normalize 53 1024 (if neg then Zneg p else Zpos p) 0 neg
      else
        match (10 ^ k)%Z with
        | Zpos q =>
            let '(mz, ez, lz) := SFdiv_core_binary 53 1024 (Zpos p) 0 (Zpos q) 0 in
            binary_round_aux 53 1024 neg mz ez lz
        | _ => S754_nan
        end
  | _ => S754_zero neg
  end.

(** ** Printing *)

(** src/expr.rs:171. *)
Definition hex_digit (n : N) : chr := (if n <? 10 then 48 + n else 87 + n)%N.

(** src/expr.rs:171. *)
Fixpoint hex_aux (fuel : nat) (n : N) (acc : str) : str :=
  match fuel with
  | O => acc
  | S f => let acc' := hex_digit (n mod 16) :: acc in
           if (n / 16 =? 0)%N then acc' else hex_aux f (n / 16) acc'
  end.

(** [{:x}] of a code point (at most 6 digits).  src/expr.rs:171. *)
Definition hex_str (n : N) : str := hex_aux 8 n [].

Section Format.
  Variable H : host.

  (** One character of [{:?}] of a [str] (core::fmt, [escape_debug_ext]).  src/expr.rs:171. *)
  Definition esc_chr (c : chr) : str :=
    if (c =? 0)%N then lit "\0"
    else if (c =? 9)%N then lit "\t"
    else if (c =? 10)%N then lit "\n"
    else if (c =? 13)%N then lit "\r"
    else if (c =? 34)%N then [92; 34]%N
    else if (c =? 92)%N then [92; 92]%N
    else if (if (c <? 128)%N then (32 <=? c)%N && (c <? 127)%N else h_printable H c) then [c]
    else lit "\u{" ++ hex_str c ++ lit "}".

  (** [{:?}] of a [str].  src/expr.rs:171. *)
  Definition debug_str (s : str) : str := [34%N] ++ flat_map esc_chr s ++ [34%N].

  (** [{:?}] of a [Vec<u8>].  src/expr.rs:170. *)
  Definition debug_bytes (b : list N) : str :=
    lit "[" ++ join (lit ", ") (map n_str b) ++ lit "]".

  (** src/expr.rs:145-149: [{:?}] and [{}] of a builtin. *)
  Definition builtin_str (b : builtin) : str := lit "builtin@" ++ b_name b.

  (** src/expr.rs:162-223 [impl fmt::Debug for Expression]. *)
  Fixpoint debug (e : expr) : str :=
    match e with
    | EQuote e => lit "'" ++ debug e
    | EGroup e => lit "(" ++ debug e ++ lit ")"
    | ESymbol name => name
    | EInteger i => z_str i
    | EFloat n => h_float H n
    | EBytes b => lit "b" ++ debug_bytes b
    | EString s => debug_str s
    | EBoolean b => if b then lit "True" else lit "False"
    | EList l => lit "[" ++ join (lit ", ") (map debug l) ++ lit "]"
    | EMap m =>
        lit "{" ++ join (lit ", ")
                     (map (fun kv => fst kv ++ lit ": " ++ debug (snd kv)) m) ++ lit "}"
    | ENone => lit "None"
    | ELambda p b _ => p ++ lit " -> " ++ debug b
    | EMacro p b => p ++ lit " ~> " ++ debug b
    | EFor x l b => lit "for " ++ x ++ lit " in " ++ debug l ++ lit " " ++ debug b
    | EDo l => lit "{ " ++ join (lit "; ") (map debug l) ++ lit " }"
    | EAssign x e => lit "let " ++ x ++ lit " = " ++ debug e
    | EIf c t f => lit "if " ++ debug c ++ lit " " ++ debug t ++ lit " else " ++ debug f
    | EApply g args => debug g ++ lit " " ++ join (lit " ") (map debug args)
    | EBuiltin b => builtin_str b
    end.

  (** [{:?}] of a [Vec<Expression>].  src/error.rs:69. *)
  Definition debug_list (l : list expr) : str :=
    lit "[" ++ join (lit ", ") (map debug l) ++ lit "]".

  (** src/expr.rs:225-352 [impl fmt::Display for Expression].  Tables are left
      to the host; everything else is as [debug] except strings. *)
  Definition display (e : expr) : str :=
    match e with
    | EString s => s
    | EList _ | EMap _ => h_table H e
    | _ => debug e
    end.
End Format.
