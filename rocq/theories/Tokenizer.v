(** src/tokens.rs and src/tokenizer.rs. *)

From Coq Require Import String.
From Verif Require Import Base Syntax.

(** src/tokens.rs:97-109 [TokenKind]. *)
Inductive token_kind :=
| TkPunctuation | TkOperator | TkKeyword | TkStringLiteral | TkIntegerLiteral
| TkFloatLiteral | TkBooleanLiteral | TkSymbol | TkWhitespace | TkComment.

(** src/tokens.rs:97 (derived [PartialEq]). *)
Definition kind_eqb (a b : token_kind) : bool :=
  match a, b with
  | TkPunctuation, TkPunctuation | TkOperator, TkOperator | TkKeyword, TkKeyword
  | TkStringLiteral, TkStringLiteral | TkIntegerLiteral, TkIntegerLiteral
  | TkFloatLiteral, TkFloatLiteral | TkBooleanLiteral, TkBooleanLiteral
  | TkSymbol, TkSymbol | TkWhitespace, TkWhitespace | TkComment, TkComment => true
  | _, _ => false
  end.

(** src/tokens.rs:81-95 [Token].  [t_text] is [token.text(tokens)], the slice of
    the source at [t_range], stored in the token. *)
Record token := Token { t_kind : token_kind; t_text : str; t_range : slice }.

(** src/tokens.rs:6-10 [Input]: a byte offset and the text from there on. *)
Record input := Inp { i_off : N; i_rest : str }.

(** A slice of the source with its text.  src/tokens.rs:39-54. *)
Record piece := Piece { p_text : str; p_range : slice }.

(** Results of nom parsers over [Input] (src/tokenizer.rs:38
    [TokenizationResult]), with explicit panic; [TFuel] is never returned. *)
Inductive tres (A : Type) :=
| TOk (i : input) (a : A)
| TErr
| TPanic
| TFuel.
Arguments TOk {A}. Arguments TErr {A}. Arguments TPanic {A}. Arguments TFuel {A}.

(** src/tokenizer.rs:45-90. *)
Definition tbind {A B} (r : tres A) (f : input -> A -> tres B) : tres B :=
  match r with
  | TOk i a => f i a
  | TErr => TErr
  | TPanic => TPanic
  | TFuel => TFuel
  end.

(** src/tokens.rs:47-54 [Input::split_at]. *)
Definition split_at (n : N) (i : input) : tres piece :=
  match split_bytes n (i_rest i) with
  | Some (a, b) =>
      TOk (Inp (i_off i + n) b) (Piece a (Slice (i_off i) (i_off i + n)))
  | None => TPanic
  end.

(** src/tokens.rs:56-58 [Input::split_saturating]. *)
Definition split_saturating (n : N) (i : input) : tres piece :=
  split_at (N.min n (utf8_len (i_rest i))) i.

(** src/tokens.rs:60-64 [Input::split_until]. *)
Definition split_until (i other : input) : tres piece :=
  split_at (utf8_len (i_rest i) - utf8_len (i_rest other)) i.

(** src/tokens.rs:66-72 [Input::strip_prefix], [None] as [TErr]. *)
Definition strip_prefix_i (p : str) (i : input) : tres piece :=
  match strip_prefix p (i_rest i) with
  | Some _ => split_at (utf8_len p) i
  | None => TErr
  end.

(** src/tokenizer.rs:344-373 [is_symbol_char]. *)
Definition is_symbol_char (c : chr) : bool :=
  is_lower c || is_upper c || is_digit c
  || existsb (N.eqb c) (lit "_+-.~\/?&<>$%#^:").

(** src/tokenizer.rs:339-341 [punctuation_tag]. *)
Definition punctuation_tag (p : str) (i : input) : tres piece := strip_prefix_i p i.

(** src/tokenizer.rs:326-333 [keyword_tag]. *)
Definition keyword_tag (k : str) (i : input) : tres piece :=
  match strip_prefix_i k i with
  | TOk i' p =>
      match i_rest i' with
      | c :: _ => if is_symbol_char c then TErr else TOk i' p
      | [] => TOk i' p
      end
  | r => r
  end.

(** nom [alt] over tokenizer parsers (errors carry no information).  src/tokenizer.rs:45-90. *)
Fixpoint talt {A} (ps : list (input -> tres A)) (i : input) : tres A :=
  match ps with
  | [] => TErr
  | p :: r => match p i with TErr => talt r i | x => x end
  end.

(** src/tokenizer.rs:76-91 [any_punctuation]. *)
Definition any_punctuation : input -> tres piece :=
  talt [punctuation_tag (lit "("); punctuation_tag (lit ")");
        punctuation_tag (lit "["); punctuation_tag (lit "]");
        punctuation_tag (lit "{"); punctuation_tag (lit "}");
        punctuation_tag (lit "'"); punctuation_tag (lit ",");
        punctuation_tag (lit ";"); punctuation_tag (lit "=");
        keyword_tag (lit "->"); keyword_tag (lit "~>")].

(** src/tokenizer.rs:93-107 [long_operator]. *)
Definition long_operator : input -> tres piece :=
  talt [keyword_tag (lit "to"); keyword_tag (lit "=="); keyword_tag (lit "!=");
        keyword_tag (lit ">="); keyword_tag (lit "<="); keyword_tag (lit "&&");
        keyword_tag (lit "||"); keyword_tag (lit "//"); keyword_tag (lit "<<");
        keyword_tag (lit ">>"); keyword_tag (lit ">>>")].

(** src/tokenizer.rs:109-121 [short_operator]. *)
Definition short_operator : input -> tres piece :=
  talt [keyword_tag (lit "<"); keyword_tag (lit ">"); keyword_tag (lit "+");
        keyword_tag (lit "-"); keyword_tag (lit "*"); keyword_tag (lit "%");
        keyword_tag (lit "|"); punctuation_tag (lit "@"); punctuation_tag (lit "!")].

(** src/tokenizer.rs:123-133 [any_keyword]. *)
Definition any_keyword : input -> tres piece :=
  talt [keyword_tag (lit "None"); keyword_tag (lit "then"); keyword_tag (lit "else");
        keyword_tag (lit "let"); keyword_tag (lit "for"); keyword_tag (lit "if");
        keyword_tag (lit "in")].

(** src/tokenizer.rs:186-188 [bool_literal]. *)
Definition bool_literal : input -> tres piece :=
  talt [keyword_tag (lit "True"); keyword_tag (lit "False")].

(** src/tokenizer.rs:190-202 [symbol]. *)
Definition symbol (i : input) : tres piece :=
  let len := utf8_len (fst (span is_symbol_char (i_rest i))) in
  if (len =? 0)%N then TErr else split_at len i.

(** src/tokenizer.rs:204-212 [whitespace]: a count of characters used as a
    count of bytes. *)
Definition whitespace (i : input) : tres piece :=
  let n := N.of_nat (length (fst (span is_ascii_ws (i_rest i)))) in
  if (n =? 0)%N then TErr else split_at n i.

(** src/tokenizer.rs:214-226 [comment]. *)
Definition comment (i : input) : tres piece :=
  match i_rest i with
  | 35%N :: _ =>
      split_at (utf8_len (fst (span (fun c => negb ((c =? 13) || (c =? 10))%N) (i_rest i)))) i
  | _ => TErr
  end.

(** src/tokenizer.rs:255-263 [parse_hex_digit]. *)
Definition parse_hex_digit (i : input) : tres piece :=
  match i_rest i with
  | c :: _ => if is_hexdigit c then split_at 1 i else TErr
  | [] => TErr
  end.

(** [StrSlice::join].  src/tokenizer.rs:288. *)
Definition slice_join (a b : slice) : slice := Slice (sl_start a) (sl_end b).
(** src/tokenizer.rs:288. *)
Definition piece_join (a b : piece) : piece :=
  Piece (p_text a ++ p_text b) (slice_join (p_range a) (p_range b)).

(** nom [fold_many_m_n(1, n, parse_hex_digit, ...)] (src/tokenizer.rs:281-290):
    at most [n] further digits after [acc]; at least one overall. *)
Fixpoint hex_digits (n : nat) (acc : option piece) (i : input) : tres (option piece) :=
  match n with
  | O => TOk i acc
  | S n' =>
      match parse_hex_digit i with
      | TOk i' p =>
          hex_digits n' (Some match acc with Some a => piece_join a p | None => p end) i'
      | TErr => match acc with None => TErr | Some _ => TOk i acc end
      | TPanic => TPanic
      | TFuel => TFuel
      end
  end.

(** src/tokenizer.rs:298. *)
Definition hex_val (c : chr) : N :=
  (if is_digit c then c - 48 else if is_upper c then c - 55 else c - 87)%N.

(** [u32::from_str_radix(hex, 16)] on at most 5 digits.  src/tokenizer.rs:298. *)
Definition hex_num (s : str) : N := fold_left (fun a c => 16 * a + hex_val c)%N s 0%N.

(** [char::try_from(u32).is_ok()].  src/tokenizer.rs:299. *)
Definition is_scalar (n : N) : bool :=
  ((n <? 55296) || ((57344 <=? n) && (n <? 1114112)))%N.

(** src/tokenizer.rs:254-320 [parse_escape]. *)
Definition parse_escape (i : input) : tres diagnostic :=
  tbind (punctuation_tag [92%N] i) (fun rest _ =>
  match talt [punctuation_tag [34%N]; punctuation_tag [92%N];
              punctuation_tag (lit "b"); punctuation_tag (lit "f");
              punctuation_tag (lit "n"); punctuation_tag (lit "r");
              punctuation_tag (lit "t")] rest with
  | TOk rest' _ => TOk rest' DValid
  | TPanic => TPanic
  | TFuel => TFuel
  | TErr =>
      match tbind (punctuation_tag (lit "u{") rest) (fun r _ => hex_digits 5 None r) with
      | TOk rest' (Some range) =>
          if is_scalar (hex_num (p_text range)) then
            match punctuation_tag (lit "}") rest' with
            | TOk rest'' _ => TOk rest'' DValid
            | TErr =>
                tbind (split_until i rest') (fun r p =>
                  TOk r (DInvalidStringEscapes [p_range p]))
            | TPanic => TPanic
            | TFuel => TFuel
            end
          else TOk rest' (DInvalidStringEscapes [p_range range])
      | TOk _ None => TPanic (* range.unwrap() *)
      | TErr =>
          tbind (split_saturating 2 i) (fun r p =>
            TOk r (DInvalidStringEscapes [p_range p]))
      | TPanic => TPanic
      | TFuel => TFuel
      end
  end).

(** src/tokenizer.rs:228-252 [parse_string_inner].  The loop consumes at least
    one character per iteration. *)
Fixpoint parse_string_loop (fuel : nat) (errors : list slice) (rest : input)
  : tres (list slice) :=
  match fuel with
  | O => TFuel
  | S f =>
      match i_rest rest with
      | [] => TOk rest errors
      | c :: _ =>
          if (c =? 34)%N then TOk rest errors
          else if (c =? 92)%N then
            tbind (parse_escape rest) (fun r d =>
              match d with
              | DInvalidStringEscapes (x :: _) => parse_string_loop f (errors ++ [x]) r
              | DInvalidStringEscapes [] => TPanic (* ranges[0] *)
              | _ => parse_string_loop f errors r
              end)
          else tbind (split_at (chr_len c) rest) (fun r _ => parse_string_loop f errors r)
      end
  end.

(** src/tokenizer.rs:228-252. *)
Definition parse_string_inner (i : input) : tres diagnostic :=
  tbind (parse_string_loop (S (length (i_rest i))) [] i) (fun r errors =>
    TOk r (match errors with [] => DValid | _ => DInvalidStringEscapes errors end)).

(** src/tokenizer.rs:66-74. *)
Definition mk_token (k : token_kind) (p : piece) : token :=
  Token k (p_text p) (p_range p).

(** src/tokenizer.rs:135-143 [string_literal]. *)
Definition string_literal (i : input) : tres (token * diagnostic) :=
  tbind (punctuation_tag [34%N] i) (fun rest _ =>
  tbind (parse_string_inner rest) (fun rest d =>
  tbind (talt [punctuation_tag [34%N];
               (fun j => match i_rest j with
                         | [] => TOk j (Piece [] (Slice (i_off i) (i_off i)))
                         | _ => TErr
                         end)] rest) (fun rest _ =>
  tbind (split_until i rest) (fun rest p =>
    TOk rest (mk_token TkStringLiteral p, d))))).

(** src/tokenizer.rs:145-184 [number_literal]. *)
Definition number_literal (i : input) : tres (token * diagnostic) :=
  let places (j : input) := N.of_nat (length (fst (span is_digit (i_rest j)))) in
  tbind (match strip_prefix_i (lit "-") i with TErr => split_at 0 i | r => r end)
        (fun rest _ =>
  tbind (match strip_prefix_i (lit "0") rest with
         | TErr => if (0 <? places rest)%N then split_at (places rest) rest else TErr
         | r => r
         end) (fun rest _ =>
  match strip_prefix_i (lit ".") rest with
  | TErr =>
      tbind (split_until i rest) (fun rest p =>
        TOk rest (mk_token TkIntegerLiteral p, DValid))
  | TOk rest _ =>
      if (places rest =? 0)%N then
        tbind (split_until i rest) (fun rest p =>
          TOk rest (mk_token TkFloatLiteral p, DInvalidNumber (p_range p)))
      else
        tbind (split_at (places rest) rest) (fun rest _ =>
        tbind (split_until i rest) (fun rest p =>
          TOk rest (mk_token TkFloatLiteral p, DValid)))
  | TPanic => TPanic
  | TFuel => TFuel
  end)).

(** src/tokenizer.rs:66-74 [map_valid_token]. *)
Definition map_valid_token (p : input -> tres piece) (k : token_kind) (i : input)
  : tres (token * diagnostic) :=
  tbind (p i) (fun r x => TOk r (mk_token k x, DValid)).

(** src/tokenizer.rs:41-64 [parse_token]. *)
Definition parse_token (i : input) : tres (token * diagnostic) :=
  match i_rest i with
  | [] => TErr
  | next :: _ =>
      match talt [map_valid_token long_operator TkOperator;
                  map_valid_token any_punctuation TkPunctuation;
                  map_valid_token any_keyword TkKeyword;
                  map_valid_token short_operator TkOperator;
                  map_valid_token bool_literal TkBooleanLiteral;
                  map_valid_token comment TkComment;
                  string_literal;
                  number_literal;
                  map_valid_token symbol TkSymbol;
                  map_valid_token whitespace TkWhitespace] i with
      | TErr =>
          tbind (split_at (chr_len next) i) (fun rest p =>
            TOk rest (mk_token TkSymbol p, DIllegalChar (p_range p)))
      | r => r
      end
  end.

(** src/tokenizer.rs:375-392. *)
Inductive tokens_res :=
| TokOk (ts : list token) (ds : list diagnostic)
| TokPanic
| TokFuel.

(** src/tokenizer.rs:375-392 [parse_tokens]. *)
Fixpoint parse_tokens_loop (fuel : nat) (i : input) : tokens_res :=
  match fuel with
  | O => TokFuel
  | S f =>
      match parse_token i with
      | TErr =>
          TokOk [] (match i_rest i with
                    | [] => []
                    | r => [DNotTokenized (Slice (i_off i) (i_off i + utf8_len r))]
                    end)
      | TPanic => TokPanic
      | TFuel => TokFuel
      | TOk i' (t, d) =>
          match parse_tokens_loop f i' with
          | TokOk ts ds => TokOk (t :: ts) (d :: ds)
          | r => r
          end
      end
  end.

(** src/tokenizer.rs:394-398 [tokenize]. *)
Definition tokenize (s : str) : tokens_res :=
  parse_tokens_loop (S (length s)) (Inp 0 s).
