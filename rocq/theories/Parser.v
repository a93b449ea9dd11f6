(** src/parser.rs: from tokens to expressions. *)

From Coq Require Import String Floats.SpecFloat.
From Verif Require Import Base Syntax Host Tokenizer.

(** nom 7 [IResult<Tokens, A, SyntaxError>]: success with the remaining
    tokens, recoverable error, failure; plus panic and exhausted fuel
    (never returned by [parse_script]).  src/parser.rs:2-9 (nom combinators). *)
Inductive pres (A : Type) :=
| POk (rest : list token) (a : A)
| PErr (e : syntax_error)
| PFail (e : syntax_error)
| PPanic
| PFuel.
Arguments POk {A}. Arguments PErr {A}. Arguments PFail {A}.
Arguments PPanic {A}. Arguments PFuel {A}.

(** A parser over the tokens that remain.  src/parser.rs:2-9 (nom combinators). *)
Definition parser (A : Type) := list token -> pres A.

(** src/parser.rs:2-9 (nom combinators). *)
Definition pbind {A B} (r : pres A) (f : list token -> A -> pres B) : pres B :=
  match r with
  | POk i a => f i a
  | PErr e => PErr e
  | PFail e => PFail e
  | PPanic => PPanic
  | PFuel => PFuel
  end.

(** src/parser.rs:2-9 (nom combinators). *)
Notation "'let*' ( i , x ) := m 'in' k" :=
  (pbind m (fun i x => k)) (at level 200, i name, x name, k at level 200).

(** [.map_err(|_| SyntaxError::unrecoverable(..))]: errors and failures alike
    are replaced by a failure.  src/parser.rs:323-330. *)
Definition map_fail {A} (e : syntax_error) (r : pres A) : pres A :=
  match r with
  | PErr _ | PFail _ => PFail e
  | r => r
  end.

(** [.map_err(|_| SyntaxError::expected(..))].  src/parser.rs:217-221. *)
Definition map_expected {A} (e : syntax_error) (r : pres A) : pres A :=
  match r with
  | PErr _ | PFail _ => PErr e
  | r => r
  end.

(** nom [map].  src/parser.rs:2-9 (nom combinators). *)
Definition pmap {A B} (f : A -> B) (p : parser A) : parser B :=
  fun i => pbind (p i) (fun r a => POk r (f a)).

(** src/parser.rs:70-91: [input.first().map(|t| t.range)]. *)
Definition first_range (i : list token) : option slice :=
  match i with t :: _ => Some (t_range t) | [] => None end.

(** src/parser.rs:93-98 [ParseError::or]. *)
Definition err_or (a b : syntax_error) : syntax_error :=
  match a with InternalError => b | _ => a end.

(** nom [alt] (nom/src/branch/mod.rs, [alt_trait_inner]). *)
Fixpoint alt_rest {A} (ps : list (parser A)) (err : syntax_error) (i : list token) : pres A :=
  match ps with
  | [] => PErr (NomError KAlt (first_range i) (Some err))
  | p :: r =>
      match p i with
      | PErr e => alt_rest r (err_or err e) i
      | x => x
      end
  end.

(** src/parser.rs:2-9 (nom combinators). *)
Definition alt {A} (ps : list (parser A)) (i : list token) : pres A :=
  match ps with
  | [] => PPanic
  | p :: r =>
      match p i with
      | PErr e => alt_rest r e i
      | x => x
      end
  end.

(** nom [opt].  src/parser.rs:2-9 (nom combinators). *)
Definition opt {A} (p : parser A) : parser (option A) :=
  fun i =>
    match p i with
    | POk r a => POk r (Some a)
    | PErr _ => POk i None
    | PFail e => PFail e
    | PPanic => PPanic
    | PFuel => PFuel
    end.

(** nom [many0]: stops at the first error, is an error itself when an
    iteration consumes nothing.  [fuel] bounds the number of iterations.
    src/parser.rs:2-9 (nom combinators). *)
Fixpoint many0_loop {A} (k : nom_kind) (fuel : nat) (p : parser A) (i : list token) : pres (list A) :=
  match fuel with
  | O => PFuel
  | S f =>
      match p i with
      | PErr _ => POk i []
      | PFail e => PFail e
      | PPanic => PPanic
      | PFuel => PFuel
      | POk i1 a =>
          if Nat.eqb (length i1) (length i)
          then PErr (NomError k (first_range i) None)
          else pbind (many0_loop k f p i1) (fun r l => POk r (a :: l))
      end
  end.

(** src/parser.rs:2-9 (nom combinators). *)
Definition many0 {A} (p : parser A) : parser (list A) :=
  fun i => many0_loop KMany0 (S (length i)) p i.

(** nom [many1].  src/parser.rs:2-9 (nom combinators). *)
Definition many1 {A} (p : parser A) : parser (list A) :=
  fun i =>
    match p i with
    | PErr e => PErr (NomError KMany1 (first_range i) (Some e))
    | PFail e => PFail e
    | PPanic => PPanic
    | PFuel => PFuel
    | POk i1 a =>
        pbind (many0_loop KMany1 (S (length i1)) p i1) (fun r l => POk r (a :: l))
    end.

(** nom [pair] / [preceded] / [separated_pair] by [pbind].
    src/parser.rs:2-9 (nom combinators). *)
Definition pair_p {A B} (p : parser A) (q : parser B) : parser (A * B) :=
  fun i => let* (i, a) := p i in let* (i, b) := q i in POk i (a, b).
(** src/parser.rs:2-9 (nom combinators). *)
Definition preceded {A B} (p : parser A) (q : parser B) : parser B :=
  fun i => let* (i, a) := p i in q i.
(** src/parser.rs:2-9 (nom combinators). *)
Definition separated_pair {A B C} (p : parser A) (s : parser B) (q : parser C) : parser (A * C) :=
  fun i => let* (i, a) := p i in let* (i, b) := s i in let* (i, c) := q i in POk i (a, c).

(** The loop of nom [separated_list0] after the first element.
    src/parser.rs:2-9 (nom combinators). *)
Fixpoint sep_loop {A B} (fuel : nat) (s : parser B) (p : parser A) (i : list token)
  : pres (list A) :=
  match fuel with
  | O => PFuel
  | S f =>
      match s i with
      | PErr _ => POk i []
      | PFail e => PFail e
      | PPanic => PPanic
      | PFuel => PFuel
      | POk i1 _ =>
          if Nat.eqb (length i1) (length i)
          then PErr (NomError KSeparatedList (first_range i1) None)
          else
            match p i1 with
            | PErr _ => POk i []
            | PFail e => PFail e
            | PPanic => PPanic
            | PFuel => PFuel
            | POk i2 a => pbind (sep_loop f s p i2) (fun r l => POk r (a :: l))
            end
      end
  end.

(** nom [separated_list0].  src/parser.rs:2-9 (nom combinators). *)
Definition separated_list0 {A B} (s : parser B) (p : parser A) : parser (list A) :=
  fun i =>
    match p i with
    | PErr _ => POk i []
    | PFail e => PFail e
    | PPanic => PPanic
    | PFuel => PFuel
    | POk i1 a =>
        pbind (sep_loop (S (length i1)) s p i1) (fun r l => POk r (a :: l))
    end.

(** src/parser.rs:102-107 [kind]; the text of the token is returned instead of
    its range. *)
Definition kind (k : token_kind) : parser token :=
  fun i =>
    match i with
    | t :: r => if kind_eqb (t_kind t) k then POk r t else PErr InternalError
    | [] => PErr InternalError
    end.

(** src/parser.rs:110-115 [text]: compares the text only, not the kind. *)
Definition text (s : str) : parser token :=
  fun i =>
    match i with
    | t :: r => if str_eqb (t_text t) s then POk r t else PErr InternalError
    | [] => PErr InternalError
    end.

(** src/parser.rs:118-124 [empty]. *)
Definition empty : parser unit :=
  fun i => match i with [] => POk i tt | _ => PErr InternalError end.

(** src/parser.rs:173-183 [is_symbol_like]. *)
Definition is_symbol_like (k : token_kind) : bool :=
  match k with
  | TkSymbol | TkKeyword | TkOperator | TkBooleanLiteral | TkFloatLiteral
  | TkIntegerLiteral => true
  | _ => false
  end.

(** ** String literals *)

(** [u32::from_str_radix(s, 16)]: an optional [+], then at least one digit, no
    overflow.  src/parser.rs:316 [snailquote::unescape]. *)
Definition hex_u32 (s : str) : option N :=
  let d := match s with 43%N :: (_ :: _) as r => r | _ => s end in
  if negb (match d with [] => true | _ => false end) && forallb is_hexdigit d
     && (hex_num d <? 4294967296)%N
  then Some (hex_num d) else None.

(** Scanner states of snailquote 0.3 [unescape].  src/parser.rs:316 [snailquote::unescape]. *)
Inductive uq := UPlain | USingle | UDouble | UEsc | UOpen | UHex (digits : str).

(** The simple escapes of snailquote 0.3.  src/parser.rs:316 [snailquote::unescape]. *)
Definition simple_escape (c : chr) : option chr :=
  (if c =? ch "a" then Some 7
   else if c =? ch "b" then Some 8
   else if c =? ch "v" then Some 11
   else if c =? ch "f" then Some 12
   else if c =? ch "n" then Some 10
   else if c =? ch "r" then Some 13
   else if c =? ch "t" then Some 9
   else if c =? ch "e" then Some 27
   else if c =? ch "E" then Some 27
   else if c =? 92 then Some 92
   else if c =? 39 then Some 39
   else if c =? 34 then Some 34
   else if c =? ch "$" then Some 36
   else if c =? ch "`" then Some 96
   else if c =? 32 then Some 32
   else None)%N.

(** End of a [\u{...}] escape: the character denoted, if any.
    src/parser.rs:316 [snailquote::unescape]. *)
Definition unicode_chr (digits : str) : option chr :=
  match hex_u32 digits with
  | Some n => if is_scalar n then Some n else None
  | None => None
  end.

(** snailquote 0.3 [unescape], called at src/parser.rs:312-318; [None] is its
    error. *)
Fixpoint unescape_from (m : uq) (s : str) : option str :=
  match s with
  | [] =>
      match m with
      | UPlain | USingle | UDouble => Some []
      | UEsc | UOpen => None
      | UHex d => opt_map (fun c => [c]) (unicode_chr d)
      end
  | c :: r =>
      match m with
      | UPlain =>
          if (c =? 39)%N then unescape_from USingle r
          else if (c =? 34)%N then unescape_from UDouble r
          else opt_map (cons c) (unescape_from UPlain r)
      | USingle =>
          if (c =? 39)%N then unescape_from UPlain r
          else opt_map (cons c) (unescape_from USingle r)
      | UDouble =>
          if (c =? 34)%N then unescape_from UPlain r
          else if (c =? 92)%N then unescape_from UEsc r
          else opt_map (cons c) (unescape_from UDouble r)
      | UEsc =>
          if (c =? ch "u")%N then unescape_from UOpen r
          else match simple_escape c with
               | Some x => opt_map (cons x) (unescape_from UDouble r)
               | None => None
               end
      | UOpen => if (c =? ch "{")%N then unescape_from (UHex []) r else None
      | UHex d =>
          if (c =? ch "}")%N then
            match unicode_chr d with
            | Some x => opt_map (cons x) (unescape_from UDouble r)
            | None => None
            end
          else unescape_from (UHex (d ++ [c])) r
      end
  end.

(** src/parser.rs:316 [snailquote::unescape]. *)
Definition unescape (s : str) : option str := unescape_from UPlain s.

(** [str::parse::<f64>] on [-?digits.digits]; [None] is its error.  src/parser.rs:262. *)
Definition parse_f64 (s : str) : option spec_float :=
  let (neg, d) := match s with 45%N :: r => (true, r) | _ => (false, s) end in
  let (ip, r) := span is_digit d in
  match r with
  | 46%N :: fp =>
      if forallb is_digit fp
         && negb (match ip ++ fp with [] => true | _ => false end)
      then Some (f64_of_decimal neg (digits_val (ip ++ fp)) (Z.of_nat (length fp)))
      else None
  | _ => None
  end.

(** ** The grammar *)

(** One constructor per parser function of src/parser.rs that is recursive. *)
Inductive nt :=
| NScript | NStatement | NExpr | NP7 | NFor | NIf | NAssign | NCallable
| NApply | NApplyOp | NP6 | NRange | NP5 | NNot | NP4 | NP3 | NP2 | NP1
| NGroup | NQuote | NMap | NBlock | NList.

Section Grammar.
  (** Byte length of the source text. *)
  Variable slen : N.

  (** src/tokens.rs:163-171 [Tokens::get_str_slice]. *)
  Definition str_slice (i : list token) : slice :=
    match i with t :: _ => t_range t | [] => Slice slen slen end.

  (** src/parser.rs:40-52 and 54-66: the error values. *)
  Definition exp_at (i : list token) (what : str) (found hint : option str) : syntax_error :=
    Expected (str_slice i) what found hint.

  (** src/parser.rs:228-245 [no_terminating_punctuation]. *)
  Definition no_terminating (i : list token) : pres unit :=
    match i with
    | t :: _ =>
        if kind_eqb (t_kind t) TkPunctuation
           && existsb (str_eqb (t_text t))
                [lit ";"; lit ","; lit "="; lit "]"; lit ")"; lit "}"; lit "|"]
        then PErr (exp_at i (lit "a non-terminating punctuation") None None)
        else POk i tt
    | [] => POk i tt
    end.

  (** src/parser.rs:248-250 [parse_symbol]. *)
  Definition parse_symbol : parser str := pmap t_text (kind TkSymbol).

  (** src/parser.rs:734-738 [parse_operator]. *)
  Definition parse_operator : parser str := pmap t_text (kind TkOperator).

  (** src/parser.rs:740-742 [parse_operator_as_symbol]. *)
  Definition parse_operator_as_symbol : parser expr := pmap ESymbol parse_operator.

  (** src/parser.rs:252-258 [parse_integer]. *)
  Definition parse_integer : parser Z :=
    fun i =>
      let* (i, t) := kind TkIntegerLiteral i in
      match parse_i64 (t_text t) with
      | Some z => POk i z
      | None =>
          PFail (Expected (t_range t) (lit "integer")
                   (Some (lit "error: " ++
                          match t_text t with
                          | 45%N :: _ => lit "number too small to fit in target type"
                          | _ => lit "number too large to fit in target type"
                          end)) None)
      end.

  (** src/parser.rs:260-271 [parse_float]. *)
  Definition parse_float : parser spec_float :=
    fun i =>
      let* (i, t) := kind TkFloatLiteral i in
      match parse_f64 (t_text t) with
      | Some f => POk i f
      | None =>
          PFail (Expected (t_range t) (lit "float")
                   (Some (lit "error: invalid float literal"))
                   (Some (lit "valid floats can be written like 1.0 or 5.23")))
      end.

  (** src/parser.rs:274-278 [parse_boolean]. *)
  Definition parse_boolean : parser bool :=
    pmap (fun t => str_eqb (t_text t) (lit "True")) (kind TkBooleanLiteral).

  (** src/parser.rs:280-293 [parse_none]. *)
  Definition parse_none : parser unit :=
    fun i =>
      match text (lit "None") i with
      | POk r _ => POk r tt
      | _ =>
          match i with
          | a :: b :: r =>
              if str_eqb (t_text a) (lit "(") && str_eqb (t_text b) (lit ")")
              then POk r tt
              else PErr (exp_at i (lit "None or ()") None None)
          | _ => PErr (exp_at i (lit "None or ()") None None)
          end
      end.

  (** src/parser.rs:312-318 [parse_string]. *)
  Definition parse_string : parser str :=
    fun i =>
      let* (i, t) := kind TkStringLiteral i in
      match unescape (t_text t) with
      | Some s => POk i s
      | None => PPanic (* .unwrap() *)
      end.

  (** The left-associative fold of src/parser.rs:640-651, 717-726, 757-767,
      783-793: [head = (op head item)] for each pair. *)
  Definition fold_ops (head : expr) (l : list (token * expr)) : expr :=
    fold_left (fun h p => EGroup (EApply (ESymbol (t_text (fst p))) [h; snd p])) l head.

  (** Parsers of the form [expr_parser (op expr_parser)*].  src/parser.rs:615-833. *)
  Definition infix (ops : list str) (p : parser expr) : parser (expr * list (token * expr)) :=
    fun i =>
      let* (i, head) := p i in
      let* (i, l) := many0 (pair_p (alt (map text ops)) p) i in
      POk i (head, l).

  (** src/parser.rs:560-601: the stages of a pipeline, from the head and the
      (operator, expression) pairs. [None] is the [unreachable!()]. *)
  Fixpoint pipe_args (args : list expr) (l : list (token * expr)) : option (list expr) :=
    match l with
    | [] => Some args
    | (op, item) :: r =>
        let s := t_text op in
        let stage := EApply (ESymbol s) [item] in
        if str_eqb s (lit "<<") then
          match rev args with
          | last :: before => pipe_args (rev before ++ [stage; last]) r
          | [] => pipe_args [stage] r
          end
        else if str_eqb s (lit "|") then pipe_args (args ++ [item]) r
        else if str_eqb s (lit ">>") then pipe_args (args ++ [stage]) r
        else if str_eqb s (lit ">>>") then pipe_args (args ++ [stage]) r
        else None
    end.

  (** src/parser.rs:185-833. *)
  Definition hint (s : string) : option str := Some (lit s).

  (** The bodies of the parser functions; [call] is the recursive call.
      src/parser.rs:185-833. *)
  Definition body (call : nt -> parser expr) (n : nt) : parser expr :=
    match n with
    | NScript =>
        (** src/parser.rs:203-226 [parse_script_tokens] without the check for
            the end of input. *)
        fun i =>
          let* (i, exprs) := many0 (call NStatement) i in
          let* (i, last) := opt (fun i => let* (i, e) := call NExpr i in
                                          let* (i, u) := opt (text (lit ";")) i in
                                          POk i e) i in
          POk i (EDo (exprs ++ match last with Some e => [e] | None => [] end))
    | NStatement =>
        (** src/parser.rs:185-201 [parse_statement]. *)
        fun i =>
          let* (i, e) := call NExpr i in
          match text (lit ";") i with
          | POk r _ => POk r e
          | _ =>
              match e with
              | EFor _ _ _ | EIf _ _ _ => POk i e
              | _ => PErr (exp_at i (lit ";") None (hint "try adding a semicolon"))
              end
          end
    | NExpr =>
        (** src/parser.rs:544-613 [parse_expression]. *)
        fun i =>
          let* (i, u) := no_terminating i in
          let* (i, hl) := infix [lit "|"; lit ">>>"; lit ">>"; lit "<<"] (call NP7) i in
          match hl with
          | (head, []) => POk i head
          | (head, l) =>
              match pipe_args [head] l with
              | Some [x] => POk i x
              | Some args => POk i (EGroup (EApply (ESymbol (lit "|")) args))
              | None => PPanic
              end
          end
    | NP7 =>
        (** src/parser.rs:615-626 [parse_expression_prec_seven]. *)
        fun i =>
          let* (i, u) := no_terminating i in
          alt (map call [NFor; NIf; NAssign; NCallable; NApply; NApplyOp; NP6]) i
    | NFor =>
        (** src/parser.rs:409-450 [parse_for_loop]. *)
        fun i =>
          let* (i, u) := text (lit "for") i in
          let* (i, x) := map_fail (exp_at i (lit "symbol") None
             (hint "try using a valid symbol such as `x` in `for x in 0 to 10 {}`"))
             (parse_symbol i) in
          let* (i, u) := map_fail (exp_at i (lit "`in` keyword") None
             (hint "try writing a for loop in the format of `for i in 0 to 10 {}`"))
             (text (lit "in") i) in
          let* (i, l) := map_fail (exp_at i (lit "iterable expression") None
             (hint "try adding an iterable expression such as `0 to 10` to your for loop"))
             (alt [call NRange; call NP4] i) in
          let* (i, b) := map_fail (exp_at i (lit "block") None
             (Some (lit "try adding a block, such as `{ print " ++ [34%N] ++ lit "hello!"
                    ++ [34%N] ++ lit "}` to the end of your for loop")))
             (call NBlock i) in
          POk i (EFor x l b)
    | NIf =>
        (** src/parser.rs:452-488 [parse_if]. *)
        fun i =>
          let* (i, u) := text (lit "if") i in
          let* (i, c) := map_fail (exp_at i (lit "condition expression") None
             (hint "try adding a condition expression to your if statement"))
             (call NP6 i) in
          let* (i, t) := map_fail (exp_at i (lit "then expression") None
             (hint "try adding an expression to the end of your if statement"))
             (call NP4 i) in
          let* (i, e) := opt (preceded (text (lit "else")) (alt [call NIf; call NP4])) i in
          POk i (EIf c t (match e with Some e => EGroup e | None => ENone end))
    | NAssign =>
        (** src/parser.rs:320-341 [parse_assign]. *)
        fun i =>
          let* (i, u) := text (lit "let") i in
          let* (i, x) := map_fail (exp_at i (lit "symbol") None
             (hint "try using a valid symbol such as `x` in `let x = 5`"))
             (alt [parse_symbol; parse_operator] i) in
          let* (i, u) := map_fail (exp_at i (lit "`=`") None
             (hint "let expressions must use an `=` sign"))
             (text (lit "=") i) in
          let* (i, e) := call NExpr i in
          POk i (EAssign x e)
    | NCallable =>
        (** src/parser.rs:490-509 [parse_callable]. *)
        fun i =>
          let* (i, x) := parse_symbol i in
          let* (i, t) := alt [text (lit "->"); text (lit "~>")] i in
          let* (i, b) := map_fail (exp_at i (lit "an expression") None
             (hint "try writing a lambda or macro like `x -> x + 1` or `y ~> let x = y`"))
             (call NExpr i) in
          if str_eqb (t_text t) (lit "->") then POk i (ELambda x b env_new)
          else if str_eqb (t_text t) (lit "~>") then POk i (EMacro x b)
          else PPanic
    | NApply =>
        (** src/parser.rs:526-531 [parse_apply]. *)
        fun i =>
          let* (i, f) := alt [call NP2; parse_operator_as_symbol] i in
          let* (i, args) := many1 (call NP5) i in
          POk i (EApply f args)
    | NApplyOp =>
        (** src/parser.rs:533-542 [parse_apply_operator]. *)
        fun i =>
          let* (i, f) := parse_operator_as_symbol i in
          let* (i, args) := many0 (call NP5) i in
          POk i (match args with [] => f | _ => EApply f args end)
    | NP6 =>
        (** src/parser.rs:628-652 [parse_expression_prec_six]. *)
        fun i =>
          let* (i, u) := no_terminating i in
          let* (i, hl) := infix [lit "&&"; lit "||"] (call NP5) i in
          POk i (fold_ops (fst hl) (snd hl))
    | NRange =>
        (** src/parser.rs:654-675 [parse_range]. *)
        fun i =>
          let* (i, u) := no_terminating i in
          let* (i, a) := call NP4 i in
          let* (i, u) := text (lit "to") i in
          let* (i, b) := map_fail (exp_at i (lit "a valid range expression") None
             (hint "try writing an expression like `0 to 10`"))
             (call NP4 i) in
          POk i (EApply (ESymbol (lit "to")) [a; b])
    | NP5 =>
        (** src/parser.rs:677-732 [parse_expression_prec_five]. *)
        fun i =>
          let* (i, u) := no_terminating i in
          let* (i, hl) := infix [lit "=="; lit "!="; lit ">="; lit "<="; lit ">"; lit "<"]
                                (call NP4) i in
          match hl with
          | (head, []) =>
              match text (lit "to") i with
              | POk i' _ =>
                  let* (i2, b) := map_fail (exp_at i' (lit "a valid range expression") None
                     (hint "try writing an expression like `0 to 10`"))
                     (call NP4 i') in
                  POk i2 (EApply (ESymbol (lit "to")) [head; b])
              | _ =>
                  match call NNot i with
                  | POk i2 e => POk i2 e
                  | PPanic => PPanic
                  | PFuel => PFuel
                  | _ => POk i head
                  end
              end
          | (head, l) => POk i (fold_ops head l)
          end
    | NNot =>
        (** src/parser.rs:303-309 [parse_not]. *)
        fun i =>
          let* (i, u) := text (lit "!") i in
          let* (i, x) := call NP4 i in
          POk i (EApply (ESymbol (lit "!")) [x])
    | NP4 =>
        (** src/parser.rs:744-768 [parse_expression_prec_four]. *)
        fun i =>
          let* (i, u) := no_terminating i in
          let* (i, hl) := infix [lit "+"; lit "-"] (call NP3) i in
          POk i (fold_ops (fst hl) (snd hl))
    | NP3 =>
        (** src/parser.rs:770-795 [parse_expression_prec_three]. *)
        fun i =>
          let* (i, u) := no_terminating i in
          let* (i, hl) := infix [lit "*"; lit "//"; lit "%"] (call NP2) i in
          POk i (fold_ops (fst hl) (snd hl))
    | NP2 =>
        (** src/parser.rs:797-817 [parse_expression_prec_two]. *)
        fun i =>
          let* (i, u) := no_terminating i in
          let* (i, head) := call NP1 i in
          let* (i, args) := many0 (preceded (text (lit "@"))
                                     (alt [call NP1; parse_operator_as_symbol])) i in
          POk i (match args with
                 | [] => head
                 | _ => EApply (ESymbol (lit "@")) (head :: args)
                 end)
    | NP1 =>
        (** src/parser.rs:819-833 [parse_expression_prec_one]. *)
        alt [call NGroup; call NQuote; call NMap; call NBlock; call NList;
             pmap EBoolean parse_boolean; pmap (fun _ => ENone) parse_none;
             pmap EFloat parse_float; pmap EInteger parse_integer;
             pmap EString parse_string; pmap ESymbol parse_symbol]
    | NGroup =>
        (** src/parser.rs:343-357 [parse_group]. *)
        fun i =>
          let* (i, u) := text (lit "(") i in
          let* (i, e) := call NExpr i in
          let* (i, u) := map_fail (exp_at i (lit "`)`") (Some (lit "no matching parentheses"))
             (hint "try adding a matching `)` to the end of your expression"))
             (alt [pmap (fun _ => tt) (text (lit ")")); empty] i) in
          POk i (EGroup e)
    | NQuote =>
        (** src/parser.rs:295-301 [parse_quote]. *)
        fun i =>
          let* (i, u) := text (lit "'") i in
          let* (i, e) := call NP2 i in
          POk i (EQuote e)
    | NMap =>
        (** src/parser.rs:374-407 [parse_map]. *)
        fun i =>
          let* (i, u) := text (lit "{") i in
          let* (i, m) := separated_list0 (text (lit ","))
                           (separated_pair (alt [parse_symbol; parse_operator])
                              (text (lit "=")) (call NExpr)) i in
          let e := exp_at i (lit "`}`") (Some (lit "no matching `}`"))
                     (hint "try adding a matching `}` to the end of your map") in
          let* (i, u) := (match m with [] => map_expected e | _ => map_fail e end)
                           (text (lit "}") i) in
          POk i (EMap (bm_of_list m))
    | NBlock =>
        (** src/parser.rs:511-524 [parse_block]. *)
        fun i =>
          let* (i, u) := text (lit "{") i in
          let* (i, e) := call NScript i in
          let* (i, u) := map_fail (exp_at i (lit "`}`") (Some (lit "no matching `}`"))
             (hint "try adding a matching `}` to the end of your block"))
             (text (lit "}") i) in
          POk i e
    | NList =>
        (** src/parser.rs:359-372 [parse_list]. *)
        fun i =>
          let* (i, u) := text (lit "[") i in
          let* (i, l) := separated_list0 (text (lit ",")) (call NExpr) i in
          let* (i, u) := map_fail (exp_at i (lit "`]`") (Some (lit "no matching `]`"))
             (hint "try adding a matching `]` to the end of your list"))
             (text (lit "]") i) in
          POk i (EList l)
    end.

  (** The recursive parser; [fuel] bounds the depth of calls.  src/parser.rs:185-833. *)
  Fixpoint parse (fuel : nat) (n : nt) (i : list token) : pres expr :=
    match fuel with
    | O => PFuel
    | S f => body (parse f) n i
    end.

  (** Enough fuel for any token list (proved in ParserFacts.v).
      src/parser.rs:126-170 (bound of the recursion). *)
  Definition parse_fuel (i : list token) : nat := 12 * S (length i).
End Grammar.

(** Results of [parse_script].  src/parser.rs:126-170. *)
Inductive script_res :=
| SOk (e : expr)
| SError (e : syntax_error)     (* nom::Err::Error *)
| SFailure (e : syntax_error)   (* nom::Err::Failure *)
| SPanic
| SFuel.

(** src/tokenizer.rs:20: [d != Diagnostic::Valid]. *)
Definition not_valid (d : diagnostic) : bool :=
  match d with DValid => false | _ => true end.

(** src/parser.rs:144-160: the first pair of adjacent symbol-like tokens, as
    the error reported for it. *)
Fixpoint adjacent_error (ts : list token) : option syntax_error :=
  match ts with
  | a :: (b :: _) as r =>
      if is_symbol_like (t_kind a) && is_symbol_like (t_kind b)
         && negb (str_eqb (t_text a) (lit "@")) && negb (str_eqb (t_text b) (lit "@"))
      then Some (Expected (slice_join (t_range a) (t_range b)) (lit "whitespace")
                   (Some (t_text b)) None)
      else adjacent_error r
  | _ => None
  end.

(** src/parser.rs:163: tokens kept for parsing. *)
Definition significant (t : token) : bool :=
  match t_kind t with TkWhitespace | TkComment => false | _ => true end.

(** src/parser.rs:126-170 [parse_script]. *)
Definition parse_script (s : str) : script_res :=
  match tokenize s with
  | TokPanic => SPanic
  | TokFuel => SFuel
  | TokOk ts ds =>
      match filter not_valid ds with
      | (_ :: _) as bad => SFailure (TokenizationErrors bad)
      | [] =>
          match adjacent_error ts with
          | Some e => SFailure e
          | None =>
              let toks := filter significant ts in
              match parse (utf8_len s) (parse_fuel toks) NScript toks with
              | POk [] e => SOk e
              | POk (t :: r) _ =>
                  SError (exp_at (utf8_len s) (t :: r) (lit "end of input") None None)
              | PErr e => SError e
              | PFail e => SFailure e
              | PPanic => SPanic
              | PFuel => SFuel
              end
          end
      end
  end.
