(** Expressions that can be read back from what is printed. *)

From Coq Require Import String.
From Verif Require Import Base Syntax Host.
From Verif Require FloatSpec FloatFmt.

(** The operators of the language (src/tokenizer.rs:76-103, 121-133). *)
Definition operators : list str :=
  map lit ["to"; "=="; "!="; ">="; "<="; "&&"; "||"; "//"; "<<"; ">>"; ">>>";
           "<"; ">"; "+"; "-"; "*"; "%"; "|"; "@"; "!"]%string.
Definition operator (o : str) : Prop := In o operators.

(** Words with a meaning of their own that consist of word characters
    (src/tokenizer.rs:76-141). *)
Definition taken : list str :=
  map lit ["to"; "&&"; "//"; "<<"; ">>"; ">>>"; "->"; "~>";
           "None"; "then"; "else"; "let"; "for"; "if"; "in"; "True"; "False";
           "<"; ">"; "+"; "-"; "%"]%string.

Definition between (a b c : N) : Prop := (a <= c <= b)%N.

(** src/tokenizer.rs:344-373. *)
Definition word_char (c : chr) : Prop :=
  between 97%N 122%N c \/ between 65%N 90%N c \/ between 48%N 57%N c \/ In c (lit "_+-.~\/?&<>$%#^:").

(** An identifier: word characters, no word with another meaning, neither the
    start of a number nor of a comment. *)
Definition identifier (x : str) : Prop :=
  Forall word_char x /\ ~ In x taken
  /\ match x with
     | [] => False
     | c :: r => c <> 35%N /\ ~ between 48%N 57%N c
                 /\ match r with d :: _ => c = 45%N -> ~ between 48%N 57%N d | [] => True end
     end.

Section Readable.
  Variable H : host.

  (** Characters whose printed form is understood: not the null character, and
      below the code point 0x100000 unless printed as itself. *)
  Definition writable (c : chr) : Prop :=
    c <> 0%N /\ (between 1%N 55295%N c \/ between 57344%N 1114111%N c)
    /\ ((c < 1048576)%N \/ h_printable H c = true).

  (** Operands, and expressions at large.  A block has at least one statement,
      except as the body of a loop; in [f x] neither [f] nor [x] is a call, a
      function, an assignment, a loop or a conditional without parentheses. *)
  Inductive operand : expr -> Prop :=
  | r_name x : identifier x -> operand (ESymbol x)
  | r_integer z : (i64_min <= z <= i64_max)%Z -> operand (EInteger z)
  | r_float f : FloatSpec.finite f -> ~ FloatSpec.whole (FloatSpec.value f) ->
      h_float H f = FloatFmt.f64_display f -> operand (EFloat f)
  | r_boolean b : operand (EBoolean b)
  | r_none : operand ENone
  | r_string s : Forall writable s -> operand (EString s)
  | r_list l : Forall readable l -> operand (EList l)
  | r_no_map : operand (EMap [])
  | r_group e : readable e -> operand (EGroup e)
  | r_quote e : operand e -> operand (EQuote e)
  | r_block l : l <> [] -> Forall readable l -> operand (EDo l)
  with readable : expr -> Prop :=
  | r_operand e : operand e -> readable e
  | r_operator o : operator o -> readable (ESymbol o)
  | r_apply f args : operand f \/ (exists o, operator o /\ f = ESymbol o) ->
      args <> [] -> Forall operand args -> readable (EApply f args)
  | r_assign x e : identifier x \/ operator x -> readable e -> readable (EAssign x e)
  | r_lambda x e : identifier x -> readable e -> readable (ELambda x e env_new)
  | r_macro x e : identifier x -> readable e -> readable (EMacro x e)
  | r_for x l b : identifier x -> operand l -> Forall readable b -> readable (EFor x l (EDo b))
  | r_if e : conditional e -> readable e
  with conditional : expr -> Prop :=
  | r_else c t f : operand c -> operand t -> operand f \/ conditional f -> conditional (EIf c t f).
End Readable.

(** What comes back: the alternative of a conditional is in parentheses. *)
Fixpoint reread (e : expr) : expr :=
  match e with
  | EQuote e => EQuote (reread e)
  | EGroup e => EGroup (reread e)
  | EList l => EList (map reread l)
  | EDo l => EDo (map reread l)
  | EApply f args => EApply (reread f) (map reread args)
  | EAssign x e => EAssign x (reread e)
  | ELambda x e c => ELambda x (reread e) c
  | EMacro x e => EMacro x (reread e)
  | EFor x l b => EFor x (reread l) (reread b)
  | EIf c t f => EIf (reread c) (reread t) (EGroup (reread f))
  | e => e
  end.

(** No conditional anywhere. *)
Fixpoint no_if (e : expr) : Prop :=
  match e with
  | EQuote e | EGroup e | EAssign _ e | ELambda _ e _ | EMacro _ e => no_if e
  | EList l | EDo l => fold_right (fun e P => no_if e /\ P) True l
  | EApply f args => no_if f /\ fold_right (fun e P => no_if e /\ P) True args
  | EFor _ l b => no_if l /\ no_if b
  | EIf _ _ _ => False
  | _ => True
  end.

(** Expressions made of identifiers, operators, integers, truth values, none,
    texts, lists, groups, quotes, applications, assignments, functions, macros,
    blocks, conditionals and loops. *)
Fixpoint source (e : expr) : Prop :=
  match e with
  | ESymbol x => identifier x \/ operator x
  | EInteger z => (i64_min <= z <= i64_max)%Z
  | EBoolean _ | ENone => True
  | EString s => Forall (fun c => between 0%N 55295%N c \/ between 57344%N 1114111%N c) s
  | EQuote e | EGroup e => source e
  | EAssign x e | EMacro x e => identifier x /\ source e
  | ELambda x e c => identifier x /\ source e /\ c = env_new
  | EList l | EDo l => fold_right (fun e P => source e /\ P) True l
  | EApply f args => source f /\ fold_right (fun e P => source e /\ P) True args
  | EFor x l b => identifier x /\ source l /\ source b
  | EIf c t f => source c /\ source t /\ source f
  | EFloat _ | EBytes _ | EMap _ | EBuiltin _ => False
  end.
