(** The operands written in a script and those in an expression. *)

From Coq Require Import String Floats.SpecFloat.
From Verif Require Import Base Syntax Tokenizer Parser.

(** Identifiers and literals. *)
Inductive leaf :=
| LName (s : str)
| LInt (z : Z)
| LFloat (f : spec_float)
| LText (s : str)
| LBool (b : bool).

(** The words that are no identifiers: operators, punctuation and keywords
    (src/tokenizer.rs:76-133). *)
Definition operator_words : list str := map lit
  ["to"; "=="; "!="; ">="; "<="; "&&"; "||"; "//"; "<<"; ">>"; ">>>";
   "<"; ">"; "+"; "-"; "*"; "%"; "|"; "@"; "!"]%string.
Definition openers : list str := map lit ["("; "["; "{"; ","; ";"; "="; "->"; "~>"; "'"]%string.
Definition closers : list str := map lit [")"; "]"; "}"]%string.
Definition key_words : list str := map lit ["None"; "then"; "else"; "let"; "for"; "if"; "in"]%string.
Definition no_names : list str := operator_words ++ openers ++ closers ++ key_words.

Definition name_leaf (s : str) : list leaf :=
  if existsb (str_eqb s) no_names then [] else [LName s].

(** The operands of an expression: names (of variables, parameters and map
    keys) and literals, each as often as it occurs. *)
Fixpoint operands (e : expr) : list leaf :=
  match e with
  | ESymbol s => name_leaf s
  | EInteger z => [LInt z]
  | EFloat f => [LFloat f]
  | EString s => [LText s]
  | EBoolean b => [LBool b]
  | EBytes _ | ENone | EBuiltin _ => []
  | EGroup e | EQuote e => operands e
  | EAssign x e | ELambda x e _ | EMacro x e => name_leaf x ++ operands e
  | EList l | EDo l => flat_map operands l
  | EMap m => flat_map (fun kv => name_leaf (fst kv) ++ operands (snd kv)) m
  | EFor x l b => name_leaf x ++ operands l ++ operands b
  | EIf c t f => operands c ++ operands t ++ operands f
  | EApply f args => operands f ++ flat_map operands args
  end.

(** The operand a token stands for. *)
Definition token_leaf (t : token) : list leaf :=
  match t_kind t with
  | TkSymbol => [LName (t_text t)]
  | TkIntegerLiteral => match parse_i64 (t_text t) with Some z => [LInt z] | None => [] end
  | TkFloatLiteral => match parse_f64 (t_text t) with Some f => [LFloat f] | None => [] end
  | TkStringLiteral => match unescape (t_text t) with Some s => [LText s] | None => [] end
  | TkBooleanLiteral => [LBool (str_eqb (t_text t) (lit "True"))]
  | _ => []
  end.

Definition written (ts : list token) : list leaf := flat_map token_leaf ts.

(** How many brackets are open after [ts] when [d] are open before; [None] when
    one is closed that was opened before. *)
Fixpoint level (d : nat) (ts : list token) : option nat :=
  match ts with
  | [] => Some d
  | t :: r =>
      if existsb (str_eqb (t_text t)) (map lit ["("; "["; "{"]%string) then level (S d) r
      else if existsb (str_eqb (t_text t)) closers then
        match d with O => None | S d' => level d' r end
      else level d r
  end.

(** All brackets opened in [ts] are closed in it. *)
Definition balanced (ts : list token) : Prop := level 0 ts = Some 0.

(** A map literal in [ts] has a key twice: [{k = .., k = ..}], possibly with
    other entries around. *)
Definition repeated_key (ts : list token) : Prop :=
  exists a o k q mid comma k' q' b,
    ts = a ++ o :: k :: q :: mid ++ comma :: k' :: q' :: b
    /\ (t_text o = lit "{" \/ t_text o = lit ",")
    /\ t_text q = lit "=" /\ balanced mid
    /\ t_text comma = lit "," /\ t_text k' = t_text k /\ t_text q' = lit "=".

(** The token [!] comes first or after an opening bracket, a separator, a quote
    sign or an arrow. *)
Definition not_leads (ts : list token) : Prop :=
  forall a t u b, ts = a ++ t :: u :: b -> t_text u = lit "!" -> In (t_text t) openers.
