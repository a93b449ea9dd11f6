(** Expressions, environments, errors and diagnostics. *)

From Coq Require Import String Floats.SpecFloat.
From Verif Require Import Base.

(** ** Source positions *)

(** [detached_str::StrSlice]: a byte range of the source text
    (src/tokens.rs:3, used for every token and error). *)
Record slice := Slice { sl_start : N; sl_end : N }.

(** src/tokenizer.rs:20-27 [Diagnostic]. *)
Inductive diagnostic :=
| DValid
| DInvalidStringEscapes (ranges : list slice)
| DInvalidNumber (range : slice)
| DIllegalChar (range : slice)
| DNotTokenized (range : slice).

(** nom 7 [ErrorKind], the kinds the combinators used in src/parser.rs create. *)
Inductive nom_kind := KAlt | KMany0 | KMany1 | KSeparatedList | KEof.

(** src/parser.rs:18-37 [SyntaxError].  [ExpectedChar] is left out: nothing in
    the sources constructs it (it needs nom's [char] parser). *)
Inductive syntax_error :=
| TokenizationErrors (ds : list diagnostic)
| Expected (input : slice) (expected : str) (found : option str) (hint : option str)
| NomError (kind : nom_kind) (at_ : option slice) (cause : option syntax_error)
| InternalError.

(** ** Builtin functions *)

(** Identity of a builtin's Rust function pointer: one constructor per
    function pointer or closure that src/binary/init/*.rs registers (see
    Builtins.v for the bodies and their source lines). *)
Inductive bid :=
(* src/binary/init/operator_module.rs *)
| BPipe | BAdd | BSub | BMul | BDiv | BRem | BAnd | BOr | BNot
| BEq | BNe | BLt | BLe | BGt | BGe | BIndex
(* src/binary/init/mod.rs *)
| BPrint | BDebug | BPrintln | BTo | BStr | BInt | BInsert | BKeys | BVals
| BVars | BLen | BLines | BEval | BExec | BUnbind | BReport | BHelp | BInput
(* src/binary/init/list_module.rs *)
| LList | LTail | LHead | LChunk | LCons | LAppend | LLen | LRev | LRange
| LFoldl | LFoldr | LZip | LUnzip | LTake | LDrop | LSplitAt | LNth
(* src/binary/init/fn_module.rs *)
| FApply | FCurry | FMap | FFilter | FReduce | FCond
(* src/binary/init/dict_module.rs *)
| DFlatten | DItems | DKeys | DValues | DInsert | DRemove | DHas | DLen
| DFromItems | DUnion | DIntersect | DDifference
(* src/binary/init/string_module.rs *)
| SToString | SCaesar | SGetWidth | SIsWhitespace | SIsAlpha | SIsAlphanumeric
| SIsNumeric | SSplit | SSplitInner | SToLower | SToUpper | SToTitle
| SIsLower | SIsUpper | SIsTitle | SJoin | SLines | SChars | SWords
| SParagraphs | SSplitAt | STrim | STrimStart | STrimEnd | SReplace
| SStartsWith | SEndsWith | SContains
(* src/binary/init/math_module.rs *)
| MLRsh | MARsh | MLsh | MSum | MProduct | MFact | MAbs | MIsOdd | MIsEven | MPow
| MRound (fn : str)                      (* floor, ceil, round, trunc *)
| MFloat (fn what : str) (dbg : bool)    (* sin, cos, sqrt, ... of one number *)
| MLog
(* src/binary/init/err_module.rs *)
| ETry
(* src/binary/init/log_module.rs *)
| GSetLevel | GGetLevel | GDisable | GEnabled | GInfo | GWarn | GDebug | GError
| GTrace | GEcho
(* src/binary/init/sys_module.rs *)
| YParse | YQuote | YCwd | YEnv | YSet | YUnset | YDefined | YInclude | YImport | YCd
(* src/binary/init/os_module.rs *)
| OExit | OCd
(* src/binary/init/fs_module.rs *)
| KRead | KWrite | KAppend | KHead | KTail | KCanon | KMkdir | KRmdir | KMv | KCp | KRm
| KExists | KIsDir | KIsFile | KLs | KTree | KGlob
(* src/binary/init/fmt_module.rs *)
| TStrip | TStyle (code : str) | TDarkWhite | THref | TWrap
(* src/binary/init/rand_module.rs *)
| RInt | RChoose | RShuffle
(* src/binary/init/widget_module.rs *)
| WCreate | WJoinx | WJoiny
(* src/binary/init/time_module.rs *)
| ISleep | INow
(* src/binary/init/console_module.rs *)
| CWidth | CHeight | CWrite | CTitle | CClear | CFlush
| CMode (raw : bool)                     (* raw, cooked *)
| CFixed (text : str)                    (* alternate, normal, hide, show, ... *)
| CMoveTo
| CMove (letter : chr)                   (* move-up, move-down, move-left, move-right *)
| CReadLine | CReadPassword | CReadKey
(* src/binary/init/parse_module.rs *)
| PExpr | PJson | PToml.

(** src/expr.rs:134-143 [Builtin].  The help text is left out: it is only
    printed, by [help] (see [RqHelp] in Host.v) and in tables. *)
Record builtin := Bi { b_id : bid; b_name : str }.

(** ** Expressions and environments *)

(** src/expr.rs:92-132 [Expression] and src/env.rs:6-10 [Environment].
    Integers are mathematical integers, kept in the 64 bit range by the
    operations (see [in_i64]); bytes are numbers below 256; floats are IEEE
    binary64 values without distinction of NaN payloads. *)
Inductive expr : Type :=
| EGroup (e : expr)
| ESymbol (s : str)
| EInteger (z : Z)
| EFloat (f : spec_float)
| EBytes (b : list N)
| EString (s : str)
| EBoolean (b : bool)
| EList (l : list expr)
| EMap (m : list (str * expr))
| ENone
| EAssign (x : str) (e : expr)
| EFor (x : str) (l b : expr)
| EIf (c t f : expr)
| EApply (f : expr) (args : list expr)
| ELambda (p : str) (b : expr) (c : env)
| EMacro (p : str) (b : expr)
| EDo (l : list expr)
| EBuiltin (b : builtin)
| EQuote (e : expr)
(* src/env.rs:6-10 [Environment]. *)
with env : Type :=
| Env (bindings : list (str * expr)) (parent : option env).

(** src/error.rs:10-21 [Error]. *)
Inductive error :=
| CannotApply (f : expr) (args : list expr)
| SymbolNotDefined (s : str)
| CommandFailed (name : str) (args : list expr)
| ForNonList (e : expr)
| RecursionDepth (e : expr)
| PermissionDenied (e : expr)
| ProgramNotFound (name : str)
| SyntaxErr (text : str) (e : syntax_error)
| CustomError (msg : str).

(** ** Environments *)

(** src/env.rs:7-10. *)
Definition env_bindings (e : env) : bmap expr :=
  match e with Env b _ => b end.
(** src/env.rs:7-10. *)
Definition env_parent (e : env) : option env :=
  match e with Env _ p => p end.

(** src/env.rs:18-24 [Environment::new]. *)
Definition env_new : env := Env [] None.

(** src/env.rs:49-57 [Environment::get]. *)
Fixpoint env_get (name : str) (e : env) : option expr :=
  match e with
  | Env b p =>
      match bm_get name b with
      | Some x => Some x
      | None => match p with Some p' => env_get name p' | None => None end
      end
  end.

(** src/env.rs:59-66 [Environment::is_defined]. *)
Fixpoint env_is_defined (name : str) (e : env) : bool :=
  match e with
  | Env b p =>
      bm_mem name b
      || match p with Some p' => env_is_defined name p' | None => false end
  end.

(** src/env.rs:68-70 [Environment::undefine]. *)
Definition env_undefine (name : str) (e : env) : env :=
  match e with Env b p => Env (bm_remove name b) p end.

(** src/env.rs:72-74 [Environment::define]. *)
Definition env_define (name : str) (x : expr) (e : env) : env :=
  match e with Env b p => Env (bm_insert name x b) p end.

(** src/env.rs:88-90 [Environment::set_parent]. *)
Definition env_set_parent (p : env) (e : env) : env :=
  match e with Env b _ => Env b (Some p) end.

(** src/env.rs:4 [CWD_ENV_VAR]. *)
Definition CWD : str := lit "CWD".

(** src/env.rs:38-43 [Environment::get_cwd]. *)
Definition env_get_cwd (e : env) : str :=
  match env_get CWD e with
  | Some (EString p) => p
  | _ => lit "/"
  end.

(** src/env.rs:45-47 [Environment::set_cwd]. *)
Definition env_set_cwd (p : str) (e : env) : env := env_define CWD (EString p) e.

(** ** Structural functions of src/expr.rs *)

(** src/expr.rs:389-403 [Expression::is_truthy].  A float is truthy when it
    differs from [0.0] under IEEE comparison, so NaN is truthy. *)
Definition is_truthy (e : expr) : bool :=
  match e with
  | EInteger i => negb (i =? 0)%Z
  | EFloat f => match f with S754_zero _ => false | _ => true end
  | EString s => match s with [] => false | _ => true end
  | EBytes b => match b with [] => false | _ => true end
  | EBoolean b => b
  | EList l => match l with [] => false | _ => true end
  | EMap m => match m with [] => false | _ => true end
  | ELambda _ _ _ | EMacro _ _ | EBuiltin _ => true
  | _ => false
  end.

(** src/expr.rs:405-415 [Expression::flatten] of one argument. *)
Fixpoint flatten1 (e : expr) : list expr :=
  match e with
  | EList l => flat_map flatten1 l
  | EGroup e => flatten1 e
  | _ => [e]
  end.

(** src/expr.rs:405-415 [Expression::flatten]. *)
Definition flatten (args : list expr) : list expr := flat_map flatten1 args.

(** src/expr.rs:417-470 [Expression::get_used_symbols]. *)
Fixpoint used_symbols (e : expr) : list str :=
  match e with
  | ESymbol name => [name]
  | ENone | EInteger _ | EFloat _ | EBytes _ | EString _ | EBoolean _
  | EBuiltin _ => []
  | EFor _ l b => used_symbols l ++ used_symbols b
  | EDo l | EList l => flat_map used_symbols l
  | EMap m => flat_map (fun kv => used_symbols (snd kv)) m
  | EGroup e | EQuote e => used_symbols e
  | ELambda _ b _ => used_symbols b
  | EMacro _ b => used_symbols b
  | EAssign _ e => used_symbols e
  | EIf c t f => used_symbols c ++ used_symbols t ++ used_symbols f
  | EApply g args => used_symbols g ++ flat_map used_symbols args
  end.

(** src/expr.rs:626-638: evaluation of a lambda in the environment [e].  The
    captured environment gets the parameter (bound to [None]), the current
    directory and the symbols of the body that it does not define yet and that
    [e] defines. *)
Definition capture_symbols (e : env) (p : str) (c : env) (syms : list str) (t : env) : env :=
  fold_left
    (fun t x =>
       if negb (str_eqb x p) && negb (env_is_defined x c)
       then match env_get x e with
            | Some v => env_define x v t
            | None => t
            end
       else t)
    syms t.

(** src/expr.rs:626-638. *)
Definition capture (e : env) (p : str) (b : expr) (c : env) : env :=
  capture_symbols e p c (used_symbols b)
    (env_set_cwd (env_get_cwd e) (env_define p ENone c)).

(** ** Induction over expressions and environments *)

(** helper of the proofs about src/expr.rs:626-638. *)
Definition opt_all {A} (Q : A -> Prop) (o : option A) : Prop :=
  match o with Some x => Q x | None => True end.

Section ExprInd.
  Variable P : expr -> Prop.
  Variable Q : env -> Prop.
  Hypothesis HGroup : forall e, P e -> P (EGroup e).
  Hypothesis HSymbol : forall s, P (ESymbol s).
  Hypothesis HInteger : forall z, P (EInteger z).
  Hypothesis HFloat : forall f, P (EFloat f).
  Hypothesis HBytes : forall b, P (EBytes b).
  Hypothesis HString : forall s, P (EString s).
  Hypothesis HBoolean : forall b, P (EBoolean b).
  Hypothesis HList : forall l, Forall P l -> P (EList l).
  Hypothesis HMap : forall m, Forall (fun kv => P (snd kv)) m -> P (EMap m).
  Hypothesis HNone : P ENone.
  Hypothesis HAssign : forall x e, P e -> P (EAssign x e).
  Hypothesis HFor : forall x l b, P l -> P b -> P (EFor x l b).
  Hypothesis HIf : forall c t f, P c -> P t -> P f -> P (EIf c t f).
  Hypothesis HApply : forall f args, P f -> Forall P args -> P (EApply f args).
  Hypothesis HLambda : forall p b c, P b -> Q c -> P (ELambda p b c).
  Hypothesis HMacro : forall p b, P b -> P (EMacro p b).
  Hypothesis HDo : forall l, Forall P l -> P (EDo l).
  Hypothesis HBuiltin : forall b, P (EBuiltin b).
  Hypothesis HQuote : forall e, P e -> P (EQuote e).
  Hypothesis HEnv : forall b p,
      Forall (fun kv => P (snd kv)) b ->
      opt_all Q p -> Q (Env b p).

  (** induction over src/expr.rs:92-150, used by proofs only. *)
  Fixpoint expr_ind2 (e : expr) : P e :=
    let fix go (l : list expr) : Forall P l :=
      match l with
      | [] => Forall_nil _
      | x :: r => Forall_cons _ (expr_ind2 x) (go r)
      end in
    let fix gom (l : list (str * expr)) : Forall (fun kv => P (snd kv)) l :=
      match l with
      | [] => Forall_nil _
      | kv :: r => Forall_cons _ (expr_ind2 (snd kv)) (gom r)
      end in
    match e with
    | EGroup e => HGroup e (expr_ind2 e)
    | ESymbol s => HSymbol s
    | EInteger z => HInteger z
    | EFloat f => HFloat f
    | EBytes b => HBytes b
    | EString s => HString s
    | EBoolean b => HBoolean b
    | EList l => HList l (go l)
    | EMap m => HMap m (gom m)
    | ENone => HNone
    | EAssign x e => HAssign x e (expr_ind2 e)
    | EFor x l b => HFor x l b (expr_ind2 l) (expr_ind2 b)
    | EIf c t f => HIf c t f (expr_ind2 c) (expr_ind2 t) (expr_ind2 f)
    | EApply f args => HApply f args (expr_ind2 f) (go args)
    | ELambda p b c => HLambda p b c (expr_ind2 b) (env_ind2 c)
    | EMacro p b => HMacro p b (expr_ind2 b)
    | EDo l => HDo l (go l)
    | EBuiltin b => HBuiltin b
    | EQuote e => HQuote e (expr_ind2 e)
    end
  (* induction over src/expr.rs:92-150, used by proofs only. *)
  with env_ind2 (e : env) : Q e :=
    let fix gom (l : list (str * expr)) : Forall (fun kv => P (snd kv)) l :=
      match l with
      | [] => Forall_nil _
      | kv :: r => Forall_cons _ (expr_ind2 (snd kv)) (gom r)
      end in
    match e with
    | Env b p =>
        HEnv b p (gom b)
          (match p as p0 return opt_all Q p0 with
           | Some p' => env_ind2 p'
           | None => I
           end)
    end.
End ExprInd.
