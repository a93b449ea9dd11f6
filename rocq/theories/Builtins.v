(** src/binary/init/*.rs: the builtin functions. *)

From Coq Require Import String Floats.SpecFloat.
From Verif Require Import Base Syntax Host Ops Parser ErrorFmt Text Monad.

(** ** Currying: src/binary/init/fn_module.rs:4-57 *)

(** src/binary/init/fn_module.rs:12,17. *)
Definition arg_name (i : nat) : str := lit "arg" ++ n_str (N.of_nat i).

(** The nested lambdas; each of them is evaluated in [e] when it is made.
    src/binary/init/fn_module.rs:15-22. *)
Definition curry_lambdas (e : env) (body : expr) (n : nat) : expr :=
  fold_right
    (fun i acc => ELambda (arg_name i) acc (capture e (arg_name i) acc env_new))
    body (seq 0 n).

(** src/binary/init/fn_module.rs:4-24 [curry_env]. *)
Definition curry_env (f : expr) (n : nat) (e : env) : expr :=
  curry_lambdas e (EApply f (map (fun i => ESymbol (arg_name i)) (seq 0 n))) n.

(** src/binary/init/fn_module.rs:26-47 [reverse_curry_env]. *)
Definition reverse_curry_env (f : expr) (n : nat) (e : env) : expr :=
  curry_lambdas e (EApply f (map (fun i => ESymbol (arg_name i)) (rev (seq 0 n)))) n.

(** src/binary/init/fn_module.rs:49-57 [reverse_curry], [curry]. *)
Definition reverse_curry (f : expr) (n : nat) : expr := reverse_curry_env f n env_new.
(** src/binary/init/fn_module.rs:54-57. *)
Definition curry (f : expr) (n : nat) : expr := curry_env f n env_new.

(** A result of machine integer arithmetic.  src/binary/init/math_module.rs:75. *)
Definition arith (ovf : overflow_mode) (z : Z) : Z + panic :=
  if in_i64 z then inl z
  else match ovf with OvfPanic => inr PArith | OvfWrap => inl (wrap64 z) end.

(** [lo, lo+1, ..] of length [n].  src/binary/init/mod.rs:177. *)
Definition zrange (lo : Z) (n : nat) : list Z := map (fun i => (lo + Z.of_nat i)%Z) (seq 0 n).

(** src/binary/init/list_module.rs:318,343. *)
Definition take_usize {A} (n : N) (l : list A) : list A :=
  if (N.of_nat (length l) <=? n)%N then l else firstn (N.to_nat n) l.
(** src/binary/init/list_module.rs:318,343. *)
Definition skip_usize {A} (n : N) (l : list A) : list A :=
  if (N.of_nat (length l) <=? n)%N then [] else skipn (N.to_nat n) l.

(** src/binary/init/list_module.rs:96-107: [chunk] is the current chunk,
    reversed. *)
Fixpoint chunk_go (n : N) (l chunk : list expr) : list expr :=
  match l with
  | [] => match chunk with [] => [] | _ => [EList (rev chunk)] end
  | x :: r =>
      let chunk := x :: chunk in
      if (N.of_nat (length chunk) =? n)%N
      then EList (rev chunk) :: chunk_go n r []
      else chunk_go n r chunk
  end.

(** src/binary/init/list_module.rs:279-296: the two halves of a list of pairs. *)
Fixpoint unzip_list (l : list expr) : option (list expr * list expr) :=
  match l with
  | [] => Some ([], [])
  | EList [a; b] :: r =>
      match unzip_list r with Some (x, y) => Some (a :: x, b :: y) | None => None end
  | _ :: _ => None
  end.

(** src/binary/init/dict_module.rs:5-23 [flatten]. *)
Fixpoint dict_flatten (e : expr) : list expr :=
  match e with
  | EList l => flat_map dict_flatten l
  | EMap m => flat_map (fun kv => dict_flatten (snd kv)) m
  | _ => [e]
  end.

(** [Vec::insert].  src/binary/init/mod.rs:234. *)
Definition list_insert {A} (i : nat) (x : A) (l : list A) : list A :=
  firstn i l ++ x :: skipn i l.

(** [slice.swap(i, j)].  src/binary/init/rand_module.rs:49. *)
Definition swap {A} (d : A) (i j : nat) (l : list A) : list A :=
  map (fun k => nth (if Nat.eqb k i then j else if Nat.eqb k j then i else k) l d)
      (seq 0 (length l)).

(** The bytes of a command's standard input.  src/binary/init/operator_module.rs:435-443. *)
Definition value_bytes (H : host) (e : expr) : list N :=
  match e with EBytes b => b | _ => utf8_bytes (display H e) end.

Section Builtins.
  Variable H : host.

  (** [Expression::eval]: evaluation from depth 0 (src/expr.rs:472-474). *)
  Variable ev : expr -> M expr.

  (** src/binary/init/mod.rs:441-470 ([?] on the checks). *)
  Notation "'lets' x <- m ;; k" := (bind m (fun x => k))
    (at level 61, m at next level, right associativity, only parsing).

  (** [args[i]]: indexing a vector panics when it is too short.  src/binary/init/mod.rs:194. *)
  Definition arg (args : list expr) (i : nat) : M expr :=
    match nth_error args i with Some e => ret e | None => panics PIndex end.
  (** src/binary/init/mod.rs:194. *)
  Definition ev_arg (args : list expr) (i : nat) : M expr :=
    a <- arg args i ;; ev a.

  (** src/binary/init/mod.rs:456-470 [check_exact_args_len]. *)
  Definition check_exact (name : str) (args : list expr) (n : nat) : M unit :=
    if Nat.eqb (length args) n then ret tt
    else if Nat.ltb n (length args)
         then custom (lit "too many arguments to function " ++ name)
         else custom (lit "too few arguments to function " ++ name).

  (** src/binary/init/mod.rs:441-454 [check_args_len] for [1..=2]. *)
  Definition check_one_or_two (name : str) (args : list expr) : M unit :=
    if Nat.leb 1 (length args) && Nat.leb (length args) 2 then ret tt
    else custom (lit "too few arguments to function " ++ name).

  (** src/binary/init/mod.rs:441-454 [check_args_len] for [2..]. *)
  Definition check_two_or_more (name : str) (args : list expr) : M unit :=
    if Nat.leb 2 (length args) then ret tt
    else custom (lit "too few arguments to function " ++ name).

  (** [if args.len() != n { return Err("...") }].  src/binary/init/list_module.rs:86-92. *)
  Definition require_len (n : nat) (args : list expr) (msg : str) : M unit :=
    if Nat.eqb (length args) n then ret tt else custom msg.

  (** [print!]: output on the terminal.  Simplification: a failure to write to
      standard output (a panic in Rust) is not modelled.  src/binary/init/mod.rs:107-109. *)
  Definition print (s : str) : M unit := ask H (RqPrint s) ;;; ret tt.

  (** src/bin.rs:433-443 [parse]. *)
  Definition parse_m (s : str) : M expr :=
    match parse_script s with
    | SOk e => ret e
    | SError e | SFailure e => throw (SyntaxErr s e)
    | SPanic => panics PBoundary
    | SFuel => out_of_fuel
    end.

  (** ** src/binary/init/operator_module.rs *)

  (** The loop shared by [+], [-], [*], [//] and [%]: lines 21-31, 52-61,
      78-88, 104-114, 130-140.  Both the accumulated result and the next
      operand are evaluated before each step.  src/binary/init/operator_module.rs:21-140. *)
  Definition fold_arith (op : expr -> expr -> expr + panic) (verb : str)
      (first : expr) (rest : list expr) : M expr :=
    foldM
      (fun result a =>
         x <- ev result ;;
         y <- ev a ;;
         r <- or_panic (op x y) ;;
         match r with
         | ENone =>
             custom (lit "cannot " ++ verb ++ lit " " ++ debug H result
                     ++ lit " and " ++ debug H a)
         | _ => ret r
         end)
      first rest.

  (** src/binary/init/operator_module.rs:21-140. *)
  Definition pure_op (op : expr -> expr -> expr) : expr -> expr -> expr + panic :=
    fun a b => inl (op a b).

  (** src/binary/init/operator_module.rs:13. *)
  Definition add_bi : expr := EBuiltin (Bi BAdd (lit "+")).

  (** operator_module.rs:8-33 [add_builtin]. *)
  Definition run_add (args : list expr) : M expr :=
    first <- ev_arg args 0 ;;
    match args with
    | [_] => ev (EApply (reverse_curry add_bi 2) [first])
    | _ => fold_arith (pure_op expr_add) (lit "add") first (tl args)
    end.

  (** operator_module.rs:45-69. *)
  Definition run_sub (args : list expr) : M expr :=
    first <- ev_arg args 0 ;;
    match args with
    | [_] => or_panic (expr_neg (h_overflow H) first)
    | _ => fold_arith (pure_op expr_sub) (lit "subtract") first (tl args)
    end.

  (** operator_module.rs:76-90. *)
  Definition run_mul (args : list expr) : M expr :=
    first <- ev_arg args 0 ;;
    fold_arith expr_mul (lit "multiply") first (tl args).

  (** operator_module.rs:102-116. *)
  Definition run_div (args : list expr) : M expr :=
    first <- ev_arg args 0 ;;
    fold_arith (pure_op expr_div) (lit "divide") first (tl args).

  (** operator_module.rs:128-142. *)
  Definition run_rem (args : list expr) : M expr :=
    first <- ev_arg args 0 ;;
    fold_arith expr_rem (lit "remainder") first (tl args).

  (** operator_module.rs:149-189: [&&], [||], [!] evaluate every argument. *)
  Definition run_logic (f : list expr -> bool) (args : list expr) : M expr :=
    l <- mapM ev args ;; ret (EBoolean (f l)).

  (** operator_module.rs:191-249: the comparisons. *)
  Definition run_compare (f : expr -> expr -> bool) (args : list expr) : M expr :=
    a <- ev_arg args 0 ;; b <- ev_arg args 1 ;; ret (EBoolean (f a b)).

  (** operator_module.rs:251-265 [@]. *)
  Definition run_index (args : list expr) : M expr :=
    v <- ev_arg args 0 ;;
    foldM
      (fun v a =>
         match a with
         | EInteger _ | ESymbol _ => ret (expr_index v a)
         | _ => i <- ev a ;; ret (expr_index v i)
         end)
      v (tl args).

  (** operator_module.rs:462-471 and src/expr.rs:534-544: the variables passed
      to a program as its environment. *)
  Definition command_envs (e : env) : bmap str :=
    filter (fun kv => (utf8_len (snd kv) <=? 1024)%N)
      (map (fun kv => (fst kv, display H (snd kv))) (env_bindings e)).

  (** operator_module.rs:490-493: arguments of a stage of a pipeline. *)
  Definition stage_args (args : list expr) : M (list str) :=
    mapM (fun x => v <- ev x ;; ret (display H v))
      (filter (fun x => match x with ENone => false | _ => true end) args).

  (** src/binary/init/operator_module.rs:487-495. *)
  Definition stage_command (prog : str) (args : list expr) : M (option command) :=
    e <- get_env ;;
    a <- stage_args args ;;
    ret (Some (Command prog a (env_get_cwd e) (command_envs e))).

  (** operator_module.rs:457-533 [expr_to_command]. *)
  Fixpoint expr_to_command (x : expr) : M (option command) :=
    match x with
    | EGroup x | EQuote x => expr_to_command x
    | EApply (ESymbol name) args | EApply (EString name) args =>
        e <- get_env ;;
        match env_get name e with
        | Some (ESymbol alias) => stage_command alias args
        | Some _ => ret None
        | None => stage_command name args
        end
    | EApply (EQuote (EString prog)) args | EApply (EQuote (ESymbol prog)) args =>
        stage_command prog args
    | ESymbol name =>
        e <- get_env ;;
        match env_get name e with
        | Some (ESymbol alias) => stage_command alias []
        | Some _ => ret None
        | None => stage_command name []
        end
    | _ => ret None
    end.

  (** operator_module.rs:320-446: one stage of a pipeline.  The state is the
      result of the last stage and the bytes for the next standard input. *)
  Definition run_stage (is_first is_last : bool) (acc : expr * list N) (x : expr)
    : M (expr * list N) :=
    c <- expr_to_command x ;;
    match c with
    | Some cmd =>
        rs <- ask H (RqStage cmd (if is_first then None else Some (snd acc)) (negb is_last)) ;;
        match rs with
        | RsWriteFailed =>
            if is_first then ret (if is_last then acc else (EString [], []))
            else custom (lit "error when piping into process `" ++ display H x ++ lit "`")
        | RsWaitFailed =>
            custom (lit "error when waiting for process `" ++ display H x ++ lit "`")
        | RsNotFound | RsPermission | RsFailed | RsErr _ _ _ =>
            custom (lit "could not spawn process `" ++ display H x ++ lit "`")
        | RsOutput b =>
            ret (if is_last then (if is_first then acc else (ENone, []))
                 else (match from_utf8 b with Some s => EString s | None => EBytes b end, b))
        | _ =>
            ret (if is_last then (if is_first then acc else (ENone, []))
                 else (EString [], []))
        end
    | None =>
        v <- ev (if is_first then x else EApply x [fst acc]) ;;
        ret (v, value_bytes H v)
    end.

  (** src/binary/init/operator_module.rs:320-446. *)
  Fixpoint run_stages (is_first : bool) (acc : expr * list N) (l : list expr)
    : M (expr * list N) :=
    match l with
    | [] => ret acc
    | x :: r =>
        acc' <- run_stage is_first (match r with [] => true | _ => false end) acc x ;;
        run_stages false acc' r
    end.

  (** operator_module.rs:300-449 [pipe_builtin]. *)
  Definition run_pipe (args : list expr) : M expr :=
    match args with
    | [] | [_] => custom (lit "pipe requires at least two arguments")
    | _ => acc <- run_stages true (ENone, []) args ;; ret (fst acc)
    end.

  (** ** src/binary/init/mod.rs *)

  (** mod.rs:101-151 [print], [debug], [println], and [echo] of
      log_module.rs:252-264: arguments separated by a space, the last one
      followed by [last]. *)
  Fixpoint run_print (show : expr -> str) (last : str) (args : list expr) : M unit :=
    match args with
    | [] => ret tt
    | [a] => x <- ev a ;; print (show x ++ last)
    | a :: r => x <- ev a ;; print (show x ++ lit " ") ;;; run_print show last r
    end.

  (** mod.rs:63-99 [help]: topics are not evaluated; what is no builtin is passed
      over. *)
  Fixpoint run_help (args : list expr) : M expr :=
    match args with
    | [] => ret ENone
    | a :: r =>
        let topic :=
          match a with
          | ESymbol x =>
              existsb (str_eqb x) (map lit ["me"; "prelude"; "types"; "scripting"; "builtin"; "lib"; "syntax"]%string)
          | _ => false
          end in
        (if topic then ask H (RqHelp (display H a)) ;;; ret tt
         else
           v <- ev a ;;
           match v with
           | EBuiltin b => ask H (RqHelp (b_name b)) ;;; ret tt
           | _ => ret tt
           end) ;;;
        run_help r
    end.

  (** mod.rs:153-169 [input]: the prompt is the arguments, separated by spaces;
      the end of the input ends the shell (src/bin.rs:97). *)
  Definition run_input (args : list expr) : M expr :=
    vs <- mapM ev args ;;
    rs <- ask H (RqInput (join (lit " ") (map (display H) vs))) ;;
    match rs with
    | RsText s => ret (EString s)
    | RsEnd => exits 0
    | _ => ret (EString [])
    end.

  (** mod.rs:171-190 [to]: the upper bound is excluded. *)
  Definition run_to (args : list expr) : M expr :=
    require_len 2 args (lit "Must supply 2 arguments to range") ;;;
    a <- ev_arg args 0 ;; b <- ev_arg args 1 ;;
    match a, b with
    | EInteger m, EInteger n => ret (EList (map EInteger (zrange m (Z.to_nat (n - m)))))
    | _, _ => custom (lit "Arguments to range must be integers")
    end.

  (** mod.rs:192-196 [str]. *)
  Definition run_str (args : list expr) : M expr :=
    v <- ev_arg args 0 ;; ret (EString (display H v)).

  (** mod.rs:198-219 [int]. *)
  Definition run_int (args : list expr) : M expr :=
    v <- ev_arg args 0 ;;
    match v with
    | EInteger x => ret (EInteger x)
    | EFloat x => ret (EInteger (f64_to_int x))
    | EString s =>
        match parse_int_text s with
        | Some n => ret (EInteger n)
        | None => custom (lit "could not convert " ++ debug_str H s ++ lit " to an integer")
        end
    | _ => custom (lit "could not convert " ++ debug H v ++ lit " to an integer")
    end.

  (** mod.rs:221-263 [insert]. *)
  Definition run_insert (args : list expr) : M expr :=
    check_exact (lit "insert") args 3 ;;;
    arr <- ev_arg args 0 ;; idx <- ev_arg args 1 ;; val <- ev_arg args 2 ;;
    let out_of_bounds :=
      custom (lit "index " ++ display H idx ++ lit " out of bounds for " ++ debug H arr) in
    match arr, idx with
    | EMap m, EString k => ret (EMap (bm_insert k val m))
    | EList l, EInteger i =>
        if (as_usize i <=? N.of_nat (length l))%N
        then ret (EList (list_insert (N.to_nat (as_usize i)) val l))
        else out_of_bounds
    | EString s, EInteger i =>
        if (as_usize i <=? utf8_len s)%N
        then match split_bytes (as_usize i) s with
             | Some (a, b) => ret (EString (a ++ display H val ++ b))
             | None => panics PBoundary
             end
        else out_of_bounds
    | _, _ =>
        custom (lit "cannot insert " ++ debug H val ++ lit " into " ++ debug H arr
                ++ lit " with index " ++ debug H idx)
    end.

  (** mod.rs:265-275 [keys]. *)
  Definition run_keys (args : list expr) : M expr :=
    v <- ev_arg args 0 ;;
    match v with
    | EMap m => ret (EList (map (fun kv => EString (fst kv)) m))
    | _ => custom (lit "cannot get the keys of " ++ display H v)
    end.

  (** mod.rs:277-287 [vals]. *)
  Definition run_vals (args : list expr) : M expr :=
    v <- ev_arg args 0 ;;
    match v with
    | EMap m => ret (EList (map snd m))
    | _ => custom (lit "cannot get the values of " ++ display H v)
    end.

  (** mod.rs:289-293 [vars] and sys_module.rs:92-94 [env]: the innermost scope. *)
  Definition run_vars : M expr := e <- get_env ;; ret (EMap (env_bindings e)).

  (** mod.rs:295-309 [len]: characters of a text. *)
  Definition run_len (args : list expr) : M expr :=
    v <- ev_arg args 0 ;;
    match v with
    | EMap m => ret (EInteger (as_int (Z.of_nat (length m))))
    | EList l => ret (EInteger (as_int (Z.of_nat (length l))))
    | ESymbol s | EString s => ret (EInteger (as_int (Z.of_nat (length s))))
    | _ => custom (lit "cannot get length of " ++ display H v)
    end.

  (** src/binary/init/string_module.rs:281-329. *)
  Definition strings (l : list str) : expr := EList (map EString l).

  (** mod.rs:372-386 [lines]. *)
  Definition run_lines (args : list expr) : M expr :=
    v <- ev_arg args 0 ;;
    match v with
    | EString s => ret (strings (str_lines s))
    | _ => custom (lit "cannot get lines of non-string " ++ display H v)
    end.

  (** mod.rs:388-395 and sys_module.rs:22-25 [eval]: the second evaluation
      happens in a copy of the environment taken before the first one. *)
  Definition run_eval (args : list expr) : M expr :=
    e <- get_env ;;
    v <- ev_arg args 0 ;;
    in_env e (ev v).

  (** mod.rs:397-401 and sys_module.rs:27-29 [exec]. *)
  Definition run_exec (args : list expr) : M expr := v <- ev_arg args 0 ;; ev v.

  (** mod.rs:403-419 [unbind]. *)
  Definition run_unbind (args : list expr) : M expr :=
    check_exact (lit "unbind") args 1 ;;;
    a <- arg args 0 ;;
    match a with
    | ESymbol x | EString x =>
        e <- get_env ;; put_env (env_undefine x e) ;;; ret ENone
    | _ => custom (lit "expected string or symbol, but got " ++ debug H a)
    end.

  (** mod.rs:424-437 [report]. *)
  Definition run_report (args : list expr) : M expr :=
    v <- ev_arg args 0 ;;
    match v with
    | ENone => ret ENone
    | _ => print (display H v ++ NL) ;;; ret ENone
    end.

  (** ** src/binary/init/list_module.rs *)

  (** list_module.rs:50-64 [tail]. *)
  Definition run_tail (args : list expr) : M expr :=
    require_len 1 args (lit "tail requires exactly one argument") ;;;
    v <- ev_arg args 0 ;;
    match v with
    | EList l => ret (EList (tl l))
    | _ => custom (lit "tail requires a list as its argument")
    end.

  (** list_module.rs:66-84 [head]: [None] for a non-empty list. *)
  Definition run_head (args : list expr) : M expr :=
    require_len 1 args (lit "head requires exactly one argument") ;;;
    v <- ev_arg args 0 ;;
    match v with
    | EList [] => ret (EList [])
    | EList _ => ret ENone
    | _ => custom (lit "head requires a list as its argument")
    end.

  (** The shape shared by [chunk], [take], [drop], [split-at] and [nth]: two
      arguments, an integer and a list.  src/binary/init/list_module.rs:307-410. *)
  Definition int_and_list (name : str) (args : list expr)
      (k : Z -> list expr -> M expr) : M expr :=
    require_len 2 args (name ++ lit " requires exactly two arguments") ;;;
    n <- ev_arg args 0 ;; l <- ev_arg args 1 ;;
    match n with
    | EInteger n =>
        match l with
        | EList l => k n l
        | _ => custom (name ++ lit " requires a list as its second argument")
        end
    | _ => custom (name ++ lit " requires an integer as its first argument")
    end.

  (** list_module.rs:86-119 [chunk]. *)
  Definition run_chunk (args : list expr) : M expr :=
    int_and_list (lit "chunk") args
      (fun n l => ret (EList (chunk_go (as_usize n) l []))).

  (** list_module.rs:121-136 [cons]: the list is evaluated first. *)
  Definition run_cons (args : list expr) : M expr :=
    require_len 2 args (lit "cons requires exactly two arguments") ;;;
    l <- ev_arg args 1 ;;
    match l with
    | EList l => x <- ev_arg args 0 ;; ret (EList (x :: l))
    | _ => custom (lit "cons requires a list as its second argument")
    end.

  (** list_module.rs:138-153 [append]. *)
  Definition run_append (args : list expr) : M expr :=
    require_len 2 args (lit "append requires exactly two arguments") ;;;
    l <- ev_arg args 0 ;;
    match l with
    | EList l => x <- ev_arg args 1 ;; ret (EList (l ++ [x]))
    | _ => custom (lit "append requires a list as its first argument")
    end.

  (** list_module.rs:155-171 [len]: bytes of a text. *)
  Definition run_list_len (args : list expr) : M expr :=
    require_len 1 args (lit "len requires exactly one argument") ;;;
    v <- ev_arg args 0 ;;
    match v with
    | EList l => ret (EInteger (as_int (Z.of_nat (length l))))
    | EString s => ret (EInteger (as_int (Z.of_N (utf8_len s))))
    | EBytes b => ret (EInteger (as_int (Z.of_nat (length b))))
    | EMap m => ret (EInteger (as_int (Z.of_nat (length m))))
    | _ => custom (lit "len requires a list or string as its argument")
    end.

  (** list_module.rs:173-189 [rev]. *)
  Definition run_rev (args : list expr) : M expr :=
    require_len 1 args (lit "rev requires exactly one argument") ;;;
    v <- ev_arg args 0 ;;
    match v with
    | EList l => ret (EList (rev l))
    | EString s => ret (EString (rev s))
    | ESymbol s => ret (ESymbol (rev s))
    | EBytes b => ret (EBytes (rev b))
    | _ => custom (lit "rev requires a list or string as its argument")
    end.

  (** list_module.rs:191-206 [range]: both bounds are included. *)
  Definition run_range (args : list expr) : M expr :=
    require_len 2 args (lit "range requires exactly two arguments") ;;;
    a <- ev_arg args 0 ;; b <- ev_arg args 1 ;;
    match a, b with
    | EInteger a, EInteger b => ret (EList (map EInteger (zrange a (Z.to_nat (b + 1 - a)))))
    | _, _ => custom (lit "range requires two integers as its arguments")
    end.

  (** list_module.rs:208-227 [foldl]. *)
  Definition run_foldl (args : list expr) : M expr :=
    require_len 3 args (lit "foldl requires exactly three arguments") ;;;
    f <- ev_arg args 0 ;; acc <- ev_arg args 1 ;; l <- ev_arg args 2 ;;
    match l with
    | EList l => foldM (fun acc x => ev (EApply f [acc; x])) acc l
    | _ => custom (lit "foldl requires a list as its third argument")
    end.

  (** list_module.rs:229-248 [foldr]. *)
  Definition run_foldr (args : list expr) : M expr :=
    require_len 3 args (lit "foldr requires exactly three arguments") ;;;
    f <- ev_arg args 0 ;; acc <- ev_arg args 1 ;; l <- ev_arg args 2 ;;
    match l with
    | EList l => foldM (fun acc x => ev (EApply f [x; acc])) acc (rev l)
    | _ => custom (lit "foldr requires a list as its third argument")
    end.

  (** list_module.rs:250-269 [zip]. *)
  Definition run_zip (args : list expr) : M expr :=
    require_len 2 args (lit "zip requires exactly two arguments") ;;;
    a <- ev_arg args 0 ;; b <- ev_arg args 1 ;;
    match a, b with
    | EList a, EList b => ret (EList (map (fun p => EList [fst p; snd p]) (combine a b)))
    | _, _ => custom (lit "zip requires two lists as its arguments")
    end.

  (** list_module.rs:271-305 [unzip]. *)
  Definition run_unzip (args : list expr) : M expr :=
    require_len 1 args (lit "unzip requires exactly one argument") ;;;
    v <- ev_arg args 0 ;;
    let bad := custom (lit "unzip requires a list of pairs as its argument") in
    match v with
    | EList l =>
        match unzip_list l with
        | Some (a, b) => ret (EList [EList a; EList b])
        | None => bad
        end
    | _ => bad
    end.

  (** list_module.rs:307-330 [take]. *)
  Definition run_take (args : list expr) : M expr :=
    int_and_list (lit "take") args (fun n l => ret (EList (take_usize (as_usize n) l))).

  (** list_module.rs:332-355 [drop]. *)
  Definition run_drop (args : list expr) : M expr :=
    int_and_list (lit "drop") args (fun n l => ret (EList (skip_usize (as_usize n) l))).

  (** list_module.rs:357-383 [split_at]. *)
  Definition run_split_at (args : list expr) : M expr :=
    int_and_list (lit "split-at") args
      (fun n l => ret (EList [EList (take_usize (as_usize n) l);
                              EList (skip_usize (as_usize n) l)])).

  (** list_module.rs:385-410 [nth]: negative positions count from the end. *)
  Definition run_nth (args : list expr) : M expr :=
    int_and_list (lit "nth") args
      (fun n l =>
         let len := N.of_nat (length l) in
         let at_ (i : N) :=
           if (i <? len)%N
           then match nth_error l (N.to_nat i) with Some x => ret x | None => panics PIndex end
           else panics PIndex in
         if (n <? 0)%Z then
           m <- or_panic (arith (h_overflow H) (- n)) ;;
           if (as_usize m <=? len)%N then at_ (len - as_usize m)%N
           else match h_overflow H with
                | OvfPanic => panics PArith
                | OvfWrap => at_ (2 ^ 64 + len - as_usize m)%N
                end
         else at_ (as_usize n)).

  (** ** src/binary/init/fn_module.rs *)

  (** fn_module.rs:80-96 [apply]. *)
  Definition run_apply (args : list expr) : M expr :=
    require_len 2 args (lit "apply requires exactly two arguments") ;;;
    f <- ev_arg args 0 ;; l <- ev_arg args 1 ;;
    match l with
    | EList l => ev (EApply f l)
    | _ => custom (lit "invalid arguments to apply: " ++ display H l)
    end.

  (** fn_module.rs:59-71 [curry_builtin].  A vector of 2^56 expressions or more
      exceeds the maximal capacity; running out of memory for smaller counts
      is not modelled. *)
  Definition run_curry (args : list expr) : M expr :=
    if Nat.ltb (length args) 2 then custom (lit "curry requires at least two arguments")
    else
      f <- ev_arg args 0 ;; n <- ev_arg args 1 ;;
      match n with
      | EInteger n =>
          if (as_usize n <? 2 ^ 56)%N
          then e <- get_env ;; ret (curry_env f (N.to_nat (as_usize n)) e)
          else panics PCapacity
      | _ => ret f
      end.

  (** fn_module.rs:111-123 [conditional]. *)
  Definition run_cond (args : list expr) : M expr :=
    require_len 3 args (lit "conditional requires exactly three arguments") ;;;
    c <- ev_arg args 0 ;;
    if is_truthy c then ev_arg args 1 else ev_arg args 2.

  (** fn_module.rs:126-135, 159-168, 207-216. *)
  Definition check_upto (name : str) (args : list expr) (n : nat) : M unit :=
    if Nat.leb 1 (length args) && Nat.leb (length args) n then ret tt
    else if Nat.ltb n (length args) then custom (lit "too many arguments to function " ++ name)
         else custom (lit "too few arguments to function " ++ name).

  (** fn_module.rs:125-156 [map]. *)
  Definition run_map (args : list expr) : M expr :=
    check_upto (lit "map") args 2 ;;;
    match args with
    | [_] =>
        f <- parse_m (lit "f -> list -> for item in list {f item}") ;;
        ev (EApply f args)
    | _ =>
        l <- ev_arg args 1 ;;
        match l with
        | EList l =>
            f <- ev_arg args 0 ;;
            r <- mapM (fun x => ev (EApply f [x])) l ;;
            ret (EList r)
        | _ => custom (lit "invalid arguments to map: " ++ display H (EList args))
        end
    end.

  (** The text of fn_module.rs:173-181. *)
  Definition filter_source : str :=
    join [10%N]
      [ lit "f -> list -> {";
        lit "                    let result = [];";
        lit "                    for item in list {";
        lit "                        if (f item) {";
        lit "                            let result = result + [item];";
        lit "                        }";
        lit "                    }";
        lit "                    result";
        lit "                }" ].

  (** fn_module.rs:189-196: the items for which [f] is truthy. *)
  Fixpoint filterM (f : expr) (l : list expr) : M (list expr) :=
    match l with
    | [] => ret []
    | x :: r =>
        v <- ev (EApply f [x]) ;;
        r' <- filterM f r ;;
        ret (if is_truthy v then x :: r' else r')
    end.

  (** fn_module.rs:158-204 [filter]. *)
  Definition run_filter (args : list expr) : M expr :=
    check_upto (lit "filter") args 2 ;;;
    match args with
    | [_] => f <- parse_m filter_source ;; ev (EApply f args)
    | _ =>
        l <- ev_arg args 1 ;;
        match l with
        | EList l => f <- ev_arg args 0 ;; r <- filterM f l ;; ret (EList r)
        | _ => custom (lit "invalid arguments to filter: " ++ display H (EList args))
        end
    end.

  (** fn_module.rs:206-240 [reduce]. *)
  Definition run_reduce (args : list expr) : M expr :=
    check_upto (lit "reduce") args 3 ;;;
    if Nat.ltb (length args) 3 then
      f <- parse_m (lit "f -> acc -> list -> { for item in list { let acc = f acc item } acc }") ;;
      ev (EApply f args)
    else
      l <- ev_arg args 2 ;;
      match l with
      | EList l =>
          f <- ev_arg args 0 ;; acc <- ev_arg args 1 ;;
          foldM (fun acc x => ev (EApply f [acc; x])) acc l
      | _ => custom (lit "invalid arguments to reduce: " ++ display H (EList args))
      end.

  (** ** src/binary/init/dict_module.rs *)

  (** The shape shared by the functions of the module: a fixed number of
      arguments, all evaluated, in order.  src/binary/init/mod.rs:456-470. *)
  Definition exact1 (name : str) (args : list expr) (k : expr -> M expr) : M expr :=
    check_exact name args 1 ;;; a <- ev_arg args 0 ;; k a.
  (** src/binary/init/mod.rs:456-470. *)
  Definition exact2 (name : str) (args : list expr) (k : expr -> expr -> M expr) : M expr :=
    check_exact name args 2 ;;; a <- ev_arg args 0 ;; b <- ev_arg args 1 ;; k a b.
  (** src/binary/init/mod.rs:456-470. *)
  Definition exact3 (name : str) (args : list expr)
      (k : expr -> expr -> expr -> M expr) : M expr :=
    check_exact name args 3 ;;;
    a <- ev_arg args 0 ;; b <- ev_arg args 1 ;; c <- ev_arg args 2 ;; k a b c.

  (** dict_module.rs:27-31 [flatten]. *)
  Definition run_flatten (args : list expr) : M expr :=
    exact1 (lit "flatten") args (fun v => ret (EList (dict_flatten v))).

  (** [iter().enumerate()].  src/binary/init/mod.rs:298-301. *)
  Definition enumerate (l : list expr) : list (Z * expr) :=
    combine (map (fun i => as_int (Z.of_nat i)) (seq 0 (length l))) l.

  (** dict_module.rs:33-41 [items]. *)
  Definition run_items (args : list expr) : M expr :=
    exact1 (lit "items") args
      (fun v => ret (match v with
                     | EMap m => EList (map (fun kv => EList [EString (fst kv); snd kv]) m)
                     | EList l => EList (map (fun p => EList [EInteger (fst p); snd p]) (enumerate l))
                     | _ => ENone
                     end)).

  (** dict_module.rs:43-50 [keys]. *)
  Definition run_dict_keys (args : list expr) : M expr :=
    exact1 (lit "keys") args
      (fun v => ret (match v with EMap m => strings (map fst m) | _ => ENone end)).

  (** dict_module.rs:52-59 [values]. *)
  Definition run_values (args : list expr) : M expr :=
    exact1 (lit "values") args
      (fun v => ret (match v with EMap m => EList (map snd m) | _ => ENone end)).

  (** dict_module.rs:61-73 [insert]. *)
  Definition run_dict_insert (args : list expr) : M expr :=
    exact3 (lit "insert") args
      (fun v k x => ret (match v with
                         | EMap m => EMap (bm_insert (display H k) x m)
                         | _ => ENone
                         end)).

  (** dict_module.rs:75-86 [remove]. *)
  Definition run_remove (args : list expr) : M expr :=
    exact2 (lit "remove") args
      (fun v k => ret (match v with EMap m => EMap (bm_remove (display H k) m) | _ => ENone end)).

  (** dict_module.rs:88-96 [has?]. *)
  Definition run_has (args : list expr) : M expr :=
    exact2 (lit "has?") args
      (fun v k => ret (match v with EMap m => EBoolean (bm_mem (display H k) m) | _ => ENone end)).

  (** dict_module.rs:98-108 [len]. *)
  Definition run_dict_len (args : list expr) : M expr :=
    exact1 (lit "len") args
      (fun v => ret (match v with
                     | EMap m => EInteger (as_int (Z.of_nat (length m)))
                     | EList l => EInteger (as_int (Z.of_nat (length l)))
                     | EString s => EInteger (as_int (Z.of_N (utf8_len s)))
                     | EBytes b => EInteger (as_int (Z.of_nat (length b)))
                     | _ => ENone
                     end)).

  (** dict_module.rs:114-124: pairs inserted in order, other items ignored. *)
  Fixpoint from_items (l : list expr) (m : bmap expr) : bmap expr :=
    match l with
    | [] => m
    | EList [k; v] :: r => from_items r (bm_insert (display H k) v m)
    | _ :: r => from_items r m
    end.

  (** dict_module.rs:110-127 [from-items]. *)
  Definition run_from_items (args : list expr) : M expr :=
    exact1 (lit "from-items") args
      (fun v => ret (match v with EList l => EMap (from_items l []) | _ => ENone end)).

  (** dict_module.rs:129-143 [union]. *)
  Definition run_union (args : list expr) : M expr :=
    exact2 (lit "union") args
      (fun a b => ret (match a, b with
                       | EMap a, EMap b =>
                           EMap (fold_left (fun m kv => bm_insert (fst kv) (snd kv) m) b a)
                       | _, _ => ENone
                       end)).

  (** dict_module.rs:145-161 [intersect]. *)
  Definition run_intersect (args : list expr) : M expr :=
    exact2 (lit "intersect") args
      (fun a b => ret (match a, b with
                       | EMap a, EMap b =>
                           EMap (fold_left (fun m kv => if bm_mem (fst kv) b
                                                        then bm_insert (fst kv) (snd kv) m
                                                        else m) a [])
                       | _, _ => ENone
                       end)).

  (** dict_module.rs:163-177 [difference]. *)
  Definition run_difference (args : list expr) : M expr :=
    exact2 (lit "difference") args
      (fun a b => ret (match a, b with
                       | EMap a, EMap b =>
                           EMap (fold_left (fun m kv => bm_remove (fst kv) m) b a)
                       | _, _ => ENone
                       end)).

  (** ** src/binary/init/string_module.rs *)

  (** string_module.rs:32-35 [to-string]. *)
  Definition run_to_string (args : list expr) : M expr :=
    exact1 (lit "to-string") args (fun v => ret (EString (display H v))).

  (** string_module.rs:37-75 [caesar]. *)
  Definition run_caesar (args : list expr) : M expr :=
    check_one_or_two (lit "caesar-cipher") args ;;;
    v <- ev_arg args 0 ;;
    shift <- (if Nat.ltb 1 (length args) then ev_arg args 1 else ret (EInteger 13)) ;;
    match v, shift with
    | ESymbol s, EInteger i | EString s, EInteger i =>
        r <- or_panic (caesar (h_overflow H) i s) ;; ret (EString r)
    | _, _ => ret ENone
    end.

  (** string_module.rs:79-105 [get-width]: counted in an [i64]. *)
  Definition run_get_width (args : list expr) : M expr :=
    exact1 (lit "get-width") args
      (fun v => ret (EInteger (match v with
                               | ESymbol s | EString s => as_int (Z.of_N (get_width s))
                               | _ => 0
                               end))).

  (** string_module.rs:107-117 and the other functions of one text that do not
      check the number of arguments. *)
  Definition on_text (args : list expr) (k : str -> expr) : M expr :=
    v <- ev_arg args 0 ;;
    match v with
    | ESymbol s | EString s => ret (k s)
    | _ => custom (lit "expected string, got value " ++ display H v)
    end.

  (** string_module.rs:5-28 [split]. *)
  Definition run_split_inner (args : list expr) : M expr :=
    (if Nat.eqb (length args) 2 then ret tt
     else custom (lit "expected 2 arguments, got " ++ n_str (N.of_nat (length args)))) ;;;
    a <- ev_arg args 0 ;; b <- ev_arg args 1 ;;
    match a, b with
    | ESymbol x, ESymbol y | ESymbol x, EString y
    | EString x, ESymbol y | EString x, EString y => ret (strings (str_split x y))
    | _, _ =>
        custom (lit "expected string, got values " ++ display H a ++ lit " and " ++ display H b)
    end.

  (** string_module.rs:155-160 [split]: curried on every call. *)
  Definition run_split (args : list expr) : M expr :=
    e <- get_env ;;
    f <- ev (curry_env (EBuiltin (Bi SSplitInner [])) 2 e) ;;
    ev (EApply f args).

  (** string_module.rs:262-279 [join]. *)
  Definition run_join (args : list expr) : M expr :=
    exact2 (lit "join") args
      (fun v sep => ret (match v with
                         | EList l => EString (join (display H sep) (map (display H) l))
                         | _ => ENone
                         end)).

  (** string_module.rs:281-292, 318-342: [lines], [words], [paragraphs]. *)
  Definition run_pieces (name : str) (f : str -> list str) (args : list expr) : M expr :=
    exact1 name args
      (fun v => ret (match v with ESymbol s | EString s => strings (f s) | _ => ENone end)).

  (** string_module.rs:294-316 [chars]. *)
  Definition run_chars (args : list expr) : M expr :=
    exact1 (lit "chars") args
      (fun v => match v with
                | ESymbol s | EString s => ret (strings (map (fun c => [c]) s))
                | _ => custom (lit "cannot get characters of non-string " ++ display H v)
                end).

  (** string_module.rs:344-357 [split-at]. *)
  Definition run_string_split_at (args : list expr) : M expr :=
    exact2 (lit "split-at") args
      (fun v i => match v, i with
                  | ESymbol s, EInteger i | EString s, EInteger i =>
                      match split_bytes (as_usize i) s with
                      | Some (a, b) => ret (strings [a; b])
                      | None => panics PBoundary
                      end
                  | _, _ => ret ENone
                  end).

  (** string_module.rs:395-406 [replace]. *)
  Definition run_replace (args : list expr) : M expr :=
    exact3 (lit "replace") args
      (fun v old new => ret (match v with
                             | ESymbol s | EString s =>
                                 EString (str_replace (display H old) (display H new) s)
                             | _ => ENone
                             end)).

  (** string_module.rs:408-442: [starts-with?], [ends-with?], [contains?]. *)
  Definition run_test (name : str) (f : str -> str -> bool) (args : list expr) : M expr :=
    exact2 name args
      (fun v p => ret (match v with
                       | ESymbol s | EString s => EBoolean (f (display H p) s)
                       | _ => ENone
                       end)).

  (** ** src/binary/init/math_module.rs *)

  (** math_module.rs:17-25, 36-43, 66-73: two integer arguments; the second is
      only evaluated when the first is an integer. *)
  Definition two_ints (name : str) (args : list expr) (k : Z -> Z -> M expr) : M expr :=
    let bad v := custom (lit "invalid " ++ name ++ lit " argument " ++ display H v) in
    check_exact name args 2 ;;;
    a <- ev_arg args 0 ;;
    match a with
    | EInteger a =>
        b <- ev_arg args 1 ;;
        match b with
        | EInteger b => k a b
        | _ => bad b
        end
    | _ => bad a
    end.

  (** The amount of a shift: overflow unless below 64.
      src/binary/init/math_module.rs:30,45,60,75. *)
  Definition shift_amount (b : Z) : M Z :=
    if ((0 <=? b) && (b <? 64))%Z then ret b
    else match h_overflow H with
         | OvfPanic => panics PArith
         | OvfWrap => ret (b mod 64)%Z
         end.

  (** math_module.rs:14-31 [l-rsh]: shift of the unsigned value. *)
  Definition run_lrsh (args : list expr) : M expr :=
    two_ints (lit "l-rsh") args
      (fun a b => n <- shift_amount b ;;
                  ret (EInteger (wrap64 (Z.shiftr (a mod 2 ^ 64) n)))).

  (** math_module.rs:33-61 [a-rsh], [rsh]. *)
  Definition run_arsh (args : list expr) : M expr :=
    two_ints (lit "a-rsh") args
      (fun a b => n <- shift_amount b ;; ret (EInteger (Z.shiftr a n))).

  (** math_module.rs:63-76 [lsh]: bits shifted out are lost. *)
  Definition run_lsh (args : list expr) : M expr :=
    two_ints (lit "lsh") args
      (fun a b => n <- shift_amount b ;; ret (EInteger (wrap64 (Z.shiftl a n)))).

  (** math_module.rs:82-97 and 110-125: accumulation of integers and floats;
      lists are entered one level, and their items evaluated again. *)
  Definition accumulate (name : str) (fi : Z -> Z -> Z) (ff : f64 -> f64 -> f64)
      (init : Z * f64) (args : list expr) : M (Z * f64) :=
    let bad {A} v : M A :=
      custom (lit "invalid " ++ name ++ lit " argument " ++ debug H v) in
    let int_step (acc : Z * f64) i :=
      z <- or_panic (arith (h_overflow H) (fi (fst acc) i)) ;; ret (z, snd acc) in
    foldM
      (fun acc a =>
         v <- ev a ;;
         match v with
         | EInteger i => int_step acc i
         | EFloat f => ret (fst acc, ff (snd acc) f)
         | EList l =>
             foldM
               (fun acc x =>
                  w <- ev x ;;
                  match w with
                  | EInteger i => int_step acc i
                  | EFloat f => ret (fst acc, ff (snd acc) f)
                  | _ => bad w
                  end)
               acc l
         | _ => bad v
         end)
      init args.

  (** src/binary/init/math_module.rs:81,99. *)
  Definition f64_zero : f64 := S754_zero false.
  (** src/binary/init/math_module.rs:108,127. *)
  Definition f64_one : f64 := f64_of_int 1.

  (** math_module.rs:79-104 [sum]. *)
  Definition run_sum (args : list expr) : M expr :=
    acc <- accumulate (lit "sum") Z.add f64_add (0%Z, f64_zero) args ;;
    ret (if f64_eqb (snd acc) f64_zero then EInteger (fst acc)
         else EFloat (f64_add (f64_of_int (fst acc)) (snd acc))).

  (** math_module.rs:106-132 [product]. *)
  Definition run_product (args : list expr) : M expr :=
    acc <- accumulate (lit "product") Z.mul f64_mul (1%Z, f64_one) args ;;
    ret (if f64_eqb (snd acc) f64_one then EInteger (fst acc)
         else EFloat (f64_mul (f64_of_int (fst acc)) (snd acc))).

  (** math_module.rs:141-144: [result *= n] for [n] in [1..=i]. *)
  Fixpoint fact_loop (ns : list Z) (acc : Z) : Z + panic :=
    match ns with
    | [] => inl acc
    | n :: r =>
        match arith (h_overflow H) (acc * n) with
        | inl acc' => fact_loop r acc'
        | inr p => inr p
        end
    end.

  (** [f64::floor], [ceil], [round] (halves away from zero) and [trunc] of
      [m / d] with the sign [neg], without the sign.
      src/binary/init/math_module.rs:172,181,190,199. *)
  Definition rounded_magnitude (fn : str) (neg : bool) (m d : Z) : Z :=
    let down := (m / d)%Z in
    let up := (- (- m / d))%Z in
    if str_eqb fn (lit "floor") then if neg then up else down
    else if str_eqb fn (lit "ceil") then if neg then down else up
    else if str_eqb fn (lit "round") then ((2 * m + d) / (2 * d))%Z
    else down.

  (** The same on floats; a zero keeps the sign.
      src/binary/init/math_module.rs:172,181,190,199. *)
  Definition f64_rounded (fn : str) (f : f64) : f64 :=
    match f with
    | S754_finite neg m e =>
        if (0 <=? e)%Z then f
        else match rounded_magnitude fn neg (Z.pos m) (2 ^ (- e)) with
             | Zpos a => binary_normalize 53 1024 (if neg then Zneg a else Zpos a) 0 neg
             | _ => S754_zero neg
             end
    | _ => f
    end.

  (** [std::f64::consts::PI].  src/binary/init/math_module.rs:8. *)
  Definition f64_pi : f64 := S754_finite false 7074237752028440 (-51).

  (** [f64::sqrt], which Rust promises to be the correctly rounded root.
      src/binary/init/math_module.rs:152,387. *)
  Definition f64_sqrt : f64 -> f64 := SFsqrt 53 1024.

  (** [f64::log], which Rust computes as [self.ln() / base.ln()]; the natural
      logarithm is the host's.
      src/binary/init/math_module.rs:346,361,375. *)
  Definition f64_log (x base : f64) : f64 :=
    f64_div (h_libm H (lit "ln") [x]) (h_libm H (lit "ln") [base]).

  (** math_module.rs:152: the approximation of factorials of floats, with the
      host's [ln] and [exp].  The products and sums group to the left. *)
  Definition f64_fact (f : f64) : f64 :=
    let z := f64_of_int in
    let l := h_libm H (lit "ln") [f] in
    let main := f64_mul (h_libm H (lit "exp") [f64_mul l l])
                  (f64_sqrt (f64_mul (f64_mul (z 2%Z) f64_pi) f)) in
    let s1 := f64_add (z 1%Z) (f64_div (z 1%Z) (f64_mul (z 12%Z) f)) in
    let s2 := f64_add s1 (f64_div (z 1%Z) (f64_mul (f64_mul (z 288%Z) f) f)) in
    let s3 := f64_sub s2 (f64_div (z 139%Z) (f64_mul (f64_mul (f64_mul (z 51840%Z) f) f) f)) in
    let s4 := f64_sub s3
                (f64_div (z 571%Z) (f64_mul (f64_mul (f64_mul (f64_mul (z 2488320%Z) f) f) f) f)) in
    f64_rounded (lit "round") (f64_mul main s4).

  (** math_module.rs:134-157 [fact]. *)
  Definition run_fact (args : list expr) : M expr :=
    exact1 (lit "fact") args
      (fun v =>
         let negative :=
           custom (lit "cannot take the factorial of a negative number") in
         match v with
         | EInteger i =>
             if (i <? 0)%Z then negative
             else r <- or_panic (fact_loop (zrange 1 (Z.to_nat i)) 1) ;; ret (EInteger r)
         | EFloat f =>
             if SFltb f f64_zero then negative
             else ret (EFloat (f64_fact f))
         | _ => custom (lit "invalid fact argument " ++ debug H v)
         end).

  (** math_module.rs:159-166 [abs]. *)
  Definition run_abs (args : list expr) : M expr :=
    exact1 (lit "abs") args
      (fun v => match v with
                | EInteger i => r <- or_panic (arith (h_overflow H) (Z.abs i)) ;; ret (EInteger r)
                | EFloat f => ret (EFloat (SFabs f))
                | _ => custom (lit "invalid abs argument " ++ debug H v)
                end).

  (** math_module.rs:168-202: [floor], [ceil], [round], [trunc] keep integers. *)
  Definition run_round (fn : str) (args : list expr) : M expr :=
    exact1 fn args
      (fun v => match v with
                | EInteger i => ret (EInteger i)
                | EFloat f => ret (EFloat (f64_rounded fn f))
                | _ => custom (lit "invalid " ++ fn ++ lit " argument " ++ debug H v)
                end).

  (** The functions of one number: [sqrt], the logarithms, the functions that
      multiply by pi first, and those that are computed by the host.
      src/binary/init/math_module.rs:207-208,261-262,270-271,279-280,327,361,375,387,399. *)
  Definition f64_call (fn : str) (x : f64) : f64 :=
    if str_eqb fn (lit "sqrt") then f64_sqrt x
    else if str_eqb fn (lit "log2") then f64_log x (f64_of_int 2)
    else if str_eqb fn (lit "log10") then f64_log x (f64_of_int 10)
    else if str_eqb fn (lit "sinpi") then h_libm H (lit "sin") [f64_mul x f64_pi]
    else if str_eqb fn (lit "cospi") then h_libm H (lit "cos") [f64_mul x f64_pi]
    else if str_eqb fn (lit "tanpi") then h_libm H (lit "tan") [f64_mul x f64_pi]
    else h_libm H fn [x].

  (** math_module.rs:204-283, 318-328, 350-475: functions of one number. *)
  Definition run_float (fn what : str) (dbg : bool) (args : list expr) : M expr :=
    exact1 fn args
      (fun v => match v with
                | EInteger i => ret (EFloat (f64_call fn (f64_of_int i)))
                | EFloat f => ret (EFloat (f64_call fn f))
                | _ => custom (lit "invalid " ++ what ++ lit " argument "
                               ++ if dbg then debug H v else display H v)
                end).

  (** math_module.rs:331-347 [log]. *)
  Definition run_log (args : list expr) : M expr :=
    check_exact (lit "log") args 2 ;;;
    b <- ev_arg args 0 ;;
    base <- (match b with
             | EFloat f => ret f
             | EInteger i => ret (f64_of_int i)
             | _ => custom (lit "invalid log base " ++ display H b)
             end) ;;
    v <- ev_arg args 1 ;;
    x <- (match v with
          | EFloat f => ret f
          | EInteger i => ret (f64_of_int i)
          | _ => custom (lit "invalid log argument " ++ display H v)
          end) ;;
    ret (EFloat (f64_log x base)).

  (** math_module.rs:285-301 [isodd], [iseven]: the remainder has the sign of
      the number. *)
  Definition run_parity (name what : str) (r : Z) (args : list expr) : M expr :=
    exact1 name args
      (fun v => match v with
                | EInteger i => ret (EBoolean (Z.rem i 2 =? r)%Z)
                | EFloat f => ret (EBoolean (Z.rem (f64_to_int f) 2 =? r)%Z)
                | _ => custom (lit "invalid " ++ what ++ lit " argument " ++ display H v)
                end).

  (** math_module.rs:303-315 [pow].  [checked_pow] fails exactly when the
      result is out of range: its intermediate squares divide the result. *)
  Definition run_pow (args : list expr) : M expr :=
    exact2 (lit "pow") args
      (fun a b => match a, b with
                  | EFloat x, EFloat y => ret (EFloat (h_libm H (lit "powf") [x; y]))
                  | EFloat x, EInteger y => ret (EFloat (h_libm H (lit "powf") [x; f64_of_int y]))
                  | EInteger x, EFloat y => ret (EFloat (h_libm H (lit "powf") [f64_of_int x; y]))
                  | EInteger x, EInteger y =>
                      let r := (x ^ (y mod 2 ^ 32))%Z in
                      if in_i64 r then ret (EInteger r)
                      else custom (lit "overflow when raising int " ++ z_str x
                                   ++ lit " to the power " ++ z_str y)
                  | _, _ => custom (lit "cannot raise " ++ display H a
                                    ++ lit " to the power " ++ display H b)
                  end).

  (** ** src/binary/init/err_module.rs *)

  (** err_module.rs:28-32: the value given to the handler. *)
  Definition error_record (msg : str) (code : Z) (e : expr) : expr :=
    EMap (bm_of_list [ (lit "message", EString msg);
                       (lit "code", EInteger code);
                       (lit "expression", EQuote e) ]).

  (** err_module.rs:13-38 [try_builtin]. *)
  Definition run_try (args : list expr) : M expr :=
    require_len 2 args
      (lit "try requires exactly two arguments: an expression to try to evaluate, and an error handler that takes an error as an argument") ;;;
    a <- arg args 0 ;;
    h <- arg args 1 ;;
    catch (ev a)
      (fun err =>
         msg <- or_panic (error_display H err) ;;
         ev (EApply h [error_record msg (error_code err) a])).

  (** ** src/binary/init/log_module.rs *)

  (** log_module.rs:17-22 [is_log_level_enabled]. *)
  Definition log_enabled (current level : Z) : bool := ((level <=? 0) || (level <=? current))%Z.

  (** log_module.rs:35-44 [set-level]. *)
  Definition run_set_level (args : list expr) : M expr :=
    exact1 (lit "set-level") args
      (fun v => match v with
                | EInteger l => put_log l ;;; ret ENone
                | _ => custom (lit "expected an integer, found " ++ display H v)
                end).

  (** log_module.rs:46-49 [get-level]. *)
  Definition run_get_level (args : list expr) : M expr :=
    check_exact (lit "get-level") args 0 ;;; l <- get_log ;; ret (EInteger l).

  (** log_module.rs:51-55 [disable]. *)
  Definition run_disable (args : list expr) : M expr :=
    check_exact (lit "disable") args 0 ;;; put_log 0 ;;; ret ENone.

  (** log_module.rs:57-65 [enabled?]. *)
  Definition run_enabled (args : list expr) : M expr :=
    exact1 (lit "enabled?") args
      (fun v => match v with
                | EInteger l => c <- get_log ;; ret (EBoolean (log_enabled c l))
                | _ => custom (lit "expected an integer, found " ++ display H v)
                end).

  (** log_module.rs:80-86: the pieces of a text of several lines. *)
  Fixpoint log_pieces (prefix : str) (lines : list str) : M unit :=
    match lines with
    | [] => ret tt
    | [l] => match l with [] => ret tt | _ => print (prefix ++ l) end
    | l :: r => print (prefix ++ l ++ NL) ;;; log_pieces prefix r
    end.

  (** log_module.rs:75-99: the arguments. *)
  Fixpoint log_args (prefix : str) (last_was_newline : bool) (args : list expr) : M unit :=
    match args with
    | [] => ret tt
    | a :: r =>
        v <- ev a ;;
        let x := display H v in
        (match split_nl x with
         | _ :: _ :: _ => log_pieces prefix (split_nl x)
         | _ =>
             (if last_was_newline then print prefix else ret tt) ;;;
             match r with
             | [] => print (x ++ NL)
             | _ => print (x ++ lit " ")
             end
         end) ;;;
        log_args prefix (ends_with NL x) r
    end.

  (** log_module.rs:67-250 [info], [warn], [debug], [error], [trace]. *)
  Definition run_log_at (level : Z) (color name : str) (args : list expr) : M expr :=
    c <- get_log ;;
    if log_enabled c level
    then log_args (ESC ++ lit "[" ++ color ++ lit "m[" ++ name ++ lit "]" ++ ESC ++ lit "[m ")
           true args ;;; ret ENone
    else ret ENone.

  (** ** src/binary/init/sys_module.rs *)

  (** sys_module.rs:8-15 [parse]. *)
  Definition run_parse (args : list expr) : M expr :=
    exact1 (lit "parse") args
      (fun v => catch (parse_m (display H v)) (fun _ => ret ENone)).

  (** sys_module.rs:17-20 [quote]. *)
  Definition run_quote (args : list expr) : M expr :=
    check_exact (lit "quote") args 1 ;;; a <- arg args 0 ;; ret (EQuote a).

  (** sys_module.rs:67-69 [cwd]. *)
  Definition run_cwd : M expr := e <- get_env ;; ret (EString (env_get_cwd e)).

  (** sys_module.rs:96-102 [set]: neither argument is evaluated. *)
  Definition run_set (args : list expr) : M expr :=
    check_exact (lit "set") args 2 ;;;
    n <- arg args 0 ;; v <- arg args 1 ;;
    define (display H n) v ;;; ret ENone.

  (** sys_module.rs:104-109 [unset]. *)
  Definition run_unset (args : list expr) : M expr :=
    check_exact (lit "unset") args 1 ;;;
    n <- arg args 0 ;;
    e <- get_env ;; put_env (env_undefine (display H n) e) ;;; ret ENone.

  (** sys_module.rs:111-115 [defined?]. *)
  Definition run_defined (args : list expr) : M expr :=
    check_exact (lit "defined?") args 1 ;;;
    n <- arg args 0 ;;
    e <- get_env ;; ret (EBoolean (env_is_defined (display H n) e)).

  (** The current directory joined with the text of the evaluated argument;
      the current directory is read first.  src/binary/init/sys_module.rs:35-36. *)
  Definition path_arg (args : list expr) (i : nat) (cwd : str) : M str :=
    v <- ev_arg args i ;; ret (path_join cwd (display H v)).

  (** src/binary/init/os_module.rs:41-52. *)
  Definition io_kind (rs : response) : str :=
    match rs with RsErr k _ _ => k | _ => lit "Other" end.
  (** src/binary/init/os_module.rs:41-52. *)
  Definition io_msg (rs : response) : str :=
    match rs with RsErr _ m _ => m | _ => [] end.
  (** src/binary/init/fs_module.rs:291. *)
  Definition io_dbg (rs : response) : str :=
    match rs with RsErr _ _ d => d | _ => [] end.

  (** [std::fs::read_to_string]: [inr] is the text of the error.
      src/binary/init/sys_module.rs:40. *)
  Definition read_to_string (p : str) : M (str + str) :=
    rs <- ask H (RqRead p) ;;
    ret (match rs with
         | RsOutput b => match from_utf8 b with
                         | Some s => inl s
                         | None => inr (lit "stream did not contain valid UTF-8")
                         end
         | _ => inr (io_msg rs)
         end).

  (** sys_module.rs:32-50 [include] and 72-90 [import]: the parsed file is
      evaluated by [run]. *)
  Definition run_file (name : str) (args : list expr) (run : expr -> M expr) : M expr :=
    check_exact name args 1 ;;;
    e <- get_env ;;
    p <- path_arg args 0 (env_get_cwd e) ;;
    rs <- ask H (RqCanon p) ;;
    match rs with
    | RsPath c =>
        t <- read_to_string c ;;
        match t with
        | inl text =>
            x <- catch (parse_m text) (fun _ => custom (lit "could not parse file " ++ c)) ;;
            run x
        | inr m => custom (lit "could not read file " ++ c ++ lit ": " ++ m)
        end
    | _ => custom (lit "could not canonicalize path " ++ p)
    end.

  (** src/binary/init/sys_module.rs:32-50. *)
  Definition run_include (args : list expr) : M expr := run_file (lit "include") args ev.

  (** src/binary/init/sys_module.rs:72-90. *)
  Definition run_import (args : list expr) : M expr :=
    run_file (lit "import") args (fun x => e <- get_env ;; in_env e (ev x)).

  (** sys_module.rs:53-64 [cd]: only the variable changes. *)
  Definition run_sys_cd (args : list expr) : M expr :=
    check_exact (lit "cd") args 1 ;;;
    e <- get_env ;;
    p <- path_arg args 0 (env_get_cwd e) ;;
    rs <- ask H (RqCanon p) ;;
    match rs with
    | RsPath c => e' <- get_env ;; put_env (env_set_cwd c e') ;;; ret ENone
    | _ => custom (lit "could not canonicalize path " ++ p)
    end.

  (** ** src/binary/init/os_module.rs *)

  (** os_module.rs:34-81 [cd]. *)
  Definition run_cd (args : list expr) : M expr :=
    check_exact (lit "cd") args 1 ;;;
    v <- ev_arg args 0 ;;
    e <- get_env ;;
    let path := match v with ESymbol p | EString p => p | _ => display H v end in
    let abs := path_join (env_get_cwd e) path in
    let dbg := h_path_debug H in
    rs <- ask H (RqCanon abs) ;;
    match rs with
    | RsPath c =>
        rs2 <- ask H (RqChdir c) ;;
        match rs2 with
        | RsErr k m _ =>
            custom (if str_eqb k (lit "PermissionDenied")
                    then lit "you don't have permission to read directory " ++ dbg c
                    else if str_eqb k (lit "NotADirectory")
                    then dbg c ++ lit " is not a directory"
                    else lit "could not change directory to " ++ dbg c ++ NL
                         ++ lit "  reason: " ++ m)
        | _ => put_env (env_set_cwd c e) ;;; ret ENone
        end
    | _ =>
        custom (if str_eqb (io_kind rs) (lit "NotFound")
                then lit "the directory " ++ dbg abs ++ lit " does not exist"
                else if str_eqb (io_kind rs) (lit "NotADirectory")
                then lit "a path segment in " ++ dbg abs ++ lit " is not a directory"
                else lit "could not change to directory " ++ dbg abs ++ NL
                     ++ lit "  reason: " ++ io_msg rs)
    end.

  (** [n as i32].  src/binary/init/os_module.rs:19. *)
  Definition as_i32 (n : Z) : Z := ((n + 2 ^ 31) mod 2 ^ 32 - 2 ^ 31)%Z.

  (** os_module.rs:13-28 [exit]. *)
  Definition run_exit (args : list expr) : M expr :=
    match args with
    | [] => exits 0
    | a :: _ =>
        v <- ev a ;;
        match v with
        | EInteger n => exits (as_i32 n)
        | _ => custom (lit "expected integer but got `" ++ debug H a ++ lit "`")
        end
    end.

  (** ** src/binary/init/fs_module.rs *)

  (** src/binary/init/fs_module.rs:113-164. *)
  Definition unlines (l : list str) : str := flat_map (fun x => x ++ NL) l.

  (** fs_module.rs:113-164 [head], [tail]: [pick] is the identity or the
      reversal of the list of lines. *)
  Definition run_fs_lines (name : str) (pick : list str -> list str) (args : list expr) : M expr :=
    check_exact name args 2 ;;;
    e <- get_env ;;
    file <- ev_arg args 0 ;;
    n <- ev_arg args 1 ;;
    match n with
    | EInteger n =>
        t <- read_to_string (path_join (env_get_cwd e) (display H file)) ;;
        match t with
        | inl s =>
            let ls := pick (str_lines s) in
            ret (EString (unlines (take_usize (Z.to_N n) ls)))
        | inr _ => custom (lit "could not read file " ++ display H file)
        end
    | _ => custom (lit "second argument to " ++ name ++ lit " must be an integer")
    end.

  (** fs_module.rs:165-175 [canon]. *)
  Definition run_canon (args : list expr) : M expr :=
    check_exact (lit "canon") args 1 ;;;
    e <- get_env ;;
    p <- path_arg args 0 (env_get_cwd e) ;;
    rs <- ask H (RqCanon p) ;;
    match rs with
    | RsPath c => ret (EString c)
    | _ => custom (lit "could not canonicalize path " ++ p)
    end.

  (** fs_module.rs:176-197 [mkdir], [rmdir]. *)
  Definition run_dir (name verb tail_ : str) (args : list expr) : M expr :=
    check_exact name args 1 ;;;
    e <- get_env ;;
    p <- path_arg args 0 (env_get_cwd e) ;;
    rs <- ask H (RqFsOp name [p]) ;;
    match rs with
    | RsErr _ _ _ => custom (lit "could not " ++ verb ++ lit " directory " ++ p ++ tail_)
    | _ => ret ENone
    end.

  (** fs_module.rs:198-217 [mv], [cp]. *)
  Definition run_two_paths (name : str) (args : list expr) : M expr :=
    check_exact name args 2 ;;;
    e <- get_env ;;
    src <- path_arg args 0 (env_get_cwd e) ;;
    dst <- path_arg args 1 (env_get_cwd e) ;;
    rs <- ask H (RqFsOp name [src; dst]) ;;
    match rs with
    | RsErr _ m _ => custom m
    | _ => ret ENone
    end.

  (** fs_module.rs:218-226 [rm]. *)
  Definition run_rm (args : list expr) : M expr :=
    check_exact (lit "rm") args 1 ;;;
    e <- get_env ;;
    p <- path_arg args 0 (env_get_cwd e) ;;
    rs <- ask H (RqFsOp (lit "rm") [p]) ;;
    match rs with
    | RsErr _ m _ => custom m
    | _ => ret ENone
    end.

  (** fs_module.rs:235-254 [exists?], [is-dir?], [is-file?]. *)
  Definition run_fs_test (name : str) (args : list expr) : M expr :=
    check_exact name args 1 ;;;
    e <- get_env ;;
    p <- path_arg args 0 (env_get_cwd e) ;;
    rs <- ask H (RqTest name p) ;;
    ret (EBoolean (match rs with RsBool b => b | _ => false end)).

  (** fs_module.rs:256-271 [read]: the file is read a second time when the
      first attempt does not give a text. *)
  Definition run_read (args : list expr) : M expr :=
    check_exact (lit "read") args 1 ;;;
    e <- get_env ;;
    file <- ev_arg args 0 ;;
    let p := path_join (env_get_cwd e) (display H file) in
    t <- read_to_string p ;;
    match t with
    | inl s => ret (EString s)
    | inr _ =>
        rs <- ask H (RqRead p) ;;
        match rs with
        | RsOutput b => ret (EBytes b)
        | _ => custom (lit "could not read file " ++ display H file)
        end
    end.

  (** fs_module.rs:273-293 [write]. *)
  Definition run_write (args : list expr) : M expr :=
    check_exact (lit "write") args 2 ;;;
    e <- get_env ;;
    file <- ev_arg args 0 ;;
    v <- ev_arg args 1 ;;
    rs <- ask H (RqWrite (path_join (env_get_cwd e) (display H file)) (value_bytes H v)) ;;
    match rs with
    | RsErr _ _ d => custom (lit "could not write to file " ++ display H file ++ lit ": " ++ d)
    | _ => ret ENone
    end.

  (** fs_module.rs:295-323 [append]: the contents are evaluated after the file
      has been opened. *)
  Definition run_fs_append (args : list expr) : M expr :=
    check_exact (lit "append") args 2 ;;;
    e <- get_env ;;
    file <- ev_arg args 0 ;;
    let p := path_join (env_get_cwd e) (display H file) in
    rs <- ask H (RqOpenAppend p) ;;
    match rs with
    | RsErr _ _ d => custom (lit "could not open file " ++ display H file ++ lit ": " ++ d)
    | _ =>
        v <- ev_arg args 1 ;;
        rs2 <- ask H (RqAppend p (value_bytes H v)) ;;
        match rs2 with
        | RsErr _ _ d => custom (lit "could not append to file " ++ display H file ++ lit ": " ++ d)
        | _ => ret ENone
        end
    end.

  (** fs_module.rs:227-234 [ls]. *)
  Definition run_ls (args : list expr) : M expr :=
    check_exact (lit "ls") args 1 ;;;
    e <- get_env ;;
    v <- ev_arg args 0 ;;
    let short := display H v in
    rs <- ask H (RqList (path_join (env_get_cwd e) short) short) ;;
    match rs with
    | RsTexts l => ret (strings l)
    | _ => custom (io_msg rs)
    end.

  (** fs_module.rs:11-41 [get_dir_tree]: the texts, given the files; [..] is left
      out when the path has no parent. *)
  Fixpoint tree_expr (p : str) (t : dirtree) : expr :=
    match t with
    | DtFile => EString p
    | DtDir es =>
        EMap (fold_left (fun m kv => bm_insert (fst kv) (snd kv) m)
          (map (fun kv => (fst kv, tree_expr (path_join p (fst kv)) (snd kv))) es)
          (bm_of_list ((lit ".", EString p)
             :: match path_parent p with Some q => [(lit "..", EString q)] | None => [] end)))
    end.

  (** How many directories there are inside each other below a directory, to
      count the subtractions [d - 1] of fs_module.rs:28. *)
  Fixpoint dir_levels (t : dirtree) : Z :=
    match t with
    | DtFile => 0
    | DtDir es =>
        fold_right
          (fun kv z => match snd kv with
                       | DtFile => z
                       | DtDir _ => Z.max (1 + dir_levels (snd kv)) z
                       end) 0 es
    end%Z.

  (** fs_module.rs:76-110 [tree]: [parent] of the root panics; the depth is only
      counted down (fs_module.rs:28), which can overflow. *)
  Definition run_tree (args : list expr) : M expr :=
    check_one_or_two (lit "joinx") args ;;;
    e <- get_env ;;
    let cwd := env_get_cwd e in
    v <- ev_arg args 0 ;;
    w <- match v with EInteger _ => ev (nth 1 args ENone) | _ => ret v end ;;
    let p := match w with EString q | ESymbol q => path_join cwd q | _ => cwd end in
    match path_parent p with
    | None => panics PUnwrap
    | Some _ =>
        rs <- ask H (RqTree p) ;;
        let t := match rs with RsTree t => t | _ => DtDir [] end in
        match v with
        | EInteger n => or_panic (arith (h_overflow H) (n - dir_levels t)) ;;; ret (tree_expr p t)
        | _ => ret (tree_expr p t)
        end
    end.

  (** fs_module.rs:331-342: the paths, up to the first error. *)
  Fixpoint glob_paths (cwd pattern : str) (l : list (str + str)) : M (list str) :=
    match l with
    | [] => ret []
    | inl p :: r =>
        rest <- glob_paths cwd pattern r ;;
        ret (match path_strip cwd p with Some q => q | None => p end :: rest)
    | inr d :: _ => custom (lit "could not glob pattern " ++ pattern ++ lit ": " ++ d)
    end.

  (** fs_module.rs:325-345 [glob]: a pattern that is not accepted panics. *)
  Definition run_glob (args : list expr) : M expr :=
    check_exact (lit "glob") args 1 ;;;
    e <- get_env ;;
    v <- ev_arg args 0 ;;
    let pattern := display H v in
    rs <- ask H (RqGlob pattern) ;;
    match rs with
    | RsGlob l => paths <- glob_paths (env_get_cwd e) pattern l ;; ret (strings paths)
    | _ => panics PUnwrap
    end.

  (** ** src/binary/init/fmt_module.rs *)

  (** fmt_module.rs:114-125 [wrap]: the width first. *)
  Definition run_wrap (args : list expr) : M expr :=
    check_exact (lit "wrap") args 2 ;;;
    w <- ev_arg args 1 ;;
    match w with
    | EInteger n => v <- ev_arg args 0 ;; ret (EString (h_wrap H (display H v) (as_usize n)))
    | _ => custom (lit "expected number of columns in wrap, but got " ++ display H w)
    end.

  (** fmt_module.rs:6-9 [strip]. *)
  Definition run_strip (args : list expr) : M expr :=
    exact1 (lit "strip") args (fun v => ret (EString (strip_ansi (display H v)))).

  (** fmt_module.rs:17-108: [\x1b[{code}m], the text, [\x1b[m\x1b[0m]. *)
  Definition run_style (code close : str) (args : list expr) : M expr :=
    v <- ev_arg args 0 ;;
    ret (EString (ESC ++ lit "[" ++ code ++ lit "m" ++ display H v ++ close)).

  (** fmt_module.rs:127-135 [href]. *)
  Definition run_href (args : list expr) : M expr :=
    exact2 (lit "href") args
      (fun url text =>
         ret (EString (ESC ++ lit "]8;;" ++ display H url ++ ESC ++ lit "\" ++ display H text
                       ++ ESC ++ lit "]8;;" ++ ESC ++ lit "\"))).

  (** ** src/binary/init/rand_module.rs *)

  (** A sample of [Uniform::new(lo, hi)] with [lo < hi]: the answer of the
      host, replaced by [lo] if it is not in the interval.
      src/binary/init/rand_module.rs:19-20. *)
  Definition sample (lo hi : Z) : M Z :=
    rs <- ask H (RqRandom lo hi) ;;
    ret (match rs with
         | RsInt z => if ((lo <=? z) && (z <? hi))%Z then z else lo
         | _ => lo
         end).

  (** rand_module.rs:14-27 [int]; [Uniform::new] asserts [low < high]. *)
  Definition run_rand_int (args : list expr) : M expr :=
    exact2 (lit "int") args
      (fun l h => match l, h with
                  | EInteger l, EInteger h =>
                      if (l <? h)%Z then z <- sample l h ;; ret (EInteger z)
                      else panics PAssert
                  | _, _ => custom (lit "expected two integers, but got " ++ display H l
                                    ++ lit " and " ++ display H h)
                  end).

  (** rand_module.rs:29-42 [choose]. *)
  Definition run_choose (args : list expr) : M expr :=
    exact1 (lit "choose") args
      (fun v => match v with
                | EList [] => panics PAssert
                | EList l =>
                    z <- sample 0 (Z.of_nat (length l)) ;;
                    match nth_error l (Z.to_nat z) with
                    | Some x => ret x
                    | None => panics PIndex
                    end
                | _ => custom (lit "expected a list, but got " ++ display H v)
                end).

  (** rand 0.8 [SliceRandom::shuffle]: for [i] from the last position down to
      1, swap the items at [i] and at a random position up to [i].
      src/binary/init/rand_module.rs:49. *)
  Fixpoint shuffle (i : nat) (l : list expr) : M (list expr) :=
    match i with
    | O => ret l
    | S k =>
        j <- sample 0 (Z.of_nat (S i)) ;;
        shuffle k (swap ENone i (Z.to_nat j) l)
    end.

  (** rand_module.rs:44-57 [shuffle]. *)
  Definition run_shuffle (args : list expr) : M expr :=
    exact1 (lit "shuffle") args
      (fun v => match v with
                | EList l => l' <- shuffle (length l - 1) l ;; ret (EList l')
                | _ => custom (lit "expected a list, but got " ++ display H v)
                end).

  (** ** src/binary/init/widget_module.rs *)

  (** src/binary/init/widget_module.rs:147,185. *)
  Definition no_cr (s : str) : str := filter (fun c => negb (c =? 13)%N) s.

  (** widget_module.rs:116-141: the lines of each argument. *)
  Fixpoint joinx_args (i : nat) (height : option nat) (args : list expr) : M (list (list str)) :=
    match args with
    | [] => ret []
    | a :: r =>
        v <- ev a ;;
        match v with
        | EString s =>
            let ls := str_lines s in
            let h := match height with Some h => h | None => length ls end in
            if Nat.eqb h (length ls)
            then rest <- joinx_args (S i) (Some h) r ;; ret (ls :: rest)
            else custom (lit "Heights of horizontally added widgets must be equal, first widget height="
                         ++ n_str (N.of_nat h) ++ lit ", " ++ n_str (N.of_nat i)
                         ++ lit "th widget height=" ++ n_str (N.of_nat (length ls)))
        | _ => custom (lit "expected string, but got " ++ display H v)
        end
    end.

  (** widget_module.rs:143-150: line by line. *)
  Definition joinx_lines (args : list (list str)) : str :=
    unlines
      (map (fun n => flat_map (fun ls => no_cr (nth n ls [])) args)
           (seq 0 (length (hd [] args)))).

  (** widget_module.rs:111-153 [joinx]. *)
  Definition run_joinx (args : list expr) : M expr :=
    check_two_or_more (lit "joinx") args ;;;
    l <- joinx_args 0 None args ;;
    ret (EString (joinx_lines l)).

  (** widget_module.rs:158-181: the trimmed arguments. *)
  Fixpoint joiny_args (i : nat) (width : option nat) (args : list expr) : M (list str) :=
    match args with
    | [] => ret []
    | a :: r =>
        v <- ev a ;;
        match v with
        | EString s =>
            let t := trim s in
            match str_lines t with
            | [] => panics PUnwrap
            | l :: _ =>
                let w := match width with Some w => w | None => length l end in
                if Nat.eqb w (length l)
                then rest <- joiny_args (S i) (Some w) r ;; ret (t :: rest)
                else custom (lit "Widths of vertically added widgets must be equal, first widget height="
                             ++ n_str (N.of_nat w) ++ lit ", " ++ n_str (N.of_nat i)
                             ++ lit "th widget height=" ++ n_str (N.of_nat (length l)))
            end
        | _ => custom (lit "expected string, but got " ++ display H v)
        end
    end.

  (** widget_module.rs:155-189 [joiny]. *)
  Definition run_joiny (args : list expr) : M expr :=
    check_two_or_more (lit "joiny") args ;;;
    l <- joiny_args 0 None args ;;
    ret (EString (join NL (map no_cr l))).

  (** widget_module.rs:67-91: the rows of the text from the state [i], [lines] on,
      and the last [i].  [width] is at least 5. *)
  Fixpoint widget_rows (width height : nat) (i lines : nat) (text : str) : str * nat :=
    match text with
    | [] => ([], i)
    | c :: r =>
        let lead := if Nat.eqb i 0 then [32%N] else [] in
        let i1 := if Nat.eqb i 0 then 1 else i in
        let nl := (c =? 10)%N in
        let lines := if nl then S lines else lines in
        let piece := if nl then repeat 32%N (width - i1) else [c] in
        let i2 := if nl then width else i1 in
        if Nat.eqb lines (height - 1) then (lead ++ piece, i2)
        else
          let (end_, i3) := if Nat.leb (width - 1) i2 then (NL, 0) else ([], S i2) in
          let (rest, last) := widget_rows width height i3 lines r in
          (lead ++ piece ++ end_ ++ rest, last)
    end.

  (** widget_module.rs:49-105: the frame around the text.  Simplifications: half
      of the free width is computed exactly, as the code does below 2^53; the
      memory holds the widget. *)
  Definition widget (title text : str) (text_width height : nat) : str :=
    let bar := 9472%N in
    let free := text_width - length title in
    let right_ := Nat.div (S free) 2 in
    let left_ := if Nat.ltb text_width (right_ * 2 + length title) then right_ - 1 else right_ in
    let top := [9484%N] ++ repeat bar left_ ++ title ++ repeat bar right_ ++ [9488%N] ++ NL in
    let width := length top - 1 in
    let (rows, i) := widget_rows width height 0 1 (no_cr text) in
    let body := top ++ rows ++ repeat 32%N (width - i) in
    let missing := (height - 1) - length (str_lines body) in
    body ++ flat_map (fun _ => NL ++ repeat 32%N width) (seq 0 missing)
    ++ NL ++ [9492%N] ++ repeat bar left_ ++ repeat bar (length title) ++ repeat bar right_ ++ [9496%N].

  (** widget_module.rs:13-109 [create]. *)
  Definition run_create (args : list expr) : M expr :=
    check_exact (lit "create") args 4 ;;;
    t <- ev_arg args 0 ;;
    w <- ev_arg args 2 ;;
    match w with
    | EInteger n =>
        if (4 <? n)%Z then
          let text_width := Z.to_nat (n - 2) in
          v <- ev_arg args 1 ;;
          let s := display H v in
          let padded := s ++ repeat 32%N (Nat.div (text_width * 2) 3 - length s) in
          let text := h_wrap H padded (Z.to_N (n - 2)) in
          h <- ev_arg args 3 ;;
          match h with
          | EInteger m =>
              if (3 <=? m)%Z then
                let title := display H t in
                if Nat.ltb text_width (length title) then custom (lit "width is less than title length")
                else ret (EString (widget title text text_width (Z.to_nat m)))
              else custom (lit "expected height argument to be an integer greater than 2, but got "
                           ++ display H h)
          | _ => custom (lit "expected height argument to be an integer greater than 2, but got "
                         ++ display H h)
          end
        else custom (lit "expected width argument to be integer greater than 4, but got " ++ display H w)
    | _ => custom (lit "expected width argument to be integer greater than 4, but got " ++ display H w)
    end.

  (** ** src/binary/init/time_module.rs *)

  (** time_module.rs:17-32 [sleep]. *)
  Definition run_sleep (args : list expr) : M expr :=
    exact1 (lit "sleep") args
      (fun v => match v with
                | EFloat f => ask H (RqSleep (f64_to_u64 f)) ;;; ret ENone
                | EInteger z => ask H (RqSleep (as_usize z)) ;;; ret ENone
                | _ => custom (lit "expected integer or float, but got " ++ display H v)
                end).

  (** time_module.rs:34-49 [now]. *)
  Definition run_now : M expr :=
    rs <- ask H RqNow ;;
    match rs with
    | RsTime y m d h time date =>
        ret (EMap (bm_of_list
          [ (lit "year", EInteger (wrap64 y)); (lit "month", EInteger (wrap64 m));
            (lit "day", EInteger (wrap64 d)); (lit "hour", EInteger (wrap64 h));
            (lit "time", EMap [(lit "str", EString time)]);
            (lit "date", EMap [(lit "str", EString date)]) ]))
    | _ => ret ENone
    end.

  (** ** src/binary/init/console_module.rs *)

  (** console_module.rs:194-206 [width], [height]. *)
  Definition run_size (horizontal : bool) : M expr :=
    rs <- ask H RqSize ;;
    match rs with
    | RsSize w h => ret (EInteger (as_int (Z.of_N (if horizontal then w else h))))
    | _ => ret ENone
    end.

  (** console_module.rs:213-220: one line below the other.  The row may overflow. *)
  Fixpoint write_lines (x y : Z) (k : nat) (l : list str) : M unit :=
    match l with
    | [] => ret tt
    | line :: r =>
        row <- or_panic (arith (h_overflow H) (y + as_int (Z.of_nat k))) ;;
        let at_ := ESC ++ lit "[" ++ z_str row ++ lit ";" ++ z_str x in
        print (ESC ++ lit "[s" ++ at_ ++ lit "H" ++ at_ ++ lit "f" ++ line ++ ESC ++ lit "[u") ;;;
        write_lines x y (S k) r
    end.

  (** console_module.rs:208-230 [write]. *)
  Definition run_console_write (args : list expr) : M expr :=
    exact3 (lit "write") args
      (fun x y v =>
         match x, y with
         | EInteger a, EInteger b => write_lines a b 0 (str_lines (display H v)) ;;; ret ENone
         | _, _ => custom (lit "expected first two arguments to be integers, but got: `"
                           ++ debug H x ++ lit "`, `" ++ debug H y ++ lit "`")
         end).

  (** console_module.rs:232-236 [title]. *)
  Definition run_title (args : list expr) : M expr :=
    exact1 (lit "title") args
      (fun v => print (ESC ++ lit "]2;" ++ display H v ++ ESC ++ lit "[0m") ;;; ret ENone).

  (** console_module.rs:238-242 [clear]: the argument is not evaluated. *)
  Definition run_clear (args : list expr) : M expr :=
    check_exact (lit "clear") args 1 ;;;
    print (ESC ++ lit "[2J" ++ ESC ++ lit "[H") ;;; ret ENone.

  (** console_module.rs:13-16 [flush]. *)
  Definition run_flush : M expr :=
    rs <- ask H RqFlush ;;
    match rs with RsOk => ret ENone | _ => panics PUnwrap end.

  (** console_module.rs:18-29 [raw], [cooked]. *)
  Definition run_mode (raw : bool) : M expr :=
    rs <- ask H (RqRaw raw) ;;
    match rs with
    | RsOk => ret ENone
    | _ => custom (lit "could not " ++ lit (if raw then "enable" else "disable") ++ lit " raw mode")
    end.

  (** console_module.rs:30-37,97-115 [alternate], [normal], [save-position],
      [restore-position], [hide], [show]. *)
  Definition run_fixed (text : str) : M expr := print (ESC ++ text) ;;; ret ENone.

  (** console_module.rs:40-51 [move-to]. *)
  Definition run_move_to (args : list expr) : M expr :=
    exact2 (lit "move-to") args
      (fun x y =>
         match x, y with
         | EInteger a, EInteger b =>
             print (ESC ++ lit "[" ++ z_str b ++ lit ";" ++ z_str a ++ lit "f") ;;; ret ENone
         | _, _ => custom (lit "expected first two arguments to be integers, but got: `"
                           ++ debug H x ++ lit "`, `" ++ debug H y ++ lit "`")
         end).

  (** console_module.rs:53-95 [move-up], [move-down], [move-left], [move-right]. *)
  Definition run_move (letter : chr) (args : list expr) : M expr :=
    let name := match letter with
                | 65%N => lit "move-up" | 66%N => lit "move-down"
                | 68%N => lit "move-left" | _ => lit "move-right"
                end in
    exact1 name args
      (fun v => match v with
                | EInteger z => print (ESC ++ lit "[" ++ z_str z ++ [letter]) ;;; ret ENone
                | _ => custom (lit "expected first argument to be an integer, but got: `"
                               ++ debug H v ++ lit "`")
                end).

  (** console_module.rs:119-127 [read-line], [read-password]: the line feed stays in
      the first. *)
  Definition run_read_text (rq : request) : M expr :=
    rs <- ask H rq ;;
    match rs with RsText s => ret (EString s) | _ => panics PUnwrap end.

  (** console_module.rs:137-157: the text of a key. *)
  Definition key_text (k : keypress) : expr :=
    let seq_ (t : str) := EString (ESC ++ t) in
    match k with
    | KeyChar c => EString [c]
    | KeyEnter => EString NL
    | KeyBackspace => EString [8%N]
    | KeyDelete => EString [127%N]
    | KeyLeft => seq_ (lit "[D")
    | KeyRight => seq_ (lit "[C")
    | KeyUp => seq_ (lit "[A")
    | KeyDown => seq_ (lit "[B")
    | KeyHome => seq_ (lit "[H")
    | KeyEnd => seq_ (lit "[F")
    | KeyPageUp => seq_ (lit "[5~")
    | KeyPageDown => seq_ (lit "[6~")
    | KeyTab => EString [9%N]
    | KeyEsc => seq_ []
    | KeyInsert => seq_ (lit "[2~")
    | KeyF i => seq_ (lit "[" ++ n_str i ++ lit "~")
    | KeyNull => EString [0%N]
    | KeyBackTab => seq_ (lit "[Z")
    | KeyOther => ENone
    end.

  (** console_module.rs:128-158 [read-key]. *)
  Definition run_read_key : M expr :=
    rs <- ask H RqReadKey ;;
    match rs with
    | RsKey k => ret (key_text k)
    | RsInterrupt => ret ENone
    | _ => panics PUnwrap
    end.

  (** ** src/binary/init/parse_module.rs *)

  (** parse_module.rs:50-72 [json_to_expr]. *)
  Fixpoint json_expr (j : json) : expr :=
    match j with
    | JNull => ENone
    | JBoolean b => EBoolean b
    | JNumber f => EFloat f
    | JString s => EString s
    | JArray l => EList (map json_expr l)
    | JObject m => EMap (bm_of_list (map (fun kv => (fst kv, json_expr (snd kv))) m))
    end.

  (** parse_module.rs:33-48 [parse_json]. *)
  Definition run_json (args : list expr) : M expr :=
    exact1 (lit "json") args
      (fun v =>
         let text := display H v in
         if str_eqb text [] then ret ENone
         else match h_json H text with
              | Some j => ret (json_expr j)
              | None => custom (lit "could not parse `" ++ text ++ lit "` as JSON")
              end).

  (** parse_module.rs:87-109 [toml_to_expr]; integers are 64 bit integers there. *)
  Fixpoint toml_expr (t : toml) : expr :=
    match t with
    | TmBoolean b => EBoolean b
    | TmFloat f => EFloat f
    | TmInteger z => EInteger (wrap64 z)
    | TmDatetime s => EString s
    | TmString s => EString s
    | TmArray l => EList (map toml_expr l)
    | TmTable m => EMap (bm_of_list (map (fun kv => (fst kv, toml_expr (snd kv))) m))
    end.

  (** parse_module.rs:74-85 [parse_toml]. *)
  Definition run_toml (args : list expr) : M expr :=
    exact1 (lit "toml") args
      (fun v =>
         let text := display H v in
         match h_toml H text with
         | Some t => ret (toml_expr t)
         | None => custom (lit "could not parse `" ++ text ++ lit "` as TOML")
         end).

  (** parse_module.rs:15-31 [parse_expr]. *)
  Definition run_parse_expr (args : list expr) : M expr :=
    exact1 (lit "json") args
      (fun v => match display H v with
                | [] => ret ENone
                | s => parse_m s
                end).

  (** The function pointer of a builtin applied to its (unevaluated) arguments
      (src/expr.rs:618-620). *)
  Definition run_builtin (b : bid) (args : list expr) : M expr :=
    match b with
    | BPipe => run_pipe args
    | BAdd => run_add args
    | BSub => run_sub args
    | BMul => run_mul args
    | BDiv => run_div args
    | BRem => run_rem args
    | BAnd => run_logic (forallb is_truthy) args
    | BOr => run_logic (existsb is_truthy) args
    | BNot => run_logic (forallb (fun x => negb (is_truthy x))) args
    | BEq => run_compare expr_eqb args
    | BNe => run_compare (fun a b => negb (expr_eqb a b)) args
    | BLt => run_compare expr_lt args
    | BLe => run_compare expr_le args
    | BGt => run_compare expr_gt args
    | BGe => run_compare expr_ge args
    | BIndex => run_index args
    | BPrint => run_print (display H) [] args ;;; ret ENone
    | BDebug => run_print (debug H) NL args ;;; ret ENone
    | BPrintln | GEcho => run_print (display H) NL args ;;; ret ENone
    | BTo => run_to args
    | BStr => run_str args
    | BInt => run_int args
    | BInsert => run_insert args
    | BKeys => run_keys args
    | BVals => run_vals args
    | BVars | YEnv => run_vars
    | BLen => run_len args
    | BLines => run_lines args
    | BEval => run_eval args
    | BExec => run_exec args
    | BUnbind => run_unbind args
    | BReport => run_report args
    | BHelp => run_help args
    | BInput => run_input args
    | LList => ret (EList args)
    | LTail => run_tail args
    | LHead => run_head args
    | LChunk => run_chunk args
    | LCons => run_cons args
    | LAppend => run_append args
    | LLen => run_list_len args
    | LRev => run_rev args
    | LRange => run_range args
    | LFoldl => run_foldl args
    | LFoldr => run_foldr args
    | LZip => run_zip args
    | LUnzip => run_unzip args
    | LTake => run_take args
    | LDrop => run_drop args
    | LSplitAt => run_split_at args
    | LNth => run_nth args
    | FApply => run_apply args
    | FCurry => run_curry args
    | FMap => run_map args
    | FFilter => run_filter args
    | FReduce => run_reduce args
    | FCond => run_cond args
    | DFlatten => run_flatten args
    | DItems => run_items args
    | DKeys => run_dict_keys args
    | DValues => run_values args
    | DInsert => run_dict_insert args
    | DRemove => run_remove args
    | DHas => run_has args
    | DLen => run_dict_len args
    | DFromItems => run_from_items args
    | DUnion => run_union args
    | DIntersect => run_intersect args
    | DDifference => run_difference args
    | SToString => run_to_string args
    | SCaesar => run_caesar args
    | SGetWidth => run_get_width args
    | SIsWhitespace => on_text args (fun s => EBoolean (forallb is_ws s))
    | SIsAlpha => on_text args (fun s => EBoolean (forallb (chr_alphabetic H) s))
    | SIsAlphanumeric => on_text args (fun s => EBoolean (forallb (chr_alphanumeric H) s))
    | SIsNumeric => on_text args (fun s => EBoolean (forallb (chr_numeric H) s))
    | SSplit => run_split args
    | SSplitInner => run_split_inner args
    | SToLower => on_text args (fun s => EString (to_lowercase H s))
    | SToUpper => on_text args (fun s => EString (to_uppercase H s))
    | SToTitle => on_text args (fun s => EString (to_title H s))
    | SIsLower => on_text args (fun s => EBoolean (forallb (chr_lowercase H) s))
    | SIsUpper => on_text args (fun s => EBoolean (forallb (chr_uppercase H) s))
    | SIsTitle => on_text args (fun s => EBoolean (str_eqb s (to_title H s)))
    | SJoin => run_join args
    | SLines => run_pieces (lit "lines") str_lines args
    | SChars => run_chars args
    | SWords => run_pieces (lit "words") split_whitespace args
    | SParagraphs => run_pieces (lit "paragraphs") (str_split [10; 10]%N) args
    | SSplitAt => run_string_split_at args
    | STrim => on_text args (fun s => EString (trim s))
    | STrimStart => on_text args (fun s => EString (trim_start s))
    | STrimEnd => on_text args (fun s => EString (trim_end s))
    | SReplace => run_replace args
    | SStartsWith => run_test (lit "starts-with?") starts_with args
    | SEndsWith => run_test (lit "ends-with?") ends_with args
    | SContains => run_test (lit "contains?") str_contains args
    | MLRsh => run_lrsh args
    | MARsh => run_arsh args
    | MLsh => run_lsh args
    | MSum => run_sum args
    | MProduct => run_product args
    | MFact => run_fact args
    | MAbs => run_abs args
    | MIsOdd => run_parity (lit "odd") (lit "isodd") 1 args
    | MIsEven => run_parity (lit "even") (lit "iseven") 0 args
    | MPow => run_pow args
    | MRound fn => run_round fn args
    | MFloat fn what dbg => run_float fn what dbg args
    | MLog => run_log args
    | ETry => run_try args
    | GSetLevel => run_set_level args
    | GGetLevel => run_get_level args
    | GDisable => run_disable args
    | GEnabled => run_enabled args
    | GInfo => run_log_at 3 (lit "92") (lit "INFO") args
    | GWarn => run_log_at 2 (lit "93") (lit "WARN") args
    | GDebug => run_log_at 4 (lit "94") (lit "DEBUG") args
    | GError => run_log_at 1 (lit "91") (lit "ERROR") args
    | GTrace => run_log_at 5 (lit "95") (lit "TRACE") args
    | YParse => run_parse args
    | YQuote => run_quote args
    | YCwd => run_cwd
    | YSet => run_set args
    | YUnset => run_unset args
    | YDefined => run_defined args
    | YInclude => run_include args
    | YImport => run_import args
    | YCd => run_sys_cd args
    | OExit => run_exit args
    | OCd => run_cd args
    | KRead => run_read args
    | KWrite => run_write args
    | KAppend => run_fs_append args
    | KHead => run_fs_lines (lit "head") (fun l => l) args
    | KTail => run_fs_lines (lit "tail") (@rev str) args
    | KCanon => run_canon args
    | KMkdir => run_dir (lit "mkdir") (lit "create") [] args
    | KRmdir => run_dir (lit "rmdir") (lit "remove") (lit ", is it empty?") args
    | KMv => run_two_paths (lit "mv") args
    | KCp => run_two_paths (lit "cp") args
    | KRm => run_rm args
    | KExists => run_fs_test (lit "exists") args
    | KIsDir => run_fs_test (lit "isdir") args
    | KIsFile => run_fs_test (lit "isfile") args
    | KLs => run_ls args
    | KTree => run_tree args
    | KGlob => run_glob args
    | TStrip => run_strip args
    | TStyle code => run_style code RESET args
    | TDarkWhite => run_style (lit "37") (ESC ++ lit "[mk[0m") args
    | THref => run_href args
    | TWrap => run_wrap args
    | RInt => run_rand_int args
    | RChoose => run_choose args
    | RShuffle => run_shuffle args
    | WCreate => run_create args
    | WJoinx => run_joinx args
    | WJoiny => run_joiny args
    | ISleep => run_sleep args
    | INow => run_now
    | CWidth => run_size true
    | CHeight => run_size false
    | CWrite => run_console_write args
    | CTitle => run_title args
    | CClear => run_clear args
    | CFlush => run_flush
    | CMode raw => run_mode raw
    | CFixed text => run_fixed text
    | CMoveTo => run_move_to args
    | CMove letter => run_move letter args
    | CReadLine => run_read_text RqReadLine
    | CReadPassword => run_read_text RqReadPassword
    | CReadKey => run_read_key
    | PExpr => run_parse_expr args
    | PJson => run_json args
    | PToml => run_toml args
    end.
End Builtins.
