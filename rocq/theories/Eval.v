(** src/expr.rs:472-678: the evaluator. *)

From Coq Require Import String.
From Verif Require Import Base Syntax Host Ops Monad Builtins.

(** src/expr.rs:22, 478-482 [MAX_RECURSION_DEPTH]. *)
Definition MAX_DEPTH : N := 800.

Section Eval.
  Variable H : host.

  (** src/expr.rs:546-560: the words of one evaluated argument of a command. *)
  Definition command_words (v : expr) : list str :=
    flat_map
      (fun x => match x with
                | EString s => [s]
                | EBytes b => [h_lossy H b]
                | ENone => []
                | _ => [display H x]
                end)
      (flatten [v]).

  (** src/expr.rs:533-584: running an external program.  [f] and [args] are the
      parts of the application, [name] the value of [f]. *)
  Definition run_command (rec : expr -> M expr) (name : str) (f : expr) (args : list expr)
    : M expr :=
    e <- get_env ;;
    vs <- mapM rec args ;;
    e' <- get_env ;;
    rs <- ask H (RqStatus (Command name (flat_map command_words vs) (env_get_cwd e')
                                   (command_envs H e))) ;;
    match rs with
    | RsNotFound => throw (ProgramNotFound name)
    | RsPermission => throw (PermissionDenied (EApply f args))
    | RsFailed | RsWriteFailed | RsWaitFailed | RsErr _ _ _ => throw (CommandFailed name args)
    | _ => ret ENone
    end.

  (** src/expr.rs:532-623: an application [f args] whose function has the value
      [g]. *)
  Definition apply_value (rec ev0 : expr -> M expr) (g f : expr) (args : list expr) : M expr :=
    match g with
    | ESymbol name | EString name => run_command rec name f args
    | ELambda p body captured =>
        match args with
        | [] => throw (CannotApply f args)
        | a :: rest =>
            e <- get_env ;;
            x <- rec a ;;
            let new_env := env_define p x (env_set_cwd (env_get_cwd e) captured) in
            match rest with
            | [] => in_env new_env (rec body)
            | _ => r <- in_env new_env (rec body) ;; rec (EApply r rest)
            end
        end
    | EMacro p body =>
        match args with
        | [] => throw (CannotApply f args)
        | a :: rest =>
            x <- rec a ;;
            define p x ;;;
            match rest with
            | [] => rec body
            | _ => r <- rec body ;; rec (EApply r rest)
            end
        end
    | EBuiltin b => run_builtin H ev0 (b_id b) args
    | _ => throw (CannotApply f args)
    end.

  (** src/expr.rs:656-665: a sequence; the value is that of the last one. *)
  Fixpoint seqM (rec : expr -> M expr) (l : list expr) : M expr :=
    match l with
    | [] => ret ENone
    | [x] => rec x
    | x :: r => rec x ;;; seqM rec r
    end.

  (** src/expr.rs:648-655: the values of a map, in the order of the keys. *)
  Fixpoint map_values (rec : expr -> M expr) (m : bmap expr) : M (bmap expr) :=
    match m with
    | [] => ret []
    | (k, x) :: r => y <- rec x ;; r' <- map_values rec r ;; ret ((k, y) :: r')
    end.

  (** src/expr.rs:484-675: one round of the loop of [eval_mut].  [rec] is
      evaluation one level deeper, [ev0] evaluation from depth 0
      ([Expression::eval], used by the builtin functions). *)
  Definition eval_body (rec ev0 : expr -> M expr) (e : expr) : M expr :=
    match e with
    | EQuote x => ret x
    | EGroup x => rec x
    | ESymbol name =>
        env <- get_env ;;
        ret (match env_get name env with Some x => x | None => ESymbol name end)
    | EAssign name x => v <- rec x ;; define name v ;;; ret ENone
    | EFor name l body =>
        v <- rec l ;;
        match v with
        | EList items =>
            r <- mapM (fun item => define name item ;;; rec body) items ;; ret (EList r)
        | _ => throw (ForNonList l)
        end
    | EIf c t f => v <- rec c ;; if is_truthy v then rec t else rec f
    | EApply f args => g <- rec f ;; apply_value rec ev0 g f args
    | ELambda p b c => env <- get_env ;; ret (ELambda p b (capture env p b c))
    | EList l => r <- mapM rec l ;; ret (EList r)
    | EMap m => r <- map_values rec m ;; ret (EMap r)
    | EDo l => seqM rec l
    | ENone | EInteger _ | EFloat _ | EBoolean _ | EBytes _ | EString _
    | EMacro _ _ | EBuiltin _ => ret e
    end.

  (** src/expr.rs:476-678 [eval_mut] at depth [d].  The fuel bounds the depth of
      the Rust call tree, counting rounds of the loop; the stack of the
      program is not modelled otherwise. *)
  Fixpoint eval (fuel : nat) (d : N) (e : expr) : M expr :=
    match fuel with
    | O => out_of_fuel
    | S n =>
        if (MAX_DEPTH <? d)%N then throw (RecursionDepth e)
        else eval_body (eval n (d + 1)) (eval n 0) e
    end.
End Eval.
