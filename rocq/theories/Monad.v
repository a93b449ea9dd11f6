(** Computations of the interpreter: what the Rust functions of type
    [Fn(.., &mut Environment) -> Result<_, Error>] may do. *)

From Coq Require Import String.
From Verif Require Import Base Syntax Host Ops.

(** Outcome of a computation.  [RErr] is [Err(e)], [RPanic] a panic, [RExit]
    [std::process::exit]; [RFuel] is not an outcome of the program but says
    that the recursion bound of the model was too small.
    src/expr.rs:476-677 ([Result<Expression, Error>]). *)
Inductive res (A : Type) :=
| ROk (a : A)
| RErr (e : error)
| RPanic (p : panic)
| RExit (code : Z)
| RFuel.
Arguments ROk {A} a.
Arguments RErr {A} e.
Arguments RPanic {A} p.
Arguments RExit {A} code.
Arguments RFuel {A}.

(** The mutable state: the [&mut Environment] argument, the history of effects
    on the outside world, and the static [LOG_LEVEL]
    (src/binary/init/log_module.rs:6-8). *)
Record st := St { s_env : env; s_trace : trace; s_log : Z }.

(** src/expr.rs:476-677 ([Result<Expression, Error>]). *)
Definition M (A : Type) := st -> res A * st.

(** src/expr.rs:476-677 ([Result<Expression, Error>]). *)
Definition ret {A} (a : A) : M A := fun s => (ROk a, s).

(** Sequencing with [?].  src/expr.rs:476-677 ([Result<Expression, Error>]). *)
Definition bind {A B} (m : M A) (k : A -> M B) : M B :=
  fun s =>
    match m s with
    | (ROk a, s') => k a s'
    | (RErr e, s') => (RErr e, s')
    | (RPanic p, s') => (RPanic p, s')
    | (RExit c, s') => (RExit c, s')
    | (RFuel, s') => (RFuel, s')
    end.

Declare Scope m_scope.
Delimit Scope m_scope with M.
(** src/expr.rs:476-677 ([Result<Expression, Error>]). *)
Notation "x <- m ;; k" := (bind m (fun x => k))
  (at level 61, m at next level, right associativity) : m_scope.
(** src/expr.rs:476-677 ([Result<Expression, Error>]). *)
Notation "m ;;; k" := (bind m (fun _ => k))
  (at level 61, right associativity) : m_scope.
Open Scope m_scope.

(** src/expr.rs:476-677 ([Result<Expression, Error>]). *)
Definition throw {A} (e : error) : M A := fun s => (RErr e, s).
(** src/expr.rs:720. *)
Definition panics {A} (p : panic) : M A := fun s => (RPanic p, s).
(** src/binary/init/os_module.rs:17-19. *)
Definition exits {A} (c : Z) : M A := fun s => (RExit c, s).
(** src/expr.rs:476-484 (bound of the model, not of the code). *)
Definition out_of_fuel {A} : M A := fun s => (RFuel, s).

(** [match m { Err(e) => h(e), ok => ok }].
    src/expr.rs:476-677 ([Result<Expression, Error>]). *)
Definition catch {A} (m : M A) (h : error -> M A) : M A :=
  fun s => match m s with (RErr e, s') => h e s' | r => r end.

(** src/expr.rs:476 ([env: &mut Environment]). *)
Definition get_env : M env := fun s => (ROk (s_env s), s).
(** src/expr.rs:476 ([env: &mut Environment]). *)
Definition put_env (e : env) : M unit :=
  fun s => (ROk tt, St e (s_trace s) (s_log s)).
(** src/binary/init/log_module.rs:6-8 [LOG_LEVEL]. *)
Definition get_log : M Z := fun s => (ROk (s_log s), s).
(** src/binary/init/log_module.rs:6-8 [LOG_LEVEL]. *)
Definition put_log (l : Z) : M unit := fun s => (ROk tt, St (s_env s) (s_trace s) l).

(** Run [m] with another environment ([&mut new_env]), which is dropped
    afterwards.  src/expr.rs:586-590. *)
Definition in_env {A} (e : env) (m : M A) : M A :=
  fun s =>
    let (r, s') := m (St e (s_trace s) (s_log s)) in
    (r, St (s_env s) (s_trace s') (s_log s')).

(** One request to the outside world.  src/expr.rs:562-585. *)
Definition ask (H : host) (rq : request) : M response :=
  fun s =>
    let rs := h_answer H (s_trace s) rq in
    (ROk rs, St (s_env s) ((rq, rs) :: s_trace s) (s_log s)).

(** src/binary/init/operator_module.rs:21-31,490-493. *)
Fixpoint mapM {A B} (f : A -> M B) (l : list A) : M (list B) :=
  match l with
  | [] => ret []
  | x :: r => y <- f x ;; ys <- mapM f r ;; ret (y :: ys)
  end.

(** src/binary/init/operator_module.rs:21-31,490-493. *)
Fixpoint foldM {A B} (f : B -> A -> M B) (b : B) (l : list A) : M B :=
  match l with
  | [] => ret b
  | x :: r => b' <- f b x ;; foldM f b' r
  end.

(** [env.define(name, x)].  src/env.rs:72-74. *)
Definition define (name : str) (x : expr) : M unit :=
  e <- get_env ;; put_env (env_define name x e).

(** src/error.rs:20. *)
Definition custom {A} (msg : str) : M A := throw (CustomError msg).

(** A pure result that may be a panic.  src/expr.rs:676-776. *)
Definition or_panic {A} (r : A + panic) : M A :=
  match r with inl a => ret a | inr p => panics p end.
