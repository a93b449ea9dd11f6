(** What the shrew of the start-up scripts says. *)

From Coq Require Import String ZArith List.
From Verif Require Import Base Syntax Host Ops Monad Builtins Eval Init EvalSpec Prelude PreludeFacts
  LinesSpec WidgetSpec GlobSpec RedirectSpec.
Import ListNotations.

(** The definitions of [shrew] and [shrewsay].  src/.default-dune-prelude:442-450 and
    462-487, as the parser reads them. *)
Definition shrew_definition : expr := Eval vm_compute in nth 27 default_program ENone.
Definition say_definition : expr := Eval vm_compute in nth 29 default_program ENone.

(** The picture of the shrew. *)
Definition shrew_text : str := Eval vm_compute in
  match shrew_definition with EAssign _ (EMacro _ (EDo [EString t])) => t | _ => [] end.

(** What the names that [shrewsay] uses are in a new shell.
    src/binary/init/mod.rs:28-437. *)
Definition say_names : list (str * expr) :=
  [ (lit "@", bi BIndex "@"); (lit "//", curry (bi BDiv "//") 2); (lit "*", curry (bi BMul "*") 2);
    (lit "+", bi BAdd "+"); (lit "-", bi BSub "-"); (lit "==", bi BEq "=="); (lit "<", bi BLt "<");
    (lit "len", bi BLen "len"); (lit "lines", bi BLines "lines"); (lit "to", bi BTo "to");
    (lit "echo", bi BPrintln "println"); (lit "console", EMap console_module);
    (lit "string", EMap string_module); (lit "fmt", EMap fmt_module); (lit "widget", EMap widget_module) ]%string.
Definition eloquent (e : env) : Prop :=
  (forall x v, In (x, v) say_names -> env_get x e = Some v)
  /\ (exists m, env_get (lit "math") e = env_get (lit "math") (init m))
  /\ (exists m, env_get (lit "std") e = Some (EMap m) /\ bm_get (lit "string") m = Some (EMap string_module)).

(** The shrew is as the script defines it. *)
Definition with_shrew (e : env) : Prop :=
  match shrew_definition with EAssign x v => env_get x e = Some v | _ => False end.

(** [shrewsay] is what the script made of it in such a shell. *)
Definition says_shrew (H : host) (e : env) : Prop :=
  exists s v s1, eloquent (s_env s) /\ with_shrew (s_env s) /\ evaluates H 0 say_definition s (ROk v) s1
    /\ env_get (lit "shrewsay") e = env_get (lit "shrewsay") (s_env s1).

(** Lines that are not empty and do not end in a space. *)
Definition tidy (ls : list str) : Prop :=
  ls <> [] /\ Forall (fun l => exists a c, l = a ++ [c] /\ c <> 32%N) ls.

(** The terminal is [w] characters wide, and stays so. *)
Definition terminal (H : host) (w : N) : Prop :=
  (w < 2 ^ 16)%N /\ forall t, exists h, (h < 2 ^ 16)%N /\ h_answer H t RqSize = RsSize w h.

(** The room for the text [ls] in the bubble: one line fits exactly, more lines
    get half of the terminal or what the longest one needs; the title, which has
    15 characters, always fits. *)
Definition room (w : N) (ls : list str) (c : nat) : Prop :=
  match ls with
  | [l] => c = Nat.max (length l) 15
  | _ => exists k, Forall (fun l => length l <= k) ls /\ Exists (fun l => length l = k) ls
                   /\ c = Nat.max (Nat.max (Nat.div (N.to_nat w) 2) k) 15
  end.

(** What is printed: the rows of the bubble, indented, two strokes, and the
    shrew. *)
Definition spaces (k : nat) : str := repeat 32%N k.
Definition spoken (rows : list str) : list str :=
  flat_map (fun r => [spaces 25 ++ [32%N]; r ++ [10%N]]) rows
  ++ [spaces 25 ++ [32%N]; [9585%N; 10%N]; spaces 24 ++ [32%N]; [9585%N; 10%N]]
  ++ [shrew_text ++ [10%N]].
