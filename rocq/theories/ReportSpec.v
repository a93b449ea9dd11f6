(** Vocabulary of the theorems about [report] and [help] of the start-up script
    for new users. *)

From Coq Require Import String List NArith ZArith.
From Verif Require Import Base Syntax Host Ops ErrorFmt Monad EvalSpec Init Builtins SysSpec GlobSpec Prelude PreludeFacts.
Import ListNotations.

Definition report_names : list str :=
  map lit ["donate"; "old-report"; "REPORT_COUNT"; "report"; "old-help"; "help"]%string.

(** Their definitions.  .intro-dune-prelude:32-53 and 446-477, as the parser
    reads them. *)
Definition report_definitions : list expr := Eval vm_compute in
  filter (fun e => match e with EAssign x _ => existsb (str_eqb x) report_names | _ => false end) intro_program.

(** The functions that they use are what they are in a new shell.
    src/binary/init/mod.rs:28-437. *)
Definition basics (e : env) : Prop :=
  stands e "==" BEq /\ stands e "+" BAdd /\ stands e "||" BOr /\ stands e "@" BIndex
  /\ stands e "echo" BPrintln /\ member e "fmt" "italics" (TStyle (lit "3")) /\ member e "fmt" "href" THref.
Definition untold (e : env) : Prop := basics e /\ stands e "report" BReport /\ stands e "help" BHelp.

(** [report] and [help] are as the script defined them in such a shell; [k]
    values were reported since. *)
Definition reporting (H : host) (k : Z) (e : env) : Prop :=
  basics e /\ env_get (lit "REPORT_COUNT") e = Some (EInteger k)
  /\ exists s v s1, untold (s_env s) /\ evaluates H 0 (EDo report_definitions) s (ROk v) s1
       /\ forall x, In x report_names -> x <> lit "REPORT_COUNT" -> env_get x e = env_get x (s_env s1).

(** The state after printing the texts one after the other. *)
Definition prints (H : host) (ts : list str) (s : st) : st :=
  fold_left (fun s t => told H (RqPrint t) s) ts s.

(** What the built-in [report] prints: a line, for None nothing. *)
Definition line_of (H : host) (v : expr) : list str :=
  match v with ENone => [] | _ => [display H v ++ [10%N]] end.

(** The message of [donate], .intro-dune-prelude:33-52: two texts, and one in
    italics and one with a link, both after 21 spaces. *)
Definition donation : list str := Eval vm_compute in
  match report_definitions with
  | EAssign _ (EMacro _ (EDo [EApply _ [EString a];
                              EApply _ [_; EGroup (EApply _ [EString b])];
                              EApply _ [_; EGroup (EApply _ [EString u; EString c])];
                              EApply _ [EString f]])) :: _ =>
      [a ++ [10%N];
       repeat 32%N 21 ++ [32%N]; [27%N] ++ lit "[3m" ++ b ++ [27%N] ++ lit "[m" ++ [27%N] ++ lit "[0m" ++ [10%N];
       repeat 32%N 21 ++ [32%N];
       [27%N] ++ lit "]8;;" ++ u ++ [27%N; 92%N] ++ c ++ [27%N] ++ lit "]8;;" ++ [27%N; 92%N] ++ [10%N];
       f ++ [10%N]]
  | _ => []
  end.

(** What the [k]-th report prints, counted from 0. *)
Definition report_text (H : host) (k : Z) (v : expr) : list str :=
  line_of H v ++ (if Z.eqb k 50 then donation else []).

(** The values are reported one after the other. *)
Inductive reports (H : host) : list expr -> st -> st -> Prop :=
| reports_none s : reports H [] s s
| reports_next v l s s1 s2 :
    evaluates H 0 (EApply (ESymbol (lit "report")) [EQuote v]) s (ROk ENone) s1 ->
    reports H l s1 s2 -> reports H (v :: l) s s2.
