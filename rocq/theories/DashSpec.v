(** What the dashboard of the start-up script shows. *)

From Coq Require Import String ZArith List.
From Verif Require Import Base Syntax Host Ops Monad Builtins Eval Init EvalSpec Prelude PreludeFacts
  LinesSpec WidgetSpec CalendarSpec PageSpec CalendarDefs BannerSpec.
Import ListNotations.

(** The definitions of [cal] and [dashboard].  src/.default-dune-prelude:709-735, as
    the parser reads them. *)
Definition cal_definition : expr := Eval vm_compute in nth 39 default_program ENone.
Definition dash_definition : expr := Eval vm_compute in nth 40 default_program ENone.

(** The pictures of cats.  src/.default-dune-prelude:399-434. *)
Definition cats : list str := Eval vm_compute in
  match nth 24 default_program ENone with
  | EAssign _ (EList l) => flat_map (fun v => match v with EString t => [t] | _ => [] end) l
  | _ => []
  end.

(** A name has the value that a statement of the script gives it. *)
Definition as_defined (stmt : expr) (e : env) : Prop :=
  match stmt with EAssign x v => env_get x e = Some v | _ => False end.

(** A shell that has run the script up to here, in which no key for the weather
    service is set, and in which the names it uses are those of a new shell.
    src/binary/init/mod.rs:28-437. *)
Definition furnished (H : host) (e : env) : Prop :=
  festive e /\ has_banner e /\ prepared H e /\ as_defined cal_definition e /\ as_defined dash_definition e
  /\ env_get (lit "CATS") e = Some (EList (map EString cats))
  /\ env_get (lit "WEATHER-API-KEY") e = Some ENone
  /\ env_get (lit "!=") e = Some (bi BNe "!=")
  /\ env_get (lit "widget") e = Some (EMap widget_module)
  /\ env_get (lit "rand") e = Some (EMap rand_module).

(** Printable ASCII characters and line feeds. *)
Definition plain (t : str) : Prop := forall c, In c t -> c = 10%N \/ (32 <= c < 127)%N.

(** Lines without the spaces at their ends, or without some of them. *)
Definition trimmed (ls ls' : list str) : Prop := Forall2 (fun l l' => exists k, l = l' ++ repeat 32%N k) ls ls'.

(** What is expected of the line breaker: it keeps lines that are short enough,
    except for spaces at their ends. *)
Definition keeps_short (H : host) : Prop :=
  forall t ls w, plain t -> stacked ls t -> Forall (fun l => (length l <= N.to_nat w)%nat) ls ->
    exists ls', stacked ls' (h_wrap H t w) /\ trimmed ls ls'.

(** The rows of the dashboard for a day and a cat: a calendar and beside it the
    cat, both framed. *)
Definition dash_rows (y m d : Z) (cat : str) (rows : list str) : Prop :=
  exists days days' cal cal_rows pic pic' box box_rows,
    page y m d days /\ trimmed days days' /\ framed (lit "Calendar") days' 30 10 cal /\ lines cal cal_rows
    /\ stacked pic cat /\ trimmed pic pic' /\ framed (lit "Cat") pic' 20 10 box /\ lines box box_rows
    /\ length cal_rows = 10%nat /\ Forall (fun r => length r = 30%nat) cal_rows
    /\ length box_rows = 10%nat /\ Forall (fun r => length r = 20%nat) box_rows
    /\ length rows = 10%nat
    /\ forall k, (k < 10)%nat -> exists a b, nth_error cal_rows k = Some a /\ nth_error box_rows k = Some b
                                      /\ nth_error rows k = Some (a ++ b).

(** The definition of the pictures of cats. *)
Definition cats_definition : expr := Eval vm_compute in nth 24 default_program ENone.

(** The statements one after the other. *)
Inductive all_done (H : host) : list expr -> st -> st -> Prop :=
| done_none s : all_done H [] s s
| done_more x l s v s1 s2 : evaluates H 0 x s (ROk v) s1 -> all_done H l s1 s2 -> all_done H (x :: l) s s2.
