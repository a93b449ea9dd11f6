(** What the start-up script does in a new shell. *)

From Coq Require Import String ZArith List.
From Verif Require Import Base Syntax Host Ops Monad Builtins Eval Init EvalSpec Prelude PreludeFacts Repl
  SysSpec LinesSpec WidgetSpec GlobSpec BannerSpec DashSpec ShrewSpec.
Import ListNotations.

(** The names that the shell defines itself before the script.
    src/bin.rs:573-594. *)
Definition own_names : list str := map lit ["clear"; "pwd"; "join"; "prompt"; "incomplete_prompt"]%string.

(** A new shell on the machine [m], ready for the script: apart from these names
    everything is as at the beginning, and [clear] clears the screen. *)
Definition ready (m : machine) (e : env) : Prop :=
  (forall x, ~ In x own_names -> env_get x e = env_get x (init m))
  /\ env_get (lit "clear") e
     = Some (EMacro (lit "_") (EApply (EApply (ESymbol (lit "@")) [ESymbol (lit "console"); ESymbol (lit "clear")]) [ENone])).

(** The clock stands still, so that it is the same time for the banner and for
    the calendar. *)
Definition stands (H : host) (rs : response) : Prop := forall t, h_answer H t RqNow = rs.

(** A file that is not there, however often one looks. *)
Definition missing (H : host) (path : str) : Prop :=
  forall t, h_answer H t (RqTest (lit "exists") path) = RsBool false.

(** The requests one after the other. *)
Definition tolds (H : host) (rqs : list request) (s : st) : st := fold_left (fun s rq => told H rq s) rqs s.

(** What the shrew says. *)
Definition hint (home : str) : list str :=
  [ lit "Create " ++ home ++ lit "/.dune-secrets to store"; lit "your secrets, tokens, and API keys!" ].

(** All that the script asks and shows: it looks for [bat] and [lsd], sets the title,
    clears the screen, looks for the secrets; the dashboard; it looks for the
    secrets again, the shrew; two lines about the key for the weather service. *)
Definition start_requests (bat lsd secrets pic time date : str) (dash bubble : list str) : list request :=
  [ RqTest (lit "exists") bat; RqTest (lit "exists") lsd;
    RqPrint ([27%N] ++ lit "]2;Dune" ++ [27%N] ++ lit "[0m");
    RqPrint ([27%N] ++ lit "[2J" ++ [27%N] ++ lit "[H");
    RqTest (lit "exists") secrets; RqNow; RqNow ]
  ++ map RqPrint (banner_texts pic time date)
  ++ [ RqRandom 0 6; RqPrint (with_feeds dash ++ [10%N]); RqTest (lit "exists") secrets; RqSize; RqSize ]
  ++ map RqPrint (spoken bubble)
  ++ [ RqPrint (in_style "3" (in_style "91" (lit "Please set your `openweathermap.org` API key and your city with the `set-weather-api-key` macro in your .dune-prelude or .dune-secrets file!")) ++ [10%N]);
       RqPrint (in_style "92" (lit "You can remove these messages by editing your .dune-prelude!") ++ [10%N]) ].
