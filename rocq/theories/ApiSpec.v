(** Asking the weather service, and setting the key for it. *)

From Coq Require Import String ZArith List.
From Verif Require Import Base Syntax Host Ops Monad Builtins Eval Init EvalSpec Prelude PreludeFacts.
Import ListNotations.

(** The statement of [reload-weather-api] that defines [weather-api].
    src/.default-dune-prelude:282-296. *)
Definition api_definition : expr := Eval vm_compute in
  match nth 18 default_program ENone with
  | EAssign _ (EMacro _ (EDo (x :: _))) => x
  | _ => ENone
  end.

(** The names it uses, in a new shell.  src/binary/init/mod.rs:28-437. *)
Definition api_names : list (str * expr) :=
  [ (lit "@", bi BIndex "@"); (lit "+", bi BAdd "+"); (lit "==", bi BEq "=="); (lit "str", bi BStr "str");
    (lit "|", bi BPipe "|"); (lit "echo", bi BPrintln "println"); (lit "fmt", EMap fmt_module);
    (lit "parse", EMap parse_module) ]%string.

(** These names mean what they mean in a new shell, and nothing else is called
    like the program and its option. *)
Definition curious (e : env) : Prop :=
  (forall x v, In (x, v) api_names -> env_get x e = Some v) /\ env_get (lit "curl") e = None /\ env_get (lit "--silent") e = None.

(** [weather-api] was defined in such a shell while [key] was the key. *)
Definition knows (H : host) (key : expr) (e : env) : Prop :=
  exists s v s1, curious (s_env s) /\ env_get (lit "WEATHER-API-KEY") (s_env s) = Some key
    /\ evaluates H 0 api_definition s (ROk v) s1
    /\ env_get (lit "weather-api") e = env_get (lit "weather-api") (s_env s1).

(** The address that is asked.  src/.default-dune-prelude:290-291. *)
Definition address (units city key : str) : str :=
  lit "http://api.openweathermap.org/data/2.5/weather?q=" ++ city ++ lit "&units=" ++ units ++ lit "&appid=" ++ key.

(** What is made of the text that comes back.
    src/binary/init/parse_module.rs:33-48. *)
Inductive weather_data (H : host) (t : str) : res expr -> Prop :=
| wd_nothing : t = [] -> weather_data H t (ROk ENone)
| wd_value j : t <> [] -> h_json H t = Some j -> weather_data H t (ROk (json_expr j))
| wd_garbage : t <> [] -> h_json H t = None ->
    weather_data H t (RErr (CustomError (lit "could not parse `" ++ t ++ lit "` as JSON"))).

(** The line that is shown when there is no key. *)
Definition no_key : str :=
  lit "Please set your `openweathermap.org` API key with the `set-weather-api-key` macro!".
