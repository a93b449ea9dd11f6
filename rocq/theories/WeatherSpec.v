(** Vocabulary of the theorems about the pictures of the weather in the start-up
    script. *)

From Coq Require Import String List NArith ZArith.
From Verif Require Import Base Syntax Host Monad EvalSpec Init Builtins Prelude PreludeFacts.
Import ListNotations.

Definition weather_names : list str := map lit ["WEATHER-ASCII"; "get-weather-ascii"]%string.

(** Their definitions.  src/.default-dune-prelude:83-174 and 215-284, as the parser
    reads them. *)
Definition weather_definitions : list expr := Eval vm_compute in
  filter (fun e => match e with EAssign x _ => existsb (str_eqb x) weather_names | _ => false end) default_program.

(** The operators are what they are in a new shell.
    src/binary/init/mod.rs:28-437. *)
Definition outside (e : env) : Prop :=
  env_get (lit "==") e = Some (bi BEq "==") /\ env_get (lit "||") e = Some (bi BOr "||")
  /\ env_get (lit "@") e = Some (bi BIndex "@").

(** The function is as the script defined it in such a shell. *)
Definition watching (H : host) (e : env) : Prop :=
  exists s v s1, outside (s_env s) /\ evaluates H 0 (EDo weather_definitions) s (ROk v) s1
    /\ env_get (lit "get-weather-ascii") e = env_get (lit "get-weather-ascii") (s_env s1).

(** The pictures of the script by name. *)
Definition gallery : list (str * expr) := Eval vm_compute in
  match weather_definitions with EAssign _ (EMap m) :: _ => m | _ => [] end.

(** The names of the pictures for the descriptions of the weather that
    openweathermap.org gives.  src/.default-dune-prelude:215-284. *)
Definition forecast : list (list string * string) :=
  [ (["light intensity drizzle"; "drizzle"; "heavy intensity drizzle"; "light intensity drizzle rain"; "drizzle rain";
      "heavy intensity drizzle rain"; "shower rain and drizzle"; "heavy shower rain and drizzle"; "shower drizzle"], "LightShowers");
    (["shower rain"; "ragged shower rain"; "light intensity shower rain"], "LightShowers");
    (["light rain"], "LightRain");
    (["moderate rain"; "heavy intensity shower rain"], "HeavyShowers");
    (["heavy intensity rain"; "very heavy rain"; "extreme rain"], "HeavyRain");
    (["freezing rain"], "LightSleet");
    (["light snow"; "Snow"], "LightSnow");
    (["Heavy snow"], "HeavySnow");
    (["Sleet"], "LightSleet");
    (["Light shower sleet"], "LightSleetShowers");
    (["Shower sleet"; "Rain and snow"], "HeavySnowShowers");
    (["Light shower snow"; "Light rain and snow"], "LightSnowShowers");
    (["Shower snow"; "Heavy shower snow"], "HeavySnowShowers");
    (["thunderstorm with light rain"; "thunderstorm with rain"; "ragged thunderstorm"; "thunderstorm with light drizzle";
      "light thunderstorm"; "thunderstorm"; "thunderstorm with drizzle"; "thunderstorm with heavy drizzle"], "ThunderyShowers");
    (["thunderstorm with heavy rain"; "heavy thunderstorm"], "ThunderyHeavyRain");
    (["clear sky"], "Sunny");
    (["few clouds"], "PartlyCloudy");
    (["scattered clouds"], "Cloudy");
    (["broken clouds"], "Cloudy");
    (["overcast clouds"], "VeryCloudy");
    (["mist"; "Smoke"; "Haze"; "sand/ dust whirls"; "fog"; "sand"; "dust"; "volcanic ash"; "squalls"; "tornado"], "Fog") ]%string.

(** The name of the picture for a value: the one that goes with the text, for
    everything else "Unknown". *)
Definition pictured (v : expr) (name : string) : Prop :=
  (exists texts t, In (texts, name) forecast /\ In t texts /\ v = EString (lit t))
  \/ name = "Unknown"%string /\ forall texts n t, In (texts, n) forecast -> In t texts -> v <> EString (lit t).
