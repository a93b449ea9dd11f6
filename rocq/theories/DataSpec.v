(** Vocabulary of the theorems about JSON and TOML. *)

From Coq Require Import String List.
From Verif Require Import Base Syntax Host.
Import ListNotations.

(** The last item with the key [k]. *)
Definition last_item {A} (k : str) (x : A) (l : list (str * A)) : Prop :=
  exists a b, l = a ++ (k, x) :: b /\ ~ In k (map fst b).

(** The value that stands for a JSON value. *)
Inductive json_value : json -> expr -> Prop :=
| jv_null : json_value JNull ENone
| jv_boolean b : json_value (JBoolean b) (EBoolean b)
| jv_number f : json_value (JNumber f) (EFloat f)
| jv_string s : json_value (JString s) (EString s)
| jv_array l vs : Forall2 json_value l vs -> json_value (JArray l) (EList vs)
| jv_object m vs :
    NoDup (map fst vs) -> (forall k, In k (map fst vs) <-> In k (map fst m)) ->
    (forall k v, In (k, v) vs -> exists j, last_item k j m /\ json_value j v) ->
    json_value (JObject m) (EMap vs).

(** The value that stands for a TOML value. *)
Inductive toml_value : toml -> expr -> Prop :=
| tv_boolean b : toml_value (TmBoolean b) (EBoolean b)
| tv_float f : toml_value (TmFloat f) (EFloat f)
| tv_integer z : toml_value (TmInteger z) (EInteger z)
| tv_datetime s : toml_value (TmDatetime s) (EString s)
| tv_string s : toml_value (TmString s) (EString s)
| tv_array l vs : Forall2 toml_value l vs -> toml_value (TmArray l) (EList vs)
| tv_table m vs :
    NoDup (map fst vs) -> (forall k, In k (map fst vs) <-> In k (map fst m)) ->
    (forall k v, In (k, v) vs -> exists t, last_item k t m /\ toml_value t v) ->
    toml_value (TmTable m) (EMap vs).

(** All integers in it have 64 bits, as in the TOML library. *)
Inductive toml_fits : toml -> Prop :=
| tf_boolean b : toml_fits (TmBoolean b)
| tf_float f : toml_fits (TmFloat f)
| tf_integer z : (- 2 ^ 63 <= z < 2 ^ 63)%Z -> toml_fits (TmInteger z)
| tf_datetime s : toml_fits (TmDatetime s)
| tf_string s : toml_fits (TmString s)
| tf_array l : Forall toml_fits l -> toml_fits (TmArray l)
| tf_table m : Forall (fun kv => toml_fits (snd kv)) m -> toml_fits (TmTable m).
