(** Vocabulary of the theorems about random values. *)

From Coq Require Import List.
From Verif Require Import Base Syntax Host Monad.
Import ListNotations.

(** [s'] comes from [s] by asking for [n] random numbers and nothing else. *)
Definition drawn (n : nat) (s s' : st) : Prop :=
  s_env s' = s_env s /\ s_log s' = s_log s /\
  exists new, s_trace s' = new ++ s_trace s /\ length new = n
              /\ Forall (fun e => exists lo hi, fst e = RqRandom lo hi) new.

(** [H] with the random numbers [js], counted from a history of length [t0]. *)
Definition with_numbers (js : list Z) (t0 : nat) (H : host) : host :=
  with_answer
    (fun t rq =>
       match rq with
       | RqRandom _ _ => RsInt (nth (length t - t0) js 0%Z)
       | _ => h_answer H t rq
       end) H.
