(** Shifts, absolute values and rounding to whole numbers. *)

From Coq Require Import String ZArith QArith Qround List.
From Verif Require Import Base Syntax Host SysSpec FloatSpec.
Import ListNotations.

(** Of the integers that differ from [z] by a multiple of 2^64, the one that
    fits into 64 bits. *)
Definition truncated (z r : Z) : Prop := fits r /\ (exists k, r = z + k * 2 ^ 64)%Z.

(** The shifts of [a] by [n] places. *)
Definition shifted (b : bid) (a n r : Z) : Prop :=
  match b with
  | MLsh => truncated (a * 2 ^ n) r
  | MARsh => r = (a / 2 ^ n)%Z
  | MLRsh => exists u, (0 <= u < 2 ^ 64 /\ (exists k, u = a + k * 2 ^ 64) /\ truncated (u / 2 ^ n) r)%Z
  | _ => False
  end.

(** The whole number that a rounding function gives. *)
Inductive whole : string -> Q -> Z -> Prop :=
| whole_floor q : whole "floor" q (Qfloor q)
| whole_ceil q : whole "ceil" q (Qceiling q)
| whole_trunc_up q : 0 <= q -> whole "trunc" q (Qfloor q)
| whole_trunc_down q : q < 0 -> whole "trunc" q (Qceiling q)
| whole_round_up q : 0 <= q -> whole "round" q (Qfloor (q + (1 # 2)))
| whole_round_down q : q < 0 -> whole "round" q (Qceiling (q - (1 # 2))).
