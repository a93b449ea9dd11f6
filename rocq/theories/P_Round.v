(** Property of printing and reading: C10. *)

From Coq Require Import String.
From Coq Require QArith_base SpecFloat.
From Verif Require Import Base Syntax Parser Host RoundSpec RoundFacts.
From Verif Require FloatSpec FloatFmt Demo.

(** ** C10 *)

(** What reading the printed form gives. *)
Theorem C10_reread H e : readable H e -> parse_script (debug H e) = SOk (EDo [reread e]).
Proof. exact (readable_reread H e). Qed.

(** Missing: the expressions that are not [readable] (see [C10_refuted], and
    C102 for floats that are whole numbers). *)
Theorem C10_round_trip_partial H e : readable H e ->
  (parse_script (debug H e) = SOk (EDo [e]) <-> no_if e).
Proof.
  intros R. rewrite (readable_reread H e R). destruct (same_size e) as (_ & A & B). split.
  - intros E. injection E as E. apply A. now rewrite E.
  - intros N. now rewrite B.
Qed.

Ltac reads :=
  repeat match goal with
  | |- identifier _ => now apply identifier_ok
  | |- _ /\ _ => split
  | |- Forall _ [] => apply Forall_nil
  | |- Forall _ (_ :: _) => apply Forall_cons
  | |- (_ <= _)%Z => vm_compute; discriminate
  | |- operand _ (ESymbol _) => apply r_name
  | |- operand _ _ => constructor
  | |- _ <> [] => discriminate
  | |- True => exact I
  | |- identifier _ \/ _ => (left; now apply identifier_ok) || (right; now apply operator_ok)
  | |- env_new = env_new => reflexivity
  end.

(** A conditional; a call as the argument of another; a function that is
    called; a text with the null character; an empty block; an operator as an
    argument; a loop over a range. *)
Theorem C10_refuted H :
  Forall (fun e => source e /\ parse_script (debug H e) <> SOk (EDo [e]))
    [EIf (EBoolean true) (EInteger 1) (EInteger 2);
     EApply (ESymbol (lit "f")) [EApply (ESymbol (lit "g")) [ESymbol (lit "x")]];
     EApply (ELambda (lit "x") (ESymbol (lit "x")) env_new) [EInteger 1];
     EString [0%N];
     EDo [];
     EApply (ESymbol (lit "f")) [ESymbol (lit "+"); EInteger 1];
     EFor (lit "i") (EApply (ESymbol (lit "to")) [EInteger 0; EInteger 9]) (EDo [])].
Proof.
  repeat apply Forall_cons; try apply Forall_nil; (split; [| vm_compute; discriminate]);
    cbn [source fold_right]; reads.
  left. unfold between. lia.
Qed.

(** [let f = x -> { g x "a b\n"; for y in [1, -2] { + y 1 }; h 'x (x) {} }] *)
Definition a_program : expr :=
  EAssign (lit "f") (ELambda (lit "x")
    (EDo [EApply (ESymbol (lit "g")) [ESymbol (lit "x"); EString [97; 32; 98; 10]%N];
          EFor (lit "y") (EList [EInteger 1; EInteger (-2)])
            (EDo [EApply (ESymbol (lit "+")) [ESymbol (lit "y"); EInteger 1]]);
          EApply (ESymbol (lit "h"))
            [EQuote (ESymbol (lit "x")); EGroup (ESymbol (lit "x")); EMap []]]) env_new).

Definition a_choice : expr :=
  EIf (ESymbol (lit "a")) ENone (EIf (EBoolean true) (EInteger 1) (EInteger 2)).

Example C10_example H :
  debug H a_program = lit "let f = x -> { g x ""a b\n""; for y in [1, -2] { + y 1 }; h 'x (x) {} }"
  /\ readable H a_program /\ no_if a_program
  /\ parse_script (debug H a_program) = SOk (EDo [a_program])
  /\ debug H a_choice = lit "if a None else if True 1 else 2"
  /\ readable H a_choice
  /\ parse_script (debug H a_choice)
     = SOk (EDo [EIf (ESymbol (lit "a")) ENone
                   (EGroup (EIf (EBoolean true) (EInteger 1) (EGroup (EInteger 2))))]).
Proof.
  assert (R : readable H a_program).
  { apply r_assign; [left; reads |]. apply r_lambda; [reads |]. apply r_operand, r_block; [discriminate |].
    repeat apply Forall_cons; try apply Forall_nil.
    - apply r_apply; [left; reads | discriminate |]. repeat apply Forall_cons; try apply Forall_nil; [reads |].
      apply r_string. repeat apply Forall_cons; try apply Forall_nil; (split; [discriminate |]);
        (split; [left; unfold between | left]); lia.
    - apply r_for; [reads | |].
      + apply r_list. repeat apply Forall_cons; try apply Forall_nil; apply r_operand; reads.
      + apply Forall_cons; [| apply Forall_nil]. apply r_apply; [| discriminate | reads].
        right. exists (lit "+"). split; [now apply operator_ok | reflexivity].
    - apply r_apply; [left; reads | discriminate |]. repeat apply Forall_cons; try apply Forall_nil.
      + apply r_quote. reads.
      + apply r_group, r_operand. reads.
      + apply r_no_map. }
  assert (Q : readable H a_choice).
  { apply r_if, r_else; [reads | reads | right]. apply r_else; [reads | reads | left; reads]. }
  split; [reflexivity |]. split; [exact R |]. split; [cbn; tauto |].
  split; [apply C10_round_trip_partial; [exact R | cbn; tauto] |].
  split; [reflexivity |]. split; [exact Q |]. exact (C10_reread H a_choice Q).
Qed.

(** [g 0.5 [-0.375]] *)
Definition a_half : expr := EFloat (SpecFloat.S754_finite false (2 ^ 52) (-53)).
Definition a_fraction : expr := EFloat (SpecFloat.S754_finite true (3 * 2 ^ 51) (-54)).

Example C10_floats :
  let H := FloatFmt.with_floats Demo.demo_host in
  let e := EApply (ESymbol (lit "g")) [a_half; EList [a_fraction]] in
  debug H e = lit "g 0.5 [-0.375]" /\ readable H e /\ parse_script (debug H e) = SOk (EDo [e]).
Proof.
  cbv zeta. set (H := FloatFmt.with_floats Demo.demo_host).
  set (e := EApply (ESymbol (lit "g")) [a_half; EList [a_fraction]]).
  assert (W : forall f p q, QArith_base.Qeq (FloatSpec.value f) (QArith_base.Qmake p q) -> (p mod Zpos q <> 0)%Z ->
    ~ FloatSpec.whole (FloatSpec.value f)).
  { intros f p q E N (z & X). rewrite E in X. unfold QArith_base.Qeq in X. cbn [QArith_base.Qnum QArith_base.Qden QArith_base.inject_Z] in X.
    apply N. rewrite Z.mul_1_r in X. rewrite X. apply Z.mod_mul. discriminate. }
  assert (F : forall s m e, (2 ^ 52 <=? Zpos m)%Z && (Zpos m <? 2 ^ 53)%Z && (-1074 <=? e)%Z && (e <=? 971)%Z = true ->
    FloatSpec.finite (SpecFloat.S754_finite s m e)).
  { intros s m k B. repeat (apply andb_prop in B as [B ?]). left. split; split; apply Z.leb_le || apply Z.ltb_lt; assumption. }
  assert (R : readable H e).
  { apply r_apply; [left; reads | discriminate |]. repeat apply Forall_cons; try apply Forall_nil.
    - apply r_float; [apply F; reflexivity | apply (W _ 1%Z 2%positive); [vm_compute; reflexivity | discriminate] | reflexivity].
    - apply r_list. apply Forall_cons; [| apply Forall_nil]. apply r_operand.
      apply r_float; [apply F; reflexivity | apply (W _ (-3)%Z 8%positive); [vm_compute; reflexivity | discriminate] | reflexivity]. }
  split; [vm_compute; reflexivity |]. split; [exact R |]. apply (proj2 (C10_round_trip_partial H e R)). cbn. tauto.
Qed.

Print Assumptions C10_reread.
Print Assumptions C10_round_trip_partial.
Print Assumptions C10_refuted.
