(** C66: random values. *)

From Coq Require Import String List Lia Permutation.
From Verif Require Import Base Syntax Host Ops Monad Builtins Eval EvalSpec EvalFacts MapFacts
  CoreFacts LibFacts LibSpec RandSpec RandFacts Demo.
Import ListNotations.

(** [rand@int] gives an integer between the bounds, the upper one excluded. *)
Theorem C66_int H a b s l s1 h s2 :
  gives H a s (EInteger l) s1 -> gives H b s1 (EInteger h) s2 -> (l < h)%Z ->
  exists z s3, calls H RInt [a; b] s (ROk (EInteger z)) s3 /\ (l <= z < h)%Z /\ drawn 1 s2 s3.
Proof.
  intros A B L. unfold gives in *.
  destruct (sample_spec H l h s2 L) as (z & s3 & E & R & D).
  exists z, s3. split; [| auto]. call. unfold run_rand_int, exact2. repeat sure_step.
  rewrite (proj2 (Z.ltb_lt l h) L). eapply sure_bind_const; [exact E | apply sure_ret].
Qed.

(** ... and every such integer is possible. *)
Theorem C66_int_all H s l h z :
  (l <= z < h)%Z ->
  exists s', calls (with_numbers [z] (length (s_trace s)) H) RInt [EInteger l; EInteger h] s
               (ROk (EInteger z)) s'.
Proof.
  intros R. set (H' := with_numbers _ _ _).
  assert (A : gives H' (EInteger l) s (EInteger l) s) by apply value_evaluates, value_int.
  assert (B : gives H' (EInteger h) s (EInteger h) s) by apply value_evaluates, value_int.
  unfold gives in *. eexists. call. unfold run_rand_int, exact2. repeat sure_step.
  rewrite (proj2 (Z.ltb_lt l h)) by lia. eapply sure_bind_const; [| apply sure_ret].
  unfold sample, bind, ask, H'. cbn [h_answer with_numbers with_answer]. rewrite Nat.sub_diag. cbn [nth].
  rewrite (proj2 (Z.leb_le l z)), (proj2 (Z.ltb_lt z h)) by lia. reflexivity.
Qed.

(** Bounds between which there is nothing crash the shell. *)
Theorem C66_int_empty H a b s l s1 h s2 :
  gives H a s (EInteger l) s1 -> gives H b s1 (EInteger h) s2 -> (h <= l)%Z ->
  calls H RInt [a; b] s (RPanic PAssert) s2.
Proof.
  intros A B L. unfold gives in *. call. unfold run_rand_int, exact2. repeat sure_step.
  rewrite (proj2 (Z.ltb_ge l h) L). now apply sure_const.
Qed.

(** [rand@choose] gives an item of the list. *)
Theorem C66_choose H a s l s1 :
  gives H a s (EList l) s1 -> l <> [] ->
  exists x s2, calls H RChoose [a] s (ROk x) s2 /\ In x l /\ drawn 1 s1 s2.
Proof.
  intros A N. unfold gives in *.
  assert (P : (0 < Z.of_nat (length l))%Z) by (destruct l; [easy | cbn; lia]).
  destruct (sample_spec H 0 (Z.of_nat (length l)) s1 P) as (z & s2 & E & R & D).
  destruct (nth_error l (Z.to_nat z)) as [x |] eqn:X.
  2: { apply nth_error_None in X. lia. }
  exists x, s2. split; [| split; [now apply nth_error_In in X | exact D]].
  call. unfold run_choose, exact1. repeat sure_step.
  destruct l as [| y l]; [easy |]. eapply sure_bind_const; [exact E |]. cbv beta.
  rewrite X. apply sure_ret.
Qed.

(** ... and every item is possible. *)
Theorem C66_choose_all H s l x :
  In x l ->
  exists z s', calls (with_numbers [z] (length (s_trace s)) H) RChoose [EQuote (EList l)] s (ROk x) s'.
Proof.
  intros I. destruct (In_nth_error _ _ I) as [k K].
  assert (L : (k < length l)%nat) by (apply nth_error_Some; congruence).
  exists (Z.of_nat k). set (H' := with_numbers _ _ _).
  assert (A : gives H' (EQuote (EList l)) s (EList l) s) by apply quote_evaluates.
  unfold gives in A. eexists. call. unfold run_choose, exact1. repeat sure_step.
  destruct l as [| y l]; [easy |]. eapply sure_bind_const.
  - unfold sample, bind, ask, H'. cbn [h_answer with_numbers with_answer]. rewrite Nat.sub_diag. cbn [nth].
    rewrite (proj2 (Z.leb_le 0 (Z.of_nat k))), (proj2 (Z.ltb_lt (Z.of_nat k) (Z.of_nat (length (y :: l))))) by lia.
    reflexivity.
  - cbv beta. cbn [andb]. rewrite Nat2Z.id, K. apply sure_ret.
Qed.

(** The empty list crashes the shell. *)
Theorem C66_choose_empty H a s s1 :
  gives H a s (EList []) s1 -> calls H RChoose [a] s (RPanic PAssert) s1.
Proof.
  intros A. unfold gives in *. call. unfold run_choose, exact1. repeat sure_step.
  now apply sure_const.
Qed.

(** [rand@shuffle] gives the same items in some order. *)
Theorem C66_shuffle H a s l s1 :
  gives H a s (EList l) s1 ->
  exists l' s2, calls H RShuffle [a] s (ROk (EList l')) s2 /\ Permutation l l'
                /\ drawn (length l - 1) s1 s2.
Proof.
  intros A. unfold gives in *.
  destruct (shuffle_permutes H (length l - 1) l s1) as (l' & s2 & E & P & D); [lia |].
  exists l', s2. split; [| auto]. call. unfold run_shuffle, exact1. repeat sure_step.
  eapply sure_bind_const; [exact E | apply sure_ret].
Qed.

(** ... and every order is possible. *)
Theorem C66_shuffle_all H s l l' :
  Permutation l l' ->
  exists zs s', calls (with_numbers zs (length (s_trace s)) H) RShuffle [EQuote (EList l)] s
                  (ROk (EList l')) s'.
Proof.
  intros P. destruct l as [| x l].
  - apply Permutation_nil in P. subst l'. exists [], s.
    assert (A : gives (with_numbers [] (length (s_trace s)) H) (EQuote (EList [])) s (EList []) s)
      by apply quote_evaluates.
    unfold gives in A. call. unfold run_shuffle, exact1. repeat sure_step.
    eapply sure_bind_const; [reflexivity | apply sure_ret].
  - destruct (shuffle_reaches H (length (x :: l) - 1) (x :: l) l' [] s P) as (zs & K).
    + cbn. lia.
    + replace (S (length (x :: l) - 1)) with (length (x :: l)) by (cbn; lia).
      rewrite skipn_all. symmetry. apply skipn_all2. now rewrite (Permutation_length P).
    + destruct (K (length (s_trace s)) []) as (s' & E); [cbn; lia |].
      cbn [app] in E. rewrite app_nil_r in E. exists zs, s'.
      set (H' := with_numbers zs _ H) in *.
      assert (A : gives H' (EQuote (EList (x :: l))) s (EList (x :: l)) s) by apply quote_evaluates.
      unfold gives in A. call. unfold run_shuffle, exact1. repeat sure_step.
      eapply sure_bind_const; [exact E | apply sure_ret].
Qed.

(** "These functions never crash" is false. *)
Theorem C66_no_crash_refuted :
  exists s, calls demo_host RInt [EInteger 3; EInteger 3] s (RPanic PAssert) s
            /\ calls demo_host RChoose [EList []] s (RPanic PAssert) s.
Proof. exists demo. split; compute_outcome 20%nat. Qed.

Example C66_example :
  value_of "rand@int 3 5" = ROk (EInteger 3)
  /\ value_of "rand@choose [7, 8]" = ROk (EInteger 7)
  /\ value_of "rand@shuffle [1, 2, 3]" = ROk (EList (map EInteger [2; 3; 1]%Z))
  /\ fst (run_builtin (with_numbers [1; 0]%Z 0 demo_host) (eval (with_numbers [1; 0]%Z 0 demo_host) 50 0)
            RShuffle [EList (map EInteger [1; 2; 3]%Z)] demo)
     = ROk (EList (map EInteger [3; 1; 2]%Z))
  /\ value_of "rand@int 5 3" = RPanic PAssert.
Proof. repeat split; vm_compute; reflexivity. Qed.

Print Assumptions C66_int.
Print Assumptions C66_int_all.
Print Assumptions C66_int_empty.
Print Assumptions C66_choose.
Print Assumptions C66_choose_all.
Print Assumptions C66_choose_empty.
Print Assumptions C66_shuffle.
Print Assumptions C66_shuffle_all.
Print Assumptions C66_no_crash_refuted.
