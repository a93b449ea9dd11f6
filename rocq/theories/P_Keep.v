(** C08: the parser keeps every operand. *)

From Coq Require Import String Floats.SpecFloat Permutation.
From Verif Require Import Base Syntax Tokenizer Parser MapFacts LeafSpec LeafFacts.

(** The identifiers and literals of an accepted script are those of its
    expression, each as often as it was written: none is lost and none is made
    up.  Two kinds of scripts are excluded, for which it is not true (below): those
    with an operator [!] after an operand, and those with a map literal that has
    a key twice. *)
Theorem C08_operands_kept_partial s ts ds e :
  tokenize s = TokOk ts ds -> parse_script s = SOk e ->
  not_leads (filter significant ts) -> ~ repeated_key (filter significant ts) ->
  Permutation (operands e) (written ts).
Proof. exact (parse_script_keeps s ts ds e). Qed.

(** In particular every operand written occurs in the expression. *)
Theorem C08_operand_occurs_partial s ts ds e t l :
  tokenize s = TokOk ts ds -> parse_script s = SOk e ->
  not_leads (filter significant ts) -> ~ repeated_key (filter significant ts) ->
  In t ts -> In l (token_leaf t) -> In l (operands e).
Proof.
  intros T E N R I L. apply (Permutation_in _ (Permutation_sym (parse_script_keeps s ts ds e T E N R))).
  apply in_flat_map. now exists t.
Qed.

(** Deciding the hypotheses for examples. *)
Fixpoint leads_b (ts : list token) : bool :=
  match ts with
  | t :: (u :: _) as r =>
      (negb (str_eqb (t_text u) (lit "!")) || existsb (str_eqb (t_text t)) openers) && leads_b r
  | _ => true
  end.
Lemma leads_b_ok ts : leads_b ts = true -> not_leads ts.
Proof.
  induction ts as [| t ts IH]; intros B a x u b E U.
  - destruct a; discriminate.
  - destruct a as [| y a].
    + injection E as -> ->. cbn [leads_b] in B. apply andb_prop in B. destruct B as [B _].
      rewrite U in B. now apply existsb_str in B.
    + injection E as -> ->. apply (IH) with (a := a) (u := u) (b := b); [| reflexivity | exact U].
      cbn [leads_b] in B. destruct (a ++ x :: u :: b); [reflexivity |]. now apply andb_prop in B.
Qed.
(** No word is twice before [=]. *)
Fixpoint before_eq (ts : list token) : list str :=
  match ts with
  | t :: (u :: _) as r => if str_eqb (t_text u) (lit "=") then t_text t :: before_eq r else before_eq r
  | _ => []
  end.
Lemma before_eq_cons t u r : before_eq (t :: u :: r)
  = if str_eqb (t_text u) (lit "=") then t_text t :: before_eq (u :: r) else before_eq (u :: r).
Proof. reflexivity. Qed.
Lemma before_eq_app a k q b : t_text q = lit "=" -> In (t_text k) (before_eq (a ++ k :: q :: b)).
Proof.
  intros Q. induction a as [| t a IH].
  - cbn [app before_eq]. rewrite Q, str_eqb_refl. now left.
  - cbn [app before_eq]. destruct (a ++ k :: q :: b) eqn:E; [destruct a; discriminate |].
    destruct (str_eqb _ _); [now right | exact IH].
Qed.
Lemma before_eq_twice a k q mid c k' q' b : t_text q = lit "=" -> t_text k' = t_text k -> t_text q' = lit "=" ->
  ~ NoDup (before_eq (a ++ k :: q :: mid ++ c :: k' :: q' :: b)).
Proof.
  intros Q K Q'. induction a as [| t a IH]; intros N.
  - cbn [app] in N. rewrite before_eq_cons, (proj2 (str_eqb_eq _ _) Q) in N. inversion_clear N as [| ? ? X _]. apply X.
    pose proof (before_eq_app ((q :: mid) ++ [c]) k' q' b Q') as H. rewrite <- app_assoc in H.
    rewrite <- K. exact H.
  - cbn [app before_eq] in N. destruct (a ++ k :: q :: _) eqn:E; [destruct a; discriminate |].
    destruct (str_eqb _ _); [inversion_clear N |]; now apply IH.
Qed.
Lemma before_eq_ok ts : NoDup (before_eq ts) -> ~ repeated_key ts.
Proof.
  intros N (a & o & k & q & mid & c & k' & q' & b & -> & O & Q & B & C & K & Q').
  apply (before_eq_twice (a ++ [o]) k q mid c k' q' b Q K Q'). now rewrite <- app_assoc.
Qed.

(** A script with all kinds of operands, [!] among them. *)
Example C08_example :
  let s := lit "let f = x -> {if x > 1 {'y} else {[2.5, (! True), ""a""]}}; for i in 0 to 3 {f i | g {k = 1, m = f@n}}" in
  exists ts ds e, tokenize s = TokOk ts ds /\ parse_script s = SOk e
    /\ not_leads (filter significant ts) /\ ~ repeated_key (filter significant ts)
    /\ length (written ts) = 19 /\ In (LName (lit "n")) (operands e).
Proof.
  cbv zeta. do 3 eexists. split; [vm_compute; reflexivity |]. split; [vm_compute; reflexivity |].
  split; [apply leads_b_ok; vm_compute; reflexivity |].
  split.
  { apply before_eq_ok. match goal with |- NoDup ?l => let v := eval vm_compute in l in change (NoDup v) end.
    repeat (constructor; [cbn; intuition discriminate |]). constructor. }
  split; [vm_compute; reflexivity |]. vm_compute. tauto.
Qed.

(** Not every operand is kept: [!] after an operand makes the parser drop that
    operand, ... *)
Theorem C08_refuted :
  exists s ts ds e t, tokenize s = TokOk ts ds /\ parse_script s = SOk e
    /\ In t ts /\ token_leaf t = [LName (lit "echo")] /\ ~ In (LName (lit "echo")) (operands e).
Proof.
  exists (lit "echo ! x"). do 3 eexists. exists (Token TkSymbol (lit "echo") (Slice 0 4)).
  split; [vm_compute; reflexivity |]. split; [vm_compute; reflexivity |].
  split; [now left |]. split; [reflexivity |]. vm_compute. intuition discriminate.
Qed.

(** ... and of two entries with the same key one is dropped. *)
Theorem C08_repeated_key_refuted :
  exists s ts ds e t, tokenize s = TokOk ts ds /\ parse_script s = SOk e
    /\ not_leads (filter significant ts)
    /\ In t ts /\ token_leaf t = [LInt 1] /\ ~ In (LInt 1) (operands e).
Proof.
  exists (lit "{a = 1, a = 2}"). do 3 eexists. exists (Token TkIntegerLiteral (lit "1") (Slice 5 6)).
  split; [vm_compute; reflexivity |]. split; [vm_compute; reflexivity |].
  split; [apply leads_b_ok; vm_compute; reflexivity |].
  split; [cbn; tauto |]. split; [reflexivity |]. vm_compute. intuition discriminate.
Qed.

Print Assumptions C08_operands_kept_partial.
Print Assumptions C08_operand_occurs_partial.
Print Assumptions C08_refuted.
Print Assumptions C08_repeated_key_refuted.
