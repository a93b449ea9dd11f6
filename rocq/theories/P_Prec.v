(** Properties of operator expressions: C09. *)

From Coq Require Import String.
From Verif Require Import Base Syntax Tokenizer Parser WordFacts LimFacts PrecFacts P_Parse.

(** A well-formed text is parsed as its words are. *)
Lemma script_words s ws : words s ws ->
  malformed s \/ crowded s \/
  exists i, map word_of i = ws /\ Forall fair i /\
    parse_script s = match lim (utf8_len s) NScript i with
                     | POk [] e => SOk e
                     | POk (t :: r) _ =>
                         SError (exp_at (utf8_len s) (t :: r) (lit "end of input") None None)
                     | PErr e => SError e
                     | PFail e => SFailure e
                     | PPanic => SPanic
                     | PFuel => SFuel
                     end.
Proof.
  intros (ts & ds & T & W). unfold parse_script. rewrite T.
  destruct (filter_not_valid ds) as [e|(d & I & N)]; [rewrite e |].
  2:{ left. exists ts, ds, d. auto. }
  destruct (adjacent_crowded ts) as [-> |(a & x & y & b & E & R)].
  2:{ right; left. exists ts, ds, a, x, y, b. auto. }
  right; right. exists (filter significant ts).
  split; [apply words_filter, W |]. split; [| reflexivity].
  assert (F : Forall fair ts).
  { eapply fair_tokens; [exact T |]. clear - e. induction ds as [|d ds IH]; [constructor |].
    simpl in e. destruct d; simpl in e; try discriminate. constructor; auto. }
  apply Forall_forall. intros t I. apply filter_In in I as [I _].
  rewrite Forall_forall in F. now apply F.
Qed.

Theorem C09_precedence s ws e : words s ws -> op_expr 6 ws e ->
  parse_script s = SOk (EDo [e]) \/ malformed s \/ crowded s.
Proof.
  intros W D. destruct (script_words s ws W) as [M|[C|(i & E & F & ->)]]; auto.
  left. now rewrite (prec_script _ ws e i D E F).
Qed.

(** Three operands: tighter operators first, otherwise from the left. *)
Definition in_level (lv : nat) (op : str) : Prop := In op (level lv).

Definition bin (op : str) (a b : expr) : expr := EGroup (EApply (ESymbol op) [a; b]).

Lemma level_bounds lv op : in_level lv op -> 3 <= lv <= 6.
Proof. unfold in_level. destruct lv as [|[|[|[|[|[|[|lv]]]]]]]; simpl; try contradiction; lia. Qed.

Lemma op_up lv lv' ws e : lv <= lv' -> lv' <= 6 -> op_expr lv ws e -> op_expr lv' ws e.
Proof. intros L. induction L; intros U D; [exact D |]. apply op_tighter; [apply IHL; [lia | exact D] | lia]. Qed.

Theorem C09_three s a va b vb c vc op1 op2 l1 l2 :
  value a va -> value b vb -> value c vc -> in_level l1 op1 -> in_level l2 op2 ->
  words s [a; (TkOperator, op1); b; (TkOperator, op2); c] ->
  parse_script s = SOk (EDo [if l1 <=? l2 then bin op2 (bin op1 va vb) vc
                             else bin op1 va (bin op2 vb vc)])
  \/ malformed s \/ crowded s.
Proof.
  intros A B C I1 I2 W. pose proof (level_bounds _ _ I1). pose proof (level_bounds _ _ I2).
  eapply C09_precedence; [exact W |].
  assert (V : forall w v k, value w v -> 1 <= k <= 6 -> op_expr k [w] v).
  { intros w v k D L. apply (op_up 1); [lia | lia | now constructor]. }
  destruct l1 as [|l1]; [lia |]. destruct l2 as [|l2]; [lia |].
  destruct (Nat.leb_spec (S l1) (S l2)).
  - apply (op_up (S l2)); [lia | lia |].
    apply (op_binary l2 op2 [a; (TkOperator, op1); b] _ [c] vc I2).
    + apply (op_up (S l1)); [lia | lia |]. apply (op_binary l1 op1 [a] va [b] vb I1); apply V; auto; lia.
    + apply V; auto; lia.
  - apply (op_up (S l1)); [lia | lia |].
    apply (op_binary l1 op1 [a] va [b; (TkOperator, op2); c] _ I1).
    + apply V; auto; lia.
    + apply (op_up (S l2)); [lia | lia |]. apply (op_binary l2 op2 [b] vb [c] vc I2); apply V; auto; lia.
Qed.

Ltac find_words := eexists _, _; split; [vm_compute; reflexivity |];
  repeat (first [ apply words_nil
                | apply words_blank; [first [left; reflexivity | right; reflexivity] |]
                | apply words_word; [intros [X|X]; discriminate X |] ]).

Example C09_example :
  let s := lit "a - 1 + (b && c) * d@x >= 2 || y" in
  let sym x := ESymbol (lit x) in
  exists ws, words s ws /\ op_expr 6 ws
    (bin (lit "||")
       (bin (lit ">=")
          (bin (lit "+") (bin (lit "-") (sym "a"%string) (EInteger 1))
             (bin (lit "*") (EGroup (bin (lit "&&") (sym "b"%string) (sym "c"%string)))
                (EApply (ESymbol (lit "@")) [sym "d"%string; sym "x"%string])))
          (EInteger 2))
       (sym "y"%string)).
Proof.
  cbv zeta.
  exists (((([(TkSymbol, lit "a")] ++ (TkOperator, lit "-") :: [(TkIntegerLiteral, lit "1")])
          ++ (TkOperator, lit "+") ::
            (((TkPunctuation, lit "(") :: ([(TkSymbol, lit "b")] ++ (TkOperator, lit "&&") :: [(TkSymbol, lit "c")])
              ++ [(TkPunctuation, lit ")")])
             ++ (TkOperator, lit "*") ::
                ([(TkSymbol, lit "d")] ++ (TkOperator, lit "@") :: [(TkSymbol, lit "x")])))
          ++ (TkOperator, lit ">=") :: [(TkIntegerLiteral, lit "2")])
          ++ (TkOperator, lit "||") :: [(TkSymbol, lit "y")]).
  assert (V : forall w v k, value w v -> 1 <= k <= 6 -> op_expr k [w] v).
  { intros w v k D L. apply (op_up 1); [lia | lia | now constructor]. }
  split; [cbn [app]; find_words |].
  apply (op_binary 5 (lit "||")); [simpl; auto | | apply V; [constructor | lia]].
  apply (op_up 5); [lia | lia |].
  apply (op_binary 4 (lit ">=")); [simpl; auto | | apply V; [now constructor | lia]].
  apply (op_up 4); [lia | lia |].
  apply (op_binary 3 (lit "+")); [simpl; auto | |].
  - apply (op_binary 3 (lit "-")); [simpl; auto | apply V; [constructor | lia] | apply V; [now constructor | lia]].
  - apply (op_binary 2 (lit "*")); [simpl; auto | |].
    + apply (op_up 1); [lia | lia |]. apply op_paren.
      apply (op_binary 5 (lit "&&")); [simpl; auto | apply V; [constructor | lia] | apply V; [constructor | lia]].
    + apply op_at; [| simpl; lia].
      apply (at_more [_] [_]); [apply at_one |]; (apply V; [constructor | lia]).
Qed.

Print Assumptions C09_precedence.
Print Assumptions C09_three.
