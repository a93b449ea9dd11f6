(** Operator expressions: grammar and parser agree. *)

From Coq Require Import String.
From Verif Require Import Base Syntax Tokenizer Parser MapFacts WordFacts ParserFacts LimFacts ForwardFacts.

(** A token without its place: kind and text. *)
Definition word : Type := token_kind * str.

(** What a name or literal denotes. *)
Inductive value : word -> expr -> Prop :=
| v_name x : value (TkSymbol, x) (ESymbol x)
| v_integer s z : parse_i64 s = Some z -> value (TkIntegerLiteral, s) (EInteger z)
| v_float s f : parse_f64 s = Some f -> value (TkFloatLiteral, s) (EFloat f)
| v_string s t : unescape s = Some t -> value (TkStringLiteral, s) (EString t)
| v_true : value (TkBooleanLiteral, lit "True") (EBoolean true)
| v_false : value (TkBooleanLiteral, lit "False") (EBoolean false)
| v_none : value (TkKeyword, lit "None") ENone.

(** The binary operators of each level, loosest last. *)
Definition level (lv : nat) : list str :=
  match lv with
  | 3 => [lit "*"; lit "//"; lit "%"]
  | 4 => [lit "+"; lit "-"]
  | 5 => [lit "=="; lit "!="; lit ">="; lit "<="; lit ">"; lit "<"]
  | 6 => [lit "&&"; lit "||"]
  | _ => []
  end.

(** Operator expressions as a stratified grammar.  Level 1: names, literals,
    parentheses.  Level 2: [a @ b @ c].  Levels 3 to 6: the left operand of an
    operator may use operators of the same level, the right operand may not. *)
Inductive op_expr : nat -> list word -> expr -> Prop :=
| op_value w e : value w e -> op_expr 1 [w] e
| op_paren ws e : op_expr 6 ws e ->
    op_expr 1 ((TkPunctuation, lit "(") :: ws ++ [(TkPunctuation, lit ")")]) (EGroup e)
| op_at ws l : at_chain ws l -> 2 <= length l -> op_expr 2 ws (EApply (ESymbol (lit "@")) l)
| op_tighter lv ws e : op_expr lv ws e -> lv < 6 -> op_expr (S lv) ws e
| op_binary lv op ws1 e1 ws2 e2 : In op (level (S lv)) ->
    op_expr (S lv) ws1 e1 -> op_expr lv ws2 e2 ->
    op_expr (S lv) (ws1 ++ (TkOperator, op) :: ws2) (EGroup (EApply (ESymbol op) [e1; e2]))
with at_chain : list word -> list expr -> Prop :=
| at_one ws e : op_expr 1 ws e -> at_chain ws [e]
| at_more ws l ws' e : at_chain ws l -> op_expr 1 ws' e ->
    at_chain (ws ++ (TkOperator, lit "@") :: ws') (l ++ [e]).

Scheme op_expr_mind := Induction for op_expr Sort Prop
  with at_chain_mind := Induction for at_chain Sort Prop.
Combined Scheme op_ind from op_expr_mind, at_chain_mind.

Definition word_of (t : token) : word := (t_kind t, t_text t).

(** What must not follow an expression of a level. *)
Definition stops (lv : nat) : list str :=
  match lv with
  | 0 | 1 => []
  | 2 => [lit "@"]
  | 3 => [lit "@"] ++ level 3
  | 4 => [lit "@"] ++ level 3 ++ level 4
  | 5 => [lit "@"] ++ level 3 ++ level 4 ++ level 5 ++ [lit "to"; lit "!"]
  | _ => [lit "@"] ++ level 3 ++ level 4 ++ level 5 ++ [lit "to"; lit "!"] ++ level 6
  end.

Definition nt_of (lv : nat) : nt :=
  match lv with
  | 0 | 1 => NP1 | 2 => NP2 | 3 => NP3 | 4 => NP4 | 5 => NP5 | _ => NP6
  end.

Definition operator_hd (i : list token) : Prop :=
  match i with
  | [] => True
  | t :: _ => t_kind t = TkOperator /\ ~ In (t_text t) (openers ++ [lit "->"; lit "~>"])
  end.

Section Prec.
  Variable slen : N.
  Notation lim := (lim slen).

  Definition parses (n : nt) (i : list token) (st : list str) (e : expr) : Prop :=
    forall r, hd_not st r -> lim n (i ++ r) = POk r e.

  (** The first operand of [i], up to an operator or the end. *)
  Definition first_operand (i : list token) : Prop :=
    exists a b e, i = a ++ b /\ parses NP2 a [lit "@"] e /\ operator_hd b /\ hd_not [lit "@"] b.

  Definition no_arrow (i : list token) : Prop :=
    match i with t :: r => t_kind t = TkSymbol -> operator_hd r | [] => True end.

  (** Continuing the operators of a level after [i]. *)
  Definition extends (lv : nat) (i : list token) (e : expr) : Prop :=
    forall r r' l, hd_not (stops lv) r ->
      many (pair_p (alt (map text (level (S lv)))) (lim (nt_of lv))) r r' l ->
      exists h l0, infix (level (S lv)) (lim (nt_of lv)) (i ++ r) = POk r' (h, l0 ++ l)
        /\ fold_ops h l0 = e.

  Definition claim (lv : nat) (ws : list word) (e : expr) : Prop :=
    forall i, map word_of i = ws -> Forall fair i ->
      plain_hd i /\ no_arrow i
      /\ (1 <= lv -> parses (nt_of lv) i (stops lv) e)
      /\ (1 <= lv -> first_operand i)
      /\ (3 <= lv -> extends (pred lv) i e).

  Definition chain (ws : list word) (l : list expr) : Prop :=
    forall i, map word_of i = ws -> Forall fair i ->
      plain_hd i /\ no_arrow i
      /\ exists h l0, l = h :: l0 /\
         forall r r' l', many (preceded (text (lit "@")) (alt [(lim NP1 : parser expr); parse_operator_as_symbol])) r r' l' ->
           exists i1, lim NP1 (i ++ r) = POk i1 h
             /\ many (preceded (text (lit "@")) (alt [(lim NP1 : parser expr); parse_operator_as_symbol])) i1 r' (l0 ++ l').

  Lemma hd_not_app l i r : i <> [] -> hd_not l (i ++ r) <-> hd_not l i.
  Proof. destruct i; [congruence | reflexivity]. Qed.

  Lemma plain_app i r : plain_hd i -> plain_hd (i ++ r).
  Proof. destruct i; simpl; tauto. Qed.

  Lemma not_in_sub (x : str) l l' : incl l l' -> ~ In x l' -> ~ In x l.
  Proof. intros I N J. apply N, I, J. Qed.

  Definition listed (l l' : list str) : bool := forallb (fun x => existsb (str_eqb x) l') l.
  Lemma listed_incl l l' : listed l l' = true -> incl l l'.
  Proof.
    intros E x I. unfold listed in E. rewrite forallb_forall in E. specialize (E x I).
    apply existsb_exists in E as (y & J & Q). apply str_eqb_eq in Q. now subst.
  Qed.
  Ltac within := apply listed_incl; vm_compute; reflexivity.

  (** ** Names and literals *)

  Lemma value_plain w e t : value w e -> word_of t = w -> fair t -> plain t.
  Proof.
    intros V E F. unfold plain, word_of in *.
    assert (K : operand_kind (t_kind t) = true \/ t_text t = lit "None" /\ t_kind t = TkKeyword).
    { destruct V; injection E as K T; rewrite K, ?T; auto. }
    assert (NO : t_kind t <> TkOperator /\ t_kind t <> TkPunctuation).
    { destruct V; injection E as X T; rewrite X; split; discriminate. }
    split; [apply NO |]. split; [| intros P; now destruct NO].
    destruct K as [K|[K _]].
    - apply (not_in_sub _ _ reserved); [within | now apply F].
    - rewrite K. vm_compute. intuition discriminate.
  Qed.

  Lemma operand_np1 t r e a p b : ~ In (t_text t) reserved ->
    [pmap EBoolean parse_boolean; pmap (fun _ => ENone) (parse_none slen);
             pmap EFloat parse_float; pmap EInteger parse_integer;
             pmap EString parse_string; pmap ESymbol parse_symbol] = a ++ p :: b ->
    Forall (fun p => refuses p (t :: r)) a -> p (t :: r) = POk r e ->
    lim NP1 (t :: r) = POk r e.
  Proof.
    intros N L F E. rewrite lim_eq. cbn [body].
    assert (T : forall s, In s openers -> hd_not [s] (t :: r)).
    { intros s I [X|[]]. subst s. apply N. now apply (listed_incl openers reserved); [vm_compute; reflexivity |]. }
    change (alt ([lim NGroup; lim NQuote; lim NMap; lim NBlock; lim NList] ++
      [pmap EBoolean parse_boolean; pmap (fun _ => ENone) (parse_none slen);
             pmap EFloat parse_float; pmap EInteger parse_integer;
             pmap EString parse_string; pmap ESymbol parse_symbol]) (t :: r) = POk r e).
    rewrite L, app_assoc. apply alt_yes; [| exact E].
    apply Forall_app. split; [| exact F].
    repeat apply Forall_cons; try apply Forall_nil.
    - apply group_no, T. simpl. tauto.
    - apply quote_no, T. simpl. tauto.
    - apply map_no, T. simpl. tauto.
    - apply block_no, T. simpl. tauto.
    - apply list_no, T. simpl. tauto.
  Qed.

  Lemma lit_refuses {A B} (f : A -> B) k (g : list token -> token -> pres A) t r : t_kind t <> k ->
    refuses (pmap f (fun i => pbind (kind k i) g)) (t :: r).
  Proof. intros N. apply pmap_no. eexists. now rewrite kind_no. Qed.

  Lemma none_refuses t r : ~ In (t_text t) reserved -> refuses (pmap (fun _ => ENone) (parse_none slen)) (t :: r).
  Proof.
    intros N. apply pmap_no, none_no. cbn [hd_not]. apply (not_in_sub _ _ reserved); [within | exact N].
  Qed.

  Lemma bool_refuses t r : t_kind t <> TkBooleanLiteral -> refuses (pmap EBoolean parse_boolean) (t :: r).
  Proof. intros N. apply pmap_no, pmap_no, kind_refuses. exact N. Qed.

  Lemma value_np1 w e t r : value w e -> word_of t = w -> fair t -> lim NP1 (t :: r) = POk r e.
  Proof.
    intros V E F.
    assert (K : operand_kind (t_kind t) = true -> ~ In (t_text t) reserved) by apply F.
    destruct V as [x|s z P|s f P|s u P| | |]; inversion E as [[K1 T1]]; rewrite K1 in K;
      try specialize (K eq_refl).
    - eapply (operand_np1 _ _ _ [_; _; _; _; _] _ []); [exact K | reflexivity | |].
      + repeat apply Forall_cons; try apply Forall_nil.
        * apply bool_refuses. congruence.
        * now apply none_refuses.
        * apply lit_refuses. congruence.
        * apply lit_refuses. congruence.
        * apply lit_refuses. congruence.
      + unfold parse_symbol, pmap. rewrite kind_yes by exact K1. reflexivity.
    - eapply (operand_np1 _ _ _ [_; _; _] _ [_; _]); [exact K | reflexivity | |].
      + repeat apply Forall_cons; try apply Forall_nil.
        * apply bool_refuses. congruence.
        * now apply none_refuses.
        * apply lit_refuses. congruence.
      + unfold parse_integer, pmap. rewrite kind_yes by exact K1. cbn [pbind]. rewrite T1, P. reflexivity.
    - eapply (operand_np1 _ _ _ [_; _] _ [_; _; _]); [exact K | reflexivity | |].
      + repeat apply Forall_cons; try apply Forall_nil.
        * apply bool_refuses. congruence.
        * now apply none_refuses.
      + unfold parse_float, pmap. rewrite kind_yes by exact K1. cbn [pbind]. rewrite T1, P. reflexivity.
    - eapply (operand_np1 _ _ _ [_; _; _; _] _ [_]); [exact K | reflexivity | |].
      + repeat apply Forall_cons; try apply Forall_nil.
        * apply bool_refuses. congruence.
        * now apply none_refuses.
        * apply lit_refuses. congruence.
        * apply lit_refuses. congruence.
      + unfold parse_string, pmap. rewrite kind_yes by exact K1. cbn [pbind]. rewrite T1, P. reflexivity.
    - eapply (operand_np1 _ _ _ [] _ [_; _; _; _; _]); [exact K | reflexivity | constructor |].
      unfold parse_boolean, pmap. rewrite kind_yes by exact K1. cbn [pbind]. rewrite T1. reflexivity.
    - eapply (operand_np1 _ _ _ [] _ [_; _; _; _; _]); [exact K | reflexivity | constructor |].
      unfold parse_boolean, pmap. rewrite kind_yes by exact K1. cbn [pbind]. rewrite T1. reflexivity.
    - rewrite lim_eq. cbn [body].
      assert (T : forall s, s <> lit "None" -> hd_not [s] (t :: r)).
      { intros s N [X|[]]. apply N. rewrite X. exact T1. }
      change (alt ([lim NGroup; lim NQuote; lim NMap; lim NBlock; lim NList; pmap EBoolean parse_boolean] ++
        (pmap (fun _ => ENone) (parse_none slen)) ::
             [pmap EFloat parse_float; pmap EInteger parse_integer;
             pmap EString parse_string; pmap ESymbol parse_symbol]) (t :: r) = POk r ENone).
      apply alt_yes.
      + repeat apply Forall_cons; try apply Forall_nil.
        * apply group_no, T. discriminate.
        * apply quote_no, T. discriminate.
        * apply map_no, T. discriminate.
        * apply block_no, T. discriminate.
        * apply list_no, T. discriminate.
        * apply bool_refuses. congruence.
      + unfold parse_none, pmap. rewrite text_yes by exact T1. reflexivity.
  Qed.

  (** ** Whole expressions *)

  Lemma no_arrow_app i r : i <> [] -> no_arrow i -> hd_not [lit "->"; lit "~>"] r ->
    match i ++ r with t :: r => t_kind t = TkSymbol -> hd_not [lit "->"; lit "~>"] r | [] => True end.
  Proof.
    destruct i as [|t [|u i]]; [congruence | |]; simpl; intros _ N H S; [exact H |].
    destruct (N S) as [_ X]. tauto.
  Qed.

  Lemma operator_no_atom b r : operator_hd b -> no_atom r -> no_atom (b ++ r).
  Proof.
    destruct b as [|t b]; [tauto |]. intros [K N] _. simpl. rewrite K. split; [reflexivity |].
    intros I. apply N. apply in_app_iff. now left.
  Qed.

  Definition after : list str := stops 6 ++ pipes ++ [lit "->"; lit "~>"].

  Lemma whole i e r : plain_hd i -> no_arrow i -> parses NP6 i (stops 6) e -> first_operand i ->
    hd_not after r -> no_atom r -> lim NExpr (i ++ r) = POk r e.
  Proof.
    intros P A E (a & b & e0 & -> & Pa & Ob & Nb) H N.
    apply expr_of_np7; [left; now apply plain_app | | eapply hd_not_incl; [| exact H]; within].
    eapply (np7_operand slen _ (b ++ r) e0).
    - now apply plain_app.
    - apply no_arrow_app; [| exact A |].
      + intros X. rewrite X in P. exact P.
      + eapply hd_not_incl; [| exact H]. within.
    - rewrite <- app_assoc. apply Pa. destruct b; [simpl; eapply hd_not_incl; [| exact H]; within | exact Nb].
    - now apply operator_no_atom.
    - apply E. eapply hd_not_incl; [| exact H]. within.
  Qed.

  Lemma paren_np1 t u i r e : t_text t = lit "(" -> t_text u = lit ")" ->
    lim NExpr (i ++ u :: r) = POk (u :: r) e -> lim NP1 (t :: i ++ u :: r) = POk r (EGroup e).
  Proof.
    intros T U E. rewrite lim_eq. cbn [body]. apply alt_first. rewrite lim_eq. cbn [body].
    rewrite text_yes by exact T. cbn [pbind]. rewrite E. cbn [pbind].
    unfold pmap. cbn [alt]. rewrite text_yes by exact U. reflexivity.
  Qed.

  (** ** Levels *)

  Lemma level_finish lv i r h l : plain_hd i -> 2 <= lv -> lv < 6 ->
    infix (level (S lv)) (lim (nt_of lv)) i = POk r (h, l) -> hd_not (stops (S lv)) r ->
    lim (nt_of (S lv)) i = POk r (fold_ops h l).
  Proof.
    intros P L U E H. rewrite lim_eq.
    destruct lv as [|[|[|[|[|[|lv]]]]]]; try lia; cbn [nt_of body]; cbn [nt_of level] in E;
      rewrite noterm_plain by exact P; cbn [pbind]; rewrite E; cbn [pbind fst snd]; try reflexivity.
    destruct l as [|x l]; [| reflexivity].
    rewrite text_no by (eapply hd_not_incl; [| exact H]; within).
    destruct (not_no slen r) as [y Y]; [eapply hd_not_incl; [| exact H]; within |].
    now rewrite Y.
  Qed.

  Lemma extends_parses lv i e : plain_hd i -> 2 <= lv -> lv < 6 -> extends lv i e ->
    parses (nt_of (S lv)) i (stops (S lv)) e.
  Proof.
    intros P L U X r H.
    destruct (X r r []) as (h & l0 & E & F).
    - eapply hd_not_incl; [| exact H]. destruct lv as [|[|[|[|[|[|lv]]]]]]; try lia; within.
    - destruct (pair_no (level (S lv)) (lim (nt_of lv)) r) as [x Y].
      + destruct lv as [|[|[|[|[|[|lv]]]]]]; try lia; discriminate.
      + eapply hd_not_incl; [| exact H]. destruct lv as [|[|[|[|[|[|lv]]]]]]; try lia; within.
      + eapply many_stop. exact Y.
    - rewrite app_nil_r in E. rewrite <- F. apply level_finish; auto. now apply plain_app.
  Qed.

  Lemma climbs lv i e : plain_hd i -> 1 <= lv -> lv < 6 -> parses (nt_of lv) i (stops lv) e ->
    parses (nt_of (S lv)) i (stops (S lv)) e.
  Proof.
    intros P L U E r H.
    assert (E' : lim (nt_of lv) (i ++ r) = POk r e).
    { apply E. eapply hd_not_incl; [| exact H]. destruct lv as [|[|[|[|[|[|lv]]]]]]; try lia; within. }
    pose proof (plain_app i r P) as P'.
    destruct lv as [|[|[|[|[|[|lv]]]]]]; try lia; cbn [nt_of] in *.
    - apply np2_ok; auto.
    - apply np3_ok; auto. eapply hd_not_incl; [| exact H]. within.
    - apply np4_ok; auto. eapply hd_not_incl; [| exact H]. within.
    - apply np5_ok; auto. eapply hd_not_incl; [| exact H]. within.
    - apply np6_ok; auto. eapply hd_not_incl; [| exact H]. within.
  Qed.

  Lemma level_cases lv op : In op (level (S lv)) -> 2 <= lv < 6.
  Proof. destruct lv as [|[|[|[|[|[|lv]]]]]]; simpl; try contradiction; lia. Qed.

  Lemma op_tok lv op t : In op (level (S lv)) -> word_of t = (TkOperator, op) ->
    operator_hd [t] /\ hd_not (stops lv) [t] /\ t_text t = op.
  Proof.
    intros I E. injection E as K T. cbn [operator_hd hd_not]. rewrite T.
    assert (X : In op (level 3 ++ level 4 ++ level 5 ++ level 6)
             /\ (exists l, In op l /\ listed l (stops lv) = false /\ forallb (fun x => negb (existsb (str_eqb x) (stops lv))) l = true)).
    { destruct lv as [|[|[|[|[|[|lv]]]]]]; try contradiction; split;
        try (rewrite !in_app_iff; tauto); eexists; (split; [exact I | split; reflexivity]). }
    destruct X as (X & l & Il & _ & FA).
    split; [split; [exact K |] | split; [| reflexivity]].
    - assert (F : forallb (fun x => negb (existsb (str_eqb x) (openers ++ [lit "->"; lit "~>"])))
                    (level 3 ++ level 4 ++ level 5 ++ level 6) = true) by (vm_compute; reflexivity).
      rewrite forallb_forall in F. specialize (F _ X). intros J. apply negb_true_iff in F.
      rewrite <- not_true_iff_false in F. apply F. apply existsb_exists. exists op.
      split; [exact J | apply str_eqb_refl].
    - rewrite forallb_forall in FA. specialize (FA _ Il). intros J. apply negb_true_iff in FA.
      rewrite <- not_true_iff_false in FA. apply FA. apply existsb_exists. exists op.
      split; [exact J | apply str_eqb_refl].
  Qed.

  Lemma operator_app b r : b <> [] -> operator_hd b -> operator_hd (b ++ r).
  Proof. destruct b; [congruence | tauto]. Qed.

  Lemma no_arrow_more i t j : no_arrow i -> plain_hd i -> operator_hd [t] -> no_arrow (i ++ t :: j).
  Proof.
    destruct i as [|u [|v i]]; simpl; [contradiction | |]; intros N P O S; [exact O |]. exact (N S).
  Qed.

  Lemma map_split (i : list token) (f : token -> word) a w b : map f i = a ++ w :: b ->
    exists x t y, i = x ++ t :: y /\ map f x = a /\ f t = w /\ map f y = b.
  Proof.
    revert i. induction a as [|c a IH]; intros [|u i] E; simpl in E; try discriminate.
    - injection E as E1 E2. exists [], u, i. auto.
    - injection E as E1 E2. destruct (IH i E2) as (x & t & y & -> & A & B & C).
      exists (u :: x), t, y. simpl. repeat split; auto. congruence.
  Qed.

  Theorem prec_ok :
    (forall lv ws e, op_expr lv ws e -> claim lv ws e) /\
    (forall ws l, at_chain ws l -> chain ws l).
  Proof.
    apply op_ind.
    - (* names and literals *)
      intros w e V i E F. destruct i as [|t [|u i]]; try discriminate. cbn [map] in E. injection E as E.
      inversion F as [|? ? F1 _]; subst.
      pose proof (value_plain _ _ _ V eq_refl F1) as P.
      assert (N : forall r, lim NP1 (t :: r) = POk r e) by (intros r; eapply value_np1; eauto).
      split; [exact P |]. split; [intros _; exact I |].
      split; [intros _ r _; apply N |]. split; [| lia].
      intros _. exists [t], [], e. split; [reflexivity |]. split; [| split; exact I].
      intros r H. apply (np2_ok slen (t :: r)); [exact P | apply N | exact H].
    - (* parentheses *)
      intros ws e _ IH i E F. destruct i as [|t i]; [discriminate |]. cbn [map] in E. injection E as E1 E2 E3.
      apply map_split in E3 as (x & u & y & -> & Mx & Mu & My). destruct y; [| discriminate].
      injection Mu as U1 U2. inversion F as [|? ? _ F']; subst. apply Forall_app in F' as [Fx _].
      destruct (IH x eq_refl Fx) as (Px & Ax & Nx & Ox & _).
      assert (P : plain t).
      { unfold plain. rewrite E1, E2. split; [discriminate |]. split; [| intros _]; vm_compute; intuition discriminate. }
      assert (N : forall r, lim NP1 (t :: (x ++ [u]) ++ r) = POk r (EGroup e)).
      { intros r. rewrite <- app_assoc. apply paren_np1; auto. apply whole; auto; [now apply Nx; lia | apply Ox; lia | |].
        - cbn [hd_not]. change ((([u] ++ r) : list token)) with (u :: r). cbn [hd_not]. rewrite U2. vm_compute. intuition discriminate.
        - simpl. rewrite U1, U2. split; [reflexivity |]. vm_compute. intuition discriminate. }
      split; [exact P |]. split; [intros S; rewrite E1 in S; discriminate |].
      split; [intros _ r _; apply N |]. split; [| lia].
      intros _. exists (t :: x ++ [u]), [], (EGroup e). rewrite app_nil_r. split; [reflexivity |].
      split; [| split; exact I]. intros r H. apply (np2_ok slen (t :: (x ++ [u]) ++ r)); [exact P | apply N | exact H].
    - (* chains of @ *)
      intros ws l _ IH L i E F. destruct (IH i E F) as (P & A & h & l0 & -> & X).
      assert (N : parses NP2 i [lit "@"] (EApply (ESymbol (lit "@")) (h :: l0))).
      { intros r H. rewrite lim_eq. cbn [body]. rewrite noterm_plain by now apply plain_app. cbn [pbind].
        destruct (X r r []) as (i1 & N1 & M).
        - eapply many_stop. unfold preceded. rewrite text_no by exact H. reflexivity.
        - rewrite N1. cbn [pbind]. rewrite (many0_many _ _ _ _ M). cbn [pbind]. rewrite app_nil_r.
          destruct l0; [simpl in L; lia | reflexivity]. }
      split; [exact P |]. split; [exact A |]. split; [intros _; exact N |]. split; [| lia].
      intros _. exists i, [], (EApply (ESymbol (lit "@")) (h :: l0)).
      rewrite app_nil_r. split; [reflexivity |]. split; [exact N | split; exact I].
    - (* one level up *)
      intros lv ws e D IH U i E F. destruct (IH i E F) as (P & A & N & O & _).
      assert (L : 1 <= lv) by (clear -D; induction D; lia).
      split; [exact P |]. split; [exact A |].
      split; [intros _; apply climbs; auto |]. split; [intros _; now apply O |].
      intros G r r' l H M. cbn [pred] in *. exists e, []. split; [| reflexivity].
      eapply infix_ok; [| exact M]. apply N; auto.
    - (* a binary operator *)
      intros lv op ws1 e1 ws2 e2 I D1 IH1 D2 IH2 i E F.
      apply map_split in E as (x & t & y & -> & Mx & Mt & My).
      apply Forall_app in F as [Fx F']. inversion F' as [|? ? _ Fy]; subst.
      destruct (IH1 x eq_refl Fx) as (Px & Ax & Nx & Ox & Ex).
      destruct (IH2 y eq_refl Fy) as (Py & Ay & Ny & Oy & Ey).
      pose proof (level_cases lv op I) as L. destruct (op_tok lv op t I Mt) as (T1 & T2 & T3).
      assert (X : extends lv (x ++ t :: y) (EGroup (EApply (ESymbol op) [e1; e2]))).
      { intros r r' l H M. cbn [pred] in Ex. rewrite <- app_assoc. cbn [app].
        destruct (Ex ltac:(lia) (t :: y ++ r) r' ((t, e2) :: l)) as (h & l0 & E0 & F0).
        - exact T2.
        - eapply many_more; [| | exact M].
          + apply pair_yes; [now rewrite T3 |]. apply Ny; [lia | exact H].
          + simpl. rewrite app_length. lia.
        - exists h, (l0 ++ [(t, e2)]). rewrite <- app_assoc. split; [exact E0 |].
          unfold fold_ops in *. rewrite fold_left_app. cbn [fold_left fst snd]. rewrite F0, T3. reflexivity. }
      assert (P : plain_hd (x ++ t :: y)) by now apply plain_app.
      split; [exact P |]. split; [now apply no_arrow_more |].
      split; [intros _; apply extends_parses; auto; lia |]. split; [| intros _; exact X].
      intros _. destruct (Ox ltac:(lia)) as (a & b & e0 & -> & Pa & Ob & Nb).
      exists a, (b ++ t :: y), e0. rewrite app_assoc. split; [reflexivity |]. split; [exact Pa |].
      destruct b as [|u b]; [| split; [exact Ob | exact Nb]].
      split; [exact T1 |]. cbn [app hd_not].
      apply (not_in_sub _ _ (stops lv)); [| exact T2].
      destruct lv as [|[|[|[|[|[|lv]]]]]]; try lia; within.
    - (* one operand of @ *)
      intros ws e _ IH i E F. destruct (IH i E F) as (P & A & N & _).
      split; [exact P |]. split; [exact A |]. exists e, []. split; [reflexivity |].
      intros r r' l' M. exists r. split; [| exact M]. apply N; [lia |]. now destruct r.
    - (* another operand of @ *)
      intros ws l ws' e _ IH1 _ IH2 i E F.
      apply map_split in E as (x & t & y & -> & Mx & Mt & My).
      apply Forall_app in F as [Fx F']. inversion F' as [|? ? _ Fy]; subst.
      destruct (IH1 x eq_refl Fx) as (Px & Ax & h & l0 & -> & X).
      destruct (IH2 y eq_refl Fy) as (Py & Ay & Ny & _). injection Mt as K T.
      split; [now apply plain_app |]. split.
      { apply no_arrow_more; auto. simpl. rewrite K, T. split; [reflexivity |]. vm_compute. intuition discriminate. }
      exists h, (l0 ++ [e]). split; [reflexivity |]. intros r r' l' M.
      destruct (X (t :: y ++ r) r' (e :: l')) as (i1 & N1 & M1).
      + eapply many_more; [| | exact M].
        * unfold preceded. rewrite text_yes by exact T. cbn [pbind]. apply alt_first. apply Ny; [lia |]. now destruct r.
        * simpl. rewrite app_length. lia.
      + exists i1. rewrite <- !app_assoc. cbn [app]. split; [exact N1 | exact M1].
  Qed.

  (** The parser on a script that is one operator expression. *)
  Theorem prec_script ws e i : op_expr 6 ws e -> map word_of i = ws -> Forall fair i ->
    lim NScript i = POk [] (EDo [e]).
  Proof.
    intros D E F. destruct (proj1 prec_ok 6 ws e D i E F) as (P & A & N & O & _).
    apply script_single; [| intros ->; exact P].
    rewrite <- (app_nil_r i) at 1. apply whole; auto; [apply N; lia | apply O; lia | exact I | exact I].
  Qed.
End Prec.
