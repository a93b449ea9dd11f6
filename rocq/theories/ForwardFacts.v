(** What the parser makes of well-formed input. *)

From Coq Require Import String.
From Verif Require Import Base Syntax Tokenizer Parser MapFacts ParserFacts FuelFacts LimFacts.

(** The first token, if any, has none of the texts [l]. *)
Definition hd_not (l : list str) (i : list token) : Prop :=
  match i with t :: _ => ~ In (t_text t) l | [] => True end.

Lemma hd_not_incl l l' i : incl l' l -> hd_not l i -> hd_not l' i.
Proof. destruct i; simpl; [tauto |]. intros I N M. apply N, I, M. Qed.

Definition refuses {A} (p : parser A) (i : list token) : Prop := exists e, p i = PErr e.

Lemma text_no s i : hd_not [s] i -> text s i = PErr InternalError.
Proof.
  destruct i as [|t r]; [reflexivity |]. simpl. intros N. rewrite (proj2 (str_eqb_neq _ _)); [reflexivity |].
  intros E. apply N. now left.
Qed.

Lemma text_yes s t r : t_text t = s -> text s (t :: r) = POk r t.
Proof. intros <-. simpl. now rewrite str_eqb_refl. Qed.

Lemma kind_yes k t r : t_kind t = k -> kind k (t :: r) = POk r t.
Proof. intros <-. simpl. now destruct (t_kind t). Qed.

Lemma kind_no k t r : t_kind t <> k -> kind k (t :: r) = PErr InternalError.
Proof. intros N. simpl. destruct (t_kind t), k; try reflexivity; congruence. Qed.

Lemma alt_rest_no {A} (ps : list (parser A)) i : Forall (fun p => refuses p i) ps ->
  forall e, refuses (alt_rest ps e) i.
Proof.
  induction 1 as [|p ps [x E] F IH]; intros e; [eexists; reflexivity |].
  destruct (IH (err_or e x)) as [y Y]. exists y. simpl. now rewrite E.
Qed.

Lemma alt_no {A} (ps : list (parser A)) i : ps <> [] -> Forall (fun p => refuses p i) ps ->
  refuses (alt ps) i.
Proof.
  intros N F. destruct F as [|p ps [x E] F]; [congruence |].
  destruct (alt_rest_no ps i F x) as [y Y]. exists y. simpl. now rewrite E.
Qed.

Lemma alt_rest_yes {A} (a : list (parser A)) p b i r x : Forall (fun p => refuses p i) a ->
  p i = POk r x -> forall e, alt_rest (a ++ p :: b) e i = POk r x.
Proof.
  intros F E. induction F as [|q a [y Y] F IH]; intros e; simpl; [now rewrite E |]. now rewrite Y.
Qed.

Lemma alt_yes {A} (a : list (parser A)) p b i r x : Forall (fun p => refuses p i) a ->
  p i = POk r x -> alt (a ++ p :: b) i = POk r x.
Proof.
  intros F E. destruct F as [|q a [y Y] F]; simpl; [now rewrite E |]. rewrite Y.
  now apply alt_rest_yes.
Qed.

Lemma alt_first {A} (p : parser A) b i r x : p i = POk r x -> alt (p :: b) i = POk r x.
Proof. intros E. simpl. now rewrite E. Qed.

Lemma alt_fail_rest {A} (a : list (parser A)) p b i x : Forall (fun p => refuses p i) a ->
  p i = PFail x -> forall e, alt_rest (a ++ p :: b) e i = PFail x.
Proof.
  intros F E. induction F as [|q a [y Y] F IH]; intros e; simpl; [now rewrite E |]. now rewrite Y.
Qed.

Lemma alt_fail {A} (a : list (parser A)) p b i x : Forall (fun p => refuses p i) a ->
  p i = PFail x -> alt (a ++ p :: b) i = PFail x.
Proof.
  intros F E. destruct F as [|q a [y Y] F]; simpl; [now rewrite E |]. rewrite Y.
  now apply alt_fail_rest.
Qed.

Lemma ops_no ops i : ops <> [] -> hd_not ops i -> refuses (alt (map text ops)) i.
Proof.
  intros N H. apply alt_no; [destruct ops; [congruence | discriminate] |].
  apply Forall_forall. intros p I. apply in_map_iff in I. destruct I as (s & <- & I).
  eexists. apply text_no. destruct i as [|t r]; simpl in *; [exact Logic.I |].
  intros [E|[]]. subst s. contradiction.
Qed.

Lemma ops_yes_rest ops t r : In (t_text t) ops ->
  forall e, alt_rest (map text ops) e (t :: r) = POk r t.
Proof.
  induction ops as [|s ops IH]; intros I e; [destruct I |]. cbn [map alt_rest].
  destruct (str_eqb (t_text t) s) eqn:E.
  - rewrite text_yes; [reflexivity | now apply str_eqb_eq].
  - rewrite text_no.
    + apply IH. destruct I as [X|I]; [| exact I]. rewrite X, str_eqb_refl in E. discriminate.
    + simpl. apply str_eqb_neq in E. intros [X|[]]. congruence.
Qed.

Lemma ops_yes ops t r : In (t_text t) ops -> alt (map text ops) (t :: r) = POk r t.
Proof.
  destruct ops as [|s ops]; intros I; [destruct I |]. cbn [map alt].
  destruct (str_eqb (t_text t) s) eqn:E.
  - rewrite text_yes; [reflexivity | now apply str_eqb_eq].
  - rewrite text_no.
    + apply ops_yes_rest. destruct I as [X|I]; [| exact I]. rewrite X, str_eqb_refl in E. discriminate.
    + simpl. apply str_eqb_neq in E. intros [X|[]]. congruence.
Qed.

Lemma infix_ok ops p i i1 h r l :
  p i = POk i1 h -> many (pair_p (alt (map text ops)) p) i1 r l -> infix ops p i = POk r (h, l).
Proof. intros E M. unfold infix. rewrite E. cbn [pbind]. rewrite (many0_many _ _ _ _ M). reflexivity. Qed.

Lemma infix_none ops p i i1 h : ops <> [] ->
  p i = POk i1 h -> hd_not ops i1 -> infix ops p i = POk i1 (h, []).
Proof.
  intros N E H. apply (infix_ok ops p i i1 h i1 []); [exact E |].
  destruct (ops_no ops i1 N H) as [x X]. apply many_stop with x. unfold pair_p. now rewrite X.
Qed.

Lemma pair_yes ops (p : parser expr) t i r e : In (t_text t) ops -> p i = POk r e ->
  pair_p (alt (map text ops)) p (t :: i) = POk r (t, e).
Proof. intros I E. unfold pair_p. rewrite ops_yes by exact I. cbn [pbind]. now rewrite E. Qed.

Lemma pair_no ops (p : parser expr) i : ops <> [] -> hd_not ops i ->
  refuses (pair_p (alt (map text ops)) p) i.
Proof.
  intros N H. destruct (ops_no ops i N H) as [x X]. exists x. unfold pair_p. now rewrite X.
Qed.

Lemma bind_no {A B} (m : pres A) (k : list token -> A -> pres B) e : m = PErr e -> pbind m k = PErr e.
Proof. now intros ->. Qed.

(** ** Tokens an operand starts with *)

Definition atom_kind (k : token_kind) : bool :=
  match k with
  | TkBooleanLiteral | TkFloatLiteral | TkIntegerLiteral | TkStringLiteral | TkSymbol => true
  | _ => false
  end.

Definition openers : list str := [lit "("; lit "'"; lit "{"; lit "["; lit "None"].

(** No operand starts here. *)
Definition no_atom (i : list token) : Prop :=
  match i with
  | [] => True
  | t :: _ => atom_kind (t_kind t) = false /\ ~ In (t_text t) openers
  end.

Definition heads : list str := [lit "for"; lit "if"; lit "let"].

Definition stoppers : list str :=
  [lit ";"; lit ","; lit "="; lit "]"; lit ")"; lit "}"; lit "|"].

(** An operand, not an operator or statement, may start with [t]. *)
Definition plain (t : token) : Prop :=
  t_kind t <> TkOperator /\ ~ In (t_text t) heads
  /\ (t_kind t = TkPunctuation -> ~ In (t_text t) stoppers).

Definition plain_hd (i : list token) : Prop :=
  match i with t :: _ => plain t | [] => False end.

Section Forward.
  Variable slen : N.
  Notation lim := (lim slen).

  Lemma noterm_plain i : plain_hd i -> no_terminating slen i = POk i tt.
  Proof.
    destruct i as [|t r]; simpl; [contradiction |]. intros (K & _ & S).
    destruct (kind_eqb (t_kind t) TkPunctuation) eqn:E; [| reflexivity].
    assert (P : t_kind t = TkPunctuation) by (destruct (t_kind t); try discriminate; reflexivity).
    specialize (S P). cbn [andb]. unfold stoppers in S.
    match goal with |- context [if ?b then _ else _] => destruct b eqn:X end; [| reflexivity].
    exfalso. apply S. change (existsb (str_eqb (t_text t)) stoppers = true) in X.
    apply existsb_exists in X as (s & I & Q). apply str_eqb_eq in Q. now subst s.
  Qed.

  (** [no_terminating] passes or refuses. *)
  Lemma noterm_cases i : no_terminating slen i = POk i tt \/ refuses (no_terminating slen) i.
  Proof.
    destruct i as [|t r]; simpl; [now left |].
    match goal with |- context [if ?b then _ else _] => destruct b eqn:X end; [right | now left].
    eexists. simpl. rewrite X. reflexivity.
  Qed.

  Lemma noterm_no {A} i (k : list token -> unit -> pres A) e :
    k i tt = PErr e -> exists e', pbind (no_terminating slen i) k = PErr e'.
  Proof.
    intros E. destruct (noterm_cases i) as [N|[x N]]; rewrite N; cbn [pbind]; eauto.
  Qed.

  (** ** Operands *)

  Lemma pmap_no {A B} (f : A -> B) p i : refuses p i -> refuses (pmap f p) i.
  Proof. intros [e E]. exists e. unfold pmap. now rewrite E. Qed.

  Lemma kind_refuses k i : (match i with t :: _ => t_kind t <> k | [] => True end) -> refuses (kind k) i.
  Proof. destruct i as [|t r]; intros N; [eexists; reflexivity |]. eexists. now apply kind_no. Qed.

  Ltac starts_no := eexists; rewrite lim_eq; cbn [body]; apply bind_no; apply text_no.

  Lemma group_no i : hd_not [lit "("] i -> refuses (lim NGroup) i.
  Proof. intros. now starts_no. Qed.
  Lemma quote_no i : hd_not [lit "'"] i -> refuses (lim NQuote) i.
  Proof. intros. now starts_no. Qed.
  Lemma map_no i : hd_not [lit "{"] i -> refuses (lim NMap) i.
  Proof. intros. now starts_no. Qed.
  Lemma block_no i : hd_not [lit "{"] i -> refuses (lim NBlock) i.
  Proof. intros. now starts_no. Qed.
  Lemma list_no i : hd_not [lit "["] i -> refuses (lim NList) i.
  Proof. intros. now starts_no. Qed.
  Lemma for_no i : hd_not [lit "for"] i -> refuses (lim NFor) i.
  Proof. intros. now starts_no. Qed.
  Lemma if_no i : hd_not [lit "if"] i -> refuses (lim NIf) i.
  Proof. intros. now starts_no. Qed.
  Lemma assign_no i : hd_not [lit "let"] i -> refuses (lim NAssign) i.
  Proof. intros. now starts_no. Qed.
  Lemma not_no i : hd_not [lit "!"] i -> refuses (lim NNot) i.
  Proof. intros. now starts_no. Qed.

  Lemma none_no i : hd_not [lit "None"; lit "("] i -> refuses (parse_none slen) i.
  Proof.
    intros N. eexists. unfold parse_none. rewrite text_no by (eapply hd_not_incl; [| exact N]; intros x [<-|[]]; now left).
    destruct i as [|a [|b r]]; try reflexivity.
    rewrite (proj2 (str_eqb_neq (t_text a) (lit "("))); [reflexivity |].
    intros X. apply N. right; left. now symmetry.
  Qed.

  Lemma np1_no i : no_atom i -> refuses (lim NP1) i.
  Proof.
    intros N. unfold refuses. setoid_rewrite lim_eq. cbn [body]. apply alt_no; [discriminate |].
    assert (T : forall s, In s openers -> hd_not [s] i).
    { intros s I. destruct i as [|t r]; simpl in *; [exact Logic.I |]. intros [E|[]]. subst s. tauto. }
    assert (K : forall k, atom_kind k = true -> refuses (kind k) i).
    { intros k A. apply kind_refuses. destruct i as [|t r]; [exact Logic.I |].
      destruct N as [N _]. congruence. }
    assert (B : forall A (f : token -> pres A) k, atom_kind k = true ->
      refuses (fun i => pbind (kind k i) (fun _ t => f t)) i).
    { intros A f k Q. destruct (K k Q) as [e E]. exists e. now rewrite E. }
    repeat apply Forall_cons; try apply Forall_nil.
    - apply group_no, T. unfold openers. simpl. tauto.
    - apply quote_no, T. unfold openers. simpl. tauto.
    - apply map_no, T. unfold openers. simpl. tauto.
    - apply block_no, T. unfold openers. simpl. tauto.
    - apply list_no, T. unfold openers. simpl. tauto.
    - apply pmap_no, pmap_no, K. reflexivity.
    - apply pmap_no, none_no. destruct i as [|t r]; [exact Logic.I |].
      destruct N as [_ N]. unfold openers in N. simpl in *. tauto.
    - apply pmap_no. destruct (K TkFloatLiteral eq_refl) as [e E]. exists e. unfold parse_float. now rewrite E.
    - apply pmap_no. destruct (K TkIntegerLiteral eq_refl) as [e E]. exists e. unfold parse_integer. now rewrite E.
    - apply pmap_no. destruct (K TkStringLiteral eq_refl) as [e E]. exists e. unfold parse_string. now rewrite E.
    - apply pmap_no, pmap_no, K. reflexivity.
  Qed.

  Lemma np2_no i : no_atom i -> refuses (lim NP2) i.
  Proof.
    intros N. destruct (np1_no i N) as [e E]. unfold refuses. setoid_rewrite lim_eq. cbn [body].
    eapply noterm_no. rewrite E. reflexivity.
  Qed.
  Lemma infix_refuses ops p i : refuses p i -> refuses (infix ops p) i.
  Proof. intros [e E]. exists e. unfold infix. now rewrite E. Qed.
  Lemma np3_no i : no_atom i -> refuses (lim NP3) i.
  Proof.
    intros N. destruct (infix_refuses [lit "*"; lit "//"; lit "%"] _ _ (np2_no i N)) as [e E].
    unfold refuses. setoid_rewrite lim_eq. cbn [body]. eapply noterm_no. rewrite E. reflexivity.
  Qed.
  Lemma np4_no i : no_atom i -> refuses (lim NP4) i.
  Proof.
    intros N. destruct (infix_refuses [lit "+"; lit "-"] _ _ (np3_no i N)) as [e E].
    unfold refuses. setoid_rewrite lim_eq. cbn [body]. eapply noterm_no. rewrite E. reflexivity.
  Qed.
  Definition comparisons := [lit "=="; lit "!="; lit ">="; lit "<="; lit ">"; lit "<"].
  Lemma np5_no i : no_atom i -> refuses (lim NP5) i.
  Proof.
    intros N. destruct (infix_refuses comparisons _ _ (np4_no i N)) as [e E].
    unfold refuses. setoid_rewrite lim_eq. cbn [body]. eapply noterm_no.
    fold comparisons. rewrite E. reflexivity.
  Qed.
  Lemma np6_no i : no_atom i -> refuses (lim NP6) i.
  Proof.
    intros N. destruct (infix_refuses [lit "&&"; lit "||"] _ _ (np5_no i N)) as [e E].
    unfold refuses. setoid_rewrite lim_eq. cbn [body]. eapply noterm_no. rewrite E. reflexivity.
  Qed.

  (** An operand that no operator of the next levels follows. *)
  Lemma np2_ok i r e : plain_hd i -> lim NP1 i = POk r e -> hd_not [lit "@"] r -> lim NP2 i = POk r e.
  Proof.
    intros P E N. rewrite lim_eq. cbn [body]. rewrite noterm_plain by exact P. cbn [pbind]. rewrite E.
    cbn [pbind]. rewrite (many0_many _ r r []); [reflexivity |]. eapply many_stop. unfold preceded.
    rewrite text_no by exact N. reflexivity.
  Qed.
  Lemma np3_ok i r e : plain_hd i -> lim NP2 i = POk r e -> hd_not [lit "*"; lit "//"; lit "%"] r ->
    lim NP3 i = POk r e.
  Proof.
    intros P E N. rewrite lim_eq. cbn [body]. rewrite noterm_plain by exact P. cbn [pbind].
    rewrite (infix_none _ _ i r e) by (discriminate || assumption). reflexivity.
  Qed.
  Lemma np4_ok i r e : plain_hd i -> lim NP3 i = POk r e -> hd_not [lit "+"; lit "-"] r ->
    lim NP4 i = POk r e.
  Proof.
    intros P E N. rewrite lim_eq. cbn [body]. rewrite noterm_plain by exact P. cbn [pbind].
    rewrite (infix_none _ _ i r e) by (discriminate || assumption). reflexivity.
  Qed.
  Lemma np5_ok i r e : plain_hd i -> lim NP4 i = POk r e ->
    hd_not (comparisons ++ [lit "to"; lit "!"]) r -> lim NP5 i = POk r e.
  Proof.
    intros P E N. rewrite lim_eq. cbn [body]. fold comparisons. rewrite noterm_plain by exact P. cbn [pbind].
    rewrite (infix_none comparisons _ i r e); try (discriminate || assumption).
    2:{ eapply hd_not_incl; [| exact N]. intros x I. apply in_app_iff. now left. }
    cbn [pbind]. rewrite text_no.
    2:{ eapply hd_not_incl; [| exact N]. intros x I. apply in_app_iff. right. simpl in *. tauto. }
    destruct (not_no r) as [x X].
    { eapply hd_not_incl; [| exact N]. intros x I. apply in_app_iff. right. simpl in *. tauto. }
    now rewrite X.
  Qed.
  Lemma np6_ok i r e : plain_hd i -> lim NP5 i = POk r e -> hd_not [lit "&&"; lit "||"] r ->
    lim NP6 i = POk r e.
  Proof.
    intros P E N. rewrite lim_eq. cbn [body]. rewrite noterm_plain by exact P. cbn [pbind].
    rewrite (infix_none _ _ i r e) by (discriminate || assumption). reflexivity.
  Qed.

  (** ** Whole expressions *)

  Definition pipes := [lit "|"; lit ">>>"; lit ">>"; lit "<<"].

  Lemma expr_of_np7 i r e : plain_hd i \/ no_terminating slen i = POk i tt ->
    lim NP7 i = POk r e -> hd_not pipes r -> lim NExpr i = POk r e.
  Proof.
    intros P E N. assert (T : no_terminating slen i = POk i tt) by (destruct P; [now apply noterm_plain | assumption]).
    rewrite lim_eq. cbn [body]. fold pipes. rewrite T. cbn [pbind].
    rewrite (infix_none pipes _ i r e) by (discriminate || assumption). reflexivity.
  Qed.

  Lemma callable_no i : (match i with
                         | t :: r => t_kind t = TkSymbol -> hd_not [lit "->"; lit "~>"] r
                         | [] => True end) -> refuses (lim NCallable) i.
  Proof.
    intros N. unfold refuses. setoid_rewrite lim_eq. cbn [body]. destruct i as [|t r]; [eexists; reflexivity |].
    unfold parse_symbol at 1, pmap at 1. destruct (kind_eqb (t_kind t) TkSymbol) eqn:K.
    - assert (S : t_kind t = TkSymbol) by (destruct (t_kind t); try discriminate; reflexivity).
      rewrite kind_yes by exact S. cbn [pbind].
      destruct (ops_no [lit "->"; lit "~>"] r) as [x X]; [discriminate | now apply N |].
      cbn [map] in X. rewrite X. eexists; reflexivity.
    - rewrite kind_no by (intros S; rewrite S in K; discriminate). eexists; reflexivity.
  Qed.

  Lemma plain_not i s : In s heads -> plain_hd i -> hd_not [s] i.
  Proof.
    intros I P. destruct i as [|t r]; simpl in *; [exact Logic.I |]. destruct P as (_ & P & _).
    intros [E|[]]. subst s. contradiction.
  Qed.

  Lemma operator_no i : plain_hd i -> refuses parse_operator_as_symbol i.
  Proof.
    intros P. apply pmap_no, pmap_no, kind_refuses. destruct i; simpl in *; [contradiction | apply P].
  Qed.

  (** An expression without arguments. *)
  Lemma np7_operand i r1 e1 r e : plain_hd i ->
    (match i with t :: r => t_kind t = TkSymbol -> hd_not [lit "->"; lit "~>"] r | [] => True end) ->
    lim NP2 i = POk r1 e1 -> no_atom r1 ->
    lim NP6 i = POk r e -> lim NP7 i = POk r e.
  Proof.
    intros P C E1 N E. rewrite lim_eq. cbn [body]. rewrite noterm_plain by exact P. cbn [pbind].
    apply (alt_yes (map lim [NFor; NIf; NAssign; NCallable; NApply; NApplyOp]) (lim NP6) []); [| exact E].
    cbn [map]. repeat apply Forall_cons; try apply Forall_nil.
    - apply for_no, plain_not; [simpl; tauto | exact P].
    - apply if_no, plain_not; [simpl; tauto | exact P].
    - apply assign_no, plain_not; [simpl; tauto | exact P].
    - now apply callable_no.
    - unfold refuses. setoid_rewrite lim_eq. cbn [body].
      rewrite (alt_first _ _ _ _ _ E1).
      cbn [pbind]. destruct (np5_no r1 N) as [x X]. unfold many1. rewrite X. eexists; reflexivity.
    - unfold refuses. setoid_rewrite lim_eq. cbn [body]. destruct (operator_no i P) as [x X].
      rewrite X. eexists; reflexivity.
  Qed.

  (** A call. *)
  Lemma np7_call i i1 f r args : plain_hd i ->
    (match i with t :: r => t_kind t = TkSymbol -> hd_not [lit "->"; lit "~>"] r | [] => True end) ->
    lim NP2 i = POk i1 f -> args <> [] -> many (lim NP5) i1 r args -> 
    lim NP7 i = POk r (EApply f args).
  Proof.
    intros P C E1 N M. rewrite lim_eq. cbn [body]. rewrite noterm_plain by exact P. cbn [pbind].
    apply (alt_yes (map lim [NFor; NIf; NAssign; NCallable]) (lim NApply) [lim NApplyOp; lim NP6]).
    - cbn [map]. repeat apply Forall_cons; try apply Forall_nil.
      + apply for_no, plain_not; [simpl; tauto | exact P].
      + apply if_no, plain_not; [simpl; tauto | exact P].
      + apply assign_no, plain_not; [simpl; tauto | exact P].
      + now apply callable_no.
    - rewrite lim_eq. cbn [body].
      rewrite (alt_first _ _ _ _ _ E1).
      cbn [pbind]. destruct M as [j x X|j j1 a r' l X L M]; [congruence |].
      now rewrite (many1_many _ _ _ _ _ _ X M).
  Qed.

  (** ** Scripts *)

  Lemma nil_no : refuses (lim NExpr) [].
  Proof. eexists. vm_compute. reflexivity. Qed.

  (** A script of one expression. *)
  Lemma script_single i e : lim NExpr i = POk [] e -> i <> [] -> lim NScript i = POk [] (EDo [e]).
  Proof.
    intros E NE. rewrite lim_eq. cbn [body]. destruct nil_no as [x X].
    assert (D : (exists y, lim NStatement i = PErr y) \/ lim NStatement i = POk [] e).
    { rewrite lim_eq. cbn [body]. rewrite E. cbn [pbind text]. destruct e; eauto. }
    destruct D as [[y Y]|Y].
    - erewrite many0_many by (eapply many_stop; exact Y). cbn [pbind]. unfold opt at 1.
      rewrite E. reflexivity.
    - rewrite (many0_many _ i [] [e]).
      + cbn [pbind]. unfold opt at 1. rewrite X. reflexivity.
      + eapply many_more; [exact Y | destruct i; [congruence | simpl; lia] |].
        eapply many_stop. rewrite lim_eq. cbn [body]. rewrite X. reflexivity.
  Qed.
End Forward.
