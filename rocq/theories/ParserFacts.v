(** Lemmas about the parser: it finishes, consumes from the front, and panics
    only on undecodable string tokens. *)

From Coq Require Import String.
From Verif Require Import Base Syntax Tokenizer Parser TokFacts.

(** The token can be turned into an expression without panic. *)
Definition decodable (t : token) : Prop :=
  t_kind t = TkStringLiteral -> unescape (t_text t) <> None.

Definition suffix {A} (r i : list A) : Prop := exists c, i = c ++ r.

Lemma suffix_refl {A} (i : list A) : suffix i i.
Proof. exists []. reflexivity. Qed.
Lemma suffix_trans {A} (a b c : list A) : suffix a b -> suffix b c -> suffix a c.
Proof. intros [x ->] [y ->]. exists (y ++ x). now rewrite app_assoc. Qed.
Lemma suffix_cons {A} (x : A) (r i : list A) : suffix r i -> suffix r (x :: i).
Proof. intros [c ->]. exists (x :: c). reflexivity. Qed.
Lemma suffix_len {A} (r i : list A) : suffix r i -> length r <= length i.
Proof. intros [c ->]. rewrite app_length. lia. Qed.
Lemma suffix_Forall {A} (P : A -> Prop) r i : suffix r i -> Forall P i -> Forall P r.
Proof. intros [c ->] F. apply Forall_app in F. apply F. Qed.

(** A proper outcome on the tokens [i]. *)
Definition good {A} (i : list token) (r : pres A) : Prop :=
  match r with
  | POk r' _ => suffix r' i
  | PErr _ | PFail _ => True
  | PPanic => ~ Forall decodable i
  | PFuel => False
  end.

Lemma good_suffix {A} i j (r : pres A) : good i r -> suffix i j -> good j r.
Proof.
  intros G S. destruct r; simpl in *; auto.
  - eapply suffix_trans; eassumption.
  - intros F. apply G. eapply suffix_Forall; eassumption.
Qed.

Lemma good_bind {A B} i (m : pres A) (k : list token -> A -> pres B) :
  good i m -> (forall i' a, m = POk i' a -> suffix i' i -> good i' (k i' a)) ->
  good i (pbind m k).
Proof.
  intros G K. destruct m; simpl in *; auto.
  eapply good_suffix; [now apply K | exact G].
Qed.

Lemma good_map_fail {A} i e (m : pres A) : good i m -> good i (map_fail e m).
Proof. destruct m; simpl; auto. Qed.
Lemma good_map_expected {A} i e (m : pres A) : good i m -> good i (map_expected e m).
Proof. destruct m; simpl; auto. Qed.

Lemma map_fail_ok {A} e (m : pres A) i a : map_fail e m = POk i a -> m = POk i a.
Proof. destruct m; simpl; congruence. Qed.

Lemma good_pmap {A B} (f : A -> B) p i : good i (p i) -> good i (pmap f p i).
Proof. intros G. unfold pmap. apply good_bind; [exact G |]. intros. apply suffix_refl. Qed.

Lemma good_alt_rest {A} (ps : list (parser A)) i : Forall (fun p => good i (p i)) ps ->
  forall e, good i (alt_rest ps e i).
Proof.
  induction 1 as [|p ps G F IH]; intros e; simpl; [exact I |].
  destruct (p i); simpl in *; auto.
Qed.

Lemma good_alt {A} (p : parser A) ps i : Forall (fun p => good i (p i)) (p :: ps) ->
  good i (alt (p :: ps) i).
Proof.
  intros F. inversion F; subst. simpl. destruct (p i); simpl in *; auto.
  now apply good_alt_rest.
Qed.

Lemma good_opt {A} (p : parser A) i : good i (p i) -> good i (opt p i).
Proof. intros G. unfold opt. destruct (p i); simpl in *; auto. apply suffix_refl. Qed.

(** Parsers that behave on every suffix of [i]. *)
Definition good_on {A} (i : list token) (p : parser A) : Prop :=
  forall j, suffix j i -> good j (p j).

Lemma good_many0_loop {A} k (p : parser A) : forall fuel i, length i < fuel -> good_on i p ->
  good i (many0_loop k fuel p i).
Proof.
  induction fuel as [|fuel IH]; intros i L G; [lia |]. simpl.
  pose proof (G i (suffix_refl i)) as Gi. destruct (p i) as [i1 a| | | |] eqn:E; simpl in *; auto.
  - destruct (Nat.eqb_spec (length i1) (length i)); [exact I |].
    pose proof (suffix_len _ _ Gi) as L1.
    eapply good_suffix; [| exact Gi]. apply good_bind.
    + apply IH; [lia |]. intros j Sj. apply G. eapply suffix_trans; eassumption.
    + intros. apply suffix_refl.
  - apply suffix_refl.
Qed.

Lemma good_many0 {A} (p : parser A) i : good_on i p -> good i (many0 p i).
Proof. intros G. unfold many0. apply good_many0_loop; [lia | exact G]. Qed.

Lemma good_many1 {A} (p : parser A) i : good_on i p -> good i (many1 p i).
Proof.
  intros G. unfold many1. pose proof (G i (suffix_refl i)) as Gi.
  destruct (p i) as [i1 a| | | |] eqn:E; try exact Gi; try exact I.
  eapply good_suffix; [| exact Gi]. apply good_bind.
  - apply good_many0_loop; [lia |]. intros j Sj. apply G. eapply suffix_trans; eassumption.
  - intros. apply suffix_refl.
Qed.

Lemma good_on_suffix {A} (p : parser A) i j : good_on i p -> suffix j i -> good_on j p.
Proof. intros G S k K. apply G. eapply suffix_trans; eassumption. Qed.

Lemma good_sep_loop {A B} (s : parser B) (p : parser A) : forall fuel i, length i < fuel ->
  good_on i s -> good_on i p -> good i (sep_loop fuel s p i).
Proof.
  induction fuel as [|fuel IH]; intros i L Gs Gp; [lia |]. cbn [sep_loop].
  pose proof (Gs i (suffix_refl i)) as Gi.
  destruct (s i) as [i1 a| | | |] eqn:E; try exact Gi; try exact I; [| apply suffix_refl].
  destruct (Nat.eqb_spec (length i1) (length i)); [exact I |].
  simpl in Gi. pose proof (suffix_len _ _ Gi) as L1. pose proof (Gp i1 Gi) as Gi1.
  destruct (p i1) as [i2 b| | | |] eqn:E2; try exact I;
    try (eapply good_suffix; [exact Gi1 | exact Gi]); [| apply suffix_refl].
  simpl in Gi1. pose proof (suffix_len _ _ Gi1) as L2.
  pose proof (suffix_trans _ _ _ Gi1 Gi) as S2.
  eapply good_suffix; [| exact S2]. apply good_bind.
  - apply IH; [lia | |]; eapply good_on_suffix; eassumption.
  - intros. apply suffix_refl.
Qed.

Lemma good_separated_list0 {A B} (s : parser B) (p : parser A) i :
  good_on i s -> good_on i p -> good i (separated_list0 s p i).
Proof.
  intros Gs Gp. unfold separated_list0. pose proof (Gp i (suffix_refl i)) as Gi.
  destruct (p i) as [i1 a| | | |] eqn:E; try exact Gi; try exact I; [| apply suffix_refl].
  eapply good_suffix; [| exact Gi]. apply good_bind.
  - apply good_sep_loop; [lia | |]; eapply good_on_suffix; eassumption.
  - intros. apply suffix_refl.
Qed.

Lemma text_ok s i r t : text s i = POk r t -> i = t :: r /\ t_text t = s.
Proof.
  unfold text. destruct i as [|u i]; [discriminate |].
  destruct (str_eqb (t_text u) s) eqn:E; [| discriminate]. intros F. inversion F; subst.
  split; [reflexivity |]. revert E. generalize (t_text t). revert s.
  induction s as [|c s IH]; intros [|d u]; simpl; try discriminate; [reflexivity |].
  destruct (N.eqb_spec d c) as [->|]; [| discriminate]. simpl. intros E. f_equal. now apply IH.
Qed.

Lemma kind_ok k i r t : kind k i = POk r t -> i = t :: r /\ t_kind t = k.
Proof.
  unfold kind. destruct i as [|u i]; [discriminate |].
  destruct (kind_eqb (t_kind u) k) eqn:E; [| discriminate]. intros F. inversion F; subst.
  split; [reflexivity |]. destruct (t_kind t), k; simpl in E; congruence.
Qed.

Lemma good_text s i : good i (text s i).
Proof.
  unfold text. destruct i as [|t i]; [exact I |].
  destruct (str_eqb _ _); [| exact I]. exists [t]. reflexivity.
Qed.

Lemma good_kind k i : good i (kind k i).
Proof.
  unfold kind. destruct i as [|t i]; [exact I |].
  destruct (kind_eqb _ _); [| exact I]. exists [t]. reflexivity.
Qed.

Lemma alt_rest_ok {A} (ps : list (parser A)) e i r a :
  alt_rest ps e i = POk r a -> exists p, In p ps /\ p i = POk r a.
Proof.
  revert e. induction ps as [|p ps IH]; intros e; simpl; [discriminate |].
  destruct (p i) eqn:E; intros F; try discriminate.
  - exists p. split; [now left | congruence].
  - destruct (IH _ F) as (q & Q & G). eauto.
Qed.

Lemma alt_ok {A} (ps : list (parser A)) i r a :
  alt ps i = POk r a -> exists p, In p ps /\ p i = POk r a.
Proof.
  destruct ps as [|p ps]; simpl; [discriminate |].
  destruct (p i) eqn:E; intros F; try discriminate.
  - exists p. split; [now left | congruence].
  - destruct (alt_rest_ok _ _ _ _ _ F) as (q & Q & G). eauto.
Qed.

Lemma texts_ok l i r t : alt (map text l) i = POk r t -> i = t :: r /\ In (t_text t) l.
Proof.
  intros E. apply alt_ok in E. destruct E as (p & I & E). apply in_map_iff in I.
  destruct I as (s & <- & I). apply text_ok in E. destruct E as [E1 E2]. subst. auto.
Qed.

Lemma good_texts x l i : good i (alt (map text (x :: l)) i).
Proof.
  simpl map. apply good_alt. constructor; [apply good_text |].
  apply Forall_map. apply Forall_forall. intros. apply good_text.
Qed.

Lemma no_terminating_ok slen i r u : no_terminating slen i = POk r u -> r = i.
Proof.
  unfold no_terminating. destruct i; [congruence |].
  destruct (_ && _); congruence.
Qed.

Lemma good_no_terminating slen i : good i (no_terminating slen i).
Proof.
  unfold no_terminating. destruct i; [apply suffix_refl |].
  destruct (_ && _); [exact I | apply suffix_refl].
Qed.

Lemma good_parse_symbol i : good i (parse_symbol i).
Proof. apply good_pmap, good_kind. Qed.
Lemma good_parse_operator i : good i (parse_operator i).
Proof. apply good_pmap, good_kind. Qed.
Lemma good_operator_symbol i : good i (parse_operator_as_symbol i).
Proof. apply good_pmap, good_parse_operator. Qed.

Lemma good_parse_integer i : good i (parse_integer i).
Proof.
  apply good_bind; [apply good_kind |]. intros. destruct (parse_i64 _); [apply suffix_refl | exact I].
Qed.
Lemma good_parse_float i : good i (parse_float i).
Proof.
  apply good_bind; [apply good_kind |]. intros. destruct (parse_f64 _); [apply suffix_refl | exact I].
Qed.
Lemma good_parse_boolean i : good i (parse_boolean i).
Proof. apply good_pmap, good_kind. Qed.

Lemma good_parse_none slen i : good i (parse_none slen i).
Proof.
  unfold parse_none. pose proof (good_text (lit "None") i) as G.
  destruct (text _ i) as [r t| | | |]; simpl in G; auto;
    (destruct i as [|a [|b i]]; try exact I; destruct (_ && _); try exact I;
     exists [a; b]; reflexivity).
Qed.

Lemma good_parse_string i : good i (parse_string i).
Proof.
  unfold parse_string. pose proof (kind_ok TkStringLiteral i) as K. pose proof (good_kind TkStringLiteral i) as G.
  destruct (kind _ i) as [r t| | | |]; simpl in *; auto.
  destruct (K r t eq_refl) as [-> KT].
  destruct (unescape (t_text t)) eqn:U; [exact G |].
  intros F. inversion F as [|? ? D]; subst. now apply D.
Qed.

Lemma good_infix x ops p i : good_on i p -> good i (infix (x :: ops) p i).
Proof.
  intros G. unfold infix. apply good_bind; [apply G, suffix_refl |].
  intros j h _ S. apply good_bind.
  - apply good_many0. intros k Sk. unfold pair_p. apply good_bind; [apply good_texts |].
    intros k' t E S'. apply good_bind; [| intros; apply suffix_refl].
    apply G. repeat (eapply suffix_trans; [eassumption |]). apply suffix_refl.
  - intros. apply suffix_refl.
Qed.

(** Every operator token found by [infix] has one of the given texts. *)
Lemma many0_loop_forall {A} (P : A -> Prop) k (p : parser A) :
  (forall i r a, p i = POk r a -> P a) ->
  forall fuel i r l, many0_loop k fuel p i = POk r l -> Forall P l.
Proof.
  intros H. induction fuel as [|fuel IH]; intros i r l; simpl; [discriminate |].
  destruct (p i) as [i1 a| | | |] eqn:E; try discriminate.
  - destruct (Nat.eqb _ _); [discriminate |].
    destruct (many0_loop k fuel p i1) as [r' l'| | | |] eqn:F; simpl; try discriminate.
    intros X. inversion X; subst. constructor; eauto.
  - intros X. inversion X; subst. constructor.
Qed.

Lemma infix_ops ops p i r h l : infix ops p i = POk r (h, l) ->
  Forall (fun x => In (t_text (fst x)) ops) l.
Proof.
  unfold infix. destruct (p i) as [i1 a| | | |]; simpl; try discriminate.
  destruct (many0 _ i1) as [i2 l2| | | |] eqn:E; simpl; try discriminate.
  intros X. inversion X; subst. revert E. apply many0_loop_forall.
  intros j k [t e]. unfold pair_p. destruct (alt _ j) as [j1 t1| | | |] eqn:F; simpl; try discriminate.
  destruct (p j1) as [j2 e2| | | |]; simpl; try discriminate.
  intros Y. inversion Y; subst. simpl. now apply texts_ok in F.
Qed.

Lemma pipe_args_some l : Forall (fun x => In (t_text (fst x)) [lit "|"; lit ">>>"; lit ">>"; lit "<<"]) l ->
  forall args, pipe_args args l <> None.
Proof.
  induction 1 as [|[t e] l I F IH]; intros args; simpl; [discriminate |].
  simpl in I. destruct I as [<-|[<-|[<-|[<-|[]]]]]; simpl; auto.
  destruct (rev args); auto.
Qed.

(** ** Termination *)

(** Depth of the calls that a parser makes before a token is consumed. *)
Definition rank (n : nt) : nat :=
  match n with
  | NScript => 11 | NStatement => 10 | NExpr => 9 | NP7 => 8
  | NApply | NP6 => 7 | NRange | NP5 => 6 | NP4 => 5 | NP3 => 4 | NP2 => 3 | NP1 => 2
  | _ => 1
  end.

Lemma rank_bound n : rank n <= 11.
Proof. destruct n; simpl; lia. Qed.

Section Body.
  Variable slen : N.
  Variable call : nt -> parser expr.
  Variable f : nat.
  Hypothesis Call : forall m j, 12 * length j + rank m < f -> good j (call m j).

  Lemma call_lower n m (i : list token) : 12 * length i + rank n <= f -> rank m < rank n -> good_on i (call m).
  Proof. intros L R j S. apply suffix_len in S. apply Call. lia. Qed.

  Lemma call_shorter n m (i j : list token) : 12 * length i + rank n <= f -> length j < length i -> good_on j (call m).
  Proof. intros L R k S. apply suffix_len in S. pose proof (rank_bound m). apply Call. lia. Qed.

  Ltac tok :=
    match goal with
    | E : text _ _ = POk _ _ |- _ => apply text_ok in E; destruct E as [E _]
    | E : alt (map text _) _ = POk _ _ |- _ => apply texts_ok in E; destruct E as [E _]
    | E : kind _ _ = POk _ _ |- _ => apply kind_ok in E; destruct E as [E _]
    end.

  Ltac low n := eapply (call_lower n); [eassumption | simpl; lia | ];
                repeat (eassumption || apply suffix_refl || (eapply suffix_trans; [eassumption |])).

  Lemma good_body n i : 12 * length i + rank n <= f -> good i (body slen call n i).
  Proof.
    intros L. destruct n; cbn [body].
    - (* NScript *)
      apply good_bind; [apply good_many0, (call_lower NScript); [exact L | simpl; lia] |].
      intros j es _ S. apply good_bind.
      + apply good_opt. apply good_bind; [low NScript |].
        intros k e _ Sk. apply good_bind; [apply good_opt, good_text |].
        intros; apply suffix_refl.
      + intros; apply suffix_refl.
    - (* NStatement *)
      apply good_bind; [low NStatement |]. intros j e _ S.
      pose proof (good_text (lit ";") j) as G. destruct (text _ j); simpl in G; auto;
        destruct e; try exact I; apply suffix_refl.
    - (* NExpr *)
      apply good_bind; [apply good_no_terminating |]. intros j u E S. apply no_terminating_ok in E. subst j.
      apply good_bind; [apply good_infix, (call_lower NExpr); [exact L | simpl; lia] |].
      intros j [h l] E Sj. apply infix_ops in E. destruct l as [|x l]; [apply suffix_refl |].
      pose proof (pipe_args_some _ E [h]) as P.
      destruct (pipe_args [h] (x :: l)) as [[|? [|? ?]]|]; try apply suffix_refl. congruence.
    - (* NP7 *)
      apply good_bind; [apply good_no_terminating |]. intros j u E S. apply no_terminating_ok in E. subst j.
      simpl map. apply good_alt. repeat constructor; low NP7.
    - (* NFor *)
      apply good_bind; [apply good_text |]. intros j t E S. tok. subst i.
      assert (C : forall m, good_on j (call m)) by (intros m; eapply call_shorter; [exact L | simpl; lia]).
      apply good_bind; [apply good_map_fail, good_parse_symbol |]. intros k x _ Sk.
      apply good_bind; [apply good_map_fail, good_text |]. intros k1 ? _ S1.
      assert (C1 : forall m, good_on k1 (call m))
        by (intros m; eapply good_on_suffix; [apply C | eapply suffix_trans; eassumption]).
      apply good_bind.
      { apply good_map_fail, good_alt. repeat constructor; apply C1, suffix_refl. }
      intros k2 ? _ S2. apply good_bind; [apply good_map_fail, C1, S2 |].
      intros. apply suffix_refl.
    - (* NIf *)
      apply good_bind; [apply good_text |]. intros j t E S. tok. subst i.
      assert (C : forall m, good_on j (call m)) by (intros m; eapply call_shorter; [exact L | simpl; lia]).
      apply good_bind; [apply good_map_fail, C, suffix_refl |]. intros k x _ Sk.
      apply good_bind; [apply good_map_fail, C, Sk |]. intros k1 ? _ S1.
      pose proof (suffix_trans _ _ _ S1 Sk) as T1.
      apply good_bind.
      { apply good_opt. apply good_bind; [apply good_text |]. intros k2 ? _ S2.
        pose proof (suffix_trans _ _ _ S2 T1) as T2.
        apply good_alt. repeat constructor; apply C, T2. }
      intros. apply suffix_refl.
    - (* NAssign *)
      apply good_bind; [apply good_text |]. intros j t E S. tok. subst i.
      assert (C : forall m, good_on j (call m)) by (intros m; eapply call_shorter; [exact L | simpl; lia]).
      apply good_bind.
      { apply good_map_fail, good_alt. repeat constructor; [apply good_parse_symbol | apply good_parse_operator]. }
      intros k x _ Sk.
      apply good_bind; [apply good_map_fail, good_text |]. intros k1 ? _ S1.
      apply good_bind; [apply C; eapply suffix_trans; eassumption |]. intros. apply suffix_refl.
    - (* NCallable *)
      apply good_bind; [apply good_parse_symbol |]. intros j x E S.
      unfold parse_symbol, pmap in E. destruct (kind TkSymbol i) as [j' t'| | | |] eqn:EK; simpl in E; try discriminate.
      inversion E; subst j' x. apply kind_ok in EK. destruct EK as [-> _]. clear E.
      assert (C : forall m, good_on j (call m)) by (intros m; eapply call_shorter; [exact L | simpl; lia]).
      apply good_bind; [apply (good_texts (lit "->") [lit "~>"]) |].
      intros k t E Sk. apply (texts_ok [lit "->"; lit "~>"]) in E. destruct E as [_ E].
      apply good_bind; [apply good_map_fail, C, Sk |]. intros k1 ? _ S1.
      simpl in E. destruct E as [<-|[<-|[]]]; apply suffix_refl.
    - (* NApply *)
      apply good_bind.
      { apply good_alt. repeat constructor; [low NApply | apply good_operator_symbol]. }
      intros j fn _ S. apply good_bind; [| intros; apply suffix_refl].
      apply good_many1. eapply good_on_suffix; [| exact S].
      apply (call_lower NApply); [exact L | simpl; lia].
    - (* NApplyOp *)
      apply good_bind; [apply good_operator_symbol |]. intros j x E S.
      unfold parse_operator_as_symbol, parse_operator, pmap in E.
      destruct (kind TkOperator i) as [j' t'| | | |] eqn:EK; simpl in E; try discriminate.
      inversion E; subst j' x. apply kind_ok in EK. destruct EK as [-> _]. clear E.
      apply good_bind; [| intros ? [] ? ?; apply suffix_refl].
      apply good_many0. eapply call_shorter; [exact L | simpl; lia].
    - (* NP6 *)
      apply good_bind; [apply good_no_terminating |]. intros j u E S. apply no_terminating_ok in E. subst j.
      apply good_bind; [apply good_infix, (call_lower NP6); [exact L | simpl; lia] |].
      intros. apply suffix_refl.
    - (* NRange *)
      apply good_bind; [apply good_no_terminating |]. intros j u E S. apply no_terminating_ok in E. subst j.
      apply good_bind; [low NRange |]. intros j a _ Sj.
      apply good_bind; [apply good_text |]. intros k t _ Sk.
      apply good_bind; [apply good_map_fail; low NRange |]. intros. apply suffix_refl.
    - (* NP5 *)
      apply good_bind; [apply good_no_terminating |]. intros j u E S. apply no_terminating_ok in E. subst j.
      apply good_bind; [apply good_infix, (call_lower NP5); [exact L | simpl; lia] |].
      intros j [h l] _ Sj. destruct l; [| apply suffix_refl].
      pose proof (good_text (lit "to") j) as G.
      assert (NT : good j match call NNot j with
                          | POk i2 e => POk i2 e
                          | PPanic => PPanic
                          | PFuel => PFuel
                          | _ => POk j h
                          end).
      { assert (X : good j (call NNot j)) by low NP5.
        destruct (call NNot j); simpl in *; auto; apply suffix_refl. }
      destruct (text _ j) as [k t| | | |]; try exact NT.
      simpl in G. eapply good_suffix; [| exact G].
      apply good_bind; [apply good_map_fail; low NP5 |]. intros; apply suffix_refl.
    - (* NNot *)
      apply good_bind; [apply good_text |]. intros j t E S. tok. subst i.
      assert (C : forall m, good_on j (call m)) by (intros m; eapply call_shorter; [exact L | simpl; lia]).
      apply good_bind; [apply C, suffix_refl |]. intros. apply suffix_refl.
    - (* NP4 *)
      apply good_bind; [apply good_no_terminating |]. intros j u E S. apply no_terminating_ok in E. subst j.
      apply good_bind; [apply good_infix, (call_lower NP4); [exact L | simpl; lia] |].
      intros. apply suffix_refl.
    - (* NP3 *)
      apply good_bind; [apply good_no_terminating |]. intros j u E S. apply no_terminating_ok in E. subst j.
      apply good_bind; [apply good_infix, (call_lower NP3); [exact L | simpl; lia] |].
      intros. apply suffix_refl.
    - (* NP2 *)
      apply good_bind; [apply good_no_terminating |]. intros j u E S. apply no_terminating_ok in E. subst j.
      apply good_bind; [low NP2 |]. intros j h _ Sj.
      apply good_bind; [| intros ? [] ? ?; apply suffix_refl].
      apply good_many0. intros k Sk. unfold preceded.
      apply good_bind; [apply good_text |]. intros k1 t _ S1.
      apply good_alt. repeat constructor; [low NP2 | apply good_operator_symbol].
    - (* NP1 *)
      apply good_alt. repeat constructor; try (low NP1); try apply good_pmap.
      + apply good_parse_boolean.
      + apply good_parse_none.
      + apply good_parse_float.
      + apply good_parse_integer.
      + apply good_parse_string.
      + apply good_parse_symbol.
    - (* NGroup *)
      apply good_bind; [apply good_text |]. intros j t E S. tok. subst i.
      assert (C : forall m, good_on j (call m)) by (intros m; eapply call_shorter; [exact L | simpl; lia]).
      apply good_bind; [apply C, suffix_refl |]. intros k e _ Sk.
      apply good_bind; [| intros; apply suffix_refl].
      apply good_map_fail, good_alt. repeat constructor; [apply good_pmap, good_text |].
      destruct k; [apply suffix_refl | exact I].
    - (* NQuote *)
      apply good_bind; [apply good_text |]. intros j t E S. tok. subst i.
      assert (C : forall m, good_on j (call m)) by (intros m; eapply call_shorter; [exact L | simpl; lia]).
      apply good_bind; [apply C, suffix_refl |]. intros. apply suffix_refl.
    - (* NMap *)
      apply good_bind; [apply good_text |]. intros j t E S. tok. subst i.
      assert (C : forall m, good_on j (call m)) by (intros m; eapply call_shorter; [exact L | simpl; lia]).
      apply good_bind.
      { apply good_separated_list0; [intros ? ?; apply good_text |].
        intros k Sk. apply good_bind.
        { apply good_alt. repeat constructor; [apply good_parse_symbol | apply good_parse_operator]. }
        intros k1 ? _ S1. apply good_bind; [apply good_text |]. intros k2 ? _ S2.
        apply good_bind; [apply C | intros; apply suffix_refl].
        exact (suffix_trans _ _ _ S2 (suffix_trans _ _ _ S1 Sk)). }
      intros k m _ Sk. apply good_bind; [| intros; apply suffix_refl].
      destruct m; [apply good_map_expected | apply good_map_fail]; apply good_text.
    - (* NBlock *)
      apply good_bind; [apply good_text |]. intros j t E S. tok. subst i.
      assert (C : forall m, good_on j (call m)) by (intros m; eapply call_shorter; [exact L | simpl; lia]).
      apply good_bind; [apply C, suffix_refl |]. intros k e _ Sk.
      apply good_bind; [apply good_map_fail, good_text | intros; apply suffix_refl].
    - (* NList *)
      apply good_bind; [apply good_text |]. intros j t E S. tok. subst i.
      assert (C : forall m, good_on j (call m)) by (intros m; eapply call_shorter; [exact L | simpl; lia]).
      apply good_bind.
      { apply good_separated_list0; [intros ? ?; apply good_text | apply C]. }
      intros k e _ Sk. apply good_bind; [apply good_map_fail, good_text | intros; apply suffix_refl].
  Qed.
End Body.

Lemma parse_good slen : forall fuel n i, 12 * length i + rank n < fuel -> good i (parse slen fuel n i).
Proof.
  induction fuel as [|fuel IH]; intros n i L; [lia |]. cbn [parse].
  apply good_body with (f := fuel); [exact IH | lia].
Qed.

Lemma parse_script_good slen i : good i (parse slen (parse_fuel i) NScript i).
Proof. apply parse_good. unfold parse_fuel. simpl rank. lia. Qed.
