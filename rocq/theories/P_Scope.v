(** C13: the laws of variable scopes. *)

From Coq Require Import String.
From Verif Require Import Base Syntax MapFacts.

(** The scopes of an environment, innermost first. *)
Fixpoint scopes (e : env) : list (list (str * expr)) :=
  match e with
  | Env b None => [b]
  | Env b (Some p) => b :: scopes p
  end.

(** Every scope has each name at most once (true of every [BTreeMap]). *)
Definition well_formed (e : env) : Prop := Forall (fun b => sorted b) (scopes e).

(** [v] is the value of [x] in the first of the scopes that has [x]. *)
Definition innermost (x : str) (v : expr) (bs : list (list (str * expr))) : Prop :=
  exists before b after,
    bs = before ++ b :: after
    /\ (forall b' w, In b' before -> ~ In (x, w) b')
    /\ In (x, v) b.

Definition nowhere (x : str) (bs : list (list (str * expr))) : Prop :=
  forall b w, In b bs -> ~ In (x, w) b.

Lemma scopes_cons b p : scopes (Env b p) = b :: match p with Some q => scopes q | None => [] end.
Proof. now destruct p. Qed.

Lemma get_none_in (b : list (str * expr)) x :
  sorted b -> (bm_get x b = None <-> forall w, ~ In (x, w) b).
Proof.
  intros S. split.
  - intros N w X. apply (sorted_get_in b x w S) in X. congruence.
  - intros N. destruct (bm_get x b) as [v |] eqn:E; [| reflexivity].
    apply (sorted_get_in b x v S) in E. destruct (N v E).
Qed.

(** Looking up a name gives the innermost definition. *)
Theorem C13_lookup_innermost e x v :
  well_formed e -> (env_get x e = Some v <-> innermost x v (scopes e)).
Proof.
  unfold well_formed. induction e as [b p IH] using env_chain_ind.
  rewrite scopes_cons. intros W. inversion W as [| b0 bs S W2]; subst. cbn [env_get].
  destruct (bm_get x b) as [w |] eqn:E.
  - split.
    + intros X. injection X as ->. exists [], b, (match p with Some q => scopes q | None => [] end).
      split; [reflexivity |]. split; [intros b' u [] |]. now apply sorted_get_in.
    + intros (bf & b1 & af & EQ & NB & I1). destruct bf as [| b2 bf].
      * injection EQ as -> _. apply sorted_get_in in I1; [congruence | exact S].
      * injection EQ as -> _. apply (sorted_get_in _ x w S) in E.
        destruct (NB b2 w (or_introl eq_refl) E).
  - assert (N := proj1 (get_none_in b x S) E). destruct p as [q |].
    + cbn in IH. rewrite (IH W2). split.
      * intros (bf & b1 & af & -> & NB & I1). exists (b :: bf), b1, af.
        split; [reflexivity |]. split; [| exact I1].
        intros b' u [<- | X]; [apply N | now apply NB].
      * intros (bf & b1 & af & EQ & NB & I1). destruct bf as [| b2 bf].
        -- injection EQ as -> _. destruct (N v I1).
        -- injection EQ as -> EQ. exists bf, b1, af. split; [exact EQ |]. split; [| exact I1].
           intros b' u X. apply NB. now right.
    + split; [discriminate |]. intros (bf & b1 & af & EQ & NB & I1).
      destruct bf as [| b2 bf]; [injection EQ as -> _; destruct (N v I1) |].
      injection EQ as _ EQ. destruct bf; discriminate.
Qed.

(** Lookup fails exactly when no scope has the name. *)
Theorem C13_lookup_nowhere e x :
  well_formed e -> (env_get x e = None <-> nowhere x (scopes e)).
Proof.
  unfold well_formed, nowhere. induction e as [b p IH] using env_chain_ind.
  rewrite scopes_cons. intros W. inversion W as [| b0 bs S W2]; subst. cbn [env_get].
  destruct (bm_get x b) as [w |] eqn:E.
  - split; [discriminate |]. intros X.
    apply (sorted_get_in _ x w S) in E. destruct (X b w (or_introl eq_refl) E).
  - assert (N := proj1 (get_none_in b x S) E). destruct p as [q |].
    + cbn in IH. rewrite (IH W2). split.
      * intros X b' u [<- | Y]; [apply N | now apply X].
      * intros X b' u Y. apply X. now right.
    + split; [intros _ b' u [<- | []]; apply N | reflexivity].
Qed.

(** Defining a name changes that name, in the innermost scope only. *)
Theorem C13_define e x v :
  env_get x (env_define x v e) = Some v
  /\ (forall y, y <> x -> env_get y (env_define x v e) = env_get y e)
  /\ tl (scopes (env_define x v e)) = tl (scopes e)
  /\ (well_formed e -> well_formed (env_define x v e)).
Proof.
  split; [rewrite env_get_define, str_eqb_refl; reflexivity |].
  split; [intros y N; rewrite env_get_define; apply str_eqb_neq in N; now rewrite N |].
  destruct e as [b p]. cbn [env_define]. unfold well_formed. rewrite !scopes_cons.
  split; [reflexivity |]. intros W. inversion W; subst. constructor; [now apply sorted_insert | auto].
Qed.

(** Removing a name uncovers an outer definition and changes nothing else. *)
Theorem C13_undefine e x :
  env_get x (env_undefine x e)
    = match env_parent e with Some p => env_get x p | None => None end
  /\ (forall y, y <> x -> env_get y (env_undefine x e) = env_get y e)
  /\ tl (scopes (env_undefine x e)) = tl (scopes e)
  /\ (well_formed e -> well_formed (env_undefine x e)).
Proof.
  split; [rewrite env_get_undefine, str_eqb_refl; reflexivity |].
  split; [intros y N; rewrite env_get_undefine; apply str_eqb_neq in N; now rewrite N |].
  destruct e as [b p]. cbn [env_undefine]. unfold well_formed. rewrite !scopes_cons.
  split; [reflexivity |]. intros W. inversion W; subst. constructor; [now apply sorted_remove | auto].
Qed.

(** A name is reported defined exactly when lookup succeeds. *)
Theorem C13_is_defined e x :
  env_is_defined x e = true <-> exists v, env_get x e = Some v.
Proof.
  rewrite env_is_defined_get. destruct (env_get x e) as [v |].
  - split; [eauto | discriminate].
  - split; [congruence | intros [v E]; discriminate].
Qed.

(** An environment of two scopes: the inner [x] hides the outer one. *)
Definition two_scopes : env :=
  Env [(lit "x", EInteger 1); (lit "y", EInteger 2)]
      (Some (Env [(lit "x", EInteger 7); (lit "z", ENone)] None)).

Example C13_well_formed : well_formed two_scopes.
Proof. unfold well_formed, sorted. cbn [two_scopes scopes]. repeat constructor. Qed.

Example C13_example :
  env_get (lit "x") two_scopes = Some (EInteger 1)
  /\ env_get (lit "x") (env_undefine (lit "x") two_scopes) = Some (EInteger 7)
  /\ env_get (lit "z") (env_define (lit "x") ENone two_scopes) = Some ENone
  /\ env_is_defined (lit "w") two_scopes = false.
Proof. vm_compute. auto. Qed.

Print Assumptions C13_lookup_innermost.
Print Assumptions C13_lookup_nowhere.
Print Assumptions C13_define.
Print Assumptions C13_undefine.
Print Assumptions C13_is_defined.
