(** Consequences of the evaluation rules. *)

From Coq Require Import String.
From Verif Require Import Base Syntax Host Ops Parser ErrorFmt Text Monad Builtins Eval
  MonoFacts EvalSpec EvalFacts MapFacts.

Lemma Forall_fix A (P : A -> Prop) (l : list A) :
  (fix all (l : list A) := match l with [] => True | x :: r => P x /\ all r end) l <-> Forall P l.
Proof.
  induction l as [| x l IH]; [split; constructor |]. rewrite IH. split.
  - intros [X Y]; now constructor.
  - intros X; now inversion X.
Qed.

Lemma Forall_fix_map A (P : A -> Prop) (l : list (str * A)) :
  (fix all (m : list (str * A)) := match m with [] => True | (_, x) :: r => P x /\ all r end) l
  <-> Forall P (map snd l).
Proof.
  induction l as [| [k x] l IH]; [split; constructor |]. rewrite IH. cbn. split.
  - intros [X Y]; now constructor.
  - intros X; now inversion X.
Qed.

Lemma Forall_map_snd A (P : A -> Prop) (l : list (str * A)) :
  Forall (fun kv => P (snd kv)) l -> Forall P (map snd l).
Proof. induction 1; constructor; auto. Qed.

Lemma data_list l : data (EList l) <-> Forall data l.
Proof. apply Forall_fix. Qed.
Lemma data_map m : data (EMap m) <-> Forall data (map snd m).
Proof. apply Forall_fix_map. Qed.

(** All items are nested less deep than [n] allows. *)
Lemma nesting_list l n :
  (nesting (EList l) <= n)%N <-> Forall (fun x => (1 + nesting x <= n)%N) l.
Proof.
  cbn [nesting]. induction l as [| x l IH]; [split; [constructor | lia] |].
  rewrite N.max_lub_iff, IH. split; [intros []; now constructor | intros X; now inversion X].
Qed.
Lemma nesting_map m n :
  (nesting (EMap m) <= n)%N <-> Forall (fun x => (1 + nesting x <= n)%N) (map snd m).
Proof.
  cbn [nesting]. induction m as [| [k x] l IH]; [split; [constructor | lia] |].
  cbn [map snd]. rewrite N.max_lub_iff, IH.
  split; [intros []; now constructor | intros X; now inversion X].
Qed.

Lemma fit_all n l :
  Forall (fun x => (1 + nesting x <= n)%N) l \/ ~ Forall (fun x => (1 + nesting x <= n)%N) l.
Proof.
  induction l as [| x l IH]; [left; constructor |].
  destruct (N.leb_spec (1 + nesting x) n); [| right; intros X; inversion X; lia].
  destruct IH as [Y | Y]; [left; now constructor | right; intros X; now inversion X].
Qed.

Section Core.
  Variable H : host.

  (** Going one level deeper. *)
  Lemma deeper_bound d n : (d <= MAX_DEPTH)%N -> (d + n <= MAX_DEPTH <-> n <= MAX_DEPTH - d)%N.
  Proof. lia. Qed.

  Definition data_result (d : N) (e : expr) (r : res expr) : Prop :=
    ((d + nesting e <= MAX_DEPTH)%N -> r = ROk e)
    /\ (~ (d + nesting e <= MAX_DEPTH)%N -> exists x, r = RErr (RecursionDepth x)).

  Lemma data_items d l s :
    (d <= MAX_DEPTH)%N ->
    Forall (fun x => forall d s, exists r, evaluates H d x s r s /\ data_result d x r) l ->
    exists r, evaluates_all H (d + 1) l s r s
      /\ ((Forall (fun x => 1 + nesting x <= MAX_DEPTH - d)%N l) -> r = ROk l)
      /\ (~ (Forall (fun x => 1 + nesting x <= MAX_DEPTH - d)%N l) ->
          exists x, r = RErr (RecursionDepth x)).
  Proof.
    intros L F. induction F as [| x l X F IH].
    - exists (ROk []). split; [constructor |]. split; [auto | intros N; destruct N; constructor].
    - destruct (X (d + 1)%N s) as (r & E & OK & BAD). destruct IH as (rs & E2 & OK2 & BAD2).
      destruct (N.leb_spec (1 + nesting x) (MAX_DEPTH - d)) as [B | B].
      + rewrite OK in E by lia.
        destruct rs as [vs | e | p | c |].
        * exists (ROk (x :: vs)). split; [econstructor; eauto |].
          assert (FD : Forall (fun x => 1 + nesting x <= MAX_DEPTH - d)%N l).
          { destruct (fit_all (MAX_DEPTH - d) l) as [Y | Y]; auto.
            destruct (BAD2 Y). discriminate. }
          split; [| intros N; destruct N; now constructor].
          intros _. specialize (OK2 FD). congruence.
        * exists (RErr e). split; [eapply io_later; [exact E | exact E2 | constructor] |].
          split.
          -- intros Y. inversion Y; subst. specialize (OK2 H3). discriminate.
          -- intros Y. destruct BAD2 as [z Z]; [| exists z; congruence].
             intros W. apply Y. now constructor.
        * exfalso. destruct (fit_all (MAX_DEPTH - d) l) as [Y | Y].
          -- specialize (OK2 Y). discriminate.
          -- destruct (BAD2 Y). discriminate.
        * exfalso. destruct (fit_all (MAX_DEPTH - d) l) as [Y | Y].
          -- specialize (OK2 Y). discriminate.
          -- destruct (BAD2 Y). discriminate.
        * exfalso. destruct (fit_all (MAX_DEPTH - d) l) as [Y | Y].
          -- specialize (OK2 Y). discriminate.
          -- destruct (BAD2 Y). discriminate.
      + destruct BAD as [y ->]; [lia |]. exists (RErr (RecursionDepth y)). split.
        * eapply io_first; [exact E | constructor].
        * split; [intros Y; inversion Y; lia | eauto].
  Qed.

  Lemma combine_keys (m : bmap expr) : combine (map fst m) (map snd m) = m.
  Proof. induction m as [| [k x] m IH]; cbn; congruence. Qed.

  Lemma Forall_items l :
    Forall (fun e => data e -> forall d s, exists r, evaluates H d e s r s /\ data_result d e r) l ->
    Forall data l ->
    Forall (fun x => forall d s, exists r, evaluates H d x s r s /\ data_result d x r) l.
  Proof.
    intros F D. rewrite Forall_forall in *. intros x X. apply F; auto.
  Qed.

  Lemma data_evaluates e : data e ->
    forall d s, exists r, evaluates H d e s r s /\ data_result d e r.
  Proof.
    induction e using expr_ind2 with (Q := fun _ => True); cbn [data];
      try contradiction; try exact I; intros D d t.
    all: destruct (N.leb_spec d MAX_DEPTH) as [L | L];
      [| eexists; split; [apply evaluates_deep; [exact L | split; reflexivity] |];
         split; [intros; lia | eauto]].
    all: try (eexists; split;
              [apply rule_value; [exact L | exact I | split; reflexivity] |];
              split; [reflexivity | cbn [nesting]; intros; lia]).
    - apply data_list in D.
      destruct (data_items d l t L (Forall_items _ H0 D)) as (r & E & OK & BAD).
      assert (Q : (d + nesting (EList l) <= MAX_DEPTH)%N
                 <-> Forall (fun x => 1 + nesting x <= MAX_DEPTH - d)%N l).
      { rewrite <- nesting_list. lia. }
      unfold data_result. setoid_rewrite Q.
      destruct r as [vs | e | p | c |].
      + exists (ROk (EList vs)). split; [apply rule_list; eauto |].
        split; [intros X; specialize (OK X); congruence |].
        intros X. destruct (BAD X). discriminate.
      + exists (RErr e). split.
        * apply rule_list; [exact L |]. right. exists (RErr e). split; [exact E | constructor].
        * split; [intros X; specialize (OK X); discriminate |].
          intros X. destruct (BAD X) as [x Y]. exists x. congruence.
      + exists (RPanic p). split.
        * apply rule_list; [exact L |]. right. exists (RPanic p). split; [exact E | constructor].
        * split; [intros X; specialize (OK X); discriminate |].
          intros X. destruct (BAD X) as [x Y]. discriminate.
      + exists (RExit c). split.
        * apply rule_list; [exact L |]. right. exists (RExit c). split; [exact E | constructor].
        * split; [intros X; specialize (OK X); discriminate |].
          intros X. destruct (BAD X) as [x Y]. discriminate.
      + exfalso. clear - E. remember (@RFuel (list expr)) as r eqn:R.
        induction E; try discriminate; subst; inversion H1 || inversion H2.
    - apply data_map in D.
      apply (Forall_map_snd _ (fun e => data e -> forall d s, exists r, evaluates H d e s r s /\ data_result d e r)) in H0.
      destruct (data_items d (map snd m) t L (Forall_items _ H0 D)) as (r & E & OK & BAD).
      assert (Q : (d + nesting (EMap m) <= MAX_DEPTH)%N
                 <-> Forall (fun x => 1 + nesting x <= MAX_DEPTH - d)%N (map snd m)).
      { rewrite <- nesting_map. lia. }
      unfold data_result. setoid_rewrite Q.
      destruct r as [vs | e | p | c |].
      + exists (ROk (EMap (combine (map fst m) vs))). split; [apply rule_map; eauto |].
        split; [intros X; specialize (OK X); injection OK as ->; now rewrite combine_keys |].
        intros X. destruct (BAD X). discriminate.
      + exists (RErr e). split.
        * apply rule_map; [exact L |]. right. exists (RErr e). split; [exact E | constructor].
        * split; [intros X; specialize (OK X); discriminate |].
          intros X. destruct (BAD X) as [x Y]. exists x. congruence.
      + exists (RPanic p). split.
        * apply rule_map; [exact L |]. right. exists (RPanic p). split; [exact E | constructor].
        * split; [intros X; specialize (OK X); discriminate |].
          intros X. destruct (BAD X) as [x Y]. discriminate.
      + exists (RExit c). split.
        * apply rule_map; [exact L |]. right. exists (RExit c). split; [exact E | constructor].
        * split; [intros X; specialize (OK X); discriminate |].
          intros X. destruct (BAD X) as [x Y]. discriminate.
      + exfalso. clear - E. remember (@RFuel (list expr)) as r eqn:R.
        induction E; try discriminate; subst; inversion H1 || inversion H2.
  Qed.

  (** ** Calls *)

  Lemma with_env_same s : with_env (s_env s) s = s.
  Proof. now destruct s. Qed.

  Lemma takes_eval n b : takes (S n) b -> forall d s r s',
    evaluates H d b s r s' ->
    s_env s' = s_env s /\ (forall v, r = ROk v -> exists p b' c', v = ELambda p b' c' /\ takes n b').
  Proof.
    intros T. remember (S n) as m eqn:M. revert n M.
    induction T as [b | m p b c T IH | m b T IH]; intros n M d s r s' E; try discriminate.
    - injection M as ->. destruct (N.leb_spec d MAX_DEPTH) as [L | L].
      + apply rule_lambda in E; [| exact L]. destruct E as [-> ->]. split; [reflexivity |].
        intros v X. injection X as <-. eauto.
      + apply evaluates_deep in E; [| exact L]. destruct E as [-> ->].
        split; [reflexivity | discriminate].
    - destruct (N.leb_spec d MAX_DEPTH) as [L | L].
      + apply rule_group in E; [| exact L]. eapply IH; eauto.
      + apply evaluates_deep in E; [| exact L]. destruct E as [-> ->].
        split; [reflexivity | discriminate].
  Qed.

  (** Applying a function value to arguments. *)
  Lemma call_keeps E args : forall d f s p b c r s',
    (d <= MAX_DEPTH)%N ->
    s_env s = E -> Forall (keeps_vars H E) args -> takes (length args - 1) b ->
    lim (fun n => apply_value H (eval H n d) (eval H n 0) (ELambda p b c) f args) s r s' ->
    s_env s' = E.
  Proof.
    induction args as [| a args IH]; intros d f s p b c r s' L SE F T X.
    - cbn [apply_value] in X. apply lim_throw in X. destruct X as [_ ->]. exact SE.
    - inversion F as [| a' args' KA F2]; subst a' args'.
      destruct args as [| a2 args].
      + apply apply_lambda1 in X.
        destruct X as [(v & s1 & s2 & E1 & E2 & ->) | (r1 & E1 & _)].
        * cbn. exact (KA d s _ _ SE E1).
        * exact (KA d s _ _ SE E1).
      + apply apply_lambda2 in X.
        destruct X as [(v & s1 & g & s2 & E1 & E2 & E3)
                      | [(v & s1 & r1 & s2 & E1 & E2 & _ & ->) | (r1 & E1 & _)]].
        * assert (S1 := KA d s _ _ SE E1). cbn [length] in T. rewrite Nat.sub_succ, Nat.sub_0_r in T.
          destruct (takes_eval _ _ T _ _ _ _ E2) as [_ G].
          destruct (G g eq_refl) as (p' & b' & c' & -> & T').
          apply rule_apply in E3; [| exact L].
          destruct (N.leb_spec (d + 1) MAX_DEPTH) as [L' | L'].
          2: { destruct E3 as [(g & s3 & E3 & E4) | (r1 & E3 & _)];
               apply evaluates_deep in E3; try exact L'; destruct E3 as [E3 E3'];
               [discriminate | subst s'; exact S1]. }
          destruct E3 as [(g & s3 & E3 & E4) | (r1 & E3 & _)];
            apply rule_lambda in E3; try exact L'; destruct E3 as [E3 ->].
          -- injection E3 as ->. eapply IH; [exact L' | | exact F2 | | exact E4].
             ++ exact S1.
             ++ cbn [length]. now rewrite Nat.sub_succ, Nat.sub_0_r.
          -- exact S1.
        * cbn. exact (KA d s _ _ SE E1).
        * exact (KA d s _ _ SE E1).
  Qed.

  (** A call through a stored function. *)
  Lemma call_stored d f x s p b c v r s' :
    (d + 1 <= MAX_DEPTH)%N ->
    env_get f (s_env s) = Some (ELambda p b c) ->
    evaluates H (d + 1) x s (ROk v) s ->
    (evaluates H d (EApply (ESymbol f) [x]) s r s' <->
     exists s2, evaluates H (d + 1) b (with_env (call_env p v c (s_env s)) s) r s2
                /\ s' = with_env (s_env s) s2).
  Proof.
    intros L G E. rewrite rule_apply by lia. split.
    - intros [(g & s1 & X & Y) | (r1 & X & F)]; (apply rule_symbol in X; [| exact L]);
        rewrite G in X; destruct X as [X ->].
      + injection X as ->. apply apply_lambda1 in Y.
        destruct Y as [(w & s1 & s2 & E1 & E2 & ->) | (r1 & E1 & F)].
        * destruct (evaluates_det _ _ _ _ _ _ _ _ E E1) as [Q ->]. injection Q as <-. eauto.
        * destruct (evaluates_det _ _ _ _ _ _ _ _ E E1) as [<- _]. inversion F.
      + subst r1. inversion F.
    - intros (s2 & E2 & ->). left. exists (ELambda p b c), s.
      split; [apply rule_symbol; [exact L | rewrite G; auto] |].
      apply apply_lambda1. left. exists v, s, s2. auto.
  Qed.

  (** ** Captured variables *)

  Lemma capture_symbols_get e p c syms : forall t x,
    env_get x (capture_symbols e p c syms t)
    = if existsb (str_eqb x) syms && negb (str_eqb x p) && negb (env_is_defined x c)
      then match env_get x e with Some v => Some v | None => env_get x t end
      else env_get x t.
  Proof.
    unfold capture_symbols. induction syms as [| y syms IH]; intros t x; cbn [fold_left existsb];
      [reflexivity |].
    rewrite IH.
    assert (Q : env_get x
                 (if negb (str_eqb y p) && negb (env_is_defined y c)
                  then match env_get y e with Some v => env_define y v t | None => t end else t)
               = if str_eqb x y && negb (str_eqb x p) && negb (env_is_defined x c)
                 then match env_get x e with Some v => Some v | None => env_get x t end
                 else env_get x t).
    { destruct (str_eqb x y) eqn:EQ.
      - apply str_eqb_eq in EQ. subst y. cbn [andb].
        destruct (negb (str_eqb x p) && negb (env_is_defined x c)); [| reflexivity].
        destruct (env_get x e); [| reflexivity]. now rewrite env_get_define, str_eqb_refl.
      - cbn [andb]. destruct (negb (str_eqb y p) && negb (env_is_defined y c)); [| reflexivity].
        destruct (env_get y e); [| reflexivity]. now rewrite env_get_define, EQ. }
    rewrite Q. clear Q IH.
    destruct (str_eqb x y), (existsb (str_eqb x) syms), (negb (str_eqb x p)),
      (negb (env_is_defined x c)), (env_get x e); reflexivity.
  Qed.

  Lemma existsb_str x l : existsb (str_eqb x) l = true <-> In x l.
  Proof.
    rewrite existsb_exists. split.
    - intros (y & I & E). apply str_eqb_eq in E. now subst.
    - intros I. exists x. split; [exact I | apply str_eqb_refl].
  Qed.
End Core.
