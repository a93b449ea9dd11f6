(** C131: the pictures of the weather. *)

From Coq Require Import String Lia ZArith.
From Verif Require Import Base Syntax Host Ops Parser Monad Builtins Eval Init EvalSpec
  OpsSpec EvalFacts LibSpec LibFacts OpsFacts RunFacts MapFacts CoreFacts P_Start
  LinesSpec WidgetSpec Prelude PreludeFacts WeatherSpec Demo.

(** ** The program *)

(** [desc == "a" || desc == "b" ...] *)
Definition one_of (texts : list string) : expr :=
  match map (fun t => EGroup (EApply (ESymbol (lit "==")) [ESymbol (lit "desc"); EString (lit t)])) texts with
  | [] => ENone
  | e :: l => fold_left (fun a b => EGroup (EApply (ESymbol (lit "||")) [a; b])) l e
  end.
Definition picture (name : string) : expr := EApply (ESymbol (lit "@")) [ESymbol (lit "WEATHER-ASCII"); ESymbol (lit name)].
Fixpoint chain (rows : list (list string * string)) : expr :=
  match rows with
  | [] => picture "Unknown"
  | (texts, name) :: r => EIf (one_of texts) (picture name) (EGroup (chain r))
  end.

Definition weather_body : expr := EDo [chain forecast].

Lemma weather_program :
  weather_definitions = [ EAssign (lit "WEATHER-ASCII") (EMap gallery);
                          EAssign (lit "get-weather-ascii") (ELambda (lit "desc") weather_body (Env [] None)) ].
Proof. vm_compute. reflexivity. Qed.

(** ** Running it *)

Section Chain.
  Variables (H : host) (s : st) (v : expr).
  Hypothesis O : outside (s_env s).
  Hypothesis D : env_get (lit "desc") (s_env s) = Some v.
  Hypothesis G : env_get (lit "WEATHER-ASCII") (s_env s) = Some (EMap gallery).

  Definition is_text (t : string) : bool := expr_eqb v (EString (lit t)).

  Lemma is_run t d : (d + 3 <= MAX_DEPTH)%N ->
    evaluates H d (EGroup (EApply (ESymbol (lit "==")) [ESymbol (lit "desc"); EString (lit t)])) s (ROk (EBoolean (is_text t))) s.
  Proof.
    intros L. destruct O as (E & _). apply run_group; [lia|].
    eapply run_builtin_call; [lia | apply run_symbol; [lia | exact E] |]. cbn [b_id].
    eapply run_compare2; [reflexivity | apply run_symbol; [discriminate | exact D] | apply run_value; [discriminate | exact I] | reflexivity].
  Qed.

  Lemma or_run l : forall a b, (forall d, (d + 3 <= MAX_DEPTH)%N -> evaluates H d a s (ROk (EBoolean b)) s) ->
    forall d, (d + 3 <= MAX_DEPTH)%N ->
    evaluates H d (fold_left (fun a b => EGroup (EApply (ESymbol (lit "||")) [a; b]))
                     (map (fun t => EGroup (EApply (ESymbol (lit "==")) [ESymbol (lit "desc"); EString (lit t)])) l) a)
      s (ROk (EBoolean (b || existsb is_text l))) s.
  Proof.
    destruct O as (_ & R & _).
    induction l as [|t l IH]; intros a b A d L; cbn [map fold_left existsb].
    - rewrite orb_false_r. now apply A.
    - rewrite orb_assoc. apply IH; [|exact L]. intros d' L'. apply run_group; [lia|].
      eapply run_builtin_call; [lia | apply run_symbol; [lia | exact R] |]. cbn [b_id].
      eapply run_logical; [reflexivity | |].
      + eapply run_all_cons; [apply A; discriminate|]. eapply run_all_cons; [apply is_run; discriminate|]. constructor.
      + cbn [existsb is_truthy]. now rewrite orb_false_r.
  Qed.

  Lemma one_of_run texts d : texts <> [] -> (d + 3 <= MAX_DEPTH)%N ->
    evaluates H d (one_of texts) s (ROk (EBoolean (existsb is_text texts))) s.
  Proof.
    destruct texts as [|t l]; [easy|]. intros _ L. unfold one_of. cbn [map existsb].
    apply or_run; [|exact L]. intros d' L'. now apply is_run.
  Qed.

  Lemma picture_run name d t : (d + 3 <= MAX_DEPTH)%N -> expr_index (EMap gallery) (ESymbol (lit name)) = t ->
    evaluates H d (picture name) s (ROk t) s.
  Proof.
    intros L T. destruct O as (_ & _ & A). eapply run_builtin_call; [lia | apply run_symbol; [lia | exact A] |].
    cbn [b_id]. eapply run_at_name; [exact I | apply run_symbol; [discriminate | exact G] | exact T].
  Qed.

  Lemma chain_run rows : Forall (fun r => fst r <> []) rows ->
    forall d, (d + N.of_nat (2 * length rows) + 4 <= MAX_DEPTH)%N ->
    exists name, evaluates H d (chain rows) s (ROk (expr_index (EMap gallery) (ESymbol (lit name)))) s
      /\ ((exists texts t, In (texts, name) rows /\ In t texts /\ is_text t = true)
          \/ name = "Unknown"%string /\ forall texts n t, In (texts, n) rows -> In t texts -> is_text t = false).
  Proof.
    induction 1 as [|[texts name] rows NE F IH]; intros d L.
    - exists "Unknown"%string. split; [apply picture_run; [cbn in L; lia | reflexivity] |]. right. split; [reflexivity | easy].
    - cbn [fst length chain] in *. destruct (existsb is_text texts) eqn:B.
      + exists name. split.
        * eapply run_if; [lia | apply one_of_run; [exact NE | lia] |]. rewrite B. cbn [is_truthy]. apply picture_run; [lia | reflexivity].
        * left. apply existsb_exists in B. destruct B as (t & I & T). exists texts, t. split; [now left | auto].
      + destruct (IH (d + 1 + 1)%N ltac:(lia)) as (n & E & K). exists n. split.
        * eapply run_if; [lia | apply one_of_run; [exact NE | lia] |]. rewrite B. cbn [is_truthy]. apply run_group; [lia | exact E].
        * destruct K as [(ts & t & I1 & I2 & T) | (-> & K)]; [left; exists ts, t; split; [now right | auto] | right].
          split; [reflexivity|]. intros ts n t [I1 | I1] I2; [|now apply (K ts n)].
          injection I1 as <- <-. rewrite <- not_true_iff_false in B |- *. intros T. apply B. apply existsb_exists. now exists t.
  Qed.
End Chain.

Lemma is_text_eq v t : is_text v t = true <-> v = EString (lit t).
Proof.
  unfold is_text. split; [|intros ->; cbn; apply str_eqb_refl].
  destruct v; try discriminate. cbn. intros E. apply str_eqb_eq in E. now rewrite E.
Qed.

(** ** The definitions *)

Theorem C131_new m : outside (init m).
Proof.
  assert (N : forall x v, In (x, v) [("==", bi BEq "=="); ("||", bi BOr "||"); ("@", bi BIndex "@")]%string -> env_get (lit x) (init m) = Some v).
  { intros x v I. destruct (init_parts m) as (w & a & b & math & ->). cbv zeta.
    rewrite (get_defines (fun kv => lit (fst kv)) snd). unfold define_all.
    rewrite (get_defines fst snd), env_get_define, (get_defines fst snd).
    revert I.
    generalize (define_dirs m), log_module, dict_module, (shell_module m), err_module, (os_module m),
      time_module, rand_module, fn_module, console_module, fmt_module, parse_module, string_module,
      list_module, sys_module.
    intros. match goal with X : In _ _ |- _ => rename X into I; cbn [In] in I end.
    repeat (destruct I as [I | I]; [injection I as <- <-; vm_compute; reflexivity |]).
    contradiction. }
  repeat split; apply N; cbn; tauto.
Qed.
Print Assumptions C131_new.

Lemma gallery_run H d s : (d + 3 <= MAX_DEPTH)%N -> evaluates H d (EMap gallery) s (ROk (EMap gallery)) s.
Proof.
  intros L. assert (X : EMap gallery = EMap (combine (map fst gallery) (map snd gallery))) by reflexivity. rewrite X at 2.
  apply run_map; [lia|].
  assert (V : Forall (fun e => match e with EString _ => True | _ => False end) (map snd gallery)) by (vm_compute; repeat constructor).
  clear X. induction V as [|e l E V IH]; [constructor|]. eapply run_all_cons; [apply run_value; [lia | now destruct e] | exact IH].
Qed.

Definition weather_function (e : env) : expr := ELambda (lit "desc") weather_body (capture e (lit "desc") weather_body (Env [] None)).

Lemma definitions_run H s : evaluates H 0 (EDo weather_definitions) s (ROk ENone)
  (let s1 := with_var (lit "WEATHER-ASCII") (EMap gallery) s in with_var (lit "get-weather-ascii") (weather_function (s_env s1)) s1).
Proof.
  rewrite weather_program. cbv zeta.
  eapply run_do_more; [discriminate | apply (run_assign H 1 _ _ s (EMap gallery) s); [discriminate | apply gallery_run; discriminate] |].
  eapply run_do_one; [discriminate|].
  apply (run_assign H 1 _ _ (with_var (lit "WEATHER-ASCII") (EMap gallery) s)); [discriminate|]. apply run_lambda. discriminate.
Qed.

Theorem C131_definitions H s : outside (s_env s) ->
  exists s1, evaluates H 0 (EDo weather_definitions) s (ROk ENone) s1 /\ watching H (s_env s1)
    /\ s_trace s1 = s_trace s /\ s_log s1 = s_log s
    /\ forall x, ~ In x weather_names -> env_get x (s_env s1) = env_get x (s_env s).
Proof.
  intros U. eexists. split; [apply definitions_run|]. split; [|split; [reflexivity | split; [reflexivity|]]].
  - exists s. do 2 eexists. split; [exact U|]. split; [apply definitions_run | reflexivity].
  - intros x N. cbv zeta. cbn [with_var with_env s_env].
    do 2 (apply found_below; [apply str_eqb_neq; intros ->; apply N; cbn; tauto|]). reflexivity.
Qed.
Print Assumptions C131_definitions.

(** ** C131 *)

Lemma got_in (k : str) (m : list (str * expr)) v : bm_get k m = Some v -> In (k, v) m.
Proof.
  induction m as [|[k1 v1] m IH]; cbn; [discriminate|].
  destruct (str_eqb k k1) eqn:E; intros G; [|right; auto].
  apply str_eqb_eq in E as ->. injection G as ->. now left.
Qed.

Lemma hung name : (exists ts, In (ts, name) forecast) \/ name = "Unknown"%string ->
  exists t, In (lit name, EString t) gallery /\ expr_index (EMap gallery) (ESymbol (lit name)) = EString t.
Proof.
  intros P.
  assert (C : In name (["LightShowers"; "LightRain"; "HeavyShowers"; "HeavyRain"; "LightSleet"; "LightSnow"; "HeavySnow";
     "LightSleetShowers"; "HeavySnowShowers"; "LightSnowShowers"; "ThunderyShowers"; "ThunderyHeavyRain"; "Sunny"; "PartlyCloudy";
     "Cloudy"; "VeryCloudy"; "Fog"; "Unknown"]%string)).
  { destruct P as [(ts & I) | ->]; [|cbn; tauto]. unfold forecast in I. cbn [In] in I.
    repeat (destruct I as [I | I]; [injection I as _ <-; cbn; tauto|]). contradiction. }
  clear P. cbn [In] in C.
  repeat (destruct C as [<- | C]; [eexists; split; [|vm_compute; reflexivity];
     apply got_in; vm_compute; reflexivity |]). contradiction.
Qed.

Theorem C131_picture H d a s v s1 :
  watching H (s_env s) -> (d + 60 <= MAX_DEPTH)%N -> evaluates H (d + 1) a s (ROk v) s1 ->
  exists name t, pictured v name /\ In (lit name, EString t) gallery
    /\ evaluates H d (EApply (ESymbol (lit "get-weather-ascii")) [a]) s (ROk (EString t)) s1.
Proof.
  intros (s0 & v0 & s2 & (O1 & O2 & O3) & E & K) L A.
  destruct (evaluates_det _ _ _ _ _ _ _ _ E (definitions_run H s0)) as [_ ->]. clear E.
  cbv zeta in K. set (e1 := s_env (with_var (lit "WEATHER-ASCII") (EMap gallery) s0)) in K.
  cbn [with_var with_env s_env] in K. rewrite found_here in K.
  assert (G1 : env_get (lit "WEATHER-ASCII") e1 = Some (EMap gallery)) by apply found_here.
  assert (U1 : outside e1) by (repeat split; apply found_below; auto).
  clearbody e1. clear O1 O2 O3. destruct U1 as (O1 & O2 & O3).
  set (ci := call_env (lit "desc") v (capture e1 (lit "desc") weather_body (Env [] None)) (s_env s)).
  destruct s as [es tr lg]. cbn [s_env] in *.
  assert (OC : outside ci /\ env_get (lit "desc") ci = Some v /\ env_get (lit "WEATHER-ASCII") ci = Some (EMap gallery)).
  { unfold ci. repeat split; run_lookup. }
  destruct OC as (OC & DC & GC).
  assert (FN : Forall (fun r : list string * string => fst r <> []) forecast) by (repeat constructor; discriminate).
  destruct (chain_run H (with_env ci s1) v OC DC GC forecast FN (d + 1 + 1)) as (name & E & P).
  { change (N.of_nat (2 * length forecast)) with 42%N. lia. }
  assert (HG : exists t, In (lit name, EString t) gallery /\ expr_index (EMap gallery) (ESymbol (lit name)) = EString t).
  { apply hung. destruct P as [(ts & t & I & _) | (-> & _)]; [left; exists ts; exact I | right; reflexivity]. }
  destruct HG as (t & IG & XG). rewrite XG in E.
  exists name, t. split; [|split; [exact IG|]].
  - destruct P as [(ts & u & I1 & I2 & T) | (-> & K2)].
    + left. exists ts, u. apply is_text_eq in T. exact (conj I1 (conj I2 T)).
    + right. split; [reflexivity|]. intros ts n u I1 I2 T. apply is_text_eq in T. rewrite (K2 ts n u I1 I2) in T. discriminate.
  - eapply run_end.
    + eapply run_call; [lia | apply run_symbol; [lia | exact K] | exact A |].
      eapply run_do_one; [lia | exact E].
    + destruct s1. reflexivity.
Qed.
Print Assumptions C131_picture.

(** Only one picture goes with a description. *)
Theorem C131_unique v a b : pictured v a -> pictured v b -> a = b.
Proof.
  intros [(ts & t & I1 & I2 & ->) | (-> & N)] [(us & u & J1 & J2 & E) | (-> & M)]; try reflexivity.
  - assert (T : forallb (fun x => forallb (fun y => implb (str_eqb (lit (fst x)) (lit (fst y))) (String.eqb (snd x) (snd y)))
                  (flat_map (fun r => map (fun t => (t, snd r)) (fst r)) forecast))
                (flat_map (fun r => map (fun t => (t, snd r)) (fst r)) forecast) = true) by (vm_compute; reflexivity).
    rewrite forallb_forall in T.
    assert (F : forall t n us, In t us -> In (us, n) forecast -> In (t, n) (flat_map (fun r => map (fun t => (t, snd r)) (fst r)) forecast)).
    { intros x n l A B. apply in_flat_map. exists (l, n). split; [exact B|]. apply in_map_iff. now exists x. }
    specialize (T _ (F _ _ _ I2 I1)). rewrite forallb_forall in T. specialize (T _ (F _ _ _ J2 J1)). cbn [fst snd] in T.
    injection E as E. rewrite E, str_eqb_refl in T. now apply String.eqb_eq in T.
  - exfalso. exact (M ts a t I1 I2 eq_refl).
  - exfalso. exact (N us b u J1 J2 E).
Qed.
Print Assumptions C131_unique.

(** The lines of a text. *)
Fixpoint broken (t : str) : list str :=
  match t with
  | [] => [[]]
  | c :: r => if N.eqb c 10 then [] :: broken r
              else match broken r with l :: ls => (c :: l) :: ls | [] => [[c]] end
  end.

Lemma broken_stacked t : stacked (broken t) t.
Proof.
  assert (B : forall t, broken t <> []).
  { intros [|c r]; cbn; [discriminate|]. destruct (N.eqb c 10); [discriminate|]. now destruct (broken r). }
  induction t as [|c r IH]; cbn [broken]; [apply stacked_one; intros []|].
  destruct (N.eqb c 10) eqn:E.
  - apply N.eqb_eq in E as ->. specialize (B r). destruct (broken r) as [|l ls]; [easy|].
    apply (stacked_more [] l ls r); [intros [] | exact IH].
  - apply N.eqb_neq in E. specialize (B r). destruct (broken r) as [|l ls]; [easy|].
    inversion IH; subst.
    + apply stacked_one. intros [K | K]; auto.
    + apply (stacked_more (c :: l) m ls0 t); [intros [K | K]; auto | assumption].
Qed.

(** Every picture has room in its widget of 15 columns and 7 rows. *)
Theorem C131_fits name v : In (name, v) gallery ->
  exists t ls, v = EString t /\ stacked ls t /\ length ls <= 5 /\ Forall (fun l => length l <= 13) ls.
Proof.
  intros I.
  assert (T : forallb (fun r => match snd r with
     | EString t => (length (broken t) <=? 5) && forallb (fun l => length l <=? 13) (broken t) | _ => false end) gallery = true)
    by (vm_compute; reflexivity).
  rewrite forallb_forall in T. specialize (T _ I). cbn [snd] in T. clear I. destruct v; try discriminate.
  apply andb_true_iff in T as [T1 T2]. apply Nat.leb_le in T1.
  exists s, (broken s). split; [reflexivity|]. split; [apply broken_stacked|]. split; [exact T1|].
  apply Forall_forall. intros l J. rewrite forallb_forall in T2. now apply Nat.leb_le, T2.
Qed.
Print Assumptions C131_fits.

Example C131_case :
  pictured (EString (lit "overcast clouds")) "VeryCloudy" /\ pictured (EInteger 3) "Unknown"
  /\ (let run := eval demo_host 100 0 (EDo (weather_definitions
         ++ [EApply (ESymbol (lit "get-weather-ascii")) [EString (lit "overcast clouds")]])) demo in
      exists t, fst run = ROk (EString t) /\ In (lit "VeryCloudy", EString t) gallery)
  /\ (let run := eval demo_host 100 0 (EDo weather_definitions) demo in watching demo_host (s_env (snd run))).
Proof.
  repeat apply conj.
  - left. exists ["overcast clouds"]%string, "overcast clouds"%string. repeat split; [cbn; tauto | now left].
  - right. split; [reflexivity|]. intros; discriminate.
  - cbv zeta. eexists. split; [vm_compute; reflexivity|]. apply got_in. vm_compute. reflexivity.
  - cbv zeta. exists demo. do 2 eexists. split; [repeat split; vm_compute; reflexivity|].
    split; [apply definitions_run | vm_compute; reflexivity].
Qed.
