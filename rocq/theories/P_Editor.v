(** C84, C85: hints and completion while a line is typed. *)

From Coq Require Import String List Lia.
From Verif Require Import Base Syntax Host Text ErrorFmt MapFacts TextFacts TextSpec TrimFacts Fs FsSpec FsFacts
  Editor EditorSpec.
Import ListNotations.

(** ** C84 *)

Lemma contains_within p s : str_contains p s = true <-> within p s.
Proof.
  induction s as [| c s IH]; cbn [str_contains].
  - rewrite orb_false_r, starts_with_spec. split.
    + intros [r E]. now exists [], r.
    + intros (a & b & E). symmetry in E. apply app_eq_nil in E. destruct E as [_ E]. now exists b.
  - rewrite orb_true_iff, starts_with_spec, IH. split.
    + intros [[r E] | (a & b & ->)]; [now exists [], r | now exists (c :: a), b].
    + intros (a & b & E). destruct a as [| x a]; cbn in E; [left; now exists b |].
      injection E as <- ->. right. now exists a, b.
Qed.

Lemma blank_trim line : trim line = [] <-> Forall space line.
Proof.
  rewrite <- trimmed_trim. split.
  - intros (a & b & -> & A & B & _). cbn. now apply Forall_app.
  - intros F. exists line, []. rewrite app_nil_r. repeat split; auto.
    + now intros c r.
    + intros c [| x r]; discriminate.
Qed.

(** All beginnings of a text but the empty one. *)
Definition beginnings (s : str) : list str := map (fun n => firstn n s) (seq 1 (length s)).

Lemma begins_in p s : p <> [] -> begins p s -> In p (beginnings s).
Proof.
  intros N [b ->]. apply in_map_iff. exists (length p). split.
  - rewrite firstn_app, Nat.sub_diag, firstn_O, firstn_all. apply app_nil_r.
  - apply in_seq. rewrite app_length. destruct p; [easy | cbn; lia].
Qed.

(** A line that begins a command, but for the line [t], gets the rest of such a
    command. *)
Theorem C84_hint_partial history line cmd :
  In cmd proposals -> begins line cmd -> ~ Forall space line -> line <> lit "t" ->
  exists h, hint history line = Some h /\ In (line ++ h) proposals.
Proof.
  intros I B S T. destruct (list_eq_dec N.eq_dec line []) as [-> | N]; [now destruct S |].
  apply begins_in in B; [| exact N].
  assert (Q : forallb (fun l => str_eqb l (lit "t") ||
                 match hint None l with Some h => existsb (str_eqb (l ++ h)) proposals | None => false end)
               (flat_map beginnings proposals) = true) by (vm_compute; reflexivity).
  rewrite forallb_forall in Q. specialize (Q line).
  assert (J : In line (flat_map beginnings proposals)) by (apply in_flat_map; eauto).
  apply Q in J. apply orb_true_iff in J. destruct J as [J | J]; [now apply str_eqb_eq in J |].
  unfold hint in *. destruct (str_eqb (trim line) []); [discriminate |].
  destruct (find (str_contains line) hint_commands); [| discriminate].
  eexists. split; [reflexivity |]. apply existsb_exists in J. destruct J as (x & X & E).
  apply str_eqb_eq in E. now rewrite E.
Qed.

(** The exact hint: that of the first command with the line somewhere in it,
    without the line if it begins with it, and otherwise all of it. *)
Theorem C84_first history line before cmd after :
  ~ Forall space line -> proposals = before ++ cmd :: after ->
  within line cmd -> (forall c, In c before -> ~ within line c) ->
  exists h, hint history line = Some h /\ (line ++ h = cmd \/ ~ begins line cmd /\ h = cmd).
Proof.
  intros S E W B.
  assert (F : find (str_contains line) hint_commands = Some cmd).
  { change hint_commands with proposals. rewrite E. clear E. induction before as [| x before IH]; cbn.
    - apply contains_within in W. now rewrite W.
    - destruct (str_contains line x) eqn:C.
      + apply contains_within in C. now destruct (B x (or_introl eq_refl)).
      + apply IH. intros c I. apply B. now right. }
  assert (N : line <> []) by (intros ->; now apply S).
  unfold hint. destruct (str_eqb (trim line) []) eqn:T.
  { apply str_eqb_eq, blank_trim in T. contradiction. }
  rewrite F. eexists. split; [reflexivity |].
  assert (I : In cmd proposals) by (rewrite E; apply in_or_app; right; now left).
  destruct (strip_prefix line cmd) as [r |] eqn:P.
  - left. assert (J : begins line cmd) by (apply strip_prefix_app in P; now exists r).
    apply begins_in in J; [| exact N].
    assert (Q : forallb (fun c => forallb (fun l => str_eqb (l ++ trim_matches (length c) l c) c) (beginnings c)) proposals = true)
      by (vm_compute; reflexivity).
    rewrite forallb_forall in Q. specialize (Q cmd I). rewrite forallb_forall in Q.
    now apply str_eqb_eq, Q.
  - right. split.
    + intros [b ->]. assert (X : strip_prefix line (line ++ b) = Some b) by now apply strip_prefix_app. congruence.
    + destruct (length cmd); cbn; [reflexivity | now rewrite P].
Qed.

(** Without such a command, and on a blank line, the history is asked. *)
Theorem C84_history history line :
  Forall space line \/ (forall c, In c proposals -> ~ within line c) -> hint history line = history.
Proof.
  intros C. unfold hint. destruct (str_eqb (trim line) []) eqn:T; [reflexivity |].
  destruct C as [C | C].
  - apply blank_trim in C. rewrite C in T. discriminate.
  - destruct (find (str_contains line) hint_commands) as [c |] eqn:F; [| reflexivity].
    apply find_some in F. destruct F as [I F]. apply contains_within in F. now destruct (C c I).
Qed.

(** [t] begins [tail], but is completed to [texit 0]. *)
Theorem C84_hint_refuted :
  exists line cmd h, In cmd proposals /\ begins line cmd /\ ~ Forall space line
    /\ hint None line = Some h /\ ~ In (line ++ h) proposals.
Proof.
  exists (lit "t"), (lit "tail "), (lit "exit 0"). split; [vm_compute; auto 10 |]. split; [now exists (lit "ail ") |].
  split.
  - intros F. inversion F as [| c r X]; subst. apply space_is_ws in X. discriminate.
  - split; [vm_compute; reflexivity |]. vm_compute. intuition discriminate.
Qed.

(** Other lines get a hint that is no continuation of them, too. *)
Theorem C84_elsewhere_refuted :
  exists line h, hint None line = Some h /\ forall c, In c proposals -> ~ begins line c.
Proof.
  exists (lit "i"), (lit "exit 0"). split; [vm_compute; reflexivity |].
  intros c I [b E]. cbn in I. repeat destruct I as [<- | I]; try discriminate. contradiction.
Qed.

Example C84_example :
  map (hint None) [lit "c"; lit "cl"; lit "ls"; lit "cd "; lit "foo"; lit "ea"]
  = [Some (lit "p -r "); Some (lit "ear"); Some (lit " "); Some []; None; Some (lit "head ")].
Proof. vm_compute. reflexivity. Qed.

(** ** C85 *)

Lemma split_free_one pat s : pat <> [] -> free_of pat s -> forall cur, split_go pat 0 s cur = [rev cur ++ s].
Proof.
  intros N. induction s as [| c s IH]; intros F cur; cbn [split_go]; [now rewrite app_nil_r |].
  destruct (starts_with pat (c :: s)) eqn:E.
  - apply starts_with_spec in E. destruct E as [r E]. now destruct (F [] r).
  - rewrite IH.
    + cbn. now rewrite <- app_assoc.
    + intros a b X. apply (F (c :: a) b). now rewrite X.
Qed.

Lemma replace_front pat s : pat <> [] -> free_of pat s -> str_replace pat [] (pat ++ s) = s.
Proof.
  intros N F. unfold str_replace, str_split. destruct pat as [| c pat]; [easy |].
  assert (E : split_go (c :: pat) 0 ((c :: pat) ++ s) [] = [] :: split_go (c :: pat) 0 s []).
  { cbn [List.app split_go]. assert (W : starts_with (c :: pat) (c :: pat ++ s) = true) by (apply starts_with_spec; now exists s).
    rewrite W. cbn [rev length]. rewrite Nat.sub_succ, Nat.sub_0_r. f_equal.
    rewrite split_go_skip by (rewrite app_length; lia). f_equal. now rewrite skipn_app, skipn_all, Nat.sub_diag. }
  rewrite E, split_free_one by assumption. cbn. now rewrite ?app_nil_r.
Qed.

Lemma components_joined sep : (forall a b, components (a ++ sep ++ b) = components a ++ components b) ->
  forall l, components (join sep l) = flat_map components l.
Proof.
  intros A. induction l as [| x l IH]; [reflexivity |]. destruct l as [| y l]; [cbn; now rewrite app_nil_r |].
  rewrite join_cons by discriminate. rewrite A, IH. reflexivity.
Qed.

(** Replacing one separator by another keeps the parts of a path. *)
Lemma components_replace old s :
  old = lit "//" \/ old = lit "/./" -> components (str_replace old (lit "/") s) = components s.
Proof.
  intros O. unfold str_replace. rewrite <- (split_join old s) at 2. rewrite !components_joined; [reflexivity | | ].
  - intros a b. destruct O as [-> | ->].
    + change (lit "//" ++ b) with (47%N :: 47%N :: b). rewrite components_app. change (47%N :: b) with ([] ++ 47%N :: b). rewrite components_app. reflexivity.
    + change (lit "/./" ++ b) with (47%N :: [46%N] ++ 47%N :: b). rewrite !components_app. reflexivity.
  - intros a b. apply components_app.
Qed.

Lemma replace_nonempty old s : old <> [] -> s <> [] -> str_replace old (lit "/") s <> [].
Proof.
  intros O N E. unfold str_replace in E. assert (J := split_join old s).
  destruct (str_split old s) as [| x [| y l]].
  - cbn in J. congruence.
  - cbn in J, E. congruence.
  - rewrite join_cons in E by discriminate. destruct x; discriminate.
Qed.

Lemma ender_ends c : ender c <-> ends_word c = true.
Proof.
  unfold ender, ends_word. rewrite orb_true_iff, existsb_exists, space_is_ws. split.
  - intros [S | [I | ->]]; [now left | right | right].
    + exists c. split; [apply in_or_app; now left | apply N.eqb_refl].
    + exists 34%N. split; [apply in_or_app; right; now left | reflexivity].
  - intros [S | (x & I & E)]; [now left | right]. apply N.eqb_eq in E. subst x.
    apply in_app_or in I. destruct I as [I | [I | []]]; auto.
Qed.

Lemma utf8_long s : (N.of_nat (length s) <= utf8_len s)%N.
Proof.
  induction s as [| c s IH]; [easy |]. cbn [utf8_len length].
  assert (1 <= chr_len c)%N; [| lia]. unfold chr_len. repeat match goal with |- context [if ?b then _ else _] => destruct b end; lia.
Qed.

Lemma segment_end w : Forall (fun c => ~ ender c) w ->
  forall cur i pos, (i + N.of_nat (length w) <= pos)%N -> segment_go w cur i pos = rev cur ++ w.
Proof.
  induction 1 as [| c w C F IH]; intros cur i pos L; cbn [segment_go]; [now rewrite app_nil_r |].
  cbn [length] in L. destruct (N.eqb_spec i pos) as [-> | D]; [lia |].
  destruct (ends_word c) eqn:E; [now apply ender_ends in E |].
  rewrite IH by lia. cbn [rev]. now rewrite <- app_assoc.
Qed.

Lemma segment_skip a c : ender c -> forall r cur i pos, (i + N.of_nat (length (a ++ [c])) <= pos)%N ->
  segment_go (a ++ c :: r) cur i pos = segment_go r [] (i + N.of_nat (length (a ++ [c]))) pos.
Proof.
  intros C. apply ender_ends in C. induction a as [| x a IH]; intros r cur i pos L; cbn [List.app segment_go length] in *.
  - rewrite C. destruct (N.eqb_spec i pos) as [-> | D]; [lia |]. f_equal.
  - destruct (N.eqb_spec i pos) as [-> | D]; [lia |]. rewrite IH by lia. f_equal. lia.
Qed.

Lemma segment_last line w pos : last_word line w -> (utf8_len line <= pos)%N -> segment line pos = w.
Proof.
  intros (a & -> & F & A) L. assert (U := utf8_long (a ++ w)). rewrite app_length in U. unfold segment.
  destruct A as [-> | (b & c & -> & C)].
  - rewrite segment_end; [reflexivity | exact F |]. cbn in *. lia.
  - rewrite <- app_assoc. cbn [List.app]. rewrite segment_skip by (auto; lia).
    rewrite segment_end; [reflexivity | exact F | lia].
Qed.

Lemma completed_leads cwd line w pos :
  last_word line w -> (utf8_len line <= pos)%N ->
  leads cwd w (components (completed_path cwd line pos)) /\ completed_path cwd line pos <> [].
Proof.
  intros W L. unfold completed_path. rewrite (segment_last line w pos W L). cbv zeta.
  rewrite !components_replace by auto. split.
  - apply leads_join. destruct w as [| c w]; [| reflexivity].
    change (lit "/") with [47%N]. etransitivity; [apply (components_app cwd []) |]. symmetry.
    rewrite path_join_eq. exact (components_join cwd []).
  - apply replace_nonempty; [discriminate |]. apply replace_nonempty; [discriminate |].
    destruct w as [| c w]; [now destruct cwd |]. rewrite path_join_eq.
    destruct (c =? 47)%N; [discriminate |]. destruct (rev cwd) as [| x l]; [discriminate |].
    destruct (x =? 47)%N; now destruct cwd.
Qed.

(** When the working directory can be entered, names of files are completed as
    by the library. *)
Theorem C85_entered files cwd line pos : complete files true cwd line pos = files line pos.
Proof. reflexivity. Qed.

(** Otherwise, with the cursor at the end of the line: the path that is completed
    leads where the last word leads from the working directory, and accepting a
    file that continues it puts the rest of its name at the end of the line.
    What is missing: a file whose rest contains the path once more, and
    completers that begin elsewhere in the path. *)
Theorem C85_unentered_partial cwd line w :
  last_word line w ->
  exists p, leads cwd w (components p) /\
    forall files pairs d rest,
      files p (utf8_len p) = Some (0%N, pairs) -> In (d, p ++ rest) pairs -> ~ within p rest ->
      exists pairs' text, complete files false cwd line (utf8_len line) = Some (0%N, pairs')
        /\ In (d, text) pairs' /\ accepted 0 text line [] (line ++ rest).
Proof.
  intros W. destruct (completed_leads cwd line w (utf8_len line) W (N.le_refl _)) as [L N].
  exists (completed_path cwd line (utf8_len line)). split; [exact L |].
  intros files pairs d rest E I F. unfold complete. cbv zeta. rewrite E. eexists _, (line ++ rest). split; [reflexivity |]. split.
  - apply in_map_iff. eexists. split; [| exact I]. cbn [fst snd]. rewrite replace_front; [reflexivity | exact N |].
    intros a b X. apply F. now exists a, b.
  - assert (A := accepts 0 (line ++ rest) line [] [] line eq_refl eq_refl). cbn [List.app] in A.
    now rewrite app_nil_r in A.
Qed.

(** With the cursor inside the line the character after the cursor counts, so
    that a word before a space is not completed. *)
Theorem C85_middle_refuted :
  exists files cwd before after w,
    last_word before w
    /\ (forall p, leads cwd w (components p) -> files p (utf8_len p) <> None)
    /\ complete files false cwd (before ++ after) (utf8_len before) = None.
Proof.
  exists (fun p _ => match components p with [x] => if str_eqb x (lit "us") then Some (0%N, [(p ++ lit "r", p ++ lit "r")]) else None | _ => None end).
  exists (lit "/gone"), (lit "ls /us"), (lit " x"), (lit "/us"). split; [| split].
  - exists (lit "ls "). split; [reflexivity |]. split.
    + apply Forall_forall. intros c I E. apply ender_ends in E. cbn in I.
      repeat destruct I as [<- | I]; try discriminate. contradiction.
    + right. exists (lit "ls"), 32%N. split; [reflexivity |]. now apply ender_ends.
  - intros p L. apply leads_join in L. rewrite L. vm_compute. discriminate.
  - vm_compute. reflexivity.
Qed.

(** The start is a place in the path that is completed and not in the line. When
    the completer begins after the end of the line nothing can be accepted (here
    the working directory has a space in its name). *)
Theorem C85_place_refuted :
  exists files cwd line start pairs d text,
    complete files false cwd line (utf8_len line) = Some (start, pairs) /\ In (d, text) pairs
    /\ forall new, ~ accepted start text line [] new.
Proof.
  exists (fun p _ => Some (4%N, [(lit "xy", lit "dir/xy")])), (lit "/my dir"), (lit "x"), 4%N.
  eexists _, _, _. split; [vm_compute; reflexivity |]. split; [now left |].
  intros new A. inversion A as [a b E L]; subst.
  destruct a as [| c [| c' a]]; cbn in E; try discriminate.
  injection E as <- E. discriminate.
Qed.

Example C85_example :
  complete (fun p _ => Some (0%N, [(p ++ lit "r", p ++ lit "r/")])) false (lit "/gone") (lit "ls (/us") 7
  = Some (0%N, [(lit "/usr", lit "ls (/usr/")])
  /\ last_word (lit "ls (/us") (lit "/us").
Proof.
  split; [vm_compute; reflexivity |]. exists (lit "ls ("). split; [reflexivity |]. split.
  - apply Forall_forall. intros c I E. apply ender_ends in E. cbn in I.
    repeat destruct I as [<- | I]; try discriminate. contradiction.
  - right. exists (lit "ls "), 40%N. split; [reflexivity |]. now apply ender_ends.
Qed.

Print Assumptions C84_hint_partial.
Print Assumptions C84_first.
Print Assumptions C84_history.
Print Assumptions C84_hint_refuted.
Print Assumptions C84_elsewhere_refuted.
Print Assumptions C85_entered.
Print Assumptions C85_unentered_partial.
Print Assumptions C85_middle_refuted.
Print Assumptions C85_place_refuted.
