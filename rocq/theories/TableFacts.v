(** Facts about printed tables. *)

From Coq Require Import String List NArith ZArith Lia.
From Verif Require Import Base Syntax Host Ops ErrorFmt LinesSpec P_ErrLine P_Lines Table TableSpec.
Import ListNotations.
Local Open Scope nat_scope.

Section Widths.
  Variable cw : chr -> nat.

  Lemma width_seen s : text_width cw s = seen cw s.
  Proof. induction s as [|c s IH]; [reflexivity|]. cbn. now rewrite <- IH. Qed.

  Lemma seen_app a b : seen cw (a ++ b) = seen cw a + seen cw b.
  Proof. induction a as [|c a IH]; [reflexivity|]. cbn. rewrite IH. lia. Qed.

  Lemma seen_repeat c n : seen cw (repeat c n) = n * cw c.
  Proof. induction n as [|n IH]; [reflexivity|]. cbn. rewrite IH. lia. Qed.

  (** ** Edges *)

  Lemma runs_join m x r n ns :
    join [m] (map (fun w => repeat x (w + 2)) (n :: ns)) ++ [r]
    = repeat x (n + 2) ++ runs m x r (map (fun w => w + 2) ns).
  Proof.
    revert n. induction ns as [|k ns IH]; intros n; [reflexivity|].
    cbn [map runs]. cbn [map] in IH.
    change (join [m] (repeat x (n + 2) :: repeat x (k + 2) :: map (fun w => repeat x (w + 2)) ns))
      with (repeat x (n + 2) ++ [m] ++ join [m] (repeat x (k + 2) :: map (fun w => repeat x (w + 2)) ns)).
    rewrite <- !app_assoc. rewrite IH. reflexivity.
  Qed.

  Lemma rule_edge ws u :
    print_rule ws u
    = edge (r_left u) (r_junc u) (r_right u) (r_line u) (map (fun w => w + 2) ws) ++ [10%N].
  Proof.
    unfold print_rule. destruct ws as [|w ws]; [reflexivity|].
    change ([r_right u; 10%N]) with ([r_right u] ++ [10%N]).
    rewrite !app_assoc. f_equal. rewrite <- app_assoc, runs_join. reflexivity.
  Qed.

  (** The columns of a table whose columns have these widths. *)
  Definition table_width (ws : list nat) : nat :=
    match ws with [] => 2 | _ => 1 + list_sum (map (fun w => w + 3) ws) end.

  Lemma seen_runs m x r ns : cw m = 1 -> cw x = 1 -> cw r = 1 ->
    seen cw (runs m x r (map (fun w => w + 2) ns)) = 1 + list_sum (map (fun w => w + 3) ns).
  Proof.
    intros M X R. induction ns as [|n ns IH]; [cbn; lia|].
    cbn [map runs seen]. rewrite seen_app, seen_repeat, IH, M, X. cbn [map list_sum fold_right].
    change (fold_right Nat.add 0) with list_sum. lia.
  Qed.

  Lemma seen_edge l m r x ns : cw l = 1 -> cw m = 1 -> cw x = 1 -> cw r = 1 ->
    seen cw (edge l m r x (map (fun w => w + 2) ns)) = table_width ns.
  Proof.
    intros L M X R. destruct ns as [|n ns]; [cbn; lia|].
    cbn [map edge seen table_width]. rewrite seen_app, seen_repeat, seen_runs, L, X by assumption.
    cbn [list_sum fold_right]. change (fold_right Nat.add 0) with list_sum. lia.
  Qed.

  Lemma single_runs m x r ns : m <> 10%N -> x <> 10%N -> r <> 10%N -> single (runs m x r ns).
  Proof.
    intros M X R. induction ns as [|n ns IH]; [intros [E|[]]; congruence|].
    intros [E|E]; [congruence|]. apply in_app_or in E. destruct E as [E|E]; [|now apply IH].
    apply repeat_spec in E. congruence.
  Qed.

  Lemma single_edge l m r x ns : l <> 10%N -> m <> 10%N -> x <> 10%N -> r <> 10%N ->
    single (edge l m r x ns).
  Proof.
    intros L M X R. destruct ns as [|n ns]; [intros [E|[E|[]]]; congruence|].
    intros [E|E]; [congruence|]. apply in_app_or in E. destruct E as [E|E].
    - apply repeat_spec in E. congruence.
    - now apply (single_runs m x r ns M X R).
  Qed.

  (** ** Rows *)

  Lemma barred_join bar p ps :
    [bar] ++ join [bar] (p :: ps) ++ [bar] = barred bar (p :: ps).
  Proof.
    revert p. unfold barred. induction ps as [|q ps IH]; intros p.
    - cbn. now rewrite app_nil_r.
    - change (join [bar] (p :: q :: ps)) with (p ++ [bar] ++ join [bar] (q :: ps)).
      cbn [map concat]. rewrite <- !app_assoc. cbn [List.app]. f_equal. f_equal.
      cbn [List.app] in IH. rewrite IH. cbn [map concat]. now rewrite <- app_assoc.
  Qed.

  (** One line of a row, without the line feed. *)
  Definition row_line (bar : chr) (ws : list nat) (r : list (list str)) (i : nat) : str :=
    [bar] ++ join [bar] (pieces cw ws r i) ++ [bar].

  Lemma print_line_row bar ws r i : print_line cw bar ws r i = row_line bar ws r i ++ [10%N].
  Proof. unfold print_line, row_line. rewrite <- !app_assoc. reflexivity. Qed.

  Lemma print_row_lines bar ws r :
    print_row cw bar ws r = with_feeds (map (row_line bar ws r) (seq 0 (row_height r))).
  Proof.
    unfold print_row, with_feeds. rewrite map_map. f_equal. apply map_ext. intros i.
    apply print_line_row.
  Qed.

  Lemma list_max_in n l : In n l -> n <= list_max l.
  Proof.
    intros I. assert (F := proj1 (list_max_le l (list_max l)) (le_n _)).
    rewrite Forall_forall in F. now apply F.
  Qed.

  Lemma line_fits i c : seen cw (nth i c []) <= cell_width cw c.
  Proof.
    destruct (Nat.lt_ge_cases i (length c)) as [L|L].
    - rewrite <- width_seen. apply list_max_in. apply in_map. now apply nth_In.
    - rewrite nth_overflow by exact L. cbn. lia.
  Qed.

  Definition fits_row (ws : list nat) (r : list (list str)) : Prop :=
    forall j, j < length ws -> cell_width cw (nth j r []) <= nth j ws 0.

  Lemma fits_hd w ws r : fits_row (w :: ws) r -> cell_width cw (hd [] r) <= w.
  Proof. intros F. specialize (F 0). cbn [length nth] in F. destruct r; apply F; lia. Qed.

  Lemma fits_tl w ws r : fits_row (w :: ws) r -> fits_row ws (tl r).
  Proof.
    intros F j L. specialize (F (S j)). cbn [length nth] in F. destruct r as [|c r].
    - cbn [tl]. destruct j; apply F; lia.
    - cbn [tl]. apply F. lia.
  Qed.

  Hypothesis space : cw 32%N = 1.

  Lemma piece_width w ws r i : fits_row (w :: ws) r ->
    seen cw ([32%N] ++ print_cell cw w (nth i (hd [] r) []) ++ [32%N]) = w + 2.
  Proof.
    intros F. unfold print_cell. rewrite !seen_app, seen_repeat, width_seen. cbn [seen]. rewrite space.
    assert (L := line_fits i (hd [] r)). apply fits_hd in F. unfold str, chr in *. lia.
  Qed.

  Lemma seen_join bar ws r i : cw bar = 1 -> fits_row ws r ->
    seen cw (row_line bar ws r i) = table_width ws.
  Proof.
    intros B F. unfold row_line. destruct ws as [|w ws]; [cbn; lia|].
    cbn [pieces]. rewrite barred_join. unfold barred. rewrite seen_app. cbn [seen]. rewrite B.
    cbn [table_width]. rewrite Nat.add_0_r, Nat.add_comm. f_equal. revert w r F.
    induction ws as [|v ws IH]; intros w r F.
    - cbn [map concat pieces]. rewrite app_nil_r.
      change (seen cw (bar :: ?x)) with (cw bar + seen cw x).
      erewrite piece_width by exact F. rewrite B. cbn. lia.
    - cbn [map concat pieces] in IH |- *. rewrite seen_app.
      change (seen cw (bar :: ?x)) with (cw bar + seen cw x) at 1.
      erewrite piece_width by exact F. rewrite (IH v (tl r)) by (eapply fits_tl; exact F).
      rewrite B. cbn [list_sum fold_right]. change (fold_right Nat.add 0) with list_sum. lia.
  Qed.
  (** ** Tables *)

  (** The lines of several blocks, with the line [sep] between each two. *)
  Fixpoint glue (sep : str) (bs : list (list str)) : list str :=
    match bs with
    | [] => []
    | [b] => b
    | b :: bs => b ++ sep :: glue sep bs
    end.

  Lemma with_feeds_app a b : with_feeds (a ++ b) = with_feeds a ++ with_feeds b.
  Proof. unfold with_feeds. now rewrite map_app, concat_app. Qed.

  Lemma join_glue sep bs :
    join (sep ++ [10%N]) (map with_feeds bs) = with_feeds (glue sep bs).
  Proof.
    induction bs as [|b bs IH]; [reflexivity|]. destruct bs as [|c bs]; [reflexivity|].
    cbn [map] in IH |- *.
    change (glue sep (b :: c :: bs)) with (b ++ sep :: glue sep (c :: bs)).
    rewrite with_feeds_app.
    change (with_feeds (sep :: glue sep (c :: bs))) with ((sep ++ [10%N]) ++ with_feeds (glue sep (c :: bs))).
    rewrite <- IH. reflexivity.
  Qed.

  Lemma Forall_glue (P : str -> Prop) sep bs : P sep -> Forall (Forall P) bs -> Forall P (glue sep bs).
  Proof.
    intros S. induction bs as [|b bs IH]; intros F; [constructor|].
    inversion F as [|? ? B BS]; subst. destruct bs as [|c bs]; [exact B|].
    change (glue sep (b :: c :: bs)) with (b ++ sep :: glue sep (c :: bs)).
    apply Forall_app. split; [exact B|]. constructor; [exact S|]. now apply IH.
  Qed.

  Definition edge_of (ws : list nat) (u : lsep) : str :=
    edge (r_left u) (r_junc u) (r_right u) (r_line u) (map (fun w => w + 2) ws).

  Lemma table_lines y rows (ws := col_widths cw rows) :
    print_table cw y rows
    = with_feeds (edge_of ws (y_top y)
        :: glue (edge_of ws (y_intern y))
             (map (fun r => map (row_line (y_bar y) ws r) (seq 0 (row_height r))) rows)
        ++ [edge_of ws (y_bottom y)]).
  Proof.
    unfold print_table. rewrite !rule_edge. fold ws. fold (edge_of ws (y_top y)) (edge_of ws (y_intern y)) (edge_of ws (y_bottom y)).
    change (with_feeds (?a :: ?r)) with ((a ++ [10%N]) ++ with_feeds r).
    rewrite with_feeds_app. f_equal. f_equal.
    - rewrite <- join_glue. f_equal. rewrite map_map. apply map_ext. intros r. apply print_row_lines.
    - unfold with_feeds. cbn. now rewrite app_nil_r.
  Qed.

  Lemma columns_fit rows r : In r rows -> fits_row (col_widths cw rows) r.
  Proof.
    intros I j L. unfold col_widths in *. rewrite map_length, seq_length in L.
    rewrite (nth_indep _ 0 (list_max (map (fun r => cell_width cw (nth (length (map (@length (list str)) rows) + list_max (map (@length (list str)) rows)) r [])) rows)))
      by now rewrite map_length, seq_length.
    rewrite (map_nth (fun j => list_max (map (fun r => cell_width cw (nth j r [])) rows))
               (seq 0 (list_max (map (@length _) rows)))
               (length (map (@length (list str)) rows) + list_max (map (@length (list str)) rows)) j).
    rewrite seq_nth by exact L. cbn [Nat.add]. apply list_max_in.
    apply (in_map (fun r => cell_width cw (nth j r []))). exact I.
  Qed.

  Lemma single_piece w r i : Forall (Forall single) r ->
    single ([32%N] ++ print_cell cw w (nth i (hd [] r) []) ++ [32%N]).
  Proof.
    intros F [E|E]; [discriminate|]. cbn [List.app] in E. apply in_app_or in E.
    destruct E as [E|[E|[]]]; [|discriminate]. unfold print_cell in E. apply in_app_or in E.
    destruct E as [E|E]; [|apply repeat_spec in E; discriminate].
    assert (C : Forall single (hd [] r)) by (destruct F; [constructor | assumption]).
    destruct (Nat.lt_ge_cases i (length (hd [] r))) as [L|L].
    - rewrite Forall_forall in C. apply (C (nth i (hd [] r) [])); [now apply nth_In | exact E].
    - rewrite nth_overflow in E by exact L. destruct E.
  Qed.

  Lemma single_join bar ws r i : bar <> 10%N -> Forall (Forall single) r ->
    single (row_line bar ws r i).
  Proof.
    intros B F. unfold row_line. destruct ws as [|w ws]; [intros [E|[E|[]]]; congruence|].
    cbn [pieces]. rewrite barred_join. unfold barred. intros E. apply in_app_or in E.
    destruct E as [E|[E|[]]]; [|congruence]. revert w r F E.
    induction ws as [|v ws IH]; intros w r F E.
    - cbn [map concat pieces] in E. rewrite app_nil_r in E. destruct E as [E|E]; [congruence|].
      now apply (single_piece w r i F).
    - cbn [map concat pieces] in IH, E. apply in_app_or in E. destruct E as [[E|E]|E].
      + congruence.
      + now apply (single_piece w r i F).
      + apply (IH v (tl r)); [|exact E]. destruct F; [constructor | assumption].
  Qed.

  (** The characters of a style are those of frames. *)
  Definition framed_style (y : style) : Prop :=
    Forall (fun c => (9472 <= c < 9600)%N)
      (y_bar y :: flat_map (fun u => [r_line u; r_junc u; r_left u; r_right u])
                    [y_top y; y_intern y; y_bottom y]).

  Hypothesis frames : forall c, (9472 <= c < 9600)%N -> cw c = 1.

  Lemma table_even y rows : framed_style y -> Forall (Forall (Forall single)) rows ->
    even_lines cw (table_width (col_widths cw rows)) (print_table cw y rows).
  Proof.
    intros Y R. rewrite table_lines. set (ws := col_widths cw rows).
    assert (C : forall c, In c (y_bar y :: flat_map (fun u => [r_line u; r_junc u; r_left u; r_right u])
                    [y_top y; y_intern y; y_bottom y]) -> c <> 10%N /\ cw c = 1).
    { intros c I. unfold framed_style in Y. rewrite Forall_forall in Y. specialize (Y c I).
      split; [lia | now apply frames]. }
    assert (U : forall u, In u [y_top y; y_intern y; y_bottom y] ->
              single (edge_of ws u) /\ seen cw (edge_of ws u) = table_width ws).
    { intros u I.
      assert (D : forall c, In c [r_line u; r_junc u; r_left u; r_right u] -> c <> 10%N /\ cw c = 1).
      { intros c J. apply C. right. apply in_flat_map. now exists u. }
      assert (D1 := D (r_line u)). assert (D2 := D (r_junc u)). assert (D3 := D (r_left u)).
      assert (D4 := D (r_right u)). clear D. cbn [In] in *.
      destruct D1 as [? ?]; [tauto|]. destruct D2 as [? ?]; [tauto|].
      destruct D3 as [? ?]; [tauto|]. destruct D4 as [? ?]; [tauto|].
      split; [now apply single_edge | now apply seen_edge]. }
    destruct (C (y_bar y)) as [B1 B2]; [now left|].
    do 3 eexists. split; [reflexivity|]. constructor; [apply U; now left|].
    apply Forall_app. split.
    - apply Forall_glue; [apply U; right; now left|].
      rewrite Forall_map. rewrite Forall_forall in R |- *. intros r I.
      rewrite Forall_map, Forall_forall. intros i _. split.
      + apply single_join; [exact B1 | now apply R].
      + apply seen_join; [exact B2 | now apply columns_fit].
    - constructor; [|constructor]. apply U. right. right. now left.
  Qed.

  Lemma list_framed : framed_style list_style.
  Proof. unfold framed_style. cbn. repeat constructor; discriminate. Qed.

  Lemma map_framed : framed_style map_style.
  Proof. unfold framed_style. cbn. repeat constructor; discriminate. Qed.

  Lemma single_without x l : single x -> without_return x l -> single l.
  Proof.
    intros S W. inversion W; subst; [|exact S]. intros I. apply S. apply in_or_app. now left.
  Qed.

  Lemma lines_single t : Forall single (str_lines t).
  Proof.
    assert (L := str_lines_lines t). induction L as [|t N S|x l r ls S W L IH].
    - constructor.
    - now repeat constructor.
    - constructor; [now apply (single_without x)|exact IH].
  Qed.
End Widths.
