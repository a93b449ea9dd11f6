(** C118 and C119: how lists and maps are printed. *)

From Coq Require Import String List NArith ZArith Lia.
From Verif Require Import Base Syntax Host Ops ErrorFmt LinesSpec P_ErrLine P_Lines Table TableSpec
  TableFacts Monad Eval Demo.
From Verif Require P_Literal P_Sys RoundParse.
Import ListNotations.
Local Open Scope nat_scope.

(** ** Collecting *)

Lemma collect_all {A B} (f : A -> B + panic) l xs :
  collect (map f l) = inl xs <-> Forall2 (fun a x => f a = inl x) l xs.
Proof.
  revert xs. induction l as [|a l IH]; intros xs; cbn [map collect].
  - split; intros E; [injection E as <-; constructor | now inversion E].
  - destruct (f a) as [x|p] eqn:F.
    + destruct (collect (map f l)) as [ys|p].
      * split; intros E.
        -- injection E as <-. constructor; [exact F | now apply IH].
        -- inversion E as [|? y ? ys' F' R]; subst. apply IH in R. congruence.
      * split; intros E; [discriminate|]. inversion E as [|? y ? ys' F' R]; subst.
        apply IH in R. discriminate.
    + split; intros E; [discriminate|]. inversion E; subst. congruence.
Qed.

Lemma collect_panics {A B} (f : A -> B + panic) l :
  (exists p, collect (map f l) = inr p) <-> exists a p, In a l /\ f a = inr p.
Proof.
  induction l as [|a l IH]; cbn [map collect].
  - split; [intros (p & E); discriminate | intros (a & p & [] & _)].
  - destruct (f a) as [x|p] eqn:F.
    + destruct (collect (map f l)) as [ys|p].
      * split; [intros (p & E); discriminate|]. intros (b & p & [<-|I] & E); [congruence|].
        destruct IH as [_ IH]. destruct IH as (q & Q); [now exists b, p | discriminate].
      * split; [|intros _; now exists p]. intros _. destruct IH as [IH _].
        destruct IH as (b & q & I & E); [now exists p|]. exists b, q. split; [now right | exact E].
    + split; [|intros _; now exists p]. intros _. exists a, p. split; [now left | exact F].
Qed.

Lemma collect_which {A B} (f : A -> B + panic) l p :
  collect (map f l) = inr p -> exists a, In a l /\ f a = inr p.
Proof.
  induction l as [|a l IH]; cbn [map collect]; [discriminate|]. destruct (f a) as [x|q] eqn:F.
  - destruct (collect (map f l)) as [ys|q]; [discriminate|]. intros E.
    destruct (IH E) as (b & I & G). exists b. split; [now right | exact G].
  - intros E. injection E as <-. exists a. split; [now left | exact F].
Qed.

(** ** Cells *)

Lemma lines_of_single t : single t -> str_lines t = match t with [] => [] | _ => [t] end.
Proof. intros S. unfold str_lines. rewrite split_nl_one by exact S. now destruct t. Qed.

Lemma single_cell cw t : single t -> cell_width cw (str_lines t) = seen cw t.
Proof.
  intros S. rewrite lines_of_single by exact S. destruct t as [|c t]; [reflexivity|].
  unfold cell_width. cbn [map list_max fold_right]. rewrite width_seen. lia.
Qed.

Lemma single_nth t : single t -> nth 0 (str_lines t) [] = t.
Proof. intros S. rewrite lines_of_single by exact S. now destruct t. Qed.

Lemma single_length t : single t -> length (str_lines t) <= 1.
Proof. intros S. rewrite lines_of_single by exact S. destruct t; cbn; lia. Qed.

Lemma map_nth_all {A B} (f : A -> B) d l : map (fun j => f (nth j l d)) (seq 0 (length l)) = map f l.
Proof.
  induction l as [|a l IH]; [reflexivity|]. cbn [length seq map nth]. f_equal.
  rewrite <- seq_shift, map_map. exact IH.
Qed.

Lemma one_row_widths cw r : col_widths cw [r] = map (cell_width cw) r.
Proof.
  unfold col_widths. cbn [map list_max fold_right]. rewrite Nat.max_0_r.
  rewrite <- (map_nth_all (cell_width cw) [] r). apply map_ext. intros j. cbn. lia.
Qed.

Lemma single_height r : Forall (fun c => length c <= 1) r -> row_height r = 1.
Proof.
  intros F. unfold row_height.
  assert (L : list_max (map (@length _) r) <= 1) by (apply list_max_le; now rewrite Forall_map).
  lia.
Qed.

Lemma print_cell_full cw t : print_cell cw (seen cw t) t = t.
Proof. unfold print_cell. rewrite width_seen, Nat.sub_diag. apply app_nil_r. Qed.

Lemma one_row_pieces cw ts : Forall single ts ->
  pieces cw (map (seen cw) ts) (map str_lines ts) 0 = map (fun t => 32%N :: t ++ [32%N]) ts.
Proof.
  induction 1 as [|t ts S F IH]; [reflexivity|]. cbn [map pieces hd tl].
  rewrite single_nth, print_cell_full, IH by exact S. reflexivity.
Qed.

Section Printed.
  Variable cw : chr -> nat.
  Variable H : host.
  Variable help : builtin -> str.
  Variable term : N.

  Lemma item_shown e t : item H e t ->
    (match e with EString s => inl (debug_str H s) | _ => show cw H help term term e end) = inl t.
  Proof. destruct 1 as [s|e A]; [reflexivity|]. now destruct e. Qed.

  Lemma item_atom_shown l ts : Forall2 (item H) l ts ->
    collect (map (fun x => match x with
                           | EString s => inl (debug_str H s)
                           | _ => show cw H help term term x
                           end) l) = inl ts.
  Proof.
    intros F. apply collect_all. induction F as [|e t l ts I F IH]; constructor; [|exact IH].
    now apply item_shown.
  Qed.

  Lemma first_len_single t : single t -> first_len t = utf8_len t.
  Proof.
    intros S. unfold first_len. destruct (existsb (N.eqb 10) t) eqn:E; [|reflexivity].
    apply existsb_exists in E. destruct E as (c & I & E). apply N.eqb_eq in E. subst. now destruct S.
  Qed.

  Lemma counted_total ts : Forall single ts -> total_len ts = counted ts.
  Proof.
    induction 1 as [|t ts S F IH]; [reflexivity|]. cbn [total_len fold_right counted].
    rewrite first_len_single by exact S. unfold total_len in IH. now rewrite IH.
  Qed.
End Printed.

(** ** C118: lists *)

(** Lists and maps are printed in lines that all end at the same column, unless
    a list is printed the way it is read. *)
Theorem C118_even cw H help term sw e out :
  narrow_frames cw -> show cw H help term sw e = inl out ->
  (exists m, e = EMap m) \/ (exists l, e = EList l) ->
  (exists n, even_lines cw n out) \/ (exists l, e = EList l /\ out = debug H e).
Proof.
  intros [S F] E K. destruct K as [[m ->]|[l ->]]; cbn [show] in E.
  - destruct (collect _) as [rows|p]; [|discriminate]. injection E as <-. left.
    eexists. apply table_even; [exact S | exact F | apply map_framed |].
    rewrite Forall_map, Forall_forall. intros r _. rewrite Forall_map, Forall_forall. intros t _.
    apply lines_single.
  - destruct (collect _) as [ts|p]; [|discriminate]. injection E as <-.
    destruct (N.ltb _ _); [right; now exists l|]. left.
    eexists. apply table_even; [exact S | exact F | apply list_framed |].
    constructor; [|constructor]. rewrite Forall_map, Forall_forall. intros t _.
    apply lines_single.
Qed.
Print Assumptions C118_even.

(** A list of simple elements is printed in a frame, each text between bars, if
    the bytes of the texts and one more for each bar are no more than the width
    of the terminal; otherwise it is printed the way it is read. *)
Theorem C118_list cw H help term sw l ts :
  l <> [] -> Forall2 (item H) l ts -> Forall single ts ->
  ((counted ts <= sw)%N ->
     show cw H help term sw (EList l)
     = inl (with_feeds [list_top (map (fun t => seen cw t + 2) ts);
                        barred 9475%N (map (fun t => 32%N :: t ++ [32%N]) ts);
                        list_bottom (map (fun t => seen cw t + 2) ts)]))
  /\ ((sw < counted ts)%N -> show cw H help term sw (EList l) = inl (debug H (EList l))).
Proof.
  intros N I S. cbn [show]. rewrite (item_atom_shown cw H help term l ts I).
  rewrite (counted_total ts S). split; intros L.
  - replace (sw <? counted ts)%N with false by (symmetry; apply N.ltb_ge; exact L).
    rewrite table_lines. do 2 f_equal. rewrite one_row_widths.
    assert (W : map (cell_width cw) (map str_lines ts) = map (seen cw) ts).
    { rewrite map_map. apply map_ext_in. intros t J. rewrite Forall_forall in S.
      now apply single_cell, S. }
    rewrite W. unfold edge_of. rewrite !map_map. cbn [map glue List.app y_top y_bottom y_bar list_style r_left r_right r_junc r_line].
    rewrite single_height.
    + cbn [seq map List.app]. f_equal. f_equal. unfold row_line.
      rewrite one_row_pieces by exact S.
      destruct ts as [|t ts]; [inversion I; subst; now destruct N|]. cbn [map]. apply barred_join.
    + rewrite Forall_map. revert S. apply Forall_impl. intros t. apply single_length.
  - replace (sw <? counted ts)%N with true by (symmetry; apply N.ltb_lt; exact L). reflexivity.
Qed.
Print Assumptions C118_list.

(** ** Lists of integers *)

Definition stops (c : chr) (r : str) : Prop := r = [] \/ exists q, r = c :: q.

Lemma cut_same c x y r q : ~ In c x -> ~ In c y -> stops c r -> stops c q ->
  x ++ r = y ++ q -> x = y /\ r = q.
Proof.
  revert y. induction x as [|a x IH]; intros y X Y R Q E.
  - destruct y as [|b y]; [now split|]. cbn in E. destruct R as [->|[z ->]]; [discriminate|].
    injection E as <- _. destruct Y. now left.
  - destruct y as [|b y].
    + cbn in E. destruct Q as [->|[z ->]]; [discriminate|]. injection E as -> _. destruct X. now left.
    + cbn in E. injection E as -> E. destruct (IH y) as [-> ->]; auto.
      * intros I. apply X. now right.
      * intros I. apply Y. now right.
Qed.

Lemma join_tail sep x l : join sep (x :: l) = x ++ match l with [] => [] | _ => sep ++ join sep l end.
Proof. destruct l; [symmetry; apply app_nil_r | reflexivity]. Qed.

Lemma join_inj c sep a b : Forall (fun x => x <> [] /\ ~ In c x) a ->
  Forall (fun x => x <> [] /\ ~ In c x) b -> join (c :: sep) a = join (c :: sep) b -> a = b.
Proof.
  intros A. revert b. induction A as [|x a [Nx Cx] A IH]; intros b B E.
  - destruct b as [|y b]; [reflexivity|]. inversion B as [|? ? [Ny Cy] B']; subst.
    rewrite join_tail in E. destruct y; [now destruct Ny | discriminate].
  - destruct b as [|y b].
    + rewrite join_tail in E. destruct x; [now destruct Nx | discriminate].
    + inversion B as [|? ? [Ny Cy] B']; subst. rewrite !join_tail in E.
      apply (cut_same c) in E; [|assumption|assumption| |].
      * destruct E as [-> E]. f_equal. destruct a as [|x' a]; destruct b as [|y' b]; try reflexivity;
          try discriminate.
        apply IH; [exact B'|]. now apply app_inv_head in E.
      * destruct a; [now left | right; eexists; reflexivity].
      * destruct b; [now left | right; eexists; reflexivity].
Qed.

Lemma feeds_inj a b : Forall single a -> Forall single b -> with_feeds a = with_feeds b -> a = b.
Proof.
  intros A. revert b. induction A as [|x a X A IH]; intros b B E.
  - destruct B as [|y b Y B]; [reflexivity|]. apply (f_equal (@length _)) in E.
    unfold with_feeds in E. cbn [map concat] in E. rewrite !app_length in E. cbn in E. unfold str, chr in *. lia.
  - destruct B as [|y b Y B].
    + apply (f_equal (@length _)) in E.
      unfold with_feeds in E. cbn [map concat] in E. rewrite !app_length in E. cbn in E. unfold str, chr in *. lia.
    + change (with_feeds (?p :: ?r)) with ((p ++ [10%N]) ++ with_feeds r) in E.
      rewrite <- !app_assoc in E. apply (cut_same 10%N) in E; try assumption.
      * destruct E as [-> E]. f_equal. apply IH; [exact B|]. now injection E.
      * right. eexists. reflexivity.
      * right. eexists. reflexivity.
Qed.

Lemma n_str_chars n : Forall (fun c => is_digit c = true) (n_str n) /\ n_str n <> [].
Proof.
  destruct (P_Literal.n_str_numeral n) as (D & NE & _). split; [|exact NE].
  apply Forall_forall. apply forallb_forall. now apply P_Sys.digits_is_digit.
Qed.

Lemma z_str_chars z : Forall (fun c => (45 <= c < 58)%N /\ c <> 46%N) (z_str z) /\ z_str z <> [].
Proof.
  assert (D : forall c, is_digit c = true -> (45 <= c < 58)%N /\ c <> 46%N).
  { intros c E. unfold is_digit in E. apply andb_prop in E. destruct E as [E1 E2].
    apply N.leb_le in E1. apply N.leb_le in E2. lia. }
  unfold z_str. destruct (z <? 0)%Z.
  - destruct (n_str_chars (Z.to_N (- z))) as [F N]. split; [|discriminate].
    constructor; [lia|]. revert F. now apply Forall_impl.
  - destruct (n_str_chars (Z.to_N z)) as [F N]. split; [|exact N]. revert F. now apply Forall_impl.
Qed.

Lemma int_items H a : Forall2 (item H) (map EInteger a) (map z_str a).
Proof. induction a as [|n a IH]; constructor; [|exact IH]. now apply (item_atom H (EInteger n)). Qed.

Lemma int_texts c a : ~ (45 <= c < 58)%N -> Forall (fun x => x <> [] /\ ~ In c x) (map z_str a).
Proof.
  intros C. rewrite Forall_map, Forall_forall. intros n _. destruct (z_str_chars n) as [F N].
  split; [exact N|]. intros I. rewrite Forall_forall in F. apply F in I. lia.
Qed.

Lemma int_single a : Forall single (map z_str a).
Proof.
  assert (F := int_texts 10%N a). revert F. intros F. eapply Forall_impl; [|apply F; lia].
  cbn. intros x [_ X]. exact X.
Qed.

(** Lists of integers, empty or not. *)
Lemma show_ints cw H help term sw a :
  show cw H help term sw (EList (map EInteger a))
  = inl (if (sw <? counted (map z_str a))%N then debug H (EList (map EInteger a))
         else with_feeds [list_top (map (fun t => seen cw t + 2) (map z_str a));
                          [9475%N] ++ join [9475%N] (map (fun t => 32%N :: t ++ [32%N]) (map z_str a)) ++ [9475%N];
                          list_bottom (map (fun t => seen cw t + 2) (map z_str a))]).
Proof.
  destruct a as [|n a].
  - cbn. destruct sw; reflexivity.
  - destruct (C118_list cw H help term sw (map EInteger (n :: a)) (map z_str (n :: a))) as [X Y].
    + discriminate.
    + apply int_items.
    + apply int_single.
    + destruct (N.ltb_spec sw (counted (map z_str (n :: a)))) as [L|L]; [now apply Y|].
      rewrite X by exact L. cbn [map]. rewrite barred_join. reflexivity.
Qed.

(** Different lists of integers are never printed alike. *)
Theorem C118_distinct cw H help term a b :
  Forall (fun z => i64_min <= z <= i64_max)%Z a -> Forall (fun z => i64_min <= z <= i64_max)%Z b ->
  printed cw H help term (EList (map EInteger a)) = printed cw H help term (EList (map EInteger b)) ->
  a = b.
Proof.
  intros A B E. unfold printed in E. rewrite !show_ints in E.
  apply (f_equal (fun r => match r with inl t => t | inr _ => [] end)) in E. cbv beta iota in E.
  assert (T : map z_str a = map z_str b -> a = b).
  { clear E. intros E. revert b B E. induction A as [|x a X A IH]; intros b B E.
    - destruct b; [reflexivity | discriminate].
    - destruct B as [|y b Y B]; [discriminate|]. cbn [map] in E. injection E as E1 E2.
      apply (f_equal parse_i64) in E1. rewrite !RoundParse.reads_integer in E1 by assumption.
      injection E1 as ->. f_equal. now apply IH. }
  apply T. clear T.
  assert (SE : forall l m r x ns, l <> 10%N -> m <> 10%N -> x <> 10%N -> r <> 10%N -> single (edge l m r x ns))
    by (intros; now apply single_edge).
  assert (SB : forall c, Forall single [list_top (map (fun t => seen cw t + 2) (map z_str c));
                          [9475%N] ++ join [9475%N] (map (fun t => 32%N :: t ++ [32%N]) (map z_str c)) ++ [9475%N];
                          list_bottom (map (fun t => seen cw t + 2) (map z_str c))]).
  { intros c. constructor; [apply SE; discriminate|]. constructor.
    - destruct c as [|n c]; [intros [Q|[Q|[]]]; discriminate|]. cbn [map]. rewrite barred_join.
      unfold barred. intros Q. apply in_app_or in Q. destruct Q as [Q|[Q|[]]]; [|discriminate].
      apply in_concat in Q. destruct Q as (l & L & Q). apply in_map_iff in L. destruct L as (u & <- & L).
      change ((32%N :: z_str n ++ [32%N]) :: map (fun t => 32%N :: t ++ [32%N]) (map z_str c))
        with (map (fun t => 32%N :: t ++ [32%N]) (map z_str (n :: c))) in L.
      apply in_map_iff in L. destruct L as (t & <- & L).
      assert (F := int_single (n :: c)). rewrite Forall_forall in F. apply F in L.
      destruct Q as [Q|[Q|Q]]; [discriminate | discriminate|]. apply in_app_or in Q.
      destruct Q as [Q|[Q|[]]]; [now apply L | discriminate].
    - constructor; [apply SE; discriminate | constructor]. }
  assert (HD : forall c, exists q, with_feeds [list_top (map (fun t => seen cw t + 2) (map z_str c));
                          [9475%N] ++ join [9475%N] (map (fun t => 32%N :: t ++ [32%N]) (map z_str c)) ++ [9475%N];
                          list_bottom (map (fun t => seen cw t + 2) (map z_str c))] = 9487%N :: q).
  { intros c. destruct c; eexists; reflexivity. }
  assert (DB : forall c, debug H (EList (map EInteger c)) = 91%N :: join (lit ", ") (map z_str c) ++ [93%N]).
  { intros c. cbn [debug]. rewrite map_map. reflexivity. }
  rewrite !DB in E.
  destruct (term <? counted (map z_str a))%N; destruct (term <? counted (map z_str b))%N.
  - apply (f_equal (@tl _)) in E. cbn [tl] in E. apply app_inv_tail in E. change (lit ", ") with (44%N :: [32%N]) in E.
    apply join_inj in E; [exact E | apply int_texts; lia | apply int_texts; lia].
  - destruct (HD b) as [q Q]. rewrite Q in E. discriminate.
  - destruct (HD a) as [q Q]. rewrite Q in E. discriminate.
  - apply feeds_inj in E; [|apply SB|apply SB]. injection E as _ E _. apply app_inv_tail in E.
    assert (P : forall c, Forall (fun x => x <> [] /\ ~ In 9475%N x) (map (fun t => 32%N :: t ++ [32%N]) (map z_str c))).
    { intros c. rewrite Forall_map. eapply Forall_impl; [|apply (int_texts 9475%N c); lia].
      cbn. intros x [_ X]. split; [discriminate|]. intros [Q|Q]; [discriminate|].
      apply in_app_or in Q. destruct Q as [Q|[Q|[]]]; [now apply X | discriminate]. }
    apply join_inj in E; [|apply P|apply P].
    clear - E. revert E. generalize (map z_str a) (map z_str b). clear a b.
    induction l as [|x a IH]; intros [|y b] E; try discriminate; [reflexivity|].
    cbn [map] in E. injection E as E1 E2. apply app_inv_tail in E1. subst. f_equal. now apply IH.
Qed.
Print Assumptions C118_distinct.

(** ** How wide lists are *)

Lemma ascii_len t : Forall (fun c => (c < 128)%N) t -> utf8_len t = N.of_nat (length t).
Proof.
  induction 1 as [|c t C F IH]; [reflexivity|]. cbn [utf8_len length]. rewrite IH.
  unfold chr_len. destruct (N.ltb_spec c 128); lia.
Qed.

Lemma ascii_seen cw t : (forall c, (c < 128)%N -> cw c = 1) -> Forall (fun c => (c < 128)%N) t ->
  seen cw t = length t.
Proof.
  intros W. induction 1 as [|c t C F IH]; [reflexivity|]. cbn [seen length]. rewrite IH, W by exact C.
  reflexivity.
Qed.

(** The frame is wider than what is compared with the terminal, by two columns
    for each element. *)
Theorem C118_width cw H help term sw l ts :
  l <> [] -> Forall2 (item H) l ts -> Forall single ts -> narrow_frames cw ->
  (forall c, (c < 128)%N -> cw c = 1) -> Forall (Forall (fun c => (c < 128)%N)) ts ->
  (counted ts <= sw)%N ->
  exists n out, show cw H help term sw (EList l) = inl out /\ even_lines cw n out
    /\ N.of_nat n = (counted ts + 2 * N.of_nat (length l))%N.
Proof.
  intros N I S [W F] A T L. cbn [show]. rewrite (item_atom_shown cw H help term l ts I).
  rewrite (counted_total ts S).
  replace (sw <? counted ts)%N with false by (symmetry; apply N.ltb_ge; exact L).
  do 2 eexists. split; [reflexivity|]. split.
  - apply table_even; [exact W | exact F | apply list_framed|].
    constructor; [|constructor]. rewrite Forall_map, Forall_forall. intros t _. apply lines_single.
  - rewrite one_row_widths, map_map.
    rewrite (map_ext_in _ (seen cw)) by (intros t J; rewrite Forall_forall in S; now apply single_cell, S).
    assert (len : length l = length ts) by (clear - I; induction I; cbn; congruence).
    rewrite len. assert (NE : ts <> []) by (destruct ts, l; easy).
    unfold table_width. destruct ts as [|t ts]; [easy|]. clear NE.
    change (match map (seen cw) (t :: ts) with [] => 2 | _ => ?x end) with x.
    clear - A T. generalize dependent (t :: ts). clear t ts. intros ts T.
    induction T as [|t ts X T IH]; [reflexivity|].
    cbn [map counted length list_sum fold_right]. change (fold_right Nat.add 0) with list_sum.
    rewrite (ascii_len t X), (ascii_seen cw t A X). lia.
Qed.
Print Assumptions C118_width.

(** Each character takes one column. *)
Definition plain : chr -> nat := fun _ => 1.
Definition no_help : builtin -> str := fun _ => [].

Lemma plain_frames : narrow_frames plain.
Proof. split; reflexivity. Qed.

Definition digits4 : expr := EList [EInteger 1; EInteger 2; EInteger 3; EInteger 4].

(** What is printed on a terminal can be wider than the terminal. *)
Theorem C118_wide_refuted : exists e n out,
  printed plain demo_host no_help 9 e = inl out /\ even_lines plain n out /\ 9 < n.
Proof.
  exists digits4, 17. eexists. split; [vm_compute; reflexivity|]. split; [|lia].
  do 3 eexists. split.
  - instantiate (1 := list_bottom [3; 3; 3; 3]). instantiate (1 := [barred 9475%N (map (fun c => [32; c; 32]%N) [49; 50; 51; 52]%N)]).
    instantiate (1 := list_top [3; 3; 3; 3]). vm_compute. reflexivity.
  - repeat constructor; vm_compute; intuition discriminate.
Qed.
Print Assumptions C118_wide_refuted.

(** A list that would fit is not always printed in a frame: the bytes of an
    inner frame are counted, not its columns. *)
Theorem C118_fits_refuted : exists e n out,
  printed plain demo_host no_help 20 e = inl (debug demo_host e)
  /\ printed plain demo_host no_help 30 e = inl out /\ even_lines plain n out /\ n <= 20.
Proof.
  exists (EList [EList [EInteger 1; EInteger 2]]), 13. eexists.
  split; [vm_compute; reflexivity|]. split; [vm_compute; reflexivity|]. split; [|lia].
  do 3 eexists. split.
  - instantiate (1 := list_bottom [11]).
    instantiate (1 := [barred 9475%N [[32%N] ++ list_top [3; 3] ++ [32%N]];
                       barred 9475%N [[32%N] ++ barred 9475%N [[32; 49; 32]; [32; 50; 32]]%N ++ [32%N]];
                       barred 9475%N [[32%N] ++ list_bottom [3; 3] ++ [32%N]]]).
    instantiate (1 := list_top [11]). vm_compute. reflexivity.
  - repeat constructor; vm_compute; intuition discriminate.
Qed.
Print Assumptions C118_fits_refuted.

(** ** C119: maps *)

Lemma list_max_largest l : l <> [] -> largest (list_max l) l.
Proof.
  intros N. split; [|intros k; apply list_max_in]. induction l as [|x l IH]; [easy|].
  destruct l as [|y l]; [left; cbn; lia|].
  change (list_max (x :: y :: l)) with (Nat.max x (list_max (y :: l))).
  destruct (Nat.max_spec x (list_max (y :: l))) as [[_ ->]|[_ ->]]; [right; now apply IH | now left].
Qed.

Definition pair_row (kt : str * str) : list (list str) := [str_lines (fst kt); str_lines (snd kt)].

Lemma pair_widths cw kts : kts <> [] ->
  Forall (fun kt => single (fst kt) /\ single (snd kt)) kts ->
  col_widths cw (map pair_row kts)
  = [list_max (map (fun kt => seen cw (fst kt)) kts); list_max (map (fun kt => seen cw (snd kt)) kts)].
Proof.
  intros N S. unfold col_widths. rewrite map_map. cbn [pair_row length].
  replace (list_max (map (fun _ => 2) kts)) with 2.
  - cbn [seq map]. rewrite !map_map. cbn [pair_row nth]. rewrite Forall_forall in S.
    f_equal; [|f_equal]; f_equal; apply map_ext_in; intros kt I; apply single_cell; now apply S.
  - clear S. induction kts as [|kt kts IH]; [easy|]. destruct kts as [|k kts]; [reflexivity|].
    cbn [map] in IH |- *. change (list_max (2 :: ?l)) with (Nat.max 2 (list_max l)).
    rewrite <- IH by discriminate. reflexivity.
Qed.

Lemma glue_ruled sep ls : glue sep (map (fun l => [l]) ls) = ruled sep ls.
Proof.
  induction ls as [|l ls IH]; [reflexivity|]. destruct ls as [|m ls]; [reflexivity|].
  change (glue sep (map (fun l => [l]) (l :: m :: ls)))
    with ([l] ++ sep :: glue sep (map (fun l => [l]) (m :: ls))).
  rewrite IH. reflexivity.
Qed.

(** A map of simple values is printed in a frame with one row for each entry,
    in the order of the entries, the texts of the values after the keys. *)
Theorem C119_map cw H help term sw m ts :
  m <> [] -> Forall (fun kv => single (fst kv) /\ simple (snd kv)) m ->
  Forall2 (fun kv t => t = h_wrap H (debug H (snd kv)) (sw / 3)%N) m ts -> Forall single ts ->
  exists a b,
    largest a (map (fun kv => seen cw (fst kv)) m) /\ largest b (map (seen cw) ts)
    /\ show cw H help term sw (EMap m)
       = inl (with_feeds
           (map_top [a + 2; b + 2]
            :: ruled (map_middle [a + 2; b + 2])
                 (map (fun kt => barred 9474%N [cell cw a (fst kt); cell cw b (snd kt)])
                      (combine (map fst m) ts))
            ++ [map_bottom [a + 2; b + 2]])).
Proof.
  intros N K T S. set (kts := combine (map fst m) ts).
  assert (E : map fst kts = map fst m /\ map snd kts = ts).
  { subst kts. clear - T. induction T as [|kv t m ts E T [IH1 IH2]]; [now split|].
    cbn [map combine fst snd]. now rewrite IH1, IH2. }
  destruct E as [E1 E2].
  assert (NK : kts <> []) by (intros E; rewrite E in E1; destruct m; [easy | discriminate]).
  assert (SK : Forall (fun kt => single (fst kt) /\ single (snd kt)) kts).
  { rewrite Forall_forall. intros kt I. split.
    - apply (in_map fst) in I. rewrite E1 in I. apply in_map_iff in I. destruct I as (kv & <- & I).
      rewrite Forall_forall in K. now apply K.
    - apply (in_map snd) in I. rewrite E2 in I. rewrite Forall_forall in S. now apply S. }
  exists (list_max (map (fun kv => seen cw (fst kv)) m)), (list_max (map (seen cw) ts)).
  split; [apply list_max_largest; now destruct m|].
  split; [apply list_max_largest; now destruct T|].
  cbn [show].
  match goal with |- match collect (map ?f m) with _ => _ end = _ =>
    assert (C : collect (map f m) = inl (map (fun kt => [fst kt; snd kt]) kts)) end.
  { apply collect_all. subst kts. clear - K T. induction T as [|kv t m ts E T IH]; [constructor|].
    inversion K as [|? ? [K1 K2] K']; subst. cbn [map combine fst snd]. constructor; [|now apply IH].
    destruct kv as [k v]. cbn [fst snd] in *. now destruct v. }
  rewrite C. f_equal. rewrite map_map. change (map (fun x => map str_lines [fst x; snd x]) kts) with (map pair_row kts).
  rewrite table_lines. rewrite (pair_widths cw kts NK SK).
  replace (map (fun kt => seen cw (fst kt)) kts) with (map (fun kv => seen cw (fst kv)) m)
    by (rewrite <- (map_map fst (seen cw)), <- E1, map_map; reflexivity).
  replace (map (fun kt => seen cw (snd kt)) kts) with (map (seen cw) ts)
    by (rewrite <- E2, map_map; reflexivity).
  set (a := list_max (map (fun kv => seen cw (fst kv)) m)). set (b := list_max (map (seen cw) ts)).
  cbn [y_top y_bar y_intern y_bottom map_style].
  replace (map (fun r => map (row_line cw 9474%N [a; b] r) (seq 0 (row_height r))) (map pair_row kts))
    with (map (fun l => [l]) (map (fun kt => barred 9474%N [cell cw a (fst kt); cell cw b (snd kt)]) kts)).
  - rewrite glue_ruled. reflexivity.
  - rewrite !map_map. apply map_ext_in. intros kt I. rewrite Forall_forall in SK.
    destruct (SK kt I) as [X Y]. rewrite single_height.
    + cbn [seq map]. f_equal. unfold row_line. cbn [pieces pair_row hd tl].
      rewrite barred_join, !single_nth by assumption. unfold print_cell, cell.
      rewrite !width_seen, <- !app_assoc. reflexivity.
    + unfold pair_row.
      constructor; [now apply single_length|]. constructor; [now apply single_length | constructor].
Qed.
Print Assumptions C119_map.

(** Printing stops with an arithmetic overflow, in builds that check for it,
    exactly when a list stands somewhere under a key that leaves no room for it. *)
Theorem C119_panics cw H help term e :
  h_overflow H = OvfPanic ->
  (exists p, printed cw H help term e = inr p) <-> cramped term e.
Proof.
  intros O. unfold printed.
  enough (G : forall sw, sw = term \/ (exists l, e = EList l) ->
            (exists p, show cw H help term sw e = inr p) <-> cramped term e)
    by (apply G; now left).
  induction e using expr_ind2 with (Q := fun _ => True); try exact I;
    try (intros sw K; split; [intros (q & X); discriminate | intros X; inversion X]).
  - (* lists *)
    rename H0 into IH. intros sw _. cbn [show].
    match goal with |- (exists p, match collect (map ?f l) with _ => _ end = _) <-> _ =>
      assert (C := collect_panics f l); set (g := f) in * end.
    transitivity (exists p, collect (map g l) = inr p).
    { destruct (collect (map g l)) as [ts|q]; split; intros (p & X); try discriminate; now exists q. }
    rewrite C. clear C. split.
    + intros (a & p & J & X). apply cr_item with a; [exact J|]. rewrite Forall_forall in IH.
      apply (IH a J term); [now left|]. exists p. unfold g in X. now destruct a.
    + intros X. inversion X as [| |? v J V]; subst. rewrite Forall_forall in IH.
      destruct (proj2 (IH v J term (or_introl eq_refl)) V) as (p & P). exists v, p. split; [exact J|].
      unfold g. destruct v; try exact P. inversion V.
  - (* maps *)
    rename H0 into IH. intros sw K. destruct K as [->|[l K]]; [|discriminate]. cbn [show].
    match goal with |- (exists p, match collect (map ?f m) with _ => _ end = _) <-> _ =>
      assert (C := collect_panics f m); set (g := f) in * end.
    transitivity (exists p, collect (map g m) = inr p).
    { destruct (collect (map g m)) as [ts|q]; split; intros (p & X); try discriminate; now exists q. }
    rewrite C. clear C. split.
    + intros ([k v] & p & J & X). rewrite Forall_forall in IH. specialize (IH (k, v) J). cbn [snd] in IH.
      unfold g in X. cbn [fst snd] in X. destruct v; try discriminate.
      * unfold width_left in X. rewrite O in X. destruct (N.leb_spec (utf8_len k + 3) term) as [L|L].
        -- apply cr_entry with k (EList l); [exact J|]. apply (IH (term - (utf8_len k + 3))%N); [right; now exists l|].
           destruct (show cw H help term (term - (utf8_len k + 3)) (EList l)) as [t|q]; [discriminate|].
           now exists q.
        -- now apply cr_key with k l.
      * apply cr_entry with k (EMap m0); [exact J|]. apply (IH term); [now left|].
        destruct (show cw H help term term (EMap m0)) as [t|q]; [discriminate | now exists q].
    + intros X. rewrite Forall_forall in IH. inversion X as [? k l J L|? k v J V|]; subst.
      * exists (k, EList l), PArith. split; [exact J|]. unfold g, width_left. cbn [fst snd]. rewrite O.
        destruct (N.leb_spec (utf8_len k + 3) term); [lia | reflexivity].
      * specialize (IH (k, v) J). cbn [snd] in IH.
        destruct v; try (inversion V; fail).
        -- destruct (width_left (h_overflow H) term k) as [w|p] eqn:E.
           ++ destruct (proj2 (IH w (or_intror (ex_intro _ l eq_refl))) V) as (p & P).
              exists (k, EList l), p. split; [exact J|]. unfold g. cbn [fst snd]. now rewrite E, P.
           ++ exists (k, EList l), p. split; [exact J|]. unfold g. cbn [fst snd]. now rewrite E.
        -- destruct (proj2 (IH term (or_introl eq_refl)) V) as (p & P).
           exists (k, EMap m0), p. split; [exact J|]. unfold g. cbn [fst snd]. now rewrite P.
Qed.
Print Assumptions C119_panics.

(** In other builds printing never stops. *)
Theorem C119_total cw H help term sw e :
  h_overflow H = OvfWrap -> exists out, show cw H help term sw e = inl out.
Proof.
  intros O. revert sw. induction e using expr_ind2 with (Q := fun _ => True); try exact I;
    intros sw; try (eexists; reflexivity).
  - rename H0 into IH. cbn [show].
    match goal with |- exists out, match collect (map ?f l) with _ => _ end = _ =>
      destruct (collect (map f l)) as [ts|p] eqn:C; [eexists; reflexivity|];
      apply collect_which in C; destruct C as (a & J & X) end.
    rewrite Forall_forall in IH. destruct (IH a J term) as (t & T). destruct a; congruence.
  - rename H0 into IH. cbn [show].
    match goal with |- exists out, match collect (map ?f m) with _ => _ end = _ =>
      destruct (collect (map f m)) as [ts|p] eqn:C; [eexists; reflexivity|];
      apply collect_which in C; destruct C as ([k v] & J & X) end.
    rewrite Forall_forall in IH. specialize (IH (k, v) J). cbn [fst snd] in *.
    destruct v; try discriminate.
    + unfold width_left in X. rewrite O in X.
      destruct (N.leb (utf8_len k + 3) sw).
      * destruct (IH (sw - (utf8_len k + 3))%N) as (t & T). rewrite T in X. discriminate.
      * destruct (IH (2 ^ 64 + sw - (utf8_len k + 3))%N) as (t & T). rewrite T in X. discriminate.
    + destruct (IH sw) as (t & T). rewrite T in X. discriminate.
Qed.
Print Assumptions C119_total.

(** On every terminal there is a value that stops a checking build: the
    claim that every value can be printed is false. *)
Theorem C119_crash_refuted cw H help term : h_overflow H = OvfPanic ->
  exists e, printed cw H help term e = inr PArith.
Proof.
  intros O. exists (EMap [(repeat 97%N (N.to_nat term), EList [])]).
  unfold printed. cbn [show map collect fst snd]. unfold width_left. rewrite O.
  assert (L : utf8_len (repeat 97%N (N.to_nat term)) = term).
  { rewrite ascii_len, repeat_length; [lia|]. apply Forall_forall. intros c I. apply repeat_spec in I. subst. reflexivity. }
  rewrite L. destruct (N.leb_spec (term + 3) term); [lia | reflexivity].
Qed.
Print Assumptions C119_crash_refuted.

(** ** Cases *)

(** A list, in a frame and the way it is read. *)
Example C118_case :
  printed plain demo_host no_help 40 (EList [EInteger 1; EString (lit "ab"); EBoolean true])
  = inl (with_feeds [list_top [3; 6; 6];
                     barred 9475%N [lit " 1 "; 32%N :: debug_str demo_host (lit "ab") ++ [32%N]; lit " True "];
                     list_bottom [3; 6; 6]])
  /\ printed plain demo_host no_help 12 (EList [EInteger 1; EString (lit "ab"); EBoolean true])
     = inl (lit "[1, " ++ debug_str demo_host (lit "ab") ++ lit ", True]").
Proof. split; vm_compute; reflexivity. Qed.

Example C118_case_meets :
  Forall2 (item demo_host) [EInteger 1; EString (lit "ab"); EBoolean true]
    [lit "1"; debug_str demo_host (lit "ab"); lit "True"]
  /\ Forall single [lit "1"; debug_str demo_host (lit "ab"); lit "True"]
  /\ counted [lit "1"; debug_str demo_host (lit "ab"); lit "True"] = 13%N.
Proof.
  split; [|split; [|reflexivity]].
  - constructor; [now apply (item_atom demo_host (EInteger 1))|].
    constructor; [apply item_string|].
    constructor; [now apply (item_atom demo_host (EBoolean true)) | constructor].
  - repeat constructor; vm_compute; intuition discriminate.
Qed.

(** A map of two entries. *)
Example C119_case :
  exists m, Forall (fun kv => single (fst kv) /\ simple (snd kv)) m
  /\ printed plain demo_host no_help 40 (EMap m)
     = inl (with_feeds [map_top [4; 5];
                        barred 9474%N [lit " a  "; lit " 1   "];
                        map_middle [4; 5];
                        barred 9474%N [lit " bc "; lit " 234 "];
                        map_bottom [4; 5]]).
Proof.
  exists [(lit "a", EInteger 1); (lit "bc", EInteger 234)]. split.
  - repeat constructor; vm_compute; intuition discriminate.
  - vm_compute. reflexivity.
Qed.

(** A key that leaves no room, inside a list. *)
Example C119_cramped :
  cramped 10 (EList [ENone; EMap [(lit "a", EInteger 1); (lit "longer_key", EList [])]]).
Proof.
  apply cr_item with (EMap [(lit "a", EInteger 1); (lit "longer_key", EList [])]); [right; now left|].
  apply cr_key with (lit "longer_key") (@nil expr); [right; now left | vm_compute; reflexivity].
Qed.

(** The shell with frames: [str] of a list. *)
Example C118_shell :
  fst (eval (with_tables plain demo_host no_help 40) 200 0 (script "str [1, 2]") demo)
  = ROk (EString (with_feeds [list_top [3; 3]; barred 9475%N [lit " 1 "; lit " 2 "]; list_bottom [3; 3]])).
Proof. vm_compute. reflexivity. Qed.
