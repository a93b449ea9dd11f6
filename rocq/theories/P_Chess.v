(** C133: the game of chess. *)

From Coq Require Import String List Bool NArith ZArith Lia.
From Verif Require Import Base Syntax Host Ops ErrorFmt Monad Builtins TextSpec TrimFacts SysSpec Demo Chess ChessSpec.
From Verif Require MapFacts.
Import ListNotations.

Lemma color_eqb_spec a b : reflect (a = b) (color_eqb a b).
Proof. destruct a, b; constructor; congruence. Qed.

Section Game.
  Variable H : host.
  Variable E : engine.
  Variable p : color.

  Definition show_turn (b : e_board E) (s : st) : st :=
    told H (RqInput (lit "Enter move: ")) (told H (RqPrint (lit "Your move!" ++ [10%N] ++ e_show E b ++ [10%N])) s).

  Definition answered (b : e_board E) (s : st) : response :=
    h_answer H (s_trace (told H (RqPrint (lit "Your move!" ++ [10%N] ++ e_show E b ++ [10%N])) s)) (RqInput (lit "Enter move: ")).

  Definition typed (r : response) : str := match r with RsText l => l | _ => [] end.

  Lemma farewell_trim l :
    farewell l <-> (str_eqb (trim l) (lit "q") || str_eqb (trim l) (lit "quit") || str_eqb (trim l) (lit "exit"))%bool = true.
  Proof.
    split.
    - intros (t & T & I). apply trimmed_trim in T. rewrite T. cbn in I.
      destruct I as [<-|[<-|[<-|[]]]]; reflexivity.
    - intros B. exists (trim l). split; [now apply trimmed_trim|].
      apply Bool.orb_true_iff in B as [B|B]; [apply Bool.orb_true_iff in B as [B|B]|];
        apply MapFacts.str_eqb_eq in B; rewrite B; cbn; tauto.
  Qed.

  Lemma stands_trim l m :
    stands_for E l m <-> ~ farewell l /\ trim l <> [] /\ e_read E (trim l) = inl m.
  Proof.
    split.
    - intros (N & t & T & X). split; [exact N|]. apply trimmed_trim in T. now rewrite T.
    - intros (N & X). split; [exact N|]. exists (trim l). split; [now apply trimmed_trim|exact X].
  Qed.

  (** The three kinds of lines. *)
  Lemma kinds l : farewell l \/ (exists m, stands_for E l m) \/ nonsense E l.
  Proof.
    destruct (str_eqb (trim l) (lit "q") || str_eqb (trim l) (lit "quit") || str_eqb (trim l) (lit "exit"))%bool eqn:B.
    - left. now apply farewell_trim.
    - right. assert (N : ~ farewell l) by (rewrite farewell_trim; congruence).
      destruct (trim l) as [|c r] eqn:T.
      + right. split; [exact N|]. intros m X. apply stands_trim in X as (_ & X & _). now apply X.
      + destruct (e_read E (trim l)) as [m|e] eqn:R.
        * left. exists m. apply stands_trim. split; [exact N|]. split; [congruence|exact R].
        * right. split; [exact N|]. intros m X. apply stands_trim in X as (_ & _ & X). congruence.
  Qed.

  Lemma turn_farewell b s : answered b s <> RsEnd -> farewell (typed (answered b s)) ->
    players_turn H E b s = (ROk (Quits E), told H (RqPrint (lit "Bye!" ++ [10%N])) (show_turn b s)).
  Proof.
    intros N F. apply farewell_trim in F. unfold players_turn, print, bind, ask, ret, exits, show_turn, told in *.
    unfold answered, told in *. cbn [s_trace s_env s_log] in *.
    destruct (h_answer H _ (RqInput (lit "Enter move: "))) as [] eqn:A; try congruence;
      cbn [typed] in F; try (vm_compute in F; discriminate F).
    destruct (trim s0) eqn:T; [vm_compute in F; discriminate F|]. rewrite F. reflexivity.
  Qed.

  Lemma turn_makes b s m : answered b s <> RsEnd -> stands_for E (typed (answered b s)) m ->
    players_turn H E b s = (ROk (Makes E m), show_turn b s).
  Proof.
    intros N F. apply stands_trim in F as (NF & NE & R). rewrite farewell_trim in NF. apply Bool.not_true_is_false in NF.
    unfold players_turn, print, bind, ask, ret, exits, show_turn, told in *.
    unfold answered, told in *. cbn [s_trace s_env s_log] in *.
    destruct (h_answer H _ (RqInput (lit "Enter move: "))) as [] eqn:A; try congruence;
      cbn [typed] in *; try (now destruct NE).
    destruct (trim s0) eqn:T; [now destruct NE|]. rewrite NF, R. reflexivity.
  Qed.

  Lemma turn_nonsense b s : answered b s <> RsEnd -> nonsense E (typed (answered b s)) ->
    players_turn H E b s = (ROk (Again E), show_turn b s).
  Proof.
    intros N (NF & NS). pose proof NF as NF'. rewrite farewell_trim in NF. apply Bool.not_true_is_false in NF.
    assert (X : trim (typed (answered b s)) = [] \/ exists e, e_read E (trim (typed (answered b s))) = inr e).
    { destruct (trim (typed (answered b s))) eqn:T; [now left|right].
      destruct (e_read E _) as [m|e] eqn:R; [|now exists e].
      destruct (NS m). apply stands_trim. rewrite T. split; [exact NF'|]. split; [discriminate|exact R]. }
    clear NS NF'. unfold players_turn, print, bind, ask, ret, exits, show_turn, told in *.
    unfold answered, told in *. cbn [s_trace s_env s_log] in *.
    destruct (h_answer H _ (RqInput (lit "Enter move: "))) as [] eqn:A; try congruence;
      cbn [typed] in *; try reflexivity.
    destruct (trim s0) eqn:T; [reflexivity|]. rewrite NF. destruct X as [X|(e & X)]; [discriminate|]. now rewrite X.
  Qed.

  Lemma turn_end b s : answered b s = RsEnd -> players_turn H E b s = (RExit 0, show_turn b s).
  Proof.
    intros A. unfold players_turn, print, bind, ask, ret, exits, show_turn, told in *.
    unfold answered, told in *. cbn [s_trace s_env s_log] in *. now rewrite A.
  Qed.

  Definition mate_told b c s := told H (RqPrint (lit "Checkmate! " ++ e_name E (other c) ++ lit " loses. "
                         ++ e_name E c ++ lit " is victorious!" ++ [10%N])) (told H (RqPrint (e_show E b ++ [10%N])) s).

  (** One turn of the loop after the choice. *)
  Lemma game_player n b s : e_turn E b = p ->
    game H E (S n) p b s =
    match players_turn H E b s with
    | (ROk (Again _), s1) => game H E n p b s1
    | (ROk (Quits _), s1) => (ROk false, s1)
    | (ROk (Makes _ m), s1) =>
        match e_play E b m with
        | Continuing b' => game H E n p b' s1
        | Victory c => (ROk (color_eqb p c), mate_told b c s1)
        | IllegalMove _ => game H E n p b s1
        | Stalemate => (ROk false, told H drawn s1)
        end
    | (RErr e, s1) => (RErr e, s1)
    | (RPanic e, s1) => (RPanic e, s1)
    | (RExit c, s1) => (RExit c, s1)
    | (RFuel, s1) => (RFuel, s1)
    end.
  Proof.
    intros T. cbn [game]. rewrite T. destruct (color_eqb_spec p p) as [_|N]; [|congruence].
    unfold bind at 1. destruct (players_turn H E b s) as [[[m| |]|e|e|c|] s1]; try reflexivity.
    destruct (e_play E b m); reflexivity.
  Qed.

  Lemma game_engine n b s : e_turn E b <> p ->
    game H E (S n) p b s =
    let s1 := told H waiting s in
    match e_play E b (e_best E b 4) with
    | Continuing b' => game H E n p b' s1
    | Victory c => (ROk (color_eqb p c), mate_told b c s1)
    | IllegalMove _ => game H E n p b s1
    | Stalemate => (ROk false, told H drawn s1)
    end.
  Proof.
    intros T. cbn [game]. destruct (color_eqb_spec p (e_turn E b)) as [X|_]; [congruence|].
    unfold bind at 1, engines_turn, print. cbn. destruct (e_play E b (e_best E b 4)); reflexivity.
  Qed.

  (** What a state keeps when requests are made. *)
  Definition grew (s s' : st) (ls : list str) (rqs : list request) : Prop :=
    s_env s' = s_env s /\ s_log s' = s_log s
    /\ exists t, s_trace s' = t ++ s_trace s /\ map fst t = rev rqs /\ flat_map line_of (rev t) = ls.

  Lemma grew_refl s : grew s s [] [].
  Proof. split; [reflexivity|]. split; [reflexivity|]. now exists []. Qed.

  Lemma grew_trans s s1 s2 l l' r r' : grew s s1 l r -> grew s1 s2 l' r' -> grew s s2 (l ++ l') (r ++ r').
  Proof.
    intros (A & B & t & C & D & F) (A' & B' & t' & C' & D' & F'). split; [congruence|]. split; [congruence|].
    exists (t' ++ t). split; [now rewrite C', C, app_assoc|]. split.
    - rewrite rev_app_distr, <- D, <- D'. apply map_app.
    - rewrite <- F, <- F'. etransitivity; [apply f_equal, rev_app_distr|apply flat_map_app].
  Qed.

  Lemma grew_print s x : grew s (told H (RqPrint x) s) [] [RqPrint x].
  Proof. split; [reflexivity|]. split; [reflexivity|]. now exists [(RqPrint x, h_answer H (s_trace s) (RqPrint x))]. Qed.

  Lemma grew_turn b s : grew s (show_turn b s) [typed (answered b s)] (your_move E b).
  Proof.
    split; [reflexivity|]. split; [reflexivity|]. eexists [_; _]. split; [reflexivity|]. split; [reflexivity|].
    cbn [rev flat_map line_of app]. unfold answered. now destruct (h_answer H _ (RqInput _)).
  Qed.

  Lemma grew_mate b c s : grew s (mate_told b c s) [] (mate E b (other c) c).
  Proof. apply (grew_trans _ _ _ [] [] [_] [_] (grew_print s _) (grew_print _ _)). Qed.

  Lemma decides_victory b m c : e_play E b m = Victory c -> decides E p b m (mate E b (other c) c) (color_eqb p c).
  Proof.
    intros P. destruct (color_eqb_spec p c) as [<-|N].
    - apply decides_won; [exact P|]. destruct p; discriminate.
    - assert (other c = p) as -> by (destruct p, c; cbn; congruence). apply decides_lost; [exact P|congruence].
  Qed.

  (** A finished game is a match. *)
  Lemma game_match n : forall b s w s', game H E n p b s = (ROk w, s') ->
    exists ls rqs, grew s s' ls rqs /\ match_ E p b ls rqs w.
  Proof.
    induction n as [|n IH]; intros b s w s' G; [discriminate|].
    destruct (color_eqb_spec (e_turn E b) p) as [T|T].
    - rewrite (game_player n b s T) in G. pose proof (grew_turn b s) as GT.
      destruct (answered b s) eqn:A; try
      (assert (NE : answered b s <> RsEnd) by congruence; rewrite <- A in GT; clear A;
      destruct (kinds (typed (answered b s))) as [F|[(m & F)|F]];
      [rewrite (turn_farewell b s NE F) in G; injection G as <- <-;
       exists [typed (answered b s)], (your_move E b ++ [bye]);
       split; [apply (grew_trans _ _ _ _ [] _ [bye] GT (grew_print _ _))|];
       exists [], [typed (answered b s)], [], (your_move E b ++ [bye]), [], b;
       split; [reflexivity|]; split; [reflexivity|]; split; [constructor|now constructor]
      |rewrite (turn_makes b s m NE F) in G; destruct (e_play E b m) as [b'|c|x|] eqn:P;
       [apply IH in G as (ls & rqs & G & l1 & l2 & r1 & r2 & ms & e & -> & -> & L & D);
        exists (typed (answered b s) :: l1 ++ l2), (your_move E b ++ r1 ++ r2);
        split; [exact (grew_trans _ _ _ _ _ _ _ GT G)|];
        exists (typed (answered b s) :: l1), l2, (your_move E b ++ r1), r2, (m :: ms), e;
        split; [reflexivity|]; split; [now rewrite app_assoc|]; split; [|exact D];
        now apply (leads_player E p b b') 
       |injection G as <- <-;
        exists [typed (answered b s)], (your_move E b ++ mate E b (other c) c);
        split; [apply (grew_trans _ _ _ _ [] _ _ GT (grew_mate _ _ _))|];
        exists [], [typed (answered b s)], [], (your_move E b ++ mate E b (other c) c), [], b;
        split; [reflexivity|]; split; [reflexivity|]; split; [constructor|];
        apply (ends_player E p b _ m); [exact T|exact F|now apply decides_victory]
       |apply IH in G as (ls & rqs & G & l1 & l2 & r1 & r2 & ms & e & -> & -> & L & D);
        exists (typed (answered b s) :: l1 ++ l2), (your_move E b ++ r1 ++ r2);
        split; [exact (grew_trans _ _ _ _ _ _ _ GT G)|];
        exists (typed (answered b s) :: l1), l2, (your_move E b ++ r1), r2, ms, e;
        split; [reflexivity|]; split; [now rewrite app_assoc|]; split; [|exact D];
        now apply (leads_illegal E p b _ m x)
       |injection G as <- <-;
        exists [typed (answered b s)], (your_move E b ++ [drawn]);
        split; [apply (grew_trans _ _ _ _ [] _ [drawn] GT (grew_print _ _))|];
        exists [], [typed (answered b s)], [], (your_move E b ++ [drawn]), [], b;
        split; [reflexivity|]; split; [reflexivity|]; split; [constructor|];
        apply (ends_player E p b _ m); [exact T|exact F|now constructor]]
      |rewrite (turn_nonsense b s NE F) in G;
       apply IH in G as (ls & rqs & G & l1 & l2 & r1 & r2 & ms & e & -> & -> & L & D);
       exists (typed (answered b s) :: l1 ++ l2), (your_move E b ++ r1 ++ r2);
       split; [exact (grew_trans _ _ _ _ _ _ _ GT G)|];
       exists (typed (answered b s) :: l1), l2, (your_move E b ++ r1), r2, ms, e;
       split; [reflexivity|]; split; [now rewrite app_assoc|]; split; [|exact D];
       now apply leads_nonsense]).
      rewrite (turn_end b s A) in G. discriminate.
    - rewrite (game_engine n b s T) in G. cbv zeta in G. pose proof (grew_print s (lit "Waiting for CPU to annihilate your position..." ++ [10%N])) as GT.
      destruct (e_play E b (e_best E b 4)) as [b'|c|x|] eqn:P.
      + apply IH in G as (ls & rqs & G & l1 & l2 & r1 & r2 & ms & e & -> & -> & L & D).
        exists (l1 ++ l2), (waiting :: r1 ++ r2). split; [exact (grew_trans _ _ _ [] _ [_] _ GT G)|].
        exists l1, l2, (waiting :: r1), r2, (e_best E b 4 :: ms), e.
        split; [reflexivity|]. split; [reflexivity|]. split; [|exact D]. now apply (leads_engine E p b b').
      + injection G as <- <-. exists [], (waiting :: mate E b (other c) c).
        split; [exact (grew_trans _ _ _ [] [] [_] _ GT (grew_mate _ _ _))|].
        exists [], [], [], (waiting :: mate E b (other c) c), [], b.
        split; [reflexivity|]. split; [reflexivity|]. split; [constructor|].
        apply ends_engine; [exact T|now apply decides_victory].
      + (* the same turn again and again *)
        exfalso. clear IH GT. revert s G. induction n as [|n IH]; intros s G; [discriminate|].
        rewrite (game_engine n b _ T) in G. cbv zeta in G. rewrite P in G. exact (IH _ G).
      + injection G as <- <-. exists [], [waiting; drawn].
        split; [exact (grew_trans _ _ _ [] [] [_] [_] GT (grew_print _ _))|].
        exists [], [], [], [waiting; drawn], [], b.
        split; [reflexivity|]. split; [reflexivity|]. split; [constructor|].
        apply ends_engine; [exact T|now constructor].
  Qed.

  (** A user who types the lines one after the other. *)
  Variable line : nat -> str.
  Hypothesis TY : types H line.

  Lemma answered_types b s : answered b s = RsText (line (lines_asked (s_trace s))).
  Proof. unfold answered. rewrite TY. reflexivity. Qed.

  Definition upcoming (k : nat) (ls : list str) : Prop :=
    forall i l, nth_error ls i = Some l -> l = line (k + i).

  Lemma upcoming_cons k l ls : upcoming k (l :: ls) -> l = line k /\ upcoming (S k) ls.
  Proof.
    intros U. split; [rewrite (U 0 l eq_refl); f_equal; lia|].
    intros i x X. rewrite (U (S i) x X). f_equal. lia.
  Qed.

  Lemma turn_ends b s l ls : upcoming (lines_asked (s_trace s)) (l :: ls) ->
    answered b s <> RsEnd /\ typed (answered b s) = l /\ upcoming (lines_asked (s_trace (show_turn b s))) ls.
  Proof.
    intros U. apply upcoming_cons in U as (-> & U). rewrite (answered_types b s).
    split; [discriminate|]. split; [reflexivity|]. exact U.
  Qed.

  Lemma match_game_end b ls rqs w s : ends E p b ls rqs w -> upcoming (lines_asked (s_trace s)) ls ->
    exists s', game H E 1 p b s = (ROk w, s').
  Proof.
    intros D U. destruct D as [l T F|l m rqs w T F D|rqs w T D].
    - destruct (turn_ends b s _ _ U) as (NE & TL & _). subst l. rewrite (game_player 0 b s T), (turn_farewell b s NE F). now eexists.
    - destruct (turn_ends b s _ _ U) as (NE & TL & _). subst l. rewrite (game_player 0 b s T), (turn_makes b s m NE F).
      destruct D as [P c N|c P N|P]; rewrite P.
      + destruct (color_eqb_spec p p) as [_|X]; [|congruence]. now eexists.
      + destruct (color_eqb_spec p c) as [X|_]; [congruence|]. now eexists.
      + now eexists.
    - rewrite (game_engine 0 b s T). cbv zeta. destruct D as [P c N|c P N|P]; rewrite P.
      + destruct (color_eqb_spec p p) as [_|X]; [|congruence]. now eexists.
      + destruct (color_eqb_spec p c) as [X|_]; [congruence|]. now eexists.
      + now eexists.
  Qed.

  Lemma upcoming_app k l1 l2 : upcoming k (l1 ++ l2) -> upcoming k l1 /\ upcoming (k + length l1) l2.
  Proof.
    intros U. split.
    - intros i l X. apply U. rewrite nth_error_app1; [exact X|]. apply nth_error_Some. congruence.
    - intros i l X. rewrite (U (length l1 + i) l); [f_equal; lia|]. rewrite nth_error_app2 by lia.
      replace (length l1 + i - length l1) with i by lia. exact X.
  Qed.

  (** A match that the typed lines make is played to its end. *)
  Lemma match_game b ls1 rqs1 ms b' : leads E p b ls1 rqs1 ms b' -> forall s ls2 rqs2 w,
    ends E p b' ls2 rqs2 w -> upcoming (lines_asked (s_trace s)) (ls1 ++ ls2) ->
    exists n s', game H E n p b s = (ROk w, s').
  Proof.
    induction 1 as [b|b b1 m ls rqs ms b2 T M P L IH|b b1 l m ls rqs ms b2 T F P L IH|b l ls rqs ms b2 T F L IH
                   |b l m x ls rqs ms b2 T F P L IH]; intros s ls2 rqs2 w D U.
    - exists 1. exact (match_game_end b ls2 rqs2 w s D U).
    - destruct (IH (told H waiting s) ls2 rqs2 w D U) as (n & s' & G).
      exists (S n), s'. rewrite (game_engine n b s T), <- M, P. exact G.
    - destruct (turn_ends b s _ _ U) as (NE & TL & U'). subst l.
      destruct (IH (show_turn b s) ls2 rqs2 w D U') as (n & s' & G).
      exists (S n), s'. rewrite (game_player n b s T), (turn_makes b s m NE F), P. exact G.
    - destruct (turn_ends b s _ _ U) as (NE & TL & U'). subst l.
      destruct (IH (show_turn b s) ls2 rqs2 w D U') as (n & s' & G).
      exists (S n), s'. rewrite (game_player n b s T), (turn_nonsense b s NE F). exact G.
    - destruct (turn_ends b s _ _ U) as (NE & TL & U'). subst l.
      destruct (IH (show_turn b s) ls2 rqs2 w D U') as (n & s' & G).
      exists (S n), s'. rewrite (game_player n b s T), (turn_makes b s m NE F), P. exact G.
  Qed.

  (** With an honest engine, a word of farewell ends the game. *)
  Lemma game_ends : honest E p -> forall d b s,
    (exists k, k <= d /\ farewell (line (lines_asked (s_trace s) + k))) ->
    exists n w s', game H E n p b s = (ROk w, s').
  Proof.
    intros HO.
    assert (X : forall d b s, e_turn E b = p -> (exists k, k <= d /\ farewell (line (lines_asked (s_trace s) + k))) ->
      (forall b s, e_turn E b = p -> (exists k, S k <= d /\ farewell (line (lines_asked (s_trace s) + k))) ->
         exists n w s', game H E n p b s = (ROk w, s')) ->
      (forall b s, e_turn E b <> p -> (exists k, S k <= d /\ farewell (line (lines_asked (s_trace s) + k))) ->
         exists n w s', game H E n p b s = (ROk w, s')) ->
      exists n w s', game H E n p b s = (ROk w, s')).
    { intros d b s T (k & K & FW) IHp IHe.
      assert (NE : answered b s <> RsEnd) by (rewrite answered_types; discriminate).
      assert (AL : typed (answered b s) = line (lines_asked (s_trace s))) by now rewrite answered_types.
      assert (LS : lines_asked (s_trace (show_turn b s)) = S (lines_asked (s_trace s))) by reflexivity.
      destruct (kinds (typed (answered b s))) as [F|F].
      - exists 1. rewrite (game_player 0 b s T), (turn_farewell b s NE F). eauto.
      - assert (NK : k <> 0).
        { intros ->. rewrite Nat.add_0_r in FW. rewrite <- AL in FW.
          destruct F as [(m & (NF & _))|(NF & _)]; exact (NF FW). }
        assert (RE : exists k, S k <= d /\ farewell (line (lines_asked (s_trace (show_turn b s)) + k))).
        { exists (k - 1). split; [lia|]. rewrite LS. replace (S (lines_asked (s_trace s)) + (k - 1)) with (lines_asked (s_trace s) + k) by lia. exact FW. }
        assert (NX : forall b', exists n w s', game H E n p b' (show_turn b s) = (ROk w, s')).
        { intros b'. destruct (color_eqb_spec (e_turn E b') p) as [T'|T']; [now apply IHp|now apply IHe]. }
        destruct F as [(m & F)|F].
        + destruct (e_play E b m) as [b'|c|x|] eqn:P.
          * destruct (NX b') as (n & w & s' & G). exists (S n), w, s'.
            rewrite (game_player n b s T), (turn_makes b s m NE F), P. exact G.
          * exists 1. rewrite (game_player 0 b s T), (turn_makes b s m NE F), P. eauto.
          * destruct (NX b) as (n & w & s' & G). exists (S n), w, s'.
            rewrite (game_player n b s T), (turn_makes b s m NE F), P. exact G.
          * exists 1. rewrite (game_player 0 b s T), (turn_makes b s m NE F), P. eauto.
        + destruct (NX b) as (n & w & s' & G). exists (S n), w, s'.
          rewrite (game_player n b s T), (turn_nonsense b s NE F). exact G. }
    assert (Y : forall d, (forall b s, e_turn E b = p -> (exists k, k <= d /\ farewell (line (lines_asked (s_trace s) + k))) ->
         exists n w s', game H E n p b s = (ROk w, s')) ->
      forall b s, e_turn E b <> p -> (exists k, k <= d /\ farewell (line (lines_asked (s_trace s) + k))) ->
         exists n w s', game H E n p b s = (ROk w, s')).
    { intros d IH b s T RE. destruct (HO b T) as (NI & NT).
      destruct (e_play E b (e_best E b 4)) as [b'|c|x|] eqn:P.
      - destruct (IH b' (told H waiting s) (NT b' eq_refl) RE) as (n & w & s' & G).
        exists (S n), w, s'. rewrite (game_engine n b s T), P. exact G.
      - exists 1. rewrite (game_engine 0 b s T), P. cbv zeta. eauto.
      - now destruct (NI x).
      - exists 1. rewrite (game_engine 0 b s T), P. cbv zeta. eauto. }
    assert (Z : forall d b s, e_turn E b = p -> (exists k, k <= d /\ farewell (line (lines_asked (s_trace s) + k))) ->
         exists n w s', game H E n p b s = (ROk w, s')).
    { induction d as [|d IH]; intros b s T RE.
      - apply (X 0 b s T RE); intros b' s2 _ (k & K & _); lia.
      - apply (X (S d) b s T RE).
        + intros b' s2 T' (k & K & F). apply (IH b' s2 T'). exists k. split; [lia|exact F].
        + intros b' s2 T' (k & K & F). apply (Y d IH b' s2 T'). exists k. split; [lia|exact F]. }
    intros d b s RE. destruct (color_eqb_spec (e_turn E b) p) as [T|T]; [now apply (Z d)|now apply (Y d (Z d))].
  Qed.
End Game.

Lemma game_outcomes H E p n : forall b s r s', game H E n p b s = (r, s') ->
  (exists w, r = ROk w) \/ (r = RExit 0 /\ exists q t, s_trace s' = (RqInput q, RsEnd) :: t) \/ r = RFuel.
Proof.
  induction n as [|n IH]; intros b s r s' G; [injection G as <- <-; now right; right|].
  destruct (color_eqb_spec (e_turn E b) p) as [T|T].
  - rewrite (game_player H E p n b s T) in G.
    assert (X : answered H E b s = RsEnd \/ answered H E b s <> RsEnd)
      by (destruct (answered H E b s); (now left) || (right; discriminate)).
    destruct X as [A|NE].
    + rewrite (turn_end H E b s A) in G. injection G as <- <-. right. left. split; [reflexivity|].
      exists (lit "Enter move: "). eexists. rewrite <- A. reflexivity.
    + destruct (kinds E (typed (answered H E b s))) as [F|[(m & F)|F]].
      * rewrite (turn_farewell H E b s NE F) in G. injection G as <- <-. left. now eexists.
      * rewrite (turn_makes H E b s m NE F) in G. destruct (e_play E b m) as [b'|c|x|];
          [exact (IH _ _ _ _ G)|injection G as <- <-; left; now eexists|exact (IH _ _ _ _ G)
          |injection G as <- <-; left; now eexists].
      * rewrite (turn_nonsense H E b s NE F) in G. exact (IH _ _ _ _ G).
  - rewrite (game_engine H E p n b s T) in G. cbv zeta in G. destruct (e_play E b _) as [b'|c|x|];
      [exact (IH _ _ _ _ G)|injection G as <- <-; left; now eexists|exact (IH _ _ _ _ G)
      |injection G as <- <-; left; now eexists].
Qed.

Lemma chess_colored H E n a p r s : names_color a p ->
  chess H E n (a :: r) s =
  match game H E n p (e_start E) s with
  | (ROk w, s') => (ROk (EBoolean w), s')
  | (RErr e, s') => (RErr e, s')
  | (RPanic e, s') => (RPanic e, s')
  | (RExit c, s') => (RExit c, s')
  | (RFuel, s') => (RFuel, s')
  end.
Proof.
  intros N. assert (X : a = EString (lit "white") /\ p = White \/ a = ESymbol (lit "white") /\ p = White
    \/ a = EString (lit "black") /\ p = Black \/ a = ESymbol (lit "black") /\ p = Black).
  { destruct N as [c t I|c t I]; cbn in I; destruct I as [I|[I|[]]]; injection I as <- <-; tauto. }
  destruct X as [[-> ->]|[[-> ->]|[[-> ->]|[-> ->]]]]; reflexivity.
Qed.

(** ** C133 *)

(** What [chess] gives is whether the player has won a match that was played
    with the typed lines: every position follows from the start by moves that the
    rules allow, the engine makes its own best moves, the player the typed ones,
    and lines that are no move or no allowed one are passed over.  The match
    ended by a word of farewell, by a mate or by a draw.  Only what the match
    calls for is shown and asked, and no variable changes. *)
Theorem C133_game H E n a p r s v s' :
  names_color a p -> chess H E n (a :: r) s = (ROk v, s') ->
  exists ls rqs w, v = EBoolean w /\ match_ E p (e_start E) ls rqs w
    /\ typed_between s s' ls /\ asked_between s s' rqs /\ s_env s' = s_env s /\ s_log s' = s_log s.
Proof.
  intros N C. rewrite (chess_colored H E n a p r s N) in C.
  destruct (game H E n p (e_start E) s) as [[w| | | |] s1] eqn:G; try discriminate. injection C as <- <-.
  apply game_match in G as (ls & rqs & (G1 & G2 & t & G3 & G4 & G5) & M).
  exists ls, rqs, w. split; [reflexivity|]. split; [exact M|]. split; [now exists t|]. split; [now exists t|]. now split.
Qed.

(** A match that the next lines of the user make is played to its end. *)
Theorem C133_plays H E a p r line s ls rqs w :
  names_color a p -> types H line -> match_ E p (e_start E) ls rqs w ->
  (forall i l, nth_error ls i = Some l -> l = line (lines_asked (s_trace s) + i)) ->
  exists n s', chess H E n (a :: r) s = (ROk (EBoolean w), s').
Proof.
  intros N T (l1 & l2 & r1 & r2 & ms & b' & -> & -> & L & D) U.
  destruct (match_game H E p line T _ _ _ _ _ L s l2 r2 w D U) as (n & s' & G).
  exists n, s'. rewrite (chess_colored H E n a p r s N), G. reflexivity.
Qed.

(** When the engine only makes moves that are allowed, and the user says farewell
    at some time, the game ends. *)
Theorem C133_ends H E a p r line s k :
  names_color a p -> types H line -> honest E p -> farewell (line (lines_asked (s_trace s) + k)) ->
  exists n v s', chess H E n (a :: r) s = (ROk v, s').
Proof.
  intros N T HO F. destruct (game_ends H E p line T HO k (e_start E) s) as (n & w & s' & G); [now exists k|].
  exists n, (EBoolean w), s'. rewrite (chess_colored H E n a p r s N), G. reflexivity.
Qed.

(** With a colour there is no error and no crash; the shell ends when the input
    ends. *)
Theorem C133_outcomes H E n a p r s v s' :
  names_color a p -> chess H E n (a :: r) s = (v, s') ->
  (exists w, v = ROk (EBoolean w))
  \/ (v = RExit 0 /\ exists q t, s_trace s' = (RqInput q, RsEnd) :: t) \/ v = RFuel.
Proof.
  intros N C. rewrite (chess_colored H E n a p r s N) in C.
  destruct (game H E n p (e_start E) s) as [g s1] eqn:G. apply game_outcomes in G as [(w & ->)|[(-> & X)| ->]].
  - injection C as <- <-. left. now exists w.
  - injection C as <- <-. right. left. now split.
  - injection C as <- <-. now right; right.
Qed.

(** Anything but the word white or black is refused before anything is shown.
    Arguments are not evaluated: the name of a variable that holds a colour is
    refused as well. *)
Theorem C133_color H E n a r s :
  (forall p, ~ names_color a p) ->
  exists t, chess H E n (a :: r) s = (RErr (CustomError t), s).
Proof.
  intros N. eexists. unfold chess.
  assert (X : match a with
          | EString c | ESymbol c =>
              if str_eqb c (lit "white") then Some White
              else if str_eqb c (lit "black") then Some Black else None
          | _ => None
          end = None).
  { assert (W : forall c, (forall t k, In (t, k) [(lit "white", White); (lit "black", Black)] -> t <> c) ->
      (if str_eqb c (lit "white") then Some White else if str_eqb c (lit "black") then Some Black else None) = None).
    { intros c D. destruct (str_eqb c (lit "white")) eqn:W.
      { apply MapFacts.str_eqb_eq in W. destruct (D (lit "white") White); [now left|now symmetry]. }
      destruct (str_eqb c (lit "black")) eqn:B; [|reflexivity].
      apply MapFacts.str_eqb_eq in B. destruct (D (lit "black") Black); [now right; left|now symmetry]. }
    destruct a; try reflexivity; apply W; intros t k I ->; apply (N k); now constructor. }
  rewrite X. reflexivity.
Qed.

(** Without an argument the shell crashes. *)
Theorem C133_arguments_refuted :
  exists H E args s, forall n, exists s', chess H E n args s = (RPanic PIndex, s').
Proof.
  exists demo_host, (Engine unit unit tt (fun _ => White) (fun _ _ => tt) (fun _ => inl tt) (fun _ _ => Stalemate)
    (fun _ => []) (fun _ => [])), [], demo. intros n. now exists demo.
Qed.

(** An engine whose move is not allowed is asked for the same move forever. *)
Theorem C133_stuck H E a p r s n x :
  names_color a p -> e_turn E (e_start E) <> p ->
  e_play E (e_start E) (e_best E (e_start E) 4) = IllegalMove x ->
  exists s', chess H E n (a :: r) s = (RFuel, s') /\ asked_between s s' (repeat waiting n).
Proof.
  intros N T P. rewrite (chess_colored H E n a p r s N).
  assert (X : exists s', game H E n p (e_start E) s = (RFuel, s') /\ asked_between s s' (repeat waiting n)).
  { revert s. induction n as [|n IH]; intros s; [exists s; split; [reflexivity|now exists []]|].
    rewrite (game_engine H E p n _ s T). cbv zeta. rewrite P.
    destruct (IH (told H waiting s)) as (s' & G & t & A & B). exists s'. split; [exact G|].
    exists (t ++ [(waiting, h_answer H (s_trace s) waiting)]). split.
    - rewrite A. cbn [told s_trace]. now rewrite <- app_assoc.
    - etransitivity; [apply map_app|]. exact (f_equal (fun x => x ++ [waiting]) B). }
  destruct X as (s' & -> & A). exists s'. now split.
Qed.

(** *** Cases *)

(** In place of chess, a game with matches: who takes the last one wins.  A
    position is the number of matches and who is next, a move takes one or two. *)
Definition nim : engine :=
  Engine (N * color) N (5%N, White) snd
    (fun b _ => N.min 2 (fst b))
    (fun t => if str_eqb t (lit "1") then inl 1%N else if str_eqb t (lit "2") then inl 2%N
              else if str_eqb t (lit "9") then inl 9%N else inr (lit "bad move"))
    (fun b m => if N.ltb (fst b) m then IllegalMove m
                else if N.eqb (fst b) m then Victory (snd b)
                else Continuing (N.sub (fst b) m, other (snd b)))
    (fun b => repeat 124%N (N.to_nat (fst b)))
    (fun c => match c with White => lit "White" | Black => lit "Black" end).

Definition user (lines : list string) (t : trace) (rq : request) : response :=
  match rq with
  | RqInput _ => RsText (lit (nth (lines_asked t) lines "q"%string))
  | _ => RsOk
  end.

(** The player takes two, the engine two, the player the last one. *)
Example C133_won_case :
  let H := with_answer (user ["what"; "9"; " 2 "; "1"]%string) demo_host in
  names_color (ESymbol (lit "white")) White
  /\ honest nim White
  /\ types H (fun k => lit (nth k ["what"; "9"; " 2 "; "1"]%string "q"%string))
  /\ farewell (lit "q") /\ stands_for nim (lit " 2 ") 2%N /\ nonsense nim (lit "what")
  /\ fst (chess H nim 6 [ESymbol (lit "white")] demo) = ROk (EBoolean true)
  /\ fst (chess H nim 6 [ESymbol (lit "White")] demo) = RErr (CustomError (lit "call chess with a color, like ""black"" or ""white""")).
Proof.
  cbv zeta. split; [now constructor; left|]. split.
  { intros [m c] T. cbn -[N.min N.ltb N.eqb N.sub] in T |- *.
    assert (L : N.ltb m (N.min 2 m) = false) by (apply N.ltb_ge; lia). rewrite L.
    destruct (N.eqb m (N.min 2 m)); split; try discriminate.
    intros b' X. injection X as <-. cbn. destruct c; [congruence|reflexivity]. }
  split; [intros t q; reflexivity|].
  split; [apply farewell_trim; reflexivity|].
  split; [apply stands_trim; split; [rewrite farewell_trim; discriminate|split; [discriminate|reflexivity]]|].
  split.
  { split; [rewrite farewell_trim; discriminate|].
    intros m X. apply stands_trim in X as (_ & _ & X). vm_compute in X. discriminate X. }
  split; reflexivity.
Qed.

(** The engine begins and takes two matches, the player one, the engine the last two. *)
Example C133_lost_case :
  let H := with_answer (user ["1"; "1"]%string) demo_host in
  chess H nim 9 [EString (lit "black")] demo
  = (ROk (EBoolean false), snd (chess H nim 9 [EString (lit "black")] demo))
  /\ rev (map fst (s_trace (snd (chess H nim 9 [EString (lit "black")] demo))))
     = [waiting] ++ your_move nim (3%N, Black) ++ [waiting] ++ mate nim (2%N, White) Black White.
Proof. split; vm_compute; reflexivity. Qed.

(** The variable x holds the word white. *)
Example C133_variable_case :
  let s := St (env_define (lit "x") (EString (lit "white")) demo_env) [] 0 in
  env_get (lit "x") (s_env s) = Some (EString (lit "white"))
  /\ forall n, exists e, chess demo_host nim n [ESymbol (lit "x")] s = (RErr e, s).
Proof. cbv zeta. split; [reflexivity|]. intros n. eexists. reflexivity. Qed.

(** An engine that takes three of five matches where at most two are allowed. *)
Example C133_stuck_case :
  let E := Engine (N * color) N (5%N, White) snd (fun _ _ => 3%N) (fun _ => inr []) (fun _ m => IllegalMove m)
             (fun _ => []) (fun _ => []) in
  names_color (EString (lit "black")) Black /\ e_turn E (e_start E) <> Black
  /\ e_play E (e_start E) (e_best E (e_start E) 4) = IllegalMove 3%N.
Proof. cbv zeta. split; [constructor; now right; left|]. split; [discriminate|reflexivity]. Qed.

Print Assumptions C133_game.
Print Assumptions C133_plays.
Print Assumptions C133_ends.
Print Assumptions C133_outcomes.
Print Assumptions C133_color.
Print Assumptions C133_arguments_refuted.
Print Assumptions C133_stuck.
