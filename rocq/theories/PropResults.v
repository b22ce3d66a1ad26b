(** C92: who wins, and how. *)
From Verif Require Import SpecReplay PropPosition PropMoves PropGame PropRace PropReplay GameFacts VariantFacts PropHowLong ResultsData.
From Verif Require PropEnd.
Unset Implicit Arguments.
Open Scope Z_scope.

Lemma vlegal_turn k v d w : vwf k v -> valid_dice d -> vlegal d v w -> vp_turn w = negb (vp_turn v).
Proof.
  intros (p & -> & W) V L. destruct (vlegal_wf _ W V L) as (r & -> & (ds & (U & P & _)) & Wr).
  rewrite !vp_turn_tag. cbn [flipP turn]. destruct (plays_pips W (uses_valid V U) P) as (_ & _ & _ & _ & _ & T & _). rewrite T. reflexivity.
Qed.
Lemma played_turn k v n w : vwf k v -> played n v w -> vp_turn w = xorb (vp_turn v) (Nat.odd n).
Proof.
  intros W P. induction P as [v|n v w u d O V L P IH]; [destruct (vp_turn v); reflexivity|].
  rewrite (IH (vlegal_vwf W V L)), (vlegal_turn k v d w W V L), Nat.odd_succ, <- Nat.negb_odd.
  destruct (vp_turn v), (Nat.odd n); reflexivity.
Qed.
Lemma over_lost m k v n w r : vwf k v -> vongoing v -> played n v w -> vp_game_state m w = Ret (GameOver r) ->
  is_win r = false /\ o_off (board_of w) = checkers k.
Proof.
  intros W O P E. pose proof (played_vwf W P) as Ww.
  pose proof (PropEnd.over_not m k w r Ww E) as F. pose proof (winner_moved k v n w W O P F) as X.
  pose proof (played_not_both k n v w W O P) as NB.
  destruct Ww as (q & -> & Wq). rewrite board_of_tag in *. rewrite vp_game_state_tag in E.
  destruct (game_state_outcome m Wq NB) as (s & Es & Os). rewrite Es in E. injection E as ->. split; [|exact X].
  unfold not_both_won in NB. inversion Os; subst; try reflexivity; lia.
Qed.

(** ** C92 *)

(** Right after a play [game_state], which speaks for the player to move, never reports a win: the game goes
    on, or the player to move has lost because the other one has just borne off his last checker. *)
Theorem C92_mover_wins : forall m k v d l w, vwf k v -> vongoing v -> valid_dice d ->
  legal_positions m v d = Ret l -> In w l ->
  exists s, vp_game_state m w = Ret s /\
  ((s = Ongoing /\ o_off (board_of w) < checkers k) \/
   exists r, s = GameOver r /\ is_win r = false /\ o_off (board_of w) = checkers k /\ x_off (board_of v) < checkers k).
Proof.
  intros m k v d l w W O V E I. destruct (@C01_legal_positions_exact m k v d W O V) as (l' & E' & H).
  rewrite E in E'. inversion E'; subst l'. apply H in I. pose proof (vlegal_vwf W V I) as Ww.
  assert (P : played 1 v w) by (econstructor; eauto; constructor).
  pose proof (played_not_both k 1 v w W O P) as NB.
  assert (X : exists s, vp_game_state m w = Ret s /\ (s = Ongoing -> o_off (board_of w) < checkers k)).
  { destruct Ww as (q & -> & Wq). rewrite board_of_tag in *. rewrite vp_game_state_tag.
    destruct (game_state_outcome m Wq NB) as (s & Es & Os). exists s. split; [exact Es|]. intros ->. inversion Os; auto. }
  destruct X as (s & Es & Hs). exists s. split; [exact Es|]. destruct s as [|r]; [left; auto|right].
  exists r. split; [reflexivity|]. destruct (over_lost m k v 1 w r W O P Es) as [A B]. split; [exact A|]. split; [exact B|].
  destruct W as (p & -> & W). rewrite board_of_tag. rewrite vongoing_tag in O. apply O.
Qed.

(** So the number of plies tells who won: in a game from the start the player to move at the end has lost, and
    the turn flag is [true] for the player who began; he has won exactly if the number of plies is odd. *)
Theorem C92_who_won : forall m k n w r, played n (start_position k) w -> vp_game_state m w = Ret (GameOver r) ->
  is_win r = false /\ vp_turn w = negb (Nat.odd n).
Proof.
  intros m k n w r P E. destruct (start_wf k) as [W O]. destruct (over_lost m k _ n w r W O P E) as [A _].
  split; [exact A|]. rewrite (played_turn k _ n w W P). replace (vp_turn (start_position k)) with true by (destruct k; reflexivity).
  destruct (Nat.odd n); reflexivity.
Qed.
(** The same for what episodes report, from any position. *)
Theorem C92_episode : forall {G S} m (D : dice_gen G) (P : policy S) max g dg ps n g' dg' ps',
  vwf (g_variant g) (g_position g) -> vongoing (g_position g) -> fair_gen D ->
  play_episode m D P max g dg ps = Ret (GOk n, g', dg', ps') ->
  vp_turn (g_position g') = xorb (vp_turn (g_position g)) (Nat.odd n) /\
  (game_state_of m g' = Ret Ongoing \/ exists r, game_state_of m g' = Ret (GameOver r) /\ is_win r = false).
Proof.
  intros G S m D P max g dg ps n g' dg' ps' W O F E.
  destruct (@C25_episode G S m D P max g dg ps W O F) as (r0 & g0 & dg0 & ps0 & E0 & Ev & H).
  rewrite E in E0. inversion E0; subst r0 g0 dg0 ps0. destruct H as (_ & _ & Pl & _).
  split; [exact (played_turn _ _ n _ W Pl)|].
  pose proof (played_not_both _ n _ _ W O Pl) as NB. pose proof (played_vwf W Pl) as Ww.
  assert (X : exists s, vp_game_state m (g_position g') = Ret s).
  { destruct Ww as (q & Eq & Wq). rewrite Eq in *. rewrite board_of_tag in NB. rewrite vp_game_state_tag.
    destruct (game_state_outcome m Wq NB) as (s & Es & _). eauto. }
  destruct X as ([|r] & Es); [left; exact Es|right]. exists r. split; [exact Es|].
  exact (proj1 (over_lost m _ _ n _ r W O Pl Es)).
Qed.

(** Each kind of end is possible in each variant, for the player who begins and for the other one. *)
Definition game_for (r : game_result) : variant -> bool -> line :=
  match r with LoseGammon => game_LoseGammon | LoseBackgammon => game_LoseBackgammon | _ => game_LoseNormal end.
Definition result_eqb (a b : game_result) : bool := value a =? value b.
Lemma result_eqb_eq a b : result_eqb a b = true -> a = b.
Proof. destruct a, b; cbn; intros; discriminate || reflexivity. Qed.
Definition check_game (k : variant) (first : bool) (r : game_result) : bool :=
  match follow (start_position k) (game_for r k first) with
  | Some (_, u) => match vp_game_state Debug u, vp_game_state Release u with
                   | Ret (GameOver a), Ret (GameOver b) => result_eqb a r && result_eqb b r | _, _ => false end
  | None => false
  end && opens (game_for r k first) && Bool.eqb (Nat.odd (length (game_for r k first))) first.
Lemma check_games k first r : is_win r = false -> check_game k first r = true.
Proof. destruct r; try discriminate; intros _; destruct k, first; vm_compute; reflexivity. Qed.

Theorem C92_all_results : forall k first r, is_win r = false ->
  exists ds ws n, Nat.odd n = first /\ forall m max, (n <= max)%nat -> exists g' dg',
    play_episode m mock_gen replaying max (game_new k) (mock_new ds) ws = Ret (GOk n, g', dg', []) /\
    game_state_of m g' = Ret (GameOver r).
Proof.
  intros k first r Hr. destruct (start_wf k) as [W O]. pose proof (check_games k first r Hr) as C. unfold check_game in C.
  destruct (follow (start_position k) (game_for r k first)) as [[l u]|] eqn:E; [|discriminate].
  apply andb_true_iff in C. destruct C as [C C3]. apply andb_true_iff in C. destruct C as [C1 C2].
  apply Bool.eqb_prop in C3. destruct (follow_recorded k _ _ _ _ W E) as (R & L & M & Wu).
  assert (Gs : forall m, vp_game_state m u = Ret (GameOver r)).
  { destruct (vp_game_state Debug u) as [[|a]|] eqn:Ea; try discriminate.
    destruct (vp_game_state Release u) as [[|b]|] eqn:Eb; try discriminate.
    apply andb_true_iff in C1. destruct C1 as [A B]. apply result_eqb_eq in A, B. subst a b. intros []; assumption. }
  pose proof (PropEnd.over_not Debug k u r Wu (Gs Debug)) as F.
  exists (map fst l), (map snd l), (length l). split; [rewrite L; exact C3|]. intros m max Hm.
  assert (NE : l <> []) by (intros ->; inversion R; subst; contradiction).
  destruct (C79_replay m k _ l u max W R (opens_opens _ _ C2 M) (or_intror (conj NE (conj Hm F)))) as (dg & Ee & _).
  exists {| g_variant := k; g_position := u |}, dg. split; [exact Ee|exact (Gs m)].
Qed.

(** A case: in the game of five plies of C90 (hypergammon, the player who begins wins) the other one is to move
    and has lost a backgammon. *)
Example C92_ex : exists w, played 5 (start_position Hypergammon) w /\ vp_game_state Debug w = Ret (GameOver LoseBackgammon) /\
  vp_turn w = false.
Proof.
  destruct (start_wf Hypergammon) as [W O].
  destruct (follow (start_position Hypergammon) (quick Hypergammon)) as [[l u]|] eqn:E; [|vm_compute in E; discriminate].
  destruct (follow_recorded Hypergammon _ _ _ _ W E) as (R & L & _). exists u. split.
  - change 5%nat with (length (quick Hypergammon)). rewrite <- L. exact (recorded_played _ _ _ R).
  - vm_compute in E. inversion E; subst. vm_compute. split; reflexivity.
Qed.
