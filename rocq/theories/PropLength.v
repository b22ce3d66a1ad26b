(** C75: how short a game can be. *)
From Verif Require Import SpecRace RaceFacts PropPosition PropMoves PropGame PropRace GameFacts VariantFacts.
From Coq Require Import Permutation.
Unset Implicit Arguments.
Open Scope Z_scope.

Lemma sumZ_perm l l' : Permutation l l' -> sumZ l = sumZ l'.
Proof. induction 1; cbn [sumZ fold_right] in *; unfold sumZ in *; lia. Qed.

Lemma used_24 d ds : valid_dice d -> uses d ds -> dice_sum ds <= 24.
Proof.
  intros V (rest & U). apply (Permutation_map Z.of_nat) in U. apply sumZ_perm in U.
  rewrite map_app in U. unfold dice_sum.
  assert (A : forall a b, sumZ (a ++ b) = sumZ a + sumZ b).
  { induction a as [|x a IH]; intros b; cbn [app sumZ fold_right]; [reflexivity|].
    specialize (IH b). unfold sumZ in *. lia. }
  rewrite A in U.
  assert (B : 0 <= sumZ (map Z.of_nat rest)).
  { apply sumZ_nonneg_nat. intros; lia. }
  destruct d as [b s|x]; cbn in U; unfold valid_dice, valid_die in V; lia.
Qed.

(** One ply: the mover comes at most 24 pips nearer, the opponent not at all. *)
Lemma ply_24 k v d w : vwf k v -> valid_dice d -> vlegal d v w ->
  x_pips (board_of v) - 24 <= o_pips (board_of w) /\ o_pips (board_of v) <= x_pips (board_of w).
Proof.
  intros (p & -> & W) V L. destruct (vlegal_wf _ W V L) as (r & -> & (ds & U & P & _) & Wr).
  rewrite !board_of_tag, o_pips_flip, x_pips_flip by apply Wr.
  destruct (plays_pips W (uses_valid V U) P) as (_ & A & _ & _ & _ & _ & _ & B).
  pose proof (used_24 d ds V U). split; [lia|]. rewrite B.
  assert (0 <= hit_distance p r); [|lia]. unfold hit_distance. apply sumZ_nonneg_nat.
  intros i _. unfold lost. destruct (_ && _); lia.
Qed.

(** ** C75 *)

(** Nobody comes nearer than 24 pips with a play: after [n] plies the side that moved first has made
    [(n+1)/2] of them and the other side [n/2]. *)
Theorem C75_pips_left : forall k v n w, vwf k v -> played n v w ->
  (if Nat.odd n then o_pips (board_of w) else x_pips (board_of w)) >= x_pips (board_of v) - 24 * Z.of_nat ((n + 1) / 2) /\
  (if Nat.odd n then x_pips (board_of w) else o_pips (board_of w)) >= o_pips (board_of v) - 24 * Z.of_nat (n / 2).
Proof.
  intros k v n w W P. induction P as [v|n v w u d O V L P IH].
  - cbn. lia.
  - destruct (ply_24 k v d w W V L) as [A B]. destruct (IH (vlegal_vwf W V L)) as [C D].
    rewrite Nat.odd_succ, <- Nat.negb_odd.
    replace (S n + 1)%nat with (n + 1 * 2)%nat by lia. rewrite Nat.div_add by lia.
    replace (S n) with (n + 1)%nat by lia.
    destruct (Nat.odd n); cbn [negb]; lia.
Qed.

Lemma finished_pips N p : wf N p -> o_off p = N -> o_pips p = 0.
Proof.
  intros W E. pose proof (wf_o W) as H. unfold o_checkers in H. rewrite E in H.
  assert (A : forall i, (i < 26)%nat -> 0 <= pt p i).
  { intros i Hi. pose proof (@wf_pt1_o N p i W Hi). lia. }
  unfold o_pips. assert (B : forall l, (forall i, In i l -> (i < 26)%nat) ->
    sumZ (map (fun i => (25 - Z.of_nat i) * Z.max 0 (- pt p i)) l) = 0).
  { induction l as [|i l IH]; cbn [map sumZ fold_right]; intros Hl; [reflexivity|].
    unfold sumZ in IH. rewrite IH by (intros; apply Hl; right; auto).
    pose proof (A i (Hl i (or_introl eq_refl))). replace (Z.max 0 (- pt p i)) with 0 by lia. lia. }
  apply B. intros i Hi. apply in_seq in Hi. lia.
Qed.

(** A game cannot end before its winner has had a play for every 24 pips. *)
Theorem C75_winner_needs : forall k v n w, vwf k v -> vongoing v -> played n v w -> ~ vongoing w ->
  if Nat.odd n then x_pips (board_of v) <= 24 * Z.of_nat ((n + 1) / 2)
  else o_pips (board_of v) <= 24 * Z.of_nat (n / 2).
Proof.
  intros k v n w W O P F. destruct (C75_pips_left k v n w W P) as [A B].
  assert (Z0 : o_pips (board_of w) = 0).
  { assert (H : o_off (board_of w) = checkers k).
    { clear A B. induction P as [v|n v w u d Ov V L P IH]; [contradiction|].
      pose proof (vlegal_vwf W V L) as Ww. destruct (over_dec Ww) as [Ow|Nw]; [auto|].
      inversion P; subst; [|contradiction].
      destruct W as (p & -> & W). rewrite vongoing_tag in O. pose proof (legal_not_both k W O V L) as X.
      destruct Ww as (q & -> & Wq). rewrite board_of_tag in *. rewrite vongoing_tag in Nw.
      pose proof (wf_off_bounds Wq). unfold ongoing in Nw. lia. }
    destruct (played_vwf W P) as (q & -> & Wq). rewrite board_of_tag in *. exact (finished_pips _ q Wq H). }
  destruct (Nat.odd n); lia.
Qed.

(** The fewest plies in which a game of each variant can end. *)
Definition shortest (k : variant) : nat :=
  match k with
  | Backgammon => 13 | Nackgammon => 17 | Longgammon => 29
  | Hypergammon2 => 3 | Hypergammon => 5 | Hypergammon4 => 7 | Hypergammon5 => 9
  end.
Theorem C75_shortest_games : forall k n w, played n (start_position k) w -> ~ vongoing w -> (shortest k <= n)%nat.
Proof.
  intros k n w P F. destruct (start_wf k) as [W O].
  pose proof (C75_winner_needs k _ n w W O P F) as H.
  assert (B : 24 * (Z.of_nat (shortest k) - 1) < 2 * x_pips (board_of (start_position k)) /\
    o_pips (board_of (start_position k)) = x_pips (board_of (start_position k)) /\ Z.odd (Z.of_nat (shortest k)) = true).
  { destruct k; vm_compute; repeat split; reflexivity. }
  destruct B as (B & Eo & Os). rewrite Eo in H. clear Eo P F W O.
  set (x := x_pips (board_of (start_position k))) in *. clearbody x.
  apply Z.odd_spec in Os. destruct Os as [i Os].
  pose proof (Nat.div_mod n 2 ltac:(lia)) as D2.
  destruct (Nat.odd n) eqn:Od.
  - apply Nat.odd_spec in Od. destruct Od as [j ->].
    replace (2 * j + 1 + 1)%nat with ((j + 1) * 2)%nat in H by lia. rewrite Nat.div_mul in H by lia. lia.
  - assert (Ev : Nat.even n = true) by (rewrite <- Nat.negb_odd, Od; reflexivity).
    apply Nat.even_spec in Ev. destruct Ev as [j ->].
    replace (2 * j)%nat with (j * 2)%nat in H by lia. rewrite Nat.div_mul in H by lia. lia.
Qed.

(** Episodes of a new game: an early end is never reported, nor a finished game left behind, before that. *)
Theorem C75_episode : forall {G S} m (D : dice_gen G) (P : policy S) k max dg ps r g' dg' ps', fair_gen D ->
  play_episode m D P max (game_new k) dg ps = Ret (r, g', dg', ps') ->
  (forall n, r = GOk n -> (n < max)%nat -> (shortest k <= n)%nat) /\
  ((max < shortest k)%nat -> vongoing (g_position g')).
Proof.
  intros G S m D P k max dg ps r g' dg' ps' F E. destruct (start_wf k) as [W O].
  destruct (@C25_episode G S m D P max (game_new k) dg ps W O F) as (r0 & g0 & dg0 & ps0 & E0 & Ev & H).
  rewrite E in E0. inversion E0; subst r0 g0 dg0 ps0. cbn [game_new g_position g_variant] in *. split.
  - intros n -> L. destruct H as (_ & _ & Pl & Fin). exact (C75_shortest_games k n _ Pl (Fin L)).
  - intros L. destruct r as [n|e].
    + destruct H as (Le & _ & Pl & _). destruct (over_dec (played_vwf W Pl)) as [|N]; auto. exfalso.
      pose proof (C75_shortest_games k n _ Pl N). lia.
    + destruct H as (_ & j & dg1 & ps1 & J & _ & Pl & _). destruct (over_dec (played_vwf W Pl)) as [|N]; auto. exfalso.
      pose proof (C75_shortest_games k j _ Pl N). lia.
Qed.

(** Two checkers: the mover wins with two double sixes while the opponent, between them, plays 2-1. *)
Definition ex_short : list vpos :=
  match legal_positions Debug (start_position Hypergammon2) (Double 6) with
  | Ret l => flat_map (fun v => match legal_positions Debug v (Mixed 2 1) with
      | Ret l => flat_map (fun v => match legal_positions Debug v (Double 6) with Ret l => l | _ => [] end) l | _ => [] end) l
  | _ => [] end.
Example C75_ex : existsb (fun v => o_off (board_of v) =? 2) ex_short = true.
Proof. vm_compute. reflexivity. Qed.
