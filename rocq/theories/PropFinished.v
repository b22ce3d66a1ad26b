(** Properties C24, C25 and C49 on finished games: what a release build does there.  Read with
    SpecVariants.v, SpecGame.v, SpecEpisode.v. *)
From Verif Require Import PropGame GameFacts VariantFacts PropMoves PropPerft PerftFacts MoveFacts FlipFacts.
Unset Implicit Arguments.
Open Scope Z_scope.

Lemma plays_off : forall ds p r, plays ds p r -> x_off p <= x_off r /\ o_off r = o_off p.
Proof.
  induction 1 as [|d ds p from q r M V P IH]; [lia|].
  pose proof (mvd_xoff V). pose proof (mvd_ooff V). destruct (from <=? d)%nat; lia.
Qed.
Lemma legal_tags : forall d k p w, vlegal d (tag k p) w ->
  exists q r, w = tag k q /\ legal_result d p r /\ mirrored r q.
Proof.
  intros d k p w (k' & p' & q & r & E & -> & L & M).
  assert (k = k' /\ p = p') as (-> & ->); [|eauto].
  destruct k, k'; cbn in E; try discriminate; inversion E; auto.
Qed.

(** ** C49: variants *)

(** In a release build the list of any position, finished or not, is not empty and holds exactly the
    results of the legal plays. *)
Theorem C49_release_variants : forall k v d, vwf k v -> valid_dice d ->
  exists l, legal_positions Release v d = Ret l /\ l <> [] /\ forall w, In w l <-> vlegal d v w.
Proof.
  intros k v d (p & -> & W) V. destruct (C49_release_any_position d W V) as (l & E & N & H).
  exists (map (tag k) l). unfold legal_positions. rewrite classic_rules_tag.
  unfold classic_positions in E. rewrite E, bind_ret. split; [reflexivity|].
  split; [destruct l; [congruence|discriminate]|]. intros w. rewrite in_map_iff. split.
  - intros (q & <- & I). apply H in I. destruct I as (r & L & M). exists k, p, q, r. auto.
  - intros L. apply legal_tags in L. destruct L as (q & r & -> & L & M). exists q. split; auto. apply H. eauto.
Qed.

(** A finished game stays finished whatever is played. *)
Theorem C49_stays_finished : forall k v d w, vwf k v -> ~ vongoing v -> valid_dice d -> vlegal d v w -> ~ vongoing w.
Proof.
  intros k v d w Wv O V L Ow. pose proof (vlegal_vwf Wv V L) as (q' & Eq & Wq).
  destruct Wv as (p & -> & W). apply legal_tags in L. destruct L as (q & r & -> & (ds & _ & P & _) & M).
  assert (q' = q) as -> by (apply (f_equal board_of) in Eq; rewrite !board_of_tag in Eq; auto).
  rewrite vongoing_tag in *. destruct (plays_off ds p r P) as (A & B). destruct M as (_ & C & D & _).
  apply O. unfold ongoing in *. pose proof (wf_off_bounds W). lia.
Qed.

Lemma release_over : forall k w, vwf k w -> ~ vongoing w -> exists r, vp_game_state Release w = Ret (GameOver r).
Proof.
  intros k w (q & -> & W) O. rewrite vongoing_tag in O. rewrite vp_game_state_tag.
  unfold game_state. cbn [debug_assert bind]. pose proof (wf_off_bounds W). unfold ongoing in O.
  destruct (Z.eqb_spec (x_off q) (checkers k)).
  - destruct (0 <? o_off q); [eauto|]. destruct (existsb _ _); eauto.
  - destruct (Z.eqb_spec (o_off q) (checkers k)); [|lia].
    destruct (0 <? x_off q); [eauto|]. destruct (existsb _ _); eauto.
Qed.

(** ** C24 *)

(** In a release build [apply_nth_legal_position] works on finished games as on others; the game stays
    finished. *)
Theorem C49_apply_nth : forall g d i, vwf (g_variant g) (g_position g) -> ~ vongoing (g_position g) -> valid_dice d ->
  exists l, game_legal_positions Release g d = Ret l /\ l <> [] /\
  (forall w, nth_error l i = Some w -> apply_nth_legal_position Release g d i
     = Ret (GOk tt, {| g_variant := g_variant g; g_position := w |}) /\ vlegal d (g_position g) w /\ ~ vongoing w) /\
  ((length l <= i)%nat -> apply_nth_legal_position Release g d i = Ret (GErr LegalMoveIndexOutOfBounds, g)).
Proof.
  intros g d i W O V. destruct (C49_release_variants _ _ d W V) as (l & E & N & H).
  exists l. split; [exact E|]. split; [exact N|].
  destruct (@C24_apply_nth (classic_rules Release) g d i l E) as (r & g' & Ea & Ev & Ok & Er).
  assert (Ex : apply_nth_legal_position Release g d i = Ret (r, g')) by exact Ea.
  split.
  - intros w Nw. assert (I : (i < length l)%nat) by (apply nth_error_Some; congruence).
    destruct (Ok I) as (-> & Nw'). rewrite Ex. assert (g_position g' = w) by congruence.
    split; [destruct g' as [a b]; cbn in *; subst; reflexivity|].
    assert (L : vlegal d (g_position g) w) by (apply H; eapply nth_error_In; eauto).
    split; [exact L|]. exact (C49_stays_finished _ _ _ _ W O V L).
  - intros I. destruct (Er I) as (-> & ->). exact Ex.
Qed.

(** ** C25 *)

(** An episode (of at least one ply) started on a finished game in a release build plays on for exactly
    one ply: the policy chooses from a non-empty list of legal plays, [Ok(1)] is returned and the game is
    (still) over - or the policy points outside the list and the game is unchanged. *)
Theorem C25_finished_release : forall {G S} (D : dice_gen G) (P : policy S) max g dg ps,
  vwf (g_variant g) (g_position g) -> ~ vongoing (g_position g) -> fair_gen D -> (0 < max)%nat ->
  exists d dg' l i ps', gen_roll_mixed D dg = Ret (d, dg') /\ valid_dice d /\
    l <> [] /\ (forall w, In w l <-> vlegal d (g_position g) w) /\ P ps (g_position g) d l = (i, ps') /\
    ((length l <= i)%nat -> play_episode Release D P max g dg ps = Ret (GErr PolicyIndexOutOfBounds, g, dg', ps')) /\
    (forall w, nth_error l i = Some w ->
       play_episode Release D P max g dg ps = Ret (GOk 1%nat, {| g_variant := g_variant g; g_position := w |}, dg', ps') /\
       ~ vongoing w).
Proof.
  intros G S D P max g dg ps W O (_ & F) T. destruct (F dg) as (d & dg' & Ed & V & _).
  destruct (C49_release_variants _ _ d W V) as (l & E & N & H).
  destruct (P ps (g_position g) d l) as (i, ps') eqn:EP.
  exists d, dg', l, i, ps'. do 5 (split; [assumption || reflexivity|]).
  unfold play_episode, play_episode_with. destruct max as [|todo]; [lia|]. cbn [episode_loop Nat.eqb].
  rewrite Nat.eqb_refl, Ed, bind_ret. unfold game_legal_positions_with. change (classic_rules Release (g_position g) d) with (legal_positions Release (g_position g) d).
  rewrite E, bind_ret. destruct l as [|w0 l0] eqn:El; [congruence|]. rewrite <- El in *. rewrite EP. split.
  - intros I. destruct (Nat.leb_spec (length l) i); [reflexivity|lia].
  - intros w Nw. assert (I : (i < length l)%nat) by (apply nth_error_Some; congruence).
    destruct (Nat.leb_spec (length l) i); [lia|]. unfold index. rewrite Nw, bind_ret. cbn [g_position].
    assert (L : vlegal d (g_position g) w) by (apply H; eapply nth_error_In; eauto).
    pose proof (C49_stays_finished _ _ _ _ W O V L) as Ow.
    destruct (release_over _ w (vlegal_vwf W V L) Ow) as (r & ->). rewrite bind_ret. split; [reflexivity|exact Ow].
Qed.
(** A case: C25_finished_case above; the loser moves on and the episode reports one ply. *)
Example C25_finished_release_ex : exists g, play_episode Release const_gen first_policy 100
   {| g_variant := Hypergammon; g_position := VHypergammon ex_finished |} tt tt = Ret (GOk 1%nat, g, tt, tt).
Proof. eexists. vm_compute. reflexivity. Qed.
