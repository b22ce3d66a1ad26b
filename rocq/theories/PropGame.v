(** Properties C23 - C26: games, episodes, NoHitRules.
    Read with SpecGame.v and SpecEpisode.v. *)
From Verif Require Import GameFacts.
Open Scope Z_scope.

Definition consistent (g : game) : Prop := vwf (g_variant g) (g_position g).

Lemma consistent_apply m R g d i r g' : rule_set m R -> valid_dice d -> consistent g ->
  apply_nth_with R g d i = Ret (r, g') -> consistent g' /\ g_variant g' = g_variant g.
Proof.
  intros RS V C H. unfold apply_nth_with in H. apply bind_inv in H. destruct H as (l & E & H).
  destruct (Nat.leb_spec (length l) i); [inversion H; subst; auto|].
  apply bind_inv in H. destruct H as (p & E' & H). inversion H; subst. split; auto.
  unfold consistent. simpl. unfold index in E'. destruct (nth_error l i) eqn:E''; [|discriminate].
  inversion E'; subst. apply nth_error_In in E''.
  exact (vlegal_vwf C V (rules_any d RS C V E p E'')).
Qed.

Lemma episode_consistent m R G S (D : dice_gen G) (P : policy S) max : rule_set m R -> fair_gen D ->
  forall todo ply g dg ps r g' dg' ps', consistent g ->
  episode_loop m R D P max todo ply g dg ps = Ret (r, g', dg', ps') ->
  consistent g' /\ g_variant g' = g_variant g.
Proof.
  intros RS (F1 & F2). induction todo as [|todo IH]; simpl; intros ply g dg ps r g' dg' ps' C H.
  { inversion H; subst; auto. }
  apply bind_inv in H. destruct H as ([d dg1] & E & H).
  assert (V : valid_dice d).
  { destruct (ply =? 0)%nat.
    - destruct (F2 dg) as (d0 & g0 & E0 & V & _). congruence.
    - destruct (F1 dg) as (d0 & g0 & E0 & V). congruence. }
  apply bind_inv in H. destruct H as (l & E1 & H). unfold game_legal_positions_with in E1.
  destruct l as [|w0 l0]; [inversion H; subst; auto|]. set (l := w0 :: l0) in *.
  destruct (P ps (g_position g) d l) as [i ps1].
  destruct (Nat.leb_spec (length l) i); [inversion H; subst; auto|].
  apply bind_inv in H. destruct H as (p & E2 & H).
  unfold index in E2. destruct (nth_error l i) eqn:E3; [|discriminate]. inversion E2; subst v.
  apply nth_error_In in E3.
  assert (C' : consistent {| g_variant := g_variant g; g_position := p |}).
  { unfold consistent; simpl. exact (vlegal_vwf C V (rules_any d RS C V E1 p E3)). }
  apply bind_inv in H. destruct H as (gs & _ & H). destruct gs.
  - apply IH in H; auto.
  - inversion H; subst; auto.
Qed.

(** ** C23 *)

(** Whatever sequence of calls a program makes, the game's position is a well-formed position of
    the game's variant, and the variant never changes. *)
Theorem C23_reachable_consistent : forall m g, reachable m g -> vwf (g_variant g) (g_position g).
Proof.
  intros m g H. induction H as [v|g g' H IH C].
  - unfold game_new; simpl. destruct v; (eexists; split; [reflexivity|]);
      (constructor; vm_compute; try reflexivity; try (split; intro; discriminate); intro; discriminate).
  - destruct C as [g p r g' W E| g | R g d i r g' RS V E | R G S D P n g dg ps r g' dg' ps' RS F E].
    + unfold set_position in E. destruct (negb (variant_eqb (vp_variant p) (g_variant g))) eqn:B.
      * inversion E; subst; auto.
      * inversion E; subst; simpl. apply negb_false_iff, variant_eqb_eq in B. rewrite <- B; auto.
    + unfold reset; simpl. destruct (g_variant g); (eexists; split; [reflexivity|]);
      (constructor; vm_compute; try reflexivity; try (split; intro; discriminate); intro; discriminate).
    + exact (proj1 (@consistent_apply m R g d i r g' RS V IH E)).
    + apply (@episode_consistent m R G S D P n RS F n 0 g dg ps r g' dg' ps' IH E).
Qed.

Theorem C23_variant_fixed : forall m g g', reachable m g -> call m g g' -> g_variant g' = g_variant g.
Proof.
  intros m g g' H C. pose proof (C23_reachable_consistent H) as IH.
  destruct C as [g p r g' W E| g | R g d i r g' RS V E | R G S D P n g dg ps r g' dg' ps' RS F E].
  - unfold set_position in E. destruct (negb (variant_eqb (vp_variant p) (g_variant g))); inversion E; auto.
  - reflexivity.
  - exact (proj2 (@consistent_apply m R g d i r g' RS V IH E)).
  - apply (@episode_consistent m R G S D P n RS F n 0 g dg ps r g' dg' ps' IH E).
Qed.

(** Non-vacuity: a reachable game away from the start position, and a fair dice source. *)
Definition const_gen : dice_gen unit :=
  {| gen_roll := fun g => Ret (Double 3, g); gen_roll_mixed := fun g => Ret (Mixed 6 1, g) |}.
Example const_gen_fair : fair_gen const_gen.
Proof.
  split; intros g; simpl; eexists; eexists; (split; [reflexivity|]);
    simpl; unfold valid_die; repeat split; eauto; lia.
Qed.
Example C23_example : exists g, reachable Debug g /\ g_variant g = Hypergammon /\
  g_position g <> start_position Hypergammon.
Proof.
  destruct (apply_nth_with (classic_rules Debug) (game_new Hypergammon) (Mixed 6 1) 0) as [[r g]|] eqn:E;
    [|vm_compute in E; discriminate].
  exists g. split; [|vm_compute in E; inversion E; subst; split; [reflexivity|discriminate]].
  eapply reach_call; [apply (reach_new Debug Hypergammon)|].
  eapply call_apply; [apply rs_classic| |exact E]. simpl; unfold valid_die; lia.
Qed.

(** ** C24 *)

(** For any rule set [R] and whatever positions it lists: [apply_nth_legal_position_with] succeeds
    exactly when the index is below the length of the list, and then installs that position; in
    the other case the game is unchanged. *)
Theorem C24_apply_nth : forall (R : rules) g d i l, game_legal_positions_with R g d = Ret l ->
  exists r g', apply_nth_with R g d i = Ret (r, g') /\ g_variant g' = g_variant g /\
  ((i < length l)%nat -> r = GOk tt /\ nth_error l i = Some (g_position g')) /\
  ((length l <= i)%nat -> r = GErr LegalMoveIndexOutOfBounds /\ g' = g).
Proof.
  intros R g d i l E. unfold apply_nth_with. rewrite E, bind_ret.
  destruct (Nat.leb_spec (length l) i).
  - exists (GErr LegalMoveIndexOutOfBounds), g. do 2 (split; auto). split; [lia|auto].
  - unfold index. destruct (nth_error l i) eqn:N; [|apply nth_error_None in N; lia].
    rewrite bind_ret. eexists; eexists; split; [reflexivity|]. split; auto. split; [auto|lia].
Qed.

(** Under the classic rules on a consistent ongoing game it never panics, and the new
    position is a legal play. *)
Theorem C24_apply_nth_classic : forall m g d i,
  vwf (g_variant g) (g_position g) -> vongoing (g_position g) -> valid_dice d ->
  exists l r g', game_legal_positions m g d = Ret l /\ apply_nth_legal_position m g d i = Ret (r, g') /\
  ((exists u, r = GOk u) <-> (i < length l)%nat) /\
  (r = GOk tt -> nth_error l i = Some (g_position g') /\ vlegal d (g_position g) (g_position g') /\
                 g_variant g' = g_variant g) /\
  (forall e, r = GErr e -> g' = g /\ e = LegalMoveIndexOutOfBounds).
Proof.
  intros m g d i W O V. destruct (legal_positions_correct m d W O V) as (l & E & _ & H).
  assert (E' : game_legal_positions_with (classic_rules m) g d = Ret l) by exact E.
  destruct (C24_apply_nth _ _ _ i E') as (r & g' & A & A0 & A1 & A2).
  exists l, r, g'. split; [exact E|]. split; [exact A|].
  destruct (le_lt_dec (length l) i) as [L|L].
  - destruct (A2 L) as (-> & ->). split; [split; [intros (u & X); discriminate|lia]|].
    split; [discriminate|]. intros e X. inversion X; auto.
  - destruct (A1 L) as (-> & N). split; [split; eauto|]. split; [|discriminate].
    intros _. split; auto. split; auto. apply H. eapply nth_error_In; eauto.
Qed.
Example C24_case :
  (exists l, game_legal_positions Debug (game_new Hypergammon) (Mixed 6 1) = Ret l /\ length l = 7%nat) /\
  (exists g, apply_nth_legal_position Debug (game_new Hypergammon) (Mixed 6 1) 6 = Ret (GOk tt, g) /\
             g_position g <> start_position Hypergammon) /\
  apply_nth_legal_position Debug (game_new Hypergammon) (Mixed 6 1) 7
    = Ret (GErr LegalMoveIndexOutOfBounds, game_new Hypergammon).
Proof.
  split; [eexists; split; vm_compute; reflexivity|].
  split; [eexists; split; [vm_compute; reflexivity|discriminate]|]. vm_compute. reflexivity.
Qed.

(** [set_position] succeeds exactly for positions of the game's variant, and otherwise changes
    nothing. *)
Theorem C24_set_position : forall g p,
  (vp_variant p = g_variant g ->
     set_position g p = (GOk tt, {| g_variant := g_variant g; g_position := p |})) /\
  (vp_variant p <> g_variant g -> set_position g p = (GErr VariantMismatch, g)).
Proof.
  intros g p. unfold set_position. split; intros H.
  - apply variant_eqb_eq in H. rewrite H. reflexivity.
  - destruct (variant_eqb (vp_variant p) (g_variant g)) eqn:E; auto.
    apply variant_eqb_eq in E. contradiction.
Qed.
Example C24_set_case :
  set_position (game_new Hypergammon) (start_position Backgammon) = (GErr VariantMismatch, game_new Hypergammon) /\
  fst (set_position (game_new Hypergammon) (start_position Hypergammon)) = GOk tt.
Proof. split; reflexivity. Qed.

(** ** C25 *)

Section Episodes.
  Context {G S : Type} (m : mode) (R : rules) (D : dice_gen G) (P : policy S) (k : variant).
  (** The rule set lists only legal plays and never panics on ongoing positions. *)
  Hypothesis HR : forall v d, vwf k v -> vongoing v -> valid_dice d ->
    exists l, R v d = Ret l /\ forall w, In w l -> vlegal d v w.
  Hypothesis HD : fair_gen D.

  Lemma over_dec v : vwf k v -> vongoing v \/ ~ vongoing v.
  Proof.
    intros (p & -> & W). rewrite vongoing_tag. unfold ongoing. lia.
  Qed.

  Lemma episode_spec max : forall todo ply g dg ps,
    (todo + ply = max)%nat -> g_variant g = k -> vwf k (g_position g) ->
    (todo <> 0%nat -> vongoing (g_position g)) ->
    exists r g' dg' ps', episode_loop m R D P max todo ply g dg ps = Ret (r, g', dg', ps') /\
    g_variant g' = k /\
    match r with
    | GOk n => exists j dg1, n = (ply + j)%nat /\ (j <= todo)%nat /\
        plies R D P ply (g_position g, dg, ps) j (g_position g', dg1, ps') /\
        (j = todo /\ dg' = dg1 \/
         (0 < j)%nat /\ dg' = dg1 /\ ~ vongoing (g_position g') \/
         (j < todo)%nat /\ vongoing (g_position g') /\ no_moves R D (ply + j) (g_position g') dg1 dg')
    | GErr e => e = PolicyIndexOutOfBounds /\ exists j dg1 ps1, (j < todo)%nat /\
        plies R D P ply (g_position g, dg, ps) j (g_position g', dg1, ps1) /\
        vongoing (g_position g') /\
        policy_fails R D P (ply + j) (g_position g', dg1, ps1) dg' ps'
    end.
  Proof.
    induction todo as [|todo IH]; simpl; intros ply g dg ps T K W O.
    { exists (GOk max), g, dg, ps. split; auto. split; auto. exists 0%nat, dg.
      split; [lia|]. split; [lia|]. split; [constructor|left; auto]. }
    specialize (O ltac:(lia)).
    assert (Dice : exists d dg1, (if (ply =? 0)%nat then gen_roll_mixed D dg else gen_roll D dg) = Ret (d, dg1)
              /\ valid_dice d).
    { destruct HD as (F1 & F2). destruct (ply =? 0)%nat.
      - destruct (F2 dg) as (d & g1 & E & V & _). eauto.
      - destruct (F1 dg) as (d & g1 & E & V). eauto. }
    destruct Dice as (d & dg1 & ED & V). rewrite ED, bind_ret.
    destruct (HR d W O V) as (l & EL & HL). unfold game_legal_positions_with. rewrite EL, bind_ret.
    destruct l as [|w0 l0].
    { exists (GOk ply), g, dg1, ps. split; auto. split; auto. exists 0%nat, dg.
      split; [lia|]. split; [lia|]. split; [constructor|]. right. right. split; [lia|]. split; auto.
      exists d. rewrite Nat.add_0_r. auto. }
    set (l := w0 :: l0) in *. destruct (P ps (g_position g) d l) as [i ps1] eqn:EP.
    destruct (Nat.leb_spec (length l) i) as [L|L].
    { exists (GErr PolicyIndexOutOfBounds), g, dg1, ps1. split; auto. split; auto. split; auto.
      exists 0%nat, dg, ps. split; [lia|]. split; [constructor|]. split; auto.
      exists d, l, i. rewrite Nat.add_0_r. repeat (split; auto). discriminate. }
    unfold index. destruct (nth_error l i) as [w|] eqn:EN; [|apply nth_error_None in EN; lia].
    rewrite bind_ret. cbn [g_position].
    pose proof (HL w (nth_error_In _ _ EN)) as LW.
    pose proof (vlegal_vwf W V LW) as Ww.
    assert (NB : not_both_won (checkers k) (board_of w)).
    { destruct W as (p & EW & Wp). rewrite EW in *. left. rewrite vongoing_tag in O. exact (legal_not_both k Wp O V LW). }
    destruct Ww as (q & Eq & Wq). rewrite Eq in NB. rewrite board_of_tag in NB.
    replace (vp_game_state m w) with (game_state m (checkers k) q) by (rewrite Eq, vp_game_state_tag; auto).
    destruct (game_state_outcome m Wq NB) as (s & Es & Os). rewrite Es, bind_ret.
    destruct s as [|res].
    - assert (Ow : vongoing w) by (rewrite Eq, vongoing_tag; inversion Os; split; auto).
      destruct (IH (ply + 1)%nat {| g_variant := g_variant g; g_position := w |} dg1 ps1
                   ltac:(lia) K ltac:(exists q; auto) ltac:(auto))
        as (r & g' & dg' & ps' & E & Kg & Hr).
      exists r, g', dg', ps'. split; auto. split; auto. destruct r as [n|e].
      + destruct Hr as (j & dg2 & -> & J & Pl & C). exists (Datatypes.S j), dg2.
        split; [lia|]. split; [lia|]. split; [eapply plies_S; eauto|].
        replace (ply + Datatypes.S j)%nat with (ply + 1 + j)%nat by lia.
        destruct C as [(C1 & C2)|[(C1 & C2 & C3)|(C1 & C2)]];
          [left; split; auto|right; left; split; [lia|auto]|right; right; split; [lia|auto]].
      + destruct Hr as (-> & j & dg2 & ps2 & J & Pl & C1 & C2). split; auto.
        exists (Datatypes.S j), dg2, ps2. split; [lia|]. split; [eapply plies_S; eauto|]. split; auto.
        replace (ply + Datatypes.S j)%nat with (ply + 1 + j)%nat by lia. auto.
    - exists (GOk (ply + 1)%nat), {| g_variant := g_variant g; g_position := w |}, dg1, ps1.
      split; auto. split; auto. exists 1%nat, dg1. split; [lia|]. split; [lia|].
      split; [eapply plies_S; eauto; constructor|]. right. left. split; [lia|]. split; auto.
      simpl. rewrite Eq, vongoing_tag. intros (O1 & O2). inversion Os; lia.
  Qed.

  Lemma plies_played : forall ply s n s', plies R D P ply s n s' -> vwf k (fst (fst s)) ->
    played n (fst (fst s)) (fst (fst s')).
  Proof.
    induction 1 as [|ply v dg ps d dg1 l i ps1 w n s' O ED EL EP EN H IH]; intros W; simpl in *.
    - constructor.
    - assert (V : valid_dice d).
      { destruct HD as (F1 & F2). destruct (ply =? 0)%nat.
        - destruct (F2 dg) as (d0 & g0 & E0 & V & _). congruence.
        - destruct (F1 dg) as (d0 & g0 & E0 & V). congruence. }
      destruct (HR d W O V) as (l' & EL' & HL). rewrite EL in EL'. inversion EL'; subst l'.
      pose proof (HL w (nth_error_In _ _ EN)) as LW.
      eapply played_S; eauto. apply IH. exact (vlegal_vwf W V LW).
  Qed.
End Episodes.

(** Classic rules, any policy, any fair dice source, any length: the call returns (no panic).
    [Ok(n)]: exactly [n <= max] legal plays were made, chosen by the policy from the listed
    positions with the rolled dice, each of them from an ongoing position; the loop stopped
    early only because the game is over.
    [Err]: the policy pointed outside the list, after some [j < max] such plays, and the game
    stays where it was then. *)
Theorem C25_episode : forall {G S} m (D : dice_gen G) (P : policy S) max g dg ps,
  vwf (g_variant g) (g_position g) -> vongoing (g_position g) -> fair_gen D ->
  exists r g' dg' ps', play_episode m D P max g dg ps = Ret (r, g', dg', ps') /\
  g_variant g' = g_variant g /\
  match r with
  | GOk n => (n <= max)%nat /\
      plies (classic_rules m) D P 0 (g_position g, dg, ps) n (g_position g', dg', ps') /\
      played n (g_position g) (g_position g') /\
      ((n < max)%nat -> ~ vongoing (g_position g'))
  | GErr e => e = PolicyIndexOutOfBounds /\ exists j dg1 ps1, (j < max)%nat /\
      plies (classic_rules m) D P 0 (g_position g, dg, ps) j (g_position g', dg1, ps1) /\
      played j (g_position g) (g_position g') /\
      policy_fails (classic_rules m) D P j (g_position g', dg1, ps1) dg' ps'
  end.
Proof.
  intros G S m D P max g dg ps W O F.
  assert (HR : forall v d, vwf (g_variant g) v -> vongoing v -> valid_dice d ->
    exists l, classic_rules m v d = Ret l /\ forall w, In w l -> vlegal d v w).
  { intros v d Wv Ov V. destruct (legal_positions_correct m d Wv Ov V) as (l & E & _ & H).
    exists l. split; auto. intros w I; apply H; auto. }
  destruct (@episode_spec G S m (classic_rules m) D P (g_variant g) HR F max max 0 g dg ps
              ltac:(lia) eq_refl W ltac:(auto)) as (r & g' & dg' & ps' & E & K & H).
  exists r, g', dg', ps'. split; [exact E|]. split; auto. destruct r as [n|e].
  - destruct H as (j & dg1 & -> & J & Pl & C). simpl (0 + j)%nat in *. split; auto.
    destruct C as [(C1 & ->)|[(C1 & -> & C2)|(C1 & C2 & C3)]].
    + split; auto. split; [exact (plies_played HR F Pl W)|]. lia.
    + split; auto. split; [exact (plies_played HR F Pl W)|]. auto.
    + exfalso. destruct C3 as (d & ED & EL).
      assert (V : valid_dice d).
      { destruct F as (F1 & F2). destruct (j =? 0)%nat.
        - destruct (F2 dg1) as (d0 & g0 & E0 & V & _). congruence.
        - destruct (F1 dg1) as (d0 & g0 & E0 & V). congruence. }
      assert (Wg : vwf (g_variant g) (g_position g')).
      { eapply played_vwf; [exact W|exact (plies_played HR F Pl W)]. }
      destruct (legal_positions_correct m d Wg C2 V) as (l & E' & Hn & _).
      unfold legal_positions in E'. congruence.
  - destruct H as (-> & j & dg1 & ps1 & J & Pl & C1 & C2). simpl (0 + j)%nat in *. split; auto.
    exists j, dg1, ps1. split; auto. split; auto. split; auto. exact (plies_played HR F Pl W).
Qed.
(** Cases: from the start position, always taking the first listed position, an episode of at
    most five plies makes all five; from a bear-off it stops after the third ply, the game being
    over; a policy that points past the list is an error and the game stays. *)
Definition first_policy : policy unit := fun s _ _ _ => (0%nat, s).
Definition wild_policy : policy unit := fun s _ _ l => (length l, s).
Definition ex_bearoff : position :=
  {| turn := true;
     pips := [0; 0; 0; 2; 0; 0; 0; 0; 0; 0; 0; -1; 0; 0; 0; 0; 0; 0; 0; 0; -2; 0; 0; 0; 0; 0];
     x_off := 1; o_off := 0 |}.
Example C25_case :
  (exists g, play_episode Debug const_gen first_policy 5 (game_new Hypergammon) tt tt
             = Ret (GOk 5%nat, g, tt, tt)) /\
  (vwf Hypergammon (VHypergammon ex_bearoff) /\ vongoing (VHypergammon ex_bearoff) /\
   exists g, play_episode Debug const_gen first_policy 100
               {| g_variant := Hypergammon; g_position := VHypergammon ex_bearoff |} tt tt
             = Ret (GOk 3%nat, g, tt, tt) /\ x_off (board_of (g_position g)) = 0 /\
             o_off (board_of (g_position g)) = 3) /\
  play_episode Debug const_gen wild_policy 5 (game_new Hypergammon) tt tt
    = Ret (GErr PolicyIndexOutOfBounds, game_new Hypergammon, tt, tt).
Proof.
  split; [eexists; vm_compute; reflexivity|]. split.
  - split; [exists ex_bearoff; split; [reflexivity|constructor; vm_compute; intuition discriminate]|].
    split; [exists Hypergammon, ex_bearoff; split; [reflexivity|vm_compute; auto]|].
    eexists. split; [vm_compute; reflexivity|]. vm_compute. auto.
  - vm_compute. reflexivity.
Qed.

(** Any rule set, the library's or a user's own, that never panics on an ongoing position and lists only legal plays: the
    same, except that an episode may also stop because the rule set lists nothing for the roll. *)
Theorem C25_episode_any_rules : forall {G S} m (R : rules) (D : dice_gen G) (P : policy S) max g dg ps,
  (forall v d, vwf (g_variant g) v -> vongoing v -> valid_dice d -> exists l, R v d = Ret l /\ forall w, In w l -> vlegal d v w) ->
  vwf (g_variant g) (g_position g) -> vongoing (g_position g) -> fair_gen D ->
  exists r g' dg' ps', play_episode_with m R D P max g dg ps = Ret (r, g', dg', ps') /\
  g_variant g' = g_variant g /\
  match r with
  | GOk n => (n <= max)%nat /\ exists dg1, plies R D P 0 (g_position g, dg, ps) n (g_position g', dg1, ps') /\
      played n (g_position g) (g_position g') /\
      (n = max /\ dg' = dg1 \/ ~ vongoing (g_position g') /\ dg' = dg1 \/
       (n < max)%nat /\ vongoing (g_position g') /\ no_moves R D n (g_position g') dg1 dg')
  | GErr e => e = PolicyIndexOutOfBounds /\ exists j dg1 ps1, (j < max)%nat /\
      plies R D P 0 (g_position g, dg, ps) j (g_position g', dg1, ps1) /\
      played j (g_position g) (g_position g') /\
      policy_fails R D P j (g_position g', dg1, ps1) dg' ps'
  end.
Proof.
  intros G S m R D P max g dg ps HR W O F.
  destruct (@episode_spec G S m R D P (g_variant g) HR F max max 0 g dg ps
              ltac:(lia) eq_refl W ltac:(auto)) as (r & g' & dg' & ps' & E & K & H).
  exists r, g', dg', ps'. split; [exact E|]. split; auto. destruct r as [n|e].
  - destruct H as (j & dg1 & -> & J & Pl & C). simpl (0 + j)%nat in *. split; auto. exists dg1.
    split; [exact Pl|]. split; [exact (plies_played HR F Pl W)|].
    destruct C as [(C1 & C2)|[(C1 & C2 & C3)|(C1 & C2 & C3)]]; auto.
  - destruct H as (-> & j & dg1 & ps1 & J & Pl & C1 & C2). simpl (0 + j)%nat in *. split; auto.
    exists j, dg1, ps1. split; auto. split; auto. split; auto. exact (plies_played HR F Pl W).
Qed.

(** In particular under NoHitRules. *)
Theorem C25_episode_no_hit : forall {G S} m (D : dice_gen G) (P : policy S) max g dg ps,
  vwf (g_variant g) (g_position g) -> vongoing (g_position g) -> fair_gen D ->
  exists r g' dg' ps', play_episode_with m (no_hit_rules m) D P max g dg ps = Ret (r, g', dg', ps') /\
  g_variant g' = g_variant g /\
  match r with
  | GOk n => (n <= max)%nat /\ exists dg1, plies (no_hit_rules m) D P 0 (g_position g, dg, ps) n (g_position g', dg1, ps') /\
      played n (g_position g) (g_position g') /\
      (n = max /\ dg' = dg1 \/ ~ vongoing (g_position g') /\ dg' = dg1 \/
       (n < max)%nat /\ vongoing (g_position g') /\ no_moves (no_hit_rules m) D n (g_position g') dg1 dg')
  | GErr e => e = PolicyIndexOutOfBounds /\ exists j dg1 ps1, (j < max)%nat /\
      plies (no_hit_rules m) D P 0 (g_position g, dg, ps) j (g_position g', dg1, ps1) /\
      played j (g_position g) (g_position g') /\
      policy_fails (no_hit_rules m) D P j (g_position g', dg1, ps1) dg' ps'
  end.
Proof.
  intros G S m D P max g dg ps W O F. apply C25_episode_any_rules; auto.
  intros v d (p & -> & Wp) Ov V. pose proof Ov as Ov'. rewrite vongoing_tag in Ov'.
  destruct (no_hit_ret m (g_variant g) d Wp Ov' V) as (l & E & H & E2).
  eexists; split; [exact E2|]. intros w I.
  exact (@rules_any m _ (g_variant g) _ d _ (rs_no_hit m) ltac:(exists p; auto) V E2 w I).
Qed.

(** Cases under NoHitRules: five plies from the start; and a player on the bar who must pass and is listed nothing. *)
Definition ex_barred : position :=
  {| turn := true;
     pips := [0; 0; 0; 0; 0; 0; 0; 0; 0; 0; 0; 0; 0; 0; 0; 0; 0; 0; 0; -2; 0; 0; 0; 0; -2; 1];
     x_off := 3; o_off := 0 |}.
Example C25_no_hit_case :
  (exists g, play_episode_with Debug (no_hit_rules Debug) const_gen first_policy 5 (game_new Hypergammon) tt tt
             = Ret (GOk 5%nat, g, tt, tt)) /\
  (vwf Hypergammon4 (VHypergammon4 ex_barred) /\ vongoing (VHypergammon4 ex_barred) /\
   play_episode_with Debug (no_hit_rules Debug) const_gen first_policy 5
     {| g_variant := Hypergammon4; g_position := VHypergammon4 ex_barred |} tt tt
     = Ret (GOk 0%nat, {| g_variant := Hypergammon4; g_position := VHypergammon4 ex_barred |}, tt, tt)).
Proof.
  split; [eexists; vm_compute; reflexivity|].
  split; [exists ex_barred; split; [reflexivity|constructor; vm_compute; intuition discriminate]|].
  split; [exists Hypergammon4, ex_barred; split; [reflexivity|vm_compute; auto]|]. vm_compute. reflexivity.
Qed.

(** Starting an episode (of at least one ply) on a finished game is a failed debug assertion. *)
Theorem C25_finished_game_panics : forall {G S} (D : dice_gen G) (P : policy S) max g dg ps,
  vwf (g_variant g) (g_position g) -> ~ vongoing (g_position g) -> fair_gen D -> (0 < max)%nat ->
  play_episode Debug D P max g dg ps = Panic AssertFail.
Proof.
  intros G S D P max g dg ps W O (F1 & F2) M. unfold play_episode, play_episode_with.
  destruct max as [|max]; [lia|]. simpl.
  destruct (F2 dg) as (d & g0 & E0 & V & _). rewrite E0, bind_ret.
  unfold game_legal_positions_with. destruct W as (p & E & W). rewrite E in *. rewrite classic_rules_tag.
  unfold generate_legal_positions. rewrite vongoing_tag in O. unfold ongoing in O.
  destruct (Z.ltb_spec (o_off p) (checkers (g_variant g))),
           (Z.ltb_spec (x_off p) (checkers (g_variant g))); simpl; auto; lia.
Qed.
Definition ex_finished : position :=
  {| turn := true;
     pips := [0; 0; 0; 0; 0; 0; 0; 0; 0; 0; 0; -1; 0; 0; 0; 0; 0; 0; 0; 0; -2; 0; 0; 0; 0; 0];
     x_off := 3; o_off := 0 |}.
Example C25_finished_case : vwf Hypergammon (VHypergammon ex_finished) /\ ~ vongoing (VHypergammon ex_finished).
Proof.
  split; [exists ex_finished; split; [reflexivity|constructor; vm_compute; intuition discriminate]|].
  change (VHypergammon ex_finished) with (tag Hypergammon ex_finished). rewrite vongoing_tag.
  intros (A & _). vm_compute in A. discriminate.
Qed.

(** ** C26 *)

(** Full property: NoHitRules lists exactly the legal plays that do not put further opposing
    checkers on the bar. (In a listed position the opponent is x, so its bar is point 25; before
    the play it is o, with bar point 0.) *)
Definition C26_statement : Prop := forall m k v d,
  vwf k v -> vongoing v -> valid_dice d ->
  exists l, no_hit_rules m v d = Ret l /\
  forall w, In w l <-> vlegal d v w /\ pt (board_of w) 25 <= - pt (board_of v) 0.

(** It is false of the code: the rule compares the wrong bars. *)
Definition ex_hit_pos' : position :=
  {| turn := true;
     pips := [0; -1; 0; 0; 1; 0; 0; 0; 0; 0; 0; 0; 0; 0; 0; 0; 0; 0; 0; 0; 0; 0; 0; 0; 1; 0];
     x_off := 0; o_off := 1 |}.
Lemma legal_in m k p d l w : wf (checkers k) p -> ongoing (checkers k) p -> valid_dice d ->
  legal_positions m (tag k p) d = Ret l -> In w l -> vlegal d (tag k p) w.
Proof.
  intros W O V E I.
  destruct (@legal_positions_correct m k (tag k p) d ltac:(exists p; auto) ltac:(apply vongoing_tag; auto) V)
    as (l' & E' & _ & H).
  rewrite E in E'. inversion E'; subst. apply H; auto.
Qed.

Theorem C26_refuted : ~ C26_statement.
Proof.
  intros H.
  assert (W : wf 2 ex_hit_pos') by
    (constructor; vm_compute; try reflexivity; try (split; intro; discriminate); intro; discriminate).
  assert (O : ongoing 2 ex_hit_pos') by (split; vm_compute; reflexivity).
  destruct (H Debug Hypergammon2 (VHypergammon2 ex_hit_pos') (Mixed 3 1)) as (l & E & X).
  - exists ex_hit_pos'; auto.
  - exists Hypergammon2, ex_hit_pos'; auto.
  - simpl; unfold valid_die; lia.
  - vm_compute in E. inversion E; subst l. clear E.
    (* a listed play hits: the opponent, who had nothing on the bar, has a checker there *)
    match type of X with forall w, In w ?l <-> _ =>
      let w := eval vm_compute in (find (fun w => 0 <? pt (board_of w) 25) l) in
      match w with Some ?w => destruct (proj1 (X w)) as (_ & B); [vm_compute; auto 10|] end end.
    vm_compute in B. apply B. reflexivity.
Qed.

(** It also drops every play of a player who stays on the bar, so a list may be empty
    although the legal play (passing) hits nobody. *)
Definition ex_stuck : position :=
  {| turn := true;
     pips := [0; 0; 0; 0; 0; 0; 0; 0; 0; 0; 0; 0; 0; 0; 0; 0; 0; 0; 0; 0; 0; -2; -2; 0; 0; 1];
     x_off := 3; o_off := 0 |}.
Theorem C26_empty_refuted :
  wf 4 ex_stuck /\ ongoing 4 ex_stuck /\ valid_dice (Mixed 4 3) /\
  no_hit_rules Debug (VHypergammon4 ex_stuck) (Mixed 4 3) = Ret [] /\
  exists w, legal_positions Debug (VHypergammon4 ex_stuck) (Mixed 4 3) = Ret [w] /\
            pt (board_of w) 25 = - pt ex_stuck 0.
Proof.
  split; [constructor; vm_compute; try reflexivity; try (split; intro; discriminate); intro; discriminate|].
  split; [split; vm_compute; reflexivity|]. split; [simpl; unfold valid_die; lia|].
  split; [vm_compute; reflexivity|]. eexists; split; vm_compute; reflexivity.
Qed.

(** What holds: it never panics, lists only legal plays, and keeps exactly those after which
    the mover has no more checkers on its own bar than the opponent had on its bar before. *)
Theorem C26_no_hit_rules_partial : forall m k v d,
  vwf k v -> vongoing v -> valid_dice d ->
  exists l, no_hit_rules m v d = Ret l /\
  forall w, In w l <-> vlegal d v w /\ - pt (board_of w) 0 <= - pt (board_of v) 0.
Proof.
  intros m k v d (p & -> & W) O V. pose proof O as O'. rewrite vongoing_tag in O.
  destruct (no_hit_ret m k d W O V) as (l & E & H & E2).
  eexists; split; [exact E2|]. intros w. rewrite in_map_iff. split.
  - intros (q & <- & I). apply filter_In in I. destruct I as (I & B). apply Z.leb_le in B.
    rewrite !board_of_tag. split; auto. apply H in I. destruct I as (r & L & M). exists k, p, q, r. auto.
  - intros (L & B). apply vlegal_inv in L. destruct L as (r & q & -> & L & M).
    rewrite !board_of_tag in B. exists q. split; auto. apply filter_In. split; [apply H; eauto|].
    apply Z.leb_le; auto.
Qed.

(** In particular, while neither side has a checker on the bar, the hitting plays are all kept. *)
Theorem C26_keeps_hits_partial : forall m k v d w,
  vwf k v -> vongoing v -> valid_dice d -> vlegal d v w -> pt (board_of w) 0 = 0 ->
  exists l, no_hit_rules m v d = Ret l /\ In w l.
Proof.
  intros m k v d w W O V L B. destruct (C26_no_hit_rules_partial m d W O V) as (l & E & H).
  exists l. split; auto. apply H. split; auto.
  destruct W as (p & -> & W). rewrite board_of_tag. pose proof (wf_obar W). lia.
Qed.
(** A case: x hits the blot on point 1 from point 4, and the play is listed. *)
Example C26_case : exists l w, no_hit_rules Debug (VHypergammon2 ex_hit_pos') (Mixed 3 1) = Ret l /\
  In w l /\ pt (board_of w) 25 = 1 /\ pt (board_of w) 0 = 0.
Proof.
  eexists. eexists. split; [vm_compute; reflexivity|].
  split; [right; left; reflexivity|]. vm_compute. auto.
Qed.

Print Assumptions C23_reachable_consistent.
Print Assumptions C25_episode.
Print Assumptions C26_no_hit_rules_partial.
