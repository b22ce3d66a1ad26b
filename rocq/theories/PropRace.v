(** C74: races end. *)
From Verif Require Import SpecRace RaceFacts PropPosition PropMoves PropGame GameFacts VariantFacts PropExact2.
From Coq Require Import Permutation.
Unset Implicit Arguments.
Open Scope Z_scope.

(** ** C74 *)

Lemma race_of_phase m k v : vwf k v -> vongoing v -> vp_phase m v = Ret (POngoing Race) -> no_contact (board_of v).
Proof.
  intros (p & -> & W) O E. rewrite vp_phase_tag in E. rewrite board_of_tag.
  rewrite vongoing_tag in O. destruct (@phase_spec m _ p W (or_introl (proj1 O))) as (ph & E' & H).
  rewrite E in E'. inversion E'; subst. apply H.
Qed.

(** In a race the whole roll is always played, unless the last checker is borne off before. *)
Theorem C74_whole_roll : forall m k v d ds r,
  vwf k v -> vongoing v -> vp_phase m v = Ret (POngoing Race) -> valid_dice d ->
  legal_play d (board_of v) ds r -> Permutation ds (pool d) \/ x_off r = checkers k.
Proof.
  intros m k v d ds r W O E V L. pose proof (race_of_phase m k v W O E) as NC.
  destruct W as (p & -> & W). rewrite board_of_tag in *. rewrite vongoing_tag in O.
  exact (race_full (checkers k) p d ds r W O NC V L).
Qed.

(** One ply of a race brings the mover at least two pips nearer (one if it ends the game) and leaves the
    opponent's checkers alone. *)
Lemma race_vply k v d w : vwf k v -> vongoing v -> no_contact (board_of v) -> valid_dice d -> vlegal d v w ->
  vwf k w /\ no_contact (board_of w) /\
  (~ vongoing w /\ pips_to_go w + 1 <= pips_to_go v \/ vongoing w /\ pips_to_go w + 2 <= pips_to_go v).
Proof.
  intros W O NC V L. pose proof (vlegal_vwf W V L) as Ww. destruct W as (p & -> & W).
  rewrite vongoing_tag in O. rewrite board_of_tag in NC.
  destruct (vlegal_wf _ W V L) as (r & -> & Lr & Wr).
  destruct (race_ply (checkers k) p d r W O NC V Lr) as (NCr & Eo & Eoff & _ & H).
  split; auto. split; [rewrite board_of_tag; apply no_contact_flip; auto; apply Wr|].
  unfold pips_to_go. rewrite !board_of_tag, vongoing_tag.
  rewrite (@x_pips_flip r (wf_len Wr)), (@o_pips_flip r (wf_len Wr)).
  unfold ongoing, flipP. cbn [x_off o_off]. rewrite Eo, Eoff. destruct O.
  destruct H as [[A B]|[A B]]; [left|right]; split; lia.
Qed.

Lemma pips_to_go_nonneg v : 0 <= pips_to_go v.
Proof. unfold pips_to_go. pose proof (x_pips_nonneg (board_of v)). pose proof (o_pips_nonneg (board_of v)). lia. Qed.

Lemma race_bounded k n : forall v w, vwf k v -> vongoing v -> no_contact (board_of v) -> played n v w ->
  2 * Z.of_nat n + pips_to_go w <= pips_to_go v + 1 /\
  (vongoing w -> 2 * Z.of_nat n + pips_to_go w <= pips_to_go v).
Proof.
  induction n as [|n IH]; intros v w W O NC P; inversion P as [|? ? w1 ? d O' V L P']; subst.
  - lia.
  - destruct (race_vply k v d w1 W O NC V L) as (W1 & NC1 & [[N1 B]|[O1 B]]).
    + destruct n as [|n]; [|inversion P'; subst; contradiction]. inversion P'; subst.
      split; [lia|]. intros; contradiction.
    + destruct (IH w1 w W1 O1 NC1 P') as [A1 A2]. split; [lia|]. intros Ow. specialize (A2 Ow). lia.
Qed.

(** However the dice fall and whatever is played, a race cannot go on for more than half as many plies as
    there are pips to go. *)
Theorem C74_race_bounded : forall m k v n w,
  vwf k v -> vongoing v -> vp_phase m v = Ret (POngoing Race) -> played n v w ->
  2 * Z.of_nat n <= pips_to_go v + 1.
Proof.
  intros m k v n w W O E P.
  destruct (race_bounded k n v w W O (race_of_phase m k v W O E) P) as [A _].
  pose proof (pips_to_go_nonneg w). lia.
Qed.

(** So there is no endless race. *)
Theorem C74_no_endless_race : forall m k (f : nat -> vpos),
  vwf k (f 0%nat) -> vp_phase m (f 0%nat) = Ret (POngoing Race) ->
  ~ (forall i, vongoing (f i) /\ exists d, valid_dice d /\ vlegal d (f i) (f (S i))).
Proof.
  intros m k f W E H.
  assert (P : forall n i, played n (f i) (f (i + n)%nat)).
  { induction n as [|n IH]; intros i; [rewrite Nat.add_0_r; constructor|].
    destruct (H i) as (O & d & V & L). rewrite Nat.add_succ_r.
    apply (@played_S n (f i) (f (S i)) (f (S i + n)%nat) d); auto. }
  specialize (P (Z.to_nat (pips_to_go (f 0%nat)) + 1)%nat 0%nat).
  pose proof (C74_race_bounded m k _ _ _ W (proj1 (H 0%nat)) E P).
  pose proof (pips_to_go_nonneg (f 0%nat)). lia.
Qed.

Lemma played_not_both k n v w : vwf k v -> vongoing v -> played n v w ->
  not_both_won (checkers k) (board_of w).
Proof.
  intros W O P. induction P as [v|n v w u d Ov V L P IH].
  - destruct W as (p & -> & W). rewrite vongoing_tag in O. rewrite board_of_tag. left. apply O.
  - pose proof (vlegal_vwf W V L) as Ww. destruct (over_dec Ww) as [Ow|Nw]; [auto|].
    inversion P; subst; [|contradiction].
    destruct W as (p & -> & W). rewrite vongoing_tag in O. left. exact (legal_not_both k W O V L).
Qed.

Lemma over_state m k w : vwf k w -> not_both_won (checkers k) (board_of w) -> ~ vongoing w ->
  exists r, vp_game_state m w = Ret (GameOver r).
Proof.
  intros (p & -> & W) NB N. rewrite vongoing_tag in N. rewrite board_of_tag in NB. rewrite vp_game_state_tag.
  destruct (game_state_outcome m W NB) as (s & E & Os). rewrite E.
  destruct s as [|r]; [|eauto]. exfalso. apply N. inversion Os; split; auto.
Qed.

(** An episode that starts in a race and may last that long ends with a finished game. *)
Theorem C74_episode_ends : forall {G S} m (D : dice_gen G) (P : policy S) max g dg ps,
  vwf (g_variant g) (g_position g) -> vongoing (g_position g) -> fair_gen D -> policy_in_range P ->
  vp_phase m (g_position g) = Ret (POngoing Race) -> pips_to_go (g_position g) + 1 < 2 * Z.of_nat max ->
  exists n g' dg' ps' r, play_episode m D P max g dg ps = Ret (GOk n, g', dg', ps') /\
  2 * Z.of_nat n <= pips_to_go (g_position g) + 1 /\ game_state_of m g' = Ret (GameOver r).
Proof.
  intros G S m D P max g dg ps W O F PR E M.
  destruct (@C25_episode G S m D P max g dg ps W O F) as (r & g' & dg' & ps' & Ee & Ev & H).
  destruct r as [n|e].
  - destruct H as (Le & _ & Pl & Fin).
    pose proof (C74_race_bounded m _ _ _ _ W O E Pl) as B. specialize (Fin ltac:(lia)).
    destruct (over_state m (g_variant g) (g_position g') (played_vwf W Pl) (played_not_both _ _ _ _ W O Pl) Fin)
      as [r X].
    exists n, g', dg', ps', r. auto.
  - exfalso. destruct H as (_ & j & dg1 & ps1 & _ & _ & Pl & d & l & i & Er & El & Ne & Ei & Li).
    pose proof (PR ps1 (g_position g') d l Ne) as X. rewrite Ei in X. cbn [fst] in X. lia.
Qed.

(** In a race the two rule sets agree. *)
Theorem C74_no_hit_agrees : forall m k v d,
  vwf k v -> vongoing v -> vp_phase m v = Ret (POngoing Race) -> valid_dice d ->
  no_hit_rules m v d = legal_positions m v d.
Proof.
  intros m k v d W O E V. pose proof (race_of_phase m k v W O E) as NC.
  destruct (@C67_no_hit_exact m k v d W O V) as (l & keep & El & En & H). rewrite El, En. f_equal.
  destruct (@legal_positions_correct m k v d W O V) as (l' & El' & _ & HL). rewrite El in El'.
  inversion El'; subst l'.
  assert (A : forall w, In w l -> keep w = true).
  { intros w I. apply (H w I). apply HL in I.
    destruct (race_vply k v d w W O NC V I) as (Ww & NCw & _).
    assert (B : pt (board_of w) 0 = 0).
    { destruct W as (p & -> & W). destruct (vlegal_wf _ W V I) as (r & -> & Lr & Wr).
      rewrite vongoing_tag in O. rewrite board_of_tag in NC.
      destruct (race_ply (checkers k) p d r W O NC V Lr) as (NCr & _ & Eoff & _).
      rewrite board_of_tag, pt_flipP by (try apply Wr; lia). change (25 - 0)%nat with 25%nat.
      rewrite (race_no_bar (checkers k) r Wr ltac:(rewrite Eoff; apply O) NCr). reflexivity. }
    rewrite B. destruct W as (p & -> & W). rewrite board_of_tag. pose proof (wf_obar W). lia. }
  clear - A. induction l as [|w l IH]; cbn [filter]; auto.
  rewrite (A w (or_introl eq_refl)), IH; auto. intros; apply A; right; auto.
Qed.

(** A race of hypergammon: eleven pips to go. *)
Definition ex_race : vpos := VHypergammon {| turn := true;
  pips := [0; 1; 0; 2; 0; 0; 0; 0; 0; 0; 0; 0; 0; 0; 0; 0; 0; 0; 0; 0; 0; 0; 0; -2; 0; 0]; x_off := 0; o_off := 1 |}.
Example C74_ex : vwf Hypergammon ex_race /\ vongoing ex_race /\ vp_phase Debug ex_race = Ret (POngoing Race) /\
  pips_to_go ex_race = 11 /\ exists l, legal_positions Debug ex_race (Double 1) = Ret l /\ l <> [].
Proof.
  split; [|split; [|split; [|split]]].
  - eexists. split; [reflexivity|]. constructor; vm_compute; repeat split; discriminate.
  - exists Hypergammon. eexists. split; [reflexivity|]. split; vm_compute; reflexivity.
  - vm_compute. reflexivity.
  - vm_compute. reflexivity.
  - eexists. split; [vm_compute; reflexivity|discriminate].
Qed.
Example C74_ex_policy : policy_in_range (fun (_ : unit) (_ : vpos) (_ : dice) (l : list vpos) => (pred (length l), tt)).
Proof. intros ps v d l H. destruct l; [congruence|]. cbn [fst length]. lia. Qed.
