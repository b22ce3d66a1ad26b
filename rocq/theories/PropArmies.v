(** C97: all variants are one game, played with different numbers of checkers. *)
From Coq Require Import Strings.String.
From Verif Require Import SpecArmies ArmyFacts BoardFacts VariantFacts EqFacts MoveText ModeFacts BuildFacts Gnuid Xgid GnuidFacts XgidFacts
  PropMoves PropPosition PropBoard PropMoveText PropListing PropApply PropGnuid PropXgid PropIdentity.
Unset Implicit Arguments.
Open Scope Z_scope.

Lemma alike_al k k' p q : vwf k (tag k p) -> vwf k' (tag k' q) -> alike (tag k p) (tag k' q) -> al (checkers k) (checkers k') p q.
Proof.
  unfold alike. rewrite !vwf_tag, !board_of_tag. intros W W' B. split; [exact W|]. split; [exact W'|].
  apply same_board_pips; auto; [apply W|apply W'].
Qed.
Lemma pips_alike p q : pips p = pips q -> same_board p q.
Proof. intros E i _. unfold pt. rewrite E. reflexivity. Qed.

(** ** Move texts *)

(** The same texts are listed, in the same order, and they lead to the same boards. *)
Theorem C97_move_texts : forall m k k' v w d, vwf k v -> vwf k' w -> alike v w -> valid_dice d -> vongoing v ->
  exists l l', legal_moves m v d = Ret (inr l) /\ legal_moves m w d = Ret (inr l') /\
    Forall2 (fun a b => fst a = fst b /\ alike (snd a) (snd b)) l l'.
Proof.
  intros m k k' v w d W W' A V O.
  destruct (@C65_positions m k v d W O V) as (l & El & _). exists l.
  destruct W as (p & -> & W0), W' as (q & -> & W0').
  assert (H : al (checkers k) (checkers k') p q) by (apply alike_al; auto; apply vwf_tag; auto).
  rewrite vongoing_tag in O.
  pose proof (al_legal m (checkers k) (checkers k') k k' p q d H V (fun _ => O)) as R.
  unfold legal_moves in *. rewrite !legal_steps_tag in *.
  destruct (legal_for_steps m (checkers k) p d (tag k)) as [[e|s]|]; cbn in El; try discriminate. injection El as <-.
  destruct (legal_for_steps m (checkers k') q d (tag k')) as [[e|s']|]; cbn in R; try discriminate. injection R as R.
  eexists. split; [reflexivity|]. split; [reflexivity|]. clear - R.
  revert s' R. induction s as [|[a x] s IH]; intros [|[b y] s'] R; cbn in R; try discriminate; cbn [map]; constructor.
  - cbn [fst snd] in *. injection R as -> E _. split; [reflexivity|]. apply pips_alike, E.
  - apply IH. congruence.
Qed.

(** The same texts can be played, with the same boards as results. *)
Theorem C97_apply : forall m k k' v w d t, vwf k v -> vwf k' w -> alike v w -> valid_dice d ->
  (apply_move m v d t = Ret None /\ apply_move m w d t = Ret None) \/
  exists a b, apply_move m v d t = Ret (Some a) /\ apply_move m w d t = Ret (Some b) /\ alike a b /\ vp_turn a = negb (vp_turn v) /\ vp_turn b = negb (vp_turn w).
Proof.
  intros m k k' v w d t W W' A V.
  assert (T : forall j x, vwf j x -> exists o, apply_move m x d t = Ret o /\ apply_move Release x d t = Ret o /\
     match o with Some y => vp_turn y = negb (vp_turn x) | None => True end).
  { intros j x X. destruct (apply_move m x d t) as [[y|]|e] eqn:E.
    - exists (Some y). split; [reflexivity|]. split; [destruct m; [exact (mono_apply_move _ _ _ _ E)|exact E]|].
      apply (@C63_accepts_exactly m j x d t y X V) in E. destruct E as (st & ds & rest & r & z & _ & _ & Pl & _ & (Tz & _) & ->).
      rewrite vp_turn_tag, Tz. destruct X as (x0 & -> & X). rewrite board_of_tag in Pl. rewrite vp_turn_tag.
      f_equal. clear - Pl. remember (turn x0) as b. revert Heqb. induction Pl as [|? ? ? ? ? ? ? ? Mv ? IH]; intros ->; [reflexivity|].
      apply IH. symmetry. apply Mv.
    - exists None. split; [reflexivity|]. split; [destruct m; [exact (mono_apply_move _ _ _ _ E)|exact E]|exact I].
    - exfalso. rewrite (@C63_otherwise_none m j x d t X V) in E; [discriminate|]. intros y. rewrite E. discriminate. }
  destruct (T _ _ W) as (o & E & ER & To), (T _ _ W') as (o' & E' & ER' & To').
  destruct W as (p & -> & W0), W' as (q & -> & W0').
  assert (H : al (checkers k) (checkers k') p q) by (apply alike_al; auto; apply vwf_tag; auto).
  pose proof (bd_apply p q d t (proj2 (proj2 H))) as R. unfold BoardFacts.agree in R.
  rewrite apply_tag in ER, ER'. unfold option_wrap in ER, ER'. rewrite E, E'.
  destruct (apply_for Release p d t) as [x|]; cbn in ER; [|discriminate].
  destruct (apply_for Release q d t) as [y|]; cbn in ER'; [|discriminate].
  injection ER as <-. injection ER' as <-. cbn [rmap] in R.
  destruct x as [x|], y as [y|]; cbn in R |- *; try discriminate; [right|left; split; reflexivity].
  eexists _, _. split; [reflexivity|]. split; [reflexivity|]. split; [|split; assumption].
  unfold alike. rewrite !board_of_tag. apply pips_alike. congruence.
Qed.

(** The same text is written for the same move. *)
Theorem C97_encode : forall m k k' v v' w w' d, vwf k v -> vwf k v' -> vwf k' w -> vwf k' w' ->
  alike v w -> alike v' w' -> valid_dice d -> encode_move m v v' d = encode_move m w w' d.
Proof.
  intros m k k' v v' w w' d (p & -> & W1) (p' & -> & W2) (q & -> & W3) (q' & -> & W4) A A' V.
  unfold encode_move. rewrite !encode_tag.
  rewrite (al_encode_for m (checkers k) (checkers k') p q p' q' d); auto; apply alike_al; auto; apply vwf_tag; auto.
Qed.

(** ** Who wins *)

(** The game is over in both or in neither, the same side has won, and with more checkers a side - some of which
    the loser has then borne off - the win counts once. *)
Definition same_state (N M : Z) (s s' : game_state_t) : Prop :=
  match s, s' with
  | Ongoing, Ongoing => True
  | GameOver r, GameOver r' =>
      (mover_won r <-> mover_won r') /\ (N = M -> r = r') /\ (N < M -> counts_once r') /\ (M < N -> counts_once r)
  | _, _ => False
  end.
Lemma outcome_same N M p q s s' : al N M p q -> outcome N p s -> outcome M q s' -> same_state N M s s'.
Proof.
  intros (W & W' & E) H H'. pose proof (same_off N M p q W W' E) as (B & X & O).
  pose proof (wf_ooff W) as O0. pose proof (wf_ooff W') as O0'. pose proof (wf_xoff W) as X0. pose proof (wf_xoff W') as X0'.
  assert (OC : o_caught p <-> o_caught q).
  { unfold o_caught. split; intros (i & I & L); exists i; (split; [exact I|]); [rewrite <- B by lia|rewrite B by lia]; exact L. }
  assert (XC : x_caught p <-> x_caught q).
  { unfold x_caught. split; intros (i & I & L); exists i; (split; [exact I|]); [rewrite <- B by lia|rewrite B by lia]; exact L. }
  unfold mover_won, counts_once.
  destruct H, H'; cbn [same_state]; unfold mover_won, counts_once; try (exfalso; lia); try exact I;
    (split; [intuition congruence|]); (split; [intros; try reflexivity; exfalso; first [lia|tauto]|]); split; intros; try (exfalso; lia); auto.
Qed.
Lemma same_not_both N M p q : al N M p q -> not_both_won N p -> not_both_won M q.
Proof. intros (W & W' & E) H. pose proof (same_off N M p q W W' E) as (B & X & O). unfold not_both_won in *. lia. Qed.
Theorem C97_state : forall m k k' v w, vwf k v -> vwf k' w -> alike v w -> not_both_won (checkers k) (board_of v) ->
  exists s s', vp_game_state m v = Ret s /\ vp_game_state m w = Ret s' /\ same_state (checkers k) (checkers k') s s'.
Proof.
  intros m k k' v w (p & -> & W) (q & -> & W') A NB. rewrite board_of_tag in NB.
  assert (H : al (checkers k) (checkers k') p q) by (apply alike_al; auto; apply vwf_tag; auto).
  destruct (@C06_game_state m _ p W NB) as (s & Es & Os & _).
  destruct (@C06_game_state m _ q W' (same_not_both _ _ p q H NB)) as (s' & Es' & Os' & _).
  exists s, s'. rewrite !vp_game_state_tag. split; [exact Es|]. split; [exact Es'|]. eapply outcome_same; eauto.
Qed.

(** Both are contact positions, both are races or both are over. *)
Theorem C97_phase : forall m k k' v w, vwf k v -> vwf k' w -> alike v w -> not_both_won (checkers k) (board_of v) ->
  exists a b, vp_phase m v = Ret a /\ vp_phase m w = Ret b /\
    match a, b with
    | POngoing x, POngoing y => x = y
    | PGameOver r, PGameOver r' => same_state (checkers k) (checkers k') (GameOver r) (GameOver r')
    | _, _ => False
    end.
Proof.
  intros m k k' v w (p & -> & W) (q & -> & W') A NB. rewrite board_of_tag in NB.
  assert (H : al (checkers k) (checkers k') p q) by (apply alike_al; auto; apply vwf_tag; auto).
  destruct (@C07_phase m _ p W NB) as (a & Ea & Ha). destruct (@C07_phase m _ q W' (same_not_both _ _ p q H NB)) as (b & Eb & Hb).
  exists a, b. rewrite !vp_phase_tag. split; [exact Ea|]. split; [exact Eb|].
  assert (Og : ongoing (checkers k) p <-> ongoing (checkers k') q).
  { apply same_ongoing. destruct H as (_ & _ & E). apply same_off; auto. }
  assert (NC : no_contact p <-> no_contact q).
  { destruct H as (_ & _ & E). unfold no_contact, pt. rewrite E. reflexivity. }
  assert (Ov : forall N x r, outcome N x (GameOver r) -> ~ ongoing N x).
  { intros N x r Ho (X1 & X2). inversion Ho; subst; lia. }
  destruct a as [[|]|r], b as [[|]|r']; try reflexivity; try tauto;
    try (exfalso; first [apply (Ov _ _ _ Ha); tauto | apply (Ov _ _ _ Hb); tauto]).
  eapply outcome_same; eauto.
Qed.

(** ** Position texts *)

(** GNUbg IDs and XGID boards show the board only: the two positions have the same ones. *)
Theorem C97_same_ids : forall m k k' v w, vwf k v -> vwf k' w -> alike v w ->
  gnuid_encode m v = gnuid_encode m w /\ xgid_encode m v = xgid_encode m w.
Proof.
  intros m k k' v w (p & -> & W) (q & -> & W') A.
  assert (H : al (checkers k) (checkers k') p q) by (apply alike_al; auto; apply vwf_tag; auto).
  rewrite !gnuid_encode_tag, !xgid_encode_tag. split; [apply gnuid_pips|apply xgid_pips]; apply H.
Qed.

(** An ID or XGID board written in one variant can be read in every other with as many checkers or more; the
    missing ones are taken to be borne off. *)
Theorem C97_ids_carry_over : forall m k k' v, vwf k v -> checkers k <= checkers k' ->
  exists id xg w w', gnuid_encode m v = Ret id /\ xgid_encode m v = Ret xg /\
    gnuid_decode m k' id = Ret (inr w) /\ xgid_decode m k' xg = Ret (inr w') /\
    vwf k' w /\ alike v w /\ vwf k' w' /\ alike v w'.
Proof.
  intros m k k' v (p & -> & W) L.
  set (q := {| turn := true; pips := pips p; x_off := x_off p + (checkers k' - checkers k); o_off := o_off p + (checkers k' - checkers k) |}).
  assert (Wq : wf (checkers k') q).
  { destruct W. constructor; try assumption; cbn [x_off o_off q]; try lia.
    - destruct k'; cbn; lia.
    - unfold x_checkers in *. change (pips q) with (pips p). change (x_off q) with (x_off p + (checkers k' - checkers k)). lia.
    - unfold o_checkers in *. change (pips q) with (pips p). change (o_off q) with (o_off p + (checkers k' - checkers k)). lia. }
  assert (V : vwf k (tag k p)) by (apply vwf_tag; exact W). assert (Vq : vwf k' (tag k' q)) by (apply vwf_tag; exact Wq).
  assert (A : alike (tag k p) (tag k' q)) by (unfold alike; rewrite !board_of_tag; apply pips_alike; reflexivity).
  destruct (C97_same_ids m k k' _ _ V Vq A) as (Eg & Ex). rewrite Eg, Ex.
  destruct (@C09_round_trip k' _ Vq) as (id & Ei & _ & _ & D). destruct (D m) as (w & Dw & Ww & Qw & _).
  destruct (@C11_round_trip k' _ Vq) as (xg & Ei' & _ & _ & _ & D'). destruct (D' m) as (w' & Dw' & Ww' & Qw' & _).
  exists id, xg, w, w'. split; [apply Ei|]. split; [apply Ei'|]. split; [exact Dw|]. split; [exact Dw'|].
  apply position_eqb_iff in Qw. apply position_eqb_iff in Qw'. rewrite board_of_tag in Qw, Qw'.
  unfold alike. rewrite board_of_tag. split; [exact Ww|]. split; [apply pips_alike, Qw|]. split; [exact Ww'|]. apply pips_alike, Qw'.
Qed.

(** ** Whole games *)

Lemma ongoing_of_state m k v : vwf k v -> not_both_won (checkers k) (board_of v) -> vp_game_state m v = Ret Ongoing -> vongoing v.
Proof.
  intros (p & -> & W) NB E. rewrite board_of_tag in NB. rewrite vp_game_state_tag in E. rewrite vongoing_tag.
  destruct (@C06_game_state m _ p W NB) as (s & Es & Os & _). rewrite E in Es. injection Es as <-.
  inversion Os; subst. split; assumption.
Qed.

(** The same dice and a policy that goes by the boards play the same game in both, board by board, to the same end. *)
Theorem C97_games : forall {G S} m k k' (D : dice_gen G) (P Q : policy S) plies v w dg ps,
  fair_gen D -> sees_boards P Q -> vwf k v -> vwf k' w -> alike v w -> vongoing v ->
  exists r v' w' dg' ps',
    play_episode m D P plies {| g_variant := k; g_position := v |} dg ps = Ret (r, {| g_variant := k; g_position := v' |}, dg', ps') /\
    play_episode m D Q plies {| g_variant := k'; g_position := w |} dg ps = Ret (r, {| g_variant := k'; g_position := w' |}, dg', ps') /\
    vwf k v' /\ vwf k' w' /\ alike v' w'.
Proof.
  intros G S m k k' D P Q plies v w dg ps FD SB W W' A O. unfold play_episode, play_episode_with.
  generalize plies at 1 3 as mx. intros mx. generalize 0%nat as ply.
  revert v w dg ps W W' A O. induction plies as [|n IH]; intros v w dg ps W W' A O ply; cbn [episode_loop].
  - exists (GOk mx), v, w, dg, ps. split; [reflexivity|]. split; [reflexivity|]. split; [assumption|]. split; assumption.
  - assert (Roll : exists d dg1, (if (ply =? 0)%nat then gen_roll_mixed D dg else gen_roll D dg) = Ret (d, dg1) /\ valid_dice d).
    { destruct FD as (F1 & F2). destruct (ply =? 0)%nat.
      - destruct (F2 dg) as (d & dg1 & E & Vd & _). exists d, dg1. split; assumption.
      - destruct (F1 dg) as (d & dg1 & E & Vd). exists d, dg1. split; assumption. }
    destruct Roll as (d & dg1 & -> & Vd). cbn [bind]. unfold game_legal_positions_with. cbn [g_position].
    destruct (@C85_variants m k k' v w d W W' A Vd (fun _ => O)) as (l & l' & El & El' & Ne & F).
    unfold legal_positions in El, El'. rewrite El, El'. cbn [bind].
    assert (FA : Forall2 alike l l').
    { clear - F. induction F as [|a b u u' (_ & _ & (B & _) & _) _ IHF]; constructor; auto. }
    assert (Len : List.length l = List.length l') by (clear - FA; induction FA; cbn; congruence).
    destruct (@C01_legal_positions_exact m k v d W O Vd) as (l0 & El0 & Leg). unfold legal_positions in El0.
    rewrite El in El0. injection El0 as <-.
    destruct l as [|x l]; [congruence|]. destruct l' as [|x' l']; [discriminate|].
    rewrite <- (SB ps v w d (x :: l) (x' :: l') A FA). destruct (P ps v d (x :: l)) as [i ps1].
    rewrite <- Len. destruct (List.length (x :: l) <=? i)%nat eqn:Li.
    + exists (GErr PolicyIndexOutOfBounds), v, w, dg1, ps1. split; [reflexivity|]. split; [reflexivity|]. split; [assumption|]. split; assumption.
    + apply Nat.leb_gt in Li.
      assert (Nth : exists a b, nth_error (x :: l) i = Some a /\ nth_error (x' :: l') i = Some b /\ vwf k a /\ vwf k' b /\ alike a b).
      { clear - F Li. revert i Li. induction F as [|a b u u' (Wa & Wb & (B & _) & _) F IHF]; intros i Li; [cbn in Li; lia|].
        destruct i as [|i]; cbn [nth_error]; [exists a, b; split; [reflexivity|]; split; [reflexivity|]; split; [assumption|]; split; assumption|].
        apply IHF. cbn in Li. lia. }
      destruct Nth as (a & b & Na & Nb & Wa & Wb & Aab). unfold index. rewrite Na, Nb. cbn [bind g_position].
      assert (NBa : not_both_won (checkers k) (board_of a)).
      { apply (@C06_reachable k v d a W O Vd). apply Leg. eapply nth_error_In; eauto. }
      destruct (C97_state m k k' a b Wa Wb Aab NBa) as (s & s' & Es & Es' & SS). rewrite Es, Es'. cbn [bind].
      destruct s as [|r], s' as [|r']; cbn in SS; try contradiction.
      * apply IH; auto. eapply ongoing_of_state; eauto.
      * exists (GOk (ply + 1)%nat), a, b, dg1, ps1. split; [reflexivity|]. split; [reflexivity|]. split; [assumption|]. split; assumption.
Qed.

(** A case: the Hypergammon start position is Backgammon with twelve checkers a side borne off. *)
Example C97_case : vwf Hypergammon (start_position Hypergammon) /\ vongoing (start_position Hypergammon) /\
  vwf Backgammon (VBackgammon ex_hyper15) /\ alike (start_position Hypergammon) (VBackgammon ex_hyper15) /\
  match legal_moves Debug (start_position Hypergammon) (Double 6), legal_moves Debug (VBackgammon ex_hyper15) (Double 6) with
  | Ret (inr l), Ret (inr l') => List.length l = 12%nat /\ map fst l = map fst l' /\ hd nil (map fst l) = lit "22/16 16/10 10/4 23/17"
  | _, _ => False
  end.
Proof.
  destruct C85_case as (A & B & C & D & _). split; [exact A|]. split; [exact B|]. split; [exact C|]. split; [exact D|].
  vm_compute. repeat split; reflexivity.
Qed.
(** A case: the same finished board is a gammon in Hypergammon and a win that counts once in Backgammon. *)
Definition ex_won (off : Z) : position :=
  {| turn := true; pips := [0;0;0;0;0;0;0;0;-1;-1;-1;0;0;0;0;0;0;0;0;0;0;0;0;0;0;0]; x_off := 3 + off; o_off := off |}.
Example C97_case_result : alike (VHypergammon (ex_won 0)) (VBackgammon (ex_won 12)) /\
  vp_game_state Debug (VHypergammon (ex_won 0)) = Ret (GameOver WinGammon) /\
  vp_game_state Debug (VBackgammon (ex_won 12)) = Ret (GameOver WinNormal).
Proof. split; [intros i _; reflexivity|]. split; reflexivity. Qed.
