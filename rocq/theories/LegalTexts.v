(** Which step lists [legal_moves] picks for a child. *)
From Verif Require Import FibsFacts PipFacts VariantFacts EqFacts DoubleProof MixedProof Commute MoveGenProof SpecMoveText MoveTextFacts LeafFacts LeafLegal EncodeFacts LegalMovesFacts.
Open Scope Z_scope.

(** ** Positions where a checker stays on the bar: the play is forced. *)
Fixpoint enter (ds : list nat) (p : position) : position :=
  match ds with
  | [] => p
  | d :: ds' => enter ds' (if -2 <? pt p (25 - d) then mv p d 25 else p)
  end.

Lemma bar_mv N p d a : wf N p -> valid_die d -> may_move p d a -> pt (mv p d a) 25 <= pt p 25.
Proof.
  intros W V M. pose proof (may_move_range M) as R. pose proof (wf_len W) as L. destruct V as (V1 & V2).
  destruct (Nat.eq_dec a 25) as [->|].
  - rewrite pt_mv_from by (auto; lia). lia.
  - rewrite pt_mv_high by (auto; lia). lia.
Qed.
Lemma enter_bar ds : forall N p, wf N p -> Forall valid_die ds -> 0 < pt (enter ds p) 25 -> 0 < pt p 25.
Proof.
  induction ds as [|d ds IH]; intros N p W V H; simpl in *; auto. inversion V as [|? ? Vd Vs]; subst.
  destruct (Z.ltb_spec (-2) (pt p (25 - d))); [|eapply IH; eauto].
  destruct (Z.le_gt_cases (pt p 25) 0) as [Le|Gt]; [|lia]. exfalso.
  (* moving a checker that is not there: the bar would be negative *)
  assert (X : forall ds q, Forall valid_die ds -> length (pips q) = 26%nat -> pt q 25 <= 0 -> pt (enter ds q) 25 <= 0).
  { clear. induction ds as [|d ds IH]; intros q V L H; simpl; auto. inversion V as [|? ? (V1 & V2) Vs]; subst.
    apply IH; auto; destruct (-2 <? pt q (25 - d)); auto using mv_length. rewrite pt_mv_from by (auto; lia). lia. }
  specialize (X ds (mv p d 25) Vs). pose proof (wf_len W) as L. destruct Vd as (V1 & V2).
  rewrite pt_mv_from in X by (auto; lia). specialize (X (mv_length p d 25 L) ltac:(lia)). lia.
Qed.
Lemma leaf_forced ds : forall N p st q, wf N p -> Forall valid_die ds -> leaf ds p st q ->
  0 < pt q 25 \/ 0 < pt (enter ds p) 25 -> q = enter ds p.
Proof.
  induction ds as [|d ds IH]; intros N p st q W V L H; inversion L as [|? ? ? a st' ? M L'|? ? ? ? ? No L']; subst; auto; simpl.
  - inversion V as [|? ? Vd Vs]; subst.
    assert (B : 0 < pt p 25).
    { destruct H as [H|H].
      - assert (G : forall ds p st q, wf N p -> Forall valid_die ds -> leaf ds p st q -> pt q 25 <= pt p 25).
        { clear. intros ds p st q W V L. revert W V. induction L; intros W V; [lia| |]; inversion V; subst; auto.
          etransitivity; [apply IHL; auto; eapply may_wf; eauto|]. eapply bar_mv; eauto. }
        pose proof (G _ _ _ _ (may_wf W Vd M) Vs L'). pose proof (bar_mv W Vd M). lia.
      - eapply (@enter_bar (d :: ds)); eauto. }
    pose proof (may_bar B M) as ->. apply (may_enter _ Vd B) in M as M'.
    destruct (Z.ltb_spec (-2) (pt p (25 - d))); [|lia]. eapply IH; eauto; [eapply may_wf; eauto|].
    destruct H as [H|H]; auto. right. simpl in H. destruct (Z.ltb_spec (-2) (pt p (25 - d))); [auto|lia].
  - inversion V as [|? ? Vd Vs]; subst.
    assert (B : 0 < pt p 25).
    { destruct H as [H|H].
      - assert (G : forall ds p st q, wf N p -> Forall valid_die ds -> leaf ds p st q -> pt q 25 <= pt p 25).
        { clear. intros ds p st q W V L. revert W V. induction L; intros W V; [lia| |]; inversion V; subst; auto.
          etransitivity; [apply IHL; auto; eapply may_wf; eauto|]. eapply bar_mv; eauto. }
        pose proof (G _ _ _ _ W Vs L'). lia.
      - eapply (@enter_bar (d :: ds)); eauto. }
    destruct (Z.ltb_spec (-2) (pt p (25 - d))) as [Op|]; [exfalso; apply (No 25%nat), may_enter; auto|].
    eapply IH; eauto. destruct H as [H|H]; auto. right. simpl in H. destruct (Z.ltb_spec (-2) (pt p (25 - d))); [lia|auto].
Qed.

Lemma enter_swap N p b s : wf N p -> valid_die b -> valid_die s -> 0 < pt (enter [b; s] p) 25 -> enter [s; b] p = enter [b; s] p.
Proof.
  intros W Vb Vs H. assert (V : Forall valid_die [b; s]) by (constructor; [auto|constructor; [auto|constructor]]).
  pose proof (enter_bar W V H) as B. pose proof (wf_len W) as L. pose proof Vb as (B1 & B2). pose proof Vs as (S1 & S2).
  simpl in *. destruct (Z.ltb_spec (-2) (pt p (25 - b))) as [Ob|Cb]; destruct (Z.ltb_spec (-2) (pt p (25 - s))) as [Os|Cs].
  - assert (U1 : -2 < pt (mv p b 25) (25 - s)) by (apply pt_mv_unblocked; auto; lia).
    assert (U2 : -2 < pt (mv p s 25) (25 - b)) by (apply pt_mv_unblocked; auto; lia).
    apply Z.ltb_lt in U1. apply Z.ltb_lt in U2. rewrite U1 in *. rewrite U2.
    rewrite !pt_mv_from in H by (auto using mv_length; lia).
    apply mv_comm; auto; lia.
  - assert (U1 : ~ -2 < pt (mv p b 25) (25 - s)) by (rewrite pt_mv_unblocked; auto; lia).
    apply Z.ltb_nlt in U1. rewrite U1. rewrite (proj2 (Z.ltb_lt _ _) Ob). reflexivity.
  - assert (U1 : ~ -2 < pt (mv p s 25) (25 - b)) by (rewrite pt_mv_unblocked; auto; lia).
    apply Z.ltb_nlt in U1. rewrite U1. reflexivity.
  - rewrite (proj2 (Z.ltb_ge _ _) Cb). reflexivity.
Qed.

Lemma forced N p d o o' st st' q r : wf N p -> valid_dice d -> In o (die_orders d) -> In o' (die_orders d) ->
  leaf o p st q -> leaf o' p st' r -> 0 < pt q 25 -> q = r.
Proof.
  intros W V I I' L L' B. pose proof (order_valid _ _ V I) as Vo. pose proof (order_valid _ _ V I') as Vo'.
  pose proof (leaf_forced W Vo L (or_introl B)) as ->.
  assert (E : enter o' p = enter o p).
  { destruct d as [b s|a]; simpl in I, I'.
    - destruct V as (Vb & Vs & _). destruct I as [<-|[<-|[]]], I' as [<-|[<-|[]]]; auto; apply (enter_swap W); auto.
    - destruct I as [<-|[]], I' as [<-|[]]. auto. }
  rewrite <- E. symmetry. apply (leaf_forced W Vo' L'). right. rewrite E. exact B.
Qed.

(** ** Plays without a hit leave o's checkers alone. *)
Lemma hit_distance_nonneg p q : 0 <= hit_distance p q.
Proof.
  unfold hit_distance. generalize (seq 1 24). induction l as [|i l IH]; simpl; [lia|].
  unfold lost at 1. destruct (_ && _); lia.
Qed.
Lemma plays_hit N ds : forall p q, wf N p -> Forall valid_die ds -> plays ds p q ->
  pt q 0 <= pt p 0 /\ (hit_distance p q = 0 <-> pt q 0 = pt p 0).
Proof.
  induction ds as [|d ds IH]; intros p q W V P.
  - inversion P; subst. rewrite hit_distance_refl. split; [lia|tauto].
  - inversion V as [|? ? Vd Vs]; subst. apply (plays_cons_iff ds q W Vd) in P. destruct P as (a & M & P).
    destruct (IH _ _ (may_wf W Vd M) Vs P) as (A & B).
    pose proof (may_move_pre M) as PR. pose proof (may_move_range M) as R.
    rewrite (hit_distance_trans (o_kept_step W Vd PR) (proj1 (proj2 (proj2 (proj2 (proj2 (proj2 (proj2 (plays_pips (may_wf W Vd M) Vs P)))))))) ).
    rewrite (hit_distance_step W Vd PR).
    pose proof (hit_distance_nonneg (mv p d a) q). pose proof (wf_len W) as L. destruct Vd as (V1 & V2).
    rewrite pt_mv_0 in * by (auto; lia). destruct (Nat.ltb_spec d a); simpl in *; [|lia].
    destruct (Z.eqb_spec (pt p (a - d)) (-1)); simpl in *; lia.
Qed.
Lemma lost_zero p q : hit_distance p q = 0 -> forall i, (1 <= i <= 24)%nat -> lost p q i = 0.
Proof.
  unfold hit_distance. intros H i Hi.
  assert (G : forall l, sumZ (map (fun i => Z.of_nat i * lost p q i) l) = 0 -> Forall (fun i => (1 <= i)%nat) l ->
    Forall (fun i => lost p q i = 0) l).
  { assert (Pos : forall j, 0 <= lost p q j) by (intros j; unfold lost; destruct (_ && _); lia).
    induction l as [|j l IH]; simpl; intros E F; constructor; inversion F as [|? ? Fj Fl]; subst.
    - assert (0 <= sumZ (map (fun i => Z.of_nat i * lost p q i) l)).
      { clear - Pos. induction l as [|k l IH]; simpl; [lia|]. pose proof (Pos k). nia. }
      pose proof (Pos j). nia.
    - apply IH; auto. 
      assert (0 <= sumZ (map (fun i => Z.of_nat i * lost p q i) l)).
      { clear - Pos. induction l as [|k l' IH']; simpl; [lia|]. pose proof (Pos k). nia. }
      pose proof (Pos j). nia. }
  specialize (G _ H). rewrite !Forall_forall in G. apply G; [|apply in_seq; lia].
  intros j Ij. apply in_seq in Ij. lia.
Qed.
Lemma plays_same N ds p q : wf N p -> Forall valid_die ds -> plays ds p q -> pt q 0 = pt p 0 ->
  forall i, (i <= 24)%nat -> Z.min 0 (pt q i) = Z.min 0 (pt p i).
Proof.
  intros W V P E i Hi. destruct (Nat.eq_dec i 0) as [->|]; [rewrite E; auto|].
  pose proof (proj2 (proj2 (plays_hit W V P)) E) as HD. pose proof (@lost_zero p q HD i ltac:(lia)) as Lz.
  pose proof (proj1 (proj2 (proj2 (proj2 (proj2 (proj2 (proj2 (plays_pips W V P)))))))) as K.
  destruct (K i ltac:(lia)) as (K1 & K2). unfold lost in Lz.
  destruct (Z.eqb_spec (pt p i) (-1)), (Z.leb_spec 0 (pt q i)); simpl in Lz; lia.
Qed.

(** ** The search from the start position, stored under the unflipped board *)
Lemma eqb_pt p q i : position_eqb p q = true -> pt p i = pt q i.
Proof. intros E. apply position_eqb_iff in E. destruct E as (E & _). unfold pt. rewrite E. reflexivity. Qed.

Lemma kind_B N p d o o' st st' q r : wf N p -> valid_dice d -> In o (die_orders d) -> In o' (die_orders d) ->
  leaf o p st q -> leaf o' p st' r -> position_eqb q (flipP r) = true -> q = r.
Proof.
  intros W V I I' L L' E. pose proof (order_valid _ _ V I) as Vo. pose proof (order_valid _ _ V I') as Vo'.
  pose proof (leaf_wf W Vo L) as Wq. pose proof (leaf_wf W Vo' L') as Wr.
  destruct (Z.lt_trichotomy 0 (pt q 25)) as [B|[B|B]]; [exact (forced d W V I I' L L' B)| |pose proof (wf_xbar Wq); lia].
  destruct (Z.lt_trichotomy 0 (pt r 25)) as [Br|[Br|Br]]; [exact (eq_sym (forced d W V I' I L' L Br))| |pose proof (wf_xbar Wr); lia].
  assert (F : forall i, (i <= 25)%nat -> pt q i = - pt r (25 - i)).
  { intros i Hi. rewrite (@eqb_pt _ _ i E). apply pt_flipP; [apply Wr|lia]. }
  assert (Q0 : pt q 0 = 0) by (rewrite F by lia; change (25 - 0)%nat with 25%nat; lia).
  assert (R0 : pt r 0 = 0) by (pose proof (F 25%nat ltac:(lia)) as X; change (25 - 25)%nat with 0%nat in X; lia).
  destruct (leaf_plays W Vo L) as (k & U & P & _). destruct (leaf_plays W Vo' L') as (k' & U' & P' & _).
  assert (Vk : forall o k, used o k -> Forall valid_die o -> Forall valid_die k).
  { clear. induction 1; intros F; auto; inversion F; subst; auto. }
  pose proof (Vk _ _ U Vo) as Vk1. pose proof (Vk _ _ U' Vo') as Vk2.
  destruct (plays_hit W Vk1 P) as (A1 & _). destruct (plays_hit W Vk2 P') as (A2 & _). pose proof (wf_obar W) as OB.
  pose proof (plays_same W Vk1 P ltac:(lia)) as S1. pose proof (plays_same W Vk2 P' ltac:(lia)) as S2.
  pose proof (plays_pips W Vk1 P) as (_ & _ & _ & _ & O1 & _). pose proof (plays_pips W Vk2 P') as (_ & _ & _ & _ & O2 & _).
  apply position_eqb_iff in E. destruct E as (_ & E1 & E2). simpl in E1, E2.
  apply position_ext; [rewrite (leaf_turn L), (leaf_turn L'); auto|lia|lia|apply Wq|apply Wr|].
  intros i Hi. destruct (Nat.eq_dec i 0) as [->|]; [lia|]. destruct (Nat.eq_dec i 25) as [->|]; [lia|].
  pose proof (S1 i ltac:(lia)). pose proof (S2 i ltac:(lia)).
  pose proof (S1 (25 - i)%nat ltac:(lia)). pose proof (S2 (25 - i)%nat ltac:(lia)).
  pose proof (F i ltac:(lia)). pose proof (F (25 - i)%nat ltac:(lia)) as F2.
  replace (25 - (25 - i))%nat with i in F2 by lia. lia.
Qed.

(** ** The search from the flipped start *)
Lemma x_pips_ext p q : position_eqb p q = true -> x_pips p = x_pips q /\ o_pips p = o_pips q.
Proof.
  intros E. apply position_eqb_iff in E. destruct E as (E & _). unfold x_pips, o_pips, pt. rewrite E. auto.
Qed.
Lemma used_valid o k : used o k -> Forall valid_die o -> Forall valid_die k.
Proof. induction 1; intros F; auto; inversion F; subst; auto. Qed.
Lemma used_sum o k : used o k -> dice_sum k <= dice_sum o.
Proof. unfold dice_sum. induction 1; simpl; lia. Qed.

Lemma kind_D N p b s o st q r : wf N p -> valid_die b -> valid_die s -> Forall valid_die o -> plays [s; b] p r ->
  leaf o (flipP p) st q -> position_eqb q (flipP r) = true -> False.
Proof.
  intros W Vb Vs Vo P L E. pose proof (flipP_wf W) as Wf.
  destruct (leaf_plays Wf Vo L) as (k & U & Pk & _). pose proof (used_valid U Vo) as Vk.
  pose proof (plays_pips Wf Vk Pk) as (_ & _ & _ & _ & _ & _ & _ & O).
  pose proof (hit_distance_nonneg (flipP p) q) as H.
  assert (V2 : Forall valid_die [s; b]) by (constructor; [auto|constructor; [auto|constructor]]).
  pose proof (plays_wf_any W V2 P) as Wr.
  destruct (@x_pips_ext _ _ E) as (_ & E2). rewrite (@o_pips_flip _ (wf_len Wr)) in E2. rewrite (@o_pips_flip _ (wf_len W)) in O.
  apply (plays_two r W Vs Vb) in P. destruct P as (x & y & M1 & M2 & ->).
  pose proof (x_pips_mv W Vs (may_move_pre M1)) as X1. pose proof (x_pips_mv (may_wf W Vs M1) Vb (may_move_pre M2)) as X2.
  pose proof (may_move_range M1). unfold valid_die in *. lia.
Qed.

Lemma may_st b p d a : may_move (EqFacts.st b p) d a <-> may_move p d a.
Proof. reflexivity. Qed.
Lemma mv_st b p d a : mv (EqFacts.st b p) d a = EqFacts.st b (mv p d a).
Proof. unfold mv, EqFacts.st, pt. destruct (d <? a)%nat; cbn; [|reflexivity]. destruct (_ =? -1); reflexivity. Qed.
Lemma leaf_st b o p st q : leaf o p st q -> leaf o (EqFacts.st b p) st (EqFacts.st b q).
Proof.
  induction 1 as [|d ds p a st q M L IH|d ds p st q No L IH]; [constructor| |].
  - apply leaf_move; auto. rewrite mv_st. exact IH.
  - apply leaf_skip; auto.
Qed.

Lemma bearoff_home N p b s r : wf N p -> valid_die b -> valid_die s -> plays [s; b] p r -> x_off p < x_off r ->
  forall j, (12 < j <= 25)%nat -> pt p j <= 0.
Proof.
  intros W Vb Vs P X j Hj. apply (plays_two r W Vs Vb) in P. destruct P as (x & y & M1 & M2 & ->).
  pose proof (wf_len W) as L. pose proof (may_move_range M1) as R1. pose proof (may_move_range M2) as R2.
  rewrite !mv_xoff in X. destruct (Nat.leb_spec x s) as [Lx|Lx].
  - destruct M1 as (_ & _ & _ & _ & H). destruct (H Lx) as (H1 & _). apply H1. lia.
  - destruct (Nat.leb_spec y b) as [Ly|Ly]; [|lia].
    destruct M2 as (_ & _ & _ & _ & H). destruct (H Ly) as (H1 & _). specialize (H1 j ltac:(lia)).
    pose proof M1 as (_ & Px & Bar & Op & _). specialize (Op Lx). pose proof Vs as (S1 & S2).
    destruct (Nat.eq_dec j x) as [->|Nj].
    + (* the moved checker would still be outside *)
      pose proof (proj1 (H Ly) (x - s)%nat ltac:(lia)) as H2. pose proof (@pt_mv_land_pos p s x L R1 S1 Lx Op). lia.
    + pose proof (@pt_mv_ge p s x L R1 S1 j ltac:(lia) Nj). lia.
Qed.

Lemma kind_C N p b s st q r : wf N p -> valid_dice (Mixed b s) -> plays [s; b] p r -> pt r 0 = pt p 0 ->
  leaf [b; s] (flipP p) st q -> position_eqb q r = true -> leaf [b; s] p st r.
Proof.
  intros W (Vb & Vs & Lt) P NH L E. pose proof (flipP_wf W) as Wf.
  assert (Vo : Forall valid_die [b; s]) by (constructor; [auto|constructor; [auto|constructor]]).
  assert (V2 : Forall valid_die [s; b]) by (constructor; [auto|constructor; [auto|constructor]]).
  destruct (leaf_plays Wf Vo L) as (k & U & Pk & _). pose proof (used_valid U Vo) as Vk. pose proof (used_sum U) as Sk.
  pose proof (leaf_wf Wf Vo L) as Wq. pose proof (plays_wf_any W V2 P) as Wr.
  pose proof (plays_pips Wf Vk Pk) as (Q1 & Q2 & Q3 & Q4 & Q5 & Q6 & Q7 & Q8).
  pose proof (plays_pips W V2 P) as (R1 & R2 & R3 & R4 & R5 & R6 & R7 & R8).
  pose proof (proj2 (proj2 (plays_hit W V2 P)) NH) as HR. rewrite HR in R8.
  rewrite (@o_pips_flip _ (wf_len W)) in Q8. rewrite (@x_pips_flip _ (wf_len W)) in Q1, Q2, Q4.
  destruct (@x_pips_ext _ _ E) as (E1 & E2).
  pose proof (proj1 (position_eqb_iff _ _) E) as (Ep & Ex & Eo). cbn [flipP x_off o_off] in *.
  unfold dice_sum in *. simpl in Sk, R2, R4.
  destruct (Z.eq_dec (hit_distance (flipP p) q) 0) as [H0|H0].
  - pose proof (proj1 (proj2 (plays_hit Wf Vk Pk)) H0) as Q0.
    pose proof (plays_same Wf Vk Pk Q0) as S1. pose proof (plays_same W V2 P NH) as S2.
    assert (Full : forall i, (i <= 25)%nat -> Z.min 0 (pt p i) = Z.min 0 (- pt p (25 - i))).
    { intros i Hi. rewrite <- (@pt_flipP p i (wf_len W) Hi). destruct (Nat.eq_dec i 25) as [->|].
      - rewrite pt_flipP by (try apply W; lia). change (25 - 25)%nat with 0%nat. pose proof (wf_xbar W). pose proof (wf_obar W). lia.
      - rewrite <- S1, <- S2 by lia. rewrite (@eqb_pt _ _ i E). reflexivity. }
    assert (Ef : EqFacts.st (turn p) (flipP p) = p).
    { apply position_ext; simpl; [auto|lia|lia|apply (wf_len Wf)|apply W|].
      intros i Hi. change (pt (flipP p) i = pt p i). rewrite pt_flipP by (try apply W; lia).
      pose proof (Full i ltac:(lia)). pose proof (Full (25 - i)%nat ltac:(lia)) as F2.
      replace (25 - (25 - i))%nat with i in F2 by lia. lia. }
    assert (Eq : EqFacts.st (turn p) q = r).
    { apply eqb_turn; [|simpl; auto]. apply position_eqb_iff. simpl. auto. }
    pose proof (leaf_st (turn p) L) as L'. rewrite Ef, Eq in L'. exact L'.
  - exfalso. pose proof (hit_distance_nonneg (flipP p) q) as Hn.
    destruct (Z.eq_dec (x_off r) (x_off p)) as [Eo'|No].
    + specialize (R4 Eo'). lia.
    + pose proof (bearoff_home W Vb Vs P ltac:(lia)) as Home.
      assert (G : hit_distance (flipP p) q >= 13).
      { unfold hit_distance. assert (Ex1 : exists i, (1 <= i <= 24)%nat /\ lost (flipP p) q i <> 0).
        { destruct (existsb (fun i => negb (lost (flipP p) q i =? 0)) (seq 1 24)) eqn:X.
          - apply existsb_exists in X. destruct X as (i & Ii & Xi). apply in_seq in Ii. exists i. split; [lia|].
            destruct (Z.eqb_spec (lost (flipP p) q i) 0); [discriminate|auto].
          - exfalso. apply H0. unfold hit_distance. assert (Z0 : forall l, existsb (fun i => negb (lost (flipP p) q i =? 0)) l = false ->
              sumZ (map (fun i => Z.of_nat i * lost (flipP p) q i) l) = 0).
            { clear. induction l as [|i l IH]; simpl; auto. intros X. apply orb_false_iff in X. destruct X as (X1 & X2).
              apply negb_false_iff, Z.eqb_eq in X1. rewrite X1, (IH X2). lia. }
            apply Z0. exact X. }
        destruct Ex1 as (i & Hi & Li). assert (I13 : (13 <= i)%nat /\ lost (flipP p) q i = 1).
        { unfold lost in *. destruct (Z.eqb_spec (pt (flipP p) i) (-1)) as [Pi|]; [|simpl in Li; lia]. simpl in *.
          destruct (0 <=? pt q i); [|lia]. split; auto. rewrite pt_flipP in Pi by (try apply W; lia).
          destruct (Nat.le_gt_cases 13 i); auto. specialize (Home (25 - i)%nat ltac:(lia)). lia. }
        assert (S1 : forall l, In i l -> sumZ (map (fun i => Z.of_nat i * lost (flipP p) q i) l) >= Z.of_nat i).
        { assert (Pos : forall l, 0 <= sumZ (map (fun i => Z.of_nat i * lost (flipP p) q i) l)).
          { clear. induction l as [|k l IH]; simpl; [lia|]. unfold lost at 1. destruct (_ && _); lia. }
          induction l as [|kk l IH]; intros X; [destruct X|]. simpl. destruct X as [->|X].
          - pose proof (Pos l). destruct I13 as (_ & ->). lia.
          - specialize (IH X). unfold lost at 1. destruct (_ && _); lia. }
        specialize (S1 (seq 1 24) ltac:(apply in_seq; lia)). lia. }
      unfold valid_die in *. lia.
Qed.

(** ** The whole of [legal_for_steps] *)
Lemma orders_valid d : valid_dice d -> Forall (Forall valid_die) (die_orders d).
Proof. intros V. apply Forall_forall. intros o I. eapply order_valid; eauto. Qed.

Lemma legal_for_steps_ret m N p d wrap : wf N p -> ongoing N p -> valid_dice d ->
  exists legal s, classic_positions m N p d = Ret legal /\
    (forall q, In q legal <-> exists r, legal_result d p r /\ q = flipP r) /\
    legal_for_steps m N p d wrap = Ret (inr (filled wrap legal s)) /\ length s = length legal /\
    chain legal (blocks d p) (repeat None (length legal)) s.
Proof.
  intros W O V. destruct (movegen_correct m d W O V) as (legal & E & _ & H).
  destruct (@search_ret m N p legal (die_orders d) W (orders_valid _ V) (repeat None (length legal)) (repeat_length _ _)) as (s & Es & C).
  exists legal, s. split; [exact E|]. split.
  - intros q. rewrite H. split; intros (r & R & M); exists r; split; auto.
    + apply mirrored_iff; [apply (wf_len (legal_result_wf W V R))|auto].
    + subst q. apply flipP_mirrored. apply (legal_result_wf W V R).
  - split; [|split; [eapply chain_length; [|exact C]; apply repeat_length|exact C]].
    unfold legal_for_steps. unfold classic_positions in E |- *. rewrite E, bind_ret, Es, bind_ret. reflexivity.
Qed.

Lemma in_blocks d p o P : In (o, P) (blocks d p) <-> In o (die_orders d) /\ (P = p \/ P = flipP p).
Proof.
  unfold blocks. rewrite in_flat_map. split.
  - intros (o' & I & [E|[E|[]]]); inversion E; subst; auto.
  - intros (I & [->| ->]); exists o; simpl; auto.
Qed.

Lemma att_exists legal q : In q legal -> exists i, att legal q i.
Proof.
  intros I. apply rposition_existsb. apply existsb_exists. exists q. split; auto. apply eqb_refl.
Qed.
Lemma att_eqb legal c c' i : position_eqb c c' = true -> att legal c i -> att legal c' i.
Proof.
  unfold att. intros E <-.
  assert (G : forall x, position_eqb c x = position_eqb c' x).
  { intros x. apply position_eqb_iff in E. destruct E as (A & B & C). unfold position_eqb. rewrite A, B, C. reflexivity. }
  clear E. induction legal as [|x l IH]; simpl; auto. rewrite IH, G. reflexivity.
Qed.
Lemma eqb_sym p q : position_eqb p q = position_eqb q p.
Proof.
  destruct (position_eqb p q) eqn:E; symmetry.
  - apply position_eqb_iff in E. apply position_eqb_iff. intuition congruence.
  - apply not_true_iff_false. intros X. apply not_true_iff_false in E. apply E.
    apply position_eqb_iff in X. apply position_eqb_iff. intuition congruence.
Qed.
Lemma eqb_flip p q : position_eqb (flipP p) (flipP q) = true -> position_eqb p q = true.
Proof.
  intros E. apply position_eqb_iff in E. simpl in E. destruct E as (A & B & C). apply position_eqb_iff. split; [|split; congruence].
  apply (f_equal (@rev _)) in A. rewrite !rev_involutive in A.
  clear - A. revert A. generalize (pips q). induction (pips p) as [|x l IH]; intros [|y l']; simpl; intros A; try discriminate; auto.
  injection A as A1 A2. assert (x = y) as -> by lia. rewrite (IH _ A2). reflexivity.
Qed.

Section Slot.
  Context (m : mode) (N : Z) (p : position) (d : dice) (legal : list position) (s : slots).
  Context (W : wf N p) (V : valid_dice d)
    (HL : forall q, In q legal <-> exists r, legal_result d p r /\ q = flipP r)
    (Len : length s = length legal)
    (C : chain legal (blocks d p) (repeat None (length legal)) s).

  Lemma legal_turn q : In q legal -> turn q = negb (turn p).
  Proof. intros I. apply HL in I. destruct I as (r & R & ->). simpl. rewrite (legal_result_turn W V R). reflexivity. Qed.

  (** Every legal child has a filled slot. *)
  Lemma slot_filled q : In q legal -> exists i x, nth i s None = Some x /\ (i < length legal)%nat /\ nth i legal (mk []) = q.
  Proof.
    intros I. destruct (att_exists _ _ I) as (i & At). pose proof (proj1 (HL q) I) as (r & R & E).
    destruct (legal_leaf W V R) as (o & st & Io & L).
    assert (X : nth i s None <> None).
    { eapply chain_filled; [exact C| |exact L|]. { apply in_blocks. split; [exact Io|left; reflexivity]. }
      left. rewrite <- E. exact At. }
    destruct (nth i s None) as [x|] eqn:Nx; [|congruence]. destruct (att_lt At) as (Li & Eq).
    rewrite (nth_indep _ q (mk []) Li) in Eq.
    exists i, x. split; auto. split; auto. symmetry. apply eqb_turn; auto.
    rewrite (legal_turn _ I). symmetry. apply legal_turn. apply nth_In. auto.
  Qed.
  (** Only the last of several equal children has one. *)
  Lemma slot_unique i j : (i < j < length legal)%nat -> nth i s None <> None -> nth i legal (mk []) <> nth j legal (mk []).
  Proof.
    intros Hij Hn E. destruct (nth i s None) as [x|] eqn:Nx; [|congruence].
    destruct (chain_first C i (nth_repeat _ _ _) Nx) as (pre & o & P & post & q & _ & _ & At & _).
    assert (G : forall c, att legal c i -> False).
    { intros c A. destruct (rposition_Some _ _ (mk []) A) as (_ & E1 & E2). specialize (E2 j Hij). rewrite E in E1. congruence. }
    destruct At as [At|At]; exact (G _ At).
  Qed.

  (** The stored steps play to the child: for doubles, for plays that can be made with the bigger die
      first, and for plays without a hit. *)
  Lemma slot_applies i x r : nth i s None = Some x -> (i < length legal)%nat -> nth i legal (mk []) = flipP r ->
    legal_result d p r ->
    (match d with Double _ => True | Mixed b s => (exists st, leaf [b; s] p st r) \/ pt r 0 = pt p 0 end) ->
    core m p d x = Ret (Some (flipP r)) /\ Forall on_board x.
  Proof.
    intros Nx Li Ei R Cond.
    assert (In_r : In (flipP r) legal) by (apply HL; eauto).
    destruct (chain_first C i (nth_repeat _ _ _) Nx) as (pre & o & P & post & q & Eb & L & At & No).
    assert (Io : In o (die_orders d) /\ (P = p \/ P = flipP p)).
    { apply in_blocks. rewrite Eb. apply in_elt. }
    destruct Io as (Io & HP). pose proof (order_valid _ _ V Io) as Vo.
    pose proof (legal_result_turn W V R) as Tr.
    assert (Eq : position_eqb q r = true \/ position_eqb q (flipP r) = true).
    { destruct At as [At|At]; destruct (att_lt At) as (_ & E); rewrite (nth_indep _ _ (mk []) Li), Ei in E; auto.
      left. apply eqb_flip. exact E. }
    (* what slot [i] is: the place of [flipP r] *)
    assert (Ati : att legal (flipP r) i).
    { destruct At as [At|At]; (eapply att_eqb; [|exact At]); destruct (att_lt At) as (_ & E); rewrite (nth_indep _ _ (mk []) Li), Ei in E; exact E. }
    destruct (legal_leaf W V R) as (o0 & st0 & I0 & L0).
    (* leaves from the start *)
    assert (Start : P = p -> leaf o p x r).
    { intros ->. destruct Eq as [E|E].
      - assert (q = r) as <- by (apply eqb_turn; auto; rewrite (leaf_turn L), Tr; auto). exact L.
      - rewrite <- (@kind_B N p d o o0 x st0 q r W V Io I0 L L0 E). exact L. }
    assert (Fin : leaf o p x r -> first_leaf d o p r -> core m p d x = Ret (Some (flipP r)) /\ Forall on_board x).
    { intros L' F. split; [eapply leaf_apply; eauto|exact (leaf_on_board Vo L')]. }
    destruct d as [b sm|a].
    - pose proof V as (Vb & Vs & Lt). unfold blocks in Eb. cbn [die_orders flat_map app] in Eb.
      destruct pre as [|e1 [|e2 [|e3 [|e4 pre]]]]; cbn [app] in Eb.
      + assert (o = [b; sm]) as -> by congruence. assert (P = p) by congruence.
        apply Fin; [auto|left; auto].
      + (* second search *)
        assert (o = [b; sm]) as -> by congruence. assert (P = flipP p) as -> by congruence. assert (e1 = ([b; sm], p)) as -> by congruence.
        assert (NL : forall st, ~ leaf [b; sm] p st r).
        { intros st' L'. eapply No; [left; reflexivity|exact L'|left; exact Ati]. }
        destruct (legal_leaf_mixed W V R) as [(st' & L')|(Pl & _)]; [exfalso; eapply NL; eauto|].
        destruct Cond as [(st' & L')|NH]; [exfalso; eapply NL; eauto|].
        destruct Eq as [E|E].
        * exfalso. eapply NL. eapply kind_C; eauto.
        * exfalso. eapply kind_D; [exact W|exact Vb|exact Vs|exact Vo|exact Pl|exact L|exact E].
      + assert (o = [sm; b]) as -> by congruence. assert (P = p) by congruence. assert (e1 = ([b; sm], p)) as -> by congruence.
        apply Fin; [auto|]. right. split; auto. intros st' L'. eapply No; [left; reflexivity|exact L'|left; exact Ati].
      + exfalso. assert (e1 = ([b; sm], p)) as -> by congruence. assert (e3 = ([sm; b], p)) as -> by congruence.
        cbn [die_orders In] in I0. destruct I0 as [<-|[<-|[]]].
        * eapply No; [left; reflexivity|exact L0|left; exact Ati].
        * eapply No; [right; right; left; reflexivity|exact L0|left; exact Ati].
      + apply (f_equal (@length _)) in Eb. simpl in Eb. rewrite app_length in Eb. simpl in Eb. lia.
    - unfold blocks in Eb. cbn [die_orders flat_map app] in Eb.
      destruct pre as [|e1 [|e2 pre]]; cbn [app] in Eb.
      + assert (o = [a; a; a; a]) as -> by congruence. assert (P = p) by congruence. apply Fin; [auto|reflexivity].
      + exfalso. assert (e1 = ([a; a; a; a], p)) as -> by congruence. cbn [die_orders In] in I0. destruct I0 as [<-|[]].
        eapply No; [left; reflexivity|exact L0|left; exact Ati].
      + apply (f_equal (@length _)) in Eb. simpl in Eb. rewrite app_length in Eb. simpl in Eb. lia.
  Qed.
  Lemma slot_on_board i x : nth i s None = Some x -> Forall on_board x.
  Proof.
    intros Nx. destruct (chain_first C i (nth_repeat _ _ _) Nx) as (pre & o & P & post & q & Eb & L & _).
    assert (Io : In o (die_orders d) /\ (P = p \/ P = flipP p)).
    { apply in_blocks. rewrite Eb. apply in_elt. }
    exact (leaf_on_board (order_valid _ _ V (proj1 Io)) L).
  Qed.
End Slot.

Lemma filled_nodup wrap legal : (forall a b, wrap a = wrap b -> a = b) -> forall s, length s = length legal ->
  (forall i j, (i < j < length legal)%nat -> nth i s None <> None -> nth i legal (mk []) <> nth j legal (mk [])) ->
  NoDup (map snd (filled wrap legal s)).
Proof.
  intros Inj. induction legal as [|c legal IH]; intros [|o s] Len H; try discriminate Len; simpl in Len; [constructor|].
  assert (Len' : length s = length legal) by lia.
  assert (T : NoDup (map snd (filled wrap legal s))).
  { apply IH; auto. intros i j Hij Hn. apply (H (S i) (S j)); simpl; [lia|exact Hn]. }
  destruct o as [y|]; cbn [filled map]; auto. constructor; auto.
  intros I. apply in_map_iff in I. destruct I as (e & Ee & I). apply (in_filled wrap legal s e Len') in I.
  destruct I as (i & x & Nx & Li & ->). simpl in Ee. apply Inj in Ee.
  apply (H 0%nat (S i)); simpl; [lia|discriminate|auto].
Qed.
