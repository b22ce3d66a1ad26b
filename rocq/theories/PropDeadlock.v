(** C76: games do not get stuck. *)
From Verif Require Import SpecDeadlock RaceFacts PropPosition PropMoves PropGame GameFacts VariantFacts.
From Coq Require Import Permutation.
Unset Implicit Arguments.
Open Scope Z_scope.

Definition stuck (p : position) : Prop := forall d a, valid_die d -> ~ may_move p d a.

Lemma stuck_dec N p : wf N p -> (exists d a, valid_die d /\ may_move p d a) \/ stuck p.
Proof.
  intros W.
  destruct (existsb (fun d => existsb (fun a => legalb p d a) (seq 0 26)) (seq 1 6)) eqn:E.
  - left. apply existsb_exists in E. destruct E as (d & Hd & E). apply existsb_exists in E.
    destruct E as (a & Ha & E). apply in_seq in Hd. apply in_seq in Ha. exists d, a.
    assert (V : valid_die d) by (split; lia). split; auto.
    apply (@legalb_spec p d a (wf_len W) (wf_obar W)); auto; lia.
  - right. intros d a V M. pose proof (may_move_range M) as R.
    assert (X : existsb (fun d => existsb (fun a => legalb p d a) (seq 0 26)) (seq 1 6) = true); [|congruence].
    apply existsb_exists. exists d. split; [apply in_seq; destruct V; lia|].
    apply existsb_exists. exists a. split; [apply in_seq; lia|].
    apply (@legalb_spec p d a (wf_len W) (wf_obar W)); auto; lia.
Qed.

Lemma stuck_plays p ds r : stuck p -> Forall valid_die ds -> plays ds p r -> ds = [] /\ r = p.
Proof.
  intros S F P. destruct P as [|d ds p a q r M _ _]; auto. inversion F; subst. exfalso. exact (S d a H1 M).
Qed.

(** A play that uses a die changes the board. *)
Lemma plays_less N ds : forall p r, wf N p -> Forall valid_die ds -> plays ds p r ->
  x_pips r + Z.of_nat (length ds) <= x_pips p.
Proof.
  induction ds as [|d ds IH]; intros p r W F P; inversion P as [|? ? ? a q ? A B C]; subst; [simpl; lia|].
  inversion F as [|? ? V F']; subst. pose proof (may_move_range A). pose proof (may_move_pre A) as Pr.
  apply moved_iff in B; [subst|apply W|lia|destruct V; lia].
  specialize (IH _ _ (mv_wf W V Pr) F' C). rewrite (x_pips_mv W V Pr), Nat2Z.inj_min in IH.
  destruct V. cbn [length]. lia.
Qed.

Lemma cannot_move_stuck k p : wf (checkers k) p -> ongoing (checkers k) p ->
  (cannot_move (tag k p) <-> stuck p).
Proof.
  intros W O. split.
  - intros C d a V M.
    assert (VD : valid_dice (Double d)) by exact V.
    assert (Ow : vongoing (tag k p)) by (rewrite vongoing_tag; auto).
    assert (Wv : vwf k (tag k p)) by (exists p; auto).
    destruct (@legal_positions_correct Debug k (tag k p) (Double d) Wv Ow VD) as (l & _ & Ne & H).
    destruct l as [|w l]; [congruence|]. pose proof (proj1 (H w) (or_introl eq_refl)) as L.
    specialize (C _ _ VD L). destruct (vlegal_wf _ W VD L) as (r & -> & (ds & U & P & Mx & _) & Wr).
    rewrite !board_of_tag in C. apply mirrored_iff in C; [|apply W].
    apply flipP_inj in C. subst r.
    pose proof (plays_less _ ds p p W (uses_valid VD U) P) as X.
    pose proof (may_move_range M).
    assert (Y : (1 <= length ds)%nat).
    { apply (Mx [d] (mv p d a)).
      - exists [d; d; d]. cbn. constructor. apply Permutation_refl.
      - econstructor; [exact M| |constructor]. apply moved_iff; auto. apply W. destruct V; lia. }
    lia.
  - intros S d w V L. destruct (vlegal_wf _ W V L) as (r & -> & (ds & U & P & _) & Wr).
    destruct (stuck_plays p ds r S (uses_valid V U) P) as [_ ->]. rewrite !board_of_tag.
    apply flipP_mirrored. apply W.
Qed.

(** The player to move, with a checker on the bar, is stuck iff the home board in front is closed. *)
Lemma stuck_bar p : 0 < pt p 25 -> (stuck p <-> forall i, (19 <= i <= 24)%nat -> pt p i <= -2).
Proof.
  intros B. split.
  - intros S i Hi. destruct (Z_le_gt_dec (pt p i) (-2)) as [|G]; auto. exfalso.
    apply (S (25 - i)%nat 25%nat ltac:(split; lia)). split; [lia|]. split; auto. split; [lia|].
    split; [|lia]. intros _. replace (25 - (25 - i))%nat with i by lia. lia.
  - intros H d a [V1 V2] (R & X & Bar & T & _). destruct (Nat.eq_dec a 25) as [->|Na].
    + specialize (T ltac:(lia)). specialize (H (25 - d)%nat ltac:(lia)). lia.
    + specialize (Bar Na). lia.
Qed.

Lemma step_open p a d : (1 <= d <= 6)%nat -> (d < a <= 24)%nat -> pt p 25 <= 0 -> 0 < pt p a -> -2 < pt p (a - d) ->
  ~ stuck p.
Proof.
  intros D A B X T S. apply (S d a D). split; [lia|]. split; auto. split; [lia|]. split; [auto|lia].
Qed.

(** Nobody on the bar: at most one of the players is stuck. *)
Lemma no_bar_moves N p : wf N p -> x_off p < N -> pt p 25 = 0 -> pt p 0 = 0 -> stuck p -> stuck (flipP p) -> False.
Proof.
  intros W Ox B B0 S S'. pose proof (wf_len W) as L.
  assert (X1 : forall a d, (1 <= d <= 6)%nat -> (d < a <= 24)%nat -> 0 < pt p a -> pt p (a - d) <= -2).
  { intros a d D A X. destruct (Z_le_gt_dec (pt p (a - d)) (-2)); auto. exfalso.
    exact (step_open p a d D A ltac:(lia) X ltac:(lia) S). }
  assert (O1 : forall a d, (1 <= d <= 6)%nat -> (1 <= a)%nat -> (a + d <= 24)%nat -> pt p a < 0 -> 2 <= pt p (a + d)).
  { intros a d D A A' X. destruct (Z_le_gt_dec 2 (pt p (a + d))); auto. exfalso.
    refine (step_open (flipP p) (25 - a)%nat d D _ _ _ _ S'); rewrite ?pt_flipP by (auto; lia); try lia.
    - change (25 - 25)%nat with 0%nat. lia.
    - replace (25 - (25 - a))%nat with a by lia. lia.
    - replace (25 - (25 - a - d))%nat with (a + d)%nat by lia. lia. }
  assert (X2 : forall a, (2 <= a <= 23)%nat -> pt p a <= 0).
  { intros a Ha. destruct (Z_le_gt_dec (pt p a) 0); auto. exfalso.
    pose proof (X1 a 1%nat ltac:(lia) ltac:(lia) ltac:(lia)) as Y.
    pose proof (O1 (a - 1)%nat 2%nat ltac:(lia) ltac:(lia) ltac:(lia) ltac:(lia)) as Y2.
    replace (a - 1 + 2)%nat with (a + 1)%nat in Y2 by lia.
    pose proof (X1 (a + 1)%nat 1%nat ltac:(lia) ltac:(lia) ltac:(lia)) as Y3.
    replace (a + 1 - 1)%nat with a in Y3 by lia. lia. }
  assert (X3 : pt p 24 <= 0).
  { destruct (Z_le_gt_dec (pt p 24) 0); auto. exfalso.
    pose proof (X1 24%nat 1%nat ltac:(lia) ltac:(lia) ltac:(lia)) as Y.
    pose proof (X1 24%nat 2%nat ltac:(lia) ltac:(lia) ltac:(lia)) as Y1.
    change (24 - 1)%nat with 23%nat in Y. change (24 - 2)%nat with 22%nat in Y1.
    pose proof (O1 22%nat 1%nat ltac:(lia) ltac:(lia) ltac:(lia) ltac:(lia)) as Y2.
    change (22 + 1)%nat with 23%nat in Y2. lia. }
  destruct (exists_x W Ox) as (i & Hi & X).
  assert (i = 1%nat).
  { destruct (Nat.eq_dec i 0) as [->|]; [lia|]. destruct (Nat.eq_dec i 25) as [->|]; [lia|].
    destruct (Nat.eq_dec i 24) as [->|]; [lia|]. destruct (Nat.eq_dec i 1); auto.
    pose proof (X2 i ltac:(lia)). lia. }
  subst i. apply (S 1%nat 1%nat ltac:(split; lia)). split; [lia|]. split; auto. split; [lia|].
  split; [lia|]. intros _. split; [|lia]. intros j Hj.
  destruct (Nat.eq_dec j 25) as [->|]; [lia|]. destruct (Nat.eq_dec j 24) as [->|]; [lia|]. apply X2. lia.
Qed.

Lemma closed_flip p : length (pips p) = 26%nat -> both_closed_out p -> both_closed_out (flipP p).
Proof.
  intros L (A & B & C & D). unfold both_closed_out. repeat split.
  - rewrite pt_flipP by (auto; lia). change (25 - 25)%nat with 0%nat. lia.
  - intros i Hi. rewrite pt_flipP by (auto; lia). specialize (D (25 - i)%nat ltac:(lia)). lia.
  - rewrite pt_flipP by (auto; lia). change (25 - 0)%nat with 25%nat. lia.
  - intros i Hi. rewrite pt_flipP by (auto; lia). specialize (B (25 - i)%nat ltac:(lia)). lia.
Qed.

(** A player with a closed home board and nothing on the bar can move. *)
Lemma closed_home_moves p : pt p 25 <= 0 -> (forall i, (1 <= i <= 6)%nat -> 2 <= pt p i) -> ~ stuck p.
Proof.
  intros B H. pose proof (H 6%nat ltac:(lia)). pose proof (H 5%nat ltac:(lia)).
  apply (step_open p 6 1); try lia. change (6 - 1)%nat with 5%nat. lia.
Qed.

Lemma both_stuck N p : wf N p -> ongoing N p -> (stuck p /\ stuck (flipP p) <-> both_closed_out p).
Proof.
  intros W O. pose proof (wf_len W) as L. pose proof (wf_xbar W) as WB. pose proof (wf_obar W) as WO.
  assert (F25 : pt (flipP p) 25 = - pt p 0) by (rewrite pt_flipP by (auto; lia); reflexivity).
  assert (Fi : forall i, (1 <= i <= 24)%nat -> pt (flipP p) i = - pt p (25 - i)) by (intros; apply pt_flipP; auto; lia).
  split.
  - intros [S S']. destruct (Z.eq_dec (pt p 25) 0) as [E|E].
    + exfalso. destruct (Z.eq_dec (pt p 0) 0) as [E0|E0].
      * exact (no_bar_moves N p W (proj1 O) E E0 S S').
      * apply (closed_home_moves p ltac:(lia)); auto. intros i Hi.
        pose proof (proj1 (stuck_bar (flipP p) ltac:(lia)) S' (25 - i)%nat ltac:(lia)) as X.
        rewrite Fi in X by lia. replace (25 - (25 - i))%nat with i in X by lia. lia.
    + pose proof (proj1 (stuck_bar p ltac:(lia)) S) as C.
      destruct (Z.eq_dec (pt p 0) 0) as [E0|E0].
      * exfalso. apply (closed_home_moves (flipP p) ltac:(lia)); auto. intros i Hi. rewrite Fi by lia.
        specialize (C (25 - i)%nat ltac:(lia)). lia.
      * split; [lia|]. split; auto. split; [lia|]. intros i Hi.
        pose proof (proj1 (stuck_bar (flipP p) ltac:(lia)) S' (25 - i)%nat ltac:(lia)) as X.
        rewrite Fi in X by lia. replace (25 - (25 - i))%nat with i in X by lia. lia.
  - intros C. pose proof (closed_flip p L C) as C'. destruct C as (A & B & _). destruct C' as (A' & B' & _).
    split; apply stuck_bar; auto.
Qed.

(** ** C76 *)

(** Nobody can ever move again exactly when both players are closed out. *)
Theorem C76_deadlock_exact : forall k v, vwf k v -> vongoing v -> (deadlock v <-> both_closed_out (board_of v)).
Proof.
  intros k v (p & -> & W) O. rewrite vongoing_tag in O. rewrite board_of_tag.
  rewrite <- (both_stuck (checkers k) p W O).
  assert (O' : ongoing (checkers k) (flipP p)) by (destruct O; split; auto).
  unfold deadlock. rewrite (cannot_move_stuck k p W O). split; intros [S H]; split; auto.
  - assert (V : valid_dice (Double 1)) by (split; lia).
    destruct (@legal_positions_correct Debug k (tag k p) (Double 1) ltac:(exists p; auto)
                ltac:(rewrite vongoing_tag; auto) V) as (l & _ & Ne & HL).
    destruct l as [|w l]; [congruence|]. pose proof (proj1 (HL w) (or_introl eq_refl)) as Lw.
    specialize (H _ _ V Lw). destruct (vlegal_wf _ W V Lw) as (r & -> & (ds & U & P & _) & Wr).
    destruct (stuck_plays p ds r S (uses_valid V U) P) as [_ ->].
    apply (cannot_move_stuck k (flipP p)); auto. apply flipP_wf; auto.
  - intros d w V Lw. destruct (vlegal_wf _ W V Lw) as (r & -> & (ds & U & P & _) & Wr).
    destruct (stuck_plays p ds r S (uses_valid V U) P) as [_ ->].
    apply (cannot_move_stuck k (flipP p)); auto. apply flipP_wf; auto.
Qed.

(** Once there, the board stays as it is for ever. *)
Theorem C76_deadlock_lasts : forall k v n w, vwf k v -> both_closed_out (board_of v) -> played n v w ->
  both_closed_out (board_of w) /\
  (if Nat.odd n then mirrored (board_of v) (board_of w) else board_of w = board_of v).
Proof.
  intros k v n w W C P. induction P as [v|n v w u d O V L P IH]; [cbn; auto|].
  pose proof W as (p & E & Wp). subst v. rewrite board_of_tag in *. rewrite vongoing_tag in O.
  pose proof (proj2 (both_stuck (checkers k) p Wp O) C) as [S S'].
  destruct (vlegal_wf _ Wp V L) as (r & -> & (ds & U & Pl & _) & Wr).
  destruct (stuck_plays p ds r S (uses_valid V U) Pl) as [_ ->]. rewrite board_of_tag in IH.
  destruct (IH ltac:(exists (flipP p); split; auto; apply flipP_wf; auto)
               (closed_flip p (wf_len Wp) C)) as [A B].
  split; auto. rewrite Nat.odd_succ, <- Nat.negb_odd. destruct (Nat.odd n); cbn [negb].
  - apply mirrored_iff in B; [|rewrite flipP_length; apply Wp]. rewrite flipP_involutive in B. auto.
  - rewrite B. apply flipP_mirrored. apply Wp.
Qed.

(** If both players have a checker on the bar, one of them has a checker in the home board it has to enter. *)
Definition foothold (p : position) : Prop :=
  0 < pt p 25 -> pt p 0 < 0 ->
  (exists i, (19 <= i <= 24)%nat /\ 0 < pt p i) \/ (exists i, (1 <= i <= 6)%nat /\ pt p i < 0).

Lemma foothold_plays N ds : forall p r, wf N p -> Forall valid_die ds -> plays ds p r -> foothold p -> foothold r.
Proof.
  induction ds as [|d ds IH]; intros p r W F P H; inversion P as [|? ? ? a q ? A B C]; subst; auto.
  inversion F as [|? ? V F']; subst. pose proof (may_move_range A). pose proof (may_move_pre A) as Pr.
  pose proof A as (_ & Hx & Hb & Ht & _).
  apply moved_iff in B; [subst|apply W|lia|destruct V; lia].
  apply (IH _ _ (mv_wf W V Pr) F' C). intros X O. left. destruct V as [V1 V2].
  destruct (Nat.eq_dec a 25) as [->|Na].
  - exists (25 - d)%nat. split; [lia|]. specialize (Ht ltac:(lia)).
    rewrite pt_mv by (try apply W; lia).
    destruct (Nat.eqb_spec (25 - d) 25); [lia|].
    destruct (Nat.ltb_spec d 25); [|lia]. rewrite Nat.eqb_refl. cbn [andb].
    destruct (Z.eqb_spec (pt p (25 - d)) (-1)); try lia.
  - exfalso. specialize (Hb Na). rewrite pt_mv in X by (try apply W; lia).
    destruct (Nat.eqb_spec 25 a); [lia|].
    destruct (Nat.ltb_spec d a); cbn [andb] in X.
    + destruct (Nat.eqb_spec 25 (a - d)); [lia|]. change (25 =? 0)%nat with false in X. cbn [andb] in X. lia.
    + lia.
Qed.

Lemma foothold_flip p : length (pips p) = 26%nat -> foothold p -> foothold (flipP p).
Proof.
  intros L H A B. rewrite pt_flipP in A, B by (auto; lia).
  change (25 - 25)%nat with 0%nat in A. change (25 - 0)%nat with 25%nat in B.
  destruct (H ltac:(lia) ltac:(lia)) as [(i & Hi & X)|(i & Hi & X)]; [right|left]; exists (25 - i)%nat;
    (split; [lia|]); rewrite pt_flipP by (auto; lia); replace (25 - (25 - i))%nat with i by lia; lia.
Qed.

Lemma foothold_played k n v w : vwf k v -> played n v w -> foothold (board_of v) -> foothold (board_of w).
Proof.
  intros W P. induction P as [v|n v w u d O V L P IH]; auto. intros H.
  pose proof (vlegal_vwf W V L) as Ww. apply IH; auto.
  destruct W as (p & -> & W). destruct (vlegal_wf _ W V L) as (r & -> & (ds & U & Pl & _) & Wr).
  rewrite board_of_tag in *. apply foothold_flip; [apply Wr|].
  exact (foothold_plays _ ds p r W (uses_valid V U) Pl H).
Qed.

(** A game from a start position never gets there... *)
Theorem C76_never_closed_out : forall k n w, played n (start_position k) w -> ~ both_closed_out (board_of w).
Proof.
  intros k n w P (A & B & C & D). destruct (start_wf k) as [W _].
  assert (F : foothold (board_of (start_position k))).
  { intros X. exfalso. destruct k; vm_compute in X; discriminate X. }
  destruct (foothold_played k n _ w W P F A C) as [(i & Hi & X)|(i & Hi & X)].
  - specialize (B i Hi). lia.
  - specialize (D i Hi). lia.
Qed.

(** ... so while it goes on, [legal_positions] lists for some roll a position with another board, or,
    for every roll, only the passed turn, after which it does so for some roll of the opponent. *)
Definition some_move (m : mode) (v : vpos) : Prop :=
  exists d l w, valid_dice d /\ legal_positions m v d = Ret l /\ In w l /\ ~ mirrored (board_of v) (board_of w).

Lemma some_move_of m k p : wf (checkers k) p -> ongoing (checkers k) p -> ~ stuck p -> some_move m (tag k p).
Proof.
  intros W O S. destruct (stuck_dec (checkers k) p W) as [(d & a & V & M)|]; [|contradiction].
  assert (VD : valid_dice (Double d)) by exact V.
  destruct (@legal_positions_correct m k (tag k p) (Double d) ltac:(exists p; auto)
              ltac:(rewrite vongoing_tag; auto) VD) as (l & E & Ne & HL).
  destruct l as [|w l]; [congruence|]. exists (Double d), (w :: l), w.
  split; auto. split; auto. split; [left; auto|]. intros C.
  pose proof (proj1 (HL w) (or_introl eq_refl)) as L.
  destruct (vlegal_wf _ W VD L) as (r & -> & (ds & U & P & Mx & _) & Wr).
  rewrite !board_of_tag in C. apply mirrored_iff in C; [|apply W]. apply flipP_inj in C. subst r.
  pose proof (plays_less _ ds p p W (uses_valid VD U) P) as X. pose proof (may_move_range M).
  assert (Y : (1 <= length ds)%nat); [|lia].
  apply (Mx [d] (mv p d a)).
  - exists [d; d; d]. cbn. constructor. apply Permutation_refl.
  - econstructor; [exact M| |constructor]. apply moved_iff; auto. apply W. destruct V; lia.
Qed.

Theorem C76_never_stuck : forall m k n v, played n (start_position k) v -> vongoing v ->
  some_move m v \/
  (forall d l w, valid_dice d -> legal_positions m v d = Ret l -> In w l ->
     mirrored (board_of v) (board_of w) /\ some_move m w).
Proof.
  intros m k n v P O. destruct (start_wf k) as [W0 _]. pose proof (played_vwf W0 P) as W.
  pose proof (C76_never_closed_out k n v P) as NC. pose proof W as (p & E & Wp). subst v.
  pose proof O as Ot. rewrite vongoing_tag in Ot. rewrite board_of_tag in NC.
  destruct (stuck_dec (checkers k) p Wp) as [(d & a & V & M)|S].
  - left. apply some_move_of; auto. intros S. exact (S d a V M).
  - right. intros d l w V El I.
    destruct (@legal_positions_correct m k (tag k p) d W O V) as (l' & El' & _ & HL).
    rewrite El in El'. inversion El'; subst l'. apply HL in I.
    destruct (vlegal_wf _ Wp V I) as (r & -> & (ds & U & Pl & _) & Wr).
    destruct (stuck_plays p ds r S (uses_valid V U) Pl) as [_ ->]. rewrite !board_of_tag.
    split; [apply flipP_mirrored; apply Wp|]. apply some_move_of.
    + apply flipP_wf; auto.
    + destruct Ot; split; auto.
    + intros S'. apply NC. apply (both_stuck (checkers k) p Wp Ot). auto.
Qed.

(** A well-formed position of backgammon in which nobody can move any more (it can be set up, but not
    reached by play). *)
Definition ex_deadlock : vpos := VBackgammon {| turn := true;
  pips := [-1; 2; 2; 2; 2; 2; 2; 0; 0; 0; 0; 0; 0; 0; 0; 0; 0; 0; 0; -2; -2; -2; -2; -2; -2; 1]; x_off := 2; o_off := 2 |}.
Example C76_ex : vwf Backgammon ex_deadlock /\ vongoing ex_deadlock /\ both_closed_out (board_of ex_deadlock).
Proof.
  split; [|split].
  - eexists. split; [reflexivity|]. constructor; vm_compute; repeat split; discriminate.
  - exists Backgammon. eexists. split; [reflexivity|]. split; vm_compute; reflexivity.
  - split; [reflexivity|]. split; [|split; [reflexivity|]].
    + intros i Hi. do 25 (destruct i as [|i]; [try lia; vm_compute; discriminate|]). lia.
    + intros i Hi. do 7 (destruct i as [|i]; [try lia; vm_compute; discriminate|]). lia.
Qed.
