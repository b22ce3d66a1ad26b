(** C82: what a single turn can and cannot change. *)
From Verif Require Import SpecLaws RaceFacts PropPosition PropMoves GameFacts VariantFacts PropDeadlock.
From Coq Require Import Permutation.
Unset Implicit Arguments.
Open Scope Z_scope.

(** ** One move, point by point *)
Lemma step_points N p d a q : wf N p -> valid_die d -> may_move p d a -> moved p d a q ->
  q = mv p d a /\ wf N q /\ (1 <= a <= 25)%nat /\
  (forall i, (1 <= i <= 25)%nat -> Z.max 0 (pt q i) =
     Z.max 0 (pt p i) + (if (i =? a)%nat then -1 else 0) +
     (if (i =? a - d)%nat then (if (d <? a)%nat then 1 else 0) else 0)).
Proof.
  intros W V M Q. pose proof (may_move_range M) as R. pose proof (wf_len W) as L.
  assert (E : q = mv p d a) by (destruct V; apply moved_iff; auto).
  split; [exact E|]. split; [subst; apply (may_wf W V M)|]. split; auto.
  destruct M as (R1 & P1 & _ & B & _). destruct V as [V1 V2].
  intros i Hi. subst q. rewrite pt_mv by (auto; lia).
  destruct (Nat.eqb_spec i a) as [->|].
  - destruct (Nat.eqb_spec a (a - d)); lia.
  - destruct (Nat.ltb_spec d a); simpl.
    + destruct (Nat.eqb_spec i (a - d)) as [->|].
      * specialize (B H). destruct (Z.eqb_spec (pt p (a - d)) (-1)); lia.
      * destruct (Nat.eqb_spec i 0); [lia|]. simpl. lia.
    + destruct (i =? a - d)%nat; lia.
Qed.

Lemma existsb_seq t j n : existsb (Nat.eqb t) (seq j n) = ((j <=? t) && (t <? j + n))%nat.
Proof.
  destruct (existsb (Nat.eqb t) (seq j n)) eqn:E.
  - apply existsb_exists in E. destruct E as (x & Hx & E). apply Nat.eqb_eq in E. subst.
    apply in_seq in Hx. symmetry. apply andb_true_iff. split; [apply Nat.leb_le|apply Nat.ltb_lt]; lia.
  - symmetry. apply not_true_iff_false. intros X. apply andb_true_iff in X. destruct X as [X Y].
    apply Nat.leb_le in X. apply Nat.ltb_lt in Y. apply not_true_iff_false in E. apply E.
    apply existsb_exists. exists t. split; [apply in_seq; lia|apply Nat.eqb_refl].
Qed.

Lemma step_behind N p d a q j : wf N p -> valid_die d -> may_move p d a -> moved p d a q -> (1 <= j <= 25)%nat ->
  behind (pt q) j = behind (pt p) j - (if (j <=? a)%nat && negb (j + d <=? a)%nat then 1 else 0).
Proof.
  intros W V M Q J. destruct (step_points N p d a q W V M Q) as (_ & _ & R & H).
  unfold behind. destruct V as [V1 V2].
  rewrite (map_ext_in _ (fun i => (Z.max 0 (pt p i) + (if (i =? a)%nat then -1 else 0)) +
     (if (i =? a - d)%nat then (if (d <? a)%nat then 1 else 0) else 0))).
  2:{ intros i Hi. apply in_seq in Hi. apply H. lia. }
  rewrite !sumZ_add.
  rewrite (sumZ_single (fun _ => -1) a) by apply seq_NoDup.
  rewrite (sumZ_single (fun _ => if (d <? a)%nat then 1 else 0) (a - d)) by apply seq_NoDup.
  rewrite !existsb_seq.
  replace (j + (26 - j))%nat with 26%nat by lia.
  destruct (Nat.leb_spec j a), (Nat.ltb_spec a 26), (Nat.leb_spec (j + d) a), (Nat.leb_spec j (a - d)),
    (Nat.ltb_spec (a - d) 26), (Nat.ltb_spec d a); simpl; lia.
Qed.

Lemma step_home p d a q : length (pips p) = 26%nat -> valid_die d -> may_move p d a -> moved p d a q ->
  (forall i, (6 < i <= 25)%nat -> pt p i <= 0) -> forall i, (6 < i <= 25)%nat -> pt q i <= 0.
Proof.
  intros L V M Q H i Hi. pose proof (may_move_range M). destruct V as [V1 V2].
  destruct M as (R1 & P1 & _). assert (a <= 6)%nat.
  { destruct (le_lt_dec a 6); auto. specialize (H a). lia. }
  rewrite (mvd_rest Q) by lia. apply H. lia.
Qed.

(** ** Several moves *)
Definition hit_count (p r : position) : Z := sumZ (map (lost p r) (seq 1 24)).

Lemma hit_count_refl p : hit_count p p = 0.
Proof.
  unfold hit_count. generalize (seq 1 24). induction l as [|i l IH]; simpl; auto.
  unfold lost at 1. destruct (Z.eqb_spec (pt p i) (-1)) as [E|]; simpl; [rewrite E; simpl|]; lia.
Qed.
Lemma hit_count_trans p q r : o_kept p q -> o_kept q r -> hit_count p r = hit_count p q + hit_count q r.
Proof.
  intros A B. unfold hit_count. rewrite <- sumZ_add. f_equal. apply map_ext_in.
  intros i Hi. apply in_seq in Hi. rewrite (lost_trans A B) by lia. lia.
Qed.
Lemma hit_count_step N p d a : wf N p -> valid_die d -> may_move p d a ->
  hit_count p (mv p d a) = if (d <? a)%nat && (pt p (a - d) =? -1) then 1 else 0.
Proof.
  intros W V M. pose proof (may_move_pre M) as P. pose proof (may_move_range M) as R.
  unfold hit_count.
  rewrite (map_ext_in _ (fun i => if (i =? a - d)%nat then
     (if (d <? a)%nat && (pt p (a - d) =? -1) then 1 else 0) else 0)).
  2:{ intros i Hi. apply in_seq in Hi. rewrite (lost_step W V P) by lia.
      destruct (d <? a)%nat, (i =? a - d)%nat; simpl; auto. }
  rewrite (sumZ_single (fun _ => if (d <? a)%nat && (pt p (a - d) =? -1) then 1 else 0)) by apply seq_NoDup.
  rewrite existsb_seq. destruct V as [V1 V2].
  destruct (Nat.ltb_spec d a); simpl.
  - destruct (Nat.leb_spec 1 (a - d)); [|lia]. destruct (Nat.ltb_spec (a - d) 25); [|lia]. reflexivity.
  - destruct (_ && _); auto.
Qed.

Record law (n : Z) (p r : position) : Prop := {
  law_kept : o_kept p r;
  law_ooff : o_off r = o_off p;
  law_obar : pt r 0 = pt p 0 - hit_count p r;
  law_hits : hit_count p r <= n;
  law_xoff : x_off p <= x_off r <= x_off p + n;
  law_home : x_off p < x_off r -> forall i, (6 < i <= 25)%nat -> pt r i <= 0;
  law_stay : (forall i, (6 < i <= 25)%nat -> pt p i <= 0) -> forall i, (6 < i <= 25)%nat -> pt r i <= 0;
  law_behind : forall j, (1 <= j <= 25)%nat -> behind (pt p) j - n <= behind (pt r) j <= behind (pt p) j;
  law_xbar : pt r 25 <= pt p 25;
  law_bar : 0 < pt r 25 -> x_off r = x_off p /\ pt p 25 - n <= pt r 25 /\
    (forall i, (1 <= i <= 18)%nat -> pt r i = pt p i) /\
    (forall i, (19 <= i <= 24)%nat -> Z.max 0 (pt p i) <= Z.max 0 (pt r i))
}.

Lemma plays_law N ds : forall p r, wf N p -> Forall valid_die ds -> plays ds p r ->
  law (Z.of_nat (length ds)) p r.
Proof.
  induction ds as [|d ds IH]; intros p r W F P; inversion P; subst.
  - pose proof (hit_count_refl r). change (Z.of_nat (length (@nil nat))) with 0. constructor.
    + apply o_kept_refl.
    + reflexivity.
    + lia.
    + lia.
    + lia.
    + intros; lia.
    + auto.
    + intros; lia.
    + lia.
    + intros. repeat split; intros; lia.
  - inversion F as [|? ? V F']; subst.
    match goal with X : may_move _ _ _ |- _ => rename X into M end.
    match goal with X : moved _ _ _ _ |- _ => rename X into Q end.
    match goal with X : plays _ _ _ |- _ => rename X into P' end.
    destruct (step_points N p d from q W V M Q) as (E & Wq & R & PT).
    specialize (IH _ _ Wq F' P'). pose proof (wf_len W) as L.
    pose proof (o_kept_step W V (may_move_pre M)) as K. rewrite <- E in K.
    pose proof (hit_count_step N p d from W V M) as HC. rewrite <- E in HC.
    pose proof (hit_count_trans _ _ _ K (law_kept _ _ _ IH)) as HT.
    pose proof (law_hits _ _ _ IH) as Hh. pose proof (law_xoff _ _ _ IH) as Hx. pose proof (mvd_xoff Q) as MX.
    assert (C1 : hit_count p q <= 1) by (rewrite HC; destruct (_ && _); lia).
    assert (LN : Z.of_nat (length (d :: ds)) = 1 + Z.of_nat (length ds)) by (simpl length; lia).
    assert (V' := V). destruct V as [V1 V2].
    constructor; rewrite ?LN.
    + eapply o_kept_trans; [exact K|apply IH].
    + rewrite (law_ooff _ _ _ IH). apply Q.
    + rewrite (law_obar _ _ _ IH), HT, HC.
      destruct (Nat.ltb_spec d from); simpl.
      * destruct (Z.eqb_spec (pt p (from - d)) (-1)).
        -- destruct (mvd_hit Q) as [_ X]; [split; auto|]. lia.
        -- rewrite (mvd_nohit Q); [lia|]. intros [? ?]; lia.
      * rewrite (mvd_nohit Q); [lia|]. intros [? ?]; lia.
    + lia.
    + destruct (from <=? d)%nat; lia.
    + intros X. destruct (Z_lt_ge_dec (x_off q) (x_off r)) as [Y|Y]; [apply (law_home _ _ _ IH); exact Y|].
      destruct (Nat.leb_spec from d) as [Z|Z]; [|lia].
      apply (law_stay _ _ _ IH). apply (step_home p d from q); auto. destruct M as (_ & _ & _ & _ & B). apply B. auto.
    + intros X. apply (law_stay _ _ _ IH). apply (step_home p d from q); auto.
    + intros j J. pose proof (law_behind _ _ _ IH j J) as B.
      pose proof (step_behind N p d from q j W V' M Q J) as B'.
      destruct ((j <=? from)%nat && negb (j + d <=? from)%nat); lia.
    + pose proof (law_xbar _ _ _ IH). pose proof (PT 25%nat ltac:(lia)) as X.
      pose proof (wf_xbar W). pose proof (wf_xbar Wq).
      replace (25 =? from - d)%nat with false in X by (symmetry; apply Nat.eqb_neq; lia).
      destruct (25 =? from)%nat; lia.
    + intros X. destruct (law_bar _ _ _ IH X) as (A1 & A2 & A3 & A4).
      assert (from = 25%nat) as ->.
      { destruct (Nat.eq_dec from 25) as [|NE]; auto. exfalso.
        destruct M as (_ & _ & B & _). specialize (B NE). pose proof (law_xbar _ _ _ IH).
        pose proof (PT 25%nat ltac:(lia)) as Y. pose proof (wf_xbar W). pose proof (wf_xbar Wq).
        replace (25 =? from - d)%nat with false in Y by (symmetry; apply Nat.eqb_neq; lia).
        destruct (25 =? from)%nat; lia. }
      rewrite (mvd_from Q) in A2.
      destruct (Nat.leb_spec 25 d) as [|]; [lia|].
      split; [lia|]. split; [lia|]. split.
      * intros i Hi. rewrite A3 by auto. apply (mvd_rest Q); lia.
      * intros i Hi. specialize (A4 i Hi). rewrite PT in A4 by lia.
        replace (i =? 25)%nat with false in A4 by (symmetry; apply Nat.eqb_neq; lia).
        destruct (i =? 25 - d)%nat, (d <? 25)%nat; lia.
Qed.

Lemma uses_moves d ds : uses d ds -> Z.of_nat (length ds) <= moves_in d.
Proof.
  intros (rest & P). apply Permutation_length in P. rewrite app_length in P.
  destruct d; cbn in *; lia.
Qed.

Lemma later_flip r i : length (pips r) = 26%nat -> (i <= 25)%nat -> later (flipP r) i = pt r i.
Proof.
  intros L H. unfold later. rewrite pt_flipP by (auto; lia).
  replace (25 - (25 - i))%nat with i by lia. lia.
Qed.

(** A listed position comes from a play that obeys the laws. *)
Lemma listed_law m k v d l w : vwf k v -> vongoing v -> valid_dice d ->
  legal_positions m v d = Ret l -> In w l ->
  exists r ds, law (moves_in d) (board_of v) r /\ length (pips r) = 26%nat /\ board_of w = flipP r /\
    legal_play d (board_of v) ds r /\ wf (checkers k) (board_of v).
Proof.
  intros W O V E I. destruct (legal_positions_correct m d W O V) as (l' & E' & _ & H).
  rewrite E in E'. inversion E'; subst l'. apply H in I. clear H.
  destruct W as (p & -> & W). destruct (vlegal_wf _ W V I) as (r & -> & L & Wr).
  rewrite !board_of_tag. destruct L as (ds & LP). exists r, ds.
  destruct LP as (U & P & X). pose proof (plays_law _ ds p r W (uses_valid V U) P) as A.
  pose proof (uses_moves d ds U) as B. pose proof (wf_len Wr).
  split; [|split; [auto|split; [auto|split; [split; [auto|split; [auto|exact X]]|exact W]]]].
  destruct A. constructor; auto; try lia.
  - intros j J. specialize (law_behind0 j J). lia.
  - intros Y. destruct (law_bar0 Y) as (? & ? & ? & ?). repeat split; auto; lia.
Qed.

Lemma blots_hit_count p r : length (pips r) = 26%nat -> blots_hit p (flipP r) = hit_count p r.
Proof.
  intros L. unfold blots_hit, hit_count.
  assert (H : forall i, In i (seq 1 24) -> (i <= 25)%nat) by (intros i Hi; apply in_seq in Hi; lia).
  revert H. generalize (seq 1 24). induction l as [|i l IH]; intros H; auto.
  cbn [filter map sumZ fold_right]. rewrite later_flip by (auto; apply H; left; auto).
  fold (sumZ (map (lost p r) l)). rewrite <- IH by (intros; apply H; right; auto).
  unfold lost. destruct (_ && _); cbn [length]; lia.
Qed.

(** ** C82 *)

(** The opponent: a point held with two or more checkers keeps them; no checker of his
    appears anywhere; a single checker stays or is gone, and exactly those that are gone
    are added to his bar, at most one per checker moved; none are borne off. *)
Theorem C82_opponent : forall m k v d l w,
  vwf k v -> vongoing v -> valid_dice d -> legal_positions m v d = Ret l -> In w l ->
  let p := board_of v in let q := board_of w in
  (forall i, (1 <= i <= 24)%nat -> pt p i <= -2 -> later q i = pt p i) /\
  (forall i, (1 <= i <= 24)%nat -> pt p i = -1 -> later q i = -1 \/ 0 <= later q i) /\
  (forall i, (1 <= i <= 24)%nat -> 0 <= pt p i -> 0 <= later q i) /\
  - later q 0 = - pt p 0 + blots_hit p q /\ blots_hit p q <= moves_in d /\
  x_off q = o_off p.
Proof.
  intros m k v d l w W O V E I p q.
  destruct (listed_law m k v d l w W O V E I) as (r & ds & A & L & Eq & _ & _).
  fold p in A. unfold q. rewrite Eq, blots_hit_count by auto.
  split; [|split; [|split; [|split; [|split]]]].
  - intros i Hi X. rewrite later_flip by (auto; lia). destruct (law_kept _ _ _ A i Hi) as [K _].
    destruct K as [K|[K ?]]; lia.
  - intros i Hi X. rewrite later_flip by (auto; lia). destruct (law_kept _ _ _ A i Hi) as [K _].
    destruct K as [K|[K ?]]; lia.
  - intros i Hi X. rewrite later_flip by (auto; lia). apply (law_kept _ _ _ A i Hi). auto.
  - rewrite later_flip by (auto; lia). rewrite (law_obar _ _ _ A). lia.
  - apply A.
  - change (x_off (flipP r)) with (o_off r). apply A.
Qed.

(** The mover's checkers only move forward, and at most 2 (after a double, 4) of them: for
    every point, he has at most as many checkers on it and behind it as before, and at most
    2 (4) fewer. *)
Theorem C82_forward : forall m k v d l w,
  vwf k v -> vongoing v -> valid_dice d -> legal_positions m v d = Ret l -> In w l ->
  forall j, (1 <= j <= 25)%nat ->
  behind (pt (board_of v)) j - moves_in d <= behind (later (board_of w)) j <= behind (pt (board_of v)) j.
Proof.
  intros m k v d l w W O V E I j J.
  destruct (listed_law m k v d l w W O V E I) as (r & ds & A & L & Eq & _ & _).
  replace (behind (later (board_of w)) j) with (behind (pt r) j); [apply A; auto|].
  unfold behind. f_equal. apply map_ext_in. intros i Hi. apply in_seq in Hi.
  rewrite Eq, later_flip by (auto; lia). reflexivity.
Qed.

(** Bearing off: at most 2 (4) checkers a turn, and only with everything home: whoever has
    borne a checker off ends the turn with none of his checkers outside points 1-6. *)
Theorem C82_bearing_off : forall m k v d l w,
  vwf k v -> vongoing v -> valid_dice d -> legal_positions m v d = Ret l -> In w l ->
  let p := board_of v in let q := board_of w in
  x_off p <= o_off q <= x_off p + moves_in d /\
  (x_off p < o_off q -> forall i, (7 <= i <= 25)%nat -> later q i <= 0) /\
  (moves_in d < behind (pt p) 7 -> o_off q = x_off p).
Proof.
  intros m k v d l w W O V E I p q.
  destruct (listed_law m k v d l w W O V E I) as (r & ds & A & L & Eq & _ & _).
  fold p in A. unfold q. rewrite Eq. change (o_off (flipP r)) with (x_off r).
  split; [apply A|]. split.
  - intros X i Hi. rewrite later_flip by (auto; lia). apply A; auto; lia.
  - intros X. pose proof (law_xoff _ _ _ A) as Y. pose proof (law_behind _ _ _ A 7 ltac:(lia)) as B.
    destruct (Z_lt_ge_dec (x_off p) (x_off r)) as [Z|Z]; [|lia]. exfalso.
    assert (behind (pt r) 7 = 0); [|lia].
    unfold behind. rewrite (map_ext_in _ (fun _ => 0)).
    + generalize (seq 7 (26 - 7)). induction l0; simpl; auto.
    + intros i Hi. apply in_seq in Hi. pose proof (law_home _ _ _ A Z i ltac:(lia)). lia.
Qed.

(** Bar first: whoever ends the turn with a checker on the bar has done nothing but enter:
    nothing on points 1-18 has changed (for either player), nothing is borne off, and on
    the points entered his checkers only become more. *)
Theorem C82_bar_first : forall m k v d l w,
  vwf k v -> vongoing v -> valid_dice d -> legal_positions m v d = Ret l -> In w l ->
  let p := board_of v in let q := board_of w in
  later q 25 <= pt p 25 /\
  (0 < later q 25 ->
     o_off q = x_off p /\ pt p 25 - moves_in d <= later q 25 /\
     (forall i, (1 <= i <= 18)%nat -> later q i = pt p i) /\
     (forall i, (19 <= i <= 24)%nat -> Z.max 0 (pt p i) <= Z.max 0 (later q i))).
Proof.
  intros m k v d l w W O V E I p q.
  destruct (listed_law m k v d l w W O V E I) as (r & ds & A & L & Eq & _ & _).
  fold p in A. unfold q. rewrite Eq. rewrite !later_flip by (auto; lia).
  split; [apply A|]. intros X. destruct (law_bar _ _ _ A X) as (B1 & B2 & B3 & B4).
  split; [exact B1|]. split; [exact B2|].
  split; intros i Hi; rewrite later_flip by (auto; lia); auto.
Qed.

Lemma die_of_uses d a : die_of d a <-> uses d [a].
Proof.
  unfold uses. split.
  - destruct d as [b s|b]; simpl.
    + intros [->| ->]; [exists [s]; apply Permutation_refl|exists [b]; apply perm_swap].
    + intros ->. exists [b; b; b]. apply Permutation_refl.
  - intros (rest & P). assert (X : In a (pool d)).
    { eapply Permutation_in; [exact P|]. left; auto. }
    destruct d; simpl in *; intuition.
Qed.

(** Passing: the turn is passed exactly when no die of the roll can be played; the list
    then has nothing else in it, and otherwise a pass is not in it. *)
Theorem C82_pass_exact : forall m k v d l w,
  vwf k v -> vongoing v -> valid_dice d -> legal_positions m v d = Ret l -> In w l ->
  (mirrored (board_of v) (board_of w) <->
   forall a from, die_of d a -> ~ may_move (board_of v) a from).
Proof.
  intros m k v d l w W O V E I.
  destruct (listed_law m k v d l w W O V E I) as (r & ds & _ & L & Eq & (U & P & Mx & _) & Wp).
  rewrite Eq. split.
  - intros C a from D M. apply mirrored_iff in C; [|apply Wp].
    apply flipP_inj in C. rewrite C in P.
    pose proof (plays_less _ ds _ _ Wp (uses_valid V U) P) as X.
    assert (UA : uses d [a]) by (apply die_of_uses; auto).
    pose proof (uses_valid V UA) as VA. inversion VA as [|? ? VA' _]; subst.
    assert (Y : (1 <= length ds)%nat).
    { apply (Mx [a] (mv (board_of v) a from)); auto.
      econstructor; [exact M| |constructor]. pose proof (may_move_range M).
      apply moved_iff; auto. destruct VA'; lia. }
    lia.
  - intros H. destruct ds as [|a ds].
    + inversion P; subst. apply flipP_mirrored. auto.
    + exfalso. inversion P; subst. eapply (H a); [|eassumption].
      apply die_of_uses. destruct U as (rest & U). exists (ds ++ rest). exact U.
Qed.

(** Closed out: with a checker on the bar and the opponent holding all six points it could
    enter on, every roll leaves only the pass. *)
Theorem C82_closed_out : forall m k v d,
  vwf k v -> vongoing v -> valid_dice d ->
  0 < pt (board_of v) 25 -> (forall i, (19 <= i <= 24)%nat -> pt (board_of v) i <= -2) ->
  exists l, legal_positions m v d = Ret l /\ l <> [] /\
  forall w, In w l -> mirrored (board_of v) (board_of w).
Proof.
  intros m k v d W O V B C. destruct (legal_positions_correct m d W O V) as (l & E & Ne & _).
  exists l. split; auto. split; auto. intros w I. apply (C82_pass_exact m k v d l w W O V E I).
  intros a from D M. apply die_of_uses in D. pose proof (uses_valid V D) as VA.
  inversion VA as [|? ? [V1 V2] _]; subst. destruct M as (R & X & Bar & Bl & _).
  assert (from = 25%nat) as ->.
  { destruct (Nat.eq_dec from 25) as [|NE]; auto. specialize (Bar NE). lia. }
  specialize (Bl ltac:(lia)). specialize (C (25 - a)%nat ltac:(lia)). lia.
Qed.

(** ** Cases *)

(** x enters with 6-5: the 6 is blocked, the 5 hits o's blot on point 20, one x checker stays on
    the bar. *)
Example C82_enter_case : wf 15 ex_bar /\ ongoing 15 ex_bar /\ exists w,
  legal_positions Debug (tag Backgammon ex_bar) (Mixed 6 5) = Ret [w] /\
  later (board_of w) 25 = 1 /\ blots_hit ex_bar (board_of w) = 1 /\
  later (board_of w) 20 = 1 /\ pt ex_bar 0 = -1 /\ later (board_of w) 0 = -2 /\
  later (board_of w) 19 = -5 /\
  behind (pt ex_bar) 25 = 2 /\ behind (later (board_of w)) 25 = 1 /\
  ~ mirrored ex_bar (board_of w).
Proof.
  split; [apply ex_bar_wf|]. split; [apply ex_bar_wf|]. eexists. split; [vm_compute; reflexivity|].
  repeat split; try (vm_compute; reflexivity).
  intros (_ & _ & _ & _ & H). specialize (H 25%nat (le_n _)). vm_compute in H. discriminate.
Qed.

(** Bearing off with 6-1 and one checker still outside: both ways of bearing one off bring it
    in first. *)
Definition ex_last_in : position :=
  {| turn := true;
     pips := [0; 0; 0; 0; 0; 0; 2; 1; 0; 0; 0; -1; 0; 0; 0; 0; 0; 0; 0; 0; -2; 0; 0; 0; 0; 0];
     x_off := 12; o_off := 12 |}.
Example C82_off_case : wf 15 ex_last_in /\ ongoing 15 ex_last_in /\
  (exists l w, legal_positions Release (tag Backgammon ex_last_in) (Mixed 6 1) = Ret l /\ In w l /\
     x_off ex_last_in < o_off (board_of w) /\ later (board_of w) 7 = 0).
Proof.
  split; [solve_wf|]. split; [vm_compute; auto|].
  do 2 eexists. split; [vm_compute; reflexivity|]. split; [left; reflexivity|]. vm_compute. auto.
Qed.

(** A closed-out position. *)
Definition ex_shut : position :=
  {| turn := true;
     pips := [0; -1; 0; 2; 0; 0; 5; 0; 3; 0; 0; 0; 0; 4; 0; 0; 0; 0; 0; -3; -2; -2; -3; -2; -2; 1];
     x_off := 0; o_off := 0 |}.
Example C82_shut_case : wf 15 ex_shut /\ ongoing 15 ex_shut /\ 0 < pt ex_shut 25 /\
  forall i, (19 <= i <= 24)%nat -> pt ex_shut i <= -2.
Proof.
  split; [solve_wf|]. split; [vm_compute; auto|]. split; [reflexivity|].
  intros i Hi.
  assert (i = 19 \/ i = 20 \/ i = 21 \/ i = 22 \/ i = 23 \/ i = 24)%nat as H by lia.
  destruct H as [->|[->|[->|[->|[->| ->]]]]]; vm_compute; discriminate.
Qed.
Example C82_pass_case : wf 15 ex_bar /\ exists w,
  legal_positions Debug (tag Backgammon ex_bar) (Double 6) = Ret [w] /\ mirrored ex_bar (board_of w).
Proof.
  split; [apply ex_bar_wf|]. eexists. split; [vm_compute; reflexivity|].
  repeat split. intros i Hi. do 26 (destruct i as [|i]; [vm_compute; reflexivity|]). lia.
Qed.

Print Assumptions C82_opponent.
Print Assumptions C82_pass_exact.
