(** Property C87: games played by chance end with probability one.  Read with SpecLuck.v, SpecFinish.v, SpecGame.v. *)
From Verif Require Import SpecLuck LuckFacts PropFinish PropDice PropPosition PropMoves PropGame GameFacts VariantFacts MoveFacts PropRace PropDeadlock FinishFacts.
From Coq Require Import Lqa.
Unset Implicit Arguments.
Open Scope Q_scope.

(** ** The walk *)
Definition over (m : mode) (v : vpos) : bool := match vp_game_state m v with Ret (GameOver _) => true | _ => false end.
Definition steps (m : mode) (v : vpos) : list (list vpos) :=
  map (fun r => match (d <- fastrand_roll m r ;; legal_positions m v d) with Ret l => l | Panic _ => [] end) (seq 0 36).
Definition live (k : variant) (v : vpos) : Prop := vwf k v /\ not_both_won (checkers k) (board_of v).

Lemma live_state m k v : live k v ->
  (vongoing v /\ vp_game_state m v = Ret Ongoing /\ over m v = false) \/
  (~ vongoing v /\ (exists r, vp_game_state m v = Ret (GameOver r)) /\ over m v = true).
Proof.
  intros [W NB]. destruct (over_dec W) as [O|O].
  - left. split; auto. destruct W as (p & -> & W). unfold over. rewrite vp_game_state_tag. rewrite board_of_tag in NB.
    destruct (game_state_outcome m W NB) as (s & E & Os). rewrite E. rewrite vongoing_tag in O. destruct O as [X Y].
    inversion Os; subst; auto; lia.
  - right. destruct (over_state m k v W NB O) as (r & E). unfold over. rewrite E. eauto.
Qed.
Lemma live_over m k v : live k v -> (over m v = true <-> ~ vongoing v).
Proof. intros H. destruct (live_state m k v H) as [(O & _ & E)|(O & _ & E)]; rewrite E; split; auto; try discriminate; contradiction. Qed.
Lemma live_on m k v : live k v -> (over m v = false <-> vongoing v).
Proof. intros H. destruct (live_state m k v H) as [(O & _ & E)|(O & _ & E)]; rewrite E; split; auto; try discriminate; contradiction. Qed.

(** The 36 lists. *)
Lemma roll_onto m d : valid_dice d -> exists r, (r < 36)%nat /\ fastrand_roll m r = Ret d.
Proof.
  intros V. destruct (C29_roll_uniform m) as [_ H]. specialize (H d V).
  assert (P : (0 < multiplicity d)%nat).
  { revert d V H. apply (@forall_rolls (fun d => _ -> (0 < multiplicity d)%nat)). rolls ltac:(intros; vm_compute; lia). }
  rewrite <- H in P. destruct (filter _ _) as [|r l] eqn:E; [cbn in P; lia|].
  assert (I : In r (filter (fun r => gives (fastrand_roll m r) d) (seq 0 36))) by (rewrite E; left; auto).
  apply filter_In in I. destruct I as [I G]. apply in_seq in I. exists r. split; [lia|].
  unfold gives in G. destruct (fastrand_roll m r) as [e|]; [|discriminate]. f_equal.
  destruct e, d; cbn in G; try discriminate; rewrite ?Bool.andb_true_iff, ?Nat.eqb_eq in G; destruct G; subst; auto; congruence.
Qed.
Lemma steps_in m k v l : live k v -> vongoing v -> In l (steps m v) ->
  exists d, valid_dice d /\ legal_positions m v d = Ret l /\ l <> [] /\ forall w, In w l <-> vlegal d v w.
Proof.
  intros [W _] O I. apply in_map_iff in I. destruct I as (r & E & R). apply in_seq in R.
  destruct (proj1 (C29_roll_uniform m) r ltac:(lia)) as (d & Ed & V). rewrite Ed in E. cbn [bind] in E.
  destruct (legal_positions_correct m d W O V) as (l' & El & Ne & H). rewrite El in E. subst l'. eauto.
Qed.
Lemma steps_onto m k v d w : live k v -> vongoing v -> valid_dice d -> vlegal d v w -> exists l, In l (steps m v) /\ In w l.
Proof.
  intros [W _] O V L. destruct (roll_onto m d V) as (r & R & E).
  destruct (legal_positions_correct m d W O V) as (l & El & Ne & H). exists l. split; [|apply H; auto].
  apply in_map_iff. exists r. rewrite E. cbn [bind]. rewrite El. split; auto. apply in_seq. lia.
Qed.
Lemma live_step k v d w : live k v -> vongoing v -> valid_dice d -> vlegal d v w -> live k w.
Proof.
  intros [W NB] O V L. split; [eapply vlegal_vwf; eauto|].
  apply (played_not_both k 1 v w); auto. eapply played_S; eauto. constructor.
Qed.
Lemma walk_ne m k v : live k v -> over m v = false -> steps m v <> [] /\ forall l, In l (steps m v) -> l <> [].
Proof.
  intros H O. split; [discriminate|]. intros l I. apply (live_on m k v H) in O.
  destruct (steps_in m k v l H O I) as (d & _ & _ & Ne & _). exact Ne.
Qed.
Lemma walk_closed m k v l w : live k v -> over m v = false -> In l (steps m v) -> In w l -> live k w.
Proof.
  intros H O I Iw. apply (live_on m k v H) in O. destruct (steps_in m k v l H O I) as (d & V & _ & _ & E).
  eapply live_step; eauto. apply E; auto.
Qed.
Notation uu m := (u vpos (over m) (steps m)).
Lemma unfinished_u m k n : forall v, live k v -> unfinished m n v = uu m n v.
Proof.
  induction n as [|n IH]; intros v H; (destruct (live_state m k v H) as [(O & E & Ev)|(O & (r & E) & Ev)];
    cbn [unfinished u]; rewrite Ev, E; try reflexivity).
  f_equal. unfold steps. rewrite map_map. apply map_ext_in. intros r R.
  destruct (proj1 (C29_roll_uniform m) r) as (d & Ed & V); [apply in_seq in R; lia|]. rewrite Ed. cbn [bind].
  destruct (legal_positions_correct m d (proj1 H) O V) as (l & El & Ne & Hl). rewrite El. f_equal.
  apply map_ext_in. intros w Iw. apply IH. eapply live_step; eauto. apply Hl; auto.
Qed.
Lemma reach_played m k n : forall v w, live k v -> (reach vpos (over m) (steps m) n v w <-> played n v w).
Proof.
  induction n as [|n IH]; intros v w H; split; intros R; inversion R; subst; try constructor.
  - assert (O : vongoing v) by (apply (live_on m k v H); auto). destruct (steps_in m k v l H O H2) as (d & V & _ & _ & E).
    apply E in H3. apply (played_S O V H3). apply IH; auto. eapply live_step; eauto.
  - destruct (steps_onto m k v d w0 H H1 H2 H3) as (l & Il & Iw). apply (reach_S _ _ _ n v l w0 w); auto.
    + apply (live_on m k v H); auto.
    + apply IH; auto. eapply live_step; eauto.
Qed.

(** ** Finitely many positions *)
Fixpoint lists_of {A} (vals : list A) (n : nat) : list (list A) :=
  match n with O => [[]] | S n => flat_map (fun a => map (cons a) (lists_of vals n)) vals end.
Lemma lists_of_in {A} (vals : list A) l : (forall x, In x l -> In x vals) -> In l (lists_of vals (length l)).
Proof.
  induction l as [|a l IH]; intros H; [left; auto|]. cbn. apply in_flat_map. exists a. split; [apply H; left; auto|].
  apply in_map. apply IH. intros; apply H; right; auto.
Qed.
Definition values : list Z := map (fun i => (Z.of_nat i - 127)%Z) (seq 0 255).
Lemma values_in z : (-127 <= z <= 127)%Z -> In z values.
Proof. intros. apply in_map_iff. exists (Z.to_nat (z + 127)). split; [lia|]. apply in_seq. lia. Qed.
Definition all_boards : list position :=
  flat_map (fun t => flat_map (fun ps => flat_map (fun x => map (fun o => {| turn := t; pips := ps; x_off := x; o_off := o |}) values) values)
    (lists_of values 26)) [true; false].
Lemma all_boards_in N p : wf N p -> In p all_boards.
Proof.
  intros W. pose proof (wf_off_bounds W). pose proof (wf_N W). destruct p as [t ps x o]. cbn [x_off o_off] in *.
  unfold all_boards. apply in_flat_map. exists t. split; [destruct t; cbn; auto|].
  apply in_flat_map. exists ps. split.
  - rewrite <- (wf_len W). cbn [pips]. apply lists_of_in. intros z I. apply values_in. apply In_nth with (d := 0%Z) in I.
    destruct I as (i & _ & <-). exact (wf_pt_bounds i W).
  - apply in_flat_map. exists x. split; [apply values_in; lia|]. apply in_map_iff. exists o. split; auto. apply values_in. lia.
Qed.
Lemma walk_fin k v : live k v -> In v (map (tag k) all_boards).
Proof. intros [(p & -> & W) _]. apply in_map. eapply all_boards_in; eauto. Qed.

(** ** C87 *)

(** Sets of positions closed under play from which every game can be finished. *)
Definition closed_set (k : variant) (P : vpos -> Prop) : Prop :=
  (forall v, P v -> live k v) /\
  (forall v d w, P v -> vongoing v -> valid_dice d -> vlegal d v w -> P w) /\
  (forall v, P v -> vongoing v -> can_be_finished v).
Lemma closed_walk m k P : closed_set k P ->
  (forall v l w, P v -> over m v = false -> In l (steps m v) -> In w l -> P w) /\
  (forall v, P v -> exists n w, reach vpos (over m) (steps m) n v w /\ over m w = true).
Proof.
  intros (A & B & C). split.
  - intros v l w Pv O I Iw. apply (live_on m k v (A v Pv)) in O. destruct (steps_in m k v l (A v Pv) O I) as (d & V & _ & _ & E).
    apply (B v d w); auto. apply E; auto.
  - intros v Pv. destruct (live_state m k v (A v Pv)) as [(O & _ & _)|(O & _ & E)].
    + destruct (C v Pv O) as (n & w & Pl & Ow). exists n, w. split; [apply (reach_played m k n v w (A v Pv)); auto|].
      apply (live_over m k w); auto. split; [eapply played_vwf; eauto; apply (A v Pv)|].
      apply (played_not_both k n v w); auto. apply (A v Pv).
    + exists 0%nat, v. split; auto. constructor.
Qed.
Lemma set_vanishes m k P eps : closed_set k P -> 0 < eps ->
  exists n, forall i v, (n <= i)%nat -> P v -> unfinished m i v < eps.
Proof.
  intros H E. destruct (closed_walk m k P H) as [S F].
  destruct (vanishes vpos (over m) (steps m) (live k) (map (tag k) all_boards) (walk_fin k) (walk_ne m k) (walk_closed m k)
              P (proj1 H) S F eps E) as (n & Hn).
  exists n. intros i v I Pv. rewrite (unfinished_u m k i v (proj1 H v Pv)). apply Hn; auto.
Qed.
Lemma set_expected m k P : closed_set k P -> exists M, forall n v, P v -> expected_turns m n v <= M.
Proof.
  intros H. destruct (closed_walk m k P H) as [S F].
  destruct (bounded_total vpos (over m) (steps m) (live k) (map (tag k) all_boards) (walk_fin k) (walk_ne m k) (walk_closed m k)
              P (proj1 H) S F) as (M & HM).
  exists M. intros n v Pv. unfold expected_turns.
  rewrite (map_ext (fun i => unfinished m i v) (fun i => uu m i v)); [exact (HM n v Pv)|].
  intros i. apply (unfinished_u m k). apply (proj1 H v Pv).
Qed.

(** The probabilities are probabilities and decrease. *)
Theorem C87_probability : forall m k n v, vwf k v -> vongoing v ->
  0 <= unfinished m n v <= 1 /\ unfinished m (S n) v <= unfinished m n v /\
  (unfinished m n v < 1 <-> exists i w, (i <= n)%nat /\ played i v w /\ ~ vongoing w).
Proof.
  intros m k n v W O. assert (H : live k v). { split; auto. apply (played_not_both k 0 v v); auto. constructor. }
  rewrite !(unfinished_u m k) by auto.
  split; [apply (u_bounds vpos (over m) (steps m) (live k) (walk_ne m k) (walk_closed m k)); auto|].
  split; [apply (u_dec vpos (over m) (steps m) (live k) (walk_ne m k) (walk_closed m k)); auto|]. split.
  - clear W O. revert v H. induction n as [|n IH]; intros v H L.
    + exists 0%nat, v. destruct (live_state m k v H) as [(O & _ & E)|(O & _ & E)].
      * rewrite u_0 in L by auto. lra.
      * split; auto. split; auto. constructor.
    + destruct (live_state m k v H) as [(O & _ & E)|(O & _ & E)].
      * destruct (u_next vpos (over m) (steps m) (live k) (walk_ne m k) n v H E L) as (l & w & Il & Iw & Lw).
        assert (Hw : live k w) by (eapply walk_closed; eauto). destruct (IH w Hw Lw) as (i & x & I & P & Ox).
        destruct (steps_in m k v l H O Il) as (d & V & _ & _ & El). exists (S i), x. split; [lia|]. split; auto.
        apply (played_S O V (proj1 (El w) Iw) P).
      * exists 0%nat, v. split; [lia|]. split; auto. constructor.
  - intros (i & w & I & P & Ow).
    apply Qle_lt_trans with (uu m i v); [apply (u_mono vpos (over m) (steps m) (live k) (walk_ne m k) (walk_closed m k)); auto|].
    apply (u_reach vpos (over m) (steps m) (live k) (walk_ne m k) (walk_closed m k) i v w H).
    + apply (reach_played m k); auto.
    + apply (live_over m k w); auto. split; [eapply played_vwf; eauto|]. apply (played_not_both k i v w); auto.
Qed.

(** A game by chance ends with probability one if and only if no sequence of rolls and plays leads to a position from
    which it can no longer be finished. *)
Theorem C87_exact : forall m k v, vwf k v -> vongoing v ->
  (surely_ends m v <-> forall n w, played n v w -> vongoing w -> can_be_finished w).
Proof.
  intros m k v W O. assert (H : live k v). { split; auto. apply (played_not_both k 0 v v); auto. constructor. }
  split.
  - intros S n w P Ow. assert (Hw : live k w). { split; [eapply played_vwf; eauto|apply (played_not_both k n v w); auto]. }
    destruct (reach_lower vpos (over m) (steps m) (live k) (walk_ne m k) (walk_closed m k) n v w H) as (e & E & Le).
    { apply (reach_played m k); auto. }
    destruct (S e E) as (i & Hi). rewrite (unfinished_u m k i v H) in Hi.
    assert (L : uu m i w < 1).
    { specialize (Le i). pose proof (u_mono vpos (over m) (steps m) (live k) (walk_ne m k) (walk_closed m k) i (n + i) v H ltac:(lia)).
      assert (X : e * uu m i w < e * 1) by lra. exact (proj1 (Qmult_lt_l (uu m i w) 1 e E) X). }
    destruct (u_finish vpos (over m) (steps m) (live k) (walk_ne m k) (walk_closed m k) i w Hw L) as (j & x & R & Ox).
    apply (reach_played m k) in R; auto. exists j, x. split; auto. apply (live_over m k x); auto.
    split; [exact (played_vwf (proj1 Hw) R)|]. apply (played_not_both k j w x); auto. apply Hw.
  - intros F eps E. set (P := fun w => exists n, played n v w).
    assert (C : closed_set k P).
    { split; [|split].
      - intros w (n & Pw). split; [eapply played_vwf; eauto|apply (played_not_both k n v w); auto].
      - intros x d w (n & Px) Ox V L. exists (n + 1)%nat. clear - Px Ox V L. induction Px as [y|i y z x e Oy Ve Le Pz IH]; cbn [Nat.add].
        + apply (played_S Ox V L). constructor.
        + apply (played_S Oy Ve Le). exact (IH Ox L).
      - intros w (n & Pw) Ow. apply (F n w Pw Ow). }
    destruct (set_vanishes m k P eps C E) as (n & Hn). exists n. apply Hn; auto. exists 0%nat. constructor.
Qed.

(** Few checkers: the probability of not being over tends to zero, at the same speed from all positions of a
    variant, and the expected number of turns is bounded. *)
Definition few (k : variant) (v : vpos) : Prop := live k v /\ (x_left k v <= 4 \/ o_left k v <= 4)%Z.
Lemma few_closed k : closed_set k (few k).
Proof.
  split; [intros v H; apply H|]. split.
  - intros v d w [Hv F] O V L. split; [eapply live_step; eauto|]. destruct Hv as [(p & -> & W) _].
    destruct (vlegal_wf _ W V L) as (r & -> & (ds & Lp) & Wr).
    destruct (legal_offs _ p d ds r W V Lp) as (X & Y & _). unfold x_left, o_left in *. rewrite !board_of_tag in *.
    change (x_off (flipP r)) with (o_off r). change (o_off (flipP r)) with (x_off r). lia.
  - intros v [[W _] F] O. apply (few_checkers k v W O F).
Qed.
Theorem C87_few_checkers : forall m k,
  (forall eps, 0 < eps -> exists n, forall i v, (n <= i)%nat -> vwf k v -> vongoing v ->
     (x_left k v <= 4 \/ o_left k v <= 4)%Z -> unfinished m i v < eps) /\
  exists M, forall n v, vwf k v -> vongoing v -> (x_left k v <= 4 \/ o_left k v <= 4)%Z -> expected_turns m n v <= M.
Proof.
  intros m k.
  assert (A : forall v, vwf k v -> vongoing v -> (x_left k v <= 4 \/ o_left k v <= 4)%Z -> few k v).
  { intros v W O F. split; auto. split; auto. apply (played_not_both k 0 v v); auto. constructor. }
  split.
  - intros eps E. destruct (set_vanishes m k _ eps (few_closed k) E) as (n & Hn). exists n. auto.
  - destruct (set_expected m k _ (few_closed k)) as (M & HM). exists M. auto.
Qed.

(** Hypergammon with two, three or four checkers a side. *)
Theorem C87_hypergammon : forall m k, k = Hypergammon2 \/ k = Hypergammon \/ k = Hypergammon4 ->
  (forall v, vwf k v -> vongoing v -> surely_ends m v) /\
  exists M, forall n v, vwf k v -> vongoing v -> expected_turns m n v <= M.
Proof.
  intros m k K.
  assert (F : forall v, vwf k v -> vongoing v -> (x_left k v <= 4 \/ o_left k v <= 4)%Z).
  { intros v (p & -> & W) _. left. unfold x_left. pose proof (wf_off_bounds W). rewrite board_of_tag.
    destruct K as [-> | [-> | ->]]; cbn [checkers] in *; lia. }
  destruct (C87_few_checkers m k) as [A (M & B)]. split.
  - intros v W O eps E. destruct (A eps E) as (n & Hn). exists n. apply Hn; auto.
  - exists M. auto.
Qed.

(** It does not hold of every position: with both sides closed out on the bar the game never ends. *)
Theorem C87_closed_out : forall m k v, vwf k v -> vongoing v -> SpecDeadlock.both_closed_out (board_of v) ->
  forall n, unfinished m n v == 1.
Proof.
  intros m k v W O B n. destruct (C87_probability m k n v W O) as ([_ U] & _ & F).
  destruct (Qlt_le_dec (unfinished m n v) 1) as [L|L]; [exfalso|lra].
  apply F in L. destruct L as (i & w & _ & P & Ow). apply (proj1 C86_bound_needed k v W O B). exists i, w. auto.
Qed.

(** Concrete cases.  A last checker on the six point against one on the ace point: 9 of the 36 rolls do not bear it
    off, and then the other side does; two last checkers on the six and five points: 3-3, 4-4, 5-5
    and 6-6 take them off, 6-5 does so with one of its two plays. *)
Definition ex_six : position :=
  {| turn := true;
     pips := [0; 0; 0; 0; 0; 0; 1; 0; 0; 0; 0; 0; 0; 0; 0; 0; 0; 0; 0; 0; 0; 0; 0; 0; -1; 0]%Z; x_off := 1; o_off := 1 |}.
Definition ex_two : position :=
  {| turn := true;
     pips := [0; 0; 0; 0; 0; 1; 1; 0; 0; 0; 0; 0; 0; 0; 0; 0; 0; 0; 0; 0; 0; 0; 0; 0; -1; 0]%Z; x_off := 0; o_off := 1 |}.
Example C87_ex :
  vwf Hypergammon2 (VHypergammon2 ex_six) /\ vongoing (VHypergammon2 ex_six) /\
  unfinished Debug 0 (VHypergammon2 ex_six) == 1 /\ unfinished Debug 1 (VHypergammon2 ex_six) == 9 # 36 /\
  unfinished Debug 2 (VHypergammon2 ex_six) == 0 /\ unfinished Release 1 (VHypergammon2 ex_two) == 31 # 36.
Proof.
  split; [exists ex_six; split; [reflexivity|solve_wf]|]. split; [exists Hypergammon2, ex_six; split; [reflexivity|split; reflexivity]|].
  repeat split; vm_compute; reflexivity.
Qed.
