(** Property C95: a race is two separate bear-offs.  Read with SpecRules.v, SpecVariants.v, SpecGame.v and
    SpecSplit.v. *)
From Verif Require Import SpecSplit SplitFacts RaceFacts PropRace PropBoard VariantFacts PerftFacts MoveFacts FlipFacts PropMoves GameFacts GameStateFacts MixedProof DoubleProof MoveGenProof.
Unset Implicit Arguments.
Open Scope Z_scope.

Definition raw (p : position) (d : dice) : res (list position) :=
  match d with
  | Double die => all_positions_after_double_move Release p die
  | Mixed big small => all_positions_after_mixed_move Release p big small
  end.
Lemma raw_kids N p d : wf N p -> valid_dice d ->
  exists L, raw p d = Ret L /\ L <> [] /\ kids N p d = map flipP L /\ (forall r, In r L <-> legal_result d p r).
Proof.
  intros W V.
  assert (H : exists l, raw p d = Ret l /\ l <> [] /\ forall r, In r l <-> legal_result d p r).
  { destruct d as [b s|a]; unfold raw.
    - exact (mixed_correct Release W V).
    - exact (double_correct Release W V). }
  destruct H as (l & E & Hn & H). exists l. split; [exact E|]. split; [exact Hn|]. split; [|exact H].
  unfold kids, classic_positions, generate_legal_positions. cbn [debug_assert]. rewrite bind_ret. fold (raw p d). rewrite E, bind_ret.
  rewrite (mmap_ret _ flipP); [rewrite !bind_ret; reflexivity|].
  intros q Hq. apply H in Hq. exact (flip_ret Release (legal_result_wf W V Hq)).
Qed.

(** In a race a play leaves the opponent's checkers where they are. *)
Lemma race_opp N ds : forall p r, wf N p -> Forall valid_die ds -> plays ds p r -> no_contact p ->
  forall i, (i <= 25)%nat -> Z.max 0 (- pt r i) = Z.max 0 (- pt p i).
Proof.
  induction ds as [|d ds IH]; intros p r W F P NC i Hi; inversion P as [|? ? ? from q ? M Q P']; subst; [reflexivity|].
  inversion F as [|? ? V F']; subst. pose proof (may_move_range M) as Rg. destruct V as (V1 & V2).
  assert (Wq : wf N q /\ no_contact q /\ forall j, pt q j < 0 <-> pt p j < 0).
  { assert (X := Q). apply moved_iff in X; [subst q|apply W|lia|lia].
    pose proof (no_contact_mv W (conj V1 V2) (may_move_pre M) NC) as (A & B & _).
    split; [exact (may_wf W (conj V1 V2) M)|]. split; [exact A|exact B]. }
  destruct Wq as (Wq & NCq & Sg). rewrite (IH q r Wq F' P' NCq i Hi).
  destruct (Z.ltb_spec (pt p i) 0) as [L|L].
  - assert (NH : ~ hits p d from).
    { intros (A & B). destruct M as (_ & Pf & _). specialize (NC from (from - d)%nat ltac:(lia) ltac:(lia) Pf ltac:(lia)). lia. }
    assert (E : pt q i = pt p i); [|rewrite E; reflexivity].
    destruct i as [|i]; [exact (mvd_nohit Q NH)|]. apply (mvd_rest Q); [lia| |].
    + intros <-. destruct M as (_ & Pf & _). lia.
    + intros (A & B). destruct M as (_ & Pf & _). specialize (NC from (S i) ltac:(lia) Hi Pf L). lia.
  - assert (~ pt q i < 0) by (rewrite Sg; lia). lia.
Qed.

Lemma mine_map p q : length (pips p) = 26%nat -> length (pips q) = 26%nat ->
  (forall i, (i <= 25)%nat -> Z.max 0 (pt p i) = Z.max 0 (pt q i)) ->
  map (fun v => Z.max 0 v) (pips p) = map (fun v => Z.max 0 v) (pips q).
Proof.
  intros L L' H. apply nth_ext with (d := 0) (d' := 0); [rewrite !map_length; congruence|]. intros i Hi. rewrite map_length in Hi.
  change 0 with ((fun v => Z.max 0 v) 0). rewrite !(map_nth (fun v => Z.max 0 v)). apply H. lia.
Qed.
Lemma mine_off N M p q : wf N p -> wf M q -> (forall i, (i <= 25)%nat -> Z.max 0 (pt p i) = Z.max 0 (pt q i)) ->
  N - x_off p = M - x_off q.
Proof.
  intros W W' H. pose proof (wf_x W) as X. pose proof (wf_x W') as X'. unfold x_checkers in *.
  rewrite (mine_map p q (wf_len W) (wf_len W') H) in X. lia.
Qed.

Lemma split_core N M p q d : wf N p -> wf M q -> ongoing N p -> ongoing M q -> no_contact p -> no_contact q -> valid_dice d ->
  (forall i, (i <= 25)%nat -> Z.max 0 (pt p i) = Z.max 0 (pt q i)) ->
  exists L L', L <> [] /\ kids N p d = map flipP L /\ kids M q d = map flipP L' /\
    Forall2 (fun r r' => legal_result d p r /\ legal_result d q r' /\
       forall i, (i <= 25)%nat -> Z.max 0 (pt r i) = Z.max 0 (pt r' i)) L L'.
Proof.
  intros W W' O O' NC NC' V E.
  destruct (raw_kids N p d W V) as (L & R & Ne & K & H). destruct (raw_kids M q d W' V) as (L' & R' & _ & K' & H').
  exists L, L'. split; [exact Ne|]. split; [exact K|]. split; [exact K'|].
  destruct (rearmost N p W (proj1 O)) as (a & Ha & Pa & Back).
  assert (B0 : pt p 25 = 0) by (eapply race_no_bar; [exact W| |exact NC]; destruct O; auto).
  assert (B0' : pt q 25 = 0) by (eapply race_no_bar; [exact W'| |exact NC']; destruct O'; auto).
  assert (A25 : (a <= 24)%nat) by (destruct (Nat.eq_dec a 25) as [->|]; lia).
  assert (Qa : 0 < pt q a) by (specialize (E a Ha); lia).
  set (h := S a). assert (Hh : (1 <= h <= 25)%nat) by (unfold h; lia).
  pose proof (wf_len W) as Lp. pose proof (wf_len W') as Lq.
  set (T := skipn h (pips p)). set (T' := skipn h (pips q)).
  assert (Low : firstn h (pips p) = firstn h (pips q)).
  { apply nth_ext with (d := 0) (d' := 0); [rewrite !firstn_length; lia|]. intros i Hi. rewrite firstn_length in Hi.
    assert (I : (i <= a)%nat) by (unfold h in *; lia). rewrite !nth_firstn by lia.
    specialize (E i ltac:(lia)). fold (pt p i). fold (pt q i).
    assert (0 <= pt p i) by (destruct (Z.leb_spec 0 (pt p i)); auto; specialize (NC a i ltac:(lia) ltac:(lia) Pa ltac:(lia)); lia).
    assert (0 <= pt q i) by (destruct (Z.leb_spec 0 (pt q i)); auto; specialize (NC' a i ltac:(lia) ltac:(lia) Qa ltac:(lia)); lia).
    lia. }
  assert (TN : forall x S0, S0 = skipn h (pips x) -> length (pips x) = 26%nat -> (forall i, (a < i <= 25)%nat -> pt x i <= 0) -> pt x 25 = 0 ->
     length S0 = (26 - h)%nat /\ Forall (fun v => v <= 0) S0 /\ nth (25 - h) S0 0 = 0).
  { intros x S0 -> Lx Hx Bx. split; [rewrite skipn_length; lia|]. split.
    - apply Forall_forall. intros v Iv. apply In_nth with (d := 0) in Iv as (j & Hj & <-). rewrite skipn_length in Hj.
      rewrite nth_skipn. apply Hx. unfold h in *. lia.
    - rewrite nth_skipn. replace (h + (25 - h))%nat with 25%nat by lia. exact Bx. }
  destruct (TN p T eq_refl Lp Back B0) as (t1 & t2 & t3).
  destruct (TN q T' eq_refl Lq ltac:(intros i Hi; specialize (E i ltac:(lia)); specialize (Back i Hi); lia) B0') as (u1 & u2 & u3).
  assert (SP : sp h T T' p q).
  { exists (firstn h (pips p)). split; [rewrite firstn_length; lia|]. split; [symmetry; apply firstn_skipn|].
    rewrite Low. symmetry. apply firstn_skipn. }
  assert (RR : rr (Forall2 (sp h T T')) (raw p d) (raw q d)).
  { destruct d as [b s|x]; unfold raw; cbn [valid_dice] in V.
    - apply sp_mixed; auto; lia.
    - apply sp_double; auto. }
  rewrite R, R' in RR. cbn [rr] in RR. clear K K' R R' Ne.
  assert (I1 : forall r, In r L -> legal_result d p r) by (intros; apply H; auto).
  assert (I2 : forall r, In r L' -> legal_result d q r) by (intros; apply H'; auto). clear H H'.
  induction RR as [|r r' L L' X RR IH]; constructor.
  - split; [apply I1; left; auto|]. split; [apply I2; left; auto|]. intros i Hi.
    destruct X as (Hd & LH & Er & Er'). unfold pt. rewrite Er, Er'.
    destruct (le_lt_dec h i) as [G|G].
    + rewrite !app_nth2 by lia. rewrite Forall_forall in t2, u2.
      assert (nth (i - length Hd) T 0 <= 0) by (apply t2, nth_In; lia).
      assert (nth (i - length Hd) T' 0 <= 0) by (apply u2, nth_In; lia). lia.
    + rewrite !app_nth1 by lia. reflexivity.
  - apply IH; intros; [apply I1|apply I2]; right; auto.
Qed.

(** Everything about one entry of the two lists. *)
Definition split_entry (v w a b : vpos) : Prop :=
  (forall i, (i <= 25)%nat -> theirs a i = theirs b i) /\
  (forall i, (i <= 25)%nat -> mine a i = theirs v (25 - i)) /\
  (forall i, (i <= 25)%nat -> mine b i = theirs w (25 - i)) /\
  o_off (board_of a) - x_off (board_of v) = o_off (board_of b) - x_off (board_of w) /\
  x_off (board_of a) = o_off (board_of v) /\ x_off (board_of b) = o_off (board_of w).

Lemma split_vpos m k k' v w d : vwf k v -> vwf k' w -> vongoing v -> vongoing w ->
  no_contact (board_of v) -> no_contact (board_of w) -> valid_dice d -> same_mine v w ->
  exists l l', legal_positions m v d = Ret l /\ legal_positions m w d = Ret l' /\ l <> [] /\
    Forall2 (fun a b => vwf k a /\ vwf k' b /\ no_contact (board_of a) /\ no_contact (board_of b) /\ split_entry v w a b) l l'.
Proof.
  intros (p & -> & W) (q & -> & W') O O' NC NC' V E. rewrite board_of_tag in NC, NC'. rewrite vongoing_tag in O, O'.
  assert (E0 : forall i, (i <= 25)%nat -> Z.max 0 (pt p i) = Z.max 0 (pt q i)).
  { intros i Hi. specialize (E i Hi). unfold mine in E. rewrite !board_of_tag in E. exact E. }
  destruct (split_core _ _ p q d W W' O O' NC NC' V E0) as (L & L' & Ne & K & K' & F).
  exists (map (tag k) (map flipP L)), (map (tag k') (map flipP L')). unfold legal_positions. rewrite !classic_rules_tag.
  assert (X : classic_positions m (checkers k) p d = Ret (map flipP L)) by (rewrite <- K; destruct m; [apply kids_debug; auto|apply kids_release; auto]).
  assert (X' : classic_positions m (checkers k') q d = Ret (map flipP L')) by (rewrite <- K'; destruct m; [apply kids_debug; auto|apply kids_release; auto]).
  unfold classic_positions in X, X'. rewrite X, X', !bind_ret. split; [reflexivity|]. split; [reflexivity|].
  split; [destruct L; [congruence|discriminate]|]. clear X X' K K' Ne.
  induction F as [|r r' L L' (A & B & C) F IH]; cbn [map]; constructor; [|exact IH]. clear IH F L L'.
  rewrite !vwf_tag, !board_of_tag. destruct (race_ply _ p d r W O NC V A) as (NCr & _ & Or & Wr & _).
  destruct (race_ply _ q d r' W' O' NC' V B) as (NCr' & _ & Or' & Wr' & _).
  assert (Fl : forall N x, wf N x -> wf N (flipP x)) by (intros N x Wx; exact (flipP_wf Wx)).
  split; [apply Fl, Wr|]. split; [apply Fl, Wr'|]. split; [apply no_contact_flip; [apply Wr|exact NCr]|].
  split; [apply no_contact_flip; [apply Wr'|exact NCr']|].
  assert (OA : forall i, (i <= 25)%nat -> Z.max 0 (- pt r i) = Z.max 0 (- pt p i)).
  { destruct A as (ds & U & P & _). exact (race_opp _ ds p r W (uses_valid V U) P NC). }
  assert (OB : forall i, (i <= 25)%nat -> Z.max 0 (- pt r' i) = Z.max 0 (- pt q i)).
  { destruct B as (ds & U & P & _). exact (race_opp _ ds q r' W' (uses_valid V U) P NC'). }
  unfold split_entry, mine, theirs. rewrite !board_of_tag. cbn [flipP x_off o_off].
  repeat split.
  - intros i Hi. rewrite !pt_flipP by (auto; apply Wr || apply Wr'). rewrite !Z.opp_involutive. apply C. lia.
  - intros i Hi. rewrite !pt_flipP by (auto; apply Wr). apply OA. lia.
  - intros i Hi. rewrite !pt_flipP by (auto; apply Wr'). apply OB. lia.
  - pose proof (mine_off _ _ p q W W' E0). pose proof (mine_off _ _ r r' Wr Wr' C). lia.
  - exact Or.
  - exact Or'.
Qed.

(** In a race what can be listed for a roll depends on the mover's own checkers only: two races (of any two
    variants) in which the mover's checkers stand the same have lists of the same length; entry by entry the
    mover's checkers end up the same, the same number of them is borne off, and the other side's checkers
    stand where they stood. *)
Theorem C95_own_checkers_only : forall m k k' v w d, vwf k v -> vwf k' w -> vongoing v -> vongoing w ->
  vp_phase m v = Ret (POngoing Race) -> vp_phase m w = Ret (POngoing Race) -> valid_dice d -> same_mine v w ->
  exists l l', legal_positions m v d = Ret l /\ legal_positions m w d = Ret l' /\ l <> [] /\
  Forall2 (fun a b =>
    (forall i, (i <= 25)%nat -> theirs a i = theirs b i) /\
    (forall i, (i <= 25)%nat -> mine a i = theirs v (25 - i)) /\
    (forall i, (i <= 25)%nat -> mine b i = theirs w (25 - i)) /\
    o_off (board_of a) - x_off (board_of v) = o_off (board_of b) - x_off (board_of w) /\
    x_off (board_of a) = o_off (board_of v) /\ x_off (board_of b) = o_off (board_of w)) l l'.
Proof.
  intros m k k' v w d W W' O O' P P' V E.
  destruct (split_vpos m k k' v w d W W' O O' (race_of_phase m k v W O P) (race_of_phase m k' w W' O' P') V E) as (l & l' & A & B & C & F).
  exists l, l'. split; [exact A|]. split; [exact B|]. split; [exact C|].
  clear -F. induction F as [|a b l l' (_ & _ & _ & _ & H) F IH]; constructor; [exact H|exact IH].
Qed.

Lemma forall2_nth {A B} (P : A -> B -> Prop) l l' : Forall2 P l l' -> forall j a b,
  nth_error l j = Some a -> nth_error l' j = Some b -> P a b.
Proof. induction 1 as [|x y l l' X F IH]; intros [|j] a b E E'; cbn in *; try discriminate; [congruence|eauto]. Qed.

(** The other side's turn changes nothing either. *)
Lemma others_turn m k a e l b : vwf k a -> vongoing a -> no_contact (board_of a) -> valid_dice e ->
  legal_positions m a e = Ret l -> In b l ->
  vwf k b /\ no_contact (board_of b) /\ forall i, (i <= 25)%nat -> mine b i = theirs a (25 - i).
Proof.
  intros W O NC V E I. destruct (split_vpos m k k a a e W W O O NC NC V) as (l1 & l2 & A & B & _ & F); [intros i _; reflexivity|].
  rewrite E in A, B. injection A as <-. injection B as <-. apply In_nth_error in I as (j & I).
  destruct (forall2_nth _ _ _ F j b b I I) as (Wb & _ & NCb & _ & _ & H & _). auto.
Qed.

Lemma turns_same m : forall s k k' v w v' w', vwf k v -> vwf k' v' -> no_contact (board_of v) -> no_contact (board_of v') ->
  same_mine v v' -> turns m s v w -> turns m s v' w' -> same_mine w w'.
Proof.
  induction s as [|[d j] s IH]; intros k k' v w v' w' W W' NC NC' E T T'; inversion T; inversion T'; subst; [exact E|].
  match goal with H : legal_positions m v d = Ret ?l, H' : legal_positions m v' d = Ret ?l', N : nth_error ?l j = Some ?a, N' : nth_error ?l' j = Some ?b |- _ =>
    rename H into EL; rename H' into EL'; rename N into Na; rename N' into Nb end.
  match goal with O : vongoing v, O' : vongoing v', V : valid_dice d |- _ =>
    destruct (split_vpos m k k' v v' d W W' O O' NC NC' V E) as (l1 & l2 & A & B & _ & F) end.
  rewrite EL in A. rewrite EL' in B. injection A as <-. injection B as <-.
  destruct (forall2_nth _ _ _ F j _ _ Na Nb) as (Wa & Wb & NCa & NCb & Th & _).
  repeat match goal with T : turns m s ?b0 _, I : In ?b0 ?l0, E0 : legal_positions m ?a0 ?e0 = Ret ?l0, O0 : vongoing ?a0, V0 : valid_dice ?e0, W0 : vwf ?k0 ?a0, N0 : no_contact (board_of ?a0) |- _ =>
    let H := fresh "OT" in pose proof (others_turn m k0 a0 e0 l0 b0 W0 O0 N0 V0 E0 I) as H; clear I end.
  destruct OT as (X1 & X2 & X3). destruct OT0 as (Y1 & Y2 & Y3).
  eapply IH; [..|eassumption|eassumption]; try eassumption.
  intros i Hi. first [rewrite X3, Y3 by exact Hi|rewrite Y3, X3 by exact Hi]; first [apply Th; lia|symmetry; apply Th; lia].
Qed.

(** So a whole race is two separate bear-offs: with the same rolls and the same choices (as places in the
    lists) a side that starts with the same checkers comes to stand the same, whatever the other side has,
    rolls and does. *)
Theorem C95_two_bear_offs : forall m k k' s v w v' w', vwf k v -> vwf k' v' -> vongoing v -> vongoing v' ->
  vp_phase m v = Ret (POngoing Race) -> vp_phase m v' = Ret (POngoing Race) -> same_mine v v' ->
  turns m s v w -> turns m s v' w' -> same_mine w w'.
Proof.
  intros m k k' s v w v' w' W W' O O' P P' E T T'.
  exact (turns_same m s k k' v w v' w' W W' (race_of_phase m k v W O P) (race_of_phase m k' v' W' O' P') E T T').
Qed.

(** Two races: three checkers of hypergammon against three, and the last three of backgammon's fifteen
    against fourteen.  The mover's checkers are the same, the others are not. *)
Definition three_left : vpos := VHypergammon {| turn := true; x_off := 0; o_off := 0;
  pips := [0; 1; 0; 1; 0; 0; 0; 0; 1; 0; 0; 0; 0; 0; 0; 0; 0; 0; 0; 0; -1; -1; -1; 0; 0; 0] |}.
Definition fifteen_less_twelve : vpos := VBackgammon {| turn := false; x_off := 12; o_off := 1;
  pips := [0; 1; 0; 1; 0; 0; 0; 0; 1; 0; -2; 0; -3; 0; 0; 0; 0; 0; -4; 0; 0; -5; 0; 0; 0; 0] |}.
Example C95_case : vwf Hypergammon three_left /\ vwf Backgammon fifteen_less_twelve /\
  vongoing three_left /\ vongoing fifteen_less_twelve /\ same_mine three_left fifteen_less_twelve /\
  vp_phase Debug three_left = Ret (POngoing Race) /\ vp_phase Debug fifteen_less_twelve = Ret (POngoing Race) /\
  (exists l, legal_positions Debug three_left (Mixed 2 1) = Ret l /\ length l = 4%nat) /\
  (exists w, turns Debug [(Mixed 2 1, 3%nat)] three_left w) /\
  (exists w, turns Debug [(Mixed 2 1, 3%nat)] fifteen_less_twelve w).
Proof.
  assert (W1 : vwf Hypergammon three_left) by (eexists; split; [reflexivity|]; solve_wf).
  assert (W2 : vwf Backgammon fifteen_less_twelve) by (eexists; split; [reflexivity|]; solve_wf).
  assert (O1 : vongoing three_left) by (exists Hypergammon; eexists; split; [reflexivity|]; split; reflexivity).
  assert (O2 : vongoing fifteen_less_twelve) by (exists Backgammon; eexists; split; [reflexivity|]; split; reflexivity).
  split; [exact W1|]. split; [exact W2|]. split; [exact O1|]. split; [exact O2|].
  split; [intros i Hi; do 26 (destruct i as [|i]; [reflexivity|]); lia|].
  split; [vm_compute; reflexivity|]. split; [vm_compute; reflexivity|].
  split; [eexists; split; [vm_compute; reflexivity|reflexivity]|].
  split; eexists; (eapply turns_1 with (e := Mixed 6 5);
    [assumption|cbn; unfold valid_die; lia|vm_compute; reflexivity|reflexivity|
     first [exists Hypergammon; eexists; split; [reflexivity|split; reflexivity]|exists Backgammon; eexists; split; [reflexivity|split; reflexivity]]
     |cbn; unfold valid_die; lia|vm_compute; reflexivity|left; reflexivity|apply turns_0]).
Qed.
