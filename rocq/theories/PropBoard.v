(** Property C85: move lists depend on the board only.  Read with SpecRules.v, SpecVariants.v and
    SpecBoard.v. *)
From Verif Require Import SpecBoard BoardFacts VariantFacts PropMoves PerftFacts MoveFacts FlipFacts PropFinished ModeFacts GameFacts.
Unset Implicit Arguments.
Open Scope Z_scope.

Lemma same_board_pips p q : length (pips p) = 26%nat -> length (pips q) = 26%nat ->
  same_board p q <-> pips p = pips q.
Proof.
  intros L L'. split.
  - intros H. apply nth_ext with (d := 0) (d' := 0); [congruence|]. intros i Hi. apply H. lia.
  - intros E i _. unfold pt. rewrite E. reflexivity.
Qed.
Lemma same_off N M p q : wf N p -> wf M q -> pips p = pips q -> same_but_off (N - M) p q.
Proof.
  intros W W' E. split; [intros i _; unfold pt; rewrite E; reflexivity|].
  pose proof (wf_x W) as X. pose proof (wf_o W) as O. pose proof (wf_x W') as X'. pose proof (wf_o W') as O'.
  unfold x_checkers, o_checkers in *. rewrite E in X, O. lia.
Qed.
Lemma same_ongoing N M p q : same_but_off (N - M) p q -> (ongoing N p <-> ongoing M q).
Proof. intros (_ & X & O). unfold ongoing. lia. Qed.
Lemma plays_turn ds p r : plays ds p r -> turn r = turn p.
Proof. induction 1 as [|d ds p from q r Hm Hv _ IH]; [reflexivity|]. rewrite IH. apply (mvd_turn Hv). Qed.
Lemma kids_turn N p d q : wf N p -> valid_dice d -> In q (kids N p d) -> turn q = negb (turn p).
Proof.
  intros W V I. destruct (movegen_release d W V) as (l & E & _ & H). unfold kids in I. rewrite E in I.
  apply H in I. destruct I as (r & (ds & _ & L & _) & (T & _)). rewrite T, (plays_turn _ _ _ L). reflexivity.
Qed.

(** ** C85 *)

Lemma kids_board N M p q d : wf N p -> wf M q -> pips p = pips q -> valid_dice d ->
  map pips (kids N p d) = map pips (kids M q d).
Proof.
  intros W W' E V. pose proof (bd_generate N M p q d E) as A. unfold agree in A.
  pose proof (@kids_release N p d W V) as K. pose proof (@kids_release M q d W' V) as K'.
  unfold classic_positions in K, K'. rewrite K, K' in A. cbn [rmap] in A. injection A as A. exact A.
Qed.
Lemma forall2_map {A B} (f : A -> B) (P : A -> A -> Prop) : forall l l', map f l = map f l' ->
  (forall a b, In a l -> In b l' -> f a = f b -> P a b) -> Forall2 P l l'.
Proof.
  induction l as [|a l IH]; intros [|b l'] E H; try discriminate; constructor; cbn in E.
  - apply H; [left; auto|left; auto|congruence].
  - apply IH; [congruence|]. intros x y X Y. apply H; right; auto.
Qed.

(** Two positions showing the same board - whatever the number of checkers a side, the checkers borne off
    and the turn flags - have lists of the same length for every roll and build; entry by entry the listed
    positions show the same board and differ, like the two positions, by a constant number of checkers
    borne off. *)
Theorem C85_same_board : forall m N M p q d, wf N p -> wf M q -> same_board p q -> valid_dice d ->
  (m = Debug -> ongoing N p) ->
  exists l l', classic_positions m N p d = Ret l /\ classic_positions m M q d = Ret l' /\ l <> [] /\
    Forall2 (fun a b => same_but_off (N - M) a b /\ turn a = negb (turn p) /\ turn b = negb (turn q)) l l'.
Proof.
  intros m N M p q d W W' B V O. apply same_board_pips in B; [|apply W|apply W'].
  pose proof (same_off N M p q W W' B) as S. rewrite (same_ongoing N M p q S) in O.
  exists (kids N p d), (kids M q d). split; [|split; [|split]].
  - destruct m; [apply kids_debug; auto|apply kids_release; auto]. apply (same_ongoing N M p q S). auto.
  - destruct m; [apply kids_debug; auto|apply kids_release; auto].
  - destruct (movegen_release d W V) as (l & E & Ne & _). unfold kids. rewrite E. exact Ne.
  - apply (forall2_map pips); [apply kids_board; auto|]. intros a b I J E.
    split; [|split; [eapply kids_turn; eauto|eapply kids_turn; eauto]].
    apply same_off; [eapply kids_wf; eauto|eapply kids_wf; eauto|exact E].
Qed.

(** In a debug build, neither or both of the calls panic. *)
Theorem C85_same_panic : forall N M p q d, wf N p -> wf M q -> same_board p q -> valid_dice d ->
  ~ ongoing N p -> classic_positions Debug N p d = Panic AssertFail /\ classic_positions Debug M q d = Panic AssertFail.
Proof.
  intros N M p q d W W' B V O. apply same_board_pips in B; [|apply W|apply W'].
  pose proof (same_off N M p q W W' B) as S. split; apply movegen_over; auto. rewrite <- (same_ongoing N M p q S). exact O.
Qed.

(** The same for variants: a Hypergammon game and a Backgammon game that show the same board offer the
    same moves, in the same order. *)
Theorem C85_variants : forall m k k' v w d, vwf k v -> vwf k' w -> same_board (board_of v) (board_of w) ->
  valid_dice d -> (m = Debug -> vongoing v) ->
  exists l l', legal_positions m v d = Ret l /\ legal_positions m w d = Ret l' /\ l <> [] /\
    Forall2 (fun a b => vwf k a /\ vwf k' b /\ same_but_off (checkers k - checkers k') (board_of a) (board_of b) /\
                        vp_turn a = negb (vp_turn v) /\ vp_turn b = negb (vp_turn w)) l l'.
Proof.
  intros m k k' v w d (p & -> & W) (q & -> & W') B V O. rewrite !board_of_tag in B. rewrite vongoing_tag in O.
  destruct (C85_same_board m _ _ p q d W W' B V O) as (l & l' & E & E' & Ne & F).
  exists (map (tag k) l), (map (tag k') l'). unfold legal_positions. rewrite !classic_rules_tag.
  unfold classic_positions in E, E'. rewrite E, E', !bind_ret. split; [auto|]. split; [auto|].
  split; [destruct l; [congruence|discriminate]|].
  assert (K : forall x, In x l -> wf (checkers k) x).
  { intros x I. destruct (@kids_any m _ _ _ _ W V E) as (-> & _). eapply kids_wf; eauto. }
  assert (K' : forall x, In x l' -> wf (checkers k') x).
  { intros x I. destruct (@kids_any m _ _ _ _ W' V E') as (-> & _). eapply kids_wf; eauto. }
  clear E E' Ne. induction F as [|a b l l' H F IH]; cbn [map]; constructor.
  - rewrite !board_of_tag, !vp_turn_tag, !vwf_tag. split; [apply K; left; auto|]. split; [apply K'; left; auto|]. exact H.
  - apply IH; intros x I; [apply K|apply K']; right; exact I.
Qed.

(** The "no hits" rules, too, look at the board only. *)
Theorem C85_no_hit : forall m k k' v w d, vwf k v -> vwf k' w -> same_board (board_of v) (board_of w) -> valid_dice d ->
  vongoing v ->
  exists l l', no_hit_rules m v d = Ret l /\ no_hit_rules m w d = Ret l' /\
    Forall2 (fun a b => same_board (board_of a) (board_of b)) l l'.
Proof.
  intros m k k' v w d (p & -> & W) (q & -> & W') B V O. rewrite !board_of_tag in B. rewrite vongoing_tag in O.
  apply same_board_pips in B; [|apply W|apply W'].
  assert (O' : ongoing (checkers k') q) by (apply (same_ongoing _ _ _ _ (same_off _ _ p q W W' B)); exact O).
  destruct (@no_hit_ret m k p d W O V) as (l1 & _ & _ & E). destruct (@no_hit_ret m k' q d W' O' V) as (l2 & _ & _ & E').
  eexists _, _. split; [exact E|]. split; [exact E'|].
  assert (E1 : no_hit_rules Release (tag k p) d = no_hit_rules m (tag k p) d).
  { destruct m; [|reflexivity]. rewrite E. exact (mono_nohit_rules _ _ E). }
  assert (E2 : no_hit_rules Release (tag k' q) d = no_hit_rules m (tag k' q) d).
  { destruct m; [|reflexivity]. rewrite E'. exact (mono_nohit_rules _ _ E'). }
  rewrite E in E1. rewrite E' in E2. rewrite no_hit_rules_tag in E1, E2.
  apply bind_inv in E1. destruct E1 as (a & A1 & A2). apply bind_inv in E2. destruct E2 as (b & B1 & B2).
  pose proof (bd_no_hit (checkers k) (checkers k') p q d B) as A. unfold agree in A. rewrite A1, B1 in A.
  cbn [rmap] in A. injection A2 as <-. injection B2 as <-.
  apply (forall2_map (fun x => pips (board_of x))).
  - rewrite !map_map.
    rewrite (map_ext (fun x => pips (board_of (tag k x))) pips) by (intros; rewrite board_of_tag; reflexivity).
    rewrite (map_ext (fun x => pips (board_of (tag k' x))) pips) by (intros; rewrite board_of_tag; reflexivity).
    injection A as A. exact A.
  - intros x y _ _ H i _. unfold pt. rewrite H. reflexivity.
Qed.

(** A case: the Hypergammon start, and the same board in a Backgammon game with twelve checkers a side
    already off; both list the same boards. *)
Definition ex_hyper15 : position :=
  let h := board_of (start_position Hypergammon) in {| turn := true; pips := pips h; x_off := 12; o_off := 12 |}.
Example C85_case : vwf Hypergammon (start_position Hypergammon) /\ vongoing (start_position Hypergammon) /\
  vwf Backgammon (VBackgammon ex_hyper15) /\ same_board (board_of (start_position Hypergammon)) ex_hyper15 /\
  match legal_positions Debug (VBackgammon ex_hyper15) (Mixed 3 2) with Ret l => length l = 8%nat | Panic _ => False end.
Proof.
  split; [apply start_wf|]. split; [apply start_wf|].
  split; [exists ex_hyper15; split; [reflexivity|solve_wf]|]. split; [intros i _; reflexivity|]. vm_compute. reflexivity.
Qed.
