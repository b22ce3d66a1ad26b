(** Property C63: exactly which texts [apply_move] accepts, and what it makes of them.  Read with
    SpecMoveText.v, SpecRules.v, SpecVariants.v. *)
From Coq Require Import Strings.String.
From Verif Require Import FibsFacts ModeFacts PipFacts VariantFacts EqFacts DoubleProof MixedProof Commute MoveGenProof PropMoves
  SpecMoveText TextFacts MoveTextFacts LeafFacts LeafLegal EncodeFacts LegalMovesFacts LegalTexts PropMoveText.
Open Scope Z_scope.

Lemma match_step s d : step_matches_die s d = true -> s = step (ms_from s) (ms_from s - d).
Proof.
  unfold step_matches_die, step. destruct s as [f t]. cbn [ms_from ms_to]. destruct (Nat.eqb_spec t 0).
  - intros H. apply Nat.leb_le in H. subst. f_equal. lia.
  - intros H. apply andb_true_iff in H. destruct H as (_ & H). apply Nat.eqb_eq in H. subst. reflexivity.
Qed.
Lemma runs_plays_as N d st : valid_dice d -> forall is p q, wf N p -> Forall (fun i => (i < len_of d)%nat) is ->
  runs (buf_of d) st is p q ->
  exists ds, plays_as ds st p q /\ Forall2 (fun i x => nth_error (pool d) i = Some x) is ds.
Proof.
  intros V. induction st as [|s st IH]; intros is p q W F R; inversion R as [|i die ? ? is' ? ? Ei SM M R']; subst.
  - exists []. split; constructor.
  - inversion F as [|? ? Fi F']; subst. destruct (buf_valid d V Fi) as (die' & Ei' & Vd).
    assert (die' = die) as -> by congruence.
    destruct (IH is' (mv p die (ms_from s)) q (may_wf W Vd M) F' R') as (ds & P & F2). exists (die :: ds).
    split; [|constructor; auto; rewrite <- buf_pool by auto; exact Ei].
    rewrite (match_step _ _ SM). econstructor; [exact M| |exact P].
    apply moved_iff; auto; [apply W|eapply may_move_range; eauto|apply Vd].
Qed.

(** Once all checkers are within reach of [y] in the home board, [y] is playable as long as one is left. *)
Lemma playable_home r y : (1 <= y <= 6)%nat -> (forall i, (y < i <= 25)%nat -> pt r i <= 0) ->
  (exists a, (1 <= a <= 25)%nat /\ 0 < pt r a) -> exists c, may_move r y c.
Proof.
  intros Vy Hi (a & Ra & Pa).
  assert (G : forall n, (n <= 25)%nat -> (exists a, (1 <= a <= n)%nat /\ 0 < pt r a) -> (forall i, (n < i <= 25)%nat -> pt r i <= 0) ->
    exists c, (1 <= c <= n)%nat /\ 0 < pt r c /\ forall i, (c < i <= 25)%nat -> pt r i <= 0).
  { induction n as [|n IH]; intros L (x & Rx & Px) H; [lia|]. destruct (Z.ltb_spec 0 (pt r (S n))).
    - exists (S n). split; [lia|]. auto.
    - destruct IH as (c & Rc & Pc & Hc); [lia| | |].
      + exists x. split; auto. assert (x <> S n) by (intros ->; lia). lia.
      + intros i Ri. destruct (Nat.eq_dec i (S n)); [subst; lia|]. apply H. lia.
      + exists c. split; [lia|]. auto. }
  destruct (G 25%nat) as (c & Rc & Pc & Hc); [lia|eauto|intros; lia|].
  assert (c <= y)%nat. { destruct (Nat.le_gt_cases c y); auto. specialize (Hi c ltac:(lia)). lia. }
  exists c. split; [lia|]. split; [auto|]. split; [intros; apply Hc; lia|]. split; [lia|]. intros _. split.
  - intros i Ri. apply Hc. lia.
  - intros _ i Ri. apply Hc. lia.
Qed.

Lemma core_iff m N p d st z : wf N p -> valid_dice d -> Forall on_board st ->
  core m p d st = Ret (Some z) <->
  exists ds rest r, Permutation.Permutation (ds ++ rest) (pool d) /\ plays_as ds st p r /\
    (forall x, In x rest -> forall a, ~ may_move r x a) /\ mirrored r z.
Proof.
  intros W V OB. split.
  - intros E. destruct (core_ret m d W V OB) as (o & E' & H). assert (o = Some z) as -> by congruence.
    destruct H as (is & q & (ND & F) & R & Wq & -> & No).
    assert (Fl : Forall (fun i => (i < len_of d)%nat) is) by (eapply Forall_impl; [|exact F]; cbv beta; tauto).
    destruct (runs_plays_as d V W Fl R) as (ds & P & F2).
    destruct (picks_uses _ ND F2) as (rest & Pm & Hr).
    exists ds, rest, q. split; [auto|]. split; [auto|]. split; [|apply flipP_mirrored, Wq].
    intros x I a M. destruct (Hr x I) as (i & Ni & Ei). apply (No i x) with (a := a); auto.
    unfold len_of. apply nth_error_Some. congruence.
  - intros (ds & rest & r & Pm & PA & No & Mr).
    assert (U : uses d ds) by (exists rest; auto). pose proof (uses_valid V U) as Vds.
    pose proof (plays_as_plays PA) as P. pose proof (plays_wf_any W Vds P) as Wr.
    apply mirrored_iff in Mr; [|apply Wr]. subst z.
    destruct (uses_picks U) as (js & ND & F2).
    assert (Lt : Forall (fun i => (i < len_of d)%nat) js).
    { unfold len_of. clear - F2. induction F2; constructor; auto. apply nth_error_Some. congruence. }
    assert (F2' : Forall2 (fun j x => nth_error (buf_of d) j = Some x) js ds).
    { clear - F2 Lt. induction F2; constructor; inversion Lt; subst; auto. rewrite buf_pool; auto. }
    pose proof (plays_as_runs (buf_of d) W Vds F2' PA) as R.
    assert (Fr : fresh (len_of d) 0 js).
    { split; auto. eapply Forall_impl; [|exact Lt]. cbv beta. intros i L. split; [exact L|apply bit_set_0]. }
    destruct (core_ret m d W V OB) as (o & E & H). rewrite E. destruct o as [r'|].
    { destruct H as (is & q & _ & R' & _ & -> & _). rewrite (runs_fun R' R). reflexivity. }
    exfalso. destruct H as [H|(is & q & i & die & a & (NDi & Fi) & Ri & _ & Li & Ni & Ei & Ma)]; [eapply H; eauto|].
    assert (q = r) as -> by (eapply runs_fun; eauto).
    pose proof (runs_length R) as L1. pose proof (runs_length Ri) as L1'. pose proof (FibsFacts.Forall2_length F2) as L2.
    pose proof (Permutation.Permutation_length Pm) as L3. rewrite app_length in L3.
    assert (Fl : Forall (fun i => (i < len_of d)%nat) is) by (eapply Forall_impl; [|exact Fi]; cbv beta; tauto).
    assert (Lis : (S (List.length is) <= len_of d)%nat).
    { apply (NoDup_incl_length (l := i :: is) (l' := seq 0 (len_of d))) in NDi || idtac.
      assert (X : incl (i :: is) (seq 0 (len_of d))).
      { intros x [<-|I]; apply in_seq; [lia|]. rewrite Forall_forall in Fl. specialize (Fl x I). cbv beta in Fl. lia. }
      apply NoDup_incl_length in X; [|constructor; auto]. rewrite seq_length in X. exact X. }
    destruct d as [b s|x].
    + destruct V as (Vb & Vs & Lts). change (len_of (Mixed b s)) with 2%nat in *. change (buf_of (Mixed b s)) with [b; s; 0%nat; 0%nat] in *. cbn [pool] in *.
      destruct ds as [|x [|? ?]]; [| |simpl in *; lia].
      * apply (No die) with (a := a); auto. apply (Permutation.Permutation_in _ (Permutation.Permutation_sym Pm)).
        eapply nth_error_In; eauto.
      * destruct rest as [|y [|? ?]]; [simpl in L3; lia| |simpl in L3; lia].
        destruct js as [|j [|? ?]]; try (simpl in L2; lia). destruct st as [|stp [|? ?]]; try (simpl in L1; lia).
        destruct is as [|i0 [|? ?]]; try (simpl in L1'; lia).
        inversion Ri as [|? e ? ? ? ? ? Ee Se Me Re]; subst. inversion R as [|? e' ? ? ? ? ? Ee' Se' Me' Re']; subst.
        inversion F2 as [|? ? ? ? Ex _]; subst. inversion Re'; subst. inversion Lt; subst. inversion Fl; subst.
        assert (x = e') as -> by (destruct j as [|[|]]; [simpl in *; congruence|simpl in *; congruence|lia]).
        set (p1 := mv p e' (ms_from stp)) in *.
        assert (Hy : ~ exists c, may_move p1 y c) by (intros (c & Mc); exact (No y (or_introl eq_refl) c Mc)).
        destruct (Nat.eq_dec die y) as [->|Nd]; [apply Hy; eauto|].
        assert (Nij : i <> i0) by (intros ->; apply Ni; left; auto).
        assert (X : die = e' /\ e = y /\ e <> e' /\ (1 <= e <= 6)%nat /\ (1 <= e' <= 6)%nat).
        { unfold valid_die in *. apply Permutation.Permutation_length_2_inv in Pm || apply Permutation.Permutation_sym, Permutation.Permutation_length_2_inv in Pm.
          assert (Pc : (e' = b /\ y = s) \/ (e' = s /\ y = b)) by (destruct Pm as [Pm|Pm]; inversion Pm; auto).
          destruct i as [|[|]], i0 as [|[|]]; try lia; cbn [nth_error] in *;
            (assert (e = b \/ e = s) by (first [left; congruence|right; congruence]));
            repeat match goal with H : Some _ = Some _ |- _ => inversion H; clear H; subst end; intuition (subst; lia). }
        destruct X as (-> & -> & Ne & Re1 & Re2).
        (* both dice can bear the same checker off *)
        assert (To : ms_to stp = 0%nat).
        { revert Se Se'. unfold step_matches_die. destruct (Nat.eqb_spec (ms_to stp) 0); auto.
          rewrite !andb_true_iff, !Nat.ltb_lt, !Nat.eqb_eq. lia. }
        unfold step_matches_die in Se, Se'. rewrite To in Se, Se'. cbn [Nat.eqb] in Se, Se'.
        apply Nat.leb_le in Se. apply Nat.leb_le in Se'.
        assert (Hi : forall c, (ms_from stp < c <= 25)%nat -> pt p c <= 0).
        { intros c Rc. destruct (Nat.eq_dec (ms_from stp) y).
          - assert (Fe : (ms_from stp < e')%nat) by lia. destruct Me' as (_ & _ & _ & _ & B). destruct (B Se') as (_ & B'). apply B'; auto.
          - assert (Fe : (ms_from stp < y)%nat) by lia. destruct Me as (_ & _ & _ & _ & B). destruct (B Se) as (_ & B'). apply B'; auto. }
        assert (Mv : moved p e' (ms_from stp) p1).
        { apply moved_iff; auto; [apply W|eapply may_move_range; eauto|lia]. }
        apply Hy. apply playable_home; [lia| |].
        -- intros c Rc. rewrite (mvd_rest Mv) by lia. apply Hi. lia.
        -- destruct Ma as (Ra & Pa & _). exists a. auto.
    + assert (Ed : die = x) by (apply nth_error_In in Ei; simpl in Ei; intuition).
      destruct rest as [|y rest]; [change (len_of (Double x)) with (List.length (pool (Double x))) in Lis; simpl in L3; simpl in Lis; lia|].
      assert (Ey : y = x).
      { assert (I : In y (pool (Double x))) by (apply (Permutation.Permutation_in _ Pm), in_or_app; right; left; auto). simpl in I. intuition. }
      subst. exact (No x (or_introl eq_refl) a Ma).
Qed.

(** ** C63 *)

(** A text is accepted if and only if it says a move whose steps play some of the dice rolled, one
    after the other and each die at most once, such that no die left over could be played afterwards;
    the result is the resulting board handed to the other player.  A text that does not say a move, or
    says any other move, gives no position.  This holds in every build. *)
Theorem C63_accepts_exactly : forall m k v d t w, vwf k v -> valid_dice d ->
  (apply_move m v d t = Ret (Some w) <->
   exists st ds rest r q, move_text t st /\ Permutation.Permutation (ds ++ rest) (pool d) /\
     plays_as ds st (board_of v) r /\ (forall x, In x rest -> forall a, ~ may_move r x a) /\
     mirrored r q /\ w = tag k q).
Proof.
  intros m k v d t w (p & -> & W) V. rewrite apply_tag, board_of_tag.
  destruct (move_text_dec t) as [(st & M)|N].
  - rewrite (apply_for_core m p d M). pose proof (move_text_on_board M) as OB. split.
    + intros E. destruct (core_ret m d W V OB) as (o & E' & _). rewrite E' in E. destruct o as [z|]; [|discriminate].
      cbn in E. assert (w = tag k z) as -> by congruence.
      apply (@core_iff m (checkers k) p d st z W V OB) in E'. destruct E' as (ds & rest & r & Pm & PA & No & Mr).
      exists st, ds, rest, r, z. auto 8.
    + intros (st' & ds & rest & r & q & M' & Pm & PA & No & Mr & ->).
      rewrite (C17_unambiguous M M') in *.
      rewrite (proj2 (@core_iff m (checkers k) p d st' q W V OB)); [reflexivity|]. exists ds, rest, r. auto.
  - rewrite (apply_for_none m p d N). split; [discriminate|]. intros (st & ds & rest & r & q & M & _). destruct (N st M).
Qed.

(** Everything else is [None]: there is no third outcome and no panic. *)
Theorem C63_otherwise_none : forall m k v d t, vwf k v -> valid_dice d ->
  (forall w, apply_move m v d t <> Ret (Some w)) -> apply_move m v d t = Ret None.
Proof.
  intros m k v d t W V H. destruct (C20_total d t W V) as (o & E). rewrite E. destruct o as [w|]; auto.
  destruct (H w). apply E.
Qed.

(** The result is determined by what the text says: texts saying the same move agree. *)
Theorem C63_only_meaning_counts : forall m k v d t t' st, vwf k v -> valid_dice d ->
  move_text t st -> move_text t' st -> apply_move m v d t = apply_move m v d t'.
Proof.
  intros m k v d t t' st (p & -> & W) V M M'. rewrite !apply_tag, (apply_for_core m p d M), (apply_for_core m p d M'). reflexivity.
Qed.

(** Non-vacuity: "8/5 6/5" is accepted from the start with 3-1 and its result listed; "8/4" is not a
    step of one die. *)
Example C63_ex : (exists w, apply_move Debug (start_position Backgammon) (Mixed 3 1) (lit "8/5 6/5") = Ret (Some w)) /\
  apply_move Debug (start_position Backgammon) (Mixed 3 1) (lit "8/4") = Ret None /\
  apply_move Debug (start_position Backgammon) (Mixed 3 1) (lit "8/5/4") <> Ret None /\
  apply_move Debug (start_position Backgammon) (Mixed 3 1) (lit "8/5") = Ret None.
Proof. split; [eexists|split; [|split]]; vm_compute; try reflexivity. discriminate. Qed.
