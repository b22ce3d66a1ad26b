(** Properties C64 and C65: exactly what [encode_move] accepts and what its text says; exactly which of
    the texts listed by [legal_moves] play to their position.  Read with SpecMoveText.v, SpecRules.v,
    SpecVariants.v. *)
From Coq Require Import Strings.String.
From Verif Require Import FibsFacts ModeFacts PipFacts VariantFacts EqFacts DoubleProof MixedProof Commute MoveGenProof PropMoves
  SpecMoveText TextFacts MoveTextFacts LeafFacts LeafLegal EncodeFacts LegalMovesFacts LegalTexts PropMoveText PropApply.
Open Scope Z_scope.

Lemma leaf_as N o : forall p st q, wf N p -> Forall valid_die o -> leaf o p st q <-> in_order_as o st p q.
Proof.
  induction o as [|d o IH]; intros p st q W V.
  - split; intros H; inversion H; subst; constructor.
  - inversion V as [|? ? Vd Vo]; subst. split.
    + intros L. inversion L as [|? ? ? a st' ? M L'|? ? ? ? ? No L']; subst.
      * econstructor; [exact M| |apply (IH (mv p d a) st' q (may_wf W Vd M) Vo); eauto].
        apply moved_iff; auto; [apply W|eapply may_move_range; eauto|destruct Vd; lia].
      * apply in_order_as_skip; auto. apply (IH p st q W Vo). auto.
    + intros H. inversion H as [|? ? a st' ? q' ? M Mv H'|? ? ? ? ? No H']; subst.
      * apply moved_iff in Mv; [|apply W|eapply may_move_range; eauto|destruct Vd; lia]. subst q'.
        apply leaf_move; auto. apply (IH (mv p d a) st' q (may_wf W Vd M) Vo). auto.
      * apply leaf_skip; auto. apply (IH p st q W Vo). auto.
Qed.

(** ** C64 *)

(** [encode_move] accepts exactly the boards that can be reached by playing the dice in one of the two
    orders, passing over a die only when it cannot be played. *)
Theorem C64_accepts_exactly : forall m k v w d, vwf k v -> vwf k w -> valid_dice d ->
  (exists t, encode_move m v w d = Ret (inr t)) <->
  exists ord r q, In ord (orders d) /\ in_order ord (board_of v) r /\ mirrored r q /\ same_board (board_of w) q.
Proof.
  intros m k v w d Wv Ww V. destruct (C21_accepted_exact_partial m d Wv Ww V) as (o & E & H). rewrite E. destruct o as [e|t].
  - destruct H as (-> & H). split; [intros (t & X); discriminate|]. intros (ord & r & q & I & IO & M & S). destruct (H ord r q I IO M S).
  - split; eauto.
Qed.

(** The text is in the format of [format_move_steps] and says such a play; [apply_move] takes it if and
    only if no die is left over that could be played afterwards, and then gives the encoded board. *)
Theorem C64_text : forall m m' k v w d t, vwf k v -> vwf k w -> valid_dice d ->
  encode_move m v w d = Ret (inr t) ->
  exists ord st r q, In ord (orders d) /\ in_order_as ord st (board_of v) r /\ mirrored r q /\ same_board (board_of w) q /\
    move_text t st /\ t = format_move_steps st /\
    (apply_move m' v d t = Ret (Some (tag k q)) \/ apply_move m' v d t = Ret None) /\
    (apply_move m' v d t = Ret None <->
     forall ds rest, Permutation.Permutation (ds ++ rest) (pool d) -> plays_as ds st (board_of v) r ->
       exists x a, In x rest /\ may_move r x a).
Proof.
  intros m m' k v w d t Wv (n & -> & Wn) V E. pose proof Wv as Wv'. destruct Wv' as (p & -> & W). rewrite !board_of_tag. unfold encode_move in E. rewrite encode_tag in E.
  change (orders d) with (die_orders d).
  destruct (encode_ret m d W Wn V) as (o & E' & H). rewrite E' in E. destruct o as [e|st]; cbn in E; [discriminate|].
  assert (t = format_move_steps st) as -> by congruence.
  destruct H as (ord & r & I & L & Q & _). pose proof (order_valid _ _ V I) as Vo. pose proof (leaf_wf W Vo L) as Wr.
  pose proof (leaf_on_board Vo L) as OB. pose proof (format_move_text OB) as MT.
  exists ord, st, r, (flipP r). split; [auto|]. split; [apply (leaf_as st r W Vo); auto|]. split; [apply flipP_mirrored, Wr|].
  split. { apply position_eqb_iff. rewrite eqb_sym. apply eqb_flip. rewrite flipP_involutive. exact Q. }
  split; [auto|]. split; [auto|].
  (* whatever the text plays to is [r] *)
  assert (Only : forall ds rest r', Permutation.Permutation (ds ++ rest) (pool d) -> plays_as ds st p r' -> r' = r).
  { intros ds rest r' Pm PA. assert (U : uses d ds) by (exists rest; auto). pose proof (uses_valid V U) as Vds.
    destruct (uses_picks U) as (js & ND & F2).
    assert (F2' : Forall2 (fun j x => nth_error (buf_of d) j = Some x) js ds).
    { assert (Lt : Forall (fun i => (i < len_of d)%nat) js).
      { unfold len_of. clear - F2. induction F2; constructor; auto. apply nth_error_Some. congruence. }
      clear - F2 Lt. induction F2; constructor; inversion Lt; subst; auto. rewrite buf_pool; auto. }
    pose proof (plays_as_runs (buf_of d) W Vds F2' PA) as R.
    destruct (leaf_runs_order _ I L) as (is0 & _ & R0 & _). exact (runs_fun R R0). }
  destruct (C20_total d (format_move_steps st) Wv V) as (o & Eo). rewrite Eo.
  assert (Iff : forall z, o = Some z <-> exists ds rest, Permutation.Permutation (ds ++ rest) (pool d) /\ plays_as ds st p r /\
      (forall x, In x rest -> forall a, ~ may_move r x a) /\ z = tag k (flipP r)).
  { intros z. pose proof (C63_accepts_exactly m' d (format_move_steps st) z Wv V) as X. rewrite Eo, board_of_tag in X. split.
    - intros ->. destruct (proj1 X eq_refl) as (st' & ds & rest & r' & q & M & Pm & PA & No & Mr & ->).
      rewrite (C17_unambiguous M MT) in *. pose proof (Only ds rest r' Pm PA) as ->.
      apply mirrored_iff in Mr; [|apply Wr]. subst q. exists ds, rest. auto.
    - intros (ds & rest & Pm & PA & No & ->). assert (Y : Ret o = Ret (Some (tag k (flipP r)))); [|congruence].
      apply X. exists st, ds, rest, r, (flipP r). split; [auto|]. split; [auto|]. split; [auto|]. split; [auto|]. split; [apply flipP_mirrored, Wr|auto]. }
  split.
  - destruct o as [z|]; auto. left. destruct (proj1 (Iff z) eq_refl) as (_ & _ & _ & _ & _ & ->). reflexivity.
  - split.
    + intros Eq. assert (o = None) as -> by congruence. intros ds rest Pm PA.
      (* decidable: some leftover die is playable *)
      destruct (existsb (anyb r) rest) eqn:X.
      * apply existsb_exists in X. destruct X as (x & Ix & Ax). exists x.
        assert (Vx : valid_die x).
        { assert (U : uses d (ds ++ rest)) by (exists []; rewrite app_nil_r; auto). pose proof (uses_valid V U) as F.
          apply Forall_app in F. destruct F as (_ & F). rewrite Forall_forall in F. auto. }
        apply (anyb_true Wr Vx) in Ax. destruct Ax as (a & Ma). eauto.
      * exfalso. assert (Y : None = Some (tag k (flipP r))); [|discriminate]. apply Iff. exists ds, rest.
        split; [auto|]. split; [auto|]. split; [|auto]. intros x Ix a Ma. apply not_true_iff_false in X. apply X.
        apply existsb_exists. exists x. split; auto.
        assert (Vx : valid_die x).
        { assert (U : uses d (ds ++ rest)) by (exists []; rewrite app_nil_r; auto). pose proof (uses_valid V U) as F.
          apply Forall_app in F. destruct F as (_ & F). rewrite Forall_forall in F. auto. }
        apply (anyb_true Wr Vx). eauto.
    + intros H. destruct o as [z|]; auto. exfalso. destruct (proj1 (Iff z) eq_refl) as (ds & rest & Pm & PA & No & _).
      destruct (H ds rest Pm PA) as (x & a & Ix & Ma). exact (No x Ix a Ma).
Qed.

(** Non-vacuity: the board after "20/14" (not legal with 6-1) is encoded and applied. *)
Example C64_ex : encode_move Debug (tag Hypergammon w20) w20' (Mixed 6 1) = Ret (inr (lit "20/14")) /\
  apply_move Debug (tag Hypergammon w20) (Mixed 6 1) (lit "20/14") = Ret (Some w20').
Proof. vm_compute. auto. Qed.

(** ** C65 *)

Lemma bear_both N p b s f g r : wf N p -> valid_die b -> valid_die s -> (s < b)%nat ->
  (f <= s)%nat -> (g <= s)%nat -> may_move p s f -> may_move (mv p s f) b g -> r = mv (mv p s f) b g ->
  may_move p b f /\ may_move (mv p b f) s g /\ r = mv (mv p b f) s g.
Proof.
  intros W (Vb1 & Vb2) (Vs1 & Vs2) Lt Hf Hg M1 M2 ->.
  assert (Emv : mv p b f = mv p s f).
  { unfold mv. destruct (Nat.ltb_spec b f); [lia|]. destruct (Nat.ltb_spec s f); [lia|]. reflexivity. }
  rewrite Emv. pose proof (may_move_range M1) as R1. pose proof (may_move_range M2) as R2.
  assert (Mv : moved p s f (mv p s f)) by (apply moved_iff; [apply W|lia|lia|reflexivity]).
  destruct M1 as (_ & P1 & Ba1 & _ & O1). destruct (O1 Hf) as (H1 & Q1).
  destruct M2 as (_ & P2 & Ba2 & _ & O2). destruct (O2 ltac:(lia)) as (H2 & Q2).
  assert (Up : forall i, (s < i <= 25)%nat -> pt p i <= 0).
  { intros i Ri. rewrite <- (mvd_rest Mv) by lia. apply Q2; lia. }
  split; [|split].
  - split; [auto|]. split; [auto|]. split; [auto|]. split; [lia|]. intros _. split; [auto|].
    intros _ i Ri. destruct (Nat.eq_dec f s) as [->|]; [apply Up; lia|apply Q1; lia].
  - split; [lia|]. split; [auto|]. split; [auto|]. split; [lia|]. intros _. split; [auto|]. intros _. apply Q2. lia.
  - generalize (mv p s f). intros q. unfold mv. destruct (Nat.ltb_spec b g); [lia|]. destruct (Nat.ltb_spec s g); [lia|]. reflexivity.
Qed.

Lemma plays_two_as b s p r st : plays_as [b; s] st p r -> exists x y q, may_move p b x /\ moved p b x q /\ may_move q s y /\ moved q s y r /\
  st = [step x (x - b); step y (y - s)].
Proof.
  intros H. inversion H as [|? ? x st' ? q ? M Mv H']; subst. inversion H' as [|? ? y st'' ? q' ? M' Mv' H'']; subst. inversion H''; subst.
  exists x, y, q. auto.
Qed.

Lemma leaf_len ds p st q : leaf ds p st q -> (List.length st <= List.length ds)%nat.
Proof. induction 1; simpl; lia. Qed.

(** The steps of an opponent's play never play to the position they are listed for. *)
Lemma wrong_text m N p b s x q r : wf N p -> valid_dice (Mixed b s) -> plays [s; b] p r ->
  (forall st, ~ leaf [b; s] p st r) -> leaf [b; s] (flipP p) x q -> Forall on_board x ->
  core m p (Mixed b s) x <> Ret (Some (flipP r)).
Proof.
  intros W V Pl NL L OB E. pose proof V as (Vb & Vs & Lt). apply (@core_iff m N p (Mixed b s) x _ W V OB) in E.
  destruct E as (ds & rest & r0 & Pm & PA & No & Mr).
  assert (Vds : Forall valid_die ds).
  { apply (@uses_valid (Mixed b s) ds V). exists rest. auto. }
  assert (Wr0 : wf N r0) by (eapply plays_wf_any; [exact W|exact Vds|eapply plays_as_plays; eauto]).
  apply mirrored_iff in Mr; [|apply Wr0]. apply flipP_inj in Mr. subst r0.
  pose proof (Permutation.Permutation_length Pm) as L3. rewrite app_length in L3. cbn [pool List.length] in *.
  destruct ds as [|d1 [|d2 [|? ?]]]; simpl in L3; try lia.
  - inversion PA; subst. apply (plays_two _ W Vs Vb) in Pl. destruct Pl as (u & v & Mu & _).
    apply (No s) with (a := u); auto. apply (Permutation.Permutation_in _ (Permutation.Permutation_sym Pm)). right. left. auto.
  - destruct rest as [|y [|? ?]]; simpl in L3; try lia.
    apply Permutation.Permutation_sym, Permutation.Permutation_length_2_inv in Pm.
    inversion PA as [|? ? u st' ? q0 ? M Mv H']; subst. inversion H'; subst.
    assert (Vd1 : valid_die d1) by (inversion Vds; auto).
    apply moved_iff in Mv; [|apply W|eapply may_move_range; eauto|apply Vd1].
    destruct Pm as [Pm|Pm]; inversion Pm; subst d1 y; subst r; clear Pm.
    + eapply NL. apply leaf_move; [exact M|]. apply leaf_skip; [|constructor]. apply No. left. auto.
    + apply (@small_not_two N p b s u W Vb Vs Lt M). right. exact Pl.
  - destruct rest; [|simpl in L3; lia]. rewrite app_nil_r in Pm. apply Permutation.Permutation_sym, Permutation.Permutation_length_2_inv in Pm.
    apply plays_two_as in PA. destruct PA as (u & v & q0 & M1 & Mv1 & M2 & Mv2 & ->).
    assert (Vd1 : valid_die d1) by (inversion Vds; auto).
    assert (Vd2 : valid_die d2) by (inversion Vds as [|? ? ? F]; inversion F; auto).
    apply moved_iff in Mv1; [|apply W|eapply may_move_range; eauto|apply Vd1]. subst q0.
    apply moved_iff in Mv2; [|apply (may_wf W Vd1 M1)|eapply may_move_range; eauto|apply Vd2]. subst r.
    destruct Pm as [Pm|Pm]; inversion Pm; subst.
    + eapply NL. apply leaf_move; [exact M1|]. apply leaf_move; [exact M2|]. constructor.
    + inversion L as [|? ? ? u' st' ? Mu L'|? ? ? ? ? Nu L']; subst; [|apply leaf_len in L'; simpl in L'; lia].
      inversion L' as [|? ? ? v' st'' ? Mw L''|? ? ? ? ? Nv L'']; subst; [|apply leaf_len in L''; simpl in L''; lia].
      pose proof (may_move_range M1). pose proof (may_move_range M2).
      destruct (@bear_both N p b s u v _ W Vb Vs Lt ltac:(lia) ltac:(lia) M1 M2 eq_refl) as (Mb & Ms & Er).
      eapply NL. rewrite Er. apply leaf_move; [exact Mb|]. apply leaf_move; [exact Ms|]. constructor.
Qed.

(** What the stored steps are. *)
Definition crossed (b s : nat) (p r : position) : Prop :=
  (forall st, ~ leaf [b; s] p st r) /\ exists x q, leaf [b; s] (flipP p) x q /\ position_eqb q r = true.

Section Slot2.
  Context (m : mode) (N : Z) (p : position) (b sm : nat) (legal : list position) (s : slots).
  Context (W : wf N p) (V : valid_dice (Mixed b sm))
    (HL : forall q, In q legal <-> exists r, legal_result (Mixed b sm) p r /\ q = flipP r)
    (Len : length s = length legal)
    (C : chain legal (blocks (Mixed b sm) p) (repeat None (length legal)) s).

  Lemma slot_iff i x r : nth i s None = Some x -> (i < length legal)%nat -> nth i legal (mk []) = flipP r ->
    legal_result (Mixed b sm) p r ->
    (core m p (Mixed b sm) x = Ret (Some (flipP r)) <-> ~ crossed b sm p r) /\
    (~ crossed b sm p r -> exists o, In o (die_orders (Mixed b sm)) /\ leaf o p x r) /\
    (crossed b sm p r -> exists q, leaf [b; sm] (flipP p) x q /\ position_eqb q r = true) /\
    (crossed b sm p r \/ ~ crossed b sm p r).
  Proof.
    intros Nx Li Ei R. set (d := Mixed b sm) in *.
    assert (In_r : In (flipP r) legal) by (apply HL; eauto).
    destruct (chain_first C i (nth_repeat _ _ _) Nx) as (pre & o & P & post & q & Eb & L & At & No).
    assert (Io : In o (die_orders d) /\ (P = p \/ P = flipP p)).
    { apply in_blocks. rewrite Eb. apply in_elt. }
    destruct Io as (Io & HP). pose proof (order_valid _ _ V Io) as Vo.
    pose proof (legal_result_turn W V R) as Tr.
    assert (Eq : position_eqb q r = true \/ position_eqb q (flipP r) = true).
    { destruct At as [At|At]; destruct (att_lt At) as (_ & E); rewrite (nth_indep _ _ (mk []) Li), Ei in E; auto.
      left. apply eqb_flip. exact E. }
    assert (Ati : att legal (flipP r) i).
    { destruct At as [At|At]; (eapply att_eqb; [|exact At]); destruct (att_lt At) as (_ & E); rewrite (nth_indep _ _ (mk []) Li), Ei in E; exact E. }
    destruct (legal_leaf W V R) as (o0 & st0 & I0 & L0).
    assert (Start : P = p -> leaf o p x r).
    { intros ->. destruct Eq as [E|E].
      - assert (q = r) as <- by (apply eqb_turn; auto; rewrite (leaf_turn L), Tr; auto). exact L.
      - rewrite <- (@kind_B N p d o o0 x st0 q r W V Io I0 L L0 E). exact L. }
    assert (Fin : leaf o p x r -> first_leaf d o p r -> core m p d x = Ret (Some (flipP r))).
    { intros L' F. eapply leaf_apply; eauto. }
    pose proof V as (Vb & Vs & Lt). unfold blocks in Eb. unfold d in Eb. cbn [die_orders flat_map app] in Eb.
    assert (EF : forall q', position_eqb q' r = true -> att legal (flipP q') i).
    { intros q' E'. eapply att_eqb; [|exact Ati]. apply position_eqb_iff. apply position_eqb_iff in E'.
      destruct E' as (A & B & D). cbn. rewrite A, B, D. auto. }
    destruct pre as [|e1 [|e2 [|e3 [|e4 pre]]]]; cbn [app] in Eb.
    - assert (o = [b; sm]) as -> by congruence. assert (EP : P = p) by congruence. specialize (Start EP).
      assert (NC : ~ crossed b sm p r) by (intros (NL & _); exact (NL _ Start)).
      split; [|split; [eauto|tauto]]. split; auto. intros _. apply Fin; auto. left. auto.
    - assert (o = [b; sm]) as -> by congruence. assert (P = flipP p) as -> by congruence. assert (e1 = ([b; sm], p)) as -> by congruence.
      assert (NL : forall st, ~ leaf [b; sm] p st r).
      { intros st' L'. eapply No; [left; reflexivity|exact L'|left; exact Ati]. }
      destruct (legal_leaf_mixed W V R) as [(st' & L')|(Pl & _)]; [exfalso; eapply NL; eauto|].
      destruct Eq as [E|E].
      + assert (Cr : crossed b sm p r) by (split; eauto).
        split; [|split; [tauto|eauto]]. split; [|tauto]. intros Co. exfalso.
        exact (@wrong_text m N p b sm x q r W V Pl NL L (leaf_on_board Vo L) Co).
      + exfalso. eapply kind_D; [exact W|exact Vb|exact Vs|exact Vo|exact Pl|exact L|exact E].
    - assert (o = [sm; b]) as -> by congruence. assert (EP : P = p) by congruence. assert (e1 = ([b; sm], p)) as -> by congruence.
      assert (e2 = ([b; sm], flipP p)) as -> by congruence. specialize (Start EP).
      assert (NC : ~ crossed b sm p r).
      { intros (_ & x' & q' & L' & E'). eapply No; [right; left; reflexivity|exact L'|left; apply EF, E']. }
      split; [|split; [eauto|tauto]]. split; auto. intros _. apply Fin; auto. right. split; auto. intros st' L'. eapply No; [left; reflexivity|exact L'|left; exact Ati].
    - exfalso. assert (e1 = ([b; sm], p)) as -> by congruence. assert (e3 = ([sm; b], p)) as -> by congruence.
      unfold d in I0. cbn [die_orders In] in I0. destruct I0 as [<-|[<-|[]]].
      + eapply No; [left; reflexivity|exact L0|left; exact Ati].
      + eapply No; [right; right; left; reflexivity|exact L0|left; exact Ati].
    - apply (f_equal (@length _)) in Eb. simpl in Eb. rewrite app_length in Eb. simpl in Eb. lia.
  Qed.
End Slot2.

Lemma crossed_mixed_up N p b s r : wf N p -> valid_dice (Mixed b s) -> wf N r ->
  crossed b s p r <-> mixed_up b s p (flipP r).
Proof.
  intros W V Wr. pose proof V as (Vb & Vs & _).
  assert (Vo : Forall valid_die [b; s]) by (constructor; [auto|constructor; [auto|constructor]]).
  unfold crossed, mixed_up. split; intros (A & B); split.
  - intros r' IO M. apply (leaf_in_order _ W Vo) in IO. destruct IO as (st & L).
    apply mirrored_iff in M; [|apply (leaf_wf W Vo L)]. apply flipP_inj in M. subst r'. exact (A _ L).
  - destruct B as (x & q & L & E). exists (flipP p), q, (flipP q). split; [apply flipP_mirrored, W|].
    split; [apply (leaf_in_order _ (flipP_wf W) Vo); eauto|]. split; [apply flipP_mirrored, (leaf_wf (flipP_wf W) Vo L)|].
    apply position_eqb_iff in E. destruct E as (E1 & E2 & E3). unfold same_board. cbn. rewrite E1, E2, E3. auto.
  - intros st L. apply (A r); [apply (leaf_in_order _ W Vo); eauto|apply flipP_mirrored, Wr].
  - destruct B as (p' & r' & c' & Mp & IO & Mc & (S1 & S2 & S3)).
    apply mirrored_iff in Mp; [|apply W]. subst p'. apply (leaf_in_order _ (flipP_wf W) Vo) in IO. destruct IO as (st & L).
    exists st, r'. split; auto. apply mirrored_iff in Mc; [|apply (leaf_wf (flipP_wf W) Vo L)]. subst c'.
    apply eqb_flip. apply position_eqb_iff. auto.
Qed.

(** The list: [legal_moves] succeeds; the positions are exactly the legal ones, each once. *)
Theorem C65_positions : forall m k v d, vwf k v -> vongoing v -> valid_dice d ->
  exists l, legal_moves m v d = Ret (inr l) /\ NoDup (map snd l) /\ (forall w, In w (map snd l) <-> vlegal d v w).
Proof.
  intros m k v d Wv O V. destruct (C18_children_exact m d Wv O V) as (l & E & ND & H & _). exists l. auto.
Qed.

(** With a double every listed text plays to its position. *)
Theorem C65_doubles : forall m m' k v a l t w, vwf k v -> vongoing v -> valid_die a ->
  legal_moves m v (Double a) = Ret (inr l) -> In (t, w) l -> apply_move m' v (Double a) t = Ret (Some w).
Proof. intros m m' k v a l t w Wv O V E I. exact (@C18_texts_apply_partial m m' k v (Double a) l t w Wv O V E I Logic.I). Qed.

(** With two different dice a listed text plays to its position if and only if the two were not mixed
    up; [C65_doubles] and this theorem together say exactly which texts are right. *)
Theorem C65_text_right_iff : forall m m' k v b s l t w, vwf k v -> vongoing v -> valid_dice (Mixed b s) ->
  legal_moves m v (Mixed b s) = Ret (inr l) -> In (t, w) l ->
  (apply_move m' v (Mixed b s) t = Ret (Some w) <-> ~ mixed_up b s (board_of v) (board_of w)).
Proof.
  intros m m' k v b s l t w (p & -> & W) O V El I. apply vongoing_tag in O. rewrite board_of_tag.
  destruct (@legal_for_steps_ret m (checkers k) p (Mixed b s) (tag k) W O V) as (legal & sl & _ & HL & E & Len & C).
  unfold legal_moves in El. rewrite legal_steps_tag, E in El. cbn in El. inversion El; subst l. clear El.
  apply in_map_iff in I. destruct I as (e & Ee & I). apply in_filled in I; auto.
  destruct I as (i & x & Nx & Li & ->). cbn [fst snd] in Ee. inversion Ee; subst. clear Ee.
  pose proof (nth_In legal (mk []) Li) as I. apply HL in I. destruct I as (r & R & Er).
  pose proof (legal_result_wf W V R) as Wr. rewrite board_of_tag, Er.
  pose proof (@slot_on_board p (Mixed b s) legal sl V C i x Nx) as OB.
  destruct (@slot_iff m' (checkers k) p b s legal sl W V HL Len C i x r Nx Li Er R) as (H & _).
  rewrite apply_tag, (apply_for_core m' p (Mixed b s) (format_move_text OB)).
  rewrite <- (crossed_mixed_up W V Wr). rewrite <- H. split.
  - destruct (core_ret m' (Mixed b s) W V OB) as (o & Eo & _). rewrite Eo. destruct o as [z|]; cbn; [|discriminate].
    intros X. assert (Y : tag k z = tag k (flipP r)) by congruence. apply tag_inj in Y. destruct Y as (_ & ->). reflexivity.
  - intros ->. reflexivity.
Qed.

(** What the text is: a play of the mover leading to the position, in one of the two orders; or, when
    mixed up, a play of the *opponent's* checkers leading to the same board. *)
Theorem C65_text_says : forall m k v b s l t w, vwf k v -> vongoing v -> valid_dice (Mixed b s) ->
  legal_moves m v (Mixed b s) = Ret (inr l) -> In (t, w) l ->
  exists st, t = format_move_steps st /\ move_text t st /\
    (~ mixed_up b s (board_of v) (board_of w) -> exists o r, In o [[b; s]; [s; b]] /\ in_order_as o st (board_of v) r /\ mirrored r (board_of w)) /\
    (mixed_up b s (board_of v) (board_of w) -> exists p' r' c', mirrored (board_of v) p' /\ in_order_as [b; s] st p' r' /\
       mirrored r' c' /\ same_board c' (board_of w)).
Proof.
  intros m k v b s l t w (p & -> & W) O V El I. apply vongoing_tag in O. rewrite board_of_tag.
  destruct (@legal_for_steps_ret m (checkers k) p (Mixed b s) (tag k) W O V) as (legal & sl & _ & HL & E & Len & C).
  unfold legal_moves in El. rewrite legal_steps_tag, E in El. cbn in El. inversion El; subst l. clear El.
  apply in_map_iff in I. destruct I as (e & Ee & I). apply in_filled in I; auto.
  destruct I as (i & x & Nx & Li & ->). cbn [fst snd] in Ee. inversion Ee; subst. clear Ee.
  pose proof (nth_In legal (mk []) Li) as I. apply HL in I. destruct I as (r & R & Er).
  pose proof (legal_result_wf W V R) as Wr. rewrite board_of_tag, Er.
  pose proof (@slot_on_board p (Mixed b s) legal sl V C i x Nx) as OB.
  destruct (@slot_iff m (checkers k) p b s legal sl W V HL Len C i x r Nx Li Er R) as (_ & H1 & H2 & _).
  pose proof V as (Vb & Vs & _).
  assert (Vo : Forall valid_die [b; s]) by (constructor; [auto|constructor; [auto|constructor]]).
  exists x. split; auto. split; [apply format_move_text; auto|]. split; intros X; rewrite <- (crossed_mixed_up W V Wr) in X.
  - destruct (H1 X) as (o & Io & L). exists o, r. split; auto. split; [|apply flipP_mirrored, Wr].
    apply (leaf_as x r W (order_valid (Mixed b s) o V Io)). auto.
  - destruct (H2 X) as (q & L & Eq). exists (flipP p), q, (flipP q). split; [apply flipP_mirrored, W|].
    split; [apply (leaf_as x q (flipP_wf W) Vo); auto|]. split; [apply flipP_mirrored, (leaf_wf (flipP_wf W) Vo L)|].
    apply position_eqb_iff in Eq. destruct Eq as (E1 & E2 & E3). unfold same_board. cbn. rewrite E1, E2, E3. auto.
Qed.

Theorem C65_decidable : forall m k v b s l t w, vwf k v -> vongoing v -> valid_dice (Mixed b s) ->
  legal_moves m v (Mixed b s) = Ret (inr l) -> In (t, w) l ->
  mixed_up b s (board_of v) (board_of w) \/ ~ mixed_up b s (board_of v) (board_of w).
Proof.
  intros m k v b s l t w (p & -> & W) O V El I. apply vongoing_tag in O. rewrite board_of_tag.
  destruct (@legal_for_steps_ret m (checkers k) p (Mixed b s) (tag k) W O V) as (legal & sl & _ & HL & E & Len & C).
  unfold legal_moves in El. rewrite legal_steps_tag, E in El. cbn in El. inversion El; subst l. clear El.
  apply in_map_iff in I. destruct I as (e & Ee & I). apply in_filled in I; auto.
  destruct I as (i & x & Nx & Li & ->). cbn [fst snd] in Ee. inversion Ee; subst. clear Ee.
  pose proof (nth_In legal (mk []) Li) as I. apply HL in I. destruct I as (r & R & Er).
  pose proof (legal_result_wf W V R) as Wr. rewrite board_of_tag, Er.
  destruct (@slot_iff m (checkers k) p b s legal sl W V HL Len C i x r Nx Li Er R) as (_ & _ & _ & H).
  rewrite <- (crossed_mixed_up W V Wr). exact H.
Qed.

(** Both sides of the equivalence occur: at the start nothing is mixed up; from [w18] with 3-1 something is. *)
Example C65_ex : exists t w l, legal_moves Debug (tag Hypergammon w18) (Mixed 3 1) = Ret (inr l) /\ In (t, w) l /\
  mixed_up 3 1 w18 (board_of w).
Proof.
  assert (Wv : vwf Hypergammon (tag Hypergammon w18)) by (eexists; split; [reflexivity|solve_wf]).
  assert (Ov : vongoing (tag Hypergammon w18)) by (apply vongoing_tag; vm_compute; auto).
  assert (Vd : valid_dice (Mixed 3 1)) by (cbn; unfold valid_die; lia).
  destruct (C18_children_exact Debug (Mixed 3 1) Wv Ov Vd) as (l & E & _).
  assert (X : exists t w, In (t, w) l /\ apply_move Debug (tag Hypergammon w18) (Mixed 3 1) t = Ret None).
  { destruct (rejected_text l (tag Hypergammon w18) (Mixed 3 1)) as [(t, w)|] eqn:F.
    - apply find_some in F. destruct F as (I & F). exists t, w. split; auto. cbn [fst] in F.
      destruct (apply_move Debug (tag Hypergammon w18) (Mixed 3 1) t) as [[?|]|]; [discriminate|auto|discriminate].
    - exfalso. assert (E' : match legal_moves Debug (tag Hypergammon w18) (Mixed 3 1) with
         | Ret (inr l) => rejected_text l (tag Hypergammon w18) (Mixed 3 1) <> None | _ => True end) by (vm_compute; discriminate).
      rewrite E in E'. apply E'. exact F. }
  destruct X as (t & w & I & A). exists t, w, l. split; auto. split; auto.
  destruct (C65_decidable _ _ _ Wv Ov Vd E I) as [M|M]; [exact M|].
  pose proof (proj2 (@C65_text_right_iff Debug Debug Hypergammon _ 3 1 l t w Wv Ov Vd E I) M). congruence.
Qed.
