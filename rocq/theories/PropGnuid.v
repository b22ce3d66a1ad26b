(** Properties C09 and C10: GNU Backgammon position IDs.  Read with SpecGnuid.v and SpecVariants.v. *)
From Coq Require Import Strings.String.
From Verif Require Import GnuidFacts Base64Facts PropIdentity BaseFacts MoveFacts HashFacts DebugFacts VariantFacts EqFacts.
Open Scope Z_scope.

Lemma checkers_bound k : 2 <= checkers k <= 15.
Proof. destruct k; simpl; lia. Qed.

(** ** C09 *)

(** Encoding never fails and gives 14 base64 characters, in every build profile the same; they spell
    the key that lists the position's checkers (SpecGnuid.key_lists); any build decodes them, for the
    same variant, to an equal position with x to move. *)
Theorem C09_round_trip : forall k v, vwf k v -> exists id,
  (forall m, gnuid_encode m v = Ret id) /\ id_shape id /\
  (exists key, key_of id key /\ key_lists key (o_on (board_of v)) (x_on (board_of v))) /\
  (forall m, exists w, gnuid_decode m k id = Ret (inr w) /\ vwf k w /\
     equal_positions (board_of v) (board_of w) /\ turn (board_of w) = true).
Proof.
  intros k v (p & -> & W). rewrite board_of_tag. pose proof (checkers_bound k) as CB.
  destruct (encode_key_ret Debug W) as (key & E & F & K & _); [lia|]. pose proof K as (L & _).
  exists (firstn 14 (b64_encode key)).
  assert (KR : forall m, decode_key m (checkers k) key = Ret (st true p)).
  { intros m. rewrite (decode_key_ret m _ K). rewrite (o_on_sum W), (x_on_sum W).
    replace (checkers k - (checkers k - x_off p)) with (x_off p) by lia.
    replace (checkers k - (checkers k - o_off p)) with (o_off p) by lia.
    pose proof (wf_off_bounds W). rewrite !u8_ret, !bind_ret by lia.
    rewrite (decoded_on _ (wf_len W) (wf_obar W) (wf_xbar W)). reflexivity. }
  split; [|split; [|split]].
  - intros m. rewrite gnuid_encode_tag. unfold gnuid_encode_position.
    rewrite (encode_key_mode m W), E. reflexivity.
  - exact (proj1 (b64_id_inv _ (proj2 (proj2 (b64_10 L F))) L)).
  - exists key. split; [apply key_of_encode; auto|exact K].
  - intros m. exists (tag k (st true p)). rewrite gnuid_decode_tag, (decode_of_key m _ L F), KR, !bind_ret.
    unfold rmap_ok. rewrite bind_ret. split; [reflexivity|]. rewrite board_of_tag.
    split; [apply vwf_tag; destruct W; constructor; auto|]. split; [|reflexivity].
    apply position_eqb_of_st.
Qed.

(** The ID of a position, exactly: base64 of the key that lists the checkers and is zero after them.  So a
    position has one ID, the one GNU Backgammon gives it. *)
Lemma unary_bits f g ks : forall b, unary f b ks -> unary g b ks ->
  forall j, (b <= j < b + total ks + List.length ks)%nat -> f j = g j.
Proof.
  induction ks as [|k ks IH]; intros b (F1 & F2 & F3) (G1 & G2 & G3) j Hj || intros b _ _ j Hj; cbn [total fold_right List.length] in Hj; [lia|].
  fold (total ks) in Hj. destruct (Nat.lt_trichotomy j (b + k)) as [L|[->|L]].
  - rewrite F1, G1 by lia. reflexivity.
  - congruence.
  - apply (IH _ F3 G3). lia.
Qed.
Theorem C09_exact : forall k v m id, vwf k v ->
  (gnuid_encode m v = Ret id <->
   exists key, key_of id key /\ key_lists key (o_on (board_of v)) (x_on (board_of v)) /\
     rest_clear key (o_on (board_of v)) (x_on (board_of v))).
Proof.
  intros k v m id (p & -> & W). rewrite board_of_tag. pose proof (checkers_bound k) as CB.
  destruct (encode_key_ret Debug W) as (key & E & F & K & R); [lia|]. pose proof K as (L & U & T).
  rewrite gnuid_encode_tag. unfold gnuid_encode_position. rewrite (encode_key_mode m W), E, bind_ret. split.
  - intros H. apply Ret_inj in H. subst id. exists key. split; [apply key_of_encode; auto|]. auto.
  - intros (key' & KO & (L' & U' & T') & R'). apply key_of_iff in KO. destruct KO as (_ & F' & ->).
    enough (key = key') as <- by reflexivity. apply key_ext; auto. intros j Hj.
    destruct (Nat.lt_ge_cases j (total (counts (o_on p) (x_on p)) + 50)) as [H|H].
    + apply (@unary_bits _ _ _ 0%nat U U').
      assert (List.length (counts (o_on p) (x_on p)) = 50%nat) as -> by reflexivity. lia.
    + rewrite R, R' by lia. reflexivity.
Qed.

(** Distinct positions have distinct IDs. *)
Theorem C09_injective : forall k v w m m' id, vwf k v -> vwf k w ->
  gnuid_encode m v = Ret id -> gnuid_encode m' w = Ret id -> equal_positions (board_of v) (board_of w).
Proof.
  intros k v w m m' id V W E1 E2.
  destruct (C09_round_trip V) as (i1 & A1 & _ & _ & B1). destruct (C09_round_trip W) as (i2 & A2 & _ & _ & B2).
  rewrite A1 in E1. rewrite A2 in E2. apply Ret_inj in E1, E2. subst i1 i2.
  destruct (B1 Debug) as (u1 & D1 & _ & Q1 & _). destruct (B2 Debug) as (u2 & D2 & _ & Q2 & _).
  rewrite D1 in D2. inversion D2; subst u2. unfold equal_positions in *. apply position_eqb_iff in Q1, Q2.
  apply position_eqb_iff. destruct Q1 as (? & ? & ?), Q2 as (? & ? & ?). split; [congruence|]. split; congruence.
Qed.

Example C09_example : gnuid_encode Debug (start_position Backgammon) = Ret (lit "4HPwATDgc/ABMA") /\
  vwf Backgammon (start_position Backgammon).
Proof.
  split; [vm_compute; reflexivity|]. destruct (C34_start Backgammon) as (p & E & W & _). exists p. auto.
Qed.

(** ** C10 *)

(** Full property: decoding never panics, and every accepted ID gives a well-formed position. *)
Definition decode_total_validating : Prop := forall m k id, exists r, gnuid_decode m k id = Ret r /\
  forall w, r = inr w -> vwf k w.

(** It is false: an ID whose key holds more than 30 checkers runs off the key in every build;
    one that puts both sides on a point is accepted; one with too many checkers on one side is
    accepted by a release build with a wrapped number of borne-off checkers, and panics in a debug
    build. *)
Theorem C10_refuted : ~ decode_total_validating.
Proof.
  intros H. destruct (H Debug Backgammon (lit "/////////////w")) as (r & E & _). vm_compute in E. discriminate E.
Qed.
Theorem C10_overrun_refuted : id_shape (lit "/////////////w") /\ forall m k,
  gnuid_decode m k (lit "/////////////w") = Panic IndexOOB.
Proof.
  split; [|intros [] []; vm_compute; reflexivity].
  split; [reflexivity|]. split; [|vm_compute; auto]. 
  apply Forall_forall. intros c Hc. vm_compute in Hc. unfold base64_char. repeat (destruct Hc as [Hc|Hc]; [lia|]). destruct Hc.
Qed.
(** One checker of each side on point 24: the counts cancel and both sides lose a checker. *)
Theorem C10_shared_point_refuted : exists id w, id_shape id /\
  (forall m, gnuid_decode m Backgammon id = Ret (inr w)) /\ ~ vwf Backgammon w /\
  o_checkers (board_of w) = 14 /\ x_checkers (board_of w) = 14.
Proof.
  exists (lit "AQAAAAAAAgAAAA"). eexists. split; [|split; [intros []; vm_compute; reflexivity|]].
  - split; [reflexivity|]. split; [|vm_compute; auto].
    apply Forall_forall. intros c Hc. vm_compute in Hc. unfold base64_char. repeat (destruct Hc as [Hc|Hc]; [lia|]). destruct Hc.
  - split; [|split; reflexivity]. intros (p & E & W). apply (tag_inj Backgammon _ Backgammon) in E. destruct E as (_ & <-).
    pose proof (wf_x W) as X. vm_compute in X. discriminate X.
Qed.
Theorem C10_too_many_refuted : exists id w, id_shape id /\
  gnuid_decode Release Hypergammon id = Ret (inr w) /\ ~ vwf Hypergammon w /\ x_off (board_of w) = 255 /\
  gnuid_decode Debug Hypergammon id = Panic Overflow.
Proof.
  exists (lit "AAAAHgAAAAAAAA"). eexists. split; [|split; [vm_compute; reflexivity|]].
  - split; [reflexivity|]. split; [|vm_compute; auto].
    apply Forall_forall. intros c Hc. vm_compute in Hc. unfold base64_char. repeat (destruct Hc as [Hc|Hc]; [lia|]). destruct Hc.
  - split; [|split; [reflexivity|vm_compute; reflexivity]]. intros (p & E & W). apply (tag_inj Hypergammon _ Hypergammon) in E. destruct E as (_ & <-).
    pose proof (wf_x W) as X. vm_compute in X. discriminate X.
Qed.

(** What does hold.  Texts that are not of the shape of an ID are refused, never a panic. *)
Theorem C10_malformed_partial : forall m k id, ~ id_shape id -> exists e, gnuid_decode m k id = Ret (inl e).
Proof.
  intros m k id H. rewrite gnuid_decode_tag. destruct (decode_shape m (checkers k) H) as (e & ->).
  exists e. reflexivity.
Qed.
(** Texts of that shape are exactly the base64 texts of ten bytes. *)
Theorem C10_shape_partial : forall id, id_shape id <-> exists key, key_of id key.
Proof.
  intros id. setoid_rewrite key_of_iff. split.
  - intros S. destruct (b64_id_some S) as (key & E & L). destruct (b64_id_inv _ E L) as (_ & F & Q). exists key. auto.
  - intros (key & L & F & ->). exact (proj1 (b64_id_inv _ (proj2 (proj2 (b64_10 L F))) L)).
Qed.

Lemma clash_sum (o x : nat -> nat) l :
  sumZ (map (fun i => Z.max 0 (Z.of_nat (x i) - Z.of_nat (o i))) l) <= Z.of_nat (total (map x l)) /\
  (sumZ (map (fun i => Z.max 0 (Z.of_nat (x i) - Z.of_nat (o i))) l) = Z.of_nat (total (map x l)) <->
   forall i, In i l -> o i = 0%nat \/ x i = 0%nat).
Proof.
  induction l as [|a l (IH1 & IH2)]; cbn [map sumZ fold_right total].
  - split; [simpl; lia|]. split; [intros _ i []|reflexivity].
  - fold (sumZ (map (fun i => Z.max 0 (Z.of_nat (x i) - Z.of_nat (o i))) l)). fold (total (map x l)).
    split; [lia|]. split.
    + intros E i [->|I]; [lia|]. apply IH2; auto. lia.
    + intros H. assert (E : sumZ (map (fun i => Z.max 0 (Z.of_nat (x i) - Z.of_nat (o i))) l) = Z.of_nat (total (map x l)))
        by (apply IH2; intros; apply H; right; auto).
      pose proof (H a (or_introl eq_refl)). lia.
Qed.
Lemma decoded_nth o x i : (i < 26)%nat -> nth i (decoded o x) 0 =
  (if (i =? 0)%nat then 0 else Z.of_nat (x i)) - (if (i =? 25)%nat then 0 else Z.of_nat (o i)).
Proof. intros H. unfold decoded. rewrite (@nth_map_seq _ _ 26) by lia. reflexivity. Qed.
Lemma decoded_wf k o x p : (x_total x <= Z.to_nat (checkers k))%nat -> (o_total o <= Z.to_nat (checkers k))%nat ->
  pips p = decoded o x -> x_off p = checkers k - Z.of_nat (x_total x) -> o_off p = checkers k - Z.of_nat (o_total o) ->
  wf (checkers k) p <-> forall i, (1 <= i <= 24)%nat -> o i = 0%nat \/ x i = 0%nat.
Proof.
  intros X O P XO OO. pose proof (checkers_bound k) as CB.
  assert (XS : sumZ (map (fun v => Z.max 0 v) (pips p)) =
     sumZ (map (fun i => Z.max 0 (Z.of_nat (x i) - Z.of_nat (o i))) (seq 1 24)) + Z.of_nat (x 25%nat)).
  {
    rewrite P. unfold decoded. rewrite map_map. change (seq 0 26) with ([0%nat] ++ seq 1 24 ++ [25%nat]).
    rewrite !map_app, !sumZ_app.
    rewrite (@map_ext_in _ _ _ (fun i => Z.max 0 (Z.of_nat (x i) - Z.of_nat (o i))) (seq 1 24)).
    - generalize (sumZ (map (fun i => Z.max 0 (Z.of_nat (x i) - Z.of_nat (o i))) (seq 1 24))). intros z.
      cbv [map sumZ fold_right Nat.eqb]. lia.
    - intros i Hi. apply in_seq in Hi. destruct (Nat.eqb_spec i 0), (Nat.eqb_spec i 25); lia. }
  assert (OS : sumZ (map (fun v => Z.max 0 (- v)) (pips p)) =
     sumZ (map (fun i => Z.max 0 (Z.of_nat (o i) - Z.of_nat (x i))) (seq 1 24)) + Z.of_nat (o 0%nat)).
  {
    rewrite P. unfold decoded. rewrite map_map. change (seq 0 26) with ([0%nat] ++ seq 1 24 ++ [25%nat]).
    rewrite !map_app, !sumZ_app.
    rewrite (@map_ext_in _ _ _ (fun i => Z.max 0 (Z.of_nat (o i) - Z.of_nat (x i))) (seq 1 24)).
    - generalize (sumZ (map (fun i => Z.max 0 (Z.of_nat (o i) - Z.of_nat (x i))) (seq 1 24))). intros z.
      cbv [map sumZ fold_right Nat.eqb]. lia.
    - intros i Hi. apply in_seq in Hi. destruct (Nat.eqb_spec i 0), (Nat.eqb_spec i 25); lia. }
  assert (XT : x_total x = (total (map x (seq 1 24)) + x 25)%nat).
  { unfold x_total. change (seq 1 25) with (seq 1 24 ++ [25%nat]). rewrite map_app, total_app. cbn [map total fold_right]. lia. }
  assert (OT : o_total o = (total (map o (seq 1 24)) + o 0)%nat).
  { unfold o_total. change (seq 0 25) with (0%nat :: seq 1 24). cbn [map total fold_right]. fold (total (map o (seq 1 24))). lia. }
  destruct (clash_sum o x (seq 1 24)) as (_ & CX). destruct (clash_sum x o (seq 1 24)) as (_ & CO).
  split.
  - intros W i Hi. apply CX; [|apply in_seq; lia]. pose proof (wf_x W) as E. unfold x_checkers in E. rewrite XS in E. lia.
  - intros H. constructor; try lia.
    + rewrite P. unfold decoded. rewrite map_length, seq_length. reflexivity.
    + unfold x_checkers. rewrite XS. rewrite (proj2 CX); [lia|]. intros i Hi. apply in_seq in Hi. apply H. lia.
    + unfold o_checkers. rewrite OS. rewrite (proj2 CO); [lia|]. intros i Hi. apply in_seq in Hi.
      destruct (H i ltac:(lia)); auto.
    + unfold pt. rewrite P, decoded_nth by lia. cbv [Nat.eqb]. lia.
    + unfold pt. rewrite P, decoded_nth by lia. cbv [Nat.eqb]. lia.
Qed.

(** The text of a key that lists at most the variant's number of checkers for each side decodes, in
    every build, to the position with exactly those checkers; it is well-formed if and only if no
    point was given to both sides. *)
Theorem C10_listed_partial : forall m k id key o x, key_of id key -> key_lists key o x ->
  (x_total x <= Z.to_nat (checkers k))%nat -> (o_total o <= Z.to_nat (checkers k))%nat ->
  exists w, gnuid_decode m k id = Ret (inr w) /\
  vp_variant w = k /\ turn (board_of w) = true /\
  x_off (board_of w) = checkers k - Z.of_nat (x_total x) /\ o_off (board_of w) = checkers k - Z.of_nat (o_total o) /\
  pt (board_of w) 0 = - Z.of_nat (o 0%nat) /\ pt (board_of w) 25 = Z.of_nat (x 25%nat) /\
  (forall i, (1 <= i <= 24)%nat -> pt (board_of w) i = Z.of_nat (x i) - Z.of_nat (o i)) /\
  (vwf k w <-> forall i, (1 <= i <= 24)%nat -> o i = 0%nat \/ x i = 0%nat).
Proof.
  intros m k id key o x KO K X O. apply key_of_iff in KO. destruct KO as (L & F & ->). pose proof (checkers_bound k) as CB.
  rewrite gnuid_decode_tag, (decode_of_key m _ L F), (decode_key_ret m _ K).
  rewrite !u8_ret, !bind_ret by lia. unfold rmap_ok. rewrite bind_ret.
  eexists. split; [reflexivity|]. rewrite vp_variant_tag, board_of_tag. cbn [turn x_off o_off].
  split; [reflexivity|]. split; [reflexivity|]. split; [reflexivity|]. split; [reflexivity|].
  unfold pt; cbn [pips]. rewrite !decoded_nth by lia. cbv [Nat.eqb].
  split; [lia|]. split; [lia|]. split.
  - intros i Hi. rewrite decoded_nth by lia. destruct (Nat.eqb_spec i 0), (Nat.eqb_spec i 25); lia.
  - rewrite vwf_tag. apply (@decoded_wf k o x); auto.
Qed.
(** Conversely, nothing else is accepted by a debug build. *)
Theorem C10_accepted_partial : forall k id w, gnuid_decode Debug k id = Ret (inr w) ->
  exists key o x, key_of id key /\ key_lists key o x /\
  (x_total x <= Z.to_nat (checkers k))%nat /\ (o_total o <= Z.to_nat (checkers k))%nat.
Proof.
  intros k id w E. pose proof (checkers_bound k) as CB.
  rewrite gnuid_decode_tag in E. unfold rmap_ok in E. apply bind_inv in E. destruct E as ([e|p] & E & Q); [discriminate Q|].
  unfold gnuid_decode_position in E. destruct (b64_decode (id ++ lit "==")) as [key|] eqn:D; [|discriminate E].
  destruct (Nat.eqb_spec (length key) 10) as [L|]; [|discriminate E].
  destruct (b64_id_inv _ D L) as (_ & F & ID). apply bind_inv in E. destruct E as (q & E & _).
  destruct (decode_key_inv _ _ _ L E) as (o & x & K). exists key, o, x. split; [apply key_of_iff; auto|]. split; [exact K|].
  rewrite (decode_key_ret Debug _ K) in E. unfold u8 in E.
  destruct (in_u8 (checkers k - Z.of_nat (x_total x))) eqn:I1; [|discriminate E]. rewrite bind_ret in E.
  destruct (in_u8 (checkers k - Z.of_nat (o_total o))) eqn:I2; [|discriminate E].
  unfold in_u8 in I1, I2. apply andb_true_iff in I1, I2. destruct I1 as (I1 & _), I2 as (I2 & _).
  apply Z.leb_le in I1, I2. lia.
Qed.

(** The start position's key meets the hypotheses of C10_listed_partial. *)
Example C10_example : exists key o x, key_of (lit "4HPwATDgc/ABMA") key /\ key_lists key o x /\
  (x_total x <= Z.to_nat (checkers Backgammon))%nat /\ (o_total o <= Z.to_nat (checkers Backgammon))%nat.
Proof.
  destruct (C34_start Backgammon) as (p & E & W & _).
  destruct (C09_round_trip (ex_intro _ p (conj E W))) as (id & A & _ & (key & I & K) & _).
  specialize (A Debug). rewrite (proj1 C09_example) in A. apply Ret_inj in A. subst id.
  exists key. eexists. eexists. split; [exact I|]. split; [exact K|].
  split; vm_compute; repeat constructor.
Qed.

Print Assumptions C09_round_trip.
Print Assumptions C10_listed_partial.
Print Assumptions C10_accepted_partial.
