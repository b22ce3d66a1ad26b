(** GNU position IDs. *)
From Coq Require Import Strings.String.
From Verif Require Export Gnuid SpecGnuid.
From Verif Require Import BaseFacts MoveFacts StrFacts EqFacts HashFacts DebugFacts.
Open Scope Z_scope.

(** ** base64 *)
Lemma b64_value_char n : 0 <= n < 64 -> b64_value (b64_char n) = Some n.
Proof.
  intros H. unfold b64_value, b64_char.
  destruct (Z.ltb_spec n 26); [|destruct (Z.ltb_spec n 52); [|destruct (Z.ltb_spec n 62); [|destruct (Z.eqb_spec n 62)]]];
  repeat match goal with
  | |- context [?a <=? ?b] => destruct (Z.leb_spec a b); try lia; cbn [andb]
  | |- context [?a =? ?b] => destruct (Z.eqb_spec a b); try lia; cbn [andb]
  end; f_equal; lia.
Qed.
Lemma b64_char_class n : 0 <= n < 64 -> base64_char (b64_char n).
Proof.
  intros H. unfold base64_char, b64_char.
  destruct (Z.ltb_spec n 26); [|destruct (Z.ltb_spec n 52); [|destruct (Z.ltb_spec n 62); [|destruct (Z.eqb_spec n 62)]]]; lia.
Qed.
Lemma b64_char_not_pad n : 0 <= n < 64 -> b64_char n <> 61.
Proof. intros H. pose proof (b64_char_class H) as C. unfold base64_char in C. lia. Qed.
Definition byte (v : Z) : Prop := 0 <= v < 256.

Lemma div_lt a b c : 0 <= a < b * c -> 0 < b -> 0 <= a / b < c.
Proof. intros H B. split; [apply Z.div_pos; lia|apply Z.div_lt_upper_bound; lia]. Qed.
Ltac b64_bounds :=
  repeat match goal with
  | H : byte ?a |- _ => unfold byte in H;
      pose proof (@div_lt a 4 64 ltac:(lia) ltac:(lia)); pose proof (@div_lt a 16 16 ltac:(lia) ltac:(lia));
      pose proof (@div_lt a 64 4 ltac:(lia) ltac:(lia));
      pose proof (Z.mod_pos_bound a 4 ltac:(lia)); pose proof (Z.mod_pos_bound a 16 ltac:(lia));
      pose proof (Z.mod_pos_bound a 64 ltac:(lia));
      pose proof (Z.div_mod a 4 ltac:(lia)); pose proof (Z.div_mod a 16 ltac:(lia)); pose proof (Z.div_mod a 64 ltac:(lia))
  end.
Lemma divmod_u a b q r : a = b * q + r -> 0 <= r < b -> a / b = q /\ a mod b = r.
Proof.
  intros E R. split.
  - symmetry. apply (Z.div_unique a b q r); lia.
  - symmetry. apply (Z.mod_unique a b q r); lia.
Qed.
Lemma b64_group_enc a b c : byte a -> byte b -> byte c ->
  b64_group (b64_char (a / 4)) (b64_char (a mod 4 * 16 + b / 16)) (b64_char (b mod 16 * 4 + c / 64)) (b64_char (c mod 64))
  = Some [a; b; c].
Proof.
  intros A B C. b64_bounds. unfold b64_group. rewrite !b64_value_char by lia.
  destruct (@divmod_u (a mod 4 * 16 + b / 16) 16 (a mod 4) (b / 16)) as (E1 & E2); try lia.
  destruct (@divmod_u (b mod 16 * 4 + c / 64) 4 (b mod 16) (c / 64)) as (E3 & E4); try lia.
  rewrite E1, E2, E3, E4. repeat f_equal; lia.
Qed.
Lemma b64_last_enc a : byte a -> b64_last (b64_char (a / 4)) (b64_char (a mod 4 * 16)) 61 61 = Some [a].
Proof.
  intros A. b64_bounds. unfold b64_last. simpl (61 =? 61). cbv iota. rewrite !b64_value_char by lia.
  destruct (@divmod_u (a mod 4 * 16) 16 (a mod 4) 0) as (E1 & E2); try lia.
  rewrite E1, E2. simpl. repeat f_equal. lia.
Qed.
(** Ten bytes. *)
Lemma ten (l : list Z) : length l = 10%nat -> exists a b c d e f g h i j, l = [a; b; c; d; e; f; g; h; i; j].
Proof.
  intros L. do 10 (destruct l as [|? l]; [simpl in L; lia|]). destruct l; [|simpl in L; lia].
  repeat eexists.
Qed.
Lemma b64_10 key : length key = 10%nat -> Forall byte key ->
  length (firstn 14 (b64_encode key)) = 14%nat /\ Forall base64_char (firstn 14 (b64_encode key)) /\
  b64_decode (firstn 14 (b64_encode key) ++ lit "==") = Some key.
Proof.
  intros L F. destruct (ten _ L) as (a & b & c & d & e & f & g & h & i & j & ->).
  repeat match goal with H : Forall byte (_ :: _) |- _ => inversion H; subst; clear H end.
  split; [reflexivity|]. split.
  - cbn [b64_encode firstn app]. b64_bounds.
    repeat (apply Forall_cons; [apply b64_char_class; lia|]). apply Forall_nil.
  - cbn [b64_encode firstn app lit].
    change (Z.of_N (Ascii.N_of_ascii (Ascii.Ascii true false true true true true false false))) with 61.
    cbn [b64_decode]. rewrite !b64_group_enc, b64_last_enc by auto. reflexivity.
Qed.

(** ** Bits of a key *)
Lemma idx8 i : (i < 80)%nat <-> (i / 8 < 10)%nat.
Proof.
  split; intros H.
  - apply Nat.div_lt_upper_bound; lia.
  - pose proof (Nat.div_mod i 8). pose proof (Nat.mod_upper_bound i 8). lia.
Qed.
Lemma get_bit_ret key i : length key = 10%nat -> (i < 80)%nat -> get_bit key i = Ret (key_bit key i).
Proof.
  intros L H. unfold get_bit. apply idx8 in H. rewrite (index_ret _ 0) by lia. rewrite bind_ret. f_equal.
  unfold key_bit. set (v := nth (i / 8) key 0). set (r := Z.of_nat (i mod 8)).
  change 1 with (Z.ones 1) at 1. rewrite Z.land_ones by lia. change (2 ^ 1) with 2.
  rewrite <- (Z.add_0_l r), <- Z.shiftr_spec by lia. rewrite Z.bit0_odd, Zmod_odd.
  destruct (Z.odd _); reflexivity.
Qed.
Lemma get_bit_oob key i : length key = 10%nat -> (80 <= i)%nat -> get_bit key i = Panic IndexOOB.
Proof.
  intros L H. unfold get_bit, index. destruct (nth_error key (i / 8)) eqn:E; auto.
  assert (nth_error key (i / 8) <> None) by congruence. apply nth_error_Some in H0. rewrite L in H0. apply idx8 in H0. lia.
Qed.

Lemma set_bit_ret key i : length key = 10%nat -> Forall byte key -> (i < 80)%nat ->
  exists key', set_bit key i = Ret key' /\ length key' = 10%nat /\ Forall byte key' /\
  forall j, key_bit key' j = (j =? i)%nat || key_bit key j.
Proof.
  intros L F H. pose proof H as H8. apply idx8 in H8. unfold set_bit.
  rewrite (index_ret _ 0) by lia. rewrite bind_ret, assign_ret by lia.
  eexists. split; [reflexivity|]. split; [rewrite upd_length; auto|].
  pose proof (Nat.mod_upper_bound i 8 ltac:(lia)) as M.
  set (v := nth (i / 8) key 0). set (r := Z.of_nat (i mod 8)).
  assert (B : byte v) by (rewrite Forall_forall in F; apply F; apply nth_In; lia).
  split.
  - apply Forall_forall. intros w I. apply In_nth with (d := 0) in I. destruct I as (k & K & <-).
    rewrite upd_length in K. rewrite nth_upd by lia. destruct (Nat.eqb_spec k (i / 8)).
    + unfold byte in *. assert (0 <= Z.shiftl 1 r) by (apply Z.shiftl_nonneg; lia).
      split; [apply Z.lor_nonneg; lia|]. 
      assert (LG : Z.log2 (Z.lor v (Z.shiftl 1 r)) < 8).
      { rewrite Z.log2_lor by lia. apply Z.max_lub_lt.
        - destruct (Z.eq_dec v 0) as [->|]; [reflexivity|]. apply Z.log2_lt_pow2; lia.
        - rewrite Z.log2_shiftl by lia. change (Z.log2 1) with 0. unfold r. lia. }
      destruct (Z.eq_dec (Z.lor v (Z.shiftl 1 r)) 0) as [->|]; [lia|].
      change 256 with (2 ^ 8). apply Z.log2_lt_pow2; auto.
      assert (0 <= Z.lor v (Z.shiftl 1 r)) by (apply Z.lor_nonneg; lia). lia.
    + rewrite Forall_forall in F; apply F, nth_In; auto.
  - intros j. unfold key_bit. rewrite nth_upd by lia.
    destruct (Nat.eqb_spec (j / 8) (i / 8)) as [E|E].
    + rewrite E. fold v. rewrite Z.lor_spec. rewrite Z.shiftl_spec by lia. fold r.
      pose proof (Nat.div_mod i 8 ltac:(lia)). pose proof (Nat.div_mod j 8 ltac:(lia)).
      destruct (Nat.eqb_spec j i) as [->|NE].
      * fold r. rewrite Z.sub_diag. rewrite orb_true_r. reflexivity.
      * assert (NR : Z.of_nat (j mod 8) - r <> 0) by (unfold r; lia).
        assert (T : Z.testbit 1 (Z.of_nat (j mod 8) - r) = false).
        { destruct (Z_lt_le_dec (Z.of_nat (j mod 8) - r) 0); [apply Z.testbit_neg_r; auto|].
          apply (Z.bits_above_log2 1); [lia|change (Z.log2 1) with 0; lia]. }
        rewrite T, orb_false_r. reflexivity.
    + destruct (Nat.eqb_spec j i) as [->|NE]; [congruence|]. reflexivity.
Qed.

(** [set_bits] writes ones. *)
Lemma set_bits_ret n : forall key b, length key = 10%nat -> Forall byte key -> (b + n <= 80)%nat ->
  exists key', set_bits n key b = Ret (key', (b + n)%nat) /\ length key' = 10%nat /\ Forall byte key' /\
  forall j, key_bit key' j = ((b <=? j)%nat && (j <? b + n)%nat) || key_bit key j.
Proof.
  induction n as [|n IH]; intros key b L F H; cbn [set_bits].
  - exists key. rewrite Nat.add_0_r. split; auto. split; auto. split; auto. intros j.
    destruct (Nat.leb_spec b j), (Nat.ltb_spec j b); auto; lia.
  - destruct (@set_bit_ret key b L F ltac:(lia)) as (k1 & E1 & L1 & F1 & B1). rewrite E1, bind_ret.
    destruct (IH k1 (b + 1)%nat L1 F1 ltac:(lia)) as (k2 & E2 & L2 & F2 & B2).
    exists k2. split; [rewrite E2; do 2 f_equal; lia|]. split; auto. split; auto.
    intros j. rewrite B2, B1.
    destruct (Nat.leb_spec (b + 1) j), (Nat.ltb_spec j (b + 1 + n)), (Nat.leb_spec b j), (Nat.ltb_spec j (b + S n)),
      (Nat.eqb_spec j b); auto; lia.
Qed.

(** Unary sequences only depend on the bits they span. *)
Lemma unary_ext f g ks : forall b, (forall j, (b <= j < b + total ks + length ks)%nat -> f j = g j) ->
  unary f b ks -> unary g b ks.
Proof.
  induction ks as [|k ks IH]; intros b E U; simpl in *; auto.
  destruct U as (U1 & U2 & U3). split; [intros j Hj; rewrite <- E; [auto|lia]|].
  split; [rewrite <- E; [auto|lia]|]. apply IH; auto. intros; apply E; lia.
Qed.
Lemma unary_app f ks ks' : forall b, unary f b (ks ++ ks') <->
  unary f b ks /\ unary f (b + total ks + length ks)%nat ks'.
Proof.
  induction ks as [|k ks IH]; intros b; simpl.
  - rewrite !Nat.add_0_r. tauto.
  - rewrite IH. replace (b + k + 1 + total ks + length ks)%nat with (b + (k + total ks) + S (length ks))%nat by lia. tauto.
Qed.
Lemma total_app a b : total (a ++ b) = (total a + total b)%nat.
Proof. unfold total. induction a; simpl; auto. lia. Qed.
Lemma total_rev a : total (rev a) = total a.
Proof. induction a; simpl; auto. rewrite total_app, IHa. simpl. lia. Qed.

(** The encoder's state: [ks] has been written up to bit [b], the rest is zero. *)
Definition written (key : list Z) (b : nat) (ks : list nat) : Prop :=
  length key = 10%nat /\ Forall byte key /\ b = (total ks + length ks)%nat /\ unary (key_bit key) 0 ks /\
  forall j, (b <= j)%nat -> key_bit key j = false.
(** One more count. *)
Lemma write_one key b ks n : written key b ks -> (b + n <= 80)%nat ->
  exists key', set_bits n key b = Ret (key', (b + n)%nat) /\ written key' (b + n + 1) (ks ++ [n]).
Proof.
  intros (L & F & B & U & Z) H. destruct (@set_bits_ret n key b L F H) as (k & E & L' & F' & K).
  exists k. split; auto. split; auto. split; auto.
  assert (Kz : forall j, (b + n <= j)%nat -> key_bit k j = false).
  { intros j Hj. rewrite K, Z by lia. destruct (Nat.leb_spec b j), (Nat.ltb_spec j (b + n)); auto; lia. }
  split; [rewrite total_app, app_length; simpl; lia|]. split.
  - apply unary_app. split.
    + eapply unary_ext; [|exact U]. intros j Hj. rewrite K.
      destruct (Nat.leb_spec b j); [lia|reflexivity].
    + simpl. rewrite <- B. split.
      * intros j Hj. rewrite K. destruct (Nat.leb_spec b j), (Nat.ltb_spec j (b + n)); auto; lia.
      * split; [apply Kz; lia|exact I].
  - intros j Hj. apply Kz. lia.
Qed.
Lemma write_loop (g : nat -> res Z) (c : nat -> nat) pts : (forall i, In i pts -> exists z, g i = Ret z /\ Z.to_nat z = c i) ->
  forall key b ks, written key b ks -> (b + total (map c pts) + length pts <= 80)%nat ->
  exists key', mfold (fun '(key, bit) point =>
      n <- g point ;; '(key, bit) <- set_bits (Z.to_nat n) key bit ;; Ret (key, (bit + 1)%nat)) pts (key, b)
    = Ret (key', (b + total (map c pts) + length pts)%nat) /\
    written key' (b + total (map c pts) + length pts) (ks ++ map c pts).
Proof.
  induction pts as [|i pts IH]; intros G key b ks W H; cbn [mfold].
  - exists key. cbn [total map fold_right length]. rewrite !Nat.add_0_r, app_nil_r. auto.
  - cbn [map length total fold_right] in *. fold (total (map c pts)) in *.
    destruct (G i (or_introl eq_refl)) as (z & Ez & Hz). rewrite Ez, bind_ret, Hz.
    destruct (@write_one key b ks (c i) W ltac:(lia)) as (k1 & E1 & W1). rewrite E1, !bind_ret.
    destruct (IH (fun j J => G j (or_intror J)) k1 (b + c i + 1)%nat _ W1 ltac:(lia)) as (k2 & E2 & W2).
    exists k2. split.
    + rewrite E2. do 2 f_equal. lia.
    + rewrite <- app_assoc in W2. replace (b + (c i + total (map c pts)) + S (length pts))%nat
        with (b + c i + 1 + total (map c pts) + length pts)%nat by lia. exact W2.
Qed.

Lemma mfold_ext_in {A S} (f g : S -> A -> res S) l : (forall s a, In a l -> f s a = g s a) ->
  forall s, mfold f l s = mfold g l s.
Proof.
  intros H. induction l as [|a l IH]; intros s; simpl; auto. rewrite H by (left; auto).
  destruct (g s a); simpl; auto. apply IH. intros; apply H; right; auto.
Qed.

(** Totals of a well-formed position. *)
Lemma total_Z (c : nat -> nat) (h : nat -> Z) l : (forall i, In i l -> Z.of_nat (c i) = h i) ->
  Z.of_nat (total (map c l)) = sumZ (map h l).
Proof. induction l as [|a l IH]; simpl; intros H; auto. rewrite <- IH, <- H by auto. lia. Qed.
Lemma sumZ_rev l : sumZ (rev l) = sumZ l.
Proof. induction l; simpl; auto. rewrite sumZ_app, IHl. simpl. lia. Qed.

Lemma o_on_sum N p : wf N p -> Z.of_nat (o_total (o_on p)) = N - o_off p.
Proof.
  intros W. rewrite (o_board W). unfold o_total. change (seq 0 25) with (0%nat :: seq 1 24).
  cbn [map total fold_right]. fold (total (map (o_on p) (seq 1 24))).
  rewrite Nat2Z.inj_add, (@total_Z (o_on p) (fun i => Z.max 0 (- pt p i))).
  - pose proof (wf_obar W). unfold o_on. lia.
  - intros i _. unfold o_on. lia.
Qed.
Lemma x_on_sum N p : wf N p -> Z.of_nat (x_total (x_on p)) = N - x_off p.
Proof.
  intros W. rewrite (x_board W). unfold x_total. change (seq 1 25) with (seq 1 24 ++ [25%nat]).
  rewrite map_app, total_app. cbn [map total fold_right]. fold (total (map (x_on p) (seq 1 24))).
  rewrite Nat2Z.inj_add, (@total_Z (x_on p) (fun i => Z.max 0 (pt p i))).
  - pose proof (wf_xbar W). unfold x_on. lia.
  - intros i _. unfold x_on. lia.
Qed.
Lemma counts_total o x : total (counts o x) = (o_total o + x_total x)%nat.
Proof.
  unfold counts, o_total, x_total. change (seq 0 25) with (0%nat :: seq 1 24). change (seq 1 25) with (seq 1 24 ++ [25%nat]).
  rewrite !total_app, map_rev, total_rev, map_app, total_app. cbn [map total fold_right]. fold (total (map o (seq 1 24))). lia.
Qed.

Lemma written_empty : written (repeat 0 10) 0 [].
Proof.
  split; [reflexivity|]. split; [repeat (apply Forall_cons; [unfold byte; lia|]); apply Forall_nil|].
  split; [reflexivity|]. split; [exact I|]. intros j _. unfold key_bit.
  replace (nth (j / 8) (repeat 0 10) 0) with 0 by (symmetry; apply nth_repeat). apply Z.testbit_0_l.
Qed.

Lemma encode_key_ret m N p : wf N p -> N <= 15 ->
  exists key, encode_key m p = Ret key /\ Forall byte key /\ key_lists key (o_on p) (x_on p) /\ rest_clear key (o_on p) (x_on p).
Proof.
  intros W HN.
  assert (T : (total (counts (o_on p) (x_on p)) <= 30)%nat).
  { rewrite counts_total. pose proof (o_on_sum W). pose proof (x_on_sum W). pose proof (wf_xoff W). pose proof (wf_ooff W). lia. }
  assert (TT : (total (map (o_on p) (rev (seq 1 24))) + o_on p 0 + total (map (x_on p) (seq 1 24)) + x_on p 25 <= 30)%nat).
  { unfold counts in T. rewrite !total_app in T. cbn [total fold_right] in T. lia. }
  assert (IX : forall i, (i < 26)%nat -> pip p i = Ret (pt p i)).
  { intros i Hi. unfold pip. rewrite (index_ret _ 0) by (rewrite (wf_len W); auto). reflexivity. }
  unfold encode_key. cbv zeta. change (range (O_BAR + 1) X_BAR) with (seq 1 24).
  erewrite (mfold_ext_in _ (fun '(key, bit) point =>
      n <- (v <- pip p point ;; i8 m (- v)) ;; '(key, bit) <- set_bits (Z.to_nat n) key bit ;; Ret (key, (bit + 1)%nat))).
  2:{ intros [k b] i _. destruct (pip p i); reflexivity. }
  destruct (@write_loop (fun point => v <- pip p point ;; i8 m (- v)) (o_on p) (rev (seq 1 24))) with (key := repeat 0 10) (b := 0%nat) (ks := @nil nat)
    as (k1 & E1 & W1).
  { intros i Hi. rewrite <- in_rev in Hi. apply in_seq in Hi. rewrite IX by lia. rewrite bind_ret.
    pose proof (@wf_pt_bounds _ _ i W). rewrite i8_ret by lia. eexists. split; reflexivity. }
  { apply written_empty. }
  { rewrite rev_length, seq_length. lia. }
  rewrite E1. clear E1. rewrite bind_ret. rewrite rev_length, seq_length in *.
  unfold o_bar. change (index (pips p) O_BAR) with (pip p 0). rewrite IX by lia. rewrite bind_ret.
  pose proof (@wf_pt_bounds _ _ 0%nat W). pose proof (wf_obar W). rewrite i8_ret by lia. rewrite !bind_ret, as_u8_id by lia.
  destruct (@write_one _ _ _ (o_on p 0) W1) as (k2 & E2 & W2); [lia|]. unfold o_on in E2 at 1. rewrite E2. clear E2. rewrite bind_ret.
  assert (G3 : forall i, In i (seq 1 24) -> exists z, pip p i = Ret z /\ Z.to_nat z = x_on p i).
  { intros i Hi. apply in_seq in Hi. rewrite IX by lia. eexists. split; reflexivity. }
  destruct (@write_loop (fun point => pip p point) (x_on p) (seq 1 24) G3 _ _ _ W2) as (k3 & E3 & W3).
  { rewrite seq_length. lia. }
  rewrite E3. clear E3. rewrite bind_ret. rewrite seq_length in *.
  unfold x_bar. change (index (pips p) X_BAR) with (pip p 25). rewrite IX by lia. rewrite !bind_ret.
  pose proof (@wf_pt_bounds _ _ 25%nat W). pose proof (wf_xbar W). rewrite as_u8_id by lia.
  destruct (@write_one _ _ _ (x_on p 25) W3) as (k4 & E4 & W4); [lia|].
  change (Z.to_nat (pt p 25)) with (x_on p 25). rewrite E4. clear E4. rewrite bind_ret.
  exists k4. split; [reflexivity|]. destruct W4 as (L & F & B & U & R). split; [exact F|].
  split.
  - split; [exact L|]. split; [|lia]. unfold counts. rewrite !app_assoc. exact U.
  - intros j Hj. apply R. unfold counts in Hj. rewrite !total_app in Hj. cbn [total fold_right] in Hj. lia.
Qed.

Lemma encode_key_mode m N p : wf N p -> encode_key m p = encode_key Debug p.
Proof.
  intros W. unfold encode_key. cbv zeta.
  assert (IX : forall i, (i < 26)%nat -> pip p i = Ret (pt p i)).
  { intros i Hi. unfold pip. rewrite (index_ret _ 0) by (rewrite (wf_len W); auto). reflexivity. }
  assert (E0 : o_bar m p = o_bar Debug p).
  { unfold o_bar. change (index (pips p) O_BAR) with (pip p 0). rewrite IX by lia. rewrite !bind_ret.
    pose proof (@wf_pt_bounds _ _ 0%nat W). rewrite !i8_ret by lia. reflexivity. }
  rewrite E0. clear E0.
  rewrite (@mfold_ext_in _ _ _ (fun '(key, bit) point =>
      v <- pip p point ;; n <- i8 Debug (- v) ;;
      '(key, bit) <- set_bits (Z.to_nat n) key bit ;; Ret (key, (bit + 1)%nat)) (rev (range (O_BAR + 1) X_BAR))).
  - reflexivity.
  - intros [k b] i Hi. rewrite <- in_rev in Hi. apply in_seq in Hi.
    rewrite IX by (cbv [O_BAR X_BAR] in Hi; lia). rewrite !bind_ret. pose proof (@wf_pt_bounds _ _ i W).
    rewrite !i8_ret by lia. reflexivity.
Qed.

(** ** Reading a key *)

Lemma run_bits_ret m step key k : length key = 10%nat -> step = 1 \/ step = -1 ->
  forall fuel ps point pieces b, (k < fuel)%nat -> (point < length ps)%nat ->
  (forall j, (b <= j < b + k)%nat -> key_bit key j = true) -> key_bit key (b + k) = false -> (b + k < 80)%nat ->
  -128 <= nth point ps 0 <= 127 -> -128 <= nth point ps 0 + step * Z.of_nat k <= 127 ->
  0 <= pieces -> pieces + Z.of_nat k <= 255 ->
  run_bits fuel m step key ps point pieces b =
  Ret (upd ps point (nth point ps 0 + step * Z.of_nat k), pieces + Z.of_nat k, (b + k)%nat).
Proof.
  intros L ST. induction k as [|k IH]; intros [|fuel] ps point pieces b F P B1 B0 H N0 NK P0 PK; try lia; cbn [run_bits].
  - rewrite Nat.add_0_r in *. rewrite get_bit_ret, bind_ret, B0 by auto.
    replace (nth point ps 0 + step * Z.of_nat 0) with (nth point ps 0) by lia. rewrite upd_self, Z.add_0_r. reflexivity.
  - rewrite get_bit_ret, bind_ret, B1 by (auto; lia).
    rewrite (index_ret _ 0), bind_ret by auto. rewrite i8_ret, bind_ret by lia.
    rewrite assign_ret, bind_ret by auto. rewrite u8_ret, bind_ret by lia.
    rewrite IH; try lia.
    + rewrite nth_upd by auto. rewrite Nat.eqb_refl, upd_upd. replace (b + 1 + k)%nat with (b + S k)%nat by lia.
      do 3 f_equal; [f_equal|]; lia.
    + rewrite upd_length. auto.
    + intros j Hj. apply B1. lia.
    + replace (b + 1 + k)%nat with (b + S k)%nat by lia. auto.
    + rewrite nth_upd by auto. rewrite Nat.eqb_refl. lia.
    + rewrite nth_upd by auto. rewrite Nat.eqb_refl. lia.
Qed.
Lemma run_bits_inv m step key : length key = 10%nat ->
  forall fuel ps point pieces b r, run_bits fuel m step key ps point pieces b = Ret r ->
  exists k, snd r = (b + k)%nat /\ (b + k < 80)%nat /\ (k < fuel)%nat /\
  (forall j, (b <= j < b + k)%nat -> key_bit key j = true) /\ key_bit key (b + k) = false.
Proof.
  intros L. induction fuel as [|fuel IH]; intros ps point pieces b r E; cbn [run_bits] in E; [discriminate E|].
  destruct (le_lt_dec 80 b) as [B|B]; [rewrite get_bit_oob in E by auto; discriminate E|].
  rewrite get_bit_ret, bind_ret in E by auto. destruct (key_bit key b) eqn:K.
  - apply bind_inv in E. destruct E as (v & _ & E). apply bind_inv in E. destruct E as (v1 & _ & E).
    apply bind_inv in E. destruct E as (ps1 & _ & E). apply bind_inv in E. destruct E as (pc & _ & E).
    apply IH in E. destruct E as (k & E1 & E2 & E3 & E4 & E5). exists (S k).
    split; [lia|]. split; [lia|]. split; [lia|]. split.
    + intros j Hj. destruct (Nat.eq_dec j b) as [->|]; auto. apply E4. lia.
    + replace (b + S k)%nat with (b + 1 + k)%nat by lia. auto.
  - inversion E; subst. exists 0%nat. simpl. rewrite Nat.add_0_r. split; auto. split; auto. split; [lia|]. split; auto. intros; lia.
Qed.

(** Adding counts to points. *)
Definition add_counts (step : Z) (c : nat -> nat) (pts : list nat) (ps : list Z) : list Z :=
  fold_left (fun ps i => upd ps i (nth i ps 0 + step * Z.of_nat (c i))) pts ps.
Lemma add_counts_length step c pts : forall ps, length (add_counts step c pts ps) = length ps.
Proof. induction pts; intros; simpl; auto. unfold add_counts in *. rewrite IHpts, upd_length. reflexivity. Qed.
Lemma add_counts_other step c pts i : forall ps, ~ In i pts -> Forall (fun j => (j < length ps)%nat) pts ->
  nth i (add_counts step c pts ps) 0 = nth i ps 0.
Proof.
  induction pts as [|j pts IH]; intros ps N F; auto. inversion F; subst. cbn [add_counts fold_left].
  fold (add_counts step c pts (upd ps j (nth j ps 0 + step * Z.of_nat (c j)))). rewrite IH.
  - rewrite nth_upd by auto. destruct (Nat.eqb_spec i j); auto. subst. exfalso. apply N. left; auto.
  - intros I. apply N. right; auto.
  - rewrite upd_length. auto.
Qed.
Lemma add_counts_in step c pts i : NoDup pts -> forall ps, In i pts -> Forall (fun j => (j < length ps)%nat) pts ->
  nth i (add_counts step c pts ps) 0 = nth i ps 0 + step * Z.of_nat (c i).
Proof.
  induction 1 as [|j pts NI ND IH]; intros ps I F; [destruct I|]. inversion F; subst. cbn [add_counts fold_left].
  fold (add_counts step c pts (upd ps j (nth j ps 0 + step * Z.of_nat (c j)))).
  destruct (Nat.eq_dec i j) as [->|NE].
  - rewrite add_counts_other; auto; [|rewrite upd_length; auto]. rewrite nth_upd by auto. rewrite Nat.eqb_refl. reflexivity.
  - rewrite IH; [|destruct I; auto; congruence|rewrite upd_length; auto].
    rewrite nth_upd by auto. apply Nat.eqb_neq in NE. rewrite NE. reflexivity.
Qed.

Lemma decode_loop m step key c pts : length key = 10%nat -> step = 1 \/ step = -1 -> NoDup pts ->
  forall ps pieces b, Forall (fun j => (j < length ps)%nat) pts ->
  unary (key_bit key) b (map c pts) -> (b + total (map c pts) + length pts <= 80)%nat ->
  (forall j, In j pts -> -40 <= nth j ps 0 <= 40) -> 0 <= pieces -> pieces + Z.of_nat (total (map c pts)) <= 255 ->
  mfold (fun '(ps, pieces, bit) point =>
      '(ps, pieces, bit) <- run_bits 81 m step key ps point pieces bit ;;
      Ret (ps, pieces, (bit + 1)%nat)) pts (ps, pieces, b)
  = Ret (add_counts step c pts ps, pieces + Z.of_nat (total (map c pts)), (b + total (map c pts) + length pts)%nat).
Proof.
  intros L ST ND. induction ND as [|i pts NI ND IH]; intros ps pieces b F U H NB P PT; cbn [mfold].
  - cbn [map total fold_right length]. rewrite !Nat.add_0_r, Z.add_0_r. reflexivity.
  - cbn [map length total fold_right unary] in *. fold (total (map c pts)) in *. inversion F; subst. destruct U as (U1 & U2 & U3).
    pose proof (NB i (or_introl eq_refl)).
    rewrite (@run_bits_ret m step key (c i)); auto; try lia.
    rewrite !bind_ret. rewrite IH; try lia.
    + cbn [add_counts fold_left]. fold (add_counts step c pts (upd ps i (nth i ps 0 + step * Z.of_nat (c i)))). f_equal. f_equal; [f_equal|]; lia.
    + rewrite upd_length. auto.
    + exact U3.
    + intros j Hj. rewrite nth_upd by auto. destruct (Nat.eqb_spec j i) as [->|]; [contradiction|]. apply NB; right; auto.
Qed.
Lemma decode_loop_inv m step key pts : length key = 10%nat -> forall ps pieces b r,
  mfold (fun '(ps, pieces, bit) point =>
      '(ps, pieces, bit) <- run_bits 81 m step key ps point pieces bit ;;
      Ret (ps, pieces, (bit + 1)%nat)) pts (ps, pieces, b) = Ret r ->
  exists ks, length ks = length pts /\ unary (key_bit key) b ks /\ snd r = (b + total ks + length ks)%nat /\
  ((b <= 80)%nat -> (snd r <= 80)%nat).
Proof.
  intros L. induction pts as [|i pts IH]; intros ps pieces b r E; cbn [mfold] in E.
  - inversion E; subst. exists []. simpl. rewrite !Nat.add_0_r. auto.
  - apply bind_inv in E. destruct E as ([[ps2 pc2] b2] & E1 & E2).
    apply bind_inv in E1. destruct E1 as ([[ps1 pc1] b1] & E1 & E3). inversion E3; subst; clear E3.
    apply run_bits_inv in E1; auto. destruct E1 as (k & K1 & K2 & _ & K3 & K4). cbn [snd] in K1. subst b1.
    apply IH in E2. destruct E2 as (ks & L1 & U & B & B8). exists (k :: ks). cbn [length unary total fold_right].
    fold (total ks). split; [lia|]. split; [auto|]. split; [rewrite B; lia|]. intros _. apply B8. lia.
Qed.

(** Counts as functions of the point. *)
Lemma seq_counts ks : length ks = 24%nat -> map (fun i => nth (i - 1) ks 0%nat) (seq 1 24) = ks.
Proof.
  intros L. do 24 (destruct ks as [|? ks]; [discriminate L|]). destruct ks; [reflexivity|discriminate L].
Qed.
Lemma rev_counts ks : length ks = 24%nat -> map (fun i => nth (24 - i) ks 0%nat) (rev (seq 1 24)) = ks.
Proof.
  intros L. do 24 (destruct ks as [|? ks]; [discriminate L|]). destruct ks; [reflexivity|discriminate L].
Qed.

(** What a key decodes to. *)
Definition decoded (o x : nat -> nat) : list Z :=
  map (fun i => (if (i =? 0)%nat then 0 else Z.of_nat (x i)) - (if (i =? 25)%nat then 0 else Z.of_nat (o i))) (seq 0 26).

Lemma decode_key_ret m N key o x : key_lists key o x ->
  decode_key m N key =
  (xo <- u8 m (N - Z.of_nat (x_total x)) ;; oo <- u8 m (N - Z.of_nat (o_total o)) ;;
   Ret {| turn := true; pips := decoded o x; x_off := xo; o_off := oo |}).
Proof.
  intros (L & U & T). unfold decode_key. cbv zeta. change (range (O_BAR + 1) X_BAR) with (seq 1 24).
  assert (TT : (total (map o (rev (seq 1 24))) + o 0%nat + total (map x (seq 1 24)) + x 25%nat <= 30)%nat).
  { unfold counts in T. rewrite !total_app in T. cbn [total fold_right] in T. lia. }
  assert (OT : o_total o = (total (map o (rev (seq 1 24))) + o 0)%nat).
  { unfold o_total. rewrite map_rev, total_rev. change (seq 0 25) with (0%nat :: seq 1 24). cbn [map total fold_right].
    fold (total (map o (seq 1 24))). lia. }
  assert (XT : x_total x = (total (map x (seq 1 24)) + x 25)%nat).
  { unfold x_total. change (seq 1 25) with (seq 1 24 ++ [25%nat]). rewrite map_app, total_app. cbn [map total fold_right]. 
    lia. }
  unfold counts in U. apply unary_app in U. destruct U as (U1 & U2). apply unary_app in U2. destruct U2 as (U2 & U3).
  apply unary_app in U3. destruct U3 as (U3 & U4). cbn [total fold_right length] in U3, U4.
  rewrite map_length, rev_length, seq_length in *. rewrite map_length, seq_length in *.
  cbn [unary] in U2, U4. destruct U2 as (U2 & U2' & _). destruct U4 as (U4 & U4' & _).
  rewrite (@decode_loop m (-1) key o); auto; try lia.
  2:{ apply NoDup_rev, seq_NoDup. }
  2:{ apply Forall_rev. apply Forall_forall. intros j Hj. apply in_seq in Hj. rewrite repeat_length. lia. }
  2:{ rewrite rev_length, seq_length. lia. }
  2:{ intros j _. rewrite nth_repeat. lia. }
  rewrite bind_ret. rewrite rev_length, seq_length.
  set (ps1 := add_counts _ _ _ _).
  assert (L1 : length ps1 = 26%nat) by (unfold ps1; rewrite add_counts_length; reflexivity).
  assert (P1 : forall i, (i < 26)%nat -> nth i ps1 0 = if ((i =? 0)%nat || (i =? 25)%nat)%bool then 0 else - Z.of_nat (o i)).
  { intros i Hi. unfold ps1. destruct (Nat.eqb_spec i 0); [|destruct (Nat.eqb_spec i 25)]; cbn [orb].
    - rewrite add_counts_other; [apply nth_repeat| |].
      + rewrite <- in_rev, in_seq. lia.
      + apply Forall_rev. apply Forall_forall. intros j Hj. apply in_seq in Hj. rewrite repeat_length. lia.
    - rewrite add_counts_other; [apply nth_repeat| |].
      + rewrite <- in_rev, in_seq. lia.
      + apply Forall_rev. apply Forall_forall. intros j Hj. apply in_seq in Hj. rewrite repeat_length. lia.
    - rewrite add_counts_in; [rewrite nth_repeat; lia| | |].
      + apply NoDup_rev, seq_NoDup.
      + rewrite <- in_rev, in_seq. lia.
      + apply Forall_rev. apply Forall_forall. intros j Hj. apply in_seq in Hj. rewrite repeat_length. lia. }
  assert (E2 := @run_bits_ret m (-1) key (o 0%nat) L (or_intror eq_refl) 81 ps1 0%nat
    (0 + Z.of_nat (total (map o (rev (seq 1 24))))) (0 + total (map o (rev (seq 1 24))) + 24)).
  specialize (E2 ltac:(lia) ltac:(lia) U2 U2' ltac:(lia)). rewrite (P1 0%nat ltac:(lia)) in E2. change ((0 =? 0)%nat || (0 =? 25)%nat)%bool with true in E2. cbv iota in E2.
  specialize (E2 ltac:(lia) ltac:(lia) ltac:(lia) ltac:(lia)).
  change O_BAR with 0%nat. rewrite E2. clear E2.
  rewrite bind_ret. set (ps2 := upd ps1 _ _).
  assert (L2 : length ps2 = 26%nat) by (unfold ps2; rewrite upd_length; auto).
  assert (P2 : forall i, (i < 26)%nat -> nth i ps2 0 = if (i =? 25)%nat then 0 else - Z.of_nat (o i)).
  { intros i Hi. unfold ps2. rewrite nth_upd by lia. rewrite !P1 by lia.
    destruct (Nat.eqb_spec i 0) as [->|]; cbn [orb]; [change (0 =? 25)%nat with false; cbv iota; lia|reflexivity]. }
  assert (PO : forall i, (0 < i < 25)%nat -> (o i <= 30)%nat).
  { intros i Hi. rewrite map_rev, total_rev in TT. 
    enough (o i <= total (map o (seq 1 24)))%nat by lia.
    assert (IN : In (o i) (map o (seq 1 24))) by (apply in_map, in_seq; lia). revert IN. generalize (map o (seq 1 24)).
    induction l as [|a l IHl]; simpl; [tauto|]. intros [->|IN]; [lia|]. apply IHl in IN. unfold total in *. lia. }
  assert (E3 := @decode_loop m 1 key x (seq 1 24) L (or_introl eq_refl) (seq_NoDup _ _) ps2 0
    (0 + total (map o (rev (seq 1 24))) + 24 + o 0 + 1)%nat).
  rewrite seq_length, L2 in E3.
  match type of E3 with ?A -> _ => assert (A1 : A) end.
  { apply Forall_forall. intros j Hj. apply in_seq in Hj. lia. }
  specialize (E3 A1). clear A1.
  match type of E3 with ?A -> _ => assert (A1 : A) end.
  { rewrite Nat.add_0_r in U3. exact U3. }
  specialize (E3 A1 ltac:(lia)). clear A1.
  match type of E3 with ?A -> _ => assert (A1 : A) end.
  { intros j Hj. apply in_seq in Hj. rewrite P2 by lia. destruct (Nat.eqb_spec j 25); [lia|]. pose proof (PO j). lia. }
  specialize (E3 A1 ltac:(lia) ltac:(lia)). clear A1.
  rewrite E3. clear E3. rewrite bind_ret.
  set (ps3 := add_counts _ _ _ _).
  assert (L3 : length ps3 = 26%nat) by (unfold ps3; rewrite add_counts_length; auto).
  assert (P3 : forall i, (i < 26)%nat -> nth i ps3 0 =
    (if ((i =? 0)%nat || (i =? 25)%nat)%bool then 0 else Z.of_nat (x i)) - (if (i =? 25)%nat then 0 else Z.of_nat (o i))).
  { intros i Hi. unfold ps3.
    assert (FF : Forall (fun j : nat => (j < length ps2)%nat) (seq 1 24)).
    { apply Forall_forall. intros j Hj. apply in_seq in Hj. lia. }
    destruct (Nat.eqb_spec i 0); [|destruct (Nat.eqb_spec i 25)]; cbn [orb].
    - rewrite add_counts_other, P2 by (auto; rewrite in_seq; lia). subst. reflexivity.
    - rewrite add_counts_other, P2 by (auto; rewrite in_seq; lia). subst. reflexivity.
    - rewrite add_counts_in, P2; auto; [|apply seq_NoDup|rewrite in_seq; lia].
      destruct (Nat.eqb_spec i 25); lia. }
  assert (E4 := @run_bits_ret m 1 key (x 25%nat) L (or_introl eq_refl) 81 ps3 25%nat
    (0 + Z.of_nat (total (map x (seq 1 24)))) (0 + total (map o (rev (seq 1 24))) + 24 + o 0 + 1 + total (map x (seq 1 24)) + 24)%nat).
  specialize (E4 ltac:(lia) ltac:(lia)).
  match type of E4 with ?A -> _ => assert (A1 : A) end.
  { intros j Hj. apply U4. lia. }
  specialize (E4 A1). clear A1.
  match type of E4 with ?A -> _ => assert (A1 : A) end.
  { rewrite <- U4'. f_equal. lia. }
  specialize (E4 A1 ltac:(lia)). clear A1. rewrite (P3 25%nat ltac:(lia)) in E4. change ((25 =? 0)%nat || (25 =? 25)%nat)%bool with true in E4. change (25 =? 25)%nat with true in E4. cbv iota in E4.
  specialize (E4 ltac:(lia) ltac:(lia) ltac:(lia) ltac:(lia)).
  change X_BAR with 25%nat. rewrite E4. clear E4. rewrite bind_ret.
  replace (0 + Z.of_nat (total (map x (seq 1 24))) + Z.of_nat (x 25%nat)) with (Z.of_nat (x_total x)) by lia.
  replace (0 + Z.of_nat (total (map o (rev (seq 1 24)))) + Z.of_nat (o 0%nat)) with (Z.of_nat (o_total o)) by lia.
  match goal with |- context [upd ps3 25 ?v] => replace (upd ps3 25 v) with (decoded o x) end; [reflexivity|].
  apply nth_ext26; [unfold decoded; rewrite map_length, seq_length; reflexivity|rewrite upd_length; auto|].
  intros i Hi. rewrite nth_upd by lia. rewrite (P3 i) by lia. unfold decoded.
  rewrite (@nth_map_seq _ _ 26) by lia. cbv beta.
  destruct (Nat.eqb_spec i 25), (Nat.eqb_spec i 0); subst; cbn [orb]; lia.
Qed.

Lemma decode_key_inv m N key p : length key = 10%nat -> decode_key m N key = Ret p ->
  exists o x, key_lists key o x.
Proof.
  intros L E. unfold decode_key in E. cbv zeta in E. change (range (O_BAR + 1) X_BAR) with (seq 1 24) in E.
  apply bind_inv in E. destruct E as ([[ps1 c1] b1] & E1 & E).
  apply decode_loop_inv in E1; auto. destruct E1 as (k1 & L1 & U1 & B1 & _). cbn [snd] in B1.
  apply bind_inv in E. destruct E as ([[ps2 c2] b2] & E2 & E).
  apply run_bits_inv in E2; auto. destruct E2 as (n2 & B2 & M2 & _ & U2 & U2'). cbn [snd] in B2.
  apply bind_inv in E. destruct E as ([[ps3 c3] b3] & E3 & E).
  apply decode_loop_inv in E3; auto. destruct E3 as (k3 & L3 & U3 & B3 & _). cbn [snd] in B3.
  apply bind_inv in E. destruct E as ([[ps4 c4] b4] & E4 & _).
  apply run_bits_inv in E4; auto. destruct E4 as (n4 & _ & M4 & _ & U4 & U4').
  rewrite rev_length, seq_length in L1. rewrite seq_length in L3.
  exists (fun i => if (i =? 0)%nat then n2 else nth (24 - i) k1 0%nat).
  exists (fun i => if (i =? 25)%nat then n4 else nth (i - 1) k3 0%nat).
  assert (C : counts (fun i => if (i =? 0)%nat then n2 else nth (24 - i) k1 0%nat)
     (fun i => if (i =? 25)%nat then n4 else nth (i - 1) k3 0%nat) = k1 ++ [n2] ++ k3 ++ [n4]).
  { unfold counts. f_equal; [|f_equal; f_equal].
    - etransitivity; [|exact (rev_counts k1 L1)]. apply map_ext_in. intros i Hi. rewrite <- in_rev, in_seq in Hi.
      destruct (Nat.eqb_spec i 0); [lia|reflexivity].
    - etransitivity; [|exact (seq_counts k3 L3)]. apply map_ext_in. intros i Hi. rewrite in_seq in Hi.
      destruct (Nat.eqb_spec i 25); [lia|reflexivity]. }
  split; [exact L|]. rewrite C. split.
  - apply unary_app. split; [exact U1|]. apply unary_app. subst b1 b2. rewrite L1 in *. split.
    + cbn [unary]. split; [exact U2|]. split; [exact U2'|exact I].
    + cbn [total fold_right length]. rewrite Nat.add_0_r. apply unary_app. split; [exact U3|].
      cbn [unary]. rewrite L3 in *. subst b3. split; [exact U4|]. split; [exact U4'|exact I].
  - rewrite !total_app. cbn [total fold_right]. lia.
Qed.

(** ** Which texts are base64 of ten bytes *)
Lemma b64_value_some c v : b64_value c = Some v -> base64_char c /\ 0 <= v < 64 /\ b64_char v = c.
Proof.
  unfold b64_value, base64_char, b64_char. intros E.
  destruct (Z.leb_spec 65 c), (Z.leb_spec c 90); cbn [andb] in E.
  1:{ apply Some_inj in E. subst v. destruct (Z.ltb_spec (c - 65) 26); lia. }
  all: destruct (Z.leb_spec 97 c), (Z.leb_spec c 122); cbn [andb] in E; try lia;
    try (apply Some_inj in E; subst v; destruct (Z.ltb_spec (c - 71) 26), (Z.ltb_spec (c - 71) 52); lia);
    destruct (Z.leb_spec 48 c), (Z.leb_spec c 57); cbn [andb] in E; try lia;
    try (apply Some_inj in E; subst v; destruct (Z.ltb_spec (c + 4) 26), (Z.ltb_spec (c + 4) 52), (Z.ltb_spec (c + 4) 62); lia);
    destruct (Z.eqb_spec c 43); try (apply Some_inj in E; subst; simpl; lia);
    destruct (Z.eqb_spec c 47); try (apply Some_inj in E; subst; simpl; lia); discriminate E.
Qed.
Lemma b64_value_char_some c : base64_char c -> exists v, b64_value c = Some v.
Proof.
  unfold base64_char, b64_value. intros H.
  destruct (Z.leb_spec 65 c), (Z.leb_spec c 90), (Z.leb_spec 97 c), (Z.leb_spec c 122), (Z.leb_spec 48 c), (Z.leb_spec c 57),
    (Z.eqb_spec c 43), (Z.eqb_spec c 47); cbn [andb]; try (eexists; reflexivity); lia.
Qed.
Lemma b64_len key : forall n id, (length id <= n)%nat -> b64_decode (id ++ [61; 61]) = Some key ->
  (4 * length key + 2 = 3 * length id)%nat.
Proof.
  intros n. revert key. induction n as [n IH] using lt_wf_ind. intros key id LI E.
  destruct id as [|c0 id]; [discriminate E|].
  destruct id as [|c1 id]; [discriminate E|].
  destruct id as [|c2 id].
  { cbn [app b64_decode] in E. unfold b64_last in E. change (61 =? 61) with true in E. cbv iota in E.
    destruct (b64_value c0), (b64_value c1); try discriminate E. destruct (_ =? 0); [|discriminate E].
    apply Some_inj in E. subst. reflexivity. }
  destruct id as [|c3 id].
  { cbn [app b64_decode] in E. destruct (b64_group _ _ _ _); discriminate E. }
  cbn [app] in E.
  assert (E' : match b64_group c0 c1 c2 c3, b64_decode (id ++ [61; 61]) with Some g, Some l => Some (g ++ l) | _, _ => None end = Some key).
  { rewrite <- E. destruct id; reflexivity. }
  clear E. destruct (b64_group c0 c1 c2 c3) as [g|] eqn:G; [|discriminate E'].
  destruct (b64_decode (id ++ [61; 61])) as [l|] eqn:D; [|discriminate E'].
  apply Some_inj in E'. subst key. cbn [length] in *.
  assert (length g = 3%nat).
  { unfold b64_group in G. destruct (b64_value c0), (b64_value c1), (b64_value c2), (b64_value c3); try discriminate G.
    apply Some_inj in G. subst. reflexivity. }
  apply (IH (n - 4)%nat ltac:(lia) l id ltac:(lia)) in D. rewrite app_length. lia.
Qed.

Lemma fourteen (l : list Z) : length l = 14%nat -> exists a b c d e f g h i j k m n o, l = [a; b; c; d; e; f; g; h; i; j; k; m; n; o].
Proof.
  intros L. do 14 (destruct l as [|? l]; [simpl in L; lia|]). destruct l; [|simpl in L; lia].
  repeat eexists.
Qed.
Lemma b64_group_inv c0 c1 c2 c3 g : b64_group c0 c1 c2 c3 = Some g ->
  exists a b c, g = [a; b; c] /\ byte a /\ byte b /\ byte c /\ base64_char c0 /\ base64_char c1 /\ base64_char c2 /\ base64_char c3 /\
  c0 = b64_char (a / 4) /\ c1 = b64_char (a mod 4 * 16 + b / 16) /\ c2 = b64_char (b mod 16 * 4 + c / 64) /\ c3 = b64_char (c mod 64).
Proof.
  unfold b64_group. intros E.
  destruct (b64_value c0) as [v0|] eqn:V0; [|discriminate E]. destruct (b64_value c1) as [v1|] eqn:V1; [|discriminate E].
  destruct (b64_value c2) as [v2|] eqn:V2; [|discriminate E]. destruct (b64_value c3) as [v3|] eqn:V3; [|discriminate E].
  apply Some_inj in E. apply b64_value_some in V0, V1, V2, V3.
  destruct V0 as (C0 & R0 & <-), V1 as (C1 & R1 & <-), V2 as (C2 & R2 & <-), V3 as (C3 & R3 & <-).
  pose proof (@div_lt v1 16 4 ltac:(lia) ltac:(lia)). pose proof (@div_lt v2 4 16 ltac:(lia) ltac:(lia)).
  pose proof (Z.mod_pos_bound v1 16 ltac:(lia)). pose proof (Z.mod_pos_bound v2 4 ltac:(lia)).
  pose proof (Z.div_mod v1 16 ltac:(lia)). pose proof (Z.div_mod v2 4 ltac:(lia)).
  exists (v0 * 4 + v1 / 16), (v1 mod 16 * 16 + v2 / 4), (v2 mod 4 * 64 + v3).
  destruct (@divmod_u (v0 * 4 + v1 / 16) 4 v0 (v1 / 16)) as (E1 & E2); try lia.
  destruct (@divmod_u (v1 mod 16 * 16 + v2 / 4) 16 (v1 mod 16) (v2 / 4)) as (E3 & E4); try lia.
  destruct (@divmod_u (v2 mod 4 * 64 + v3) 64 (v2 mod 4) v3) as (E5 & E6); try lia.
  rewrite E1, E2, E3, E4, E5, E6. unfold byte. split; [auto|]. split; [lia|]. split; [lia|]. split; [lia|].
  do 4 (split; [assumption|]). split; [reflexivity|]. split; [f_equal; lia|]. split; [f_equal; lia|reflexivity].
Qed.
Lemma b64_group_some c0 c1 c2 c3 : base64_char c0 -> base64_char c1 -> base64_char c2 -> base64_char c3 ->
  exists g, b64_group c0 c1 c2 c3 = Some g.
Proof.
  intros A B C D. apply b64_value_char_some in A, B, C, D. destruct A as (a & A), B as (b & B), C as (c & C), D as (d & D).
  unfold b64_group. rewrite A, B, C, D. eauto.
Qed.
Lemma b64_last_inv c0 c1 g : b64_last c0 c1 61 61 = Some g ->
  exists a, g = [a] /\ byte a /\ base64_char c0 /\ In c1 [65; 81; 103; 119] /\ c0 = b64_char (a / 4) /\ c1 = b64_char (a mod 4 * 16).
Proof.
  unfold b64_last. change (61 =? 61) with true. cbv iota. intros E.
  destruct (b64_value c0) as [v0|] eqn:V0; [|discriminate E]. destruct (b64_value c1) as [v1|] eqn:V1; [|discriminate E].
  destruct (Z.eqb_spec (v1 mod 16) 0) as [M|]; [|discriminate E]. apply Some_inj in E.
  apply b64_value_some in V0, V1. destruct V0 as (C0 & R0 & <-), V1 as (C1 & R1 & <-).
  pose proof (@div_lt v1 16 4 ltac:(lia) ltac:(lia)). pose proof (Z.div_mod v1 16 ltac:(lia)).
  exists (v0 * 4 + v1 / 16). destruct (@divmod_u (v0 * 4 + v1 / 16) 4 v0 (v1 / 16)) as (E1 & E2); try lia.
  rewrite E1, E2. unfold byte. split; [auto|]. split; [lia|]. split; [assumption|]. split.
  - assert (V : v1 = 0 \/ v1 = 16 \/ v1 = 32 \/ v1 = 48) by lia.
    destruct V as [->|[->|[->| -> ]]]; cbn [In]; auto 6.
  - split; [reflexivity|]. f_equal. lia.
Qed.
Lemma b64_last_some c0 c1 : base64_char c0 -> In c1 [65; 81; 103; 119] -> exists g, b64_last c0 c1 61 61 = Some g.
Proof.
  intros A B. apply b64_value_char_some in A. destruct A as (a & A). unfold b64_last. change (61 =? 61) with true. cbv iota.
  rewrite A. destruct B as [B|[B|[B|[B|[]]]]]; subst c1; eexists; reflexivity.
Qed.

Lemma eqs : lit "==" = [61; 61].
Proof. reflexivity. Qed.
Lemma b64_id_inv id key : b64_decode (id ++ lit "==") = Some key -> length key = 10%nat ->
  id_shape id /\ Forall byte key /\ id = firstn 14 (b64_encode key).
Proof.
  rewrite eqs. intros E LK. pose proof (@b64_len key _ id (le_n _) E) as L. rewrite LK in L.
  assert (L14 : length id = 14%nat) by lia. clear L.
  destruct (fourteen id L14) as (a & b & c & d & e & f & g & h & i & j & k & n & o & q & ->).
  cbn [app b64_decode] in E.
  destruct (b64_group a b c d) as [g1|] eqn:G1; [|discriminate E].
  destruct (b64_group e f g h) as [g2|] eqn:G2; [|discriminate E].
  destruct (b64_group i j k n) as [g3|] eqn:G3; [|discriminate E].
  destruct (b64_last o q 61 61) as [g4|] eqn:G4; [|discriminate E].
  apply Some_inj in E. apply b64_group_inv in G1, G2, G3. apply b64_last_inv in G4.
  destruct G1 as (a1 & b1 & c1 & -> & A1 & B1 & C1 & D1 & D2 & D3 & D4 & E1 & E2 & E3 & E4).
  destruct G2 as (a2 & b2 & c2 & -> & A2 & B2 & C2 & D5 & D6 & D7 & D8 & E5 & E6 & E7 & E8).
  destruct G3 as (a3 & b3 & c3 & -> & A3 & B3 & C3 & D9 & D10 & D11 & D12 & E9 & E10 & E11 & E12).
  destruct G4 as (a4 & -> & A4 & D13 & D14 & E13 & E14). cbn [app] in E. subst key.
  split; [|split].
  - split; [reflexivity|]. split; [|exact D14].
    repeat (apply Forall_cons; [assumption|]). apply Forall_cons; [|apply Forall_nil].
    unfold base64_char. destruct D14 as [Q|[Q|[Q|[Q|[]]]]]; lia.
  - repeat (apply Forall_cons; [assumption|]). apply Forall_nil.
  - cbn [b64_encode firstn app]. congruence.
Qed.
Lemma b64_id_some id : id_shape id -> exists key, b64_decode (id ++ lit "==") = Some key /\ length key = 10%nat.
Proof.
  rewrite eqs. intros (L & F & La).
  destruct (fourteen id L) as (a & b & c & d & e & f & g & h & i & j & k & n & o & q & ->).
  cbn [last] in La.
  repeat match goal with H : Forall base64_char (_ :: _) |- _ => apply Forall_cons_iff in H; destruct H end.
  destruct (@b64_group_some a b c d) as (g1 & G1); auto. destruct (@b64_group_some e f g h) as (g2 & G2); auto.
  destruct (@b64_group_some i j k n) as (g3 & G3); auto. destruct (@b64_last_some o q) as (g4 & G4); auto.
  cbn [app b64_decode]. rewrite G1, G2, G3, G4. eexists. split; [reflexivity|].
  apply b64_group_inv in G1, G2, G3. apply b64_last_inv in G4.
  destruct G1 as (a1 & b1 & c1 & -> & _). destruct G2 as (a2 & b2 & c2 & -> & _). destruct G3 as (a3 & b3 & c3 & -> & _).
  destruct G4 as (a4 & -> & _). reflexivity.
Qed.

(** ** Decoding a text *)
Lemma decode_shape m N id : ~ id_shape id -> exists e, gnuid_decode_position m N id = Ret (inl e).
Proof.
  intros H. unfold gnuid_decode_position. destruct (b64_decode (id ++ lit "==")) as [key|] eqn:E; eauto.
  destruct (Nat.eqb_spec (length key) 10) as [L|]; eauto. exfalso. apply H. exact (proj1 (b64_id_inv _ E L)).
Qed.
Lemma decode_of_key m N key : length key = 10%nat -> Forall byte key ->
  gnuid_decode_position m N (firstn 14 (b64_encode key)) = (p <- decode_key m N key ;; Ret (inr p)).
Proof.
  intros L F. unfold gnuid_decode_position. rewrite (proj2 (proj2 (b64_10 L F))), L. reflexivity.
Qed.
Lemma gnuid_decode_tag m k id : gnuid_decode m k id = rmap_ok (tag k) (gnuid_decode_position m (checkers k) id).
Proof. destruct k; reflexivity. Qed.
Lemma gnuid_encode_tag m k p : gnuid_encode m (tag k p) = gnuid_encode_position m p.
Proof. destruct k; reflexivity. Qed.

(** Decoding what was encoded. *)
Lemma decoded_on p : length (pips p) = 26%nat -> pt p 0 <= 0 -> 0 <= pt p 25 -> decoded (o_on p) (x_on p) = pips p.
Proof.
  intros L O X. rewrite (pips_seq p L). unfold decoded. apply map_ext_in. intros i Hi. apply in_seq in Hi.
  unfold o_on, x_on. destruct (Nat.eqb_spec i 0), (Nat.eqb_spec i 25); subst; lia.
Qed.
