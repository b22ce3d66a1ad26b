(** Base64 as SpecGnuid.v describes it, and the modelled encoder. *)
From Coq Require Import Strings.String.
From Verif Require Import GnuidFacts BaseFacts.
Unset Implicit Arguments.
Open Scope Z_scope.

(** ** Keys are determined by their bits *)
Lemma byte_bits a b : byte a -> byte b -> (forall i, (i < 8)%nat -> Z.testbit a (Z.of_nat i) = Z.testbit b (Z.of_nat i)) -> a = b.
Proof.
  intros A B H. apply Z.bits_inj'. intros n Hn. destruct (Z.lt_ge_cases n 8) as [L|L].
  - rewrite <- (Z2Nat.id n) by lia. apply H. lia.
  - assert (X : forall c, byte c -> Z.testbit c n = false).
    { intros c (C1 & C2). destruct (Z.eq_dec c 0) as [->|N]; [apply Z.bits_0|]. apply Z.bits_above_log2; [lia|].
      apply Z.lt_le_trans with 8; auto. apply Z.log2_lt_pow2; [lia|]. change (2 ^ 8) with 256. lia. }
    rewrite !X; auto.
Qed.
Lemma nth_byte l i : Forall byte l -> byte (nth i l 0).
Proof.
  intros F. destruct (Nat.lt_ge_cases i (List.length l)) as [H|H].
  - rewrite Forall_forall in F. apply F, nth_In, H.
  - rewrite nth_overflow by lia. unfold byte. lia.
Qed.
Lemma key_ext k l : List.length k = 10%nat -> List.length l = 10%nat -> Forall byte k -> Forall byte l ->
  (forall j, (j < 80)%nat -> key_bit k j = key_bit l j) -> k = l.
Proof.
  intros K L FK FL H. apply nth_ext with 0 0; [lia|]. intros n Hn. apply byte_bits; try (apply nth_byte; auto).
  intros i Hi. specialize (H (8 * n + i)%nat ltac:(lia)). unfold key_bit in H.
  assert (((8 * n + i) / 8 = n)%nat /\ ((8 * n + i) mod 8 = i)%nat) as (E1 & E2).
  { split; [symmetry; eapply Nat.div_unique; eauto; lia|symmetry; eapply Nat.mod_unique; eauto; lia]. }
  rewrite E1, E2 in H. exact H.
Qed.

(** ** The modelled encoder *)
Lemma alphabet v : (v < 64)%nat -> nth v base64_alphabet 0 = b64_char (Z.of_nat v).
Proof.
  intros H. do 64 (destruct v as [|v]; [reflexivity|]). lia.
Qed.
Lemma alphabet_inj v w : (v < 64)%nat -> (w < 64)%nat -> nth v base64_alphabet 0 = nth w base64_alphabet 0 -> v = w.
Proof.
  intros V W E. rewrite !alphabet in E by auto. apply (f_equal b64_value) in E. rewrite !b64_value_char in E by lia.
  injection E as E. lia.
Qed.

Definition six (v : Z) : list bool := map (fun j => Z.testbit v (5 - Z.of_nat j)) (seq 0 6).
Definition eight (v : Z) : list bool := map (fun j => Z.testbit v (7 - Z.of_nat j)) (seq 0 8).
Definition bytes : list Z := map Z.of_nat (seq 0 256).
Lemma in_bytes a : byte a -> In a bytes.
Proof. intros (A & B). unfold bytes. rewrite <- (Z2Nat.id a) by lia. apply in_map, in_seq. lia. Qed.
Definition beq (a b : list bool) : bool := if list_eq_dec Bool.bool_dec a b then true else false.
Lemma beq_eq a b : beq a b = true -> a = b.
Proof. unfold beq. destruct (list_eq_dec Bool.bool_dec a b); auto; discriminate. Qed.

Lemma six_0 a : byte a -> six (a / 4) = firstn 6 (eight a).
Proof.
  intros A. apply in_bytes in A. assert (H : forallb (fun a => beq (six (a / 4)) (firstn 6 (eight a))) bytes = true) by (vm_compute; reflexivity).
  rewrite forallb_forall in H. apply beq_eq, H, A.
Qed.
Lemma six_3 a : byte a -> six (a mod 64) = skipn 2 (eight a).
Proof.
  intros A. apply in_bytes in A. assert (H : forallb (fun a => beq (six (a mod 64)) (skipn 2 (eight a))) bytes = true) by (vm_compute; reflexivity).
  rewrite forallb_forall in H. apply beq_eq, H, A.
Qed.
(** The two middle characters: the low bits of one byte before the high bits of the next. *)
Lemma bit_join u q w n : 0 <= n -> 0 <= q -> 0 <= w < 2 ^ q -> 0 <= u ->
  Z.testbit (u * 2 ^ q + w) n = if n <? q then Z.testbit w n else Z.testbit u (n - q).
Proof.
  intros Hn Hq Hw Hu. destruct (Z.ltb_spec n q) as [L|L].
  - rewrite <- (Z.mod_pow2_bits_low (u * 2 ^ q + w) q n) by lia. rewrite Z.add_comm, Z.mod_add by lia.
    rewrite Z.mod_small by lia. reflexivity.
  - replace n with ((n - q) + q) at 1 by lia. rewrite <- Z.div_pow2_bits by lia. rewrite Z.add_comm, Z.div_add by lia.
    rewrite Z.div_small by lia. reflexivity.
Qed.
Lemma six_1 a b : byte a -> byte b -> six (a mod 4 * 16 + b / 16) = skipn 6 (eight a) ++ firstn 4 (eight b).
Proof.
  intros A B. b64_bounds. assert (J : forall n, 0 <= n < 6 -> Z.testbit (a mod 4 * 16 + b / 16) n =
    if n <? 4 then Z.testbit b (n + 4) else Z.testbit a (n - 4)).
  { intros n Hn. change 16 with (2 ^ 4). rewrite (bit_join (a mod 4) 4 (b / 2 ^ 4) n) by (change (2 ^ 4) with 16; lia).
    destruct (Z.ltb_spec n 4); [rewrite Z.div_pow2_bits by lia; reflexivity|].
    change (a mod 4) with (a mod 2 ^ 2). rewrite Z.mod_pow2_bits_low by lia. reflexivity. }
  unfold six, eight. cbn [seq map skipn firstn app]. rewrite !J by lia. reflexivity.
Qed.
Lemma six_2 b c : byte b -> byte c -> six (b mod 16 * 4 + c / 64) = skipn 4 (eight b) ++ firstn 2 (eight c).
Proof.
  intros A B. b64_bounds. assert (J : forall n, 0 <= n < 6 -> Z.testbit (b mod 16 * 4 + c / 64) n =
    if n <? 2 then Z.testbit c (n + 6) else Z.testbit b (n - 2)).
  { intros n Hn. change 4 with (2 ^ 2). rewrite (bit_join (b mod 16) 2 (c / 64) n) by (change (2 ^ 2) with 4; lia).
    destruct (Z.ltb_spec n 2); [change 64 with (2 ^ 6); rewrite Z.div_pow2_bits by lia; reflexivity|].
    change (b mod 16) with (b mod 2 ^ 4). rewrite Z.mod_pow2_bits_low by lia. reflexivity. }
  unfold six, eight. cbn [seq map skipn firstn app]. rewrite !J by lia. reflexivity.
Qed.
Lemma six_last a : byte a -> six (a mod 4 * 16) = skipn 6 (eight a) ++ [false; false; false; false].
Proof. intros A. replace (a mod 4 * 16) with (a mod 4 * 16 + 0 / 16) by (rewrite Z.div_0_l; lia). apply six_1; auto. unfold byte. lia. Qed.

(** A character and its six bits. *)
Definition stands (c : Z) (bs : list bool) : Prop := exists v, 0 <= v < 64 /\ c = b64_char v /\ six v = bs.
Lemma stands_char v : 0 <= v < 64 -> stands (b64_char v) (six v).
Proof. intros H. exists v. auto. Qed.
Lemma six_inj v w : 0 <= v < 64 -> 0 <= w < 64 -> six v = six w -> v = w.
Proof.
  intros V W E. apply byte_bits; try (unfold byte; lia). intros i Hi.
  assert (X : forall u, 0 <= u < 64 -> (6 <= i)%nat -> Z.testbit u (Z.of_nat i) = false).
  { intros u U I. destruct (Z.eq_dec u 0) as [->|N]; [apply Z.bits_0|]. apply Z.bits_above_log2; [lia|].
    apply Z.lt_le_trans with 6; [|lia]. apply Z.log2_lt_pow2; [lia|]. change (2 ^ 6) with 64. lia. }
  destruct (Nat.lt_ge_cases i 6) as [L|L]; [|rewrite !X; auto].
  unfold six in E. cbn [seq map] in E. injection E as E0 E1 E2 E3 E4 E5.
  do 6 (destruct i as [|i]; [assumption|]). lia.
Qed.
Lemma stands_bits c bs : stands c bs <-> exists v, (v < 64)%nat /\ c = nth v base64_alphabet 0 /\ six (Z.of_nat v) = bs.
Proof.
  split.
  - intros (v & V & -> & <-). exists (Z.to_nat v). rewrite alphabet, Z2Nat.id by lia. repeat split; auto. lia.
  - intros (v & V & -> & <-). exists (Z.of_nat v). rewrite alphabet by auto. repeat split; auto; lia.
Qed.
Lemma stands_fun c c' bs : stands c bs -> stands c' bs -> c = c'.
Proof. intros (v & V & -> & E) (w & W & -> & F). f_equal. apply six_inj; auto. congruence. Qed.

Definition bits6 (key : list Z) (i : nat) : list bool := map (fun j => stream_bit key (6 * i + j)) (seq 0 6).
Lemma six_pointwise v key i : six v = bits6 key i <-> forall j, (j < 6)%nat -> Z.testbit v (5 - Z.of_nat j) = stream_bit key (6 * i + j).
Proof.
  unfold six, bits6. split.
  - intros E j Hj. cbn [seq map] in E. injection E as E0 E1 E2 E3 E4 E5. do 6 (destruct j as [|j]; [assumption|]). lia.
  - intros H. apply map_ext_in. intros j Hj. apply in_seq in Hj. apply H. lia.
Qed.
Lemma in_base64_stands id key : in_base64 id key <-> List.length id = 14%nat /\ forall i, (i < 14)%nat -> stands (nth i id 0) (bits6 key i).
Proof.
  unfold in_base64. split; intros (L & H); split; auto; intros i Hi; specialize (H i Hi).
  - destruct H as (v & V & E & B). apply stands_bits. exists v. split; auto. split; auto. apply six_pointwise, B.
  - apply stands_bits in H. destruct H as (v & V & E & B). exists v. split; auto. split; auto. apply six_pointwise, B.
Qed.

(** The encoder writes base64, and nothing else is base64 of the key. *)
Lemma encode_in_base64 key : List.length key = 10%nat -> Forall byte key -> in_base64 (firstn 14 (b64_encode key)) key.
Proof.
  intros L F. apply in_base64_stands. destruct (b64_10 L F) as (L14 & _). split; auto.
  destruct (ten _ L) as (a & b & c & d & e & f & g & h & i & j & ->).
  repeat match goal with H : Forall byte (_ :: _) |- _ => inversion H; subst; clear H end.
  intros n Hn. cbn [b64_encode firstn app].
  do 14 (destruct n as [|n]; [cbn [nth];
    match goal with |- stands (b64_char ?v) ?bs => replace bs with (six v);
      [apply stands_char; b64_bounds; lia
      |first [rewrite six_0 by auto; reflexivity|rewrite six_3 by auto; reflexivity|rewrite six_1 by auto; reflexivity
             |rewrite six_2 by auto; reflexivity|rewrite six_last by auto; reflexivity]] end|]).
  lia.
Qed.
Lemma in_base64_fun id id' key : in_base64 id key -> in_base64 id' key -> id = id'.
Proof.
  rewrite !in_base64_stands. intros (L & H) (L' & H'). apply nth_ext with 0 0; [lia|]. intros n Hn.
  rewrite L in Hn. exact (stands_fun _ _ _ (H n Hn) (H' n Hn)).
Qed.
Lemma in_base64_iff id key : List.length key = 10%nat -> Forall byte key -> (in_base64 id key <-> id = firstn 14 (b64_encode key)).
Proof.
  intros L F. split.
  - intros H. exact (in_base64_fun _ _ _ H (encode_in_base64 _ L F)).
  - intros ->. apply encode_in_base64; auto.
Qed.
Lemma key_of_iff id key : key_of id key <-> List.length key = 10%nat /\ Forall is_byte key /\ id = firstn 14 (b64_encode key).
Proof.
  unfold key_of. split; intros (L & F & H); repeat (split; [assumption|]); [apply in_base64_iff in H|apply in_base64_iff]; auto.
Qed.
Lemma key_of_encode key : List.length key = 10%nat -> Forall is_byte key -> key_of (firstn 14 (b64_encode key)) key.
Proof. intros L F. apply key_of_iff. auto. Qed.
