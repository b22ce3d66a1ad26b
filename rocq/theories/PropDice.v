(** Properties C27 - C30 and C44: dice.  Read with SpecDice.v. *)
From Verif Require Import SpecDice BaseFacts.
From Coq Require Import Permutation.
Open Scope nat_scope.

Lemma valid_die_in d : valid_die d <-> In d (seq 1 6).
Proof. unfold valid_die. rewrite in_seq. lia. Qed.

Lemma dice_eqb_eq a b : dice_eqb a b = true <-> a = b.
Proof.
  destruct a, b; simpl; rewrite ?andb_true_iff, ?Nat.eqb_eq; split; intros H;
    try discriminate; try (destruct H; congruence); try (inversion H; auto); congruence.
Qed.

(** All valid rolls. *)
Definition all_rolls : list dice :=
  map Double (seq 1 6) ++
  map (fun t => Mixed (snd t) (fst t)) (filter (fun t => fst t <? snd t) throws).
Lemma all_rolls_spec d : valid_dice d <-> In d all_rolls.
Proof.
  split.
  - destruct d as [b s|a]; simpl valid_dice.
    + intros (B & S & L). unfold valid_die in *.
      assert (E : b = 1 \/ b = 2 \/ b = 3 \/ b = 4 \/ b = 5 \/ b = 6) by lia.
      assert (E' : s = 1 \/ s = 2 \/ s = 3 \/ s = 4 \/ s = 5 \/ s = 6) by lia.
      decompose [or] E; decompose [or] E'; subst; try lia; vm_compute; auto 30.
    + unfold valid_die. intros H.
      assert (E : a = 1 \/ a = 2 \/ a = 3 \/ a = 4 \/ a = 5 \/ a = 6) by lia.
      decompose [or] E; subst; vm_compute; auto 30.
  - intros H. vm_compute in H. decompose [or] H; subst; try contradiction; simpl; unfold valid_die; lia.
Qed.

Lemma dice_new_mixed m a b : valid_die a -> valid_die b -> a <> b ->
  dice_new m a b = Ret (Mixed (Nat.max a b) (Nat.min a b)).
Proof.
  unfold valid_die, dice_new. intros A B N.
  rewrite !debug_assert_ret by (apply Nat.ltb_lt; lia). rewrite !bind_ret.
  destruct (Nat.eqb_spec a b); [lia|]. unfold mixed_new.
  destruct (Nat.ltb_spec b a); repeat f_equal; lia.
Qed.
Lemma dice_new_double m a : valid_die a -> dice_new m a a = Ret (Double a).
Proof.
  unfold valid_die, dice_new. intros A.
  rewrite !debug_assert_ret by (apply Nat.ltb_lt; lia). rewrite !bind_ret.
  rewrite Nat.eqb_refl. reflexivity.
Qed.

(** ** C27 *)

(** [Dice::new] on values 1..6 in either build: never panics, the order of the dice does not
    matter, the roll shows the two values and is a valid roll. *)
Theorem C27_new : forall m a b, valid_die a -> valid_die b ->
  exists d, dice_new m a b = Ret d /\ dice_new m b a = Ret d /\ valid_dice d /\
            shows d a b = true /\ shows d b a = true /\
            (d = Double a <-> a = b) /\
            (a <> b -> d = Mixed (Nat.max a b) (Nat.min a b)).
Proof.
  intros m a b A B. destruct (Nat.eq_dec a b) as [->|N].
  - rewrite dice_new_double by auto. exists (Double b). simpl. rewrite !Nat.eqb_refl.
    do 5 (split; [auto|]). split; [split; auto|congruence].
  - rewrite (dice_new_mixed m A B N), (dice_new_mixed m B A) by auto.
    exists (Mixed (Nat.max a b) (Nat.min a b)).
    rewrite (Nat.max_comm b a), (Nat.min_comm b a). unfold valid_die in *.
    split; [auto|]. split; [auto|]. split; [simpl; unfold valid_die; lia|].
    assert (L : Nat.min a b <? Nat.max a b = true) by (apply Nat.ltb_lt; lia).
    split; [|split; [|split; [split; congruence|auto]]];
      unfold shows; rewrite L; simpl; apply orb_true_iff; rewrite !andb_true_iff, !Nat.eqb_eq; lia.
Qed.

(** On any other numbers: a debug build panics; a release build makes a roll of them all the same, still in
    either order. *)
Theorem C27_new_any : forall a b,
  (valid_die a /\ valid_die b \/ dice_new Debug a b = Panic AssertFail) /\
  (a = b -> dice_new Release a b = Ret (Double a)) /\
  (a <> b -> dice_new Release a b = Ret (Mixed (Nat.max a b) (Nat.min a b))).
Proof.
  intros a b. unfold valid_die, dice_new, debug_assert. split; [|split].
  - destruct (Nat.ltb_spec 0 a); destruct (Nat.ltb_spec a 7); destruct (Nat.ltb_spec 0 b); destruct (Nat.ltb_spec b 7);
      cbn [bind]; auto. left. lia.
  - intros ->. cbn [bind]. rewrite Nat.eqb_refl. reflexivity.
  - intros N. cbn [bind]. destruct (Nat.eqb_spec a b); [contradiction|]. unfold mixed_new.
    destruct (Nat.ltb_spec b a); [rewrite Nat.max_l, Nat.min_r by lia|rewrite Nat.max_r, Nat.min_l by lia]; reflexivity.
Qed.

(** The roll determines the two values up to order. *)
Theorem C27_shows_values : forall m a b a' b' d,
  valid_die a -> valid_die b -> valid_die a' -> valid_die b' ->
  dice_new m a b = Ret d -> dice_new m a' b' = Ret d ->
  (a = a' /\ b = b') \/ (a = b' /\ b = a').
Proof.
  intros m a b a' b' d A B A' B' E E'.
  destruct (Nat.eq_dec a b) as [->|N]; destruct (Nat.eq_dec a' b') as [->|N'].
  - rewrite dice_new_double in E, E' by auto. inversion E; inversion E'. left. split; congruence.
  - rewrite dice_new_double in E by auto. rewrite dice_new_mixed in E' by auto. congruence.
  - rewrite dice_new_double in E' by auto. rewrite dice_new_mixed in E by auto. congruence.
  - rewrite dice_new_mixed in E, E' by auto. inversion E; subst. inversion E'. lia.
Qed.

(** [Dice::try_from] accepts exactly the pairs of values 1..6, for all pairs, never panicking. *)
Theorem C27_try_from : forall m a b,
  exists r, dice_try_from m a b = Ret r /\
  ((exists d, r = Some d) <-> valid_die a /\ valid_die b) /\
  forall d, r = Some d -> dice_new m a b = Ret d.
Proof.
  intros m a b. unfold dice_try_from.
  destruct ((a <? 1) || (6 <? a) || (b <? 1) || (6 <? b)) eqn:E.
  - exists None. split; auto. split; [split|]; [intros (d & H); discriminate| |discriminate].
    unfold valid_die. intros (A & B). exfalso. revert E.
    repeat match goal with |- context [?x <? ?y] => destruct (Nat.ltb_spec x y); try lia end.
  - assert (AB : valid_die a /\ valid_die b).
    { unfold valid_die. revert E.
      repeat match goal with |- context [?x <? ?y] => destruct (Nat.ltb_spec x y); simpl; try discriminate end.
      lia. }
    destruct AB as (A & B). destruct (C27_new m A B) as (d & E1 & _).
    rewrite E1, bind_ret. eexists; split; [reflexivity|]. split; [split; eauto|].
    intros d' H. inversion H; subst; auto.
Qed.
Example C27_case :
  dice_new Debug 3 5 = Ret (Mixed 5 3) /\ dice_new Debug 5 3 = Ret (Mixed 5 3) /\
  dice_new Debug 6 6 = Ret (Double 6) /\ dice_try_from Debug 4 0 = Ret None /\
  dice_try_from Debug 7 1 = Ret None /\ dice_try_from Debug 2 6 = Ret (Some (Mixed 6 2)) /\
  dice_new Debug 0 7 = Panic AssertFail.
Proof. repeat split. Qed.

(** ** C28 *)

Definition ALL_21 : list (dice * nat) :=
  Eval vm_compute in match all_21 Debug with Ret l => l | Panic _ => [] end.
Definition ALL_441 : list (dice * dice * nat) :=
  flat_map (fun a => map (fun b => (fst a, fst b, snd a * snd b)) ALL_21) ALL_21.
Definition ALL_SINGLES : list dice :=
  Eval vm_compute in match all_15_mixed Debug with Ret l => l | Panic _ => [] end.

Lemma all_21_ret m : all_21 m = Ret ALL_21.
Proof. destruct m; vm_compute; reflexivity. Qed.
Lemma all_15_ret m : all_15_mixed m = Ret ALL_SINGLES.
Proof. destruct m; vm_compute; reflexivity. Qed.
Lemma index_self {A} (l : list A) : flat_map (fun i => match nth_error l i with Some a => [a] | None => [] end)
                                      (seq 0 (length l)) = l.
Proof.
  induction l as [|a l IH]; simpl; auto. f_equal. rewrite <- seq_shift, flat_map_concat_map, map_map.
  rewrite <- flat_map_concat_map. apply IH.
Qed.
Lemma all_441_ret m : all_441 m = Ret ALL_441.
Proof. unfold all_441. rewrite all_21_ret. destruct m; vm_compute; reflexivity. Qed.

Lemma forall_rolls (P : dice -> Prop) : Forall P all_rolls -> forall d, valid_dice d -> P d.
Proof. intros F d V. rewrite Forall_forall in F. apply F, all_rolls_spec, V. Qed.

Ltac rolls t :=
  let l := eval vm_compute in all_rolls in change all_rolls with l;
  repeat (apply Forall_cons; [t|]); apply Forall_nil.

Fixpoint nodupb (l : list dice) : bool :=
  match l with [] => true | a :: l' => negb (existsb (dice_eqb a) l') && nodupb l' end.
Lemma nodupb_ok l : nodupb l = true -> NoDup l.
Proof.
  induction l as [|a l IH]; simpl; intros H; constructor; apply andb_true_iff in H; destruct H as [H1 H2]; auto.
  intros I. apply negb_true_iff in H1. rewrite <- not_true_iff_false in H1. apply H1.
  apply existsb_exists. exists a. split; auto. apply dice_eqb_eq; auto.
Qed.

(** [ALL_21]: every roll exactly once, with the number of ordered throws that show it. *)
Theorem C28_all_21 : forall m, exists l, all_21 m = Ret l /\ NoDup (map fst l) /\
  forall d w, In (d, w) l <-> valid_dice d /\ w = multiplicity d.
Proof.
  intros m. exists ALL_21. split; [apply all_21_ret|]. split; [apply nodupb_ok; vm_compute; reflexivity|].
  intros d w. split.
  - intros H. assert (F : Forall (fun t => valid_dice (fst t) /\ snd t = multiplicity (fst t)) ALL_21).
    { unfold ALL_21. repeat (apply Forall_cons; [split; [simpl; unfold valid_die; lia|vm_compute; reflexivity]|]).
      apply Forall_nil. }
    rewrite Forall_forall in F. apply (F _ H).
  - intros (V & ->). revert d V. apply forall_rolls.
    rolls ltac:(vm_compute; auto 40).
Qed.

(** Doubles have weight 1, mixed rolls weight 2; 36 altogether. *)
Theorem C28_weights : forall m, exists l, all_21 m = Ret l /\ length l = 21 /\
  list_sum (map snd l) = 36 /\
  forall d w, In (d, w) l -> w = if is_mixed d then 2 else 1.
Proof.
  intros m. exists ALL_21. split; [apply all_21_ret|]. repeat split; try reflexivity.
  intros d w H. assert (F : Forall (fun t => snd t = if is_mixed (fst t) then 2 else 1) ALL_21)
    by repeat constructor.
  rewrite Forall_forall in F. apply (F _ H).
Qed.

Lemma NoDup_flat_prod {A B} (f : A -> list B) (l : list A) :
  NoDup l -> (forall a, In a l -> NoDup (f a)) ->
  (forall a b x, In a l -> In b l -> In x (f a) -> In x (f b) -> a = b) ->
  NoDup (flat_map f l).
Proof.
  induction l as [|a l IH]; simpl; intros N F D; [constructor|]. inversion N; subst.
  assert (NA : forall (l1 l2 : list B), NoDup l1 -> NoDup l2 -> (forall x, In x l1 -> ~ In x l2) -> NoDup (l1 ++ l2)).
  { induction l1 as [|x l1 IH']; simpl; intros l2 N1 N2 H; auto. inversion N1; subst. constructor.
    - rewrite in_app_iff. intros [?|?]; [auto|]. eapply H; eauto.
    - apply IH'; auto. }
  apply NA; auto.
  - apply IH; auto. intros; eapply D; eauto.
  - intros x I J. apply in_flat_map in J. destruct J as (b & J1 & J2).
    assert (a = b) by (eapply D; eauto). congruence.
Qed.

(** [ALL_441] is the square of it: weights multiply and sum to 1296. *)
Theorem C28_all_441 : forall m, exists l, all_441 m = Ret l /\ length l = 441 /\
  NoDup (map fst l) /\ list_sum (map snd l) = 1296 /\
  forall d e w, In (d, e, w) l <-> valid_dice d /\ valid_dice e /\ w = multiplicity d * multiplicity e.
Proof.
  intros m. exists ALL_441. split; [apply all_441_ret|]. split; [vm_compute; reflexivity|].
  split; [|split; [vm_compute; reflexivity|]].
  - unfold ALL_441. rewrite flat_map_concat_map, concat_map, map_map, <- flat_map_concat_map.
    rewrite flat_map_concat_map. rewrite (map_ext _ (fun a => map (fun b => (fst a, fst b)) ALL_21)).
    2: { intros a. rewrite map_map. reflexivity. }
    rewrite <- flat_map_concat_map.
    assert (N21 : NoDup (map fst ALL_21)) by (apply nodupb_ok; vm_compute; reflexivity).
    assert (INJ : forall a b, In a ALL_21 -> In b ALL_21 -> fst a = fst b -> a = b).
    { revert N21. generalize ALL_21 as l. induction l as [|c l IH]; simpl; intros N a b; [tauto|].
      inversion N; subst. intros [->|Ia] [->|Ib] E; auto.
      - exfalso. apply H1. rewrite E. apply in_map; auto.
      - exfalso. apply H1. rewrite <- E. apply in_map; auto. }
    apply NoDup_flat_prod.
    + apply NoDup_map_inv in N21; auto.
    + intros a _. replace (map (fun b => (fst a, fst b)) ALL_21)
        with (map (fun d : dice => (fst a, d)) (map fst ALL_21)) by (rewrite map_map; reflexivity).
      apply FinFun.Injective_map_NoDup; auto. intros x y E; inversion E; auto.
    + intros a b x Ia Ib I J. apply in_map_iff in I, J. destruct I as (c & <- & _), J as (e & E & _).
      inversion E. apply INJ; auto.
  - intros d e w. destruct (C28_all_21 Debug) as (l & E & _ & H). rewrite all_21_ret in E. inversion E; subst l.
    unfold ALL_441. rewrite in_flat_map. split.
    + intros ([d' w'] & I & J). apply in_map_iff in J. destruct J as ([e' w''] & J & K).
      simpl in J. inversion J; subst. apply H in I, K. destruct I as (Vd & ->), K as (Ve & ->). auto.
    + intros (Vd & Ve & ->). exists (d, multiplicity d). split; [apply H; auto|].
      apply in_map_iff. exists (e, multiplicity e). split; auto. apply H; auto.
Qed.

(** [ALL_SINGLES]: exactly the mixed rolls, once each; [all_6_double]: exactly the doubles. *)
Theorem C28_singles : forall m, exists l, all_15_mixed m = Ret l /\ length l = 15 /\ NoDup l /\
  forall d, In d l <-> valid_dice d /\ is_mixed d = true.
Proof.
  intros m. exists ALL_SINGLES. split; [apply all_15_ret|]. split; auto.
  split; [apply nodupb_ok; vm_compute; reflexivity|]. intros d. split.
  - intros H. assert (F : Forall (fun t => valid_dice t /\ is_mixed t = true) ALL_SINGLES).
    { unfold ALL_SINGLES. repeat (apply Forall_cons; [split; [simpl; unfold valid_die; lia|reflexivity]|]).
      apply Forall_nil. }
    rewrite Forall_forall in F. apply (F _ H).
  - intros (V & M). revert d V M. apply (@forall_rolls (fun d => is_mixed d = true -> In d ALL_SINGLES)).
    rolls ltac:(intro; try discriminate; vm_compute; auto 40).
Qed.
Theorem C28_doubles : forall m, exists l, all_6_double m = Ret l /\ NoDup l /\
  forall d, In d l <-> valid_dice d /\ is_mixed d = false.
Proof.
  intros m. exists (map Double (seq 1 6)). split; [destruct m; vm_compute; reflexivity|].
  split; [apply nodupb_ok; vm_compute; reflexivity|]. intros d. rewrite in_map_iff. split.
  - intros (a & <- & I). split; auto. simpl. apply valid_die_in; auto.
  - destruct d as [|a]; simpl; intros (V & M); [discriminate|]. exists a. split; auto. apply valid_die_in; auto.
Qed.
Example C28_case : multiplicity (Double 4) = 1 /\ multiplicity (Mixed 6 2) = 2 /\
  valid_dice (Mixed 6 2) /\ ~ valid_dice (Mixed 2 6) /\
  match all_21 Debug with Ret l => nth_error l 10 = Some (Mixed 6 2, 2) | Panic _ => False end.
Proof. repeat split; try (cbv; lia); vm_compute; reflexivity. Qed.

(** ** C29 *)

Definition gives (r : res dice) (d : dice) : bool :=
  match r with Ret e => dice_eqb e d | Panic _ => false end.

(** Each of the generator's 36 equally likely outcomes is a valid roll, and each roll is given by
    exactly as many outcomes as there are ordered throws showing it. *)
Theorem C29_roll_uniform : forall m,
  (forall r, r < 36 -> exists d, fastrand_roll m r = Ret d /\ valid_dice d) /\
  forall d, valid_dice d ->
    length (filter (fun r => gives (fastrand_roll m r) d) (seq 0 36)) = multiplicity d.
Proof.
  intros m. split.
  - intros r R. unfold fastrand_roll.
    assert (Q : r / 6 < 6) by (apply Nat.div_lt_upper_bound; lia).
    pose proof (Nat.mod_upper_bound r 6 ltac:(lia)).
    assert (A : valid_die (r / 6 + 1)) by (unfold valid_die; lia).
    assert (B : valid_die (r mod 6 + 1)) by (unfold valid_die; lia).
    destruct (C27_new m A B) as (d & E & _ & V & _). eauto.
  - apply forall_rolls. destruct m; rolls ltac:(vm_compute; reflexivity).
Qed.

(** [roll_mixed]: each of the 30 outcomes is a valid mixed roll, every mixed roll has exactly 2. *)
Theorem C29_roll_mixed_uniform : forall m,
  (forall r, r < 30 -> exists d, fastrand_roll_mixed m r = Ret d /\ valid_dice d /\ is_mixed d = true) /\
  forall d, valid_dice d -> is_mixed d = true ->
    length (filter (fun r => gives (fastrand_roll_mixed m r) d) (seq 0 30)) = 2.
Proof.
  intros m. split.
  - intros r R. unfold fastrand_roll_mixed.
    assert (Q : r / 6 < 5) by (apply Nat.div_lt_upper_bound; lia).
    pose proof (Nat.mod_upper_bound r 6 ltac:(lia)).
    set (d2 := r mod 6 + 1) in *. set (d1 := r / 6 + 1) in *.
    assert (B : valid_die d2) by (unfold valid_die, d2; lia).
    assert (A : valid_die (if d2 <=? d1 then d1 + 1 else d1) /\ (if d2 <=? d1 then d1 + 1 else d1) <> d2).
    { unfold valid_die, d1 in *. destruct (Nat.leb_spec d2 (r / 6 + 1)); lia. }
    destruct A as (A & N). rewrite (dice_new_mixed m A B N).
    eexists; split; [reflexivity|]. split; auto. unfold valid_die in *. simpl; unfold valid_die; lia.
  - apply (@forall_rolls (fun d => is_mixed d = true -> length (filter (fun r => gives (fastrand_roll_mixed m r) d) (seq 0 30)) = 2)).
    destruct m; rolls ltac:(intros H; try discriminate H; vm_compute; reflexivity).
Qed.
Example C29_case : fastrand_roll Debug 16 = Ret (Mixed 5 3) /\ fastrand_roll Debug 26 = Ret (Mixed 5 3) /\
  fastrand_roll_mixed Debug 16 = Ret (Mixed 5 3) /\ fastrand_roll_mixed Debug 28 = Ret (Mixed 6 5).
Proof. repeat split. Qed.

(** ** C30 *)

Section Choose.
  Variable F : Type.
  Variables (add mul div : F -> F -> F) (gt : F -> F -> bool) (zero sum0 : F) (of_u32 : Z -> F).

  Lemma choose_loop_bound threshold chances : forall sum i j,
    choose_loop add gt threshold sum i chances = Some j -> i <= j < i + length chances.
  Proof.
    induction chances as [|v r IH]; simpl; intros sum i j H; [discriminate|].
    destruct (gt (add sum v) threshold); [inversion H; lia|]. apply IH in H. lia.
  Qed.

  (** Whatever floating point does (any carrier, operations and comparison, so NaN and
      infinities included): a non-empty slice gives an index inside it. *)
  Theorem C30_choose_index : forall m r chances, chances <> [] ->
    (Z.of_nat (length chances) < 2 ^ 64)%Z ->
    exists i, choose_index m add mul div gt zero sum0 of_u32 r chances = Ret i /\
              (0 <= i < Z.of_nat (length chances))%Z.
  Proof.
    intros m r chances N L. unfold choose_index.
    destruct (choose_loop add gt _ zero 0 chances) as [j|] eqn:E.
    - apply choose_loop_bound in E. eexists; split; [reflexivity|]. lia.
    - destruct chances as [|c chances]; [congruence|].
      eexists; split; [apply u64_ret; simpl length in *; lia|]. simpl length in *. lia.
  Qed.

  (** It is the first index whose running sum exceeds the threshold, the last index if none does. *)
  Fixpoint running (s : F) (l : list F) : list F :=
    match l with [] => [] | v :: r => add s v :: running (add s v) r end.
  Lemma choose_loop_first threshold chances : forall sum i,
    choose_loop add gt threshold sum i chances =
    option_map (fun j => i + j) (position_of (fun s => gt s threshold) (running sum chances)).
  Proof.
    induction chances as [|v r IH]; simpl; intros sum i; auto.
    destruct (gt (add sum v) threshold); simpl; [f_equal; lia|].
    rewrite IH. destruct (position_of _ _); simpl; auto.
  Qed.
  Theorem C30_choose_first : forall m r chances i d,
    choose_index m add mul div gt zero sum0 of_u32 r chances = Ret i -> chances <> [] ->
    (Z.of_nat (length chances) < 2 ^ 64)%Z ->
    let threshold := mul (div (fold_left add chances sum0) (of_u32 1000000%Z)) (of_u32 r) in
    let s j := nth j (running zero chances) d in
    (forall j, (Z.of_nat j < i)%Z -> gt (s j) threshold = false) /\
    (gt (s (Z.to_nat i)) threshold = true \/
     i = (Z.of_nat (length chances) - 1)%Z /\ gt (s (Z.to_nat i)) threshold = false).
  Proof.
    intros m r chances i d H N L. cbv zeta. unfold choose_index in H. rewrite choose_loop_first in H.
    assert (LR : forall s l, length (running s l) = length l).
    { intros s l; revert s; induction l; simpl; intros; auto. }
    destruct (position_of _ (running zero chances)) as [j|] eqn:E.
    - simpl in H. inversion H; subst. apply position_Some with (d := d) in E. destruct E as (E1 & E2 & E3).
      split; [intros j' Hj; apply E3; lia|]. left. rewrite Nat2Z.id. auto.
    - simpl in H. destruct chances as [|c chances]; [congruence|].
      rewrite u64_ret in H by (simpl length in *; lia). inversion H; subst.
      pose proof (position_None _ _ d E) as E'. rewrite LR in E'.
      split; [intros j Hj; apply E'; simpl length in *; lia|].
      right. split; auto. apply E'. simpl length in *. lia.
  Qed.

  (** An empty slice: panic in a debug build, usize::MAX in a release build. *)
  Theorem C30_empty : forall r,
    choose_index Debug add mul div gt zero sum0 of_u32 r [] = Panic Overflow /\
    choose_index Release add mul div gt zero sum0 of_u32 r [] = Ret (2 ^ 64 - 1)%Z.
  Proof. intros. split; vm_compute; reflexivity. Qed.
End Choose.
(** A case over integers: the running sums are 1, 3 and 6 million, the threshold 3 million.
    (For 32-bit floats see C71.) *)
Definition z_choose (r : Z) : res Z :=
  choose_index Debug Z.add Z.mul Z.div Z.gtb 0%Z 0%Z (fun z => z) r [1000000%Z; 2000000%Z; 3000000%Z].
Example C30_case : z_choose 500000%Z = Ret 2%Z /\ z_choose 499999%Z = Ret 1%Z.
Proof. split; reflexivity. Qed.

(** ** C44 *)

(** Calls on the mock generator. *)
Definition mock_call1 {F} (fuel : nat) (c : mock_call F) (g : mock) : res (option (mock_answer * mock)) :=
  match c with
  | CRoll => '(d, g) <- mock_roll g ;; Ret (Some (ADice d, g))
  | CMixed => r <- roll_mixed_loop mock_roll fuel g ;;
              Ret (match r with None => None | Some (d, g) => Some (ADice d, g) end)
  | CIndex chances => Ret (Some (AIndex (mock_choose_index g chances), g))
  end.
Fixpoint mock_calls {F} (fuel : nat) (calls : list (mock_call F)) (g : mock) : res (option (list mock_answer * mock)) :=
  match calls with
  | [] => Ret (Some ([], g))
  | c :: calls' =>
      r <- mock_call1 fuel c g ;;
      match r with
      | None => Ret None
      | Some (a, g') => r <- mock_calls fuel calls' g' ;;
                        match r with
                        | None => Ret None
                        | Some (outs, g'') => Ret (Some (a :: outs, g''))
                        end
      end
  end.

Lemma mock_roll_spec l k :
  mock_roll {| mock_dice := l; no_calls := k |} =
  match skipn k l with
  | [] => Panic IndexOOB
  | d :: _ => Ret (d, {| mock_dice := l; no_calls := S k |})
  end.
Proof.
  unfold mock_roll, index. simpl. revert k. induction l as [|a l IH]; intros [|k]; simpl; auto.
  specialize (IH k). destruct (nth_error l k), (skipn k l); simpl in *; auto; discriminate || congruence.
Qed.
Lemma skipn_S {A} (l : list A) k d r : skipn k l = d :: r -> skipn (S k) l = r.
Proof.
  revert k; induction l as [|a l IH]; intros [|k] H; simpl in *; try discriminate.
  - inversion H; auto.
  - apply IH in H. destruct l; auto.
Qed.
Lemma skipn_len {A} (l : list A) k : k + length (skipn k l) <= length l \/ skipn k l = [].
Proof. rewrite skipn_length. destruct (le_lt_dec k (length l)); [left; lia|right; apply skipn_all2; lia]. Qed.

Lemma skipn_plus {A} (l : list A) : forall a b, skipn a (skipn b l) = skipn (b + a) l.
Proof.
  intros a b. revert l. induction b as [|b IH]; intros l; simpl; auto.
  destruct l; simpl; auto. destruct a; auto.
Qed.
Lemma roll_mixed_spec l : forall fuel k, length l < fuel + k -> 
  roll_mixed_loop mock_roll fuel {| mock_dice := l; no_calls := k |} =
  match next_mixed (skipn k l) with
  | None => match fuel with 0 => Ret None | _ => Panic IndexOOB end
  | Some (d, rest) => match fuel with 0 => Ret None | _ => Ret (Some (d, {| mock_dice := l; no_calls := length l - length rest |})) end
  end.
Proof.
  induction fuel as [|fuel IH]; intros k L.
  { rewrite skipn_all2 by lia. reflexivity. }
  cbn [roll_mixed_loop]. rewrite mock_roll_spec. destruct (skipn k l) as [|d r] eqn:E; simpl; auto.
  assert (K : k < length l).
  { destruct (le_lt_dec (length l) k); auto. rewrite skipn_all2 in E by lia. discriminate. }
  pose proof (skipn_S _ _ E) as E'. pose proof (f_equal (@length _) E) as EL.
  rewrite skipn_length in EL. simpl in EL.
  destruct d as [b s|a]; simpl.
  - repeat f_equal. lia.
  - rewrite IH by lia. rewrite E'. destruct (next_mixed r) as [[d' rest]|] eqn:NM; auto.
    + destruct fuel; auto. assert (k + 1 = length l) by lia.
      assert (length r = 0) by lia. destruct r; simpl in *; [discriminate|lia].
    + destruct fuel; auto. lia.
Qed.

Lemma next_mixed_len l d r : next_mixed l = Some (d, r) -> length r < length l.
Proof.
  induction l as [|a l IH]; simpl; intros H; [discriminate|].
  destruct (is_mixed a); [inversion H; lia|]. apply IH in H. lia.
Qed.
Lemma next_mixed_skipn l d r : next_mixed l = Some (d, r) -> r = skipn (length l - length r) l.
Proof.
  induction l as [|a l IH]; intros H; [discriminate|]. simpl in H.
  destruct (is_mixed a); [inversion H; subst; simpl length|].
  - replace (S (length r) - length r) with 1 by lia. reflexivity.
  - pose proof (next_mixed_len _ H). simpl length.
    replace (S (length l) - length r) with (S (length l - length r)) by lia. simpl. auto.
Qed.

Lemma mock_calls_spec F l fuel (calls : list (mock_call F)) : forall k, k <= length l -> length l < fuel ->
  match serve calls (skipn k l) with
  | None => mock_calls fuel calls {| mock_dice := l; no_calls := k |} = Panic IndexOOB
  | Some (outs, rest) =>
      length rest <= length l /\
      mock_calls fuel calls {| mock_dice := l; no_calls := k |} =
      Ret (Some (outs, {| mock_dice := l; no_calls := length l - length rest |}))
  end.
Proof.
  induction calls as [|c calls IH]; intros k K H; simpl.
  { rewrite skipn_length. split; [lia|]. repeat f_equal. lia. }
  destruct c as [| |chances]; cbn [mock_call1 serve1].
  2: { rewrite (roll_mixed_spec l) by lia. destruct fuel as [|fuel]; [lia|].
    destruct (next_mixed (skipn k l)) as [[d r]|] eqn:E; simpl; auto.
    pose proof (next_mixed_len _ E) as L. rewrite skipn_length in L.
    assert (R : r = skipn (length l - length r) l).
    { pose proof (next_mixed_skipn _ E) as R. rewrite R at 1.
      rewrite skipn_length, skipn_plus. f_equal. lia. }
    specialize (IH (length l - length r) ltac:(lia) H). rewrite <- R in IH.
    destruct (serve calls r) as [[outs rest]|]; [destruct IH as (I1 & IH); split; auto|];
      rewrite IH; reflexivity. }
  2: { specialize (IH k K H). cbn [bind]. destruct (serve calls (skipn k l)) as [[outs rest]|]; [destruct IH as (I1 & IH); split; auto|];
      rewrite IH; reflexivity. }
  - rewrite mock_roll_spec. destruct (skipn k l) as [|d r] eqn:E; simpl; auto.
    assert (K' : k < length l).
    { destruct (le_lt_dec (length l) k); auto. rewrite skipn_all2 in E by lia. discriminate. }
    specialize (IH (S k) K' H). rewrite (skipn_S _ _ E) in IH.
    destruct (serve calls r) as [[outs rest]|]; [destruct IH as (I1 & IH); split; auto|];
      rewrite IH; reflexivity.
Qed.

(** Any sequence of calls on a fresh mock gives the dice of the list in order (a mixed roll
    skipping doubles, a choice always the first outcome and costing no dice); it panics exactly when the list runs out; the final assertion passes
    exactly when nothing is left.  (The mixed-roll loop needs at most one round per die of the
    list, so with fuel above the list's length the outcome is the loop's outcome.) *)
Theorem C44_mock : forall F l (calls : list (mock_call F)) fuel, length l < fuel ->
  match serve calls l with
  | None => mock_calls fuel calls (mock_new l) = Panic IndexOOB
  | Some (outs, rest) =>
      exists g, mock_calls fuel calls (mock_new l) = Ret (Some (outs, g)) /\
                (mock_assert_all_used g = Ret tt <-> rest = [])
  end.
Proof.
  intros T l calls fuel F. pose proof (mock_calls_spec l calls (k := 0) ltac:(lia) F) as H. simpl skipn in H.
  unfold mock_new. destruct (serve calls l) as [[outs rest]|]; auto. destruct H as (L & ->).
  eexists; split; [reflexivity|]. unfold mock_assert_all_used. simpl.
  destruct rest as [|d rest]; simpl length in *.
  - rewrite Nat.sub_0_r, Nat.eqb_refl. split; auto.
  - destruct (Nat.eqb_spec (length l) (length l - S (length rest))); [lia|]. split; discriminate.
Qed.

(** Plain rolls only: exactly the dice given, in order, and a panic on one call too many. *)
Theorem C44_mock_rolls : forall F l n fuel, length l < fuel ->
  mock_calls fuel (repeat (@CRoll F) (length l)) (mock_new l) =
    Ret (Some (map ADice l, {| mock_dice := l; no_calls := length l |})) /\
  (length l < n -> mock_calls fuel (repeat (@CRoll F) n) (mock_new l) = Panic IndexOOB).
Proof.
  intros T l n fuel F. split.
  - pose proof (mock_calls_spec l (repeat (@CRoll T) (length l)) (k := 0) ltac:(lia) F) as H. simpl skipn in H.
    assert (S : forall l', serve (repeat (@CRoll T) (length l')) l' = Some (map ADice l', [])).
    { induction l' as [|d l' IH]; simpl; auto. rewrite IH. reflexivity. }
    rewrite S in H. destruct H as (_ & H). unfold mock_new. rewrite H. simpl. rewrite Nat.sub_0_r. reflexivity.
  - intros L. pose proof (mock_calls_spec l (repeat (@CRoll T) n) (k := 0) ltac:(lia) F) as H. simpl skipn in H.
    assert (S : forall l' k, length l' < k -> serve (repeat (@CRoll T) k) l' = None).
    { induction l' as [|d l' IH]; intros [|k] K; simpl in *; try lia; auto. rewrite IH by lia. reflexivity. }
    rewrite S in H by auto. exact H.
Qed.

Example C44_example :
  serve [CMixed; CIndex [1; 2; 3]; CRoll] [Double 3; Mixed 4 2; Double 1; Mixed 6 5]
  = Some ([ADice (Mixed 4 2); AIndex 0; ADice (Double 1)], [Mixed 6 5]).
Proof. reflexivity. Qed.

Print Assumptions C27_new.
Print Assumptions C28_all_441.
Print Assumptions C30_choose_index.
Print Assumptions C44_mock.
