(** Facts about the searching half of move_text.rs: the step sequences both searches go through
    ("leaves"), and what [apply_steps] accepts. *)
From Verif Require Import PipFacts VariantFacts EqFacts DoubleProof MixedProof FibsFacts SpecMoveText MoveTextFacts.
Open Scope Z_scope.

Lemma in_froms a : In a froms <-> (1 <= a <= 25)%nat.
Proof. unfold froms, range. rewrite in_seq. lia. Qed.

Lemma try_ret m N p d a : wf N p -> valid_die d -> (a <= 25)%nat ->
  try_move_single_checker m p a d = Ret (if legalb p d a then Some (mv p d a) else None).
Proof.
  intros W V A. unfold try_move_single_checker.
  rewrite can_move_ret by (try apply W; unfold valid_die in V; lia). rewrite bind_ret.
  destruct (legalb_reflect W A V) as [M|M]; [|reflexivity].
  unfold clone_and_move_single_checker. rewrite (move_single_checker_ret m W V (may_move_pre M)). reflexivity.
Qed.
Lemma legalb_may N p d a : wf N p -> valid_die d -> (a <= 25)%nat -> legalb p d a = true <-> may_move p d a.
Proof. intros W V A. destruct (legalb_reflect W A V); split; auto; discriminate. Qed.

Definition anyb (p : position) (d : nat) : bool := existsb (legalb p d) froms.
Lemma anyb_true N p d : wf N p -> valid_die d -> anyb p d = true <-> exists a, may_move p d a.
Proof.
  intros W V. unfold anyb. rewrite existsb_exists. split.
  - intros (a & I & L). apply in_froms in I. exists a. eapply legalb_may; eauto; lia.
  - intros (a & M). exists a. pose proof (may_move_range M). split; [apply in_froms; auto|]. eapply legalb_may; eauto. lia.
Qed.
Lemma anyb_false N p d : wf N p -> valid_die d -> anyb p d = false <-> forall a, ~ may_move p d a.
Proof.
  intros W V. rewrite <- not_true_iff_false. rewrite (anyb_true W V). split.
  - intros H a M. apply H. eauto.
  - intros H (a & M). exact (H a M).
Qed.
Lemma any_from_ret m N p d l : wf N p -> valid_die d -> Forall (fun a => (a <= 25)%nat) l ->
  any_from m p d l = Ret (existsb (legalb p d) l).
Proof.
  intros W V. induction 1 as [|a l A F IH]; simpl; auto.
  rewrite (try_ret m W V A), bind_ret. destruct (legalb p d a); auto.
Qed.
Lemma froms_le : Forall (fun a => (a <= 25)%nat) froms.
Proof. apply Forall_forall. intros a I. apply in_froms in I. lia. Qed.
Lemma any_move_ret m N p d : wf N p -> valid_die d -> any_move_for_die m p d = Ret (anyb p d).
Proof. intros W V. apply (any_from_ret m W V froms_le). Qed.

(** ** Leaves of the search trees *)

(** Play the dice in the given order; a die is passed over only if no checker can move with it. *)
Inductive leaf : list nat -> position -> list move_step -> position -> Prop :=
| leaf_nil p : leaf [] p [] p
| leaf_move d ds p a st q : may_move p d a -> leaf ds (mv p d a) st q ->
    leaf (d :: ds) p (step a (a - d) :: st) q
| leaf_skip d ds p st q : (forall a, ~ may_move p d a) -> leaf ds p st q -> leaf (d :: ds) p st q.

Lemma leaf_wf N ds : forall p st q, wf N p -> Forall valid_die ds -> leaf ds p st q -> wf N q.
Proof.
  induction ds as [|d ds IH]; intros p st q W V L; inversion L; subst; auto; inversion V; subst.
  - eapply IH; [eapply may_wf; eauto|eauto|eauto].
  - eapply IH; eauto.
Qed.
Lemma leaf_turn ds : forall p st q, leaf ds p st q -> turn q = turn p.
Proof.
  induction 1; auto. rewrite IHleaf. apply mv_turn.
Qed.
Lemma leaf_on_board ds : Forall valid_die ds -> forall p st q, leaf ds p st q -> Forall on_board st.
Proof.
  intros V p st q L. revert V. induction L; intros V; [constructor| |]; inversion V; subst; auto.
  constructor; auto. pose proof (may_move_range H) as R. split; cbn; [lia|]. unfold valid_die in *. lia.
Qed.

(** Which dice a leaf uses, and that the result is reached by playing them. *)
Inductive used : list nat -> list nat -> Prop :=
| used_nil : used [] []
| used_take d l k : used l k -> used (d :: l) (d :: k)
| used_skip d l k : used l k -> used (d :: l) k.
Lemma leaf_plays N ds : forall p st q, wf N p -> Forall valid_die ds -> leaf ds p st q ->
  exists k, used ds k /\ plays k p q /\ length k = length st.
Proof.
  induction ds as [|d ds IH]; intros p st q W V L.
  - inversion L; subst. exists []. repeat split; constructor.
  - inversion V as [|? ? Vd Vs]; subst. inversion L as [|? ? ? a st' ? M L'|? ? ? ? ? No L']; subst.
    + destruct (IH _ _ _ (may_wf W Vd M) Vs L') as (k & U & P & Len). exists (d :: k). split; [constructor; auto|].
      split; [|simpl; congruence]. apply (plays_cons_iff _ _ W Vd). eauto.
    + destruct (IH _ _ _ W Vs L') as (k & U & P & Len). exists k. split; [constructor; auto|auto].
Qed.
Lemma used_perm l k : used l k -> exists r, Permutation.Permutation (k ++ r) l.
Proof.
  induction 1 as [|d l k U (r & P)|d l k U (r & P)].
  - exists []. constructor.
  - exists r. simpl. constructor. exact P.
  - exists (d :: r). eapply Permutation.Permutation_trans; [|constructor; exact P].
    symmetry. apply Permutation.Permutation_middle.
Qed.

(** The search of [find_steps_for_target]. *)
Lemma first_step_ret {A} m N p d (k : nat -> position -> res (option A)) (g : nat -> option A) l :
  wf N p -> valid_die d -> Forall (fun a => (a <= 25)%nat) l ->
  (forall a, may_move p d a -> k a (mv p d a) = Ret (g a)) ->
  forall b, exists b' o, first_step (fun a => try_move_single_checker m p a d) k l b = Ret (b', o) /\
    match o with
    | Some x => exists a, In a l /\ may_move p d a /\ g a = Some x
    | None => b' = b || existsb (legalb p d) l /\ forall a, In a l -> may_move p d a -> g a = None
    end.
Proof.
  intros W V F K. induction F as [|a l Al F IH]; intros b; cbn [first_step].
  - exists b, None. split; auto. split; [destruct b; reflexivity|]. intros a [].
  - rewrite (try_ret m W V Al), bind_ret. cbn [existsb]. destruct (legalb p d a) eqn:L.
    + apply (legalb_may W V Al) in L. rewrite (K a L), bind_ret. destruct (g a) as [x|] eqn:G.
      * exists true, (Some x). split; auto. exists a. split; [left; auto|auto].
      * destruct (IH true) as (b' & o & E & H). exists b', o. split; auto. destruct o as [x|].
        -- destruct H as (a' & I & M & G'). exists a'. split; [right; auto|auto].
        -- destruct H as (-> & H). split; [destruct b; reflexivity|]. intros a' [<-|I] M; auto.
    + destruct (IH b) as (b' & o & E & H). exists b', o. split; auto. destruct o as [x|].
      * destruct H as (a' & I & M & G'). exists a'. split; [right; auto|auto].
      * destruct H as (-> & H). split; [reflexivity|]. intros a' [<-|I] M; auto.
        apply (legalb_may W V Al) in M. congruence.
Qed.

Lemma find_ret m N t order : forall p, wf N p -> Forall valid_die order ->
  exists o, find_steps_for_target m order p t = Ret o /\
    match o with
    | Some st => exists q, leaf order p st q /\ position_eqb q t = true
    | None => forall st q, leaf order p st q -> position_eqb q t = false
    end.
Proof.
  induction order as [|d order IH]; intros p W V; cbn [find_steps_for_target].
  - destruct (position_eqb p t) eqn:E.
    + exists (Some []). split; auto. exists p. split; [constructor|auto].
    + exists None. split; auto. intros st q L. inversion L; subst. auto.
  - inversion V as [|? ? Vd Vo]; subst.
    assert (G : forall a, may_move p d a -> exists o, find_steps_for_target m order (mv p d a) t = Ret o /\
      match o with
      | Some st => exists q, leaf order (mv p d a) st q /\ position_eqb q t = true
      | None => forall st q, leaf order (mv p d a) st q -> position_eqb q t = false
      end) by (intros a M; apply IH; [eapply may_wf; eauto|auto]).
    set (g := fun a => match find_steps_for_target m order (mv p d a) t with
                       | Ret o => option_map (cons (step a (a - d))) o | Panic _ => None end).
    destruct (@first_step_ret _ m N p d
      (fun from next => r <- find_steps_for_target m order next t ;; Ret (option_map (cons (step from (from - d))) r))
      g froms W Vd froms_le) with (b := false) as (b' & o & E & H).
    { intros a M. destruct (G a M) as (o & E & _). unfold g. rewrite E. reflexivity. }
    rewrite E, bind_ret. destruct o as [st|].
    + exists (Some st). split; auto. destruct H as (a & _ & M & Ga). destruct (G a M) as (o & E' & H').
      unfold g in Ga. rewrite E' in Ga. destruct o as [st'|]; [|discriminate]. inversion Ga; subst.
      destruct H' as (q & L & Q). exists q. split; auto. constructor; auto.
    + destruct H as (-> & H). cbn [orb]. fold (anyb p d). destruct (anyb p d) eqn:An.
      * exists None. split; auto. intros st q L. apply (anyb_true W Vd) in An. destruct An as (a0 & M0).
        inversion L as [|? ? ? a st' ? M L'|? ? ? ? ? No L']; subst; [|exfalso; exact (No _ M0)].
        assert (Ga : g a = None) by (apply H; auto; apply in_froms; eapply may_move_range; eauto).
        destruct (G a M) as (o & E' & H'). unfold g in Ga. rewrite E' in Ga. destruct o; [discriminate|]. eauto.
      * pose proof (proj1 (anyb_false W Vd) An) as No. destruct (IH p W Vo) as (o & E' & H'). exists o. split; auto.
        destruct o as [st|].
        -- destruct H' as (q & L & Q). exists q. split; auto. apply leaf_skip; auto.
        -- intros st q L. inversion L; subst; [exfalso; eapply No; eauto|]. eauto.
Qed.

(** ** [apply_steps] *)

Lemma bit_set_testbit mask i : bit_set mask i = Z.testbit mask (Z.of_nat i).
Proof.
  unfold bit_set. rewrite Z.shiftl_1_l. destruct (Z.testbit mask (Z.of_nat i)) eqn:E.
  - apply negb_true_iff. apply Z.eqb_neq. intros H.
    assert (Z.testbit (Z.land mask (2 ^ Z.of_nat i)) (Z.of_nat i) = true).
    { rewrite Z.land_spec, E, Z.pow2_bits_true by lia. reflexivity. }
    rewrite H, Z.bits_0 in H0. discriminate.
  - apply negb_false_iff. apply Z.eqb_eq. apply Z.bits_inj_0. intros n. rewrite Z.land_spec.
    destruct (Z.eq_dec n (Z.of_nat i)) as [->|Ne]; [rewrite E; reflexivity|].
    rewrite Z.pow2_bits_false by auto. apply andb_false_r.
Qed.
Lemma bit_set_bit mask i j : bit_set (set_bit mask i) j = bit_set mask j || (i =? j)%nat.
Proof.
  rewrite !bit_set_testbit. unfold set_bit. rewrite Z.lor_spec, Z.shiftl_1_l. f_equal.
  destruct (Nat.eqb_spec i j) as [->|N].
  - apply Z.pow2_bits_true. lia.
  - apply Z.pow2_bits_false. lia.
Qed.
Lemma bit_set_0 i : bit_set 0 i = false.
Proof. rewrite bit_set_testbit. apply Z.testbit_0_l. Qed.

(** The steps are played in order, the k-th with the die at the k-th index. *)
Inductive runs (buf : list nat) : list move_step -> list nat -> position -> position -> Prop :=
| runs_nil p : runs buf [] [] p p
| runs_cons i die s st is p q : nth_error buf i = Some die -> step_matches_die s die = true ->
    may_move p die (ms_from s) -> runs buf st is (mv p die (ms_from s)) q ->
    runs buf (s :: st) (i :: is) p q.

Lemma match_same p s d e : step_matches_die s d = true -> step_matches_die s e = true ->
  (0 < ms_from s)%nat -> mv p d (ms_from s) = mv p e (ms_from s).
Proof.
  unfold step_matches_die. intros A B F. destruct (Nat.eqb_spec (ms_to s) 0).
  - apply Nat.leb_le in A. apply Nat.leb_le in B. unfold mv.
    destruct (Nat.ltb_spec d (ms_from s)), (Nat.ltb_spec e (ms_from s)); try lia. reflexivity.
  - apply andb_true_iff in A. apply andb_true_iff in B. destruct A as (A & A'), B as (B & B').
    apply Nat.ltb_lt in A. apply Nat.ltb_lt in B. apply Nat.eqb_eq in A'. apply Nat.eqb_eq in B'.
    assert (d = e) as -> by lia. reflexivity.
Qed.
Lemma runs_fun buf st : forall is p q is' q', runs buf st is p q -> runs buf st is' p q' -> q = q'.
Proof.
  induction st as [|s st IH]; intros is p q is' q' A B.
  - inversion A; inversion B; subst; auto.
  - inversion A as [|i die ? ? is0 ? ? Ei Mi Mv R]; inversion B as [|i' die' ? ? is0' ? ? Ei' Mi' Mv' R']; subst.
    pose proof (may_move_range Mv) as Rg.
    assert (E : mv p die (ms_from s) = mv p die' (ms_from s)) by (apply match_same; auto; lia).
    rewrite <- E in R'. eapply IH; eauto.
Qed.

(** The indices are different, in range and not yet used. *)
Definition fresh (len : nat) (mask : Z) (is : list nat) : Prop :=
  NoDup is /\ Forall (fun i => (i < len)%nat /\ bit_set mask i = false) is.

Lemma fresh_cons len mask i is : fresh len mask (i :: is) <->
  (i < len)%nat /\ bit_set mask i = false /\ fresh len (set_bit mask i) is.
Proof.
  unfold fresh. split.
  - intros (N & F). inversion N as [|? ? Ni N']; inversion F as [|? ? (Li & Bi) F']; subst. split; auto. split; auto. split; auto.
    rewrite Forall_forall in *. intros j I. destruct (F' j I) as (Lj & Bj). split; auto. rewrite bit_set_bit, Bj.
    destruct (Nat.eqb_spec i j); auto. subst. contradiction.
  - intros (L & B & N & F). split.
    + constructor; auto. intros I. rewrite Forall_forall in F. destruct (F i I) as (_ & C).
      rewrite bit_set_bit, Nat.eqb_refl, orb_true_r in C. discriminate.
    + constructor; auto. eapply Forall_impl; [|exact F]. cbv beta. intros j (Lj & C). split; auto.
      rewrite bit_set_bit in C. apply orb_false_iff in C. tauto.
Qed.

Lemma try_dice_ret {A} (f : nat -> nat -> res (option A)) skip buf (h : nat -> nat -> option A) n : forall s,
  (forall i, In i (seq s n) -> exists die, nth_error buf i = Some die /\ (skip i = false -> f i die = Ret (h i die))) ->
  exists o, try_dice f skip buf (seq s n) = Ret o /\
  match o with
  | Some x => exists i die, In i (seq s n) /\ skip i = false /\ nth_error buf i = Some die /\ h i die = Some x /\
      forall j dj, In j (seq s n) -> (j < i)%nat -> skip j = false -> nth_error buf j = Some dj -> h j dj = None
  | None => forall i die, In i (seq s n) -> skip i = false -> nth_error buf i = Some die -> h i die = None
  end.
Proof.
  induction n as [|n IH]; intros s H; cbn [seq try_dice].
  - exists None. split; auto. intros i die [].
  - destruct (IH (S s)) as (o & E & O). { intros j I. apply H. right. auto. }
    destruct (H s (or_introl eq_refl)) as (die & Ei & F).
    destruct (skip s) eqn:Sk.
    + exists o. split; auto. destruct o.
      * destruct O as (j & dj & I & Sj & Ej & Hj & Min). exists j, dj. split; [right; auto|].
        split; [auto|]. split; [auto|]. split; [auto|]. intros k dk [<-|Ik] Lt Skk Ek; [congruence|]. eauto.
      * intros j dj [<-|I] Sj; [congruence|]. auto.
    + unfold index. rewrite Ei, bind_ret, (F eq_refl), bind_ret. destruct (h s die) as [x|] eqn:Hx.
      * exists (Some x). split; auto. exists s, die. split; [left; auto|]. split; [auto|]. split; [auto|]. split; [auto|].
        intros j dj [<-|Ij] Lt; [lia|]. apply in_seq in Ij. lia.
      * exists o. split; auto. destruct o.
        -- destruct O as (j & dj & I & Sj & Ej & Hj & Min). exists j, dj. split; [right; auto|].
           split; [auto|]. split; [auto|]. split; [auto|]. intros k dk [<-|Ik] Lt Skk Ek; [congruence|]. eauto.
        -- intros j dj [<-|I] Sj Ej; [congruence|]. eauto.
Qed.

(** The first index found is the smallest one possible. *)
Definition first_min (buf : list nat) (len : nat) (mask : Z) (st : list move_step) (p : position) (is : list nat) : Prop :=
  forall i is' q', fresh len mask (i :: is') -> runs buf st (i :: is') p q' -> (hd 0%nat is <= i)%nat.

Lemma apply_steps_ret m N buf len st : Forall on_board st ->
  (forall i, (i < len)%nat -> exists die, nth_error buf i = Some die /\ valid_die die) ->
  forall p mask, wf N p ->
  exists o, apply_steps m st p buf len mask = Ret o /\
  match o with
  | Some (q, mask') => exists is, fresh len mask is /\ runs buf st is p q /\ wf N q /\
      first_min buf len mask st p is /\
      forall i, bit_set mask' i = bit_set mask i || existsb (Nat.eqb i) is
  | None => forall is q, fresh len mask is -> runs buf st is p q -> False
  end.
Proof.
  intros OB B. induction OB as [|s st OBs OB IH]; intros p mask W; cbn [apply_steps].
  - exists (Some (p, mask)). split; auto. exists []. split; [split; constructor|]. split; [constructor|]. split; auto.
    split; [intros i is' q' _ _; simpl; lia|].
    intros i. simpl. rewrite orb_false_r. reflexivity.
  - set (h := fun idx die => if step_matches_die s die && legalb p die (ms_from s) then
        match apply_steps m st (mv p die (ms_from s)) buf len (set_bit mask idx) with Ret o => o | _ => None end else None).
    assert (OBf : (ms_from s <= 25)%nat) by (destruct OBs; lia).
    assert (HN : forall i die is' q', nth_error buf i = Some die -> h i die = None ->
      fresh len mask (i :: is') -> runs buf (s :: st) (i :: is') p q' -> False).
    { intros i die is' q' Ei Hh F R. inversion R as [|? die0 ? ? ? ? ? Ei0 SM MM R']; subst.
      assert (die0 = die) as -> by congruence. apply fresh_cons in F. destruct F as (Li & Bi & F).
      destruct (B i Li) as (die' & Ei' & Vd). assert (die' = die) as -> by congruence.
      unfold h in Hh. rewrite SM in Hh. cbn [andb] in Hh. rewrite (proj2 (legalb_may W Vd OBf) MM) in Hh.
      destruct (IH _ (set_bit mask i) (may_wf W Vd MM)) as (o & Eo & Rn). rewrite Eo in Hh. subst o. eauto. }
    unfold range. rewrite Nat.sub_0_r.
    match goal with |- context [try_dice ?f ?k buf ?l] =>
      destruct (@try_dice_ret (position * Z) f k buf h len 0) as (o & E & O) end.
    { intros i I. apply in_seq in I. destruct (B i) as (die & Ei & Vd); [lia|].
      exists die. split; auto. intros _. unfold h. destruct (step_matches_die s die); [|reflexivity].
      rewrite (try_ret m W Vd OBf), bind_ret. cbn [andb]. destruct (legalb p die (ms_from s)) eqn:L; [|reflexivity].
      apply (legalb_may W Vd OBf) in L.
      destruct (IH _ (set_bit mask i) (may_wf W Vd L)) as (o & Eo & _). rewrite Eo. reflexivity. }
    exists o. split; auto. destruct o as [(q, mask')|].
    + destruct O as (i & die & I & S & Ei & Hh & Min). apply in_seq in I.
      destruct (B i) as (die' & Ei' & Vd); [lia|]. assert (die' = die) as -> by congruence.
      unfold h in Hh. destruct (step_matches_die s die) eqn:SM; [|discriminate]. cbn [andb] in Hh.
      destruct (legalb p die (ms_from s)) eqn:L; [|discriminate]. apply (legalb_may W Vd OBf) in L.
      destruct (IH _ (set_bit mask i) (may_wf W Vd L)) as (o & Eo & R). rewrite Eo in Hh. subst o.
      destruct R as (is & F & Rn & Wq & _ & M). exists (i :: is). split; [apply fresh_cons; repeat split; auto; try lia; apply F|].
      split; [econstructor; eauto|]. split; auto. split.
      * intros j is' q' Fj Rj. cbn [hd]. destruct (Nat.le_gt_cases i j) as [Le|Gt]; auto. exfalso.
        pose proof (proj1 (fresh_cons _ _ _ _) Fj) as (Lj & Bj & _). destruct (B j Lj) as (dj & Ej & _).
        eapply HN; eauto. apply (Min j dj); auto. apply in_seq. lia.
      * intros j. rewrite M, bit_set_bit. cbn [existsb]. rewrite (Nat.eqb_sym j i), orb_assoc. reflexivity.
    + intros is q F R. inversion R as [|i die ? ? is' ? ? Ei SM MM R']; subst.
      pose proof (proj1 (fresh_cons _ _ _ _) F) as (Li & Bi & _).
      eapply HN; eauto. apply (O i die); auto. apply in_seq. lia.
Qed.

Lemma leftover_ret m N p mask buf l : wf N p ->
  (forall i, In i l -> exists die, nth_error buf i = Some die /\ valid_die die) ->
  exists b, leftover m p mask buf l = Ret b /\
    (b = true <-> exists i die, In i l /\ nth_error buf i = Some die /\ bit_set mask i = false /\ exists a, may_move p die a).
Proof.
  intros W. induction l as [|i l IH]; intros H; cbn [leftover].
  - exists false. split; auto. split; [discriminate|]. intros (i & die & [] & _).
  - destruct IH as (b & E & Hb). { intros j I. apply H. right. auto. }
    destruct (H i (or_introl eq_refl)) as (die & Ei & Vd). unfold index. rewrite Ei, bind_ret.
    destruct (bit_set mask i) eqn:Bi.
    + exists b. split; auto. rewrite Hb. split.
      * intros (j & dj & I & R). exists j, dj. split; [right; auto|auto].
      * intros (j & dj & [<-|I] & Ej & Bj & R); [congruence|]. exists j, dj. auto.
    + rewrite (any_move_ret m W Vd), bind_ret. destruct (anyb p die) eqn:An.
      * exists true. split; auto. split; auto. intros _. apply (anyb_true W Vd) in An.
        exists i, die. split; [left; auto|auto].
      * exists b. split; auto. rewrite Hb. pose proof (proj1 (anyb_false W Vd) An) as No. split.
        -- intros (j & dj & I & R). exists j, dj. split; [right; auto|auto].
        -- intros (j & dj & [<-|I] & Ej & Bj & (a & M)).
           ++ assert (dj = die) as -> by congruence. exfalso. exact (No a M).
           ++ exists j, dj. eauto.
Qed.

(** ** [apply_for] after parsing *)
Definition core (m : mode) (p : position) (d : dice) (st : list move_step) : res (option position) :=
  let '(dice_buf, dice_len) :=
    match d with
    | Double a => ([a; a; a; a], 4%nat)
    | Mixed big small => ([big; small; 0%nat; 0%nat], 2%nat)
    end in
  r <- apply_steps m st p dice_buf dice_len 0 ;;
  match r with
  | None => Ret None
  | Some (current, used_mask) =>
      b <- leftover m current used_mask dice_buf (range 0 dice_len) ;;
      if b then Ret None else q <- flip m current ;; Ret (Some q)
  end.
Lemma apply_for_core m p d t st : move_text t st -> apply_for m p d t = core m p d st.
Proof.
  intros M. unfold apply_for.
  assert (E : normalize t = Some (format_move_steps st)) by (apply normalize_iff; eauto).
  rewrite E. assert (P : parse_move_steps (format_move_steps st) = Some st).
  { apply parse_move_steps_iff. apply format_step_text. eapply move_text_on_board; eauto. }
  rewrite P. reflexivity.
Qed.
Lemma apply_for_none m p d t : (forall st, ~ move_text t st) -> apply_for m p d t = Ret None.
Proof.
  intros H. unfold apply_for. destruct (normalize t) as [s|] eqn:E; [|reflexivity].
  apply normalize_iff in E. destruct E as (st & M & _). exfalso. exact (H st M).
Qed.
Lemma move_text_dec t : (exists st, move_text t st) \/ forall st, ~ move_text t st.
Proof.
  destruct (normalize t) as [s|] eqn:E.
  - apply normalize_iff in E. destruct E as (st & M & _). eauto.
  - right. intros st M. assert (normalize t = Some (format_move_steps st)) by (apply normalize_iff; eauto). congruence.
Qed.

Definition buf_of (d : dice) : list nat :=
  match d with Double a => [a; a; a; a] | Mixed big small => [big; small; 0%nat; 0%nat] end.
Definition len_of (d : dice) : nat := length (pool d).
Lemma buf_valid d i : valid_dice d -> (i < len_of d)%nat -> exists die, nth_error (buf_of d) i = Some die /\ valid_die die.
Proof.
  intros V L. destruct d as [b s|a]; unfold len_of in L; simpl in L.
  - destruct V as (Vb & Vs & _). destruct i as [|[|i]]; [exists b|exists s|lia]; auto.
  - simpl in V. destruct i as [|[|[|[|i]]]]; [exists a|exists a|exists a|exists a|lia]; auto.
Qed.
Lemma buf_pool d i : (i < len_of d)%nat -> nth_error (buf_of d) i = nth_error (pool d) i.
Proof.
  intros L. destruct d as [b s|a]; unfold len_of in L; simpl in *.
  - destruct i as [|[|i]]; auto; lia.
  - destruct i as [|[|[|[|i]]]]; auto.
Qed.

Lemma core_ret m N p d st : wf N p -> valid_dice d -> Forall on_board st ->
  exists o, core m p d st = Ret o /\
  match o with
  | Some r => exists is q, fresh (len_of d) 0 is /\ runs (buf_of d) st is p q /\ wf N q /\ r = flipP q /\
      forall i die, (i < len_of d)%nat -> ~ In i is -> nth_error (pool d) i = Some die -> forall a, ~ may_move q die a
  | None => (forall is q, fresh (len_of d) 0 is -> runs (buf_of d) st is p q -> False) \/
      exists is q i die a, fresh (len_of d) 0 is /\ runs (buf_of d) st is p q /\
        first_min (buf_of d) (len_of d) 0 st p is /\
        (i < len_of d)%nat /\ ~ In i is /\ nth_error (pool d) i = Some die /\ may_move q die a
  end.
Proof.
  intros W V OB.
  destruct (@apply_steps_ret m N (buf_of d) (len_of d) st OB (fun i => @buf_valid d i V) p 0 W) as (o & E & H).
  unfold core.
  replace (match d with Mixed big small => ([big; small; 0%nat; 0%nat], 2%nat) | Double a => ([a; a; a; a], 4%nat) end)
    with (buf_of d, len_of d) by (destruct d; reflexivity).
  rewrite E, bind_ret. destruct o as [(q, mask)|].
  - destruct H as (is & F & R & Wq & Mn & M).
    assert (Bs : forall i, bit_set mask i = false <-> ~ In i is).
    { intros i. rewrite M, bit_set_0. cbn [orb]. rewrite <- not_true_iff_false. rewrite existsb_exists. split.
      - intros X I. apply X. exists i. split; auto. apply Nat.eqb_refl.
      - intros X (j & Ij & Ej). apply Nat.eqb_eq in Ej. subst. contradiction. }
    destruct (@leftover_ret m N q mask (buf_of d) (range 0 (len_of d)) Wq) as (b & Eb & Hb).
    { intros i I. unfold range in I. apply in_seq in I. apply buf_valid; auto. lia. }
    rewrite Eb, bind_ret. destruct b.
    + exists None. split; auto. right.
      destruct (proj1 Hb eq_refl) as (i & die & I & Ei & Bi & a & Ma). unfold range in I. apply in_seq in I.
      exists is, q, i, die, a. rewrite <- buf_pool by lia. split; [auto|]. split; [auto|]. split; [auto|]. split; [lia|]. split; [apply Bs; auto|auto].
    + rewrite (flip_ret m Wq), bind_ret. exists (Some (flipP q)). split; auto. exists is, q.
      split; [auto|]. split; [auto|]. split; [auto|]. split; [auto|]. intros i die Li Ni Ei a Ma. assert (X : false = true); [|discriminate X]. apply Hb.
      exists i, die. split; [unfold range; apply in_seq; lia|]. split; [rewrite buf_pool by auto; auto|].
      split; [apply Bs; auto|eauto].
  - exists None. split; [reflexivity|]. left. exact H.
Qed.
