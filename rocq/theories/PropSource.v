(** Property C78: [FastrandDice] over any random number generator.  Read with SpecSource.v, SpecDice.v,
    SpecEpisode.v. *)
From Verif Require Import SpecSource SpecEpisode PropDice.
Unset Implicit Arguments.
Open Scope nat_scope.

Lemma roll_draw : forall m r, r < 36 -> exists d, fastrand_roll m r = Ret d /\ valid_dice d.
Proof. intros m. exact (proj1 (C29_roll_uniform m)). Qed.
Lemma mixed_draw : forall m r, r < 30 -> exists d, fastrand_roll_mixed m r = Ret d /\ valid_dice d /\ is_mixed d = true.
Proof. intros m. exact (proj1 (C29_roll_mixed_uniform m)). Qed.

(** ** C78 *)

(** [FastrandDice] is a dice source as games need it: it never panics, the dice are valid, the opening
    roll is not a double. *)
Theorem C78_fair : forall {S} m (R : rng S), rng_ok R -> fair_gen (fastrand_gen m R).
Proof.
  intros S m R (B & _). split; intros s; cbn [gen_roll gen_roll_mixed fastrand_gen].
  - unfold fr_roll. pose proof (B 36 s ltac:(lia)) as L. destruct (rng_below R 36 s) as [r s'].
    destruct (roll_draw m r L) as (d & -> & V). exists d, s'. split; auto.
  - unfold fr_roll_mixed. pose proof (B 30 s ltac:(lia)) as L. destruct (rng_below R 30 s) as [r s'].
    destruct (mixed_draw m r L) as (d & -> & V & M). exists d, s'. split; [reflexivity|]. split; auto.
    destruct d as [b s0|]; [eauto|discriminate].
Qed.

Lemma ask_ok : forall {S} m minus (R : rng S) q s, rng_ok R -> askable q ->
  exists a, ask m minus R q s = Ret (a, one_draw R q s) /\ fits q a.
Proof.
  intros S m minus R q s (B & U) A. destruct q as [| |l|]; cbn [ask one_draw].
  - unfold fr_roll. pose proof (B 36 s ltac:(lia)) as L. destruct (rng_below R 36 s) as [r s'].
    destruct (roll_draw m r L) as (d & -> & V). exists (Rolled d). split; auto.
  - unfold fr_roll_mixed. pose proof (B 30 s ltac:(lia)) as L. destruct (rng_below R 30 s) as [r s'].
    destruct (mixed_draw m r L) as (d & -> & V). exists (Rolled d). split; auto.
  - unfold fr_choose_index. destruct (rng_below R (Z.to_nat 1000000) s) as [r s'].
    destruct A as (A1 & A2). unfold choose_index_f32.
    destruct (@C30_choose_index f32 f32_add f32_mul f32_div f32_gt (BinarySingleNaN.B754_zero false)
      (BinarySingleNaN.B754_zero minus) f32_of_u32 m (Z.of_nat r) l A1 A2) as (i & E & L).
    rewrite E. exists (Chosen i). split; auto.
  - unfold fr_seed. pose proof (U s). destruct (rng_u64 R s) as [z s']. exists (Seeded z). split; auto.
Qed.

(** Any calls in any order, from any state: every call is answered as it should, and makes exactly one
    draw. *)
Theorem C78_calls : forall {S} m minus (R : rng S) qs s, rng_ok R -> Forall askable qs ->
  exists l, ask_all m minus R qs s = Ret (l, fold_left (fun s q => one_draw R q s) qs s) /\ Forall2 fits qs l.
Proof.
  intros S m minus R qs. induction qs as [|q qs IH]; intros s O A; cbn [ask_all fold_left].
  - exists []. split; auto.
  - inversion A; subst. destruct (ask_ok m minus R q s O H1) as (a & -> & F). cbn [bind].
    destruct (IH (one_draw R q s) O H2) as (l & -> & F2). exists (a :: l). split; [reflexivity|constructor; auto].
Qed.

(** The answers so far do not depend on the calls to come, and after them the source goes on as a source
    in the state reached. *)
Theorem C78_prefix : forall {S} m minus (R : rng S) qs qs' s l s', ask_all m minus R qs s = Ret (l, s') ->
  ask_all m minus R (qs ++ qs') s = ('(l', s2) <- ask_all m minus R qs' s' ;; Ret (l ++ l', s2)).
Proof.
  intros S m minus R qs qs'. induction qs as [|q qs IH]; intros s l s' E; cbn [ask_all app] in *.
  - inversion E; subst. destruct (ask_all m minus R qs' s') as [[l' s2]|]; reflexivity.
  - destruct (ask m minus R q s) as [[a s1]|]; cbn [bind] in *; [|discriminate].
    destruct (ask_all m minus R qs s1) as [[l1 s2]|] eqn:E1; cbn [bind] in E; [|discriminate].
    inversion E; subst. rewrite (IH _ _ _ E1).
    destruct (ask_all m minus R qs' s') as [[l' s3]|]; reflexivity.
Qed.

(** The whole seed counts: for any two seeds there is a generator with which the sources made from them
    answer differently; and the source made from a seed starts where the generator's own seeding says. *)
Theorem C78_seed : (forall {S} m minus (R : rng S) seed qs,
    ask_all m minus R qs (fr_with_seed R seed) = ask_all m minus R qs (rng_with_seed R seed)) /\
  forall m minus a b, (0 <= a < 2 ^ 64)%Z -> (0 <= b < 2 ^ 64)%Z -> a <> b ->
  exists R : rng Z, rng_ok R /\ forall l l' s s',
    ask_all m minus R [AskSeed] (fr_with_seed R a) = Ret (l, s) ->
    ask_all m minus R [AskSeed] (fr_with_seed R b) = Ret (l', s') -> l <> l'.
Proof.
  split; [reflexivity|]. intros m minus a b A B N.
  exists {| rng_with_seed := fun z => z; rng_below := fun n s => (0, s); rng_u64 := fun s => ((s mod 2 ^ 64)%Z, s) |}.
  split; [split|].
  - intros n s H. exact H.
  - intros s. cbn [rng_u64 fst]. apply Z.mod_pos_bound. reflexivity.
  - intros l l' s s'. cbn [ask_all ask fr_seed fr_with_seed rng_with_seed rng_u64 bind].
    rewrite !Z.mod_small by assumption. intros E E'. injection E as <- _. injection E' as <- _. congruence.
Qed.

(** ** Equally likely draws *)

Lemma draws_count : forall cs, length (draws cs) = all_draws cs.
Proof.
  induction cs as [|c cs IH]; [reflexivity|]. cbn [draws all_draws].
  rewrite <- IH. generalize (bound c) at 1 2 as n. intros n.
  assert (H : forall k, length (flat_map (fun x => map (cons x) (draws cs)) (seq k n)) = n * length (draws cs)).
  { induction n as [|n IHn]; intros k; [reflexivity|]. cbn [seq flat_map]. rewrite app_length, map_length, IHn. lia. }
  apply H.
Qed.

Definition step_gives (m : mode) (c : bool) (x : nat) (d : dice) : bool :=
  gives (if c then fastrand_roll_mixed m x else fastrand_roll m x) d.

Lemma gives_eq : forall r d, gives r d = true <-> r = Ret d.
Proof.
  intros [e|] d; cbn [gives]; [rewrite dice_eqb_eq|]; split; intros H; inversion H; subst; auto.
Qed.

Lemma answers_cons : forall m c cs x t d ds,
  answers_with m (c :: cs) (x :: t) (d :: ds) <-> step_gives m c x d = true /\ answers_with m cs t ds.
Proof.
  intros m c cs x t d ds. unfold answers_with, step_gives. rewrite gives_eq.
  assert (A : ask m false tape (request_of c) (x :: t) =
    (e <- (if c then fastrand_roll_mixed m x else fastrand_roll m x) ;; Ret (Rolled e, t))).
  { destruct c; cbn [request_of ask]; unfold fr_roll, fr_roll_mixed; cbn [rng_below tape hd tl];
      [destruct (fastrand_roll_mixed m x)|destruct (fastrand_roll m x)]; reflexivity. }
  cbn [map ask_all]. rewrite A. destruct (if c then fastrand_roll_mixed m x else fastrand_roll m x) as [e|]; cbn [bind].
  - destruct (ask_all m false tape (map request_of cs) t) as [[l s]|]; cbn [bind].
    + split; [intros E; inversion E; subst; auto|intros (E1 & E2); inversion E1; inversion E2; subst; auto].
    + split; [discriminate|intros (_ & E); discriminate].
  - split; [discriminate|intros (E & _); discriminate].
Qed.
Lemma step_count : forall m c d, valid_dice d ->
  length (filter (fun x => step_gives m c x d) (seq 0 (bound c))) = ways c d.
Proof.
  intros m [|] d V; unfold step_gives, bound, ways.
  - destruct (is_mixed d) eqn:M.
    + rewrite (proj2 (C29_roll_mixed_uniform m) d V M).
      destruct (C28_weights m) as (l & _ & _ & _ & H). destruct (C28_all_21 m) as (l' & _ & _ & H').
      assert (I : In (d, multiplicity d) l') by (apply H'; auto).
      clear H'. destruct (C28_all_21 m) as (l2 & E2 & _ & H2). destruct (C28_weights m) as (l3 & E3 & _ & _ & H3).
      rewrite E2 in E3. inversion E3; subst l3. specialize (H3 d (multiplicity d) (proj2 (H2 _ _) (conj V eq_refl))).
      rewrite M in H3. auto.
    + replace (filter _ _) with (@nil nat); [reflexivity|]. symmetry.
      assert (H : forall x, In x (seq 0 30) -> gives (fastrand_roll_mixed m x) d = false).
      { intros x I. apply in_seq in I. destruct (mixed_draw m x ltac:(lia)) as (e & E & _ & Me).
        rewrite E. cbn [gives]. destruct (dice_eqb e d) eqn:Q; auto. apply dice_eqb_eq in Q. congruence. }
      induction (seq 0 30) as [|x l IH]; [reflexivity|]. cbn [filter].
      rewrite (H x) by (left; auto). apply IH. intros y I. apply H. right. auto.
  - apply (proj2 (C29_roll_uniform m) d V).
Qed.

(** Any number of rolls, opening rolls among them: the sequences of draws are equally likely, and
    exactly as many give the rolls [ds] as there are throws showing them one after the other.  So
    the rolls are independent and as likely as with real dice. *)
Theorem C78_equally_likely : forall m calls ds, Forall valid_dice ds -> length ds = length calls ->
  exists good, NoDup good /\
  (forall t, In t good <-> In t (draws calls) /\ answers_with m calls t ds) /\
  length good = all_ways calls ds /\ length (draws calls) = all_draws calls /\ NoDup (draws calls).
Proof.
  intros m calls. induction calls as [|c cs IH]; intros ds V L.
  - destruct ds; [|discriminate]. exists [[]]. split; [repeat constructor; auto|].
    split; [|repeat split; repeat constructor; auto].
    intros t. cbn [draws]. split; [|tauto]. intros I. split; auto. destruct I as [<-|[]]. reflexivity.
  - destruct ds as [|d ds]; [discriminate|]. inversion V; subst. cbn [length] in L.
    destruct (IH ds H2 ltac:(lia)) as (good & ND & Hg & Lg & _ & NDd).
    exists (flat_map (fun x => map (cons x) good) (filter (fun x => step_gives m c x d) (seq 0 (bound c)))).
    assert (Mono : forall (A : Type) (x : A) l, NoDup l -> NoDup (map (cons x) l)).
    { intros A x l H. induction H; cbn [map]; constructor; auto.
      intros I. apply in_map_iff in I. destruct I as (y & E & I). inversion E; subst. auto. }
    split; [|split; [|split; [|split]]].
    + apply NoDup_flat_prod.
      * apply NoDup_filter, seq_NoDup.
      * intros; auto.
      * intros a b x _ _ Ia Ib. apply in_map_iff in Ia, Ib. destruct Ia as (y & <- & _), Ib as (z & E & _). congruence.
    + intros t. rewrite in_flat_map. cbn [draws]. rewrite in_flat_map. split.
      * intros (x & I & It). apply filter_In in I. destruct I as (I & G). apply in_map_iff in It.
        destruct It as (t' & <- & It). apply Hg in It. split.
        -- exists x. split; auto. apply in_map. apply It.
        -- apply answers_cons. tauto.
      * intros ((x & I & It) & A). apply in_map_iff in It. destruct It as (t' & <- & It).
        apply answers_cons in A. exists x. split; [apply filter_In; tauto|]. apply in_map. apply Hg. tauto.
    + cbn [all_ways]. rewrite <- Lg, <- (step_count m c d H1).
      induction (filter (fun x => step_gives m c x d) (seq 0 (bound c))) as [|x l IHl]; [reflexivity|].
      cbn [flat_map length]. rewrite app_length, map_length, IHl. lia.
    + apply draws_count.
    + cbn [draws]. apply NoDup_flat_prod; [apply seq_NoDup|intros; auto|].
      intros a b x _ _ Ia Ib. apply in_map_iff in Ia, Ib. destruct Ia as (y & <- & _), Ib as (z & E & _). congruence.
Qed.

(** Cases: an opening 3-1 followed by a double 5: two of the 1080 sequences of draws; a generator
    that is in range. *)
Example C78_ex : Forall valid_dice [Mixed 3 1; Double 5] /\ all_ways [true; false] [Mixed 3 1; Double 5] = 2 /\
  all_draws [true; false] = 1080 /\ answers_with Debug [true; false] [2; 28] [Mixed 3 1; Double 5].
Proof. repeat split; try (repeat constructor; cbv; lia). Qed.
Definition counting : rng nat :=
  {| rng_with_seed := Z.to_nat; rng_below := fun n s => (s mod n, s + 1); rng_u64 := fun s => ((Z.of_nat s mod 2 ^ 64)%Z, s + 1) |}.
Example C78_counting_ok : rng_ok counting.
Proof.
  split; intros; cbn [counting rng_below rng_u64 fst].
  - apply Nat.mod_upper_bound. lia.
  - apply Z.mod_pos_bound. lia.
Qed.
Example C78_calls_ex : exists s, ask_all Debug false counting [AskMixed; AskRoll; AskRoll] (fr_with_seed counting 7)
  = Ret ([Rolled (Mixed 3 2); Rolled (Mixed 3 2); Rolled (Mixed 4 2)], s).
Proof. eexists. vm_compute. reflexivity. Qed.
