(** Exchanging single-checker moves. *)
From Verif Require Export MoveFacts.
Open Scope Z_scope.

Section PtMv.
Variables (p : position) (d a : nat).
Hypotheses (Hl : length (pips p) = 26%nat) (Ha : (1 <= a <= 25)%nat) (Hd : (1 <= d)%nat).

Lemma pt_mv_from : pt (mv p d a) a = pt p a - 1.
Proof. rewrite pt_mv by auto. rewrite Nat.eqb_refl. auto. Qed.

Lemma pt_mv_land : (d < a)%nat ->
  pt (mv p d a) (a - d) = if pt p (a - d) =? -1 then 1 else pt p (a - d) + 1.
Proof.
  intros L. rewrite pt_mv by auto. destruct (Nat.eqb_spec (a - d) a); [lia|].
  apply Nat.ltb_lt in L. rewrite L, Nat.eqb_refl. reflexivity.
Qed.

Lemma pt_mv_other i : (1 <= i)%nat -> i <> a -> ((d < a)%nat -> i <> (a - d)%nat) ->
  pt (mv p d a) i = pt p i.
Proof.
  intros H1 H2 H3. rewrite pt_mv by auto.
  destruct (Nat.eqb_spec i a); [congruence|].
  destruct (Nat.ltb_spec d a); simpl; auto.
  destruct (Nat.eqb_spec i (a - d)); [exfalso; apply H3; auto|].
  destruct (Nat.eqb_spec i 0); [lia|]. auto.
Qed.

Lemma pt_mv_high i : (a < i)%nat -> pt (mv p d a) i = pt p i.
Proof. intros H. apply pt_mv_other; lia. Qed.

(** Landing only adds x checkers. *)
Lemma pt_mv_ge i : (1 <= i)%nat -> i <> a -> pt p i <= pt (mv p d a) i.
Proof.
  intros H1 H2. rewrite pt_mv by auto. destruct (Nat.eqb_spec i a); [congruence|].
  destruct (_ && _)%nat; [destruct (Z.eqb_spec (pt p i) (-1)); lia|].
  destruct (Nat.eqb_spec i 0); [lia|]. rewrite Bool.andb_false_r. simpl. lia.
Qed.

Lemma pt_mv_unblocked i : (1 <= i)%nat -> (i = a -> 0 < pt p a) ->
  ((d < a)%nat -> -2 < pt p (a - d)) ->
  -2 < pt (mv p d a) i <-> -2 < pt p i.
Proof.
  intros H1 H2 H3. rewrite pt_mv by auto.
  destruct (Nat.eqb_spec i a) as [->|]; [specialize (H2 eq_refl); split; lia|].
  destruct (Nat.ltb_spec d a); simpl; [|reflexivity].
  destruct (Nat.eqb_spec i (a - d)) as [->|]; simpl.
  - specialize (H3 ltac:(auto)). destruct (Z.eqb_spec (pt p (a - d)) (-1)); split; lia.
  - destruct (Nat.eqb_spec i 0); [lia|]. reflexivity.
Qed.

Lemma pt_mv_land_pos : (d < a)%nat -> -2 < pt p (a - d) -> 0 < pt (mv p d a) (a - d).
Proof. intros L P. rewrite pt_mv_land by auto. destruct (Z.eqb_spec (pt p (a - d)) (-1)); lia. Qed.

Lemma pt_mv_0 : pt (mv p d a) 0 =
  if ((d <? a)%nat && (pt p (a - d) =? -1)) then pt p 0 - 1 else pt p 0.
Proof.
  rewrite pt_mv by auto. destruct (Nat.eqb_spec 0 a); [lia|].
  destruct (Nat.ltb_spec d a); simpl; auto. destruct (Nat.eqb_spec 0 (a - d)); [lia|]. auto.
Qed.
End PtMv.

Ltac natcase :=
  repeat (match goal with
  | |- context [(?a =? ?a)%nat] => rewrite Nat.eqb_refl
  | H : ?a = ?b |- context [(?a =? ?b)%nat] => rewrite (proj2 (Nat.eqb_eq a b) H)
  | H : ?a <> ?b |- context [(?a =? ?b)%nat] => rewrite (proj2 (Nat.eqb_neq a b) H)
  | H : ?b <> ?a |- context [(?a =? ?b)%nat] => rewrite (proj2 (Nat.eqb_neq a b) (not_eq_sym H))
  | |- context [(?a =? ?b)%nat] =>
      first [ rewrite (proj2 (Nat.eqb_neq a b)) by lia
            | destruct (Nat.eqb_spec a b); try subst a; try subst b ]
  end; cbn [andb orb]).
Ltac zcase :=
  repeat match goal with
  | |- context [(?a =? ?b)] => destruct (Z.eqb_spec a b); simpl; try lia
  end.

(** Two moves from [p] commute as far as the resulting board is concerned. *)
Lemma mv_comm p d1 d2 a b :
  length (pips p) = 26%nat -> valid_die d1 -> valid_die d2 ->
  (1 <= a <= 25)%nat -> (1 <= b <= 25)%nat -> 0 < pt p a -> 0 < pt p b ->
  (a = b -> 1 < pt p a) ->
  mv (mv p d2 b) d1 a = mv (mv p d1 a) d2 b.
Proof.
  intros Hl [V1 V1'] [V2 V2'] Ha Hb Pa Pb Hab.
  apply position_ext; rewrite ?mv_turn, ?mv_xoff, ?mv_ooff; auto; try lia.
  - repeat apply mv_length; auto.
  - repeat apply mv_length; auto.
  - intros i Hi.
    rewrite !(pt_mv (mv p _ _)) by (auto using mv_length).
    rewrite !pt_mv by auto. clear Hl Hi.
    destruct (Nat.ltb_spec d1 a) as [L1|L1], (Nat.ltb_spec d2 b) as [L2|L2]; cbn [andb].
    + remember (a - d1)%nat as ta eqn:Eta. remember (b - d2)%nat as tb eqn:Etb.
      assert (ta < a)%nat by lia. assert (tb < b)%nat by lia.
      assert (1 <= ta)%nat by lia. assert (1 <= tb)%nat by lia.
      assert (ta = tb -> a = b -> d1 = d2) by lia.
      clear L1 L2 V1 V1' V2 V2' Eta Etb.
      natcase; zcase; auto; try lia.
    + remember (a - d1)%nat as ta eqn:Eta.
      assert (ta < a)%nat by lia. assert (1 <= ta)%nat by lia.
      clear L1 L2 V1 V1' V2 V2' Eta.
      natcase; zcase; auto; try lia.
    + remember (b - d2)%nat as tb eqn:Etb.
      assert (tb < b)%nat by lia. assert (1 <= tb)%nat by lia.
      clear L1 L2 V1 V1' V2 V2' Etb.
      natcase; zcase; auto; try lia.
    + natcase; zcase; auto; try lia.
Qed.

Lemma commute N p d1 d2 a b :
  wf N p -> valid_die d1 -> valid_die d2 -> (a <= b)%nat ->
  may_move p d1 a -> may_move (mv p d1 a) d2 b ->
  may_move p d2 b /\ may_move (mv p d2 b) d1 a /\
  mv (mv p d2 b) d1 a = mv (mv p d1 a) d2 b.
Proof.
  intros W V1 V2 Hab M1 M2. pose proof (wf_len W) as Hl.
  destruct V1 as [V1 V1'], V2 as [V2 V2'].
  destruct M1 as (A1 & A2 & A3 & A4 & A5). destruct M2 as (B1 & B2 & B3 & B4 & B5).
  assert (Pb : pt (mv p d1 a) b = if (b =? a)%nat then pt p b - 1 else pt p b).
  { destruct (Nat.eqb_spec b a) as [->|]; [apply pt_mv_from; auto|apply pt_mv_high; auto; lia]. }
  assert (Pb0 : 0 < pt p b) by (destruct (Nat.eqb_spec b a); lia).
  assert (Pab : a = b -> 1 < pt p a) by (intros <-; rewrite Nat.eqb_refl in Pb; lia).
  assert (M2' : may_move p d2 b).
  { split; [lia|]. split; [auto|]. split; [|split].
    - intros Nb. apply A3. lia.
    - intros L. specialize (B4 L). rewrite pt_mv_unblocked in B4; auto; lia.
    - intros L. specialize (B5 L). destruct B5 as [B5 B6].
      assert (Hh : forall i, (b < i <= 25)%nat -> pt (mv p d1 a) i <= 0 -> pt p i <= 0).
      { intros i Hi. rewrite pt_mv_high by (auto; lia). auto. }
      split; [intros i Hi|intros Lt i Hi]; apply Hh; try lia; [apply B5|apply B6]; lia. }
  split; [exact M2'|]. split.
  - assert (Pa : 0 < pt (mv p d2 b) a).
    { destruct (Nat.eq_dec a b) as [<-|]; [rewrite pt_mv_from by auto; specialize (Pab eq_refl); lia|].
      pose proof (@pt_mv_ge p d2 b Hl B1 V2 a ltac:(lia) ltac:(auto)). lia. }
    split; [auto|]. split; [auto|]. split; [|split].
    + intros Na. specialize (A3 Na).
      destruct (Nat.eq_dec b 25) as [->|]; [lia|]. rewrite pt_mv_high by (auto; lia). lia.
    + intros L. apply pt_mv_unblocked; auto; try lia. apply M2'.
    + intros L. destruct (A5 L) as [A6 A7].
      split.
      * intros i Hi. assert (b <= 6)%nat.
        { destruct (Nat.le_gt_cases b 6); auto. specialize (A6 b); lia. }
        rewrite pt_mv_high by (auto; lia). apply A6; lia.
      * intros Lt i Hi. specialize (A7 Lt).
        assert (b = a) by (destruct (Nat.eq_dec a b); auto; specialize (A7 b); lia). subst b.
        rewrite pt_mv_high by (auto; lia). apply A7; lia.
  - apply mv_comm; auto; split; auto.
Qed.

(** One checker moving with both dice: the order does not matter if no opposing checker is
    on either intermediate point. *)
Lemma chain_eq p d1 d2 a :
  length (pips p) = 26%nat -> valid_die d1 -> valid_die d2 -> (1 <= a <= 25)%nat ->
  (d1 < a)%nat -> (d2 < a)%nat ->
  0 < pt p a -> 0 <= pt p (a - d1) -> 0 <= pt p (a - d2) ->
  mv (mv p d1 a) d2 (a - d1) = mv (mv p d2 a) d1 (a - d2).
Proof.
  intros Hl [V1 V1'] [V2 V2'] Ha L1 L2 Pa P1 P2.
  apply position_ext; rewrite ?mv_turn, ?mv_xoff, ?mv_ooff; auto; try lia.
  - destruct (Nat.leb_spec a d1), (Nat.leb_spec a d2), (Nat.leb_spec (a - d1) d2),
      (Nat.leb_spec (a - d2) d1); lia.
  - repeat apply mv_length; auto.
  - repeat apply mv_length; auto.
  - intros i Hi.
    rewrite !(pt_mv (mv p _ _)) by (auto using mv_length; lia).
    rewrite !pt_mv by auto.
    replace (a - d2 - d1)%nat with (a - d1 - d2)%nat by lia. clear Hl Hi.
    rewrite (proj2 (Nat.ltb_lt d1 a)), (proj2 (Nat.ltb_lt d2 a)) by auto. cbn [andb].
    replace (d1 <? a - d2)%nat with (d2 <? a - d1)%nat
      by (destruct (Nat.ltb_spec d2 (a - d1)), (Nat.ltb_spec d1 (a - d2)); auto; lia).
    assert (E1 : (a - d1 < a)%nat) by lia. assert (E2 : (a - d2 < a)%nat) by lia.
    assert (E1' : (1 <= a - d1)%nat) by lia. assert (E2' : (1 <= a - d2)%nat) by lia.
    destruct (Nat.ltb_spec d2 (a - d1)) as [L|L]; cbn [andb].
    + assert (E3 : (a - d1 - d2 < a - d1)%nat) by lia.
      assert (E4 : (a - d1 - d2 < a - d2)%nat) by lia.
      assert (E5 : (1 <= a - d1 - d2)%nat) by lia. clear L1 L2 L V1 V1' V2 V2'.
      generalize dependent (a - d1 - d2)%nat. intros t.
      generalize dependent (a - d1)%nat. intros t1.
      generalize dependent (a - d2)%nat. intros t2. intros.
      natcase; zcase; auto; try lia.
    + clear L1 L2 L V1 V1' V2 V2'.
      generalize dependent (a - d1)%nat. intros t1.
      generalize dependent (a - d2)%nat. intros t2. intros.
      natcase; zcase; auto; try lia.
Qed.

Lemma chain_legal N p d1 d2 a :
  wf N p -> valid_die d1 -> valid_die d2 -> (d2 < d1 \/ d1 + d2 < a)%nat ->
  (d1 < a)%nat -> (d2 < a)%nat ->
  0 <= pt p (a - d1) -> 0 <= pt p (a - d2) ->
  may_move p d1 a -> may_move (mv p d1 a) d2 (a - d1) ->
  may_move p d2 a /\ may_move (mv p d2 a) d1 (a - d2).
Proof.
  intros W V1 V2 L12 L1 L2 P1 P2 M1 M2. pose proof (wf_len W) as Hl.
  destruct V1 as [V1 V1'], V2 as [V2 V2'].
  destruct M1 as (A1 & A2 & A3 & A4 & A5). destruct M2 as (B1 & B2 & B3 & B4 & B5).
  split.
  - split; [auto|]. split; [auto|]. split; [auto|]. split; [lia|lia].
  - assert (Hb : forall i, (a - d2 < i <= 25)%nat -> (i <> a)%nat -> pt (mv p d2 a) i = pt p i).
    { intros i Hi Hn. apply pt_mv_other; auto; lia. }
    split; [lia|]. split.
    { rewrite pt_mv_land by auto. destruct (_ =? _); lia. }
    split; [|split].
    + intros _. destruct (Nat.eq_dec a 25) as [->|].
      * rewrite pt_mv_from by auto. rewrite pt_mv_from in B3 by auto.
        assert ((25 - d1)%nat <> 25%nat) by lia. auto.
      * rewrite pt_mv_high by (auto; lia). auto.
    + intros L. replace (a - d2 - d1)%nat with (a - d1 - d2)%nat by lia.
      rewrite pt_mv_unblocked by (auto; lia).
      assert (L' : (d2 < a - d1)%nat) by lia. specialize (B4 L').
      rewrite pt_mv_unblocked in B4 by (auto; lia). auto.
    + intros L. assert (L' : (a - d1 <= d2)%nat) by lia. destruct (B5 L') as [B6 B7].
      assert (Hs : forall i, (1 <= i)%nat -> i <> (a - d1)%nat -> (i <> a - d2)%nat ->
                   pt (mv p d2 a) i = pt (mv p d1 a) i).
      { intros i Hi N1 N2. destruct (Nat.eq_dec i a) as [->|].
        - rewrite !pt_mv_from by auto. auto.
        - rewrite !pt_mv_other by (auto; lia). auto. }
      split.
      * intros i Hi. rewrite Hs by lia. apply B6. lia.
      * intros Lt i Hi. rewrite Hs by lia. apply B7; lia.
Qed.
