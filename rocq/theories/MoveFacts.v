(** Single-checker moves: pure description, well-formedness, legality. *)
From Verif Require Export BaseFacts.
Open Scope Z_scope.

Definition mv (p : position) (die from : nat) : position :=
  let ps := upd (pips p) from (pt p from - 1) in
  if (die <? from)%nat then
    if pt p (from - die) =? -1
    then {| turn := turn p; pips := upd (upd ps (from - die) 1) 0 (pt p 0 - 1);
            x_off := x_off p; o_off := o_off p |}
    else {| turn := turn p; pips := upd ps (from - die) (pt p (from - die) + 1);
            x_off := x_off p; o_off := o_off p |}
  else {| turn := turn p; pips := ps; x_off := x_off p + 1; o_off := o_off p |}.

(** Condition under which the code may be asked to move: no bar-first and no bear-off
    condition. *)
Definition pre (p : position) (die from : nat) : Prop :=
  (1 <= from <= 25)%nat /\ 0 < pt p from /\ ((die < from)%nat -> -2 < pt p (from - die)).

Lemma may_move_pre p die from : may_move p die from -> pre p die from.
Proof. unfold may_move, pre. tauto. Qed.

Lemma mv_length p die from : length (pips p) = 26%nat -> length (pips (mv p die from)) = 26%nat.
Proof.
  intros H. unfold mv. destruct (die <? from)%nat; [destruct (_ =? _)|]; simpl;
    rewrite ?upd_length; auto.
Qed.
Lemma mv_turn p die from : turn (mv p die from) = turn p.
Proof. unfold mv. destruct (die <? from)%nat; [destruct (_ =? _)|]; auto. Qed.
Lemma mv_ooff p die from : o_off (mv p die from) = o_off p.
Proof. unfold mv. destruct (die <? from)%nat; [destruct (_ =? _)|]; auto. Qed.
Lemma mv_xoff p die from : x_off (mv p die from) = x_off p + (if (from <=? die)%nat then 1 else 0).
Proof.
  unfold mv. destruct (Nat.ltb_spec die from), (Nat.leb_spec from die); try lia;
  [destruct (_ =? _)|]; simpl; lia.
Qed.

Lemma pt_mv p die from i :
  length (pips p) = 26%nat -> (1 <= from <= 25)%nat -> (1 <= die)%nat ->
  pt (mv p die from) i =
    if (i =? from)%nat then pt p from - 1
    else if ((die <? from) && (i =? from - die))%nat
         then (if pt p i =? -1 then 1 else pt p i + 1)
    else if (((die <? from) && (i =? 0))%nat && (pt p (from - die) =? -1)) then pt p 0 - 1
    else pt p i.
Proof.
  intros Hl Hf Hd. unfold mv.
  destruct (Nat.ltb_spec die from) as [Hdf|Hdf]; simpl.
  - destruct (Z.eqb_spec (pt p (from - die)) (-1)) as [E|E]; unfold pt at 1; simpl;
      rewrite ?nth_upd by (rewrite ?upd_length; lia);
      destruct (Nat.eqb_spec i 0), (Nat.eqb_spec i (from - die)), (Nat.eqb_spec i from);
      subst; simpl; try lia; auto;
      try (rewrite E; reflexivity);
      try (destruct (Z.eqb_spec (pt p (from - die)) (-1)); lia).
  - unfold pt at 1; simpl. rewrite nth_upd by lia.
    destruct (Nat.eqb_spec i from); auto.
Qed.

Lemma wf_pt_bounds N p i : wf N p -> -127 <= pt p i <= 127.
Proof.
  intros W. unfold pt. destruct (Nat.lt_ge_cases i 26) as [H|H].
  - pose proof (sumZ_ge_nth (fun v => Z.max 0 v) (pips p) 0 ltac:(intros; lia) (i:=i)) as A.
    pose proof (sumZ_ge_nth (fun v => Z.max 0 (- v)) (pips p) 0 ltac:(intros; lia) (i:=i)) as B.
    pose proof (wf_x W). pose proof (wf_o W). pose proof (wf_N W).
    pose proof (wf_xoff W). pose proof (wf_ooff W).
    unfold x_checkers, o_checkers in *. rewrite (wf_len W) in *.
    cbv beta in *. specialize (A H). specialize (B H). lia.
  - rewrite nth_overflow; [lia|]. rewrite (wf_len W). auto.
Qed.

Lemma wf_off_bounds N p : wf N p -> 0 <= x_off p <= N /\ 0 <= o_off p <= N.
Proof.
  intros W.
  pose proof (sumZ_nonneg (fun v => Z.max 0 v) (pips p) ltac:(intros; lia)).
  pose proof (sumZ_nonneg (fun v => Z.max 0 (- v)) (pips p) ltac:(intros; lia)).
  pose proof (wf_x W). pose proof (wf_o W).
  pose proof (wf_xoff W). pose proof (wf_ooff W). unfold x_checkers, o_checkers in *. lia.
Qed.

(** Two different points hold together at most N checkers of a side. *)
Lemma wf_pt2_x N p i j : wf N p -> (i < 26)%nat -> (j < 26)%nat -> i <> j ->
  x_off p + Z.max 0 (pt p i) + Z.max 0 (pt p j) <= N.
Proof.
  intros W Hi Hj Hij. pose proof (wf_x W) as Hx. unfold x_checkers in Hx.
  pose proof (sumZ_ge_nth2 (fun v => Z.max 0 v) (pips p) 0 ltac:(intros; lia) (i:=i) (j:=j)) as A.
  rewrite (wf_len W) in A. specialize (A Hi Hj Hij). cbv beta in A. unfold pt. lia.
Qed.
Lemma wf_pt2_o N p i j : wf N p -> (i < 26)%nat -> (j < 26)%nat -> i <> j ->
  o_off p + Z.max 0 (- pt p i) + Z.max 0 (- pt p j) <= N.
Proof.
  intros W Hi Hj Hij. pose proof (wf_o W) as Hx. unfold o_checkers in Hx.
  pose proof (sumZ_ge_nth2 (fun v => Z.max 0 (- v)) (pips p) 0 ltac:(intros; lia) (i:=i) (j:=j)) as A.
  rewrite (wf_len W) in A. specialize (A Hi Hj Hij). cbv beta in A. unfold pt. lia.
Qed.
Lemma wf_pt1_x N p i : wf N p -> (i < 26)%nat -> x_off p + Z.max 0 (pt p i) <= N.
Proof.
  intros W Hi. assert (exists j, (j < 26)%nat /\ i <> j) as (j & Hj & Hij).
  { destruct i; [exists 1%nat|exists 0%nat]; lia. }
  pose proof (wf_pt2_x W Hi Hj Hij). lia.
Qed.
Lemma wf_pt1_o N p i : wf N p -> (i < 26)%nat -> o_off p + Z.max 0 (- pt p i) <= N.
Proof.
  intros W Hi. assert (exists j, (j < 26)%nat /\ i <> j) as (j & Hj & Hij).
  { destruct i; [exists 1%nat|exists 0%nat]; lia. }
  pose proof (wf_pt2_o W Hi Hj Hij). lia.
Qed.

Lemma move_single_checker_ret m N p die from :
  wf N p -> valid_die die -> pre p die from ->
  move_single_checker m p from die = Ret (mv p die from).
Proof.
  intros W [Hd1 Hd2] (Hf & Hp & Ht). pose proof (wf_len W) as Hl.
  pose proof (wf_pt_bounds from W) as B1. pose proof (wf_N W) as HN.
  unfold move_single_checker, mv.
  rewrite (index_ret _ 0) by lia. fold (pt p from). rewrite bind_ret.
  rewrite i8_ret by lia. rewrite bind_ret, assign_ret by lia. rewrite bind_ret.
  destruct (Nat.ltb_spec die from) as [Hdf|Hdf].
  - rewrite usub_ret by lia. rewrite bind_ret.
    rewrite (index_ret _ 0) by (rewrite upd_length; lia). rewrite bind_ret.
    rewrite nth_upd by lia.
    destruct (Nat.eqb_spec (from - die) from); [lia|]. fold (pt p (from - die)).
    destruct (Z.eqb_spec (pt p (from - die)) (-1)) as [E|E].
    + rewrite assign_ret by (rewrite upd_length; lia). rewrite bind_ret.
      rewrite (index_ret _ 0) by (rewrite !upd_length; unfold O_BAR; lia). rewrite bind_ret.
      rewrite !nth_upd by (rewrite ?upd_length; lia).
      destruct (Nat.eqb_spec O_BAR (from - die)) as [H|H]; [unfold O_BAR in H; lia|].
      destruct (Nat.eqb_spec O_BAR from) as [H0|H0]; [unfold O_BAR in H0; lia|].
      fold (pt p O_BAR). unfold O_BAR in *.
      pose proof (wf_pt2_o W (i:=0) (j:=(from-die)%nat) ltac:(lia) ltac:(lia) ltac:(lia)).
      pose proof (wf_ooff W). pose proof (wf_obar W).
      rewrite i8_ret by lia. rewrite bind_ret, assign_ret by (rewrite !upd_length; lia).
      reflexivity.
    + pose proof (wf_pt2_x W (i:=from) (j:=(from-die)%nat) ltac:(lia) ltac:(lia) ltac:(lia)).
      pose proof (wf_xoff W). specialize (Ht Hdf).
      rewrite i8_ret by lia. rewrite bind_ret, assign_ret by (rewrite upd_length; lia).
      reflexivity.
  - pose proof (wf_pt1_x W (i:=from) ltac:(lia)). pose proof (wf_xoff W).
    rewrite u8_ret by lia. reflexivity.
Qed.

Lemma mv_wf N p die from :
  wf N p -> valid_die die -> pre p die from -> wf N (mv p die from).
Proof.
  intros W [Hd1 Hd2] (Hf & Hp & Ht). pose proof (wf_len W) as Hl.
  destruct W as [HN _ Hxo Hoo Hx Ho Hxb Hob].
  constructor; auto.
  - apply mv_length; auto.
  - rewrite mv_xoff. destruct (_ <=? _)%nat; lia.
  - rewrite mv_ooff. auto.
  - unfold x_checkers, mv in *. destruct (Nat.ltb_spec die from) as [Hdf|Hdf]; simpl.
    + specialize (Ht Hdf). destruct (Z.eqb_spec (pt p (from - die)) (-1)) as [E|E]; simpl;
      rewrite ?(sumZ_upd (fun v => Z.max 0 v) _ _ 0) by (rewrite ?upd_length; lia);
      rewrite ?nth_upd by (rewrite ?upd_length; lia);
      repeat match goal with |- context [(?a =? ?b)%nat] => destruct (Nat.eqb_spec a b); try lia end;
      fold (pt p (from - die)) (pt p from) (pt p 0); lia.
    + rewrite (sumZ_upd (fun v => Z.max 0 v) _ _ 0) by lia. fold (pt p from). lia.
  - unfold o_checkers, mv in *. destruct (Nat.ltb_spec die from) as [Hdf|Hdf]; simpl.
    + specialize (Ht Hdf). destruct (Z.eqb_spec (pt p (from - die)) (-1)) as [E|E]; simpl;
      rewrite ?(sumZ_upd (fun v => Z.max 0 (-v)) _ _ 0) by (rewrite ?upd_length; lia);
      rewrite ?nth_upd by (rewrite ?upd_length; lia);
      repeat match goal with |- context [(?a =? ?b)%nat] => destruct (Nat.eqb_spec a b); try lia end;
      fold (pt p (from - die)) (pt p from) (pt p 0); lia.
    + rewrite (sumZ_upd (fun v => Z.max 0 (-v)) _ _ 0) by lia. fold (pt p from). lia.
  - rewrite pt_mv by lia. destruct (Nat.eqb_spec 25 from); [subst; lia|].
    destruct (Nat.ltb_spec die from); simpl; auto.
    destruct (Nat.eqb_spec 25 (from - die)); [lia|]. auto.
  - rewrite pt_mv by lia. destruct (Nat.eqb_spec 0 from); [subst; lia|].
    destruct (Nat.ltb_spec die from); simpl; auto.
    destruct (Nat.eqb_spec 0 (from - die)); [lia|]. destruct (_ =? _); lia.
Qed.

Lemma moved_iff p die from q :
  length (pips p) = 26%nat -> (1 <= from <= 25)%nat -> (1 <= die)%nat ->
  moved p die from q <-> q = mv p die from.
Proof.
  intros Hl Hf Hd. split.
  - intros M. apply position_ext.
    + rewrite mv_turn. apply (mvd_turn M).
    + rewrite mv_xoff. apply (mvd_xoff M).
    + rewrite mv_ooff. apply (mvd_ooff M).
    + apply (mvd_len M).
    + apply mv_length; auto.
    + intros i Hi. rewrite pt_mv by auto.
      pose proof (mvd_from M) as M1. pose proof (mvd_land M) as M2. pose proof (mvd_hit M) as M3.
      pose proof (mvd_nohit M) as M4. pose proof (mvd_rest M) as M5. unfold hits in *.
      destruct (Nat.eqb_spec i from) as [->|N1]; auto.
      destruct (Nat.ltb_spec die from) as [L|L]; simpl.
      * destruct (Nat.eqb_spec i (from - die)) as [->|N2].
        -- destruct (Z.eqb_spec (pt p (from - die)) (-1)) as [E|E]; [apply M3; auto|auto].
        -- destruct (Nat.eqb_spec i 0) as [->|N3]; simpl.
           ++ destruct (Z.eqb_spec (pt p (from - die)) (-1)) as [E|E]; [apply M3; auto|].
              apply M4. tauto.
           ++ apply M5; [lia|auto|]. intros [_ H]; auto.
      * destruct (Nat.eq_dec i 0) as [->|N3]; [apply M4|apply M5]; auto; lia.
  - intros ->. constructor.
    + apply mv_turn.
    + apply mv_length; auto.
    + apply mv_xoff.
    + apply mv_ooff.
    + rewrite pt_mv by auto. rewrite Nat.eqb_refl. auto.
    + intros L E. rewrite pt_mv by auto. destruct (Nat.eqb_spec (from - die) from); [lia|].
      apply Nat.ltb_lt in L. rewrite L, Nat.eqb_refl. simpl.
      destruct (Z.eqb_spec (pt p (from - die)) (-1)); lia.
    + intros [L E]. rewrite !pt_mv by auto. destruct (Nat.eqb_spec (from - die) from); [lia|].
      destruct (Nat.eqb_spec 0 from); [lia|]. destruct (Nat.eqb_spec 0 (from - die)); [lia|].
      apply Nat.ltb_lt in L. rewrite L, Nat.eqb_refl. simpl. rewrite E. auto.
    + intros H. rewrite pt_mv by auto. destruct (Nat.eqb_spec 0 from); [lia|].
      unfold hits in H. destruct (Nat.ltb_spec die from) as [L|L]; simpl; auto.
      destruct (Nat.eqb_spec 0 (from - die)); [lia|].
      destruct (Z.eqb_spec (pt p (from - die)) (-1)); auto. tauto.
    + intros i Hi N1 N2. rewrite pt_mv by auto. destruct (Nat.eqb_spec i from); [congruence|].
      destruct (Nat.ltb_spec die from) as [L|L]; simpl; auto.
      destruct (Nat.eqb_spec i (from - die)); [tauto|].
      destruct (Nat.eqb_spec i 0); simpl; auto; lia.
Qed.

(** ** The legality tests of the code *)

Definition cm (p : position) (die from : nat) : bool :=
  if pt p from <? 1 then false
  else if (die <? from)%nat then -2 <? pt p (from - die) else true.

Lemma cm_ret m p die from :
  length (pips p) = 26%nat -> (from <= 25)%nat ->
  can_move_when_bearoff_is_legal m p from die = Ret (cm p die from).
Proof.
  intros Hl Hf. unfold can_move_when_bearoff_is_legal, cm.
  rewrite (index_ret _ 0) by lia. fold (pt p from). rewrite bind_ret.
  destruct (_ <? 1); auto. destruct (Nat.ltb_spec die from); auto.
  rewrite usub_ret by lia. rewrite bind_ret. rewrite (index_ret _ 0) by lia. reflexivity.
Qed.

Lemma cm_pre p die from : (1 <= from <= 25)%nat -> cm p die from = true <-> pre p die from.
Proof.
  intros Hf. unfold cm, pre. destruct (Z.ltb_spec (pt p from) 1); [split; [discriminate|lia]|].
  destruct (Nat.ltb_spec die from); rewrite ?Z.ltb_lt; split; intuition; lia.
Qed.

Definition legalb (p : position) (die from : nat) : bool :=
  if Bool.eqb (from =? X_BAR)%nat (0 <? pt p 25) then
    if pt p from <? 1 then false
    else if (die <? from)%nat then -2 <? pt p (from - die)
    else if (from =? die)%nat then negb (existsb (fun x => 0 <? x) (slice (pips p) 7 X_BAR))
    else negb (existsb (fun x => 0 <? x) (slice (pips p) (from + 1) X_BAR))
  else false.

Lemma can_move_ret m p die from :
  length (pips p) = 26%nat -> (from <= 25)%nat -> (die <= 6)%nat ->
  can_move m p from die = Ret (legalb p die from).
Proof.
  intros Hl Hf Hd. unfold can_move, legalb, can_move_internally, X_BAR.
  rewrite (index_ret _ 0) by lia. fold (pt p 25). rewrite bind_ret.
  destruct (Bool.eqb _ _); auto.
  rewrite (index_ret _ 0) by lia. fold (pt p from). rewrite bind_ret.
  destruct (_ <? 1); auto. destruct (Nat.ltb_spec die from).
  - rewrite usub_ret by lia. rewrite bind_ret. rewrite (index_ret _ 0) by lia. reflexivity.
  - destruct (Nat.eqb_spec from die); auto.
    destruct (Nat.ltb_spec 25 (from + 1)); [lia|]. reflexivity.
Qed.

Lemma legalb_spec p die from :
  length (pips p) = 26%nat -> pt p 0 <= 0 -> (from <= 25)%nat -> valid_die die ->
  legalb p die from = true <-> may_move p die from.
Proof.
  intros Hl H0 Hf [Hd1 Hd2]. unfold legalb, may_move, X_BAR.
  destruct (Nat.eqb_spec from 25) as [->|Nf]; simpl.
  - destruct (Z.ltb_spec 0 (pt p 25)); simpl; [|split; [discriminate|lia]].
    destruct (Z.ltb_spec (pt p 25) 1); [lia|].
    destruct (Nat.ltb_spec die 25); [|lia]. rewrite Z.ltb_lt. split; intuition; lia.
  - destruct (Z.ltb_spec 0 (pt p 25)) as [B|B]; simpl; [split; [discriminate|lia]|].
    destruct (Z.ltb_spec (pt p from) 1); [split; [discriminate|lia]|].
    assert (from <> 0%nat) by (intros ->; lia).
    destruct (Nat.ltb_spec die from).
    + rewrite Z.ltb_lt. split; intuition; lia.
    + destruct (Nat.eqb_spec from die) as [->|Nd]; rewrite Bool.negb_true_iff;
        rewrite (existsb_slice_false _ _ _ 0) by lia.
      * split.
        -- intros A. repeat split; try lia; auto. intros i Hi.
           destruct (Nat.eq_dec i 25) as [->|]; [lia|].
           specialize (A i ltac:(lia)). apply Z.ltb_ge in A. exact A.
        -- intros (_ & _ & _ & _ & A) i Hi. apply Z.ltb_ge. apply (proj1 (A ltac:(lia)) i). lia.
      * split.
        -- intros A.
           assert (A' : forall i, (from < i <= 25)%nat -> pt p i <= 0).
           { intros i Hi. destruct (Nat.eq_dec i 25) as [->|]; [lia|].
             specialize (A i ltac:(lia)). apply Z.ltb_ge in A. exact A. }
           repeat split; try lia; auto. intros i Hi. apply A'. lia.
        -- intros (_ & _ & _ & _ & A) i Hi. apply Z.ltb_ge.
           apply (proj2 (A ltac:(lia)) ltac:(lia) i). lia.
Qed.

Lemma legalb_reflect N p die from : wf N p -> (from <= 25)%nat -> valid_die die ->
  Bool.reflect (may_move p die from) (legalb p die from).
Proof.
  intros W Hf Hd. apply Bool.iff_reflect. symmetry.
  apply legalb_spec; auto; apply W.
Qed.

Lemma may_move_range p die from : may_move p die from -> (1 <= from <= 25)%nat.
Proof. unfold may_move. tauto. Qed.

Lemma may_move_dec N p die from : wf N p -> valid_die die ->
  may_move p die from \/ ~ may_move p die from.
Proof.
  intros W Hd. destruct (Nat.le_gt_cases from 25) as [H|H].
  - destruct (legalb_reflect W H Hd); auto.
  - right. intros M. apply may_move_range in M. lia.
Qed.

(** With an empty bar, the loop bound of the code plus its weak test is exactly the rule. *)
Lemma smallest_pip_spec N p die i :
  wf N p -> pt p 25 = 0 -> valid_die die -> (i <= 24)%nat ->
  may_move p die i <-> (smallest_pip_to_check p die <= i)%nat /\ cm p die i = true.
Proof.
  intros W Hb [Hd1 Hd2] Hi. pose proof (wf_len W) as Hl. pose proof (wf_obar W) as H0.
  unfold smallest_pip_to_check.
  destruct (rposition_of _ (pips p)) as [b|] eqn:E.
  - apply (fun e => rposition_Some _ _ 0 e) in E. destruct E as (Eb & Ep & Eh).
    rewrite Hl in *. apply Z.ltb_lt in Ep. fold (pt p b) in Ep.
    assert (Eh' : forall j, (b < j < 26)%nat -> pt p j <= 0).
    { intros j Hj. specialize (Eh j Hj). apply Z.ltb_ge in Eh. exact Eh. }
    assert (b <> 0%nat) by (intros ->; lia). assert (b <> 25%nat) by (intros ->; lia).
    unfold may_move, cm.
    destruct (Z.ltb_spec (pt p i) 1) as [P|P]; [split; [lia|intros [_ F]; discriminate]|].
    assert (i <> 0%nat) by (intros ->; lia).
    assert (i <= b)%nat. { destruct (Nat.le_gt_cases i b); auto. specialize (Eh' i); lia. }
    destruct (Nat.ltb_spec die i) as [L|L].
    + rewrite Z.ltb_lt. split; [|intuition; lia].
      intros (A1 & A2 & A3 & A4 & A5). split; [|auto]. destruct (Nat.ltb_spec 6 b); lia.
    + split.
      * intros (A1 & A2 & A3 & A4 & A5). split; auto. destruct (A5 L) as [C1 C2].
        destruct (Nat.ltb_spec 6 b); [specialize (C1 b); lia|].
        destruct (Nat.eq_dec i die); [lia|]. specialize (C2 ltac:(lia)).
        destruct (Nat.eq_dec b i); [lia|]. specialize (C2 b). lia.
      * intros [A _]. destruct (Nat.ltb_spec 6 b); [lia|].
        repeat split; try lia.
        -- intros j Hj. apply Eh'. lia.
        -- intros Hlt j Hj. apply Eh'. lia.
  - pose proof (rposition_None _ _ 0 E) as A. rewrite Hl in A. unfold may_move, cm.
    specialize (A i ltac:(lia)). fold (pt p i) in A.
    destruct (Z.ltb_spec (pt p i) 1); [|apply Z.ltb_ge in A; lia].
    split; [lia|]. intros [_ F]; discriminate.
Qed.

Lemma smallest_pip_pos N p die : wf N p -> valid_die die -> (1 <= smallest_pip_to_check p die)%nat.
Proof.
  intros W [Hd1 Hd2]. unfold smallest_pip_to_check.
  destruct (rposition_of _ (pips p)) as [b|] eqn:E; [|lia].
  apply (fun e => rposition_Some _ _ 0 e) in E. destruct E as (Eb & Ep & Eh).
  assert (b <> 0%nat). { intros ->. apply Z.ltb_lt in Ep. pose proof (wf_obar W). unfold pt in *. lia. }
  destruct (_ <? _)%nat; lia.
Qed.
