(** C90: how long games last. *)
From Verif Require Import SpecRace RaceFacts PipFacts PropPosition PropMoves PropGame PropRace PropLength PropReplay GameFacts VariantFacts.
From Verif Require Import SpecHowLong HowLongData.
From Verif Require PropEnd.
From Coq Require Import Permutation.
Unset Implicit Arguments.
Open Scope Z_scope.

(** ** Single moves needed *)
Definition mx (i : nat) (v : Z) : Z := Z.of_nat ((i + 5) / 6) * Z.max 0 v.
Definition mo (i : nat) (v : Z) : Z := Z.of_nat ((25 - i + 5) / 6) * Z.max 0 (- v).

Lemma x_moves_ws p : length (pips p) = 26%nat -> x_moves_needed p = ws mx 0 (pips p).
Proof. intros L. rewrite ws_seq, L. reflexivity. Qed.
Lemma o_moves_ws p : length (pips p) = 26%nat -> o_moves_needed p = ws mo 0 (pips p).
Proof. intros L. rewrite ws_seq, L. reflexivity. Qed.

Lemma sixth_step a d : (1 <= d <= 6)%nat -> (d < a)%nat -> ((a + 5) / 6 <= S ((a - d + 5) / 6))%nat.
Proof.
  intros D L. transitivity ((a - d + 5 + 1 * 6) / 6)%nat.
  - apply Nat.div_le_mono; lia.
  - rewrite Nat.div_add by lia. lia.
Qed.
Lemma sixth_last a d : (1 <= d <= 6)%nat -> (a <= d)%nat -> ((a + 5) / 6 <= 1)%nat.
Proof. intros D L. transitivity (11 / 6)%nat; [apply Nat.div_le_mono; lia|]. apply Nat.leb_le. reflexivity. Qed.
Lemma sixth_mono a b : (a <= b)%nat -> ((a + 5) / 6 <= (b + 5) / 6)%nat.
Proof. intros L. apply Nat.div_le_mono; lia. Qed.

Lemma x_moves_mv N p d a : wf N p -> valid_die d -> pre p d a -> x_moves_needed p - 1 <= x_moves_needed (mv p d a).
Proof.
  intros W V (Ha & Hp & Ht). pose proof V as [V1 V2]. pose proof (wf_len W) as L. pose proof (wf_obar W) as OB.
  rewrite !x_moves_ws by (rewrite ?mv_length; auto). unfold mv.
  destruct (Nat.ltb_spec d a) as [H|H].
  - specialize (Ht H). pose proof (sixth_step a d V H) as S6.
    destruct (Z.eqb_spec (pt p (a - d)) (-1)) as [E|E]; simpl;
    rewrite !ws_upd by (rewrite ?upd_length; lia); rewrite !nth_upd by (rewrite ?upd_length; lia);
    unfold mx; cbn [Nat.add]; fold (pt p a) (pt p (a - d)) (pt p 0).
    + destruct (Nat.eqb_spec (a - d) a); [lia|]. destruct (Nat.eqb_spec 0 (a - d)); [lia|].
      destruct (Nat.eqb_spec 0 a); [lia|]. fold (pt p (a - d)). rewrite E.
      set (u := ((a + 5) / 6)%nat) in *. set (t := ((a - d + 5) / 6)%nat) in *. clearbody u t.
      rewrite (Z.max_r 0 (pt p a)), (Z.max_r 0 (pt p a - 1)) by lia.
      rewrite (Z.max_l 0 (pt p 0)), (Z.max_l 0 (pt p 0 - 1)) by lia. cbn [Z.max Z.compare]. nia.
    + destruct (Nat.eqb_spec (a - d) a); [lia|]. fold (pt p (a - d)).
      set (u := ((a + 5) / 6)%nat) in *. set (t := ((a - d + 5) / 6)%nat) in *. clearbody u t.
      rewrite (Z.max_r 0 (pt p a)), (Z.max_r 0 (pt p a - 1)) by lia.
      rewrite (Z.max_r 0 (pt p (a - d))), (Z.max_r 0 (pt p (a - d) + 1)) by lia. nia.
  - simpl. rewrite ws_upd by lia. pose proof (sixth_last a d V H) as S6. unfold mx. cbn [Nat.add]. fold (pt p a).
    set (u := ((a + 5) / 6)%nat) in *. clearbody u.
    rewrite (Z.max_r 0 (pt p a)), (Z.max_r 0 (pt p a - 1)) by lia. nia.
Qed.

Lemma o_moves_mv N p d a : wf N p -> valid_die d -> pre p d a -> o_moves_needed p <= o_moves_needed (mv p d a).
Proof.
  intros W V (Ha & Hp & Ht). pose proof V as [V1 V2]. pose proof (wf_len W) as L. pose proof (wf_obar W) as OB.
  rewrite !o_moves_ws by (rewrite ?mv_length; auto). unfold mv.
  destruct (Nat.ltb_spec d a) as [H|H].
  - specialize (Ht H). destruct (Z.eqb_spec (pt p (a - d)) (-1)) as [E|E]; simpl;
    rewrite !ws_upd by (rewrite ?upd_length; lia); rewrite !nth_upd by (rewrite ?upd_length; lia);
    unfold mo; cbn [Nat.add]; fold (pt p a) (pt p (a - d)) (pt p 0).
    + destruct (Nat.eqb_spec (a - d) a); [lia|]. destruct (Nat.eqb_spec 0 (a - d)); [lia|].
      destruct (Nat.eqb_spec 0 a); [lia|]. fold (pt p (a - d)). rewrite E.
      pose proof (sixth_mono (25 - (a - d)) (25 - 0) ltac:(lia)) as S6.
      set (u := ((25 - a + 5) / 6)%nat) in *. set (t := ((25 - (a - d) + 5) / 6)%nat) in *.
      set (b := ((25 - 0 + 5) / 6)%nat) in *. clearbody u t b.
      rewrite (Z.max_l 0 (- pt p a)), (Z.max_l 0 (- (pt p a - 1))) by lia.
      rewrite (Z.max_r 0 (- pt p 0)), (Z.max_r 0 (- (pt p 0 - 1))) by lia. cbn [Z.max Z.compare Z.opp]. nia.
    + destruct (Nat.eqb_spec (a - d) a); [lia|]. fold (pt p (a - d)).
      rewrite (Z.max_l 0 (- pt p a)), (Z.max_l 0 (- (pt p a - 1))) by lia.
      rewrite (Z.max_l 0 (- pt p (a - d))), (Z.max_l 0 (- (pt p (a - d) + 1))) by lia. lia.
  - simpl. rewrite ws_upd by lia. unfold mo. cbn [Nat.add]. fold (pt p a).
    rewrite (Z.max_l 0 (- pt p a)), (Z.max_l 0 (- (pt p a - 1))) by lia. lia.
Qed.

Lemma plays_moves N ds : forall p r, wf N p -> Forall valid_die ds -> plays ds p r ->
  x_moves_needed p - Z.of_nat (length ds) <= x_moves_needed r /\ o_moves_needed p <= o_moves_needed r.
Proof.
  induction ds as [|d ds IH]; intros p r W F P; inversion P; subst.
  - cbn. lia.
  - inversion F as [|? ? V F']; subst. pose proof (wf_len W) as L.
    match goal with X : may_move _ _ _ |- _ => rename X into M end.
    match goal with X : moved _ _ _ _ |- _ => rename X into Q end.
    pose proof (may_move_range M) as R. pose proof V as [V1 V2].
    apply moved_iff in Q; auto. subst. pose proof (may_move_pre M) as PR.
    match goal with X : plays _ (mv _ _ _) _ |- _ => rename X into P' end.
    destruct (IH _ _ (may_wf W V M) F' P') as [A B].
    pose proof (x_moves_mv _ _ _ _ W V PR). pose proof (o_moves_mv _ _ _ _ W V PR). cbn [length]. lia.
Qed.

Lemma x_moves_flip p : length (pips p) = 26%nat -> x_moves_needed (flipP p) = o_moves_needed p.
Proof.
  intros L. unfold x_moves_needed, o_moves_needed.
  rewrite <- (sumZ_seq_rev (fun i => Z.of_nat ((25 - i + 5) / 6) * Z.max 0 (- pt p i)) 25).
  f_equal. apply map_ext_in. intros i Hi. apply in_seq in Hi.
  rewrite pt_flipP by (auto; lia). replace (25 - (25 - i))%nat with i by lia. reflexivity.
Qed.
Lemma o_moves_flip p : length (pips p) = 26%nat -> o_moves_needed (flipP p) = x_moves_needed p.
Proof.
  intros L. rewrite <- (flipP_involutive p) at 2. rewrite x_moves_flip; auto. rewrite flipP_length. auto.
Qed.

Definition moves_of (d : dice) : Z := match d with Mixed _ _ => 2 | Double _ => 4 end.
Lemma uses_moves d ds : uses d ds -> Z.of_nat (length ds) <= moves_of d.
Proof.
  intros (rest & U). apply Permutation_length in U. rewrite app_length in U.
  destruct d; cbn in *; lia.
Qed.
Lemma ply_moves k v d w : vwf k v -> valid_dice d -> vlegal d v w ->
  x_moves_needed (board_of v) - moves_of d <= o_moves_needed (board_of w) /\
  o_moves_needed (board_of v) <= x_moves_needed (board_of w).
Proof.
  intros (p & -> & W) V L. destruct (vlegal_wf _ W V L) as (r & -> & (ds & U & P & _) & Wr).
  rewrite !board_of_tag, o_moves_flip, x_moves_flip by apply Wr.
  destruct (plays_moves _ _ _ _ W (uses_valid V U) P) as [A B]. pose proof (uses_moves _ _ U). lia.
Qed.
Lemma moves_4 d : moves_of d <= 4. Proof. destruct d; cbn; lia. Qed.

Lemma moves_left k v n w : vwf k v -> played n v w ->
  (if Nat.odd n then o_moves_needed (board_of w) else x_moves_needed (board_of w)) >=
    x_moves_needed (board_of v) - 4 * Z.of_nat ((n + 1) / 2) /\
  (if Nat.odd n then x_moves_needed (board_of w) else o_moves_needed (board_of w)) >=
    o_moves_needed (board_of v) - 4 * Z.of_nat (n / 2).
Proof.
  intros W P. induction P as [v|n v w u d O V L P IH].
  - cbn [Nat.odd Nat.even negb Nat.add]. replace (1 / 2)%nat with 0%nat by reflexivity. replace (0 / 2)%nat with 0%nat by reflexivity. lia.
  - destruct (ply_moves k v d w W V L) as [A B]. destruct (IH (vlegal_vwf W V L)) as [C D]. pose proof (moves_4 d).
    rewrite Nat.odd_succ, <- Nat.negb_odd.
    replace (S n + 1)%nat with (n + 1 * 2)%nat by lia. rewrite Nat.div_add by lia.
    replace (S n) with (n + 1)%nat by lia.
    destruct (Nat.odd n); cbn [negb]; lia.
Qed.

Lemma finished_moves N p : wf N p -> o_off p = N -> o_moves_needed p = 0.
Proof.
  intros W E. pose proof (wf_o W) as H. unfold o_checkers in H. rewrite E in H.
  assert (A : forall i, (i < 26)%nat -> 0 <= pt p i).
  { intros i Hi. pose proof (@wf_pt1_o N p i W Hi). lia. }
  unfold o_moves_needed. assert (B : forall l, (forall i, In i l -> (i < 26)%nat) ->
    sumZ (map (fun i => Z.of_nat ((25 - i + 5) / 6) * Z.max 0 (- pt p i)) l) = 0).
  { induction l as [|i l IH]; intros Hl; [reflexivity|].
    pose proof (A i (Hl i (or_introl eq_refl))).
    change (Z.of_nat ((25 - i + 5) / 6) * Z.max 0 (- pt p i) + sumZ (map (fun i => Z.of_nat ((25 - i + 5) / 6) * Z.max 0 (- pt p i)) l) = 0).
    rewrite IH by (intros; apply Hl; right; auto). rewrite Z.max_l by lia. lia. }
  apply B. intros i Hi. apply in_seq in Hi. lia.
Qed.

(** Whoever wins has just moved. *)
Lemma winner_moved k v n w : vwf k v -> vongoing v -> played n v w -> ~ vongoing w -> o_off (board_of w) = checkers k.
Proof.
  intros W O P F. induction P as [v|n v w u d Ov V L P IH]; [contradiction|].
  pose proof (vlegal_vwf W V L) as Ww. destruct (over_dec Ww) as [Ow|Nw]; [auto|].
  inversion P; subst; [|contradiction].
  destruct W as (p & -> & W). rewrite vongoing_tag in O. pose proof (legal_not_both k W O V L) as X.
  destruct Ww as (q & -> & Wq). rewrite board_of_tag in *. rewrite vongoing_tag in Nw.
  pose proof (wf_off_bounds Wq). unfold ongoing in Nw. lia.
Qed.

(** ** C90 *)

(** A game cannot end before its winner has had a play for every four single moves needed. *)
Theorem C90_winner_needs : forall k v n w, vwf k v -> vongoing v -> played n v w -> ~ vongoing w ->
  if Nat.odd n then x_moves_needed (board_of v) <= 4 * Z.of_nat ((n + 1) / 2)
  else o_moves_needed (board_of v) <= 4 * Z.of_nat (n / 2).
Proof.
  intros k v n w W O P F. destruct (moves_left k v n w W P) as [A B].
  assert (Z0 : o_moves_needed (board_of w) = 0).
  { pose proof (winner_moved k v n w W O P F) as H.
    destruct (played_vwf W P) as (q & -> & Wq). rewrite board_of_tag in *. exact (finished_moves _ q Wq H). }
  destruct (Nat.odd n); lia.
Qed.

Lemma start_moves k : x_moves_needed (board_of (start_position k)) =
    match k with Backgammon => 34 | Nackgammon => 38 | Longgammon => 60 | Hypergammon2 => 8 | Hypergammon => 12 | Hypergammon4 => 16 | Hypergammon5 => 20 end /\
  o_moves_needed (board_of (start_position k)) = x_moves_needed (board_of (start_position k)).
Proof. destruct k; vm_compute; split; reflexivity. Qed.

Lemma odd_half n : Nat.odd n = true -> exists j, n = (2 * j + 1)%nat /\ ((n + 1) / 2)%nat = S j.
Proof.
  intros Od. apply Nat.odd_spec in Od. destruct Od as [j ->]. exists j. split; [reflexivity|].
  replace (2 * j + 1 + 1)%nat with (S j * 2)%nat by lia. apply Nat.div_mul. lia.
Qed.
Lemma even_half n : Nat.odd n = false -> exists j, n = (2 * j)%nat /\ (n / 2)%nat = j.
Proof.
  intros Od. assert (Ev : Nat.even n = true) by (rewrite <- Nat.negb_odd, Od; reflexivity).
  apply Nat.even_spec in Ev. destruct Ev as [j ->]. exists j. split; [reflexivity|].
  replace (2 * j)%nat with (j * 2)%nat by lia. apply Nat.div_mul. lia.
Qed.

Lemma not_shorter k n : game_of k n -> (fewest k <= n)%nat.
Proof.
  intros (w & P & F). destruct (start_wf k) as [W O]. pose proof (C90_winner_needs k _ n w W O P F) as H.
  destruct (start_moves k) as [Ex Eo]. rewrite Eo, Ex in H. clear Ex Eo P F W O.
  destruct (Nat.odd n) eqn:Od.
  - destruct (odd_half n Od) as (j & -> & E). rewrite E in H. destruct k; cbn [fewest]; lia.
  - destruct (even_half n Od) as (j & -> & E). rewrite E in H. destruct k; cbn [fewest]; lia.
Qed.

Lemma recorded_played v l u : recorded v l u -> played (length l) v u.
Proof. induction 1 as [|v d w l u O V L R IH]; cbn [length]; econstructor; eauto. Qed.

Lemma not_shorter_opened k n : opened_game_of k n -> (fewest_opened k <= n)%nat.
Proof.
  intros (l & u & R & M & E & F). destruct (start_wf k) as [W O].
  assert (H : if Nat.odd n then x_moves_needed (board_of (start_position k)) <= 4 * Z.of_nat ((n + 1) / 2) - 2
              else o_moves_needed (board_of (start_position k)) <= 4 * Z.of_nat (n / 2)).
  { pose proof (C90_winner_needs k _ n u W O) as H0. rewrite <- E in H0 |- *.
    specialize (H0 (recorded_played _ _ _ R) F).
    destruct (Nat.odd (length l)) eqn:Od; [|exact H0].
    inversion R as [|v d w l' u' O' V L R']; subst; [contradiction|].
    cbn [opens_mixed] in M. destruct (ply_moves k _ _ _ W V L) as [A B].
    assert (M2 : moves_of d = 2) by (destruct d; [reflexivity|discriminate]). rewrite M2 in A.
    pose proof (vlegal_vwf W V L) as Ww. destruct (moves_left k _ _ _ Ww (recorded_played _ _ _ R')) as [_ D].
    pose proof (winner_moved k _ _ _ W O (recorded_played _ _ _ R) F) as Wo.
    destruct (played_vwf Ww (recorded_played _ _ _ R')) as (q & -> & Wq). rewrite board_of_tag in *.
    cbn [length] in *. rewrite Nat.odd_succ, <- Nat.negb_odd in Od. destruct (Nat.odd (length l')) eqn:O2; [discriminate|].
    pose proof (finished_moves _ q Wq Wo). destruct (even_half _ O2) as (j & Ej & Ej').
    replace (S (length l') + 1)%nat with (length l' + 1 * 2)%nat by lia. rewrite Nat.div_add by lia. lia. }
  destruct (start_moves k) as [Ex Eo]. rewrite Eo, Ex in H. clear Ex Eo R M E F W O l u.
  destruct (Nat.odd n) eqn:Od.
  - destruct (odd_half n Od) as (j & -> & E). rewrite E in H. destruct k; cbn [fewest_opened]; lia.
  - destruct (even_half n Od) as (j & -> & E). rewrite E in H. destruct k; cbn [fewest_opened]; lia.
Qed.

(** ** Checking the witness games *)
Definition on_b (v : vpos) : bool :=
  let N := checkers (vp_variant v) in (x_off (board_of v) <? N) && (o_off (board_of v) <? N).
Definition die_b (a : nat) : bool := (1 <=? a)%nat && (a <=? 6)%nat.
Definition dice_b (d : dice) : bool :=
  match d with Double a => die_b a | Mixed b s => die_b b && die_b s && (s <? b)%nat end.
Fixpoint follow (v : vpos) (l : line) : option (list (dice * vpos) * vpos) :=
  match l with
  | [] => Some ([], v)
  | (d, i) :: l' =>
      if on_b v && dice_b d then
        match legal_positions Debug v d with
        | Ret c => match nth_error c i with
                   | Some w => match follow w l' with Some (r, u) => Some ((d, w) :: r, u) | None => None end
                   | None => None
                   end
        | Panic _ => None
        end
      else None
  end.

Lemma on_b_true k v : vwf k v -> on_b v = true -> vongoing v.
Proof.
  intros (p & -> & W) H. unfold on_b in H. rewrite board_of_tag in H.
  replace (vp_variant (tag k p)) with k in H by (destruct k; reflexivity).
  rewrite vongoing_tag. unfold ongoing. apply andb_true_iff in H. lia.
Qed.
Lemma on_b_false k v : vwf k v -> on_b v = false -> ~ vongoing v.
Proof.
  intros (p & -> & W) H. unfold on_b in H. rewrite board_of_tag in H.
  replace (vp_variant (tag k p)) with k in H by (destruct k; reflexivity).
  rewrite vongoing_tag. unfold ongoing. apply andb_false_iff in H. lia.
Qed.
Lemma dice_b_true d : dice_b d = true -> valid_dice d.
Proof.
  destruct d as [b s|a]; unfold dice_b, die_b, valid_dice, valid_die; intros H.
  - apply andb_true_iff in H. destruct H as [H1 H3]. apply andb_true_iff in H1. destruct H1 as [H1 H2].
    apply andb_true_iff in H1, H2. destruct H1 as [A B], H2 as [C D].
    apply Nat.leb_le in A, B, C, D. apply Nat.ltb_lt in H3. lia.
  - apply andb_true_iff in H. destruct H as [A B]. apply Nat.leb_le in A, B. lia.
Qed.

Lemma follow_recorded k : forall l v r u, vwf k v -> follow v l = Some (r, u) ->
  recorded v r u /\ length r = length l /\ map fst r = map fst l /\ vwf k u.
Proof.
  induction l as [|[d i] l IH]; intros v r u W H; cbn [follow] in H.
  - inversion H; subst. split; [constructor|auto].
  - destruct (on_b v && dice_b d) eqn:B; [|discriminate]. apply andb_true_iff in B. destruct B as [O V].
    apply (on_b_true k) in O; auto. apply dice_b_true in V.
    destruct (legal_positions Debug v d) as [c|] eqn:EL; [|discriminate].
    destruct (nth_error c i) as [w|] eqn:EN; [|discriminate].
    destruct (follow w l) as [[r' u']|] eqn:EF; [|discriminate]. inversion H; subst.
    destruct (@C01_legal_positions_exact Debug k v d W O V) as (c' & E' & HL). rewrite EL in E'. inversion E'; subst c'.
    pose proof (proj1 (HL w) (nth_error_In _ _ EN)) as LW. pose proof (vlegal_vwf W V LW) as Ww.
    destruct (IH w r' u Ww EF) as (R & L & M & Wu).
    split; [econstructor; eauto|]. cbn [length map fst]. split; [lia|]. split; [f_equal; exact M|exact Wu].
Qed.

Lemma recorded_app v l w l' u : recorded v l w -> recorded w l' u -> recorded v (l ++ l') u.
Proof. induction 1; intros; cbn [app]; [assumption|econstructor; eauto]. Qed.

Definition peak (k : variant) : vpos :=
  match follow (start_position k) (opening k) with Some (_, v) => v | None => start_position k end.
Definition opens (l : line) : bool := match l with (Mixed _ _, _) :: _ => true | _ => false end.

Lemma check_opening k : match follow (start_position k) (opening k) with Some _ => on_b (peak k) && opens (opening k) | None => false end = true.
Proof. destruct k; vm_compute; reflexivity. Qed.
Lemma check_round k : match follow (peak k) (round k) with Some (_, v) => v = peak k | None => False end /\ length (round k) = 2%nat.
Proof. destruct k; vm_compute; split; reflexivity. Qed.
Lemma check_finish k : match follow (peak k) (finish0 k), follow (peak k) (finish1 k) with Some (_, u), Some (_, u') => on_b u || on_b u' | _, _ => true end = false.
Proof. destruct k; vm_compute; reflexivity. Qed.
Lemma check_quick k : match follow (start_position k) (quick k) with Some (_, u) => on_b u | _ => true end = false /\ length (quick k) = fewest k.
Proof. destruct k; vm_compute; split; reflexivity. Qed.
Lemma check_others k : forallb (fun g => match follow (start_position k) g with Some (_, u) => negb (on_b u) && opens g | _ => false end) (other_games k) = true.
Proof. destruct k; vm_compute; reflexivity. Qed.

Lemma opens_opens l r : opens l = true -> map fst r = map fst l -> opens_mixed r.
Proof.
  destruct l as [|[d i] l]; [discriminate|]. destruct r as [|[d' w] r]; [discriminate|]. intros H E. cbn [map fst] in E.
  inversion E; subst. destruct d; [reflexivity|discriminate].
Qed.
Lemma opens_app r r' : r <> [] -> opens_mixed r -> opens_mixed (r ++ r').
Proof. destruct r as [|[d w] r]; [congruence|auto]. Qed.

Lemma peak_facts k : exists r, recorded (start_position k) r (peak k) /\ length r = length (opening k) /\ opens_mixed r /\ r <> [] /\
  vwf k (peak k) /\ vongoing (peak k).
Proof.
  destruct (start_wf k) as [W O]. pose proof (check_opening k) as C. unfold peak in *.
  destruct (follow (start_position k) (opening k)) as [[r v]|] eqn:E; [|discriminate].
  apply andb_true_iff in C. destruct C as [C1 C2].
  destruct (follow_recorded k _ _ _ _ W E) as (R & L & M & Wv).
  exists r. split; [exact R|]. split; [exact L|]. split; [exact (opens_opens _ _ C2 M)|].
  split; [intros ->; destruct (opening k); [discriminate|discriminate]|]. split; [exact Wv|exact (on_b_true k v Wv C1)].
Qed.

Lemma rounds k j : exists r, recorded (peak k) r (peak k) /\ length r = (2 * j)%nat.
Proof.
  destruct (peak_facts k) as (_ & _ & _ & _ & _ & W & O). induction j as [|j (r & R & L)].
  - exists []. split; [constructor|reflexivity].
  - destruct (check_round k) as [C C2]. destruct (follow (peak k) (round k)) as [[r2 v]|] eqn:E; [|contradiction]. subst v.
    destruct (follow_recorded k _ _ _ _ W E) as (R2 & L2 & _).
    exists (r2 ++ r). split; [exact (recorded_app _ _ _ _ _ R2 R)|]. rewrite app_length. lia.
Qed.

Lemma by_rounds k j : opened_game_of k (length (opening k) + 2 * j + length (finish0 k)) /\
  opened_game_of k (length (opening k) + 2 * j + length (finish1 k)).
Proof.
  destruct (peak_facts k) as (r & R & L & M & NE & W & O). destruct (rounds k j) as (r2 & R2 & L2).
  pose proof (check_finish k) as C.
  destruct (follow (peak k) (finish0 k)) as [[r0 u0]|] eqn:E0; [|discriminate].
  destruct (follow (peak k) (finish1 k)) as [[r1 u1]|] eqn:E1; [|discriminate].
  apply orb_false_iff in C. destruct C as [C0 C1].
  destruct (follow_recorded k _ _ _ _ W E0) as (R0 & L0 & _ & W0).
  destruct (follow_recorded k _ _ _ _ W E1) as (R1 & L1 & _ & W1). split.
  - exists (r ++ r2 ++ r0), u0. split; [exact (recorded_app _ _ _ _ _ R (recorded_app _ _ _ _ _ R2 R0))|].
    split; [apply opens_app; auto|]. split; [rewrite !app_length; lia|exact (on_b_false k u0 W0 C0)].
  - exists (r ++ r2 ++ r1), u1. split; [exact (recorded_app _ _ _ _ _ R (recorded_app _ _ _ _ _ R2 R1))|].
    split; [apply opens_app; auto|]. split; [rewrite !app_length; lia|exact (on_b_false k u1 W1 C1)].
Qed.
Lemma by_others k g : In g (other_games k) -> opened_game_of k (length g).
Proof.
  intros I. destruct (start_wf k) as [W O]. pose proof (check_others k) as C. rewrite forallb_forall in C. specialize (C g I).
  destruct (follow (start_position k) g) as [[r u]|] eqn:E; [|discriminate]. apply andb_true_iff in C. destruct C as [C1 C2].
  destruct (follow_recorded k _ _ _ _ W E) as (R & L & M & Wu). apply negb_true_iff in C1.
  exists r, u. split; [exact R|]. split; [exact (opens_opens _ _ C2 M)|]. split; [exact L|exact (on_b_false k u Wu C1)].
Qed.
(** The lengths in between. *)
Lemma between k n : (fewest_opened k <= n)%nat ->
  (exists j, n = (length (opening k) + 2 * j + length (finish0 k))%nat \/ n = (length (opening k) + 2 * j + length (finish1 k))%nat) \/
  exists g, In g (other_games k) /\ n = length g.
Proof.
  intros H.
  assert (X : existsb (fun g => (length g =? n)%nat) (other_games k) = true -> exists g, In g (other_games k) /\ n = length g).
  { intros E. apply existsb_exists in E. destruct E as (g & I & E). apply Nat.eqb_eq in E. eauto. }
  assert (Y : forall b, (length (opening k) + b <= n)%nat -> Nat.odd n = Nat.odd (length (opening k) + b) ->
              exists j, n = (length (opening k) + 2 * j + b)%nat).
  { intros b Hb Eo. exists ((n - (length (opening k) + b)) / 2)%nat.
    assert (Ev : Nat.odd (n - (length (opening k) + b)) = false) by (rewrite Nat.odd_sub by exact Hb; rewrite Eo; apply xorb_nilpotent).
    destruct (even_half _ Ev) as (i & Ei & ->). lia. }
  destruct (existsb (fun g => (length g =? n)%nat) (other_games k)) eqn:E; [right; auto|]. left. clear X.
  assert (Z : (length (opening k) + length (finish0 k) <= n)%nat /\ Nat.odd n = Nat.odd (length (opening k) + length (finish0 k)) \/
              (length (opening k) + length (finish1 k) <= n)%nat /\ Nat.odd n = Nat.odd (length (opening k) + length (finish1 k))).
  { assert (P : exists i, n = (2 * i)%nat \/ n = (2 * i + 1)%nat).
    { exists (n / 2)%nat. pose proof (Nat.div_mod n 2 ltac:(lia)). pose proof (Nat.mod_upper_bound n 2 ltac:(lia)). lia. }
    destruct P as (i & [-> | ->]).
    - left. destruct k; cbn [length opening finish0 other_games existsb fewest_opened Nat.add] in *; (split; [|rewrite Nat.odd_mul; reflexivity]);
      repeat (rewrite orb_false_iff in E); repeat match goal with X : _ /\ _ |- _ => destruct X end;
      repeat match goal with X : (_ =? _)%nat = false |- _ => apply Nat.eqb_neq in X end; lia.
    - right. destruct k; cbn [length opening finish1 other_games existsb fewest_opened Nat.add] in *; (split; [|rewrite Nat.odd_add, Nat.odd_mul; reflexivity]);
      repeat (rewrite orb_false_iff in E); repeat match goal with X : _ /\ _ |- _ => destruct X end;
      repeat match goal with X : (_ =? _)%nat = false |- _ => apply Nat.eqb_neq in X end; lia. }
  destruct Z as [[A B]|[A B]]; destruct (Y _ A B) as (j & ->); exists j; auto.
Qed.

Lemma long_enough k n : (fewest_opened k <= n)%nat -> opened_game_of k n.
Proof.
  intros H. destruct (between k n H) as [(j & [-> | ->])|(g & I & ->)].
  - apply by_rounds.
  - apply by_rounds.
  - apply by_others. exact I.
Qed.

(** Which lengths games have: every number of plies from [fewest] on, and no other. *)
Theorem C90_lengths : forall k n, game_of k n <-> (fewest k <= n)%nat.
Proof.
  intros k n. split; [apply not_shorter|]. intros H.
  destruct (le_lt_dec (fewest_opened k) n) as [L|L].
  - destruct (long_enough k n L) as (l & u & R & _ & <- & F). exists u. split; [exact (recorded_played _ _ _ R)|exact F].
  - assert (n = fewest k) by (destruct k; cbn [fewest fewest_opened] in *; lia). subst n.
    destruct (start_wf k) as [W O]. destruct (check_quick k) as [C E].
    destruct (follow (start_position k) (quick k)) as [[r u]|] eqn:EF; [|discriminate].
    destruct (follow_recorded k _ _ _ _ W EF) as (R & L' & _ & Wu). exists u.
    rewrite <- E, <- L'. split; [exact (recorded_played _ _ _ R)|exact (on_b_false k u Wu C)].
Qed.
(** The same for games whose first roll is not a double. *)
Theorem C90_opened_lengths : forall k n, opened_game_of k n <-> (fewest_opened k <= n)%nat.
Proof. intros k n. split; [apply not_shorter_opened|apply long_enough]. Qed.

Lemma recorded_prefix v l u n : recorded v l u -> (n <= length l)%nat -> exists w, recorded v (firstn n l) w /\ ((n < length l)%nat -> vongoing w).
Proof.
  intros R. revert n. induction R as [v|v d w l u O V L R IH]; intros n H; cbn [length] in *.
  - assert (n = 0%nat) by lia. subst n. exists v. split; [constructor|lia].
  - destruct n as [|n]; [exists v; split; [constructor|auto]|].
    destruct (IH n ltac:(lia)) as (x & X & Y). exists x. split; [cbn [firstn]; econstructor; eauto|intros; apply Y; lia].
Qed.
(** There is no longest game: after any number of plies some game is still going on. *)
Theorem C90_no_longest : forall k n, exists l u, recorded (start_position k) l u /\ opens_mixed l /\ length l = n /\ vongoing u.
Proof.
  intros k n. destruct (long_enough k (S n + fewest_opened k) ltac:(lia)) as (l & u & R & M & L & F).
  destruct (recorded_prefix _ _ _ n R ltac:(lia)) as (w & Rw & Ow). exists (firstn n l), w.
  split; [exact Rw|]. split; [|split; [rewrite firstn_length; lia|apply Ow; lia]].
  destruct l as [|[d x] l], n as [|n]; cbn [firstn opens_mixed] in *; auto.
Qed.

(** What [play_episode] reports for new games: whatever the dice source and policy, a finished game after [n]
    plies means [fewest_opened k <= n]; and for each such [n] there are dice and choices for which it reports
    exactly [n], as long as at least that many plies are allowed. *)
Theorem C90_episodes : forall k n,
  (forall {G S} m (D : dice_gen G) (P : policy S) max dg ps g' dg' ps' r, fair_gen D ->
     play_episode m D P max (game_new k) dg ps = Ret (GOk n, g', dg', ps') -> game_state_of m g' = Ret (GameOver r) ->
     (fewest_opened k <= n)%nat) /\
  ((fewest_opened k <= n)%nat -> exists ds ws, forall m max, (n <= max)%nat -> exists g' dg' r,
     play_episode m mock_gen replaying max (game_new k) (mock_new ds) ws = Ret (GOk n, g', dg', []) /\
     game_state_of m g' = Ret (GameOver r)).
Proof.
  intros k n. destruct (start_wf k) as [W O]. split.
  - intros G S m D P max dg ps g' dg' ps' r F E Gs. apply not_shorter_opened.
    destruct (C79_every_episode m m D P max (game_new k) dg ps n g' dg' ps' W O F E) as (l & dg2 & R & L & M & _).
    exists l, (g_position g'). split; [exact R|]. split; [exact M|]. split; [exact L|].
    apply (PropEnd.over_not m k _ r); [exact (played_vwf W (recorded_played _ _ _ R))|exact Gs].
  - intros H. destruct (long_enough k n H) as (l & u & R & M & L & F). exists (map fst l), (map snd l). intros m max Hm.
    assert (NE : l <> []) by (intros ->; cbn [length] in L; rewrite <- L in H; clear -H; destruct k; cbn [fewest_opened] in H; lia).
    assert (LM : (length l <= max)%nat) by (rewrite L; exact Hm).
    destruct (C79_replay m k _ l u max W R M (or_intror (conj NE (conj LM F)))) as (dg & E & _).
    pose proof (played_vwf W (recorded_played _ _ _ R)) as Wu.
    destruct (over_state m k u Wu) as (r & Er); [|exact F|].
    { apply (PropRace.played_not_both k _ _ _ W O (recorded_played _ _ _ R)). }
    exists {| g_variant := k; g_position := u |}, dg, r. rewrite <- L. split; [exact E|exact Er].
Qed.
(** So no number of plies is enough for sure: for every [n] there are dice and choices for which an
    episode of at most [n] plies stops after [n] with the game going on. *)
Theorem C90_cut_short : forall k n, exists ds ws, forall m, exists g' dg',
  play_episode m mock_gen replaying n (game_new k) (mock_new ds) ws = Ret (GOk n, g', dg', []) /\
  game_state_of m g' = Ret Ongoing.
Proof.
  intros k n. destruct (start_wf k) as [W O]. destruct (C90_no_longest k n) as (l & u & R & M & L & F).
  exists (map fst l), (map snd l). intros m.
  destruct (C79_replay m k _ l u n W R M (or_introl (eq_sym L))) as (dg & E & _).
  pose proof (played_vwf W (recorded_played _ _ _ R)) as Wu.
  exists {| g_variant := k; g_position := u |}, dg. rewrite L in E. split; [exact E|].
  destruct Wu as (q & -> & Wq). rewrite vongoing_tag in F. 
  unfold game_state_of. cbn [g_position]. rewrite vp_game_state_tag.
  destruct (game_state_outcome m Wq) as (s & Es & Os); [unfold not_both_won, ongoing in *; lia|]. rewrite Es. f_equal.
  destruct s as [|r]; [reflexivity|]. exfalso. unfold ongoing in F. inversion Os; lia.
Qed.

(** Cases. *)
Example C90_ex : game_of Backgammon 17 /\ ~ game_of Backgammon 16 /\ opened_game_of Hypergammon 1001 /\
  game_of Longgammon 29 /\ ~ opened_game_of Longgammon 29.
Proof.
  rewrite !C90_lengths, !C90_opened_lengths. cbn [fewest fewest_opened]. repeat split; try lia.
Qed.
Example C90_needs_ex : x_moves_needed (board_of (start_position Backgammon)) = 34 /\
  vwf Backgammon (start_position Backgammon) /\ vongoing (start_position Backgammon).
Proof. split; [vm_compute; reflexivity|]. apply start_wf. Qed.
