(** The generator for doubles is exactly the rules. *)
From Verif Require Export MixedProof DoubleMoves.
From Coq Require Import Permutation Sorted.
Open Scope Z_scope.

(** ** Sequences of moves with one die *)

Section Seq.
Variable d : nat.
Hypothesis V : valid_die d.

Fixpoint legal_seq (l : list nat) (p : position) : Prop :=
  match l with
  | [] => True
  | a :: l' => may_move p d a /\ legal_seq l' (mv p d a)
  end.

Fixpoint run (l : list nat) (p : position) : position :=
  match l with
  | [] => p
  | a :: l' => run l' (mv p d a)
  end.

Lemma run_app l1 l2 p : run (l1 ++ l2) p = run l2 (run l1 p).
Proof. revert p; induction l1; simpl; auto. Qed.

Lemma legal_seq_app l1 l2 p : legal_seq (l1 ++ l2) p <-> legal_seq l1 p /\ legal_seq l2 (run l1 p).
Proof. revert p; induction l1 as [|a l1 IH]; intros p; simpl; [tauto|]. rewrite IH. tauto. Qed.

Lemma run_wf N l p : wf N p -> legal_seq l p -> wf N (run l p).
Proof.
  revert p; induction l as [|a l IH]; simpl; auto. intros p W [M L]. apply IH; auto.
  apply may_wf; auto.
Qed.

Lemma plays_repeat N n p r : wf N p ->
  plays (repeat d n) p r <-> exists l, length l = n /\ legal_seq l p /\ r = run l p.
Proof.
  revert p; induction n as [|n IH]; intros p W; simpl.
  - rewrite plays_nil_inv. split.
    + intros ->. exists []. simpl. auto.
    + intros (l & Hl & _ & ->). destruct l; [auto|discriminate].
  - rewrite (plays_cons_iff _ _ W) by auto. split.
    + intros (a & M & P). apply IH in P; [|apply may_wf; auto]. destruct P as (l & H1 & H2 & ->).
      exists (a :: l). simpl. auto.
    + intros (l & Hl & L & ->). destruct l as [|a l]; [discriminate|]. destruct L as [M L].
      exists a. split; auto. apply IH; [apply may_wf; auto|]. exists l. simpl in Hl. auto.
Qed.

(** ** Sorting a sequence *)

Fixpoint desc (hi : nat) (l : list nat) : Prop :=
  match l with
  | [] => True
  | a :: l' => (a <= hi)%nat /\ desc a l'
  end.

Lemma desc_weaken hi hi' l : (hi <= hi')%nat -> desc hi l -> desc hi' l.
Proof. destruct l; simpl; auto. intros H [H1 H2]. split; auto. lia. Qed.

Lemma insert_seq N a l p hi : wf N p -> legal_seq (a :: l) p -> desc hi l -> (a <= hi)%nat ->
  exists l', length l' = S (length l) /\ desc hi l' /\ legal_seq l' p /\ run l' p = run (a :: l) p.
Proof.
  revert a p hi; induction l as [|b l IH]; intros a p hi W [M L] D Ha.
  - exists [a]. simpl in *. auto.
  - destruct L as [M2 L]. destruct D as [D1 D2].
    destruct (Nat.le_gt_cases b a) as [Hba|Hba].
    + exists (a :: b :: l). simpl. auto 10.
    + destruct (commute W V V (Nat.lt_le_incl _ _ Hba) M M2) as (C1 & C2 & C3).
      destruct (IH a (mv p d b) b) as (l' & L1 & L2 & L3 & L4); auto.
      * apply may_wf; auto.
      * simpl. rewrite C3. auto.
      * lia.
      * exists (b :: l'). simpl. split; [lia|]. split; auto. split; auto.
        rewrite L4. simpl. rewrite C3. auto.
Qed.

Lemma sort_seq N l p hi : wf N p -> legal_seq l p -> Forall (fun a => (a <= hi)%nat) l ->
  exists l', length l' = length l /\ desc hi l' /\ legal_seq l' p /\ run l' p = run l p.
Proof.
  revert p; induction l as [|a l IH]; intros p W L F.
  - exists []. simpl. auto.
  - destruct L as [M L]. inversion F; subst.
    destruct (IH (mv p d a)) as (l' & L1 & L2 & L3 & L4); auto; [apply may_wf; auto|].
    destruct (@insert_seq N a l' p hi) as (l2 & K1 & K2 & K3 & K4); auto; [simpl; auto|].
    exists l2. simpl. rewrite K1, L1. split; auto. split; auto. split; auto. rewrite K4.
    simpl. auto.
Qed.

(** ** All exhausted sequences have the same length *)

Lemma diamond N p a b : wf N p -> (a < b)%nat -> may_move p d a -> may_move p d b ->
  may_move (mv p d a) d b.
Proof.
  intros W L (A1 & A2 & A3 & A4 & A5) (B1 & B2 & B3 & B4 & B5). pose proof (wf_len W) as Hl.
  destruct V as [V1 V2].
  split; auto. split; [rewrite pt_mv_high; auto|]. split; [|split].
  - intros Nb. rewrite pt_mv_high by (auto; lia). auto.
  - intros L'. apply pt_mv_unblocked; auto; lia.
  - intros L'. exfalso. destruct (A5 ltac:(lia)) as [_ A6]. specialize (A6 ltac:(lia) b). lia.
Qed.

Lemma diamond2 N p a b : wf N p -> a <> b -> may_move p d a -> may_move p d b ->
  may_move (mv p d a) d b /\ may_move (mv p d b) d a /\
  mv (mv p d a) d b = mv (mv p d b) d a.
Proof.
  intros W Ne Ma Mb. destruct (Nat.lt_total a b) as [L|[E|L]]; [|congruence|].
  - pose proof (diamond W L Ma Mb) as M.
    destruct (commute W V V (Nat.lt_le_incl _ _ L) Ma M) as (C1 & C2 & C3). auto.
  - pose proof (diamond W L Mb Ma) as M.
    destruct (commute W V V (Nat.lt_le_incl _ _ L) Mb M) as (C1 & C2 & C3). auto.
Qed.

Fixpoint T (n : nat) (p : position) : Prop :=
  match n with
  | O => forall a, ~ may_move p d a
  | S n' => exists a, may_move p d a /\ T n' (mv p d a)
  end.

Lemma T_step N n p b : wf N p -> T n p -> may_move p d b -> exists k, n = S k /\ T k (mv p d b).
Proof.
  revert p b; induction n as [|n IH]; intros p b W H M.
  - exfalso. eapply H; eauto.
  - destruct H as (a & Ma & Ta). exists n. split; auto.
    destruct (Nat.eq_dec a b) as [<-|Ne]; auto.
    destruct (diamond2 W Ne Ma M) as (D1 & D2 & D3).
    destruct (IH (mv p d a) b (may_wf W V Ma) Ta D1) as (k & -> & Tk).
    simpl. exists a. split; auto. rewrite <- D3. auto.
Qed.

Lemma T_max N n l p : wf N p -> T n p -> legal_seq l p -> (length l <= n)%nat.
Proof.
  revert n p; induction l as [|a l IH]; intros n p W H L; simpl; [lia|].
  destruct L as [M L]. destruct (T_step _ W H M) as (k & -> & Tk).
  specialize (IH k _ (may_wf W V M) Tk L). lia.
Qed.

Lemma T_seq n p : T n p -> exists l, length l = n /\ legal_seq l p.
Proof.
  revert p; induction n as [|n IH]; intros p H.
  - exists []. simpl. auto.
  - destruct H as (a & M & H). destruct (IH _ H) as (l & L1 & L2). exists (a :: l). simpl. auto.
Qed.

Lemma T_prepend l n p : legal_seq l p -> T n (run l p) -> T (length l + n) p.
Proof.
  revert p; induction l as [|a l IH]; intros p L H; simpl in *; auto. destruct L as [M L].
  exists a. auto.
Qed.

Lemma legal_prefix n l p : legal_seq l p -> (n <= length l)%nat ->
  exists l', length l' = n /\ legal_seq l' p.
Proof.
  intros L H. exists (firstn n l). split; [apply firstn_length_le; auto|].
  rewrite <- (firstn_skipn n l) in L. apply legal_seq_app in L. apply L.
Qed.

(** ** Moving several checkers from the same point *)

Lemma bulk N a k p : wf N p -> (d < a <= 25)%nat -> -2 < pt p (a - d) ->
  (a <> 25%nat -> pt p 25 <= 0) -> Z.of_nat k <= pt p a ->
  legal_seq (repeat a k) p /\
  (forall i, (i < 26)%nat -> pt (run (repeat a k) p) i =
     if (i =? a)%nat then pt p a - Z.of_nat k
     else if ((k =? 0)%nat) then pt p i
     else if (i =? a - d)%nat then (if pt p i =? -1 then Z.of_nat k else pt p i + Z.of_nat k)
     else if (i =? 0)%nat && (pt p (a - d) =? -1) then pt p 0 - 1
     else pt p i) /\
  turn (run (repeat a k) p) = turn p /\ x_off (run (repeat a k) p) = x_off p /\
  o_off (run (repeat a k) p) = o_off p /\ length (pips (run (repeat a k) p)) = 26%nat.
Proof.
  intros W Ha U B. pose proof (wf_len W) as Hl.
  revert p W U B Hl. induction k as [|k IH]; intros p W U B Hl Hk.
  - simpl. split; auto. split; [|repeat split; auto].
    intros i Hi. natcase; auto; lia.
  - destruct V as [V1 V2].
    assert (M : may_move p d a).
    { unfold may_move. repeat split; auto; lia. }
    pose proof (may_wf W V M) as W'.
    destruct (IH (mv p d a)) as (I1 & I2 & I3 & I4 & I5 & I6); auto.
    + pose proof (@pt_mv_land_pos p d a Hl ltac:(lia) V1 ltac:(lia) U). lia.
    + intros Na. rewrite pt_mv_high by (auto; lia). auto.
    + apply W'.
    + rewrite pt_mv_from by (auto; lia). lia.
    + simpl. split; auto. split; [|repeat split; auto].
      * intros i Hi. rewrite I2 by auto. rewrite pt_mv_from by (auto; lia).
        rewrite !pt_mv by (auto; lia).
        assert (E1 : (a - d < a)%nat) by lia. assert (E2 : (1 <= a - d)%nat) by lia.
        rewrite (proj2 (Nat.ltb_lt d a)) by lia. cbn [andb].
        generalize dependent (a - d)%nat. intros t. intros. clear I1 I2 I3 I4 I5 I6 IH.
        natcase; zcase; auto; try lia.
      * rewrite I3. apply mv_turn.
      * rewrite I4, mv_xoff. destruct (Nat.leb_spec a d); lia.
      * rewrite I5. apply mv_ooff.
Qed.
End Seq.

(** ** [number_of_movable_checkers] *)

Section Movable.
Variables (d : nat) (N : Z) (p : position).
Hypotheses (V : valid_die d) (W : wf N p) (Bar : pt p 25 = 0).

(** The loop works on a copy that does not send hit checkers to the bar. *)
Definition agree (q s : position) : Prop :=
  length (pips s) = 26%nat /\ pt s 0 <= 0 /\ forall i, (1 <= i <= 25)%nat -> pt s i = pt q i.

Definition stuck (q : position) (i : nat) : Prop := pt q i <= 0 \/ pt q (i - d) <= -2.

Lemma agree_refl q : wf N q -> agree q q.
Proof. intros Wq. split; [apply Wq|]. split; [apply Wq|auto]. Qed.

Lemma movable_loop_inv m maxv pip : forall cnt l s,
  (pip <= 24)%nat -> legal_seq d l p -> cnt = Z.of_nat (length l) ->
  agree (run d l p) s -> pt (run d l p) 25 = 0 ->
  (forall i, (pip < i <= 24)%nat -> (d < i)%nat -> stuck (run d l p) i) ->
  exists l' s', movable_loop m d maxv pip cnt s = Ret (Z.of_nat (length l'), s') /\
    legal_seq d l' p /\ agree (run d l' p) s' /\ pt (run d l' p) 25 = 0 /\
    (maxv <= Z.of_nat (length l') \/
     forall i, (i <= 24)%nat -> (d < i)%nat -> stuck (run d l' p) i).
Proof.
  induction pip as [|pip IH]; intros cnt l s Hp L -> A B St0.
  - exists l, s. simpl. repeat split; auto; try apply A. right. intros i Hi Hd. apply St0; lia.
  - cbn [movable_loop]. destruct V as [V1 V2].
    pose proof (run_wf V l W L) as Wq. set (q := run d l p) in *.
    destruct (Z.ltb_spec (Z.of_nat (length l)) maxv) as [C|C]; simpl.
    2:{ exists l, s. repeat split; auto; try apply A. }
    destruct (Nat.ltb_spec d (S pip)) as [D|D].
    2:{ exists l, s. repeat split; auto; try apply A. right. intros i Hi Hd. apply St0; lia. }
    destruct A as (A1 & A2 & A3).
    rewrite cm_ret by (auto; lia). rewrite bind_ret.
    assert (CM : cm s d (S pip) = cm q d (S pip)).
    { unfold cm. rewrite A3 by lia. destruct (Nat.ltb_spec d (S pip)); auto. rewrite A3 by lia. auto. }
    rewrite CM. destruct (cm q d (S pip)) eqn:E.
    + apply cm_pre in E; [|lia]. destruct E as (_ & P & U). specialize (U D).
      set (a := S pip) in *.
      rewrite (index_ret _ 0) by lia. fold (pt s a). rewrite A3 by lia. rewrite bind_ret.
      rewrite assign_ret by lia. rewrite bind_ret.
      rewrite usub_ret by lia. rewrite bind_ret.
      rewrite (index_ret _ 0) by (rewrite upd_length; lia). rewrite bind_ret.
      rewrite nth_upd by lia. destruct (Nat.eqb_spec (a - d) a); [lia|].
      fold (pt s (a - d)). rewrite A3 by lia.
      pose proof (wf_pt2_x Wq (i:=a) (j:=(a-d)%nat) ltac:(lia) ltac:(lia) ltac:(lia)) as B2.
      pose proof (wf_xoff Wq). pose proof (wf_N Wq).
      set (w := if pt q (a - d) =? -1 then pt q a else pt q (a - d) + pt q a).
      set (ps := upd (upd (pips s) a 0) (a - d) w).
      assert (R : (if pt q (a - d) =? -1 then assign (upd (pips s) a 0) (a - d) (pt q a)
                   else w1 <- i8 m (pt q (a - d) + pt q a) ;; assign (upd (pips s) a 0) (a - d) w1)
                  = Ret ps).
      { unfold ps, w. destruct (Z.eqb_spec (pt q (a - d)) (-1)).
        - apply assign_ret. rewrite upd_length. lia.
        - rewrite i8_ret by lia. rewrite bind_ret. apply assign_ret. rewrite upd_length. lia. }
      rewrite R. rewrite bind_ret. clear R.
      destruct (bulk V (a:=a) (Z.to_nat (pt q a)) Wq) as (K1 & K2 & K3 & K4 & K5 & K6); auto; try lia.
      set (k := Z.to_nat (pt q a)) in *.
      assert (Hk : Z.of_nat k = pt q a) by (unfold k; lia).
      assert (k <> 0)%nat by lia.
      set (l2 := l ++ repeat a k).
      assert (Rl : run d l2 p = run d (repeat a k) q) by (unfold l2; rewrite run_app; auto).
      assert (Q : forall i, (i < 26)%nat -> pt (run d l2 p) i =
         if (i =? a)%nat then 0 else if (i =? a - d)%nat then w
         else if (i =? 0)%nat && (pt q (a - d) =? -1) then pt q 0 - 1 else pt q i).
      { intros i Hi. rewrite Rl, K2 by auto. rewrite Hk. unfold w.
        rewrite (proj2 (Nat.eqb_neq k 0)) by auto.
        destruct (Nat.eqb_spec i a); [lia|]. destruct (Nat.eqb_spec i (a - d)) as [->|]; auto. }
      replace (Z.of_nat (length l) + pt q a) with (Z.of_nat (length l2))
        by (unfold l2; rewrite app_length, repeat_length; lia).
      apply (IH _ l2); auto; try lia.
      * unfold l2. apply legal_seq_app. auto.
      * split; [simpl; unfold ps; rewrite !upd_length; auto|].
        assert (PS : forall i, (i < 26)%nat -> nth i ps 0 =
                  if (i =? a - d)%nat then w else if (i =? a)%nat then 0 else pt s i).
        { intros i Hi. unfold ps. rewrite !nth_upd by (rewrite ?upd_length; lia). reflexivity. }
        split; [unfold pt; simpl; rewrite PS by lia|intros i Hi; unfold pt at 1; simpl; rewrite PS by lia].
        -- rewrite (proj2 (Nat.eqb_neq 0 (a - d))), (proj2 (Nat.eqb_neq 0 a)) by lia. auto.
        -- rewrite Q by lia. destruct (Nat.eqb_spec i (a - d)), (Nat.eqb_spec i a); auto; try lia.
           destruct (Nat.eqb_spec i 0); [lia|]. simpl. apply A3. lia.
      * rewrite Q by lia. rewrite (proj2 (Nat.eqb_neq 25 (a - d))), (proj2 (Nat.eqb_neq 25 a)) by lia.
        auto.
      * intros i Hi Hd. unfold stuck. rewrite !Q by lia.
        destruct (Nat.eqb_spec i a); [lia|]. destruct (Nat.eqb_spec i (a - d)); [lia|].
        destruct (Nat.eqb_spec i 0); [lia|]. simpl.
        destruct (St0 i ltac:(lia) Hd) as [St|St]; [auto|].
        destruct (Nat.eqb_spec (i - d) a); [rewrite e in St; lia|].
        destruct (Nat.eqb_spec (i - d) (a - d)); [lia|].
        destruct (Nat.eqb_spec (i - d) 0); [lia|]. simpl. auto.
    + apply (IH _ l); auto; try lia; [repeat split; auto|].
      intros i Hi Hd. destruct (Nat.eq_dec i (S pip)) as [->|]; [|apply St0; lia].
      unfold stuck. fold q. unfold cm in E. destruct (Z.ltb_spec (pt q (S pip)) 1); [lia|].
      destruct (Nat.ltb_spec d (S pip)); [|lia]. apply Z.ltb_ge in E. lia.
Qed.

(** Only bear-offs left. *)
Lemma T_stuck q : pt q 25 = 0 -> length (pips q) = 26%nat ->
  (forall i, (i <= 24)%nat -> (d < i)%nat -> stuck q i) ->
  forall a, may_move q d a -> (a <= d)%nat.
Proof.
  intros B Hl S a M. pose proof (may_nobar M ltac:(lia)).
  destruct (Nat.le_gt_cases a d); auto. destruct M as (_ & M1 & _ & M2 & _).
  specialize (M2 ltac:(auto)). destruct (S a ltac:(lia) ltac:(auto)); lia.
Qed.

Lemma stuck_bearoff q a : length (pips q) = 26%nat -> (1 <= a <= d)%nat ->
  (forall i, (i <= 24)%nat -> (d < i)%nat -> stuck q i) ->
  (forall i, (i <= 24)%nat -> (d < i)%nat -> stuck (mv q d a) i).
Proof.
  intros Hl Ha S i Hi Hd. destruct V as [V1 V2]. unfold stuck.
  rewrite pt_mv_high by (auto; lia).
  destruct (S i Hi Hd) as [H|H]; auto. right.
  rewrite pt_mv by (auto; lia). destruct (Nat.ltb_spec d a); [lia|]. simpl.
  destruct (Nat.eqb_spec (i - d) a); [|auto]. subst a. lia.
Qed.

Lemma T_exact_aux n : forall q, wf N q -> pt q 25 = 0 ->
  (forall i, (i <= 24)%nat -> (d < i)%nat -> stuck q i) ->
  (forall i, (6 < i <= 25)%nat -> pt q i <= 0) ->
  (exists i, (d < i <= 25)%nat /\ 0 < pt q i) ->
  Z.max 0 (pt q d) = Z.of_nat n -> T d n q.
Proof.
  induction n as [|n IH]; intros q Wq B S Hm (b & Hb & Pb) En; destruct V as [V1 V2];
    pose proof (wf_len Wq) as Hl.
  - simpl. intros a M. pose proof (T_stuck B Hl S M).
    destruct M as (M0 & M1 & _ & _ & M2). destruct (M2 ltac:(auto)) as [_ M3].
    destruct (Nat.eq_dec a d) as [->|]; [lia|]. specialize (M3 ltac:(lia) b). lia.
  - assert (M : may_move q d d).
    { unfold may_move. repeat split; try lia; auto. }
    simpl. exists d. split; auto.
    apply IH; auto.
    + apply may_wf; auto.
    + rewrite pt_mv_high; auto; lia.
    + apply stuck_bearoff; auto; lia.
    + intros i Hi. rewrite pt_mv_high by (auto; lia). apply Hm; auto.
    + exists b. rewrite pt_mv_high by (auto; lia). auto.
    + rewrite pt_mv_from by (auto; lia). lia.
Qed.

(** Positive checkers on points 1..d. *)
Definition home_sum (q : position) : Z :=
  sumZ (map (fun v => Z.max 0 v) (slice (pips q) 1 (d + 1))).

Lemma highest_le (q : position) h : (exists i, (1 <= i <= h)%nat /\ 0 < pt q i) ->
  exists i, (1 <= i <= h)%nat /\ 0 < pt q i /\ forall j, (i < j <= h)%nat -> pt q j <= 0.
Proof.
  induction h as [|h IH]; intros (i & Hi & P); [lia|].
  destruct (Z.lt_ge_cases 0 (pt q (S h))) as [Q|Q].
  - exists (S h). split; [lia|]. split; auto. intros; lia.
  - assert (i <> S h) by (intros ->; lia). destruct IH as (j & J1 & J2 & J3); [exists i; split; auto; lia|].
    exists j. split; [lia|]. split; auto. intros k Hk. destruct (Nat.eq_dec k (S h)) as [->|]; auto.
    apply J3. lia.
Qed.

Lemma slice_upd (l : list Z) lo hi i v : (hi <= length l)%nat -> (lo <= i < hi)%nat ->
  slice (upd l i v) lo hi = upd (slice l lo hi) (i - lo) v.
Proof.
  intros Hl Hi. apply (nth_ext _ _ 0 0).
  - rewrite upd_length, !slice_length by (rewrite ?upd_length; auto). auto.
  - intros n Hn. rewrite slice_length in Hn by (rewrite upd_length; auto).
    rewrite nth_slice by auto. rewrite !nth_upd by (rewrite ?slice_length; lia).
    rewrite nth_slice by lia.
    destruct (Nat.eqb_spec (lo + n) i), (Nat.eqb_spec n (i - lo)); auto; lia.
Qed.

Lemma T_all_aux n : forall q, wf N q ->
  (forall i, (d < i <= 25)%nat -> pt q i <= 0) ->
  home_sum q = Z.of_nat n -> T d n q.
Proof.
  induction n as [|n IH]; intros q Wq Hm En; destruct V as [V1 V2]; pose proof (wf_len Wq) as Hl.
  - simpl. intros a (M0 & M1 & _).
    assert (a <= d)%nat by (destruct (Nat.le_gt_cases a d); auto; specialize (Hm a); lia).
    pose proof (sumZ_ge_nth (fun v => Z.max 0 v) (slice (pips q) 1 (d + 1)) 0 ltac:(intros; lia)
                  (i:=(a-1)%nat)) as G.
    rewrite slice_length in G by lia. specialize (G ltac:(lia)). cbv beta in G.
    rewrite nth_slice in G by lia. replace (1 + (a - 1))%nat with a in G by lia.
    fold (pt q a) in G. unfold home_sum in En. lia.
  - assert (E : exists i, (1 <= i <= d)%nat /\ 0 < pt q i).
    { destruct (existsb (fun x => 0 <? x) (slice (pips q) 1 (d + 1))) eqn:X.
      - apply (existsb_slice _ _ _ 0) in X; [|lia]. destruct X as (i & Hi & Hx).
        apply Z.ltb_lt in Hx. exists i. split; [lia|]. exact Hx.
      - exfalso. unfold home_sum in En.
        assert (Z0 : forall l, existsb (fun x => 0 <? x) l = false -> sumZ (map (fun v => Z.max 0 v) l) = 0).
        { induction l as [|x l IHl]; simpl; auto. intros H. apply Bool.orb_false_iff in H.
          destruct H as [H1 H2]. apply Z.ltb_ge in H1. rewrite IHl by auto. lia. }
        rewrite Z0 in En by auto. lia. }
    destruct (highest_le q E) as (a & Ha & Pa & Ta).
    assert (Hh : forall i, (a < i <= 25)%nat -> pt q i <= 0).
    { intros i Hi. destruct (Nat.le_gt_cases i d); [apply Ta|apply Hm]; lia. }
    assert (M : may_move q d a).
    { unfold may_move. repeat split; try lia; auto; intros; apply Hh; lia. }
    simpl. exists a. split; auto. apply IH; auto.
    + apply may_wf; auto.
    + intros i Hi. rewrite pt_mv_high by (auto; lia). apply Hm; auto.
    + unfold home_sum in *. unfold mv. destruct (Nat.ltb_spec d a); [lia|]. simpl.
      rewrite slice_upd by lia.
      rewrite (sumZ_upd _ _ _ 0) by (rewrite slice_length; lia).
      rewrite nth_slice by lia. replace (1 + (a - 1))%nat with a by lia. fold (pt q a). lia.
Qed.

(** [nr] is the largest number of checkers that can be moved, capped by the dice left. *)
Definition max_moves (cap nr : nat) : Prop :=
  (nr = cap /\ exists l, length l = nr /\ legal_seq d l p) \/ ((nr < cap)%nat /\ T d nr p).

Lemma slice_ext (q s : position) : agree q s -> length (pips q) = 26%nat ->
  slice (pips s) 1 (d + 1) = slice (pips q) 1 (d + 1).
Proof.
  intros (A1 & A2 & A3) Hl. destruct V as [V1 V2].
  apply (nth_ext _ _ 0 0); rewrite !slice_length by lia; auto.
  intros n Hn. rewrite !nth_slice by lia. apply A3. lia.
Qed.

Lemma sum_slice_le (q : position) : wf N q -> home_sum q <= 127.
Proof.
  intros Wq. unfold home_sum.
  pose proof (wf_x Wq). pose proof (wf_N Wq). pose proof (wf_xoff Wq). unfold x_checkers in *.
  assert (G : forall (l : list Z) a b, sumZ (map (fun v => Z.max 0 v) (firstn a (skipn b l))) <=
             sumZ (map (fun v => Z.max 0 v) l)).
  { intros l a b. rewrite <- (firstn_skipn b l) at 2. rewrite map_app, sumZ_app.
    rewrite <- (firstn_skipn a (skipn b l)) at 2. rewrite map_app, sumZ_app.
    pose proof (sumZ_nonneg (fun v => Z.max 0 v) (firstn b l) ltac:(intros; lia)).
    pose proof (sumZ_nonneg (fun v => Z.max 0 v) (skipn a (skipn b l)) ltac:(intros; lia)). lia. }
  specialize (G (pips q) (d + 1 - 1)%nat 1%nat). unfold slice. lia.
Qed.

Lemma number_of_movable_correct m e : (e <= 4)%nat ->
  exists nr, number_of_movable_checkers m p d (Z.of_nat e) = Ret (Z.of_nat nr) /\
             max_moves (4 - e) nr.
Proof.
  intros He. unfold number_of_movable_checkers.
  destruct (Z.leb_spec (Z.of_nat e) 4); [|lia]. rewrite bind_ret.
  destruct (@movable_loop_inv m (4 - Z.of_nat e) 24 0 [] p) as (l & s & E & L & A & B & C);
    [lia|exact I|reflexivity|apply agree_refl; exact W|exact Bar|intros; lia|].
  rewrite E, bind_ret. clear E.
  pose proof (run_wf V l W L) as Wq. set (q := run d l p) in *.
  pose proof (wf_len Wq) as Hl.
  destruct (Z.leb_spec (4 - Z.of_nat e) (Z.of_nat (length l))) as [F|F].
  { exists (4 - e)%nat. split; [f_equal; lia|]. left. split; auto.
    apply legal_prefix with (l := l); auto. lia. }
  destruct C as [C|C]; [lia|].
  assert (DONE : forall k, T d k q ->
     exists nr, @Ret Z (Z.min (Z.of_nat (length l) + Z.of_nat k) (4 - Z.of_nat e)) = Ret (Z.of_nat nr) /\
             max_moves (4 - e) nr).
  { intros k Tk. pose proof (T_prepend d l k p L Tk) as Tp.
    exists (Nat.min (length l + k) (4 - e)). split; [f_equal; lia|].
    destruct (Nat.le_gt_cases (4 - e) (length l + k)) as [G|G].
    - left. split; [lia|]. destruct (T_seq _ _ _ Tp) as (l2 & L1 & L2).
      apply legal_prefix with (l := l2); auto. lia.
    - right. split; [lia|]. rewrite Nat.min_l by lia. auto. }
  destruct A as (A1 & A2 & A3).
  destruct (rposition_of (fun v => 0 <? v) (pips s)) as [b|] eqn:R.
  - apply (fun e => rposition_Some _ _ 0 e) in R. destruct R as (R1 & R2 & R3).
    rewrite A1 in *. apply Z.ltb_lt in R2. fold (pt s b) in R2.
    assert (b <> 0%nat) by (intros ->; lia). rewrite A3 in R2 by lia.
    assert (Hh : forall j, (b < j <= 25)%nat -> pt q j <= 0).
    { intros j Hj. specialize (R3 j ltac:(lia)). apply Z.ltb_ge in R3. fold (pt s j) in R3.
      rewrite A3 in R3 by lia. auto. }
    destruct V as [V1 V2].
    destruct (Nat.ltb_spec 6 b) as [S1|S1].
    + rewrite bind_ret. apply (DONE 0%nat). intros a M.
      pose proof (T_stuck B Hl C M). destruct M as (_ & _ & _ & _ & M). 
      destruct (M ltac:(auto)) as [M1 _]. specialize (M1 b). lia.
    + destruct (Nat.ltb_spec d b) as [S2|S2].
      * rewrite (index_ret _ 0) by lia. rewrite !bind_ret. fold (pt s d). rewrite A3 by lia.
        rewrite <- (Z2Nat.id (Z.max 0 (pt q d))) by lia. apply DONE.
        apply T_exact_aux; auto; try lia.
        -- intros i Hi. apply Hh. lia.
        -- exists b. split; auto. lia.
      * rewrite (@slice_ext q s) by (repeat split; auto).
        rewrite sum_i8_ret.
        2:{ intros v Hv. apply filter_In in Hv. destruct Hv as [_ Hv]. apply Z.ltb_lt in Hv. lia. }
        2:{ rewrite sumZ_filter_pos. apply sum_slice_le; auto. }
        rewrite bind_ret, sumZ_filter_pos. fold (home_sum q).
        assert (0 <= home_sum q) by (apply sumZ_nonneg; intros; lia).
        rewrite <- (Z2Nat.id (home_sum q)) by lia. apply DONE.
        apply T_all_aux; auto; try lia. intros i Hi. apply Hh. lia.
  - pose proof (rposition_None _ _ 0 R) as R'. rewrite A1 in R'.
    destruct (DONE 0%nat) as (nr & E1 & E2).
    { intros a (M0 & M1 & _). specialize (R' a ltac:(lia)). apply Z.ltb_ge in R'.
      fold (pt s a) in R'. rewrite A3 in R' by lia. lia. }
    exists nr. split; auto. rewrite <- E1. f_equal. lia.
Qed.
End Movable.

(** ** The nested loops *)

Section Gen.
Variables (d : nat) (N : Z).
Hypothesis V : valid_die d.

Fixpoint gen (n hi : nat) (p : position) : list position :=
  match n with
  | O => [p]
  | S n' => flat_map (fun i => if cm p d i then gen n' i (mv p d i) else [])
                     (range (smallest_pip_to_check p d) (hi + 1))
  end.

Lemma nobar_after p a : wf N p -> pt p 25 = 0 -> may_move p d a -> pt (mv p d a) 25 = 0.
Proof.
  intros W B M. pose proof (may_nobar M ltac:(lia)). destruct V.
  rewrite pt_mv_high; auto; try lia. apply W.
Qed.

Lemma in_gen n : forall hi p r, wf N p -> pt p 25 = 0 -> (hi <= 24)%nat ->
  In r (gen n hi p) <-> exists l, length l = n /\ legal_seq d l p /\ desc hi l /\ r = run d l p.
Proof.
  induction n as [|n IH]; intros hi p r W B Hh; simpl.
  - split.
    + intros [<-|[]]. exists []. simpl. auto.
    + intros (l & Hl & _ & _ & ->). destruct l; [auto|discriminate].
  - rewrite in_flat_map. split.
    + intros (a & Ha & H). apply in_range in Ha. destruct (cm p d a) eqn:E; [|destruct H].
      assert (M : may_move p d a) by (eapply sp_may; eauto; lia).
      apply IH in H; [|apply may_wf; auto|apply nobar_after; auto|lia].
      destruct H as (l & L1 & L2 & L3 & ->). exists (a :: l). simpl.
      repeat split; auto; try lia; try apply M; try apply may_wf; auto.
    + intros (l & Hl & L & D & ->). destruct l as [|a l]; [discriminate|]. simpl in *.
      destruct L as [M L], D as [D1 D2]. exists a.
      pose proof (proj1 (@smallest_pip_spec N p d a W B V ltac:(lia)) M) as [A1 A2].
      rewrite in_range. split; [lia|]. rewrite A2. apply IH; [apply may_wf; auto|apply nobar_after; auto|lia|].
      exists l. auto.
Qed.

(** The monadic loop body. *)
Lemma loop_body m p i (f : position -> res (list position)) (g : position -> list position) :
  wf N p -> (1 <= i <= 25)%nat ->
  (pre p d i -> f (mv p d i) = Ret (g (mv p d i))) ->
  (c <- can_move_when_bearoff_is_legal m p i d ;;
   if c then q <- clone_and_move_single_checker m p i d ;; f q else Ret [])
  = Ret (if cm p d i then g (mv p d i) else []).
Proof.
  intros W Hi H. rewrite cm_ret by (try apply W; lia). rewrite bind_ret.
  destruct (cm p d i) eqn:E; auto. apply cm_pre in E; auto.
  unfold clone_and_move_single_checker. rewrite (move_single_checker_ret m W V E), bind_ret. auto.
Qed.

Lemma double_gen m p e nr : wf N p -> (nr <= 4)%nat ->
  number_of_movable_checkers m p d e = Ret (Z.of_nat nr) ->
  double_moves_after_entering m p d e = Ret (gen nr 24 p).
Proof.
  intros W Hn E. unfold double_moves_after_entering. rewrite E, bind_ret.
  destruct nr as [|nr]; [reflexivity|].
  destruct (Z.eqb_spec (Z.of_nat (S nr)) 0); [lia|].
  cbn [gen]. change (24 + 1)%nat with X_BAR.
  apply mflat_map_ret. intros i1 I1. apply in_range in I1. unfold X_BAR in I1.
  pose proof (smallest_pip_pos W V).
  apply loop_body with (g := gen nr i1)
    (f := fun pos => if Z.of_nat (S nr) =? 1 then Ret [pos] else _); auto; [lia|].
  intros P1. pose proof (mv_wf W V P1) as W1.
  destruct nr as [|nr]; [reflexivity|].
  destruct (Z.eqb_spec (Z.of_nat (S (S nr))) 1); [lia|].
  cbn [gen]. apply mflat_map_ret. intros i2 I2. apply in_range in I2.
  pose proof (smallest_pip_pos W1 V).
  apply loop_body with (g := gen nr i2)
    (f := fun pos => if Z.of_nat (S (S nr)) =? 2 then Ret [pos] else _); auto; [lia|].
  intros P2. pose proof (mv_wf W1 V P2) as W2.
  destruct nr as [|nr]; [reflexivity|].
  destruct (Z.eqb_spec (Z.of_nat (S (S (S nr)))) 2); [lia|].
  cbn [gen]. apply mflat_map_ret. intros i3 I3. apply in_range in I3.
  pose proof (smallest_pip_pos W2 V).
  apply loop_body with (g := gen nr i3)
    (f := fun pos => if Z.of_nat (S (S (S nr))) =? 3 then Ret [pos] else _); auto; [lia|].
  intros P3. pose proof (mv_wf W2 V P3) as W3.
  destruct nr as [|nr]; [reflexivity|].
  destruct (Z.eqb_spec (Z.of_nat (S (S (S (S nr))))) 3); [lia|].
  destruct nr as [|nr]; [|lia].
  cbn [gen]. apply mflat_map_ret. intros i4 I4. apply in_range in I4.
  pose proof (smallest_pip_pos W3 V).
  apply loop_body with (g := gen 0 i4) (f := fun pos => Ret [pos]); auto; lia.
Qed.
End Gen.

(** ** The dice sequences of a double *)

Lemma uses_double d ds : uses (Double d) ds <-> exists n, (n <= 4)%nat /\ ds = repeat d n.
Proof.
  unfold uses, pool. split.
  - intros (rest & P). exists (length ds).
    pose proof (Permutation_length P) as L. rewrite app_length in L. simpl in L. split; [lia|].
    assert (F : forall x, In x ds -> x = d).
    { intros x Hx. assert (H : In x [d; d; d; d]).
      { eapply Permutation_in; eauto. apply in_or_app. auto. }
      simpl in H. intuition. }
    clear - F. induction ds as [|a ds IH]; simpl; auto. f_equal; [apply F; left; auto|].
    apply IH. intros x Hx. apply F. right. auto.
  - intros (n & Hn & ->). exists (repeat d (4 - n)). rewrite <- repeat_app.
    replace (n + (4 - n))%nat with 4%nat by lia. auto.
Qed.

(** Legal results of a double when the maximal number of moves is known. *)
Lemma legal_double d N p nr r : valid_die d -> wf N p -> max_moves d p 4 nr ->
  legal_result (Double d) p r <-> exists l, length l = nr /\ legal_seq d l p /\ r = run d l p.
Proof.
  intros V W MX.
  assert (Le : (nr <= 4)%nat) by (destruct MX as [[-> _]|[H _]]; lia).
  assert (Ex : exists l, length l = nr /\ legal_seq d l p).
  { destruct MX as [[_ H]|[_ H]]; auto. apply T_seq; auto. }
  assert (Up : forall l, legal_seq d l p -> (length l <= 4)%nat -> (length l <= nr)%nat).
  { intros l L Hl. destruct MX as [[-> _]|[_ H]]; auto. eapply T_max; eauto. }
  unfold legal_result, legal_play. split.
  - intros (ds & U & P & Mx & _). apply uses_double in U. destruct U as (n & Hn & ->).
    apply (plays_repeat V n r W) in P. destruct P as (l & L1 & L2 & ->).
    exists l. split; auto. destruct Ex as (l0 & E1 & E2).
    specialize (Mx (repeat d nr) (run d l0 p)). rewrite !repeat_length in Mx.
    assert (nr <= n)%nat.
    { apply Mx; [apply uses_double; eauto|]. apply (plays_repeat V nr _ W). eauto. }
    specialize (Up l L2). lia.
  - intros (l & L1 & L2 & ->). exists (repeat d nr). split; [apply uses_double; eauto|].
    split; [apply (plays_repeat V nr _ W); eauto|]. split.
    + intros ds' r' U P. apply uses_double in U. destruct U as (n & Hn & ->).
      apply (plays_repeat V n r' W) in P. destruct P as (l' & L1' & L2' & ->).
      rewrite !repeat_length. specialize (Up l' L2'). lia.
    + intros a Ha b r' U _. apply uses_double in U. destruct U as (n & Hn & E).
      destruct n as [|[|n]]; inversion E; subst b. destruct nr as [|[|nr]]; inversion Ha. auto.
Qed.

Lemma T_blocked d p : valid_die d -> 0 < pt p 25 -> pt p (25 - d) <= -2 -> T d 0 p.
Proof.
  intros V B H a M. assert (a = 25%nat) by (eapply may_bar; eauto). subst.
  apply may_enter in M; auto. lia.
Qed.

Lemma max_moves_0 d p : T d 0 p -> max_moves d p 4 0.
Proof. intros H. right. split; auto; lia. Qed.

(** As long as there are checkers on the bar the moves are from the bar. *)
Lemma bar_prefix d k : valid_die d -> forall N p l, wf N p -> Z.of_nat k <= pt p 25 ->
  legal_seq d l p -> (k <= length l)%nat -> exists l', l = repeat 25%nat k ++ l'.
Proof.
  intros V. induction k as [|k IH]; intros N p l W B L Hl; [exists l; auto|].
  destruct l as [|a l]; simpl in Hl; [lia|]. destruct L as [M L].
  assert (a = 25%nat) by (eapply may_bar; [|eauto]; lia). subst a.
  destruct (IH N (mv p d 25) l) as (l' & ->); auto; try lia.
  - apply may_wf; auto.
  - destruct V. rewrite pt_mv_from; try lia. apply W.
  - exists l'. auto.
Qed.

(** What the lists of a double look like. *)
Definition dshape (N : Z) (d : nat) (l : list position) : Prop :=
  (exists r, l = [r]) \/ exists nr q, (nr <= 4)%nat /\ wf N q /\ pt q 25 = 0 /\ l = gen d nr 24 q.

Lemma double_correct_shape N m p d : wf N p -> valid_die d ->
  exists l, all_positions_after_double_move m p d = Ret l /\
  l <> [] /\ dshape N d l /\ forall r, In r l <-> legal_result (Double d) p r.
Proof.
  intros W V. pose proof (wf_len W) as Hl. unfold all_positions_after_double_move.
  pose proof V as [V1 V2]. unfold X_BAR at 1 2.
  rewrite (index_ret _ 0) by lia. rewrite bind_ret.
  rewrite usub_ret by lia. rewrite bind_ret.
  rewrite (index_ret _ 0) by lia. rewrite bind_ret. fold (pt p 25) (pt p (25 - d)).
  destruct (Z.ltb_spec 0 (pt p 25)) as [B|B]; simpl.
  - (* checkers on the bar *)
    destruct (Z.ltb_spec (pt p (25 - d)) (-1)) as [U|U].
    { eexists; split; [reflexivity|]. split; [discriminate|]. split; [left; eauto|]. intros r.
      rewrite (legal_double (nr:=0) r V W) by (apply max_moves_0, T_blocked; auto; lia).
      simpl. split.
      - intros [<-|[]]. exists []. simpl. auto.
      - intros (l & L1 & _ & ->). destruct l; [auto|discriminate]. }
    set (k := Z.to_nat (Z.min 4 (pt p 25))).
    assert (Hk : Z.of_nat k = Z.min 4 (pt p 25)) by (unfold k; lia).
    destruct (bulk V (a:=25) k W) as (K1 & K2 & K3 & K4 & K5 & K6); try lia.
    set (q := run d (repeat 25%nat k) p) in *.
    pose proof (run_wf V _ W K1) as Wq. fold q in Wq.
    pose proof (wf_pt2_x W (i:=25) (j:=(25-d)%nat) ltac:(lia) ltac:(lia) ltac:(lia)) as B2.
    pose proof (wf_pt2_o W (i:=0) (j:=(25-d)%nat) ltac:(lia) ltac:(lia) ltac:(lia)) as B3.
    pose proof (wf_xoff W). pose proof (wf_ooff W). pose proof (wf_N W). pose proof (wf_obar W).
    assert (R : position_after_entering_checkers m p d = Ret (q, Z.of_nat k)).
    { unfold position_after_entering_checkers, X_BAR, O_BAR.
      rewrite (index_ret _ 0) by lia. rewrite bind_ret. fold (pt p 25).
      destruct (Z.eqb_spec (pt p 25) 0); [lia|].
      rewrite usub_ret by lia. rewrite bind_ret.
      rewrite (index_ret _ 0) by lia. rewrite bind_ret. fold (pt p (25 - d)).
      rewrite debug_assert_ret by (apply Z.ltb_lt; lia). rewrite bind_ret. cbv zeta.
      rewrite <- Hk. destruct (Z.ltb_spec 0 (Z.of_nat k)); [|lia].
      rewrite i8_ret by lia. rewrite bind_ret, assign_ret by lia. rewrite bind_ret.
      destruct (Z.eqb_spec (pt p (25 - d)) (-1)) as [E|E].
      - rewrite (index_ret _ 0) by (rewrite upd_length; lia). rewrite bind_ret.
        rewrite nth_upd by lia. destruct (Nat.eqb_spec 0 25); [lia|]. fold (pt p 0).
        rewrite i8_ret by lia. rewrite bind_ret, assign_ret by (rewrite upd_length; lia).
        rewrite bind_ret, assign_ret by (rewrite !upd_length; lia). rewrite bind_ret.
        f_equal. f_equal. apply position_ext; simpl; auto; [rewrite !upd_length; auto|].
        intros i Hi. rewrite K2 by auto. unfold pt at 1. simpl.
        rewrite !nth_upd by (rewrite ?upd_length; lia). fold (pt p i).
        rewrite (proj2 (Nat.eqb_neq k 0)) by lia.
        destruct (Nat.eqb_spec i (25 - d)) as [Ei|], (Nat.eqb_spec i 0), (Nat.eqb_spec i 25); try lia; subst; auto;
        try rewrite E; auto.
      - rewrite (index_ret _ 0) by (rewrite upd_length; lia). rewrite bind_ret.
        rewrite nth_upd by lia. destruct (Nat.eqb_spec (25 - d) 25); [lia|]. fold (pt p (25 - d)).
        rewrite i8_ret by lia. rewrite bind_ret, assign_ret by (rewrite upd_length; lia).
        rewrite bind_ret.
        f_equal. f_equal. apply position_ext; simpl; auto; [rewrite !upd_length; auto|].
        intros i Hi. rewrite K2 by auto. unfold pt at 1. simpl.
        rewrite !nth_upd by (rewrite ?upd_length; lia). fold (pt p i).
        rewrite (proj2 (Nat.eqb_neq k 0)) by lia. 
        destruct (Z.eqb_spec (pt p (25 - d)) (-1)); [lia|].
        destruct (Nat.eqb_spec i (25 - d)) as [Ei|], (Nat.eqb_spec i 0), (Nat.eqb_spec i 25); try lia; subst; auto.
        destruct (Z.eqb_spec (pt p (25 - d)) (-1)); [lia|]. auto. }
    rewrite R, bind_ret. clear R.
    destruct (Z.eqb_spec (Z.of_nat k) 4) as [E4|E4].
    { eexists; split; [reflexivity|]. split; [discriminate|]. split; [left; eauto|]. intros r.
      assert (k = 4%nat) by lia.
      rewrite (legal_double (nr:=4) r V W).
      2:{ left. split; auto. exists (repeat 25%nat k). rewrite repeat_length. auto. }
      simpl. split.
      - intros [<-|[]]. exists (repeat 25%nat k). rewrite repeat_length. auto.
      - intros (l & L1 & L2 & ->). left.
        destruct (@bar_prefix d k V N p l) as (l' & E'); auto; try lia.
        assert (l' = []).
        { subst l. rewrite app_length, repeat_length in L1. destruct l'; auto. simpl in L1. lia. }
        subst l'. rewrite app_nil_r in E'. subst l. reflexivity. }
    assert (Bq : pt q 25 = 0).
    { rewrite K2 by lia. rewrite Nat.eqb_refl. lia. }
    destruct (@number_of_movable_correct d N q V Wq Bq m k) as (nr & E & MX); [lia|].
    assert (Hnr : (nr <= 4 - k)%nat) by (destruct MX as [[-> _]|[HH _]]; lia).
    rewrite (@double_gen d N V m q (Z.of_nat k) nr Wq ltac:(lia) E), bind_ret.
    assert (G : forall r, In r (gen d nr 24 q) <-> legal_result (Double d) p r).
    { intros r. rewrite (@in_gen d N V nr 24 q _ Wq Bq) by lia.
      rewrite (legal_double (nr:=(k + nr)%nat) r V W).
      2:{ destruct MX as [[E1 (l & E2 & E3)]|[E1 E2]].
          - left. split; [lia|]. exists (repeat 25%nat k ++ l).
            rewrite app_length, repeat_length. split; [lia|]. apply legal_seq_app. auto.
          - right. split; [lia|].
            pose proof (T_prepend d (repeat 25%nat k) nr p K1 E2) as TP.
            rewrite repeat_length in TP. auto. }
      split.
      - intros (l & L1 & L2 & L3 & ->). exists (repeat 25%nat k ++ l).
        rewrite app_length, repeat_length, run_app. split; [lia|]. split; auto.
        apply legal_seq_app. auto.
      - intros (l & L1 & L2 & ->).
        destruct (@bar_prefix d k V N p l) as (l' & ->); auto; try lia.
        rewrite app_length, repeat_length in L1. apply legal_seq_app in L2. destruct L2 as [_ L2].
        fold q in L2. rewrite run_app. fold q.
        destruct (@sort_seq d V N l' q 24 Wq L2) as (l2 & S1 & S2 & S3 & S4).
        + clear - L2 Bq V Wq. revert L2 Bq Wq. generalize q. clear q.
          induction l' as [|a l' IH]; intros q L Bq Wq; constructor.
          * destruct L as [M _]. pose proof (may_nobar M ltac:(lia)). lia.
          * destruct L as [M L]. apply (IH (mv q d a)); auto; [|apply may_wf; auto].
            eapply nobar_after; eauto.
        + exists l2. split; [lia|]. auto. }
    destruct (gen d nr 24 q) as [|r0 l0] eqn:Eg.
    + exfalso. 
      assert (exists l, length l = nr /\ legal_seq d l q) as (l & E1 & E2).
      { destruct MX as [[_ HH]|[_ HH]]; auto. apply T_seq; auto. }
      destruct (@sort_seq d V N l q 24 Wq E2) as (l2 & S1 & S2 & S3 & S4).
      * clear - E2 Bq V Wq. revert E2 Bq Wq. generalize q. clear q.
          induction l as [|a l' IH]; intros q L Bq Wq; constructor.
          -- destruct L as [M _]. pose proof (may_nobar M ltac:(lia)). lia.
          -- destruct L as [M L]. apply (IH (mv q d a)); auto; [|apply may_wf; auto].
            eapply nobar_after; eauto.
      * assert (I : In (run d l2 q) (gen d nr 24 q)).
        { apply (@in_gen d N V nr 24 q _ Wq Bq); [lia|]. exists l2. split; [lia|]. auto. }
        rewrite Eg in I. destruct I.
    + assert (Hnr4 : (nr <= 4)%nat) by (destruct MX as [[-> _]|[HH _]]; lia).
      simpl. rewrite debug_assert_true, bind_ret. eexists; split; [reflexivity|].
      split; [discriminate|]. split; [right; exists nr, q; rewrite Eg; auto|]. exact G.
  - (* empty bar *)
    assert (Bq : pt p 25 = 0) by (pose proof (wf_xbar W); lia).
    assert (R : position_after_entering_checkers m p d = Ret (p, Z.of_nat 0)).
    { unfold position_after_entering_checkers, X_BAR.
      rewrite (index_ret _ 0) by lia. rewrite bind_ret. fold (pt p 25). rewrite Bq. reflexivity. }
    rewrite R, bind_ret. cbv iota. change (Z.of_nat 0 =? 4) with false. cbv iota.
    destruct (@number_of_movable_correct d N p V W Bq m 0%nat) as (nr & E & MX); [lia|].
    assert (Hnr : (nr <= 4)%nat) by (destruct MX as [[-> _]|[HH _]]; lia).
    rewrite (@double_gen d N V m p (Z.of_nat 0) nr W ltac:(lia) E), bind_ret.
    assert (SRT : forall l, legal_seq d l p -> Forall (fun a => (a <= 24)%nat) l).
    { intros l L. clear - L Bq V W. revert L Bq W. generalize p. clear p.
      induction l as [|a l' IH]; intros q L Bq Wq; constructor.
      - destruct L as [M _]. pose proof (may_nobar M ltac:(lia)). lia.
      - destruct L as [M L]. apply (IH (mv q d a)); auto; [|apply may_wf; auto].
        eapply nobar_after; eauto. }
    assert (G : forall r, In r (gen d nr 24 p) <-> legal_result (Double d) p r).
    { intros r. rewrite (@in_gen d N V nr 24 p _ W Bq) by lia.
      rewrite (legal_double (nr:=nr) r V W) by exact MX. split.
      - intros (l & L1 & L2 & _ & ->). eauto.
      - intros (l & L1 & L2 & ->).
        destruct (@sort_seq d V N l p 24 W L2) as (l2 & S1 & S2 & S3 & S4); auto.
        exists l2. split; [lia|]. auto. }
    destruct (gen d nr 24 p) as [|r0 l0] eqn:Eg.
    + exfalso.
      assert (exists l, length l = nr /\ legal_seq d l p) as (l & E1 & E2).
      { destruct MX as [[_ HH]|[_ HH]]; auto. apply T_seq; auto. }
      assert (I : In (run d l p) []).
      { apply G. apply (legal_double (nr:=nr) _ V W); eauto. }
      destruct I.
    + simpl. rewrite debug_assert_true, bind_ret. eexists; split; [reflexivity|].
      split; [discriminate|]. split; [right; exists nr, p; rewrite Eg; auto|]. exact G.
Qed.

Lemma double_correct N m p d : wf N p -> valid_die d ->
  exists l, all_positions_after_double_move m p d = Ret l /\
  l <> [] /\ forall r, In r l <-> legal_result (Double d) p r.
Proof. intros W V. destruct (double_correct_shape m W V) as (l & E & Ne & _ & H). eauto. Qed.
