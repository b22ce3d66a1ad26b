(** C86: few checkers - the mover can avoid hitting, and can move. *)
From Verif Require Export RaceFacts PropDeadlock PerftFacts.
From Coq Require Import Permutation.
Unset Implicit Arguments.
Open Scope Z_scope.

(** ** Counting *)
Definition oc (p : position) (i : nat) : Z := Z.max 0 (- pt p i).
Lemma sum_sub (f : nat -> Z) : (forall i, 0 <= f i) -> forall l l', NoDup l -> incl l l' -> sumZ (map f l) <= sumZ (map f l').
Proof.
  intros P. induction l as [|a l IH]; intros l' D I.
  - cbn. clear - P. induction l' as [|b l' IH]; cbn; [lia|]. specialize (P b). unfold sumZ in *. cbn. lia.
  - inversion_clear D as [|? ? Na D']. destruct (in_split a l') as (u & w & ->); [apply I; left; auto|].
    assert (J : incl l (u ++ w)).
    { intros x X. assert (x <> a) by congruence. specialize (I x (or_intror X)). apply in_app_iff in I. apply in_app_iff.
      destruct I as [|[|]]; auto; congruence. }
    specialize (IH _ D' J). rewrite map_app in *. cbn [map]. unfold sumZ in *. rewrite !fold_right_app in *. cbn [fold_right].
    assert (S : forall l z, fold_right Z.add z l = fold_right Z.add 0 l + z).
    { clear. induction l as [|x l IH]; intros z; cbn; [lia|]. rewrite IH. lia. }
    rewrite (S (map f u) (f a + _)). rewrite (S (map f u)) in IH. lia.
Qed.
Lemma o_total N p : wf N p -> sumZ (map (oc p) (seq 0 26)) = N - o_off p.
Proof.
  intros W. pose proof (wf_o W) as O. pose proof (wf_len W) as L. unfold o_checkers in O.
  assert (E : map (oc p) (seq 0 26) = map (fun v => Z.max 0 (- v)) (pips p)).
  { unfold oc, pt. clear - L. destruct p as [t ps a b]. cbn in *. do 26 (destruct ps as [|? ps]; [discriminate|]). destruct ps; [reflexivity|discriminate]. }
  rewrite E. lia.
Qed.
Lemma o_some N p l : wf N p -> NoDup l -> (forall i, In i l -> (i <= 25)%nat) -> sumZ (map (oc p) l) <= N - o_off p.
Proof.
  intros W D H. rewrite <- (o_total N p W). apply sum_sub; auto; [unfold oc; intros; lia|].
  intros i I. apply in_seq. specialize (H i I). lia.
Qed.

Definition cnt (l : list bool) : nat := length (filter (fun b => b) l).
(** Which of the [n] points in front of [f] hold o checkers. *)
Definition occ (p : position) (f n : nat) : list bool := map (fun k => pt p (f - k) <? 0) (seq 1 n).
Lemma occ_cnt N p f n : wf N p -> (n < f <= 25)%nat -> Z.of_nat (cnt (occ p f n)) <= N - o_off p.
Proof.
  intros W H.
  assert (A : forall s m, Z.of_nat (cnt (map (fun k => pt p (f - k) <? 0) (seq s m))) <= sumZ (map (oc p) (map (fun k => (f - k)%nat) (seq s m)))).
  { intros s m. revert s. unfold cnt, sumZ. induction m as [|m IH]; intros s; cbn [seq map filter]; [cbn; lia|]. specialize (IH (S s)).
    cbn [fold_right]. unfold oc at 1. destruct (Z.ltb_spec (pt p (f - s)) 0); cbn [length]; lia. }
  etransitivity; [apply A|]. apply o_some; [auto| |].
  - assert (X : forall s m, (s + m <= f + 1)%nat -> NoDup (map (fun k => (f - k)%nat) (seq s m))).
    { intros s m. revert s. induction m as [|m IH]; intros s Hs; cbn; constructor; [|apply IH; lia].
      rewrite in_map_iff. intros (x & E & I). apply in_seq in I. lia. }
    apply X. lia.
  - intros i I. apply in_map_iff in I. destruct I as (x & <- & _). lia.
Qed.
Lemma occ_nth p f n k : (1 <= k <= n)%nat -> nth (k - 1) (occ p f n) true = false -> 0 <= pt p (f - k).
Proof.
  intros H E. unfold occ in E.
  rewrite (nth_indep _ true (pt p (f - 0) <? 0)) in E by (rewrite map_length, seq_length; lia).
  rewrite map_nth with (f := fun k => pt p (f - k) <? 0) in E. rewrite seq_nth in E by lia.
  replace (1 + (k - 1))%nat with k in E by lia. apply Z.ltb_ge in E. exact E.
Qed.
Lemma occ_nth_true p f n k : (1 <= k <= n)%nat -> nth (k - 1) (occ p f n) false = true -> pt p (f - k) < 0.
Proof.
  intros H E. unfold occ in E.
  rewrite (nth_indep _ false (pt p (f - 0) <? 0)) in E by (rewrite map_length, seq_length; lia).
  rewrite map_nth with (f := fun k => pt p (f - k) <? 0) in E. rewrite seq_nth in E by lia.
  replace (1 + (k - 1))%nat with k in E by lia. apply Z.ltb_lt in E. exact E.
Qed.

(** ** Pigeonholes, by computation *)
Fixpoint all_lists (n : nat) : list (list bool) :=
  match n with O => [[]] | S n => map (cons true) (all_lists n) ++ map (cons false) (all_lists n) end.
Lemma all_lists_in l : In l (all_lists (length l)).
Proof.
  induction l as [|b l IH]; cbn; [auto|]. apply in_app_iff. destruct b; [left|right]; apply in_map; exact IH.
Qed.
Definition pairs : list (nat * nat) := flat_map (fun a => map (pair a) (filter (fun b => negb (Nat.eqb a b)) (seq 1 6))) (seq 1 6).
(** A pair of dice with which one checker moves over free points only. *)
Definition free_pair (l : list bool) (ab : nat * nat) : bool :=
  let '(a, b) := ab in (a + b <=? length l)%nat && negb (nth (a - 1) l true) && negb (nth (a + b - 1) l true).
(** A pair of dice with which two checkers can go to free points. *)
Definition free_two (l : list bool) (ab : nat * nat) : bool :=
  let '(a, b) := ab in negb (nth (a - 1) l true) && negb (nth (b - 1) l true).
Lemma pairs_in a b : In (a, b) pairs -> (1 <= a <= 6)%nat /\ (1 <= b <= 6)%nat /\ a <> b.
Proof.
  unfold pairs. rewrite in_flat_map. intros (x & X & I). apply in_map_iff in I. destruct I as (y & E & I).
  apply filter_In in I. destruct I as (I & Nq). injection E as <- <-. apply in_seq in X, I.
  apply negb_true_iff, Nat.eqb_neq in Nq. lia.
Qed.
Lemma pig_long : forallb (fun n => forallb (fun l => (4 <? cnt l)%nat || existsb (free_pair l) pairs) (all_lists n)) [7; 8; 9; 10; 11]%nat = true.
Proof. vm_compute. reflexivity. Qed.
Lemma pig_six : forallb (fun l => (4 <? cnt l)%nat || existsb (free_pair l) pairs || negb (nth 5 l true)
    || (if list_eq_dec Bool.bool_dec l [false; false; true; true; true; true] then true else false)
    || (if list_eq_dec Bool.bool_dec l [true; false; true; false; true; true] then true else false)) (all_lists 6) = true.
Proof. vm_compute. reflexivity. Qed.
Lemma pig_two : forallb (fun l => (4 <? cnt l)%nat || existsb (free_two l) pairs) (all_lists 6) = true.
Proof. vm_compute. reflexivity. Qed.

(** ** Building plays *)
Definition roll_of (a b : nat) : dice := if (b <? a)%nat then Mixed a b else Mixed b a.
Lemma roll_of_valid a b : valid_die a -> valid_die b -> a <> b -> valid_dice (roll_of a b).
Proof. unfold roll_of. intros A B Ne. destruct (Nat.ltb_spec b a); cbn; unfold valid_die in *; lia. Qed.
Lemma uses_len d ds : uses d ds -> (length ds <= length (pool d))%nat.
Proof. intros (r & P). apply Permutation_length in P. rewrite app_length in P. lia. Qed.
Lemma full_legal d p ds r : Permutation ds (pool d) -> plays ds p r -> legal_play d p ds r.
Proof.
  intros P H. split; [exists []; rewrite app_nil_r; exact P|]. split; [exact H|]. split.
  - intros ds' r' U _. apply uses_len in U. apply Permutation_length in P. lia.
  - intros a -> . apply Permutation_length in P. destruct d; discriminate.
Qed.
Lemma two_legal p a b r : a <> b -> plays [a; b] p r -> legal_play (roll_of a b) p [a; b] r.
Proof. intros Ne H. apply full_legal; auto. unfold roll_of. destruct (b <? a)%nat; cbn; [auto|apply perm_swap]. Qed.

Definition calm (N : Z) (p q : position) : Prop := wf N q /\ o_pips q = o_pips p.
Lemma one_step N p d f : wf N p -> valid_die d -> may_move p d f -> moved p d f (mv p d f) /\ wf N (mv p d f).
Proof.
  intros W V M. pose proof (may_move_pre M) as Pr. pose proof (may_move_range M) as Rg. split; [|apply mv_wf; auto].
  apply moved_iff; [apply W|auto|unfold valid_die in V; lia|reflexivity].
Qed.
Lemma quiet_step N p d f : wf N p -> valid_die d -> (d < f <= 25)%nat -> 0 < pt p f -> (f <> 25%nat -> pt p 25 <= 0) ->
  0 <= pt p (f - d) -> may_move p d f /\ moved p d f (mv p d f) /\ calm N p (mv p d f).
Proof.
  intros W V F X B Q.
  assert (M : may_move p d f) by (repeat split; auto; try lia; intros; lia).
  destruct (one_step N p d f W V M) as (Mv & Wq). split; [exact M|]. split; [exact Mv|]. split; [exact Wq|].
  rewrite (o_pips_mv W V (may_move_pre M)).
  destruct (Z.eqb_spec (pt p (f - d)) (-1)); [lia|]. rewrite andb_false_r. lia.
Qed.

(** One checker moves with both dice. *)
Lemma run_two N p f a b : wf N p -> In (a, b) pairs -> (a + b < f <= 25)%nat -> 0 < pt p f ->
  pt p 25 <= (if (f =? 25)%nat then 1 else 0) -> 0 <= pt p (f - a) -> 0 <= pt p (f - (a + b)) ->
  exists r, plays [a; b] p r /\ calm N p r.
Proof.
  intros W Ip F X B Qa Qb. apply pairs_in in Ip. destruct Ip as (Va & Vb & Ne).
  assert (L : length (pips p) = 26%nat) by apply W.
  destruct (quiet_step N p a f W Va) as (M1 & V1 & W1 & E1); auto; try lia.
  { intros Nf. destruct (Nat.eqb_spec f 25); [congruence|lia]. }
  destruct (quiet_step N (mv p a f) b (f - a) W1 Vb) as (M2 & V2 & W2 & E2); try lia.
  { rewrite (@pt_mv p a f (f - a) L) by lia. destruct (Nat.eqb_spec (f - a) f); [lia|].
    destruct (Nat.ltb_spec a f); [|lia]. rewrite Nat.eqb_refl. cbn [andb]. destruct (_ =? -1); lia. }
  { intros _. rewrite (@pt_mv p a f 25 L) by lia. destruct (Nat.eqb_spec 25 f) as [<-|N25].
    - rewrite Nat.eqb_refl in B. lia.
    - destruct (Nat.eqb_spec f 25); [congruence|]. destruct (Nat.eqb_spec 25 (f - a)); [lia|].
      cbn [andb]. rewrite !andb_false_r. cbn [andb]. lia. }
  { replace (f - a - b)%nat with (f - (a + b))%nat by lia. rewrite (@pt_mv p a f _ L) by lia.
    destruct (Nat.eqb_spec (f - (a + b)) f); [lia|]. destruct (Nat.eqb_spec (f - (a + b)) (f - a)); [lia|].
    destruct (Nat.eqb_spec (f - (a + b)) 0); [lia|]. rewrite !andb_false_r. cbn [andb]. exact Qb. }
  eexists. split; [eapply plays_cons; [exact M1|exact V1|]; eapply plays_cons; [exact M2|exact V2|constructor]|].
  split; [exact W2|]. congruence.
Qed.
(** Two checkers enter. *)
Lemma enter_two N p a b : wf N p -> In (a, b) pairs -> 2 <= pt p 25 -> 0 <= pt p (25 - a) -> 0 <= pt p (25 - b) ->
  exists r, plays [a; b] p r /\ calm N p r.
Proof.
  intros W Ip B Qa Qb. apply pairs_in in Ip. destruct Ip as (Va & Vb & Ne).
  assert (L : length (pips p) = 26%nat) by apply W.
  destruct (quiet_step N p a 25 W Va) as (M1 & V1 & W1 & E1); auto; try lia.
  destruct (quiet_step N (mv p a 25) b 25 W1 Vb) as (M2 & V2 & W2 & E2); try lia.
  { rewrite (@pt_mv p a 25 25 L) by lia. rewrite Nat.eqb_refl. lia. }
  { rewrite (@pt_mv p a 25 _ L) by lia.
    destruct (Nat.eqb_spec (25 - b) 25); [lia|]. destruct (Nat.eqb_spec (25 - b) (25 - a)); [lia|].
    destruct (Nat.eqb_spec (25 - b) 0); [lia|]. rewrite !andb_false_r. cbn [andb]. exact Qb. }
  eexists. split; [eapply plays_cons; [exact M1|exact V1|]; eapply plays_cons; [exact M2|exact V2|constructor]|].
  split; [exact W2|]. congruence.
Qed.

(** Sixes from the seven point (onto a free ace point) or the home board never hit. *)
Definition sixes_safe (p : position) : Prop := (forall i, (7 < i <= 25)%nat -> pt p i <= 0) /\ (pt p 7 <= 0 \/ 0 <= pt p 1).
Lemma sixes N : forall n p r, wf N p -> sixes_safe p -> plays (repeat 6%nat n) p r -> o_pips r = o_pips p.
Proof.
  induction n as [|n IH]; intros p r W S H; cbn in H; inversion H; subst; [reflexivity|].
  assert (V : valid_die 6) by (cbv; lia).
  match goal with M : may_move p 6 _, V : moved p 6 _ _ |- _ => rename M into Mm; rename V into Vm end.
  pose proof (may_move_range Mm) as Rg. pose proof (may_move_pre Mm) as Pr. assert (L : length (pips p) = 26%nat) by apply W.
  apply moved_iff in Vm; [|auto|auto|lia]. subst q. destruct S as (S1 & S2).
  assert (F : (from <= 7)%nat). { destruct (le_lt_dec from 7); auto. destruct Mm as (_ & X & _). specialize (S1 from). lia. }
  match goal with Pl : plays _ (mv p 6 from) r |- _ => rename Pl into P2 end.
  assert (S' : sixes_safe (mv p 6 from)).
  { split.
    - intros i Hi. rewrite (@pt_mv p 6 from i L) by lia. destruct (Nat.eqb_spec i from); [lia|].
      destruct (Nat.eqb_spec i (from - 6)); [lia|]. destruct (Nat.eqb_spec i 0); [lia|]. rewrite !andb_false_r. cbn [andb]. apply S1, Hi.
    - destruct S2 as [S2|S2].
      + left. rewrite (@pt_mv p 6 from 7 L) by lia. destruct (Nat.eqb_spec 7 from) as [<-|]; [destruct Mm as (_ & X & _); lia|].
        destruct (Nat.eqb_spec 7 (from - 6)); [lia|]. destruct (Nat.eqb_spec 7 0); [lia|]. rewrite !andb_false_r. cbn [andb]. exact S2.
      + destruct (Nat.eq_dec from 7) as [->|N7].
        * right. rewrite (@pt_mv p 6 7 1 L) by lia. change (1 =? 7)%nat with false; change ((6 <? 7) && (1 =? 7 - 6))%nat with true; cbv iota. destruct (pt p 1 =? -1); lia.
        * right. rewrite (@pt_mv p 6 from 1 L) by lia. destruct (Nat.eqb_spec 1 from) as [<-|].
          -- destruct Mm as (_ & X & _). lia.
          -- destruct (Nat.eqb_spec 1 (from - 6)); [lia|]. cbn [Nat.eqb]. rewrite !andb_false_r. cbn [andb]. exact S2. }
  rewrite (IH _ _ (mv_wf W V Pr) S' P2). rewrite (o_pips_mv W V Pr).
  destruct ((6 <? from)%nat && (pt p (from - 6) =? -1)) eqn:E; [|lia].
  apply andb_true_iff in E. destruct E as (E1 & E2). apply Nat.ltb_lt in E1. apply Z.eqb_eq in E2.
  assert (from = 7%nat) by lia. subst from. destruct Mm as (_ & X & _). change (7 - 6)%nat with 1%nat in E2. lia.
Qed.
Lemma some_legal N p d : wf N p -> valid_dice d -> exists ds r, legal_play d p ds r.
Proof.
  intros W V. destruct (movegen_release d W V) as (l & _ & Ne & H). destruct l as [|q l]; [congruence|].
  destruct (proj1 (H q) (or_introl eq_refl)) as (r & (ds & Lp) & _). eauto.
Qed.
Lemma uses_double a ds : uses (Double a) ds -> ds = repeat a (length ds).
Proof.
  intros (rest & P). assert (A : forall x, In x ds -> x = a).
  { intros x I. assert (J : In x (pool (Double a))) by (eapply Permutation_in; [exact P|apply in_app_iff; auto]). cbn in J. intuition. }
  clear P. induction ds as [|x ds IH]; [reflexivity|]. cbn. rewrite (A x (or_introl eq_refl)) at 1. f_equal. apply IH. intros y Y. apply A. right. exact Y.
Qed.

Lemma mv_same p d f : length (pips p) = 26%nat -> (1 <= f <= 25)%nat -> pt (mv p d f) f = pt p f - 1 \/ d = 0%nat.
Proof. intros L F. destruct d; [auto|]. left. rewrite (@pt_mv p (S d) f f L) by lia. rewrite Nat.eqb_refl. reflexivity. Qed.
Lemma mv_land p d f : length (pips p) = 26%nat -> (1 <= d < f)%nat -> (f <= 25)%nat -> 0 <= pt p (f - d) ->
  pt (mv p d f) (f - d) = pt p (f - d) + 1.
Proof.
  intros L D F Q. rewrite (@pt_mv p d f _ L) by lia. destruct (Nat.eqb_spec (f - d) f); [lia|].
  destruct (Nat.ltb_spec d f); [|lia]. rewrite Nat.eqb_refl. cbn [andb]. destruct (Z.eqb_spec (pt p (f - d)) (-1)); lia.
Qed.
Lemma mv_else p d f i : length (pips p) = 26%nat -> (1 <= d < f)%nat -> (f <= 25)%nat -> (1 <= i)%nat -> i <> f -> i <> (f - d)%nat ->
  pt (mv p d f) i = pt p i.
Proof.
  intros L D F I Ni Nj. rewrite (@pt_mv p d f i L) by lia. destruct (Nat.eqb_spec i f); [lia|].
  destruct (Nat.eqb_spec i (f - d)); [lia|]. destruct (Nat.eqb_spec i 0); [lia|]. rewrite !andb_false_r. reflexivity.
Qed.

Lemma four_steps N p d : wf N p -> d = 1%nat \/ d = 2%nat -> pt p 25 <= 0 -> 2 <= pt p 7 -> 0 <= pt p (7 - d) -> 0 <= pt p (7 - d - d) ->
  exists r, plays [d; d; d; d] p r /\ calm N p r.
Proof.
  intros W D B K Q1 Q2. assert (V : valid_die d) by (unfold valid_die; lia).
  destruct (quiet_step N p d 7 W V) as (M1 & V1 & W1 & E1); try lia. pose proof (wf_len W) as L. pose proof (wf_len W1) as L1.
  set (p1 := mv p d 7) in *.
  assert (A1 : pt p1 7 = pt p 7 - 1) by (destruct (mv_same p d 7 L); [lia|auto|lia]).
  assert (B1 : pt p1 (7 - d) = pt p (7 - d) + 1) by (apply mv_land; auto; lia).
  assert (C1 : pt p1 (7 - d - d) = pt p (7 - d - d)) by (apply mv_else; auto; lia).
  assert (D1 : pt p1 25 = pt p 25) by (apply mv_else; auto; lia).
  destruct (quiet_step N p1 d 7 W1 V) as (M2 & V2 & W2 & E2); try lia. pose proof (wf_len W2) as L2.
  set (p2 := mv p1 d 7) in *.
  assert (B2 : pt p2 (7 - d) = pt p1 (7 - d) + 1) by (apply mv_land; auto; lia).
  assert (C2 : pt p2 (7 - d - d) = pt p1 (7 - d - d)) by (apply mv_else; auto; lia).
  assert (D2 : pt p2 25 = pt p1 25) by (apply mv_else; auto; lia).
  destruct (quiet_step N p2 d (7 - d) W2 V) as (M3 & V3 & W3 & E3); try lia. pose proof (wf_len W3) as L3.
  set (p3 := mv p2 d (7 - d)) in *.
  assert (B3 : pt p3 (7 - d) = pt p2 (7 - d) - 1) by (destruct (mv_same p2 d (7 - d) L2); [lia|auto|lia]).
  assert (C3 : pt p3 (7 - d - d) = pt p2 (7 - d - d) + 1) by (apply mv_land; auto; lia).
  assert (D3 : pt p3 25 = pt p2 25) by (apply mv_else; auto; lia).
  destruct (quiet_step N p3 d (7 - d) W3 V) as (M4 & V4 & W4 & E4); try lia.
  eexists. split; [repeat (eapply plays_cons; [eassumption|eassumption|]); apply plays_nil|].
  split; [exact W4|congruence].
Qed.
Lemma in_and_off N p d : wf N p -> d = 1%nat \/ d = 2%nat -> (forall i, (7 < i <= 25)%nat -> pt p i <= 0) -> pt p 7 = 1 -> 0 <= pt p (7 - d) ->
  exists r, plays [d; (7 - d)%nat] p r /\ x_off r = x_off p + 1.
Proof.
  intros W D F K Q. assert (V : valid_die d) by (unfold valid_die; lia). assert (V' : valid_die (7 - d)) by (unfold valid_die; lia).
  destruct (quiet_step N p d 7 W V) as (M1 & V1 & W1 & E1); try lia. pose proof (wf_len W) as L. { intros _. apply F. lia. }
  pose proof (wf_len W) as L. pose proof (wf_len W1) as L1. set (p1 := mv p d 7) in *.
  assert (A1 : pt p1 7 = pt p 7 - 1) by (destruct (mv_same p d 7 L); [lia|auto|lia]).
  assert (B1 : pt p1 (7 - d) = pt p (7 - d) + 1) by (apply mv_land; auto; lia).
  assert (C1 : forall i, (7 < i <= 25)%nat -> pt p1 i <= 0).
  { intros i Hi. unfold p1. rewrite mv_else by (auto; lia). apply F, Hi. }
  assert (M2 : may_move p1 (7 - d) (7 - d)).
  { split; [lia|]. split; [lia|]. split; [intros _; apply C1; lia|]. split; [lia|]. intros _. split; [|lia].
    intros i Hi. destruct (Nat.eq_dec i 7) as [->|]; [lia|]. apply C1. lia. }
  destruct (one_step N p1 _ _ W1 V' M2) as (V2 & W2).
  eexists. split; [eapply plays_cons; [exact M1|exact V1|]; eapply plays_cons; [exact M2|exact V2|apply plays_nil]|].
  rewrite mv_xoff. rewrite Nat.leb_refl. unfold p1. rewrite mv_xoff. destruct (Nat.leb_spec 7 d); lia.
Qed.

(** ** The two lemmas *)

(** Against at most four checkers there is a roll that can be played (with at least one checker) without
    hitting, or by bearing off. *)
Lemma quiet_roll N p : wf N p -> x_off p < N -> N - o_off p <= 4 ->
  exists d ds r, valid_dice d /\ legal_play d p ds r /\ x_pips r < x_pips p /\ (o_pips r = o_pips p \/ x_off p < x_off r).
Proof.
  intros W X O4. destruct (rearmost N p W X) as (f & F & Pf & Rf).
  assert (Six : sixes_safe p -> may_move p 6 f -> exists d ds r, valid_dice d /\ legal_play d p ds r /\ x_pips r < x_pips p /\ (o_pips r = o_pips p \/ x_off p < x_off r)).
  { intros S Mf. assert (V : valid_dice (Double 6)) by (cbv; lia). destruct (some_legal N p _ W V) as (ds & r & Lp).
    exists (Double 6), ds, r. split; [exact V|]. split; [exact Lp|]. destruct Lp as (U & P & Mx & _).
    assert (V6 : valid_die 6) by (cbv; lia). destruct (one_step N p 6 f W V6 Mf) as (Mv & _).
    assert (L1 : (1 <= length ds)%nat).
    { apply (Mx [6%nat] (mv p 6 f)); [exists [6; 6; 6]%nat; reflexivity|]. eapply plays_cons; [exact Mf|exact Mv|constructor]. }
    rewrite (uses_double _ _ U) in P. split; [|left; exact (sixes N _ p r W S P)].
    assert (Fv : Forall valid_die (repeat 6%nat (length ds))).
    { apply Forall_forall. intros x I. apply repeat_spec in I. subst x. exact V6. }
    pose proof (plays_less N _ p r W Fv P) as Le. rewrite repeat_length in Le. lia. }
  assert (Two : forall a b r, In (a, b) pairs -> plays [a; b] p r -> (o_pips r = o_pips p \/ x_off p < x_off r) ->
    exists d ds r, valid_dice d /\ legal_play d p ds r /\ x_pips r < x_pips p /\ (o_pips r = o_pips p \/ x_off p < x_off r)).
  { intros a b r I P Q. apply pairs_in in I. destruct I as (A & B & Ne). exists (roll_of a b), [a; b], r.
    split; [apply roll_of_valid; auto|]. split; [apply two_legal; auto|]. split; [|exact Q].
    assert (Fv : Forall valid_die [a; b]) by (apply Forall_cons; [exact A|]; apply Forall_cons; [exact B|]; apply Forall_nil). pose proof (plays_less N _ p r W Fv P) as Le. cbn [length] in Le. lia. }
  assert (f1 : (1 <= f)%nat). { destruct f; [|lia]. pose proof (wf_obar W). lia. }
  assert (C : forall n, (n < f)%nat -> (cnt (occ p f n) <= 4)%nat).
  { intros n Hn. pose proof (occ_cnt N p f n W). lia. }
  assert (Ln : forall n, length (occ p f n) = n) by (intros; unfold occ; rewrite map_length, seq_length; reflexivity).
  destruct (le_lt_dec f 6) as [F6|F6].
  { apply Six; [split; [|left]; [intros i Hi|]; apply Rf; lia|]. split; [lia|]. split; [exact Pf|]. split; [intros _; apply Rf; lia|].
    split; [lia|]. intros _. split; intros; apply Rf; lia. }
  (* two or more on the bar *)
  destruct (Z_le_gt_dec 2 (pt p 25)) as [B2|B2].
  { assert (f = 25%nat). { destruct (Nat.eq_dec f 25); auto. specialize (Rf 25%nat). lia. } subst f.
    pose proof pig_two as Pg. rewrite forallb_forall in Pg. pose proof (all_lists_in (occ p 25 6)) as I. rewrite Ln in I.
    specialize (Pg _ I). apply orb_true_iff in Pg. destruct Pg as [Pg|Pg].
    - apply Nat.ltb_lt in Pg. specialize (C 6%nat). lia.
    - apply existsb_exists in Pg. destruct Pg as ((a & b) & Ip & Fr). unfold free_two in Fr. apply andb_true_iff in Fr.
      destruct Fr as (Fa & Fb). apply negb_true_iff in Fa, Fb. destruct (pairs_in _ _ Ip) as (A & B & _).
      apply occ_nth in Fa; [|lia]. apply occ_nth in Fb; [|lia].
      destruct (enter_two N p a b W Ip B2 Fa Fb) as (r & P & (_ & E)). apply (Two a b r Ip P). left. exact E. }
  assert (Bar : pt p 25 <= (if (f =? 25)%nat then 1 else 0)).
  { destruct (Nat.eqb_spec f 25); [lia|]. apply Rf. lia. }
  assert (Run : forall n, (n < f)%nat -> existsb (free_pair (occ p f n)) pairs = true ->
    exists d ds r, valid_dice d /\ legal_play d p ds r /\ x_pips r < x_pips p /\ (o_pips r = o_pips p \/ x_off p < x_off r)).
  { intros n Hn Pg. apply existsb_exists in Pg. destruct Pg as ((a & b) & Ip & Fr). unfold free_pair in Fr.
    apply andb_true_iff in Fr. destruct Fr as (Fr & Fb). apply andb_true_iff in Fr. destruct Fr as (Fl & Fa).
    apply negb_true_iff in Fa, Fb. apply Nat.leb_le in Fl. rewrite Ln in Fl. destruct (pairs_in _ _ Ip) as (A & B & _).
    apply occ_nth in Fa; [|lia]. apply occ_nth in Fb; [|lia].
    destruct (run_two N p f a b W Ip) as (r & P & (_ & E)); auto; [lia|]. apply (Two a b r Ip P). left. exact E. }
  destruct (Nat.eq_dec f 7) as [->|N7].
  - pose proof pig_six as Pg. rewrite forallb_forall in Pg. pose proof (all_lists_in (occ p 7 6)) as I. rewrite Ln in I.
    specialize (Pg _ I). rewrite !orb_true_iff in Pg. destruct Pg as [[[[Pg|Pg]|Pg]|Pg]|Pg].
    + apply Nat.ltb_lt in Pg. specialize (C 6%nat). lia.
    + apply (Run 6%nat); [lia|exact Pg].
    + apply negb_true_iff in Pg. apply (occ_nth p 7 6 6) in Pg; [|lia]. apply Six; [split; [exact Rf|]; right; exact Pg|].
      split; [lia|]. split; [exact Pf|]. split; [intros _; apply Rf; lia|]. split; [|lia]. intros _. change (7 - 6)%nat with 1%nat in *. lia.
    + destruct (list_eq_dec _ _ _) as [E|]; [|discriminate]. clear Pg.
      assert (Q1 : 0 <= pt p (7 - 1)) by (apply (occ_nth p 7 6 1); [lia|rewrite E; reflexivity]).
      assert (Q2 : 0 <= pt p (7 - 1 - 1)) by (apply (occ_nth p 7 6 2); [lia|rewrite E; reflexivity]).
      destruct (Z_le_gt_dec 2 (pt p 7)) as [K|K].
      * destruct (four_steps N p 1 W) as (r & P & (_ & Er)); auto; try (apply Rf; lia).
        exists (Double 1), [1; 1; 1; 1]%nat, r. split; [cbv; lia|]. split; [apply full_legal; auto|]. split; [|auto].
        match goal with P : plays ?l p r |- _ => assert (Fv : Forall valid_die l) by (repeat (apply Forall_cons; [cbv; lia|]); apply Forall_nil); pose proof (plays_less N _ p r W Fv P) as Le; cbn [length] in Le; lia end.
      * destruct (in_and_off N p 1 W) as (r & P & Xr); auto; [lia|]. apply (Two 1%nat 6%nat r); [vm_compute; tauto|exact P|right; lia].
    + destruct (list_eq_dec _ _ _) as [E|]; [|discriminate]. clear Pg.
      assert (Q1 : 0 <= pt p (7 - 2)) by (apply (occ_nth p 7 6 2); [lia|rewrite E; reflexivity]).
      assert (Q2 : 0 <= pt p (7 - 2 - 2)) by (apply (occ_nth p 7 6 4); [lia|rewrite E; reflexivity]).
      destruct (Z_le_gt_dec 2 (pt p 7)) as [K|K].
      * destruct (four_steps N p 2 W) as (r & P & (_ & Er)); auto; try (apply Rf; lia).
        exists (Double 2), [2; 2; 2; 2]%nat, r. split; [cbv; lia|]. split; [apply full_legal; auto|]. split; [|auto].
        match goal with P : plays ?l p r |- _ => assert (Fv : Forall valid_die l) by (repeat (apply Forall_cons; [cbv; lia|]); apply Forall_nil); pose proof (plays_less N _ p r W Fv P) as Le; cbn [length] in Le; lia end.
      * destruct (in_and_off N p 2 W) as (r & P & Xr); auto; [lia|]. apply (Two 2%nat 5%nat r); [vm_compute; tauto|exact P|right; lia].
  - pose proof pig_long as Pg. rewrite forallb_forall in Pg.
    assert (G : forall n, In n [7; 8; 9; 10; 11]%nat -> (n < f)%nat ->
      exists d ds r, valid_dice d /\ legal_play d p ds r /\ x_pips r < x_pips p /\ (o_pips r = o_pips p \/ x_off p < x_off r)).
    { intros n In_ Hn. specialize (Pg n In_). rewrite forallb_forall in Pg. pose proof (all_lists_in (occ p f n)) as I. rewrite Ln in I.
      specialize (Pg _ I). apply orb_true_iff in Pg. destruct Pg as [Pg|Pg]; [|apply (Run n Hn Pg)].
      apply Nat.ltb_lt in Pg. specialize (C n Hn). lia. }
    assert (Fc : f = 8%nat \/ f = 9%nat \/ f = 10%nat \/ f = 11%nat \/ (12 <= f)%nat) by lia.
    destruct Fc as [->|[->|[->|[->|F12]]]]; [apply (G 7%nat)|apply (G 8%nat)|apply (G 9%nat)|apply (G 10%nat)|apply (G 11%nat)]; try (cbn; tauto); lia.
Qed.

(** Somebody who cannot move passes. *)
Lemma moving_roll N p : wf N p ->
  exists d ds r, valid_dice d /\ legal_play d p ds r /\ (x_pips r < x_pips p \/ r = p).
Proof.
  intros W. destruct (PropDeadlock.stuck_dec N p W) as [(d & a & V & M)|S].
  - assert (Vd : valid_dice (Double d)) by exact V. destruct (some_legal N p _ W Vd) as (ds & r & Lp).
    exists (Double d), ds, r. split; [exact Vd|]. split; [exact Lp|]. left. destruct Lp as (U & P & Mx & _).
    destruct (one_step N p d a W V M) as (Mv & _).
    assert (L1 : (1 <= length ds)%nat).
    { apply (Mx [d] (mv p d a)); [exists [d; d; d]; reflexivity|]. eapply plays_cons; [exact M|exact Mv|constructor]. }
    assert (Fv : Forall valid_die ds).
    { rewrite (uses_double _ _ U). apply Forall_forall. intros x I. apply repeat_spec in I. subst x. exact V. }
    pose proof (plays_less N ds p r W Fv P). lia.
  - assert (V : valid_die 1) by (cbv; lia). assert (Vd : valid_dice (Double 1)) by exact V.
    destruct (some_legal N p _ W Vd) as (ds & r & Lp).
    exists (Double 1), ds, r. split; [exact Vd|]. split; [exact Lp|]. right. destruct Lp as (U & P & _).
    assert (Fv : Forall valid_die ds).
    { rewrite (uses_double _ _ U). apply Forall_forall. intros x I. apply repeat_spec in I. subst x. exact V. }
    apply (PropDeadlock.stuck_plays p ds r S Fv P).
Qed.
