(** C88, continued: the phases in which one player's moves are blocked. *)
From Verif Require Import LeafFacts SpecFinish FinishFacts PropFinish PropPosition PropMoves PropGame GameFacts VariantFacts PropRace PropDeadlock PropGnuid EndFacts.
From Coq Require Import Permutation.
Unset Implicit Arguments.
Open Scope Z_scope.
Ltac eqs := repeat match goal with |- context [Nat.eqb ?a ?b] => destruct (Nat.eqb_spec a b); try lia
                                 | H : context [Nat.eqb ?a ?b] |- _ => destruct (Nat.eqb_spec a b); try lia end.
Section Turns.
Variable k : variant.
Notation N := (checkers k).
Notation fin := (EndFacts.fin k).

(** One checker played with both numbers, without a hit. *)
Lemma run_two p a b f : wf N p -> valid_die a -> valid_die b -> a <> b -> (a + b < f <= 25)%nat -> 0 < pt p f ->
  (if (f =? 25)%nat then pt p 25 <= 1 else pt p 25 <= 0) -> 0 <= pt p (f - a) -> 0 <= pt p (f - a - b) ->
  exists r, legal_play (roll_of a b) p [a; b] r /\ neg_same p r /\ pt r 0 = pt p 0 /\ x_pips r < x_pips p /\
    forall i, (1 <= i <= 25)%nat -> pt r i = pt p i - (if (i =? f)%nat then 1 else 0) + (if (i =? f - a - b)%nat then 1 else 0).
Proof.
  intros W Va Vb D R P B Qa Qb. unfold valid_die in *.
  assert (B1 : f <> 25%nat -> pt p 25 <= 0) by (intros; destruct (Nat.eqb_spec f 25); [contradiction|auto]).
  destruct (q1 k p a f W ltac:(unfold valid_die; lia) ltac:(lia) P B1 Qa) as (M1 & W1 & N1 & E01 & E1).
  assert (A1 : 0 < pt (mv p a f) (f - a)) by (rewrite E1 by lia; eqs).
  assert (A2 : 0 <= pt (mv p a f) (f - a - b)) by (rewrite E1 by lia; eqs).
  assert (A3 : pt (mv p a f) 25 <= 0) by (rewrite E1 by lia; destruct (Nat.eqb_spec f 25); eqs; subst; lia).
  destruct (q1 k (mv p a f) b (f - a)%nat W1 ltac:(unfold valid_die; lia) ltac:(lia) A1 ltac:(auto) A2) as (M2 & W2 & N2 & E02 & E2).
  assert (Pl : plays [a; b] p (mv (mv p a f) b (f - a))).
  { apply (plays_cons_iff [b] _ W); [unfold valid_die; lia|]. exists f. split; auto. apply (plays_one _ W1); [unfold valid_die; lia|]. eauto. }
  exists (mv (mv p a f) b (f - a)). split; [apply two_legal; auto|]. split; [eapply neg_trans; eauto|]. split; [lia|]. split.
  - assert (Vl : Forall valid_die [a; b]) by (apply Forall_cons; [unfold valid_die; lia|apply Forall_cons; [unfold valid_die; lia|apply Forall_nil]]).
    apply (pos_pips k [a; b] p _ W Vl Pl). cbn; lia.
  - intros i I. rewrite E2, E1 by lia. eqs; subst; lia.
Qed.

(** A play into the last phase. *)
Lemma last_start s p d ds r : wf N p -> valid_dice d -> legal_play d p ds r -> last_phase s r -> fin p.
Proof.
  assert (V6 : valid_die 6) by (cbv; lia).
  intros W V L Hr. apply (fin_step k p d ds r W V L). pose proof (legal_wf k p d ds r W V L) as Wr.
  pose proof (flipP_wf Wr) as Wf. destruct (some_legal N (flipP r) (Double 6) Wf V6) as (ds2 & r2 & L2).
  apply (fin_step k (flipP r) (Double 6) ds2 r2 Wf V6 L2). pose proof (legal_wf k _ (Double 6) _ _ Wf V6 L2) as W2.
  destruct L2 as (U2 & P2 & _). rewrite (FinishFacts.uses_double _ _ U2) in P2.
  destruct (last_sixes k s _ _ _ Wf (last_flip s r (wf_len Wr) Hr) P2) as (H2 & N2).
  pose proof (x_pips_nonneg (flipP r2)).
  apply (last_fin k (Z.to_nat (x_pips (flipP r2))) s); [apply flipP_wf; auto|lia|]. apply last_unflip; auto. apply W2.
Qed.

(** ** o can not move sixes *)
Definition Zs (s : nat) (p : position) : Prop :=
  (s = 1 \/ s = 3)%nat /\ pt p s < 0 /\ (forall i, (1 <= i <= 24)%nat -> pt p i < 0 -> i = s \/ (20 <= i)%nat) /\
  pt p 0 = 0 /\ 2 <= pt p (s + 6).
Lemma Zs_frozen s r : wf N r -> Zs s r -> forall f, ~ may_move (flipP r) 6 f.
Proof.
  intros W (S & B & O & Z0 & H) f M. pose proof (wf_len W) as L. pose proof M as (R & P & Mb & Mo & Mh).
  rewrite pt_flipP in P by (auto; lia).
  assert (F25 : f <> 25%nat). { intros ->. change (25 - 25)%nat with 0%nat in P. lia. }
  destruct (O (25 - f)%nat ltac:(lia) ltac:(lia)) as [E|E].
  - specialize (Mo ltac:(lia)). rewrite pt_flipP in Mo by (auto; lia). replace (25 - (f - 6))%nat with (s + 6)%nat in Mo by lia. lia.
  - destruct Mh as (Mh & _); [lia|]. specialize (Mh (25 - s)%nat ltac:(lia)). rewrite pt_flipP in Mh by (auto; lia).
    replace (25 - (25 - s))%nat with s in Mh by lia. lia.
Qed.
Lemma Zs_nonneg s p i : Zs s p -> (1 <= i <= 24)%nat -> i <> s -> (i < 20)%nat -> 0 <= pt p i.
Proof. intros (_ & _ & O & _) I D T. destruct (Z_lt_le_dec (pt p i) 0) as [X|]; auto. specialize (O i I X). lia. Qed.
Lemma Zs_keep s p r : Zs s p -> neg_same p r -> pt r 0 = pt p 0 -> 2 <= pt r (s + 6) -> Zs s r.
Proof.
  intros (S & B & O & Z0 & H) Ns E0 H2. split; auto. split; [specialize (Ns s ltac:(lia)); lia|]. split; [|split; [lia|auto]].
  intros i I X. apply O; auto. specialize (Ns i ltac:(lia)). lia.
Qed.
(** Sixes from the bar. *)
Lemma sixes_in s n : forall p, wf N p -> Zs s p -> Z.of_nat n <= 2 * Z.max 0 (pt p 25) + Z.max 0 (pt p 19) ->
  exists r, plays (repeat 6%nat n) p r /\ Zs s r.
Proof.
  assert (V : valid_die 6) by (cbv; lia).
  induction n as [|n IH]; intros p W H C.
  - exists p. split; [constructor|auto].
  - assert (S : (s = 1 \/ s = 3)%nat) by apply H. assert (H6 : 2 <= pt p (s + 6)) by apply H.
    assert (X : exists f, may_move p 6 f /\ wf N (mv p 6 f) /\ Zs s (mv p 6 f) /\
        Z.of_nat n <= 2 * Z.max 0 (pt (mv p 6 f) 25) + Z.max 0 (pt (mv p 6 f) 19)).
    { destruct (Z_lt_le_dec 0 (pt p 25)) as [B|B].
      - pose proof (Zs_nonneg s p 19 H ltac:(lia) ltac:(lia) ltac:(lia)) as Q.
        destruct (q1 k p 6 25 W V ltac:(lia) B ltac:(congruence) Q) as (M & W1 & N1 & E0 & E1). exists 25%nat. split; auto. split; auto.
        split; [apply (Zs_keep s p); auto; rewrite E1 by lia; eqs|]. rewrite !E1 by lia. eqs.
      - pose proof (Zs_nonneg s p 13 H ltac:(lia) ltac:(lia) ltac:(lia)) as Q.
        destruct (q1 k p 6 19 W V ltac:(lia) ltac:(lia) ltac:(auto) Q) as (M & W1 & N1 & E0 & E1). exists 19%nat. split; auto. split; auto.
        split; [apply (Zs_keep s p); auto; rewrite E1 by lia; eqs|]. rewrite !E1 by lia. eqs. }
    destruct X as (f & M & W1 & H1 & C1). destruct (IH _ W1 H1 C1) as (r & P & Hr). exists r. split; auto.
    cbn [repeat]. apply (plays_cons_iff (repeat 6%nat n) r W V). eauto.
Qed.
Lemma Zs_fin n : forall s p, wf N p -> x_pips p <= Z.of_nat n -> Zs s p -> fin p.
Proof.
  assert (V6 : valid_die 6) by (cbv; lia).
  induction n as [n IH] using lt_wf_ind. intros s p W Xp H.
  destruct (over_dec' k p) as [O|O]; [apply vongoing_tag in O|exists 0%nat, (tag k p); split; [constructor|auto]].
  destruct O as (O1 & O2). pose proof H as (S & B & Oh & Z0 & H6).
  assert (G : forall d ds r, valid_dice d -> legal_play d p ds r -> x_pips r < x_pips p -> Zs s r -> fin p).
  { intros d ds r V L Lt Hr. pose proof (legal_wf k p d ds r W V L) as Wr.
    apply (fin_solo k p d ds r 6 W V L V6); [apply (Zs_frozen s); auto|]. pose proof (x_pips_nonneg r).
    apply (IH (Z.to_nat (x_pips r)) ltac:(lia) s); auto. lia. }
  destruct (rearmost N p W O1) as (f & Rf & Pf & Fb).
  assert (Hf : (s + 6 <= f)%nat). { destruct (le_lt_dec (s + 6) f); auto. specialize (Fb (s + 6)%nat ltac:(lia)). lia. }
  assert (R2 : forall a b, valid_die a -> valid_die b -> a <> b -> (a + b < f)%nat ->
     (if (f =? 25)%nat then pt p 25 <= 1 else pt p 25 <= 0) -> (f - a < 20)%nat -> (s < f - a - b)%nat -> (f = (s + 6)%nat -> 3 <= pt p f) -> fin p).
  { intros a b Va Vb D Ab Br T1 T2 T3.
    pose proof (Zs_nonneg s p (f - a) H ltac:(unfold valid_die in *; lia) ltac:(lia) ltac:(lia)) as Q1.
    pose proof (Zs_nonneg s p (f - a - b) H ltac:(lia) ltac:(lia) ltac:(lia)) as Q2.
    destruct (run_two p a b f W Va Vb D ltac:(lia) Pf Br Q1 Q2) as (r & L & Ns & E0 & Lt & E).
    apply (G (roll_of a b) [a; b] r); auto; [apply roll_of_valid; auto|]. apply (Zs_keep s p); auto. rewrite E by lia.
    destruct (Nat.eqb_spec (s + 6) f) as [Ef|]; [specialize (T3 (eq_sym Ef)); rewrite <- Ef in T3; eqs|eqs]. }
  assert (V5 : valid_die 5) by (cbv; lia). assert (V2 : valid_die 2) by (cbv; lia). assert (V1 : valid_die 1) by (cbv; lia).
  destruct (Nat.eq_dec f 25) as [E25|N25].
  - rewrite E25 in *. destruct (Z_le_gt_dec (pt p 25) 1) as [B1|B2].
    + apply (R2 6%nat 5%nat); auto; try lia.
    + destruct (sixes_in s 4 p W H ltac:(lia)) as (r & P & Hr).
      assert (L : legal_play (Double 6) p [6; 6; 6; 6]%nat r) by (apply full_legal; [apply Permutation_refl|exact P]).
      apply (G (Double 6) _ r V6 L); auto.
      assert (Vl : Forall valid_die [6; 6; 6; 6]%nat) by (repeat (apply Forall_cons; [exact V6|]); apply Forall_nil).
      apply (pos_pips k _ p r W Vl P). cbn; lia.
  - assert (B25 : pt p 25 <= 0) by (apply Fb; lia). assert (Br : if (f =? 25)%nat then pt p 25 <= 1 else pt p 25 <= 0) by (destruct (f =? 25)%nat; lia).
    destruct (le_lt_dec 20 f) as [F20|F20]; [apply (R2 6%nat 5%nat); auto; lia|].
    destruct (Nat.eq_dec f (s + 6)) as [Ef|Nf]; [|apply (R2 2%nat 1%nat); auto; lia].
    destruct (Z_le_gt_dec (pt p f) 2) as [Two|Three]; [|apply (R2 2%nat 1%nat); auto; lia].
    (* the last two checkers *)
    pose proof (Zs_nonneg s p (f - 2) H ltac:(lia) ltac:(lia) ltac:(lia)) as Q1.
    pose proof (Zs_nonneg s p (f - 1) H ltac:(lia) ltac:(lia) ltac:(lia)) as Q2. rewrite <- Ef in H6.
    destruct (q1 k p 2 f W V2 ltac:(lia) Pf ltac:(auto) Q1) as (M1 & W1 & N1 & E01 & E1).
    assert (A1 : 0 < pt (mv p 2 f) f) by (rewrite E1 by lia; eqs).
    assert (A2 : 0 <= pt (mv p 2 f) (f - 1)) by (rewrite E1 by lia; eqs).
    assert (A3 : pt (mv p 2 f) 25 <= 0) by (rewrite E1 by lia; eqs).
    destruct (q1 k (mv p 2 f) 1 f W1 V1 ltac:(lia) A1 ltac:(auto) A2) as (M2 & W2 & N2 & E02 & E2).
    assert (P : plays [2; 1]%nat p (mv (mv p 2 f) 1 f)).
    { apply (plays_cons_iff [1%nat] _ W V2). exists f. split; auto. apply (plays_one _ W1 V1). eauto. }
    apply (last_start s p (roll_of 2 1) [2; 1]%nat _ W ltac:(cbv; lia) (two_legal p 2 1 _ ltac:(lia) P)).
    pose proof (neg_trans _ _ _ N1 N2) as Nr. split; auto. split; [|split].
    + intros i I. rewrite E2, E1 by lia. specialize (Fb i). destruct (Nat.eq_dec i f) as [->|]; [|specialize (Fb ltac:(lia))]; eqs.
    + intros i I Pi. specialize (Nr i ltac:(lia)). specialize (Oh i I ltac:(lia)). unfold six_points. lia.
    + lia.
Qed.

(** ** x is blocked behind o, and breaks the six point *)
Definition Vc (e : nat) (p : position) : Prop :=
  (e = 24 \/ e = 22)%nat /\ (forall i, (1 <= i <= 25)%nat -> 0 < pt p i -> i = e \/ (i <= 6)%nat) /\ 0 < pt p e /\ 2 <= pt p 2 /\
  pt p (e - 6) <= -2 /\ pt p (e - 4) <= -2 /\ pt p 0 < 0.
Lemma Vc_four e p f : wf N p -> Vc e p -> may_move p 4 f -> Vc e (mv p 4 f).
Proof.
  intros W (E & O & Pe & P2 & H6 & H4 & B) M. assert (V : valid_die 4) by (cbv; lia). pose proof (wf_len W) as L.
  pose proof M as (R & P & Mb & Mo & Mh). assert (F : f = 5%nat \/ f = 6%nat).
  { destruct (O f R P) as [->|F6]; [specialize (Mo ltac:(lia)); lia|]. destruct (le_lt_dec f 4) as [F4|]; [|lia].
    destruct (Mh F4) as (Hh & _). specialize (Hh e ltac:(lia)). lia. }
  split; auto. split; [|split; [|split; [|split; [|split]]]].
  - intros i I. rewrite pt_mv1 by auto. specialize (O i I). destruct (Nat.eqb_spec i f) as [->|]; [intros; right; lia|].
    destruct (Nat.ltb_spec 4 f); cbn [andb]; [|auto]. destruct (Nat.eqb_spec i (f - 4)) as [->|]; [intros; right; lia|auto].
  - rewrite pt_mv1 by (auto; lia). destruct (Nat.eqb_spec e f); [lia|]. destruct (Nat.eqb_spec e (f - 4)); [lia|]. rewrite andb_false_r. lia.
  - rewrite pt_mv1 by (auto; lia). destruct (Nat.eqb_spec 2 f); [lia|]. destruct (_ && _); lia.
  - apply held_mv; auto; lia.
  - apply held_mv; auto; lia.
  - pose proof (bar_mv0 p 4 f L V M). lia.
Qed.
Lemma Vc_fours e n : forall p r, wf N p -> Vc e p -> plays (repeat 4%nat n) p r -> Vc e r.
Proof.
  assert (V : valid_die 4) by (cbv; lia).
  induction n as [|n IH]; intros p r W H P; cbn [repeat] in P; [inversion P; subst; auto|].
  apply (plays_cons_iff (repeat 4%nat n) r W V) in P. destruct P as (f & M & P).
  apply (IH (mv p 4 f) r (may_wf W V M)); auto. apply Vc_four; auto.
Qed.
Lemma Vc_fin e n : forall p, wf N p -> x_pips p <= Z.of_nat n -> Vc e p -> fin p.
Proof.
  assert (V4 : valid_die 4) by (cbv; lia). assert (V6 : valid_die 6) by (cbv; lia). assert (V2 : valid_die 2) by (cbv; lia).
  induction n as [n IH] using lt_wf_ind. intros p W Xp H. pose proof H as (E & O & Pe & P2 & H6 & H4 & B). pose proof (wf_len W) as L.
  destruct (Z_lt_le_dec 0 (pt p 6)) as [Six|Six].
  - destruct (some_legal N p (Double 4) W V4) as (ds & r & Lp). pose proof (legal_wf k p (Double 4) ds r W V4 Lp) as Wr.
    pose proof Lp as (U & P & Mx & _). pose proof (FinishFacts.uses_double _ _ U) as Ed.
    assert (Vd : Forall valid_die ds) by (apply (@uses_valid (Double 4)); auto).
    assert (Ln : (1 <= length ds)%nat).
    { apply (Mx [4%nat] (mv p 4 6)).
      - exists [4; 4; 4]%nat. apply Permutation_refl.
      - apply (plays_one (mv p 4 6) W V4). exists 6%nat. split; auto.
        split; [lia|]. split; [auto|]. split; [|split; [|lia]].
        + intros _. destruct (Z_lt_le_dec 0 (pt p 25)) as [X|]; auto. specialize (O 25%nat ltac:(lia) X). lia.
        + intros _. change (6 - 4)%nat with 2%nat. lia. }
    pose proof P as P'. rewrite Ed in P'. pose proof (Vc_fours e _ p r W H P') as Hr.
    pose proof (pos_pips k ds p r W Vd P Ln). pose proof (x_pips_nonneg r).
    apply (fin_solo k p (Double 4) ds r 2 W V4 Lp V2).
    + destruct Hr as (_ & _ & _ & R2 & _ & _ & RB). apply frozen_bar; auto. apply Wr.
    + apply (IH (Z.to_nat (x_pips r))); auto; lia.
  - apply (fin_pass k p 6 W V6).
    + intros f (R & P & Mb & Mo & Mh). destruct (O f R P) as [->|F6]; [specialize (Mo ltac:(lia)); lia|].
      destruct (Mh F6) as (Hh & _). specialize (Hh e ltac:(lia)). lia.
    + pose proof (x_pips_nonneg (flipP p)). apply (Zs_fin (Z.to_nat (x_pips (flipP p))) (25 - e)); [apply flipP_wf; auto|lia|].
      split; [lia|]. split; [|split; [|split]].
      * rewrite pt_flipP by (auto; lia). replace (25 - (25 - e))%nat with e by lia. lia.
      * intros i I X. rewrite pt_flipP in X by (auto; lia). destruct (O (25 - i)%nat ltac:(lia) ltac:(lia)) as [|Y]; [left; lia|].
        destruct (Nat.eq_dec i 19) as [->|]; [change (25 - 19)%nat with 6%nat in X; lia|lia].
      * rewrite pt_flipP by (auto; lia). change (25 - 0)%nat with 25%nat. pose proof (wf_xbar W).
        destruct (Z_lt_le_dec 0 (pt p 25)) as [X|]; [specialize (O 25%nat ltac:(lia) X); lia|lia].
      * rewrite pt_flipP by (auto; lia). replace (25 - (25 - e + 6))%nat with (e - 6)%nat by lia. lia.
Qed.
End Turns.
