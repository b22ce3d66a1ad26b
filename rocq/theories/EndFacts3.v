(** C88, continued: one player brings the checkers home while the other one is on the bar. *)
From Verif Require Import LeafFacts SpecFinish FinishFacts PropFinish PropPosition PropMoves PropGame GameFacts VariantFacts PropRace PropDeadlock PropGnuid EndFacts EndFacts2.
From Coq Require Import Permutation.
Unset Implicit Arguments.
Open Scope Z_scope.
Section Turns.
Variable k : variant.
Notation N := (checkers k).
Notation fin := (EndFacts.fin k).

Definition hi (p : position) : Z := Z.max 0 (pt p 3) + Z.max 0 (pt p 4) + Z.max 0 (pt p 5) + Z.max 0 (pt p 6).
Definition Kc (c : Z) (p : position) : Prop :=
  pt p 0 < 0 /\ 2 <= pt p 2 /\ c <= hi p /\ (forall i, In i [19; 21; 23]%nat -> pt p i <= -2) /\
  exists i, In i [20; 22; 24]%nat /\ -1 <= pt p i.
Lemma Kc_out c p d f : wf N p -> valid_die d -> Kc c p -> may_move p d f -> (6 < f)%nat -> Kc c (mv p d f).
Proof.
  intros W V (B & P2 & H & Hl & i0 & I0 & E0) M F. pose proof (wf_len W) as L. unfold valid_die in V.
  assert (G : forall i, (1 <= i <= 6)%nat -> pt p i <= pt (mv p d f) i).
  { intros i I. rewrite pt_mv1 by (auto; lia). destruct (Nat.eqb_spec i f); [lia|]. destruct (_ && _); lia. }
  split; [pose proof (bar_mv0 p d f L V M); lia|]. split; [specialize (G 2%nat ltac:(lia)); lia|]. split; [|split].
  - unfold hi in *. pose proof (G 3%nat ltac:(lia)). pose proof (G 4%nat ltac:(lia)). pose proof (G 5%nat ltac:(lia)). pose proof (G 6%nat ltac:(lia)). lia.
  - intros i I. assert (R : (1 <= i <= 25)%nat) by (cbn in I; destruct I as [<-|[<-|[<-|[]]]]; lia). apply held_mv; auto.
  - exists i0. split; auto. assert (R : (1 <= i0 <= 25)%nat) by (cbn in I0; destruct I0 as [<-|[<-|[<-|[]]]]; lia).
    pose proof (held_mv p d f i0 L V M R). lia.
Qed.
Lemma home_hi n : forall p r, wf N p -> all_home p -> 2 <= pt p 2 -> Z.of_nat n <= hi p -> plays (repeat 6%nat n) p r ->
  all_home r /\ 2 <= pt r 2 /\ pt r 0 <= pt p 0.
Proof.
  assert (V : valid_die 6) by (cbv; lia).
  induction n as [|n IH]; intros p r W H P2 C P; cbn [repeat] in P.
  - inversion P; subst. split; auto. split; auto. lia.
  - apply (plays_cons_iff (repeat 6%nat n) r W V) in P. destruct P as (f & M & P). pose proof (wf_len W) as L.
    destruct (home_mv p 6 f L V H M) as (H1 & F). pose proof M as (R & Pf & Mb & Mo & Mh). destruct (Mh F) as (_ & Hr).
    assert (F3 : (3 <= f)%nat).
    { destruct (le_lt_dec 3 f) as [|F3]; auto. specialize (Hr ltac:(lia)). unfold hi in C.
      pose proof (Hr 3%nat ltac:(lia)). pose proof (Hr 4%nat ltac:(lia)). pose proof (Hr 5%nat ltac:(lia)). pose proof (Hr 6%nat ltac:(lia)). lia. }
    assert (E : forall i, (1 <= i <= 25)%nat -> pt (mv p 6 f) i = pt p i - (if (i =? f)%nat then 1 else 0)).
    { intros i I. rewrite pt_mv1 by auto. destruct (Nat.eqb_spec i f) as [->|]; [lia|]. destruct (Nat.ltb_spec 6 f); [lia|]. cbn [andb]. lia. }
    destruct (IH (mv p 6 f) r (may_wf W V M) H1) as (A1 & A2 & A3); auto.
    + rewrite E by lia. destruct (Nat.eqb_spec 2 f); lia.
    + unfold hi in *. rewrite !E by lia. assert (Fe : (f = 3 \/ f = 4 \/ f = 5 \/ f = 6)%nat) by lia.
      clear - C Pf Fe. repeat match goal with |- context [Nat.eqb ?a ?b] => destruct (Nat.eqb_spec a b) end; destruct Fe as [->|[->|[->| ->]]]; lia.
    + split; auto. split; auto. pose proof (bar_mv0 p 6 f L V M). lia.
Qed.
Lemma out_six p f : all_home p \/ (may_move p 6 f -> (6 < f)%nat).
Proof.
  destruct (all_home_dec p) as [|(g & G & Pg)]; [left; auto|right]. intros (R & P & Mb & Mo & Mh).
  destruct (le_lt_dec f 6) as [F|]; auto. destruct (Mh F) as (Hh & _). destruct (Nat.eq_dec g 25) as [->|].
  - specialize (Mb ltac:(lia)). lia.
  - specialize (Hh g ltac:(lia)). lia.
Qed.
Lemma Kc_sixes n : forall p r, wf N p -> Kc 4 p -> (n <= 4)%nat -> plays (repeat 6%nat n) p r ->
  2 <= pt r 2 /\ pt r 0 < 0 /\ (all_home r \/ Kc 4 r).
Proof.
  assert (V : valid_die 6) by (cbv; lia).
  induction n as [|n IH]; intros p r W H C P.
  - cbn in P. inversion P; subst. split; [apply H|]. split; [apply H|auto].
  - destruct (all_home_dec p) as [Hh|(g & G & Pg)].
    + destruct H as (B & P2 & Hc & _). destruct (home_hi (S n) p r W Hh P2 ltac:(lia) P) as (A1 & A2 & A3). split; auto. split; [lia|auto].
    + cbn [repeat] in P. apply (plays_cons_iff (repeat 6%nat n) r W V) in P. destruct P as (f & M & P).
      assert (F : (6 < f)%nat). { destruct (out_six p f) as [Hh|X]; [specialize (Hh g ltac:(lia)); lia|auto]. }
      apply (IH (mv p 6 f) r (may_wf W V M)); auto; [|lia]. apply Kc_out; auto.
Qed.
Lemma bounded_dec (P : nat -> Prop) : (forall i, P i \/ ~ P i) -> forall lo n,
  (exists i, (lo <= i < lo + n)%nat /\ P i) \/ forall i, (lo <= i < lo + n)%nat -> ~ P i.
Proof.
  intros D lo n. induction n as [|n IH]; [right; lia|]. destruct IH as [(i & I & X)|H]; [left; exists i; split; auto; lia|].
  destruct (D (lo + n)%nat) as [X|X]; [left; exists (lo + n)%nat; split; auto; lia|].
  right. intros i I. destruct (Nat.eq_dec i (lo + n)) as [->|]; [auto|apply H; lia].
Qed.
Lemma mixed_shape a b ds : uses (Mixed a b) ds -> ds = [] \/ ds = [a] \/ ds = [b] \/ ds = [a; b] \/ ds = [b; a].
Proof.
  intros (rest & P). cbn [pool] in P. pose proof (Permutation_length P) as Ln. rewrite app_length in Ln. cbn in Ln.
  destruct ds as [|x [|y [|z ds]]]; cbn in *; [auto| | |lia].
  - destruct rest as [|y [|]]; cbn in Ln; try lia. apply Permutation_sym, Permutation_length_2_inv in P.
    destruct P as [E|E]; inversion E; subst; auto.
  - destruct rest; cbn in Ln; try lia. apply Permutation_sym, Permutation_length_2_inv in P. destruct P as [E|E]; inversion E; subst; auto.
Qed.

(** An outside checker can be moved by some number, or x is blocked behind o. *)
Lemma solo_blocked p : wf N p -> Kc 4 p -> (exists i, (6 < i <= 25)%nat /\ 0 < pt p i) ->
  (forall f, ~ may_move p 6 f) -> (forall a f, (1 <= a <= 5)%nat -> (6 < f)%nat -> ~ may_move p a f) -> exists e, Vc e p.
Proof.
  intros W (B & P2 & Hh & Hl & i0 & I0 & E0) (g & G & Pg) H6 Ha.
  assert (B25 : pt p 25 <= 0).
  { destruct (Z_lt_le_dec 0 (pt p 25)) as [X|]; auto. exfalso.
    assert (R : exists d, (1 <= d <= 5)%nat /\ (i0 = 25 - d)%nat) by (cbn in I0; destruct I0 as [<-|[<-|[<-|[]]]]; [exists 5%nat|exists 3%nat|exists 1%nat]; lia).
    destruct R as (d & D & ->). apply (Ha d 25%nat D ltac:(lia)). split; [lia|]. split; [auto|]. split; [congruence|]. split; [intros; lia|lia]. }
  assert (Bl : forall j d, (6 < j <= 24)%nat -> 0 < pt p j -> (1 <= d <= 6)%nat -> pt p (j - d) <= -2).
  { intros j d J Pj D. destruct (Z_le_gt_dec (pt p (j - d)) (-2)) as [|X]; auto. exfalso.
    assert (M : may_move p d j) by (split; [lia|]; split; [auto|]; split; [auto|]; split; [intros; lia|lia]).
    destruct (Nat.eq_dec d 6) as [->|]; [eapply H6; eauto|apply (Ha d j); auto; lia]. }
  pose proof (checkers_bound k) as CB. pose proof (wf_off_bounds W) as OB.
  pose proof (Hl 19%nat ltac:(cbn; auto)) as H19. pose proof (Hl 21%nat ltac:(cbn; auto)) as H21. pose proof (Hl 23%nat ltac:(cbn; auto)) as H23.
  assert (Cn : forall j, (6 < j <= 25)%nat -> 0 < pt p j -> j = 22%nat \/ j = 24%nat).
  { intros j J Pj. assert (J25 : j <> 25%nat) by (intros ->; lia). assert (J21 : j <> 21%nat) by (intros ->; lia).
    assert (J23 : j <> 23%nat) by (intros ->; lia). assert (J19 : j <> 19%nat) by (intros ->; lia).
    pose proof (fun d => Bl j d ltac:(lia) Pj) as Bj.
    destruct (le_lt_dec j 20) as [J20|J20]; [exfalso|lia].
    pose proof (o_some N p [0; j - 6; j - 5; j - 4; j - 3; j - 2; j - 1; 21; 23]%nat W) as C.
    assert (C' : sumZ (map (oc p) [0; j - 6; j - 5; j - 4; j - 3; j - 2; j - 1; 21; 23]%nat) <= N - o_off p).
    { apply C; [repeat (apply NoDup_cons; [cbn [In]; lia|]); apply NoDup_nil|cbn [In]; lia]. }
    unfold sumZ, oc in C'. cbn [map fold_right] in C'.
    pose proof (Bj 1%nat ltac:(lia)). pose proof (Bj 2%nat ltac:(lia)). pose proof (Bj 3%nat ltac:(lia)).
    pose proof (Bj 4%nat ltac:(lia)). pose proof (Bj 5%nat ltac:(lia)). pose proof (Bj 6%nat ltac:(lia)). lia. }
  pose proof (Cn g G Pg) as Cg. exists g. split; [lia|]. split; [|split; [auto|split; [auto|split; [|split; [|auto]]]]].
  - intros i I Pi. destruct (le_lt_dec i 6) as [|I6]; [right; auto|left]. pose proof (Cn i ltac:(lia) Pi) as Ci.
    destruct Cg as [-> | ->]; destruct Ci as [-> | ->]; auto; exfalso.
    + pose proof (Bl 24%nat 2%nat ltac:(lia) Pi ltac:(lia)) as X. change (24 - 2)%nat with 22%nat in X. lia.
    + pose proof (Bl 24%nat 2%nat ltac:(lia) Pg ltac:(lia)) as X. change (24 - 2)%nat with 22%nat in X. lia.
  - apply (Bl g 6%nat); auto; lia.
  - apply (Bl g 4%nat); auto; lia.
Qed.

Lemma solo_fin n : forall p, wf N p -> x_pips p <= Z.of_nat n -> Kc 4 p -> fin p.
Proof.
  assert (V6 : valid_die 6) by (cbv; lia). assert (V2 : valid_die 2) by (cbv; lia).
  induction n as [n IH] using lt_wf_ind. intros p W Xp H. pose proof (wf_len W) as L.
  destruct (all_home_dec p) as [Hh|Out]; [apply (home_bar k n p); auto; apply H|].
  (* a play after which o has to pass *)
  assert (G : forall d ds r, valid_dice d -> legal_play d p ds r -> (1 <= length ds)%nat -> 2 <= pt r 2 /\ pt r 0 < 0 /\ (all_home r \/ Kc 4 r) -> fin p).
  { intros d ds r V Lp Ln (R2 & RB & Hr). pose proof (legal_wf k p d ds r W V Lp) as Wr.
    apply (fin_solo k p d ds r 2 W V Lp V2); [apply frozen_bar; auto; apply Wr|].
    pose proof Lp as (U & P & _). pose proof (pos_pips k ds p r W (uses_valid V U) P Ln). pose proof (x_pips_nonneg r).
    destruct Hr as [Hr|Hr]; [apply (home_bar k (Z.to_nat (x_pips r)) r); auto; lia|].
    apply (IH (Z.to_nat (x_pips r))); auto; lia. }
  destruct (anyb p 6) eqn:E6.
  - apply (anyb_true W V6) in E6. destruct E6 as (f & M).
    destruct (some_legal N p (Double 6) W V6) as (ds & r & Lp). pose proof Lp as (U & P & Mx & _).
    pose proof (FinishFacts.uses_double _ _ U) as Ed. pose proof (uses_len _ _ U) as Lu. cbn in Lu.
    apply (G (Double 6) ds r V6 Lp).
    + apply (Mx [6%nat] (mv p 6 f)); [exists [6; 6; 6]%nat; apply Permutation_refl|apply (plays_one (mv p 6 f) W V6); eauto].
    + rewrite Ed in P. apply (Kc_sixes (length ds) p r W H Lu P).
  - pose proof (proj1 (anyb_false W V6) E6) as No6.
    destruct (bounded_dec (fun a => exists f, (7 <= f < 7 + 19)%nat /\ may_move p a f /\ (1 <= a <= 5)%nat)) with (lo := 1%nat) (n := 5%nat) as [(a & A & f & F & M & A5)|No].
    { intros a. destruct (bounded_dec (fun f => may_move p a f /\ (1 <= a <= 5)%nat)) with (lo := 7%nat) (n := 19%nat) as [(f & F & M)|Nf].
      - intros f. destruct (le_lt_dec 1 a); [|right; lia]. destruct (le_lt_dec a 5); [|right; lia].
        assert (Va : valid_die a) by (unfold valid_die; lia). destruct (may_move_dec f W Va); [left; split; auto; lia|right; tauto].
      - left. exists f. split; auto.
      - right. intros (f & F & M). eapply Nf; eauto. }
    + assert (Va : valid_die a) by (unfold valid_die; lia).
      assert (V : valid_dice (Mixed 6 a)) by (cbn; unfold valid_die in *; lia).
      destruct (some_legal N p (Mixed 6 a) W V) as (ds & r & Lp). pose proof Lp as (U & P & Mx & Mb).
      assert (Pa : plays [a] p (mv p a f)) by (apply (plays_one (mv p a f) W Va); eauto).
      assert (Ua : uses (Mixed 6 a) [a]) by (exists [6%nat]; apply perm_swap).
      assert (Ln : (1 <= length ds)%nat) by (apply (Mx [a] (mv p a f)); auto).
      destruct (mixed_shape 6 a ds U) as [-> | [-> | [-> | [-> | ->]]]].
      * cbn in Ln. lia.
      * exfalso. apply (plays_one r W V6) in P. destruct P as (g & Mg & _). eapply No6; eauto.
      * assert (Lf : legal_play (Mixed 6 a) p [a] (mv p a f)) by (split; auto).
        apply (G (Mixed 6 a) [a] _ V Lf Ln). pose proof (Kc_out 4 p a f W Va H M ltac:(lia)) as Hk.
        split; [apply Hk|]. split; [apply Hk|auto].
      * exfalso. apply (plays_cons_iff [a] r W V6) in P. destruct P as (g & Mg & _). eapply No6; eauto.
      * apply (G (Mixed 6 a) _ r V Lp Ln). apply (plays_cons_iff [6%nat] r W Va) in P. destruct P as (g & Mg & P).
        pose proof (may_wf W Va Mg) as W1. assert (Fg : (6 < g)%nat).
        { destruct (le_lt_dec g 6) as [Fg|]; auto. exfalso. apply (plays_one r W1 V6) in P. destruct P as (g2 & M2 & _).
          assert (Same : forall i, (6 < i <= 25)%nat -> pt (mv p a g) i = pt p i).
          { intros i I. rewrite pt_mv1 by (auto; lia). destruct (Nat.eqb_spec i g); [lia|]. destruct (Nat.eqb_spec i (g - a)); [lia|]. rewrite andb_false_r. reflexivity. }
          destruct Out as (g0 & G0 & P0). assert (G2 : (6 < g2)%nat).
          { destruct (out_six (mv p a g) g2) as [Hh|X]; auto. specialize (Hh g0 G0). rewrite Same in Hh by auto. lia. }
          pose proof M2 as (R2 & P2 & B2 & O2 & _). apply (No6 g2). split; auto. split; [rewrite <- Same by lia; auto|].
          split; [rewrite <- (Same 25%nat) by lia; auto|]. split; [|lia]. intros X. specialize (O2 X).
          pose proof (held_mv p a g (g2 - 6)%nat L Va Mg ltac:(lia)). lia. }
        apply (Kc_sixes 1 (mv p a g) r W1); [apply Kc_out; auto|lia|exact P].
    + destruct (solo_blocked p W H Out No6) as (e & He).
      { intros a f A F M. apply (No a ltac:(lia)). exists f. pose proof (may_move_range M). split; [lia|auto]. }
      apply (Vc_fin k e n p W Xp He).
Qed.

(** ** Putting it together *)
Lemma barred_fin p : wf N p -> both_barred p -> ~ SpecDeadlock.both_closed_out p -> fin p.
Proof.
  intros W (B & B' & Hx & Ho) ND. pose proof (wf_len W) as L.
  assert (K : forall q, wf N q -> both_barred q -> (exists i, In i [20; 22; 24]%nat /\ -1 <= pt q i) -> fin q).
  { intros q Wq (Bq & Bq' & Hxq & Hoq) E. pose proof (x_pips_nonneg q). apply (solo_fin (Z.to_nat (x_pips q)) q Wq ltac:(lia)).
    pose proof (Hoq 2%nat ltac:(cbn; auto)). pose proof (Hoq 4%nat ltac:(cbn; auto)). pose proof (Hoq 6%nat ltac:(cbn; auto)).
    split; auto. split; auto. split; [unfold hi; lia|]. split; auto. }
  assert (D : forall q : position, (exists i, In i [20; 22; 24]%nat /\ -1 <= pt q i) \/ forall i, In i [20; 22; 24]%nat -> pt q i <= -2).
  { intros q. destruct (Z_le_gt_dec (-1) (pt q 20)); [left; exists 20%nat; split; [cbn; auto|auto]|].
    destruct (Z_le_gt_dec (-1) (pt q 22)); [left; exists 22%nat; split; [cbn; auto|auto]|].
    destruct (Z_le_gt_dec (-1) (pt q 24)); [left; exists 24%nat; split; [cbn; auto|auto]|].
    right. intros i I. cbn in I. destruct I as [<-|[<-|[<-|[]]]]; lia. }
  destruct (D p) as [E|C]; [apply K; auto; split; auto|].
  (* x can not move at all *)
  apply (fin_pass k p 2 W ltac:(cbv; lia)).
  { intros f M. assert (f = 25%nat) by (apply (may_bar (p := p) (die := 2%nat)); auto). subst f. destruct M as (_ & _ & _ & O & _).
    specialize (O ltac:(lia)). change (25 - 2)%nat with 23%nat in O. specialize (Hx 23%nat ltac:(cbn; auto)). lia. }
  assert (F : forall i, (i <= 25)%nat -> pt (flipP p) i = - pt p (25 - i)) by (intros; apply pt_flipP; auto).
  apply K; [apply flipP_wf; auto| |].
  - split; [rewrite F by lia; change (25 - 25)%nat with 0%nat; lia|]. split; [rewrite F by lia; change (25 - 0)%nat with 25%nat; lia|]. split.
    + intros i I. assert (R : (i <= 25)%nat) by (cbn in I; destruct I as [<-|[<-|[<-|[]]]]; lia). rewrite F by auto.
      specialize (Ho (25 - i)%nat). cbn in I, Ho. destruct I as [<-|[<-|[<-|[]]]]; cbn in Ho; specialize (Ho ltac:(auto)); cbn; lia.
    + intros i I. assert (R : (i <= 25)%nat) by (cbn in I; destruct I as [<-|[<-|[<-|[]]]]; lia). rewrite F by auto.
      specialize (Hx (25 - i)%nat). cbn in I, Hx. destruct I as [<-|[<-|[<-|[]]]]; cbn in Hx; specialize (Hx ltac:(auto)); cbn; lia.
  - destruct (D (flipP p)) as [E|C']; auto. exfalso. apply ND. split; auto. split; [|split; [auto|]].
    + intros i I. assert (Ei : In i [20; 22; 24]%nat \/ In i [19; 21; 23]%nat) by (cbn; lia). destruct Ei; auto.
    + intros i I. assert (Ei : In (25 - i)%nat [20; 22; 24]%nat \/ In i [2; 4; 6]%nat) by (cbn; lia). destruct Ei as [Ei|Ei]; auto.
      specialize (C' _ Ei). rewrite F in C' by lia. replace (25 - (25 - i))%nat with i in C' by lia. lia.
Qed.
Theorem not_closed_fin p : wf N p -> ~ SpecDeadlock.both_closed_out p -> fin p.
Proof.
  intros W ND. pose proof (phi_nonneg p). apply (even_phase k) with (n := Z.to_nat (phi p)); auto; [|lia].
  intros. apply barred_fin; auto.
Qed.
End Turns.
