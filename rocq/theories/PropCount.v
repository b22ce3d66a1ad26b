(** C94: how many choices a turn offers, and counting them without overflow. *)
From Coq Require Import Strings.String.
From Verif Require Import SpecCount CountFacts PropMoves PropPerft PropLists PropListing GameFacts MoveText Gnuid.
Unset Implicit Arguments.
Open Scope Z_scope.

Lemma most_double N c : 24 * c <= N * (N + 1) * (N + 2) * (N + 3) -> c <= N * (N + 1) * (N + 2) * (N + 3) / 24.
Proof. intros H. apply Z.div_le_lower_bound; lia. Qed.

Lemma raw_length N m p d l : wf N p -> valid_dice d ->
  match d with Mixed B A => all_positions_after_mixed_move m p B A | Double a => all_positions_after_double_move m p a end = Ret l ->
  Z.of_nat (List.length l) <= most N d.
Proof.
  intros W V E. destruct d as [B A|a]; cbn [most].
  - destruct V as (VB & VA & H). eapply (mixed_len N p B A); eauto.
  - apply most_double. eapply double_len; eauto.
Qed.

(** The list of a roll is never empty and never longer than [most]. *)
Theorem C94_positions : forall m N p d l, wf N p -> valid_dice d -> classic_positions m N p d = Ret l ->
  1 <= Z.of_nat (List.length l) <= most N d.
Proof.
  intros m N p d l W V H.
  assert (Ne : l <> []).
  { destruct (@kids_any m N p d l W V H) as (-> & _). pose proof (@kids_release N p d W V) as R.
    destruct (@movegen_release N p d W V) as (l & E' & Ne & _). congruence. }
  split; [destruct l; [congruence|]; cbn [List.length]; lia|].
  unfold classic_positions, generate_legal_positions in H. apply bind_inv in H. destruct H as ([] & _ & H).
  apply bind_inv in H. destruct H as (l0 & E & H). apply bind_inv in H. destruct H as (l1 & Em & H).
  apply bind_inv in H. destruct H as ([] & _ & H). inversion H; subst l1. clear H.
  assert (H' : forall r, In r l0 -> legal_result d p r).
  { destruct d as [b s|a].
    - destruct (mixed_correct m W V) as (l' & E' & _ & H). rewrite E in E'. inversion E'; subst. intros r. apply H.
    - destruct (double_correct m W V) as (l' & E' & _ & H). rewrite E in E'. inversion E'; subst. intros r. apply H. }
  rewrite (mmap_ret _ flipP) in Em by (intros q Hq; apply H' in Hq; exact (flip_ret m (legal_result_wf W V Hq))).
  inversion Em; subst l. rewrite map_length. eapply raw_length; eauto.
Qed.
(** A case: two checkers on the bar, a double 5: eleven positions, at most 3060. *)
Example C94_positions_case : wf 15 ex_bar /\ valid_dice (Double 5) /\
  (exists l, classic_positions Debug 15 ex_bar (Double 5) = Ret l /\ List.length l = 11%nat) /\
  most 15 (Double 5) = 3060 /\ most 15 (Mixed 6 5) = 240.
Proof.
  split; [apply ex_bar_wf|]. split; [cbv; lia|]. split; [|split; reflexivity].
  eexists. split; vm_compute; reflexivity.
Qed.

(** The same for the variants, with and without hitting, and for the texts of [legal_moves]. *)
Lemma vwf_wf k p : vwf k (tag k p) -> wf (checkers k) p.
Proof. intros (p' & E & W). assert (p' = p) as -> by (destruct k; cbn in E; congruence). exact W. Qed.
Lemma mfilter_len {A} (f : A -> res bool) l : forall l', mfilter f l = Ret l' -> (List.length l' <= List.length l)%nat.
Proof.
  induction l as [|a l IH]; intros l' E; cbn [mfilter] in E; [inversion E; cbn; lia|].
  apply bind_inv in E. destruct E as (b & _ & E). apply bind_inv in E. destruct E as (r & Er & E). inversion E; subst.
  specialize (IH _ Er). destruct b; cbn [List.length]; lia.
Qed.
Theorem C94_variants : forall m k v d l, vwf k v -> valid_dice d -> legal_positions m v d = Ret l ->
  1 <= Z.of_nat (List.length l) <= most (checkers k) d.
Proof.
  intros m k v d l (p & -> & W) V E.
  assert (X : exists l0, classic_positions m (checkers k) p d = Ret l0 /\ l = map (tag k) l0).
  { destruct k; cbn [tag legal_positions classic_rules] in E; unfold legal_positions, classic_rules, map_variant_positions in E; cbn in E;
      apply bind_inv in E; destruct E as (l0 & E0 & E); inversion E; subst; exists l0; split; auto. }
  destruct X as (l0 & E0 & ->). rewrite map_length. eapply C94_positions; eauto.
Qed.
Theorem C94_without_hitting : forall m k v d l, vwf k v -> valid_dice d -> no_hit_rules m v d = Ret l ->
  Z.of_nat (List.length l) <= most (checkers k) d.
Proof.
  intros m k v d l (p & -> & W) V E.
  assert (X : exists l0, no_hit_positions m (checkers k) p d = Ret l0 /\ l = map (tag k) l0).
  { destruct k; unfold no_hit_rules, map_variant_positions in E; cbn [tag] in E;
      apply bind_inv in E; destruct E as (l0 & E0 & E); inversion E; subst; exists l0; split; auto. }
  destruct X as (l0 & E0 & ->). rewrite map_length. unfold no_hit_positions in E0. apply bind_inv in E0. destruct E0 as (l1 & E1 & E0).
  pose proof (C94_positions m _ p d l1 W V E1). apply mfilter_len in E0. lia.
Qed.
Theorem C94_move_texts : forall m k v d l, vwf k v -> vongoing v -> valid_dice d -> legal_moves m v d = Ret (inr l) ->
  1 <= Z.of_nat (List.length l) <= most (checkers k) d.
Proof.
  intros m k v d l W O V E.
  destruct (@C65_positions m k v d W O V) as (l' & E' & Nd & I). assert (l' = l) as -> by congruence.
  destruct (@C01_legal_positions_exact m k v d W O V) as (ps & Ep & Ip).
  pose proof (C94_variants m k v d ps W V Ep) as B. rewrite <- (map_length snd l). split.
  - destruct ps as [|w ps]; [cbn in B; lia|]. assert (J : In w (map snd l)) by (apply I, Ip; left; auto).
    destruct (map snd l); [destruct J|]. cbn [List.length]. lia.
  - assert (List.length (map snd l) <= List.length ps)%nat; [|lia]. apply NoDup_incl_length; auto.
    intros w J. apply Ip, I, J.
Qed.

(** The bounds are met: with up to four checkers some position has exactly that many results. *)
Definition apart (n : nat) : position :=
  {| turn := true; x_off := 0; o_off := 0;
     pips := map (fun i => if existsb (Nat.eqb i) (firstn n [24; 19; 14; 9]%nat) then 1
                           else if existsb (Nat.eqb i) (firstn n [23; 18; 13; 8]%nat) then -1 else 0) (seq 0 26) |}.
Theorem C94_met : forall N, 1 <= N <= 4 -> exists p, wf N p /\ ongoing N p /\
  forall m d, d = Mixed 2 1 \/ d = Double 1 -> exists l, classic_positions m N p d = Ret l /\ Z.of_nat (List.length l) = most N d.
Proof.
  intros N H. exists (apart (Z.to_nat N)).
  assert (C : N = 1 \/ N = 2 \/ N = 3 \/ N = 4) by lia. clear H.
  destruct C as [ -> | [ -> | [ -> | -> ] ] ]; (split; [solve_wf|]; split; [vm_compute; auto|]);
    intros m d [ -> | -> ]; destruct m; eexists; (split; [vm_compute; reflexivity|reflexivity]).
Qed.

(** ** Counting lines *)
Lemma sumZ_le {A} (f g : A -> Z) l : (forall a, In a l -> f a <= g a) -> sumZ (map f l) <= sumZ (map g l).
Proof.
  induction l as [|a l IH]; intros H; [cbn; lia|]. rewrite !sumZ_cons. specialize (IH ltac:(intros; apply H; right; auto)).
  specialize (H a (or_introl eq_refl)). lia.
Qed.
Lemma sumZ_const {A} (f : A -> Z) c l : (forall a, In a l -> f a <= c) -> sumZ (map f l) <= Z.of_nat (List.length l) * c.
Proof.
  intros H. induction l as [|a l IH]; [cbn; lia|]. rewrite sumZ_cons. cbn [List.length].
  assert (IH' : sumZ (map f l) <= Z.of_nat (List.length l) * c) by (apply IH; intros; apply H; right; auto).
  specialize (H a (or_introl eq_refl)). lia.
Qed.
Lemma sumZ_scale {A} (f : A -> Z) c l : sumZ (map (fun a => f a * c) l) = sumZ (map f l) * c.
Proof. induction l as [|a l IH]; [cbn; lia|]. rewrite !sumZ_cons, IH. ring. Qed.
Lemma kids_len N p d : wf N p -> valid_dice d -> Z.of_nat (List.length (kids N p d)) <= most N d.
Proof. intros W V. apply (C94_positions Release N p d _ W V (@kids_release N p d W V)). Qed.
Lemma most_nonneg N d : 1 <= N -> 0 <= most N d.
Proof. intros. destruct d; cbn [most]; [nia|]. apply Z.div_pos; [|lia]. repeat apply Z.mul_nonneg_nonneg; lia. Qed.
Lemma most_turn_sum (w : bool) N : sumZ (map (fun e : dice * nat => (if w then Z.of_nat (snd e) else 1) * most N (fst e)) ALL_21) = most_turn w N.
Proof.
  unfold most_turn. assert (E : forall x y : Z, sumZ (map (fun e : dice * nat => (if w then Z.of_nat (snd e) else 1) * match fst e with Mixed _ _ => x | Double _ => y end) ALL_21) = (if w then 30 else 15) * x + 6 * y).
  { intros x y. destruct w; unfold sumZ; cbn; ring. }
  rewrite <- E. apply sumZ_ext. intros e _. unfold most. destruct (fst e); reflexivity.
Qed.
Lemma most_turn_pos w N : 1 <= N -> 0 <= most_turn w N.
Proof.
  intros. unfold most_turn. assert (0 <= N * (N + 1) * (N + 2) * (N + 3) / 24) by (apply Z.div_pos; [repeat apply Z.mul_nonneg_nonneg|]; lia).
  destruct w; nia.
Qed.
Lemma cnt_le N w n : forall p, wf N p -> cnt N w n p <= most_turn w N ^ Z.of_nat n.
Proof.
  induction n as [|n IH]; intros p W; [cbn; lia|]. pose proof (wf_N W) as HN.
  rewrite Nat2Z.inj_succ, Z.pow_succ_r by lia. rewrite <- most_turn_sum at 1. cbn [cnt].
  set (P := most_turn w N ^ Z.of_nat n) in *. assert (HP : 0 <= P) by (apply Z.pow_nonneg, most_turn_pos; lia).
  transitivity (sumZ (map (fun e : dice * nat => ((if w then Z.of_nat (snd e) else 1) * most N (fst e)) * P) ALL_21)).
  - apply sumZ_le. intros e He. apply all_21_valid in He. destruct He as (V & M1).
    assert (X : sumZ (map (cnt N w n) (kids N p (fst e))) <= Z.of_nat (List.length (kids N p (fst e))) * P).
    { apply sumZ_const. intros q Hq. apply IH. eapply kids_wf; eauto. }
    pose proof (kids_len N p (fst e) W V). pose proof (most_nonneg N (fst e) ltac:(lia)).
    rewrite <- Z.mul_assoc. apply Z.mul_le_mono_nonneg_l; [destruct w; lia|].
    transitivity (Z.of_nat (List.length (kids N p (fst e))) * P); [exact X|apply Z.mul_le_mono_nonneg_r; auto].
  - apply Z.eq_le_incl. apply (sumZ_scale (fun e : dice * nat => (if w then Z.of_nat (snd e) else 1) * most N (fst e))).
Qed.

Lemma line_release {T} (roll : T -> dice -> Prop) m N : (forall t d, roll t d -> valid_dice d) ->
  forall p s r, line roll m N p s r -> wf N p -> line roll Release N p s r.
Proof.
  intros HV p s r L. induction L as [p|p t d l i q rest r R E I L IH]; intros W; [constructor|].
  pose proof (HV _ _ R) as V. destruct (@kids_any m N p d l W V E) as (-> & _).
  apply line_turn with (d := d) (l := kids N p d) (q := q); auto; [apply kids_release; auto|].
  apply IH. eapply kids_wf; eauto. eapply nth_error_In; eauto.
Qed.
Lemma by_throw_valid t d : by_throw t d -> valid_dice d.
Proof.
  intros (A & B & S). destruct t as (a, b). cbn [fst snd] in *. destruct d as [x y|x]; cbn [shows] in S; cbn [valid_dice].
  - apply andb_true_iff in S. destruct S as (L & S). apply Nat.ltb_lt in L. apply orb_true_iff in S.
    destruct S as [S|S]; apply andb_true_iff in S; destruct S as (E1 & E2); apply Nat.eqb_eq in E1, E2; subst a b; auto.
  - apply andb_true_iff in S. destruct S as (E1 & _). apply Nat.eqb_eq in E1. subst. auto.
Qed.
Lemma number_incl {A} (P Q : A -> Prop) a b : (forall x, P x -> Q x) -> number_of P a -> number_of Q b -> (a <= b)%nat.
Proof.
  intros H (L & Nd & I & <-) (K & _ & J & <-). apply NoDup_incl_length; auto. intros x Hx. apply J, H, I, Hx.
Qed.

(** The number of lines of play grows at most like a power of [most_turn]. *)
Theorem C94_lines : forall m N p depth weighted c, wf N p -> lines_of m N p depth weighted c ->
  Z.of_nat c <= most_turn weighted N ^ Z.of_nat depth.
Proof.
  intros m N p n w c W L. destruct (@lines_of_good Release N p n w W (good_release N n p)) as (c' & L' & E).
  pose proof (cnt_le N w n p W). assert (c <= c')%nat; [|lia].
  unfold lines_of in *. destruct w; (eapply number_incl; [|exact L|exact L']); intros s (Hs & r & Hr); split; auto; exists r.
  - eapply line_release; eauto. apply by_throw_valid.
  - eapply line_release; eauto. intros t d (_ & V). exact V.
Qed.

(** Whenever that power fits in 128 bits perft's answer is the exact number of lines in a release build, and a
    debug build gives the same answer unless a game ends before the last turn. *)
Theorem C94_perft_exact : forall N p depth weighted, wf N p -> most_turn weighted N ^ Z.of_nat depth < 2 ^ 128 ->
  exists c, lines_of Release N p depth weighted c /\ perft Release N p depth weighted = Ret (Z.of_nat c) /\
  (never_over Debug N p depth <-> perft Debug N p depth weighted = Ret (Z.of_nat c)) /\
  (~ never_over Debug N p depth -> forall n, perft Debug N p depth weighted <> Ret n).
Proof.
  intros N p n w W H. destruct (@C45_release N p n w W) as (c & L & E). exists c. split; auto.
  pose proof (C94_lines Release N p n w c W L) as B. rewrite Z.mod_small in E by lia. split; [exact E|].
  assert (X : never_over Debug N p n <-> perft Debug N p n w = Ret (Z.of_nat c)).
  { split.
    - intros G. pose proof (proj1 (@never_over_good N n p W) G) as G'. destruct (@lines_of_good Debug N p n w W G') as (c' & L' & Ec).
      pose proof (C94_lines Debug N p n w c' W L') as B'.
      assert (P : perft Debug N p n w = Ret (Z.of_nat c')) by (apply C45_debug; auto; split; auto; exists c'; split; auto; split; auto; lia).
      pose proof (@C45_builds_agree N p n w _ W P) as A. rewrite A in E. injection E as E. rewrite <- E. exact P.
    - intros P. apply C45_debug in P; auto. apply P. }
  split; [exact X|]. intros G x P. apply G. apply C45_debug in P; auto. apply P.
Qed.

(** So perft is exact up to depth 8 with 15 checkers, and deeper with fewer. *)
Theorem C94_safe_depths : forall k p depth weighted, wf (checkers k) p -> (depth <= safe_depth k)%nat ->
  exists c, lines_of Release (checkers k) p depth weighted c /\ perft Release (checkers k) p depth weighted = Ret (Z.of_nat c) /\
  (never_over Debug (checkers k) p depth <-> perft Debug (checkers k) p depth weighted = Ret (Z.of_nat c)).
Proof.
  intros k p n w W H. destruct (C94_perft_exact (checkers k) p n w W) as (c & A & B & C & _); [|eauto].
  apply Z.le_lt_trans with (most_turn w (checkers k) ^ Z.of_nat (safe_depth k)).
  - apply Z.pow_le_mono_r; [|lia]. destruct k, w; reflexivity.
  - destruct k, w; reflexivity.
Qed.
(** A case: two turns from the start of Hypergammon. *)
Example C94_safe_depths_case : exists p, start_position Hypergammon = tag Hypergammon p /\ wf (checkers Hypergammon) p /\
  (2 <= safe_depth Hypergammon)%nat /\ (exists n, perft Release 3 p 1 true = Ret n /\ n = 315).
Proof. eexists. split; [reflexivity|]. split; [solve_wf|]. split; [cbn; lia|]. eexists. split; vm_compute; reflexivity. Qed.

(** ** The 64-bit totals of the two programs *)

(** bkgm-perft with dice given: exact up to six thousand million million repetitions. *)
Theorem C94_single_roll : forall m args k id p d0 d1 iterations total, ~ In (lit "--help") args -> ~ In (lit "-h") args ->
  perft_main m args = Ret (SingleRoll k id d0 d1 iterations total) ->
  gnuid_decode_position m (checkers k) id = Ret (inr p) -> wf (checkers k) p -> 3060 * iterations < 2 ^ 64 ->
  exists d l, shows d (Z.to_nat d0) (Z.to_nat d1) = true /\ classic_positions m (checkers k) p d = Ret l /\
  total = iterations * Z.of_nat (List.length l).
Proof.
  intros m args k id p d0 d1 it total H1 H2 E Ep W Hit. apply C48_report in E; auto.
  destruct E as (k' & id' & p' & it' & _ & _ & Ep' & _ & [(a & b & d & l & t & _ & _ & Ha & Hb & Sh & El & T & R)|(_ & depth & w & n & _ & _ & _ & R)]);
    [|discriminate].
  inversion R; subst k' id' d0 d1 it total. clear R. assert (p' = p) as -> by congruence.
  exists d, l. split; auto. split; auto.
  assert (V : valid_dice d).
  { apply (by_throw_valid (Z.to_nat a, Z.to_nat b)). repeat split; cbn [fst snd]; auto; lia. }
  pose proof (C94_positions m _ p d l W V El) as B.
  assert (most (checkers k) d <= 3060) by (destruct d, k; cbn [most checkers]; vm_compute; discriminate).
  destruct m; cbn [total_is] in T; [tauto|]. rewrite Z.mod_small in T; auto. nia.
Qed.

(** The corpus benchmark: exact up to 2^49 positions. *)
Theorem C94_corpus : forall m ps, Forall (fun p => wf 15 p /\ ongoing 15 p) ps -> Z.of_nat (List.length ps) <= 2 ^ 49 ->
  exists ns, Forall2 (fun p n => lines_of m 15 p 1 false n) ps ns /\ run_once m ps = Ret (Z.of_nat (list_sum ns)).
Proof.
  intros m ps F H. destruct (C50_run_once m F) as (ns & F2 & R). exists ns. split; auto. apply R.
  assert (B : Z.of_nat (list_sum ns) <= 21960 * Z.of_nat (List.length ps)).
  { clear R H. induction F2 as [|p n ps ns L F2 IH]; [cbn; lia|]. inversion F as [|? ? (W & _) F']; subst.
    apply (C94_lines m 15 p 1 false n W) in L. change (most_turn false 15 ^ Z.of_nat 1) with 21960 in L.
    specialize (IH F'). change (list_sum (n :: ns)) with (n + list_sum ns)%nat. cbn [List.length]. lia. }
  destruct m; cbn [total_is].
  - split; [reflexivity|]. lia.
  - rewrite Z.mod_small; [reflexivity|lia].
Qed.
(** Cases: the program's run of C48's example, and a corpus of one position. *)
Example C94_single_roll_case : exists p, gnuid_decode_position Debug 2 (lit "AABAAQAACgAAAA") = Ret (inr p) /\ wf 2 p /\ 3060 * 2 < 2 ^ 64 /\
  perft_main Debug [lit "bkgm-perft"; lit "-v"; lit "Hyper2"; lit "--die0"; lit "3"; lit "--die1"; lit "1"; lit "-n"; lit "2"] =
    Ret (SingleRoll Hypergammon2 (lit "AABAAQAACgAAAA") 3 1 2 6).
Proof. eexists. split; [vm_compute; reflexivity|]. split; [solve_wf|]. split; [lia|]. vm_compute. reflexivity. Qed.
Example C94_corpus_case : Forall (fun p => wf 15 p /\ ongoing 15 p) [ex_bar] /\ exists n, run_once Release [ex_bar] = Ret n /\ 21 < n.
Proof. split; [constructor; [apply ex_bar_wf|constructor]|]. eexists. split; [vm_compute; reflexivity|lia]. Qed.
