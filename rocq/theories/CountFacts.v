(** How many positions a list can have. *)
From Verif Require Export NoDupFacts PerftFacts.
From Coq Require Import Permutation.
Unset Implicit Arguments.
Open Scope Z_scope.

(** ** Lengths of loops *)
Lemma flat_len {A B} (f : A -> list B) l : List.length (flat_map f l) = list_sum (map (fun a => List.length (f a)) l).
Proof. induction l as [|a l IH]; cbn [flat_map map list_sum]; [reflexivity|]. rewrite app_length, IH. reflexivity. Qed.
Lemma list_sum_split (l1 l2 : list nat) a : list_sum (l1 ++ a :: l2) = (a + list_sum (l1 ++ l2))%nat.
Proof. rewrite !list_sum_app. cbn [list_sum]. unfold list_sum. cbn. fold (list_sum l2). lia. Qed.
Lemma sum_incl {A} (g : A -> nat) l : forall k, NoDup l -> incl l k -> (list_sum (map g l) <= list_sum (map g k))%nat.
Proof.
  induction l as [|a l IH]; intros k Nd I; [cbn; lia|].
  assert (Ha : In a k) by (apply I; left; auto). apply in_split in Ha. destruct Ha as (k1 & k2 & ->).
  inversion Nd as [|? ? Na Nd']; subst.
  assert (I' : incl l (k1 ++ k2)).
  { intros x Hx. assert (J : In x (k1 ++ a :: k2)) by (apply I; right; auto). rewrite in_app_iff in *. destruct J as [J|[J|J]]; auto.
    subst x. contradiction. }
  specialize (IH _ Nd' I'). rewrite !map_app in *. cbn [map]. rewrite list_sum_split. change (list_sum (g a :: map g l)) with (g a + list_sum (map g l))%nat. lia.
Qed.
Lemma flat_incl {A B} (f : A -> list B) l k : NoDup l -> incl l k -> (List.length (flat_map f l) <= List.length (flat_map f k))%nat.
Proof. intros. rewrite !flat_len. apply sum_incl; auto. Qed.

(** ** Checkers on the points 1 to h *)
Fixpoint cl (p : position) (h : nat) : nat :=
  match h with O => O | S h' => (cl p h' + Z.to_nat (pt p h))%nat end.

Lemma firstn_snoc (l : list Z) : forall h, (h < List.length l)%nat -> firstn (S h) l = firstn h l ++ [nth h l 0].
Proof.
  induction l as [|a l IH]; intros h H; [cbn in H; lia|]. destruct h; [reflexivity|].
  cbn [List.length] in H. change (firstn (S (S h)) (a :: l)) with (a :: firstn (S h) l). rewrite IH by lia. reflexivity.
Qed.
Lemma sum_snoc l x : sumZ (l ++ [x]) = sumZ l + x.
Proof. unfold sumZ. induction l as [|a l IH]; cbn [app fold_right]; [lia|]. rewrite IH. lia. Qed.
Lemma cl_sum p h : (h < List.length (pips p))%nat ->
  sumZ (map (fun v => Z.max 0 v) (firstn (S h) (pips p))) = Z.max 0 (pt p 0) + Z.of_nat (cl p h).
Proof.
  induction h as [|h IH]; intros H; rewrite firstn_snoc, map_app by auto; match goal with |- context [map ?f [?x]] => change (map f [x]) with [f x] end; rewrite sum_snoc; cbv beta.
  - cbn [firstn map cl]. unfold sumZ, pt. cbn [fold_right]. lia.
  - rewrite IH by lia. cbn [cl]. fold (pt p (S h)). lia.
Qed.
Lemma cl_wf N p : wf N p -> Z.of_nat (cl p 25) <= N.
Proof.
  intros W. pose proof (wf_len W) as L. pose proof (wf_x W) as X. pose proof (wf_xoff W) as O.
  pose proof (cl_sum p 25 ltac:(lia)) as E. rewrite firstn_all2 in E by lia. unfold x_checkers in X. lia.
Qed.
Lemma cl_mono p h k : (h <= k)%nat -> (cl p h <= cl p k)%nat.
Proof. induction 1; cbn [cl]; lia. Qed.

Lemma cl_le_add p q t h : (forall j, (1 <= j <= h)%nat -> (Z.to_nat (pt q j) <= Z.to_nat (pt p j) + (if (j =? t)%nat then 1 else 0))%nat) ->
  (cl q h <= cl p h + (if ((1 <=? t) && (t <=? h))%nat then 1 else 0))%nat.
Proof.
  induction h as [|h IH]; intros H; cbn [cl]; [lia|].
  assert (H' : forall j, (1 <= j <= h)%nat -> (Z.to_nat (pt q j) <= Z.to_nat (pt p j) + (if (j =? t)%nat then 1 else 0))%nat) by (intros; apply H; lia).
  specialize (IH H'). specialize (H (S h) ltac:(lia)). cbn [cl] in *.
  destruct (Nat.leb_spec 1 t), (Nat.leb_spec t h), (Nat.leb_spec t (S h)), (Nat.eqb_spec (S h) t); cbn [andb] in *; lia.
Qed.

Lemma mv_points p d i j : List.length (pips p) = 26%nat -> (1 <= d)%nat -> (1 <= i <= 25)%nat -> cm p d i = true -> (1 <= j)%nat -> j <> i ->
  (Z.to_nat (pt (mv p d i) j) <= Z.to_nat (pt p j) + (if (j =? i - d)%nat then 1 else 0))%nat.
Proof.
  intros L D I C J Ne. rewrite pt_mv by auto. apply cm_pre in C; auto. destruct C as (_ & P & T).
  destruct (Nat.eqb_spec j i); [contradiction|]. destruct (Nat.ltb_spec d i); cbn [andb].
  - destruct (Nat.eqb_spec j (i - d)); cbn [andb].
    + subst j. specialize (T H). destruct (Z.eqb_spec (pt p (i - d)) (-1)); lia.
    + destruct (Nat.eqb_spec j 0); [lia|]. cbn [andb]. lia.
  - lia.
Qed.
Lemma cl_mv_below p d i : List.length (pips p) = 26%nat -> (1 <= d)%nat -> (1 <= i <= 25)%nat -> cm p d i = true ->
  (cl (mv p d i) (i - 1) <= S (cl p (i - 1)))%nat.
Proof.
  intros L D I C. etransitivity; [apply (cl_le_add p (mv p d i) (i - d) (i - 1))|].
  - intros j J. apply mv_points; auto; lia.
  - destruct (_ && _)%bool; lia.
Qed.
Lemma cl_mv p d i : List.length (pips p) = 26%nat -> (1 <= d)%nat -> (1 <= i <= 25)%nat -> cm p d i = true ->
  (cl (mv p d i) i <= cl p i)%nat.
Proof.
  intros L D I C. pose proof (cl_mv_below p d i L D I C) as B. apply cm_pre in C; auto. destruct C as (_ & P & _).
  destruct i as [|i]; [lia|]. replace (S i - 1)%nat with i in B by lia. cbn [cl]. rewrite (pt_mv p) by auto.
  rewrite Nat.eqb_refl. lia.
Qed.
Lemma cl_step p d i : (1 <= i)%nat -> cm p d i = true -> (cl p (i - 1) < cl p i)%nat.
Proof.
  intros I C. destruct i as [|i]; [lia|]. replace (S i - 1)%nat with i by lia. cbn [cl]. unfold cm in C.
  destruct (Z.ltb_spec (pt p (S i)) 1); [discriminate|]. lia.
Qed.

(** ** The sum of a loop *)
Definition upto (G : nat -> nat) (c : nat) : nat := list_sum (map G (seq 1 c)).
Lemma upto_S G c : upto G (S c) = (upto G c + G (S c))%nat.
Proof. unfold upto. rewrite seq_S, map_app, list_sum_app. cbn. lia. Qed.
Lemma upto_mono G a b : (a <= b)%nat -> (upto G a <= upto G b)%nat.
Proof. induction 1; [lia|]. rewrite upto_S. lia. Qed.
Lemma upto_lt G a b : (a < b)%nat -> (upto G a + G b <= upto G b)%nat.
Proof. intros H. destruct b; [lia|]. rewrite upto_S. pose proof (upto_mono G a b ltac:(lia)). lia. Qed.

Lemma loop_len {B} (f : nat -> list B) (G : nat -> nat) p d h :
  (forall i, (1 <= i <= h)%nat -> cm p d i = true -> (List.length (f i) <= G (cl p i))%nat) ->
  (List.length (flat_map (fun i => if cm p d i then f i else []) (seq 1 h)) <= upto G (cl p h))%nat.
Proof.
  induction h as [|h IH]; intros H; [cbn; lia|].
  rewrite seq_S, flat_map_app, app_length. cbn [flat_map]. rewrite app_nil_r. replace (1 + h)%nat with (S h) by lia.
  assert (H1 : forall i, (1 <= i <= h)%nat -> cm p d i = true -> (List.length (f i) <= G (cl p i))%nat) by (intros i I C; apply H; auto; lia).
  specialize (IH H1).
  destruct (cm p d (S h)) eqn:C.
  - specialize (H (S h) ltac:(lia) C). pose proof (cl_step p d (S h) ltac:(lia) C) as St. replace (S h - 1)%nat with h in St by lia.
    pose proof (upto_lt G (cl p h) (cl p (S h)) St). lia.
  - cbn [List.length]. pose proof (upto_mono G (cl p h) (cl p (S h)) (cl_mono p h (S h) (Nat.le_succ_diag_r h))). lia.
Qed.
Lemma loop_len_in {B} (f : nat -> list B) (G : nat -> nat) p d h rng : NoDup rng -> (forall i, In i rng -> (1 <= i <= h)%nat) ->
  (forall i, (1 <= i <= h)%nat -> cm p d i = true -> (List.length (f i) <= G (cl p i))%nat) ->
  (List.length (flat_map (fun i => if cm p d i then f i else []) rng) <= upto G (cl p h))%nat.
Proof.
  intros Nd I H. etransitivity; [apply (flat_incl _ rng (seq 1 h) Nd)|apply loop_len, H].
  intros i Hi. apply in_seq. specialize (I i Hi). lia.
Qed.

(** Ways to spread n steps over c checkers. *)
Fixpoint ways (n c : nat) : nat := match n with O => 1%nat | S n' => upto (ways n') c end.
Lemma ways_1 c : ways 1 c = c.
Proof. induction c as [|c IH]; [reflexivity|]. cbn [ways] in *. rewrite upto_S, IH. lia. Qed.
Lemma ways_2 c : (2 * ways 2 c = c * (c + 1))%nat.
Proof. induction c as [|c IH]; [reflexivity|]. cbn [ways] in *. rewrite upto_S. pose proof (ways_1 (S c)) as W. cbn [ways] in W. rewrite W. lia. Qed.
Lemma ways_3 c : (6 * ways 3 c = c * (c + 1) * (c + 2))%nat.
Proof.
  induction c as [|c IH]; [reflexivity|]. change (ways 3 (S c)) with (upto (ways 2) (S c)). change (ways 3 c) with (upto (ways 2) c) in IH.
  rewrite upto_S. pose proof (ways_2 (S c)). nia.
Qed.
Lemma ways_4 c : (24 * ways 4 c = c * (c + 1) * (c + 2) * (c + 3))%nat.
Proof.
  induction c as [|c IH]; [reflexivity|]. change (ways 4 (S c)) with (upto (ways 3) (S c)). change (ways 4 c) with (upto (ways 3) c) in IH.
  rewrite upto_S. pose proof (ways_3 (S c)). nia.
Qed.
Lemma ways_pos n c : (1 <= c)%nat -> (1 <= ways n c)%nat.
Proof.
  intros C. destruct n; cbn [ways]; [lia|]. revert c C. induction n as [|n IH]; intros c C.
  - destruct c; [lia|]. rewrite upto_S. cbn. lia.
  - destruct c; [lia|]. rewrite upto_S. specialize (IH (S c) ltac:(lia)). cbn [ways]. lia.
Qed.
Lemma ways_mono n a b : (a <= b)%nat -> (ways n a <= ways n b)%nat.
Proof. intros. destruct n; cbn [ways]; [lia|]. apply upto_mono; auto. Qed.
Lemma ways_up n c : (1 <= c)%nat -> (ways n c <= ways (S n) c)%nat.
Proof. intros C. destruct c; [lia|]. cbn [ways]. rewrite upto_S. lia. Qed.
Lemma ways_le n k c : (1 <= c)%nat -> (n <= k)%nat -> (ways n c <= ways k c)%nat.
Proof. intros C. induction 1; [lia|]. pose proof (ways_up m c C). lia. Qed.

(** ** Doubles *)
Lemma gen_len d N : valid_die d -> forall n hi p, wf N p -> (hi <= 25)%nat -> (List.length (gen d n hi p) <= ways n (cl p hi))%nat.
Proof.
  intros V. induction n as [|n IH]; intros hi p W H; cbn [gen ways]; [cbn; lia|].
  pose proof (wf_len W) as L. pose proof V as [V1 V2].
  apply (loop_len_in (fun i => gen d n i (mv p d i)) (ways n) p d hi).
  - apply nodup_range.
  - intros i Hi. apply in_range in Hi. pose proof (smallest_pip_pos W V). lia.
  - intros i I C. etransitivity; [apply IH; [|lia]|].
    + apply mv_wf; auto. apply cm_pre; auto. lia.
    + apply ways_mono, cl_mv; auto; lia.
Qed.

Lemma one_len d N p rng : wf N p -> NoDup rng -> (forall i, In i rng -> (1 <= i <= 25)%nat) ->
  Z.of_nat (List.length (flat_map (tp p d) rng)) <= N.
Proof.
  intros W Nd I. pose proof (cl_wf _ _ W). pose proof (ways_1 (cl p 25)) as E. cbn [ways] in E.
  pose proof (loop_len_in (fun i => [mv p d i]) (fun _ => 1%nat) p d 25 rng Nd I ltac:(intros; cbn; lia)). unfold tp. lia.
Qed.
Lemma one_len_h d p rng h : NoDup rng -> (forall i, In i rng -> (1 <= i <= h)%nat) ->
  (List.length (flat_map (tp p d) rng) <= cl p h)%nat.
Proof.
  intros Nd I. pose proof (ways_1 (cl p h)) as E. cbn [ways] in E.
  pose proof (loop_len_in (fun i => [mv p d i]) (fun _ => 1%nat) p d h rng Nd I ltac:(intros; cbn; lia)). unfold tp. lia.
Qed.

Lemma double_len N m p d l : wf N p -> valid_die d -> all_positions_after_double_move m p d = Ret l ->
  24 * Z.of_nat (List.length l) <= N * (N + 1) * (N + 2) * (N + 3).
Proof.
  intros W V E. destruct (double_correct_shape m W V) as (l' & E' & _ & S & _). assert (l' = l) as -> by congruence.
  pose proof (wf_N W) as HN.
  assert (X : forall q n, wf N q -> (n <= 4)%nat -> (List.length l <= ways n (cl q 24))%nat -> 24 * Z.of_nat (List.length l) <= N * (N + 1) * (N + 2) * (N + 3)).
  { intros q n Wq Hn Hl. pose proof (cl_wf _ _ Wq) as C. pose proof (cl_mono q 24 25 ltac:(lia)).
    assert ((ways n (cl q 24) <= ways 4 (Z.to_nat N))%nat).
    { etransitivity; [apply ways_mono|apply ways_le]; lia. }
    pose proof (ways_4 (Z.to_nat N)) as W4.
    apply (f_equal Z.of_nat) in W4. rewrite !Nat2Z.inj_mul, !Nat2Z.inj_add, Z2Nat.id in W4 by lia. lia. }
  destruct S as [(r & ->)|(nr & q & Hn & Wq & Bq & ->)].
  - apply (X p 0%nat W); [lia|]. cbn. lia.
  - apply (X q nr Wq Hn). apply (gen_len d N); auto.
Qed.

(** ** Two different dice *)
Section Mixed.
Variables (N : Z) (p : position) (B S : nat).
Hypotheses (W : wf N p) (VB : valid_die B) (VS : valid_die S) (HBS : (S < B)%nat).

Lemma small_first_len : (List.length (small_first p B S) <= ways 2 (cl p 24))%nat.
Proof.
  pose proof (wf_len W) as L. pose proof VS as [S1 S2]. unfold small_first. cbn [ways].
  apply (loop_len_in (fun i => flat_map (tp (mv p S i) B) (rev (range (smallest_pip_to_check (mv p S i) B) (i + 1)))) (upto (fun _ => 1%nat)) p S 24).
  - apply NoDup_rev, nodup_range.
  - intros i Hi. apply in_rev, in_range in Hi. pose proof (smallest_pip_pos W VS). lia.
  - intros i I C. pose proof (ways_1 (cl p i)) as W1. cbn [ways] in W1. rewrite W1.
    assert (W' : wf N (mv p S i)) by (apply mv_wf; auto; apply cm_pre; auto; lia).
    etransitivity; [apply (one_len_h B _ _ i)|apply cl_mv; auto; lia].
    + apply NoDup_rev, nodup_range.
    + intros j Hj. apply in_rev, in_range in Hj. pose proof (smallest_pip_pos W' VB). lia.
Qed.
Lemma big_first_len : (List.length (big_first p B S) <= ways 2 (cl p 24))%nat.
Proof.
  pose proof (wf_len W) as L. pose proof VB as [B1 B2]. unfold big_first. cbn [ways].
  apply (loop_len_in (fun i => flat_map (tp (mv p B i) S) (big_rng p B S i)) (upto (fun _ => 1%nat)) p B 24).
  - apply nodup_range.
  - intros i Hi. apply in_range in Hi. pose proof (smallest_pip_pos W VB). lia.
  - intros i I C. pose proof (ways_1 (cl p i)) as W1. cbn [ways] in W1. rewrite W1.
    assert (W' : wf N (mv p B i)) by (apply mv_wf; auto; apply cm_pre; auto; lia).
    etransitivity; [apply (one_len_h S _ _ (i - 1))|].
    + unfold big_rng. destruct (outcomes p B S i).
      * replace (range 0 0) with (@nil nat) by reflexivity. rewrite app_nil_r. apply nodup_range.
      * apply nodup_app; try apply nodup_range. intros x J K. apply in_range in J, K. lia.
    + pose proof (smallest_pip_pos W' VS). intros j Hj. unfold big_rng in Hj. destruct (outcomes p B S i).
      * apply in_app_iff in Hj. destruct Hj as [Hj|Hj]; apply in_range in Hj; lia.
      * apply in_app_iff in Hj. destruct Hj as [Hj|Hj]; apply in_range in Hj; lia.
    + pose proof (cl_mv_below p B i L ltac:(lia) ltac:(lia) C). pose proof (cl_step p B i ltac:(lia) C). lia.
Qed.

Lemma plays_one_in d r : valid_die d -> plays [d] p r -> In r (flat_map (tp p d) (seq 1 25)).
Proof.
  intros V H. apply (plays_one _ W V) in H. destruct H as (a & M & ->). pose proof (may_move_range M).
  apply in_tp. exists a. split; [apply in_seq; lia|]. split; auto. apply cm_pre; auto; try lia. apply may_move_pre; auto.
Qed.
Lemma may25_wf d : valid_die d -> may_move p d 25 -> wf N (mv p d 25).
Proof. intros V M. apply (may_wf W V M). Qed.

Lemma two_bar_in r : 0 < pt p 25 -> two B S p r ->
  (may_move p B 25 /\ In r (flat_map (tp (mv p B 25) S) (seq 1 25))) \/ (may_move p S 25 /\ In r (flat_map (tp (mv p S 25) B) (seq 1 25))).
Proof.
  intros Bar T.
  assert (X : forall d e, valid_die d -> valid_die e -> plays [d; e] p r -> may_move p d 25 /\ In r (flat_map (tp (mv p d 25) e) (seq 1 25))).
  { intros d e Vd Ve H. apply (plays_two _ W Vd Ve) in H. destruct H as (a & b & M1 & M2 & ->). pose proof (may_bar Bar M1) as ->. split; auto.
    pose proof (may_move_range M2). apply in_tp. exists b. split; [apply in_seq; lia|]. split; auto. apply cm_pre; try lia. apply may_move_pre; auto. }
  destruct T as [T|T]; [left|right]; apply X; auto.
Qed.

Lemma tp_len_25 q d : wf N q -> Z.of_nat (List.length (flat_map (tp q d) (seq 1 25))) <= N.
Proof. intros Wq. apply one_len; auto; [apply seq_NoDup|]. intros i Hi. apply in_seq in Hi. lia. Qed.

Lemma mixed_len m l : all_positions_after_mixed_move m p B S = Ret l -> Z.of_nat (List.length l) <= N * (N + 1).
Proof.
  intros E. pose proof (wf_N W) as HN.
  assert (V : valid_dice (Mixed B S)) by (repeat split; auto; destruct VB, VS; auto).
  destruct (mixed_lists m W V E) as (R1 & R2).
  destruct (mixed_correct m W V) as (l' & E' & _ & HL). assert (l' = l) as -> by congruence.
  destruct (Z_le_gt_dec (Z.of_nat (List.length l)) (N * (N + 1))) as [D|D]; [exact D|].
  assert (Nd : NoDup l).
  { apply R2. intros T. destruct (R1 T) as (q & ->). cbn in D. nia. }
  clear D.
  assert (Cap : forall L, incl l L -> (List.length l <= List.length L)%nat) by (intros L I; apply NoDup_incl_length; auto).
  destruct l as [|r0 l0]; [cbn; nia|]. set (l := r0 :: l0) in *.
  assert (H0 : legal_result (Mixed B S) p r0) by (apply HL; left; auto).
  assert (HL' := fun r (I : In r l) => proj1 (legal_mixed p r HBS) (proj1 (HL r) I)). apply (legal_mixed p r0 HBS) in H0.
  destruct H0 as [T0|[(NT & P0)|[(NT & NB & P0)|(NT & NB & NS & ->)]]].
  - assert (All : forall r, In r l -> two B S p r).
    { intros r Hr. destruct (HL' r Hr) as [T|[(NT & _)|[(NT & _)|(NT & _)]]]; auto; exfalso; eapply NT; eauto. }
    destruct (Z.eq_dec (pt p 25) 0) as [Bar|Bar].
    + specialize (Cap (small_first p B S ++ big_first p B S)). rewrite app_length in Cap.
      pose proof small_first_len. pose proof big_first_len. pose proof (ways_2 (cl p 24)). pose proof (cl_wf _ _ W). pose proof (cl_mono p 24 25 ltac:(lia)).
      specialize (Cap ltac:(intros r Hr; apply (two_checker_complete W VB VS HBS Bar); auto)). nia.
    + pose proof (wf_xbar W).
      set (L1 := if -2 <? pt p (25 - B) then flat_map (tp (mv p B 25) S) (seq 1 25) else []).
      set (L2 := if -2 <? pt p (25 - S) then flat_map (tp (mv p S 25) B) (seq 1 25) else []).
      specialize (Cap (L1 ++ L2)). rewrite app_length in Cap.
      assert (N1 : Z.of_nat (List.length L1) <= N).
      { unfold L1. destruct (Z.ltb_spec (-2) (pt p (25 - B))); [|cbn; lia]. apply tp_len_25, may25_wf; auto. apply may_enter; auto; lia. }
      assert (N2 : Z.of_nat (List.length L2) <= N).
      { unfold L2. destruct (Z.ltb_spec (-2) (pt p (25 - S))); [|cbn; lia]. apply tp_len_25, may25_wf; auto. apply may_enter; auto; lia. }
      enough (incl l (L1 ++ L2)) by (specialize (Cap H0); clear - Cap N1 N2 HN; nia).
      intros r Hr. apply in_app_iff. destruct (two_bar_in r ltac:(lia) (All r Hr)) as [(M & I)|(M & I)]; [left; unfold L1|right; unfold L2];
        apply may_enter in M; auto; try lia; apply Z.ltb_lt in M; rewrite M; exact I.
  - assert (All : incl l (flat_map (tp p B) (seq 1 25))).
    { intros r Hr. destruct (HL' r Hr) as [T|[(_ & P)|[(_ & NB & _)|(_ & NB & _)]]]; 
        try (exfalso; (eapply NT; eassumption) || (eapply NB; eassumption)).
      apply plays_one_in; auto. }
    specialize (Cap _ All). pose proof (tp_len_25 p B W). nia.
  - assert (All : incl l (flat_map (tp p S) (seq 1 25))).
    { intros r Hr. destruct (HL' r Hr) as [T|[(_ & P)|[(_ & _ & P)|(_ & _ & NS & _)]]]; 
        try (exfalso; (eapply NT; eassumption) || (eapply NB; eassumption) || (eapply NS; eassumption)).
      apply plays_one_in; auto. }
    specialize (Cap _ All). pose proof (tp_len_25 p S W). nia.
  - assert (All : incl l [p]).
    { intros r Hr. destruct (HL' r Hr) as [T|[(_ & P)|[(_ & _ & P)|(_ & _ & _ & ->)]]]; 
        try (exfalso; (eapply NT; eassumption) || (eapply NB; eassumption) || (eapply NS; eassumption)).
      left; auto. }
    specialize (Cap _ All). cbn [List.length] in Cap. nia.
Qed.
End Mixed.
