(** Property C66: what [dbhash] is, exactly: the number of x's arrangement followed by the number of
    o's, in a 64-bit word.  Read with SpecHash.v, SpecComb.v, SpecRules.v. *)
From Verif Require Import SpecHash HashFacts SpecVariants PropHash.
Open Scope Z_scope.

(** ** Proof *)

Inductive lexlt {A} (lt : A -> A -> Prop) : list A -> list A -> Prop :=
| ll_here x y a b : lt x y -> lexlt lt (x :: a) (y :: b)
| ll_next x a b : lexlt lt a b -> lexlt lt (x :: a) (x :: b).

Lemma listed_lex a b : listed_before a b <-> lexlt Z.gt a b.
Proof.
  split.
  - intros (c & x & y & a' & b' & -> & -> & L). induction c as [|z c IH]; cbn [app]; [apply ll_here; lia|apply ll_next; auto].
  - induction 1 as [x y a b L|x a b _ (c & u & v & a' & b' & -> & -> & L)].
    + exists [], x, y, a, b. repeat split. lia.
    + exists (x :: c), u, v, a', b'. auto.
Qed.

Lemma cidx_lt rs rs' : lexlt lt rs rs' -> forall c b b', noninc b rs -> noninc b' rs' -> length rs = length rs' ->
  (c = length rs + 1)%nat -> cidx c rs < cidx c rs'.
Proof.
  induction 1 as [r r' rs rs' Lt|r rs rs' _ IH]; intros c b b' H H' L C; inversion H; inversion H'; subst; cbn [length] in *; cbn [cidx].
  - replace (S (length rs) + 1 - 1)%nat with (length rs + 1)%nat by lia.
    replace (S (length rs) + 1 - 2)%nat with (length rs) by lia.
    pose proof (@cidx_bound rs (length rs + 1) r ltac:(auto) ltac:(lia)) as B.
    replace (length rs + 1 - 1)%nat with (length rs) in B by lia.
    pose proof (cidx_nonneg rs' (length rs + 1)).
    apply Z.lt_le_trans with (binom (length rs + r') (length rs + 1)); [|lia].
    apply Z.lt_le_trans with (binom (S (length rs + r)) (length rs + 1)).
    + replace (length rs + 1)%nat with (S (length rs)) in * by lia. rewrite binom_S. lia.
    + apply binom_mono. lia.
  - replace (S (length rs) + 1 - 1)%nat with (length rs + 1)%nat by lia.
    pose proof (IH (length rs + 1)%nat r r ltac:(auto) ltac:(auto) ltac:(lia) eq_refl). lia.
Qed.
Lemma lex_total (rs : list nat) : forall rs', length rs = length rs' -> lexlt lt rs rs' \/ rs = rs' \/ lexlt lt rs' rs.
Proof.
  induction rs as [|r rs IH]; intros [|r' rs'] L; try discriminate L; auto.
  destruct (lt_eq_lt_dec r r') as [[K|K]|K].
  - left. constructor. auto.
  - subst. injection L as L. destruct (IH rs' L) as [K|[K|K]]; [left; apply ll_next; auto|subst; auto|right; right; apply ll_next; auto].
  - right. right. constructor. auto.
Qed.
Lemma cidx_lt_iff rs rs' c b b' : noninc b rs -> noninc b' rs' -> length rs = length rs' -> (c = length rs + 1)%nat ->
  cidx c rs < cidx c rs' <-> lexlt lt rs rs'.
Proof.
  intros H H' L C. split; [|intros K; eapply cidx_lt; eauto]. intros K.
  destruct (lex_total rs rs' L) as [X|[X|X]]; auto; [subst; lia|].
  pose proof (@cidx_lt rs' rs X c b' b H' H ltac:(lia) ltac:(lia)). lia.
Qed.

(** The remaining counts from the values on the points. *)
Fixpoint remv (r : Z) (vs : list Z) : list Z := match vs with [] => [] | v :: vs' => (r - v) :: remv (r - v) vs' end.
Lemma xrem_remv p : forall l r, xrem p r l = remv r (map (fun i => Z.max 0 (pt p i)) l).
Proof. induction l as [|i l IH]; intros r; cbn; [auto|]. rewrite IH. reflexivity. Qed.
Lemma orem_remv p : forall l r, orem p r l = remv r (map (fun i => Z.max 0 (- pt p i)) l).
Proof. induction l as [|i l IH]; intros r; cbn; [auto|]. rewrite IH. reflexivity. Qed.
Lemma remv_length vs : forall r, length (remv r vs) = length vs.
Proof. induction vs as [|v vs IH]; intros r; cbn; auto. Qed.

Lemma remv_lex vs : forall vs' r, Forall (fun v => 0 <= v) (remv r vs) -> Forall (fun v => 0 <= v) (remv r vs') ->
  lexlt lt (nats (remv r vs)) (nats (remv r vs')) <-> lexlt Z.gt vs vs'.
Proof.
  induction vs as [|v vs IH]; intros [|v' vs'] r F F'; cbn [remv nats map] in *; split; intros H; inversion H; inversion F; inversion F'; subst.
  - constructor. lia.
  - assert (v = v') by lia. subst. apply ll_next. eapply IH; eauto.
  - constructor. lia.
  - apply ll_next. eapply IH; eauto.
Qed.
Lemma remv_inj vs : forall vs' r, remv r vs = remv r vs' -> vs = vs'.
Proof.
  induction vs as [|v vs IH]; intros [|v' vs'] r H; cbn in H; try discriminate H; auto. injection H as H1 H2.
  assert (v = v') by lia. subst. f_equal. eapply IH; eauto.
Qed.
Lemma xs_remv N p : xs N p = remv N (x_arrangement p).
Proof. unfold xs, x_arrangement. rewrite xrem_remv. reflexivity. Qed.
Lemma os_remv N p : os N p = remv N (o_arrangement p).
Proof. unfold os, o_arrangement. rewrite orem_remv. reflexivity. Qed.

(** Every number below the bound is the index of some sequence. *)
Lemma cidx_onto len : forall b n, 0 <= n < binom (len + b) len ->
  exists rs, noninc b rs /\ length rs = len /\ cidx (len + 1) rs = n.
Proof.
  induction len as [|k IH]; intros b n H.
  - rewrite binom_0 in H. exists []. split; [constructor|]. split; [auto|]. cbn. lia.
  - assert (R : exists r, (r <= b)%nat /\ binom (k + r) (S k) <= n < binom (S k + r) (S k)).
    { clear IH. induction b as [|b IH].
      - exists 0%nat. split; [lia|]. rewrite (@binom_gt (k + 0)) by lia. lia.
      - destruct (Z.lt_ge_cases n (binom (S k + b) (S k))) as [L|L].
        + destruct (IH ltac:(lia)) as (r & R1 & R2). exists r. split; [lia|auto].
        + exists (S b). split; [lia|]. replace (k + S b)%nat with (S k + b)%nat by lia. lia. }
    destruct R as (r & Rb & R1 & R2). cbn [plus] in R2. rewrite binom_S in R2.
    destruct (IH r (n - binom (k + r) (S k)) ltac:(lia)) as (rs & A & B & C).
    exists (r :: rs). split; [constructor; auto|]. split; [cbn; lia|]. cbn [cidx].
    replace (S k + 1 - 2 + r)%nat with (k + r)%nat by lia. replace (S k + 1 - 1)%nat with (S k) by lia.
    replace (k + 1)%nat with (S k) in C by lia. lia.
Qed.
Lemma remv_onto rs : forall b, noninc b rs -> exists vs, nats (remv (Z.of_nat b) vs) = rs /\ length vs = length rs /\
  Forall (fun v => 0 <= v) vs /\ sumZ vs <= Z.of_nat b.
Proof.
  induction rs as [|r rs IH]; intros b H.
  - exists []. split; [auto|]. split; [auto|]. split; [constructor|]. cbn. lia.
  - inversion H; subst. destruct (IH r ltac:(auto)) as (vs & A & B & C & D).
    exists ((Z.of_nat b - Z.of_nat r) :: vs). cbn [remv nats map length sumZ fold_right].
    replace (Z.of_nat b - (Z.of_nat b - Z.of_nat r)) with (Z.of_nat r) by lia. rewrite Nat2Z.id.
    split; [f_equal; exact A|]. split; [auto|]. split; [constructor; [lia|auto]|]. fold (sumZ vs). lia.
Qed.

(** A position with a given arrangement of x (o borne off), and one with a given arrangement of o. *)
Lemma nth_app_seq (l : list Z) z : map (fun i => nth i (z :: l) 0) (seq 1 (length l)) = l.
Proof.
  rewrite <- seq_shift, map_map. cbn [nth]. induction l as [|a l IH]; [reflexivity|].
  cbn [length seq map nth]. f_equal. rewrite <- seq_shift, map_map. exact IH.
Qed.
Lemma sumZ_app a b : sumZ (a ++ b) = sumZ a + sumZ b.
Proof. unfold sumZ. rewrite fold_right_app. induction a as [|x a IH]; cbn; lia. Qed.
Lemma sumZ_all_nonneg vs : Forall (fun v => 0 <= v) vs -> 0 <= sumZ vs.
Proof. induction 1; cbn; unfold sumZ in *; lia. Qed.
Lemma map_max_id vs : Forall (fun v => 0 <= v) vs -> map (fun v => Z.max 0 v) vs = vs.
Proof. induction 1; cbn; f_equal; auto; lia. Qed.
Lemma map_max_opp vs : Forall (fun v => 0 <= v) vs -> sumZ (map (fun v => Z.max 0 (- v)) vs) = 0.
Proof. induction 1; cbn; unfold sumZ in *; lia. Qed.

Definition x_only (N a : Z) (vs : list Z) : position :=
  {| turn := true; pips := 0 :: vs ++ [N - a - sumZ vs]; x_off := a; o_off := N |}.
Definition o_only (N a : Z) (vs : list Z) : position :=
  {| turn := true; pips := - (N - a - sumZ vs) :: map Z.opp vs ++ [0]; x_off := N; o_off := a |}.
Lemma map_pt_mid (f : Z -> Z) z vs y : length vs = 24%nat -> map (fun i => f (nth i (z :: vs ++ [y]) 0)) (seq 1 24) = map f vs.
Proof.
  intros L. transitivity (map f (map (fun i => nth i (z :: vs) 0) (seq 1 (length vs)))); [|rewrite nth_app_seq; reflexivity].
  rewrite L, map_map. apply map_ext_in. intros i I. apply in_seq in I.
  f_equal. change (z :: vs ++ [y]) with ((z :: vs) ++ [y]). apply app_nth1. cbn [length]. lia.
Qed.
Lemma x_only_wf N a vs : 1 <= N <= 127 -> 0 <= a -> length vs = 24%nat -> Forall (fun v => 0 <= v) vs -> a + sumZ vs <= N ->
  wf N (x_only N a vs) /\ x_arrangement (x_only N a vs) = a :: vs.
Proof.
  intros HN Ha L F S. pose proof (sumZ_all_nonneg F). split.
  - constructor; cbn [x_only x_off o_off pips]; try lia.
    + cbn [length]. rewrite app_length. cbn. lia.
    + unfold x_checkers. cbn [x_only x_off pips map]. rewrite map_app, (map_max_id F). cbn [sumZ fold_right]. fold (sumZ (vs ++ map (fun v => Z.max 0 v) [N - a - sumZ vs])).
      rewrite sumZ_app. cbn. lia.
    + unfold o_checkers. cbn [x_only o_off pips map]. rewrite map_app. cbn [sumZ fold_right]. fold (sumZ (map (fun v => Z.max 0 (- v)) vs ++ map (fun v => Z.max 0 (- v)) [N - a - sumZ vs])).
      rewrite sumZ_app, (map_max_opp F). cbn. lia.
    + unfold pt. cbn [x_only pips]. change (nth 25 (0 :: vs ++ [N - a - sumZ vs]) 0) with (nth 24 (vs ++ [N - a - sumZ vs]) 0).
      rewrite app_nth2 by lia. rewrite L, Nat.sub_diag. cbn [nth]. lia.
    + unfold pt. cbn. lia.
  - unfold x_arrangement, pt. cbn [x_only x_off pips]. f_equal. rewrite (map_pt_mid (fun v => Z.max 0 v)) by auto. apply map_max_id, F.
Qed.
Lemma o_only_wf N a vs : 1 <= N <= 127 -> 0 <= a -> length vs = 24%nat -> Forall (fun v => 0 <= v) vs -> a + sumZ vs <= N ->
  wf N (o_only N a vs) /\ o_arrangement (o_only N a vs) = a :: vs.
Proof.
  intros HN Ha L F S. pose proof (sumZ_all_nonneg F).
  assert (E1 : map (fun v => Z.max 0 (- v)) (map Z.opp vs) = vs).
  { rewrite map_map. rewrite <- (map_max_id F) at 2. apply map_ext. intros v. f_equal. lia. }
  assert (E2 : sumZ (map (fun v => Z.max 0 v) (map Z.opp vs)) = 0) by (rewrite map_map; apply map_max_opp, F).
  split.
  - constructor; cbn [o_only x_off o_off pips]; try lia.
    + cbn [length]. rewrite app_length, map_length. cbn. lia.
    + unfold x_checkers. cbn [o_only x_off pips map]. rewrite map_app. cbn [sumZ fold_right]. fold (sumZ (map (fun v => Z.max 0 v) (map Z.opp vs) ++ map (fun v => Z.max 0 v) [0])).
      rewrite sumZ_app, E2. cbn [map sumZ fold_right]. lia.
    + unfold o_checkers. cbn [o_only o_off pips map]. rewrite map_app, E1. cbn [sumZ fold_right]. fold (sumZ (vs ++ map (fun v => Z.max 0 (- v)) [0])).
      rewrite sumZ_app. cbn [map sumZ fold_right]. lia.
    + unfold pt. cbn [o_only pips]. change (nth 25 (- (N - a - sumZ vs) :: map Z.opp vs ++ [0]) 0) with (nth 24 (map Z.opp vs ++ [0]) 0).
      rewrite app_nth2 by (rewrite map_length; lia). rewrite map_length, L, Nat.sub_diag. cbn [nth]. lia.
    + unfold pt. cbn [o_only pips nth]. lia.
  - unfold o_arrangement, pt. cbn [o_only o_off pips]. f_equal. rewrite (map_pt_mid (fun v => Z.max 0 (- v))) by (rewrite map_length; auto). exact E1.
Qed.

Lemma x_numbering N : 1 <= N <= 127 -> numbering N (width N) x_arrangement (xindex N).
Proof.
  intros HN. split; [exact (fun p W => xindex_bound W)|]. split.
  - intros i Hi. unfold width in Hi. destruct (@cidx_onto 25 (Z.to_nat N) i) as (rs & A & B & C); [lia|].
    destruct (remv_onto A) as (vs & D & L & F & S). rewrite Z2Nat.id in * by lia. destruct vs as [|a vs]; [cbn in L; lia|].
    inversion F; subst. cbn [sumZ fold_right] in S. fold (sumZ vs) in S. cbn [length] in L.
    destruct (@x_only_wf N a vs HN ltac:(auto) ltac:(lia) ltac:(auto) S) as (W & E).
    exists (x_only N a vs). split; [exact W|]. rewrite xindex_eq, xs_remv, E. reflexivity.
  - intros p q Wp Wq. destruct (xs_noninc Wp) as (A1 & L1 & F1), (xs_noninc Wq) as (A2 & L2 & F2). split.
    + rewrite !xindex_eq, listed_lex, (@cidx_lt_iff _ _ 26 _ _ A1 A2 ltac:(lia)) by (rewrite L1; reflexivity).
      rewrite !xs_remv. apply remv_lex; rewrite <- xs_remv; (eapply Forall_impl; [|eassumption]); cbn; lia.
    + split.
      * intros E. apply (xindex_xs Wp Wq) in E. rewrite !xs_remv in E. eapply remv_inj; eauto.
      * intros E. rewrite !xindex_eq, !xs_remv, E. reflexivity.
Qed.
Lemma o_numbering N : 1 <= N <= 127 -> numbering N (width N) o_arrangement (oindex N).
Proof.
  intros HN. split; [exact (fun p W => oindex_bound W)|]. split.
  - intros i Hi. unfold width in Hi. destruct (@cidx_onto 25 (Z.to_nat N) i) as (rs & A & B & C); [lia|].
    destruct (remv_onto A) as (vs & D & L & F & S). rewrite Z2Nat.id in * by lia. destruct vs as [|a vs]; [cbn in L; lia|].
    inversion F; subst. cbn [sumZ fold_right] in S. fold (sumZ vs) in S. cbn [length] in L.
    destruct (@o_only_wf N a vs HN ltac:(auto) ltac:(lia) ltac:(auto) S) as (W & E).
    exists (o_only N a vs). split; [exact W|]. rewrite oindex_eq, os_remv, E. reflexivity.
  - intros p q Wp Wq. destruct (os_noninc Wp) as (A1 & L1 & F1), (os_noninc Wq) as (A2 & L2 & F2). split.
    + rewrite !oindex_eq, listed_lex, (@cidx_lt_iff _ _ 26 _ _ A1 A2 ltac:(lia)) by (rewrite L1; reflexivity).
      rewrite !os_remv. apply remv_lex; rewrite <- os_remv; (eapply Forall_impl; [|eassumption]); cbn; lia.
    + split.
      * intros E. apply (oindex_os Wp Wq) in E. rewrite !os_remv in E. eapply remv_inj; eauto.
      * intros E. rewrite !oindex_eq, !os_remv, E. reflexivity.
Qed.

(** ** C66 *)

(** There is only one numbering, so [dbhash] is pinned down. *)
Lemma numbering_unique N w f n n' : numbering N w f n -> numbering N w f n' -> forall p, wf N p -> n p = n' p.
Proof.
  intros (B & On & Or) (B' & On' & Or').
  assert (K : forall k, 0 <= k -> forall p, wf N p -> (n p <= k \/ n' p <= k) -> n p = n' p).
  { intros k Hk. pattern k. revert k Hk. apply (Zlt_0_ind). intros k IH _ p W H.
    destruct (Z.lt_trichotomy (n p) (n' p)) as [L|[L|L]]; auto; exfalso.
    - destruct (On' (n p)) as (q & Wq & Eq); [pose proof (B p W); pose proof (B' p W); lia|].
      assert (X : n' q < n' p) by lia. apply (Or' q p Wq W) in X. apply (Or q p Wq W) in X.
      assert (n q = n' q) by (apply (IH (n q)); auto; [pose proof (B q Wq); lia|lia]). lia.
    - destruct (On (n' p)) as (q & Wq & Eq); [pose proof (B p W); pose proof (B' p W); lia|].
      assert (X : n q < n p) by lia. apply (Or q p Wq W) in X. apply (Or' q p Wq W) in X.
      assert (n q = n' q) by (apply (IH (n' q)); auto; [pose proof (B' q Wq); lia|lia]). lia. }
  intros p W. apply (K (n p)); [apply B, W|auto|lia].
Qed.

(** [w] arrangements per side, numbered 0, 1, ...; the hash is (x's number) * w + (o's number) if that
    fits 64 bits.  Otherwise a debug build panics and a release build keeps the low 64 bits. *)
Theorem C66_hash_exact : forall N w nx no p, 1 <= N <= 15 -> is_multiset 26 (Z.to_nat N) w ->
  numbering N w x_arrangement nx -> numbering N w o_arrangement no -> wf N p ->
  (nx p * w + no p < 2 ^ 64 -> forall m, dbhash m N p = Ret (nx p * w + no p)) /\
  (2 ^ 64 <= nx p * w + no p -> dbhash Debug N p = Panic Overflow) /\
  dbhash Release N p = Ret ((nx p * w + no p) mod 2 ^ 64).
Proof.
  intros N w nx no p HN M NX NO W.
  assert (w = width N) as ->.
  { pose proof (width_spec N) as M'. unfold is_multiset in M, M'. rewrite M in M'.
    pose proof (lt_O_fact (Z.to_nat N)) as F1. pose proof (lt_O_fact (26 - 1)) as F2. revert M' F1 F2.
    generalize (fact (Z.to_nat N)) (fact (26 - 1)). intros a b M' F1 F2. apply Z.mul_reg_r in M'; [auto|]. nia. }
  assert (HN' : 1 <= N <= 127) by lia.
  rewrite (numbering_unique NX (x_numbering HN') W), (numbering_unique NO (o_numbering HN') W).
  assert (B : width N < 2 ^ 64).
  { apply Z.le_lt_trans with (width 15); [apply width_mono; lia|rewrite width_15; reflexivity]. }
  pose proof (xindex_bound W). pose proof (oindex_bound W).
  assert (0 <= xindex N p * width N) by nia.
  split; [|split].
  - intros H2 m. rewrite dbhash_ret by auto. rewrite u64_ret by lia. rewrite bind_ret. apply u64_ret. lia.
  - intros H2. rewrite dbhash_ret by auto.
    assert (U : forall z, 2 ^ 64 <= z -> u64 Debug z = Panic Overflow).
    { intros z Hz. unfold u64, in_u64. destruct (Z.ltb_spec z (2 ^ 64)); [lia|]. rewrite andb_false_r. reflexivity. }
    destruct (Z.lt_ge_cases (xindex N p * width N) (2 ^ 64)) as [L|L].
    + rewrite u64_ret by lia. rewrite bind_ret. apply U, H2.
    + rewrite (U _ L). reflexivity.
  - rewrite dbhash_ret by auto.
    assert (U : forall z, 0 <= z -> u64 Release z = Ret (z mod 2 ^ 64)).
    { intros z Hz. unfold u64, in_u64. destruct (Z.leb_spec 0 z); [|lia]. destruct (Z.ltb_spec z (2 ^ 64)); cbn [andb]; [|reflexivity].
      rewrite Z.mod_small by lia. reflexivity. }
    rewrite U by lia. rewrite bind_ret. pose proof (Z.mod_pos_bound (xindex N p * width N) (2 ^ 64) ltac:(lia)).
    rewrite U by lia. rewrite Z.add_mod_idemp_l by lia. reflexivity.
Qed.

(** Such numberings exist for every number of checkers, and so does [w]. *)
Theorem C66_numberings : forall N, 1 <= N <= 127 -> exists w nx no, is_multiset 26 (Z.to_nat N) w /\
  numbering N w x_arrangement nx /\ numbering N w o_arrangement no.
Proof.
  intros N HN. exists (width N), (xindex N), (oindex N). split; [apply width_spec|]. split; [apply x_numbering|apply o_numbering]; auto.
Qed.

(** Non-vacuity and a value: with one checker a side w is 26; the checkers off give number 0. *)
Example C66_ex : is_multiset 26 1 26 /\ listed_before [1; 0] [0; 1] /\
  dbhash Debug 1 (x_only 1 1 (repeat 0 24)) = Ret 0 /\ dbhash Debug 1 (x_only 1 0 (1 :: repeat 0 23)) = Ret 26.
Proof.
  split; [|split; [exists [], 1, 0, [0], [1]; repeat split; lia|split; vm_compute; reflexivity]].
  unfold is_multiset. change (26 + 1 - 1)%nat with 26%nat. change (26 - 1)%nat with 25%nat. rewrite (fact_S_Z 25).
  change (Z.of_nat (fact 1)) with 1. change (Z.of_nat 25 + 1) with 26. lia.
Qed.
