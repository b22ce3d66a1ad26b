(** Properties C45, C48, C49: perft, its command line, corpus counting, and finished games.
    Read with SpecPerft.v (lines of play, counting, flags), SpecRules.v, SpecDice.v. *)
From Coq Require Import Strings.String Permutation.
From Verif Require Import PerftFacts StrFacts TextFacts NumFacts PropIdentity PropMoves.
Open Scope Z_scope.

(** ** C49: move lists of finished games *)

(** In a release build [legal_positions] lists exactly the results of the legal plays whether or not the
    game is over; in a debug build it refuses (panics) exactly when the game is over. *)
Theorem C49_release_any_position : forall N p d, wf N p -> valid_dice d ->
  exists l, classic_positions Release N p d = Ret l /\ l <> [] /\
  forall q, In q l <-> exists r, legal_result d p r /\ mirrored r q.
Proof. intros N p d W V. exact (movegen_release d W V). Qed.
Theorem C49_debug_panics_iff_over : forall N p d, wf N p -> valid_dice d ->
  (exists k, classic_positions Debug N p d = Panic k) <-> x_off p = N \/ o_off p = N.
Proof.
  intros N p d W V. split.
  - intros (k & E). destruct (Z.eq_dec (x_off p) N) as [X|X]; auto. destruct (Z.eq_dec (o_off p) N) as [O|O]; auto.
    rewrite kids_debug in E; [discriminate|auto| |auto].
    pose proof (wf_x W) as Cx. pose proof (wf_o W) as Co. unfold x_checkers, o_checkers in *.
    pose proof (@sumZ_nonneg _ (fun v => Z.max 0 v) (pips p) ltac:(intros; lia)).
    pose proof (@sumZ_nonneg _ (fun v => Z.max 0 (- v)) (pips p) ltac:(intros; lia)). split; lia.
  - intros H. exists AssertFail. apply movegen_over. unfold ongoing. lia.
Qed.
Example C49_ex : wf 2 {| turn := true; pips := [0;0;0;0;0;0;0;1;0;0;0;0;0;0;0;0;0;0;0;0;0;0;0;0;0;0]; x_off := 1; o_off := 2 |}.
Proof. solve_wf. Qed.

(** ** C45 *)

(** A count is unique. *)
Theorem C45_count_unique : forall A (P : A -> Prop) a b, number_of P a -> number_of P b -> a = b.
Proof.
  intros A P a b (L & NL & HL & <-) (K & NK & HK & <-). apply Permutation_length. apply NoDup_Permutation; auto.
  intros x. rewrite HL, HK. tauto.
Qed.

Lemma lines_of_good m N p n w : wf N p -> good m N n p -> exists c, lines_of m N p n w c /\ Z.of_nat c = cnt N w n p.
Proof.
  intros W G. unfold lines_of. destruct w.
  - exists (List.length (lines N throws36 n p)). split.
    + exists (lines N throws36 n p). split; [apply lines_nodup, throws36_nodup|]. split; auto.
      intros s. apply (@lines_in _ by_throw); auto; [apply throws36_spec|].
      intros t d (A & B & S). destruct t as (a, b). cbn [fst snd] in *. destruct d as [x y|x]; cbn [shows] in S; cbn [valid_dice].
      * apply andb_true_iff in S. destruct S as (L & S). apply Nat.ltb_lt in L. apply orb_true_iff in S.
        destruct S as [S|S]; apply andb_true_iff in S; destruct S as (E1 & E2); apply Nat.eqb_eq in E1, E2; subst a b; auto.
      * apply andb_true_iff in S. destruct S as (E1 & _). apply Nat.eqb_eq in E1. subst. auto.
    + apply (@lines_length _ N throws36 true). apply throws36_sum.
  - exists (List.length (lines N rolls21 n p)). split.
    + exists (lines N rolls21 n p). split; [apply lines_nodup, rolls21_nodup|]. split; auto.
      intros s. apply (@lines_in _ by_roll); auto; [apply rolls21_spec|]. intros t d (_ & V). exact V.
    + apply (@lines_length _ N rolls21 false). apply rolls21_sum.
Qed.

(** Release builds: perft is the number of lines of play, modulo 2^128; lines may run past the end of a
    game. *)
Theorem C45_release : forall N p depth weighted, wf N p ->
  exists c, lines_of Release N p depth weighted c /\ perft Release N p depth weighted = Ret (Z.of_nat c mod 2 ^ 128).
Proof.
  intros N p n w W. destruct (@lines_of_good Release N p n w W (good_release N n p)) as (c & L & E).
  exists c. split; auto. rewrite E. apply perft_release, W.
Qed.

Lemma never_over_good N n : forall p, wf N p -> never_over Debug N p n <-> good Debug N n p.
Proof.
  induction n as [|n IH]; intros p W; cbn [good].
  - split; auto. intros _ s q _ L. lia.
  - split.
    + intros H. assert (O : ongoing N p) by (apply (H [] p); [constructor|cbn; lia]). split; auto.
      intros d q V I. apply IH; [apply (@kids_wf _ _ _ _ W V I)|]. intros s r Ln L.
      apply In_nth_error in I. destruct I as (i & I). apply (H ((d, i) :: s) r); [|cbn; lia].
      eapply line_turn; [split; [reflexivity|exact V]|apply kids_debug; auto|exact I|exact Ln].
    + intros (O & G) s r Ln L. inversion Ln as [|? t d l i q rest ? (Et & V) El Nq Lq]; subst; [auto|].
      destruct (@kids_any _ _ _ _ _ W V El) as (-> & _). pose proof (nth_error_In _ _ Nq) as I.
      assert (NO : never_over Debug N q n) by (apply IH; [apply (@kids_wf _ _ _ _ W V I)|apply (G d q V I)]).
      apply (NO rest r Lq). cbn in L. lia.
Qed.

(** Debug builds: perft returns exactly when no game ends before the last turn and the count fits in 128
    bits, and then returns the number of lines of play. *)
Theorem C45_debug : forall N p depth weighted n, wf N p ->
  perft Debug N p depth weighted = Ret n <->
  never_over Debug N p depth /\ exists c, lines_of Debug N p depth weighted c /\ n = Z.of_nat c /\ n < 2 ^ 128.
Proof.
  intros N p depth w n W. rewrite never_over_good by auto. split.
  - intros E. pose proof (@perft_good _ _ _ _ _ _ W E) as G. split; auto.
    destruct (@lines_of_good Debug N p depth w W G) as (c & L & Ec). exists c. split; auto.
    rewrite perft_debug, <- Ec in E by auto. unfold chk in E. destruct (Z.ltb_spec (Z.of_nat c) M) as [X|X]; inversion E; auto.
  - intros (G & c & L & -> & X). destruct (@lines_of_good Debug N p depth w W G) as (c' & L' & Ec).
    assert (c' = c) as -> by (unfold lines_of in *; destruct w; eapply C45_count_unique; eauto).
    rewrite perft_debug, <- Ec by auto. apply chk_lt, X.
Qed.
(** Both builds agree where the debug build returns. *)
Theorem C45_builds_agree : forall N p depth weighted n, wf N p ->
  perft Debug N p depth weighted = Ret n -> perft Release N p depth weighted = Ret n.
Proof.
  intros N p depth w n W E. pose proof (@perft_good _ _ _ _ _ _ W E) as G. rewrite perft_debug in E by auto.
  rewrite perft_release by auto. unfold chk in E. destruct (Z.ltb_spec (cnt N w depth p) M) as [X|X]; inversion E; subst.
  f_equal. apply Z.mod_small. split; [apply cnt_nonneg|auto].
Qed.
(** The first turn: perft 1 adds up the lengths of the 21 lists, weighted by the number of throws. *)
Theorem C45_depth_1 : forall N p weighted, wf N p -> exists l21 ls,
  Forall2 (fun d l => classic_positions Release N p d = Ret l) l21 ls /\ NoDup l21 /\ (forall d, In d l21 <-> valid_dice d) /\
  perft Release N p 1 weighted =
    Ret (sumZ (map (fun dl => (if weighted then Z.of_nat (multiplicity (fst dl)) else 1) * Z.of_nat (List.length (snd dl))) (combine l21 ls)) mod 2 ^ 128).
Proof.
  intros N p w W. exists (map fst ALL_21), (map (fun e => kids N p (fst e)) ALL_21).
  assert (V : forall e, In e ALL_21 -> valid_dice (fst e)) by (intros e I; apply all_21_valid, I).
  destruct (C28_all_21 Debug) as (l & E & ND & H21). rewrite all_21_ret in E. inversion E; subst l. clear E.
  assert (Mu : forall e, In e ALL_21 -> snd e = multiplicity (fst e)) by (intros (d, c) I; apply (H21 d c), I).
  split; [|split; [exact ND|split]].
  - revert V. generalize ALL_21 as l. induction l as [|e l IH]; intros V; cbn [map]; constructor.
    + apply kids_release; auto. apply V. left. auto.
    + apply IH. intros; apply V; right; auto.
  - intros d. rewrite in_map_iff. split; [intros (e & <- & I); auto|]. intros Vd. exists (d, multiplicity d). split; auto. apply H21. auto.
  - rewrite perft_release by auto. unfold M. f_equal. f_equal. cbn [cnt].
    assert (X : forall (l : list (dice * nat)), (forall e, In e l -> snd e = multiplicity (fst e)) ->
      sumZ (map (fun e => (if w then Z.of_nat (snd e) else 1) * sumZ (map (fun _ : position => 1) (kids N p (fst e)))) l) =
      sumZ (map (fun dl => (if w then Z.of_nat (multiplicity (fst dl)) else 1) * Z.of_nat (List.length (snd dl)))
             (combine (map fst l) (map (fun e => kids N p (fst e)) l)))).
    { induction l as [|e l IH]; intros Hm; [reflexivity|]. cbn [map combine]. unfold sumZ in *. cbn [fold_right]. fold sumZ in *. rewrite IH by (intros; apply Hm; right; auto).
      cbn [fst snd]. rewrite (Hm e) by (left; auto). f_equal. f_equal. generalize (kids N p (fst e)) as k.
      induction k as [|q k IHk]; [reflexivity|]. cbn [map List.length]. unfold sumZ in *. cbn [fold_right]. rewrite IHk. lia. }
    apply X, Mu.
Qed.

Example C45_ex : perft Debug 2 HYPERGAMMON2 1 true = perft Release 2 HYPERGAMMON2 1 true /\ wf 2 HYPERGAMMON2 /\
  exists n, perft Debug 2 HYPERGAMMON2 1 true = Ret n /\ 36 < n.
Proof. split; [vm_compute; reflexivity|]. split; [solve_wf|]. eexists. split; [vm_compute; reflexivity|]. lia. Qed.

(** ** C48: the command line of bkgm-perft *)
Lemma find_flag_some f names args v : (forall x, f x = true <-> In x names) -> find_flag f args = Some v <-> flag_value names args v.
Proof.
  intros H. split.
  - revert v. induction args as [|a args IH]; intros v E; [discriminate|]. cbn [find_flag] in E. destruct args as [|b args]; [discriminate|].
    destruct (f a) eqn:F.
    + inversion E; subst. exists [], a, args. split; auto. split; [apply H, F|constructor].
    + destruct (IH v E) as (p & n & q & Ea & I & Fa). exists (a :: p), n, q. split; [cbn; f_equal; auto|]. split; auto.
      constructor; auto. intros X. apply H in X. congruence.
  - intros (p & n & q & -> & I & F). induction F as [|x p X F IH]; cbn [app].
    + cbn [find_flag]. apply H in I. rewrite I. reflexivity.
    + assert (f x = false) as Fx by (destruct (f x) eqn:Fx; auto; exfalso; apply X, H, Fx).
      cbn [find_flag]. destruct (p ++ n :: v :: q) as [|y l] eqn:El; [destruct p; discriminate|]. rewrite Fx. exact IH.
Qed.
Lemma find_flag_none f names args : (forall x, f x = true <-> In x names) -> find_flag f args = None <-> no_flag names args.
Proof.
  intros H. unfold no_flag. split.
  - intros E v X. apply (@find_flag_some _ _ args v H) in X. congruence.
  - intros X. destruct (find_flag f args) as [v|] eqn:E; auto. exfalso. apply (X v), (@find_flag_some _ _ args v H), E.
Qed.
Lemma one_name name x : str_eqb x name = true <-> In x [name].
Proof. rewrite str_eqb_eq. cbn. split; [auto|intros [?|[]]; auto]. Qed.
Lemma two_names a b x : str_eqb x a || str_eqb x b = true <-> In x [a; b].
Proof. rewrite orb_true_iff, !str_eqb_eq. cbn. split; [intros [?|?]; auto|intros [?|[?|[]]]; auto]. Qed.
Lemma number_some args name v : parse_usize_flag args name = Some v <-> number_flag args name v.
Proof.
  unfold parse_usize_flag, number_flag. split.
  - destruct (find_flag _ args) as [t|] eqn:F; [|discriminate]. intros E. exists t.
    split; [apply (@find_flag_some _ _ args t (one_name name)), F|apply parse_uint_some, E].
  - intros (t & F & U). apply (@find_flag_some _ _ args t (one_name name)) in F. rewrite F. apply parse_uint_some, U.
Qed.
Lemma number_none args name : parse_usize_flag args name = None <-> no_number args name.
Proof.
  unfold no_number. split.
  - intros E v X. apply number_some in X. congruence.
  - intros X. destruct (parse_usize_flag args name) as [v|] eqn:E; auto. exfalso. apply (X v), number_some, E.
Qed.
Lemma setting_iff args long short d v :
  unwrap_or (or_else (parse_usize_flag args long) (parse_usize_flag args short)) d = v <-> setting args long short d v.
Proof.
  unfold setting. split.
  - intros <-. destruct (parse_usize_flag args long) as [a|] eqn:A; cbn [or_else unwrap_or]; [left; apply number_some, A|].
    right. rewrite <- number_none. destruct (parse_usize_flag args short) as [b|] eqn:B; cbn [unwrap_or].
    + left. split; auto. apply number_some, B.
    + right. rewrite <- number_none. auto.
  - intros [A|[(A & B)|(A & B & ->)]].
    + apply number_some in A. rewrite A. reflexivity.
    + apply number_none in A. apply number_some in B. rewrite A, B. reflexivity.
    + apply number_none in A, B. rewrite A, B. reflexivity.
Qed.
Lemma has_flag_iff args name : has_flag args name = true <-> In name args.
Proof.
  unfold has_flag. rewrite existsb_exists. split.
  - intros (x & I & E). apply str_eqb_eq in E. subst. auto.
  - intros I. exists name. split; auto. apply str_eqb_eq. auto.
Qed.
Lemma lower_char_idem c : lower_char (lower_char c) = lower_char c.
Proof.
  unfold lower_char. destruct ((65 <=? c) && (c <=? 90)) eqn:E; [|rewrite E; reflexivity].
  apply andb_true_iff in E. destruct E as (A & B). apply Z.leb_le in A, B.
  destruct ((65 <=? c + 32) && (c + 32 <=? 90)) eqn:F; auto. apply andb_true_iff in F. destruct F as (_ & F). apply Z.leb_le in F. lia.
Qed.
Lemma lower_idem s : lower (lower s) = lower s.
Proof. unfold lower. rewrite map_map. apply map_ext. intros; apply lower_char_idem. Qed.
Lemma trim_start_lower s : trim_start (lower s) = lower (trim_start s).
Proof. induction s as [|c s IH]; [reflexivity|]. cbn [lower map trim_start]. rewrite is_ws_lower. destruct (is_ws c); auto. Qed.
Lemma trim_lower s : trim (lower s) = lower (trim s).
Proof.
  unfold trim, trim_end. rewrite trim_start_lower. unfold lower. rewrite <- map_rev. fold (lower (rev (trim_start s))).
  rewrite trim_start_lower. unfold lower. rewrite map_rev. reflexivity.
Qed.
Lemma from_str_of_lower t v : variant_from_str (lower t) = Some v <-> spells t (variant_display v).
Proof. rewrite <- C34_parse, !from_str_lower, trim_lower, lower_idem. tauto. Qed.
Lemma short_iff raw k :
  (exists s, In (s, k) short_names /\ raw = s) <->
  (if str_eqb raw (lit "bg") then Ret Backgammon
      else if str_eqb raw (lit "nack") then Ret Nackgammon
      else if str_eqb raw (lit "long") then Ret Longgammon
      else if str_eqb raw (lit "hyper") || str_eqb raw (lit "hypergammon3") then Ret Hypergammon
      else if str_eqb raw (lit "hyper2") then Ret Hypergammon2
      else if str_eqb raw (lit "hyper4") then Ret Hypergammon4
      else if str_eqb raw (lit "hyper5") then Ret Hypergammon5
      else Panic Unwrapped) = Ret k.
Proof.
  split.
  - intros (s & I & ->). unfold short_names in I. cbn [In] in I.
    repeat (destruct I as [I|I]; [inversion I; subst; vm_compute; reflexivity|]). destruct I.
  - assert (X : forall t v, str_eqb raw t = true -> In (t, v) short_names -> exists s, In (s, v) short_names /\ raw = s).
    { intros t v Q I. exists t. split; auto. apply str_eqb_eq, Q. }
    destruct (str_eqb raw (lit "bg")) eqn:Q1; [intros E; inversion E; apply (X _ _ Q1); cbn; auto 9|].
    destruct (str_eqb raw (lit "nack")) eqn:Q2; [intros E; inversion E; apply (X _ _ Q2); cbn; auto 9|].
    destruct (str_eqb raw (lit "long")) eqn:Q3; [intros E; inversion E; apply (X _ _ Q3); cbn; auto 9|].
    destruct (str_eqb raw (lit "hyper")) eqn:Q4; [intros E; inversion E; apply (X _ _ Q4); cbn; auto 9|].
    destruct (str_eqb raw (lit "hypergammon3")) eqn:Q5; [intros E; inversion E; apply (X _ _ Q5); cbn; auto 9|]. cbn [orb].
    destruct (str_eqb raw (lit "hyper2")) eqn:Q6; [intros E; inversion E; apply (X _ _ Q6); cbn; auto 9|].
    destruct (str_eqb raw (lit "hyper4")) eqn:Q7; [intros E; inversion E; apply (X _ _ Q7); cbn; auto 9|].
    destruct (str_eqb raw (lit "hyper5")) eqn:Q8; [intros E; inversion E; apply (X _ _ Q8); cbn; auto 10|].
    discriminate.
Qed.
Lemma short_no_name s k v : In (s, k) short_names -> variant_from_str s <> Some v.
Proof.
  intros I. unfold short_names in I. cbn [In] in I.
  repeat (destruct I as [I|I]; [inversion I; subst; vm_compute; discriminate|]). destruct I.
Qed.
Lemma short_lower s k : In (s, k) short_names -> lower s = s.
Proof.
  intros I. unfold short_names in I. cbn [In] in I.
  repeat (destruct I as [I|I]; [inversion I; subst; vm_compute; reflexivity|]). destruct I.
Qed.
Lemma variant_flag_iff args k : parse_variant_flag args = Ret k <-> variant_chosen args k.
Proof.
  unfold parse_variant_flag, variant_chosen.
  pose proof (fun v => @find_flag_some _ _ args v (two_names (lit "--variant") (lit "-v"))) as FS.
  pose proof (@find_flag_none _ _ args (two_names (lit "--variant") (lit "-v"))) as FN.
  destruct (find_flag _ args) as [t|] eqn:F.
  - assert (X : (exists u, flag_value [lit "--variant"; lit "-v"] args u /\ variant_named u k) \/ no_flag [lit "--variant"; lit "-v"] args /\ k = Backgammon
                <-> variant_named t k).
    { split.
      - intros [(u & U & N)|(N & _)]; [apply FS in U; inversion U; subst; auto|]. apply FN in N. discriminate.
      - intros N. left. exists t. split; auto. apply FS. auto. }
    rewrite X. clear X FS FN. unfold variant_named.
    assert (Y : (exists s, In (s, k) short_names /\ same_text t s) <-> exists s, In (s, k) short_names /\ lower t = s).
    { split; intros (s & I & E); exists s; split; auto; pose proof (@short_lower _ _ I) as L.
      - apply same_text_iff in E. congruence.
      - apply same_text_iff. congruence. }
    rewrite Y, <- from_str_of_lower. rewrite (short_iff (lower t) k).
    destruct (variant_from_str (lower t)) as [v|] eqn:V.
    + split.
      * intros E. inversion E. auto.
      * intros [E|E]; [congruence|]. exfalso. apply short_iff in E. destruct E as (s & I & E). rewrite E in V. exact (@short_no_name _ _ _ I V).
    + split; [auto|]. intros [E|E]; [discriminate|auto].
  - split.
    + intros E. right. split; [apply FN; auto|]. vm_compute in E. inversion E. auto.
    + intros [(u & U & _)|(_ & ->)]; [apply FS in U; discriminate|]. reflexivity.
Qed.

Lemma u64_release z : u64 Release z = Ret (z mod 2 ^ 64).
Proof.
  unfold u64, in_u64, wrap_u64. destruct ((0 <=? z) && (z <? 2 ^ 64)) eqn:E; auto. apply andb_true_iff in E. destruct E as (A & B).
  apply Z.leb_le in A. apply Z.ltb_lt in B. rewrite Z.mod_small by lia. reflexivity.
Qed.
Lemma u64_debug_some z r : 0 <= z -> u64 Debug z = Ret r <-> r = z /\ z < 2 ^ 64.
Proof.
  intros H. unfold u64, in_u64. rewrite (proj2 (Z.leb_le _ _) H). cbn [andb]. destruct (Z.ltb_spec z (2 ^ 64)) as [L|L].
  - split; [intros E; inversion E; subst; split; [reflexivity|exact L]|]. intros (-> & _). reflexivity.
  - split; [discriminate|lia].
Qed.
(** Adding [k] to [t], [l] times. *)
Lemma repeat_add m (k : Z) : 0 <= k -> forall (l : list nat) t r, 0 <= t < 2 ^ 64 ->
  mfold (fun total (_ : nat) => u64 m (total + k)) l t = Ret r <-> total_is m (t + Z.of_nat (List.length l) * k) r.
Proof.
  intros K. induction l as [|a l IH]; intros t r T.
  - cbn [mfold List.length Z.of_nat]. rewrite Z.mul_0_l, Z.add_0_r. unfold total_is. destruct m.
    + split; [intros E; inversion E; lia|]. intros (-> & _). auto.
    + rewrite Z.mod_small by lia. split; [intros E; inversion E; auto|intros ->; auto].
  - cbn [mfold List.length]. destruct m.
    + destruct (u64 Debug (t + k)) as [s|e] eqn:E.
      * rewrite bind_ret. apply u64_debug_some in E; [|lia]. destruct E as (-> & L). rewrite IH by lia. cbn [total_is].
        replace (t + Z.of_nat (S (List.length l)) * k) with (t + k + Z.of_nat (List.length l) * k) by lia. tauto.
      * split; [discriminate|]. cbn [total_is]. intros (-> & L). exfalso.
        assert (X : u64 Debug (t + k) = Ret (t + k)) by (apply u64_debug_some; [lia|split; [auto|nia]]). congruence.
    + rewrite u64_release, bind_ret, IH by (apply Z.mod_pos_bound; lia). cbn [total_is].
      rewrite Zplus_mod_idemp_l. replace (t + Z.of_nat (S (List.length l)) * k) with (t + k + Z.of_nat (List.length l) * k) by lia. tauto.
Qed.
Lemma mfold_ext {A S} (f g : S -> A -> res S) l : (forall s a, f s a = g s a) -> forall s, mfold f l s = mfold g l s.
Proof. intros H. induction l as [|a l IH]; intros s; cbn [mfold]; auto. rewrite H. destruct (g s a); cbn [bind]; auto. Qed.
Lemma repeat_const {A} (f : res A) : forall (l : list nat) s, l <> [] -> mfold (fun _ (_ : nat) => f) l s = f.
Proof.
  induction l as [|a l IH]; intros s N; [congruence|]. cbn [mfold]. destruct f as [x|e] eqn:E; cbn [bind]; auto.
  destruct l as [|b l]; [reflexivity|]. rewrite IH by discriminate. auto.
Qed.
Lemma range_length n : List.length (range 0 n) = n.
Proof. unfold range. rewrite seq_length. lia. Qed.

Lemma shows_fun d d' a b : shows d a b = true -> shows d' a b = true -> d = d'.
Proof.
  destruct d as [x y|x], d' as [z w|z]; cbn; rewrite ?andb_true_iff, ?orb_true_iff, ?andb_true_iff, ?Nat.ltb_lt, ?Nat.eqb_eq; intros.
  - f_equal; lia.
  - lia.
  - lia.
  - f_equal; lia.
Qed.
(** The report: variant, position, dice, depth, weighting and iterations are those asked for, and the
    totals are the sizes of the move lists and the perft count; in all other cases the program panics. *)
Theorem C48_report : forall m args r, ~ In (lit "--help") args -> ~ In (lit "-h") args ->
  perft_main m args = Ret r <-> reports m args r.
Proof.
  intros m args r H1 H2. unfold perft_main.
  rewrite <- has_flag_iff in H1, H2. apply not_true_iff_false in H1, H2. rewrite H1, H2. cbn [orb].
  set (iter := unwrap_or (or_else (parse_usize_flag args (lit "--iterations")) (parse_usize_flag args (lit "-n"))) 1).
  set (dep := unwrap_or (or_else (parse_usize_flag args (lit "--depth")) (parse_usize_flag args (lit "-d"))) 2).
  set (wt := has_flag args (lit "--weighted") || has_flag args (lit "-w")).
  assert (Hi : forall v, setting args (lit "--iterations") (lit "-n") 1 v <-> v = iter).
  { intros v. rewrite <- setting_iff. fold iter. split; auto. }
  assert (Hd : forall v, setting args (lit "--depth") (lit "-d") 2 v <-> v = dep).
  { intros v. rewrite <- setting_iff. fold dep. split; auto. }
  assert (Hw : forall w, (w = true <-> In (lit "--weighted") args \/ In (lit "-w") args) <-> w = wt).
  { intros w. rewrite <- !has_flag_iff, <- orb_true_iff. fold wt. destruct w, wt; split; intros; try tauto; try congruence; intuition congruence. }
  assert (Hid : forall k id, match find_flag (fun a => str_eqb a (lit "--position-id") || str_eqb a (lit "-p")) args with
          | Some id => Ret id
          | None => gnuid_encode m (start_position k)
          end = Ret id <-> id_chosen m args k id).
  { intros k id. unfold id_chosen.
    pose proof (fun v => @find_flag_some _ _ args v (two_names (lit "--position-id") (lit "-p"))) as FS.
    pose proof (@find_flag_none _ _ args (two_names (lit "--position-id") (lit "-p"))) as FN.
    destruct (find_flag _ args) as [t|] eqn:F.
    - split; [intros E; inversion E; subst; left; apply FS; auto|]. intros [X|(X & _)]; [apply FS in X; congruence|apply FN in X; discriminate].
    - split; [intros E; right; split; [apply FN; auto|auto]|]. intros [X|(_ & X)]; [apply FS in X; discriminate|auto]. }
  assert (HN : forall k, match k with
             | Backgammon | Nackgammon | Longgammon => 15
             | Hypergammon => 3 | Hypergammon2 => 2 | Hypergammon4 => 4 | Hypergammon5 => 5
             end = checkers k) by (intros []; reflexivity).
  assert (Hs : forall k id p d0 d1, run_single_roll m (checkers k) p k id d0 d1 (Z.max iter 1) = Ret r <->
    exists d l total, 1 <= d0 <= 6 /\ 1 <= d1 <= 6 /\ shows d (Z.to_nat d0) (Z.to_nat d1) = true /\
      classic_positions m (checkers k) p d = Ret l /\
      total_is m (Z.max iter 1 * Z.of_nat (List.length l)) total /\
      r = SingleRoll k id d0 d1 (Z.max iter 1) total).
  { intros k id p d0 d1. unfold run_single_roll.
    destruct ((1 <=? d0) && (d0 <=? 6) && ((1 <=? d1) && (d1 <=? 6))) eqn:R.
    2:{ split; [discriminate|]. intros (d & l & t & A & B & _). exfalso.
        assert (X : (1 <=? d0) && (d0 <=? 6) && ((1 <=? d1) && (d1 <=? 6)) = true) by (rewrite !andb_true_iff, !Z.leb_le; lia). congruence. }
    rewrite !andb_true_iff, !Z.leb_le in R.
    assert (V0 : valid_die (Z.to_nat d0)) by (unfold valid_die; lia). assert (V1 : valid_die (Z.to_nat d1)) by (unfold valid_die; lia).
    destruct (C27_new m V0 V1) as (d & Ed & _ & Vd & Sh & _). rewrite Ed, bind_ret.
    assert (EQ : forall d', shows d' (Z.to_nat d0) (Z.to_nat d1) = true <-> d' = d).
    { intros d'. split; [intros S; exact (shows_fun _ _ _ _ S Sh)|intros ->; auto]. }
    destruct (classic_positions m (checkers k) p d) as [l|e] eqn:El.
    - rewrite (mfold_ext _ (fun total (_ : nat) => u64 m (total + Z.of_nat (List.length l)))) by (intros; rewrite bind_ret; auto).
      assert (RA := fun t => @repeat_add m (Z.of_nat (List.length l)) ltac:(lia) (range 0 (Z.to_nat (Z.max iter 1))) 0 t ltac:(lia)).
      rewrite range_length, Z2Nat.id, Z.add_0_l in RA by lia.
      split.
      + intros E. apply bind_inv in E. destruct E as (t & E1 & E2). inversion E2; subst r. apply RA in E1.
        exists d, l, t. split; [lia|]. split; [lia|]. auto.
      + intros (d' & l' & t & _ & _ & S & El' & T & ->). apply EQ in S. subst d'. assert (l' = l) as -> by congruence. apply RA in T. rewrite T. reflexivity.
    - split.
      + intros E. exfalso. destruct (range 0 (Z.to_nat (Z.max iter 1))) eqn:Er.
        * pose proof (f_equal (@List.length nat) Er) as L. rewrite range_length in L. cbn in L. lia.
        * cbn in E. discriminate.
      + intros (d' & l' & t & _ & _ & S & El' & _). apply EQ in S. subst d'. congruence. }
  assert (Hp : forall k id p, run_perft m (checkers k) p k id dep wt (Z.max iter 1) = Ret r <->
     exists nodes, perft m (checkers k) p (Z.to_nat dep) wt = Ret nodes /\ r = PerftRun k id dep wt (Z.max iter 1) nodes).
  { intros k id p. unfold run_perft. rewrite repeat_const.
    - split; [intros E; apply bind_inv in E; destruct E as (nd & E1 & E2); inversion E2; eauto|].
      intros (nd & -> & ->). reflexivity.
    - intros Er. pose proof (f_equal (@List.length nat) Er) as L. rewrite range_length in L. cbn in L. lia. }
  unfold reports. split.
  - intros E. apply bind_inv in E. destruct E as (k & Ek & E). apply variant_flag_iff in Ek.
    apply bind_inv in E. destruct E as (id & Eid & E). apply Hid in Eid. rewrite HN in E.
    apply bind_inv in E. destruct E as ([er|p] & Ep & E); [discriminate|].
    exists k, id, p, iter. split; auto. split; auto. split; auto. split; [apply Hi; auto|].
    destruct (parse_usize_flag args (lit "--die0")) as [d0|] eqn:D0; [destruct (parse_usize_flag args (lit "--die1")) as [d1|] eqn:D1|].
    + left. apply Hs in E. destruct E as (d & l & t & X). exists d0, d1, d, l, t. rewrite <- !number_some. tauto.
    + right. split; [right; apply number_none, D1|]. apply Hp in E. destruct E as (nd & E1 & ->). exists dep, wt, nd. rewrite Hd, Hw. auto.
    + right. split; [left; apply number_none, D0|]. apply Hp in E. destruct E as (nd & E1 & ->). exists dep, wt, nd. rewrite Hd, Hw. auto.
  - intros (k & id & p & it & Ek & Eid & Ep & Ei & C). apply variant_flag_iff in Ek. apply Hid in Eid. apply Hi in Ei. subst it.
    rewrite Ek, bind_ret, Eid, bind_ret, HN, Ep, bind_ret.
    destruct C as [(d0 & d1 & d & l & t & D0 & D1 & X)|(ND & dp & w & nd & E1 & E2 & E3 & E4)].
    + apply number_some in D0, D1. rewrite D0, D1. apply Hs. exists d, l, t. tauto.
    + apply Hd in E1. apply Hw in E2. subst dp w.
      assert (G : run_perft m (checkers k) p k id dep wt (Z.max iter 1) = Ret r) by (apply Hp; exists nd; auto).
      destruct ND as [N0|N1].
      * apply number_none in N0. rewrite N0. exact G.
      * apply number_none in N1. rewrite N1. destruct (parse_usize_flag args (lit "--die0")); exact G.
Qed.
(** Help wins over everything else. *)
Theorem C48_help : forall m args, In (lit "--help") args \/ In (lit "-h") args -> perft_main m args = Ret Usage.
Proof. intros m args H. unfold perft_main. rewrite <- !has_flag_iff, <- orb_true_iff in H. rewrite H. reflexivity. Qed.

Example C48_ex :
  perft_main Debug [lit "bkgm-perft"; lit "-v"; lit "Hyper2"; lit "--die0"; lit "3"; lit "--die1"; lit "1"; lit "-n"; lit "2"] =
    Ret (SingleRoll Hypergammon2 (lit "AABAAQAACgAAAA") 3 1 2 6) /\
  perft_main Debug [lit "bkgm-perft"; lit "-v"; lit "Hyper2"; lit "-d"; lit "1"; lit "-w"] =
    Ret (PerftRun Hypergammon2 (lit "AABAAQAACgAAAA") 1 true 1 136).
Proof. split; vm_compute; reflexivity. Qed.

(** ** C50: corpus counting *)
Definition adds (m : mode) (f : Z -> res Z) (v : Z) : Prop :=
  0 <= v /\ forall t r, 0 <= t < 2 ^ 64 -> f t = Ret r <-> total_is m (t + v) r.
Lemma adds_u64 m v : 0 <= v -> adds m (fun t => u64 m (t + v)) v.
Proof.
  intros V. split; auto. intros t r T. destruct m; cbn [total_is].
  - apply u64_debug_some. lia.
  - rewrite u64_release. split; [intros E; inversion E; auto|intros ->; auto].
Qed.
Lemma adds_mfold {A} m (F : Z -> A -> res Z) (v : A -> Z) l : (forall a, In a l -> adds m (fun t => F t a) (v a)) ->
  adds m (fun t => mfold F l t) (sumZ (map v l)).
Proof.
  induction l as [|a l IH]; intros H.
  - split; [cbn; lia|]. intros t r T. cbn [mfold map sumZ fold_right]. rewrite Z.add_0_r. destruct m; cbn [total_is].
    + split; [intros E; inversion E; lia|intros (-> & _); auto].
    + rewrite Z.mod_small by lia. split; [intros E; inversion E; auto|intros ->; auto].
  - destruct (H a (or_introl eq_refl)) as (Va & Ha). destruct IH as (Vl & Hl); [intros; apply H; right; auto|].
    rewrite sumZ_cons. split; [lia|]. intros t r T. cbn [mfold]. specialize (Ha t). destruct m; cbn [total_is] in *.
    + split.
      * intros E. apply bind_inv in E. destruct E as (s & E1 & E2). apply Ha in E1; auto. destruct E1 as (-> & L).
        apply Hl in E2; [|lia]. lia.
      * intros (-> & L). assert (E1 : F t a = Ret (t + v a)) by (apply Ha; lia). rewrite E1, bind_ret. apply Hl; lia.
    + assert (E1 : F t a = Ret ((t + v a) mod 2 ^ 64)) by (apply Ha; auto). rewrite E1, bind_ret.
      assert (B : 0 <= (t + v a) mod 2 ^ 64 < 2 ^ 64) by (apply Z.mod_pos_bound; lia). rewrite (Hl _ r B).
      rewrite Zplus_mod_idemp_l, Z.add_assoc. tauto.
Qed.
(** One run over a corpus counts the listed positions of all its positions with all 21 rolls. *)
Theorem C50_run_once : forall m ps, Forall (fun p => wf 15 p /\ ongoing 15 p) ps ->
  exists ns, Forall2 (fun p n => lines_of m 15 p 1 false n) ps ns /\
  forall r, run_once m ps = Ret r <-> total_is m (Z.of_nat (list_sum ns)) r.
Proof.
  intros m ps F.
  assert (X : forall p, wf 15 p -> ongoing 15 p -> good m 15 1 p).
  { intros p W O. cbn [good]. auto. }
  assert (Y : exists ns, Forall2 (fun p n => lines_of m 15 p 1 false n /\ Z.of_nat n = cnt 15 false 1 p) ps ns).
  { induction F as [|p ps (W & O) F (ns & IH)]; [exists []; constructor|].
    destruct (@lines_of_good m 15 p 1 false W (X p W O)) as (c & L & E). exists (c :: ns). constructor; auto. }
  destruct Y as (ns & Y). exists ns. split; [clear F; induction Y as [|p n ps ns (L & _) Y IH]; constructor; auto|].
  assert (S : Z.of_nat (list_sum ns) = sumZ (map (cnt 15 false 1) ps)).
  { clear F. induction Y as [|p n ps ns (_ & E) Y IH]; [reflexivity|]. rewrite sumZ_cons, <- IH, <- E. cbn [list_sum fold_right]. fold (list_sum ns). lia. }
  rewrite S. unfold run_once.
  assert (A : adds m (fun t => mfold (fun total pos =>
    rolls <- all_21 m ;;
    mfold (fun total '(dice_, _) =>
      legal <- classic_positions m 15 pos dice_ ;; u64 m (total + Z.of_nat (List.length legal))) rolls total) ps t) (sumZ (map (cnt 15 false 1) ps))).
  { apply adds_mfold. intros p Ip. rewrite Forall_forall in F. destruct (F p Ip) as (W & O).
    rewrite all_21_ret. cbn [bind cnt].
    assert (B : adds m (fun t => mfold (fun total '(dice_, _) =>
      legal <- classic_positions m 15 p dice_ ;; u64 m (total + Z.of_nat (List.length legal))) ALL_21 t)
      (sumZ (map (fun e : dice * nat => Z.of_nat (List.length (kids 15 p (fst e)))) ALL_21))).
    { apply adds_mfold. intros (d, c) Id. apply all_21_valid in Id. destruct Id as (V & _). cbn [fst] in *.
      assert (El : classic_positions m 15 p d = Ret (kids 15 p d)) by (destruct m; [apply kids_debug; auto|apply kids_release; auto]).
      rewrite El. cbn [bind]. apply adds_u64. lia. }
    replace (sumZ (map (fun e : dice * nat => 1 * sumZ (map (fun _ : position => 1) (kids 15 p (fst e)))) ALL_21))
      with (sumZ (map (fun e : dice * nat => Z.of_nat (List.length (kids 15 p (fst e)))) ALL_21)); [exact B|].
    apply sumZ_ext. intros e _. generalize (kids 15 p (fst e)) as k. induction k as [|q k IHk]; [reflexivity|].
    cbn [map List.length]. unfold sumZ in *. cbn [fold_right]. lia. }
  destruct A as (_ & A). intros r. rewrite (A 0 r ltac:(lia)). rewrite Z.add_0_l. tauto.
Qed.
Example C50_ex : exists n, run_once Debug [BACKGAMMON; BACKGAMMON] = Ret n /\ 800 < n.
Proof. eexists. split; [vm_compute; reflexivity|]. lia. Qed.
