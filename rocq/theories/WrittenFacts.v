(** Shortest decimal forms. *)
From Coq Require Import Strings.String.
From Verif Require Import SpecWritten StrFacts NumFacts.
Unset Implicit Arguments.
Open Scope Z_scope.

Definition value (ds : list Z) : Z := fold_left (fun a d => 10 * a + d) ds 0.
Lemma value_snoc l d : value (l ++ [d]) = 10 * value l + d.
Proof. unfold value. rewrite fold_left_app. reflexivity. Qed.
Lemma fold_mono ds : forall a, 0 <= a -> Forall (fun d => 0 <= d <= 9) ds -> a <= fold_left (fun a d => 10 * a + d) ds a.
Proof.
  induction ds as [|d ds IH]; intros a A F; cbn; [lia|]. inversion F; subst. specialize (IH (10 * a + d)). 
  assert (10 * a + d <= fold_left (fun a0 d0 : Z => 10 * a0 + d0) ds (10 * a + d)) by (apply IH; auto; lia). lia.
Qed.
Lemma value_pos d l : Forall (fun d => 0 <= d <= 9) (d :: l) -> d <> 0 -> 1 <= value (d :: l).
Proof.
  intros F D. inversion F; subst. unfold value. cbn [fold_left]. pose proof (@fold_mono l (10 * 0 + d)). 
  assert (10 * 0 + d <= fold_left (fun a d0 : Z => 10 * a + d0) l (10 * 0 + d)) by (apply H; auto; lia). lia.
Qed.
Lemma dec_digits ds : forall f, ds <> [] -> Forall (fun d => 0 <= d <= 9) ds -> (hd 0 ds <> 0 \/ List.length ds = 1%nat) ->
  value ds < 2 ^ Z.of_nat (S f) -> dec_fuel (S f) (value ds) = map (Z.add 48) ds.
Proof.
  induction ds as [|d l IH] using rev_ind; intros f N F H B; [congruence|]. clear N.
  apply Forall_app in F. destruct F as (F & D). inversion D; subst. rewrite value_snoc in *.
  destruct l as [|e l].
  - cbn [dec_fuel]. change (value []) with 0. replace (10 * 0 + d) with d by lia. destruct (Z.ltb_spec d 10) as [L|L]; [reflexivity|]. lia.
  - assert (NZ : e <> 0). { destruct H as [H|H]; [exact H|]. rewrite app_length in H. cbn [List.length] in H. exfalso. lia. } clear H. rename NZ into H.
    pose proof (value_pos e l F H) as P. cbn [dec_fuel]. set (v := value (e :: l)) in *.
    destruct (Z.ltb_spec (10 * v + d) 10); [lia|].
    replace ((10 * v + d) / 10) with v by (apply Z.div_unique with d; lia).
    replace ((10 * v + d) mod 10) with d by (apply Z.mod_unique with v; lia).
    rewrite map_app. f_equal. rewrite Nat2Z.inj_succ, Z.pow_succ_r in B by lia.
    clearbody v; destruct f as [|f]; [change (2 ^ Z.of_nat 0) with 1 in B; exfalso; lia|]. apply IH; auto; [discriminate|]. lia.
Qed.
Lemma decimal_iff s v : 0 <= v -> (s = fmt_uint v <-> decimal s v).
Proof.
  intros V. assert (U : forall t, decimal t v -> t = fmt_uint v).
  { intros t ((ds & N & F & -> & E) & Z). unfold fmt_uint. rewrite E in *. symmetry. apply dec_digits; auto.
    - destruct ds as [|d ds]; [congruence|]. cbn [hd map] in *. destruct (Z.eq_dec d 0) as [->|D]; [|auto].
      right. specialize (Z eq_refl). destruct ds; [reflexivity|discriminate Z].
    - fold (value ds). rewrite Nat2Z.inj_succ, Z2Nat.id by apply Z.log2_nonneg. fold (value ds) in V.
      destruct (Z.eq_dec (value ds) 0) as [->|P]; [reflexivity|]. apply Z.log2_spec. lia. }
  split; [|apply U]. intros ->. split; [apply fmt_uint_numeral; auto|].
  (* no leading zero *)
  unfold fmt_uint. assert (G : forall f n, 0 < n < 2 ^ Z.of_nat (S f) -> hd 0 (dec_fuel (S f) n) <> 48).
  { clear. induction f as [|f IH]; intros n P.
    - cbn in P. cbn [dec_fuel]. destruct (Z.ltb_spec n 10) as [H|H]; [cbn; lia|lia].
    - rewrite Nat2Z.inj_succ, Z.pow_succ_r in P by lia. remember (S f) as g eqn:Hg. cbn [dec_fuel].
      destruct (Z.ltb_spec n 10) as [H|H]; [cbn; lia|].
      assert (Q : 0 < n / 10 < 2 ^ Z.of_nat g).
      { split; [apply Z.div_str_pos; lia|]. apply Z.div_lt_upper_bound; lia. }
      subst g. specialize (IH _ Q). destruct (dec_fuel (S f) (n / 10)) as [|c l] eqn:E; [|exact IH].
      exfalso. cbn [dec_fuel] in E. destruct (n / 10 <? 10); [discriminate E|]. apply app_eq_nil in E. destruct E; discriminate. }
  destruct (Z.eq_dec v 0) as [->|P]; [reflexivity|]. intros H. exfalso. revert H. apply G.
  rewrite Nat2Z.inj_succ, Z2Nat.id by apply Z.log2_nonneg. split; [lia|]. apply Z.log2_spec. lia.
Qed.
Lemma integer_iff s v : s = fmt_int v <-> integer s v.
Proof.
  unfold fmt_int, integer. destruct (Z.ltb_spec v 0).
  - split.
    + intros ->. right. split; [auto|]. eexists. split; [reflexivity|]. apply decimal_iff; [lia|reflexivity].
    + intros [(H' & _)|(_ & t & -> & D)]; [lia|]. apply decimal_iff in D; [|lia]. congruence.
  - rewrite decimal_iff by auto. split; [auto|]. intros [(_ & D)|(H' & _)]; [auto|lia].
Qed.
