(** The move generator returns exactly the legal results. *)
From Coq Require Import Permutation.
From Verif Require Export MoveGen FlipFacts MixedProof DoubleProof.
Open Scope Z_scope.

Lemma plays_wf_any N ds : forall p r, wf N p -> Forall valid_die ds -> plays ds p r -> wf N r.
Proof.
  induction ds as [|d ds IH]; intros p r W F P; inversion P; subst; auto.
  inversion F; subst. pose proof (wf_len W).
  match goal with M : may_move _ _ _, Q : moved _ _ _ _ |- _ =>
    pose proof (may_move_range M); apply moved_iff in Q; auto;
      [subst; pose proof (may_wf W ltac:(eassumption) M)|unfold valid_die in *; lia] end.
  eapply IH; eauto.
Qed.

Lemma uses_valid d ds : valid_dice d -> uses d ds -> Forall valid_die ds.
Proof.
  intros V (rest & P). apply Forall_forall. intros x Hx.
  assert (H : In x (pool d)) by (eapply Permutation_in; eauto; apply in_or_app; auto).
  destruct d as [b s|a]; simpl in *; intuition; subst; auto.
Qed.

Lemma legal_result_wf N d p r : wf N p -> valid_dice d -> legal_result d p r -> wf N r.
Proof.
  intros W V (ds & U & P & _). exact (plays_wf_any W (uses_valid V U) P).
Qed.

(** The list before flipping. *)
Lemma movegen_raw N m p d : wf N p -> ongoing N p -> valid_dice d ->
  exists l, generate_legal_positions m N p d = Ret (map flipP l) /\ l <> [] /\
  (forall r, In r l <-> legal_result d p r).
Proof.
  intros W [O1 O2] V. unfold generate_legal_positions.
  rewrite debug_assert_ret by (apply andb_true_intro; split; apply Z.ltb_lt; lia).
  rewrite bind_ret.
  assert (H : exists l, match d with
         | Double die => all_positions_after_double_move m p die
         | Mixed big small => all_positions_after_mixed_move m p big small
         end = Ret l /\ l <> [] /\ forall r, In r l <-> legal_result d p r).
  { destruct d as [b s|a].
    - exact (mixed_correct m W V).
    - exact (double_correct m W V). }
  destruct H as (l & E & Hn & H). rewrite E, bind_ret.
  rewrite (mmap_ret _ flipP).
  2:{ intros q Hq. apply H in Hq. exact (flip_ret m (legal_result_wf W V Hq)). }
  rewrite bind_ret. rewrite debug_assert_ret by (destruct l; [congruence|reflexivity]).
  rewrite bind_ret. eauto.
Qed.

Lemma movegen_correct N m p d : wf N p -> ongoing N p -> valid_dice d ->
  exists l, generate_legal_positions m N p d = Ret l /\ l <> [] /\
  (forall q, In q l <-> exists r, legal_result d p r /\ mirrored r q).
Proof.
  intros W O V. destruct (movegen_raw m d W O V) as (l & E & Hn & H).
  exists (map flipP l). split; auto. split; [destruct l; [congruence|discriminate]|].
  intros q. rewrite in_map_iff. split.
  - intros (r & <- & Hr). exists r. split; [apply H; auto|]. apply flipP_mirrored.
    apply H in Hr. apply (legal_result_wf W V Hr).
  - intros (r & Hr & M). exists r. split; [|apply H; auto].
    symmetry. apply mirrored_iff; auto. apply (legal_result_wf W V Hr).
Qed.
