(** Variant positions: everything reduces to the board. *)
From Verif Require Export SpecVariants Rules MoveGenProof.
Open Scope Z_scope.

Lemma tag_inj k p k' p' : tag k p = tag k' p' -> k = k' /\ p = p'.
Proof. destruct k, k'; simpl; intros H; inversion H; auto. Qed.

Lemma tag_surj v : v = tag (vp_variant v) (board_of v).
Proof. destruct v; reflexivity. Qed.

Lemma vp_variant_tag k p : vp_variant (tag k p) = k.
Proof. destruct k; reflexivity. Qed.
Lemma board_of_tag k p : board_of (tag k p) = p.
Proof. destruct k; reflexivity. Qed.

Lemma vongoing_tag k p : vongoing (tag k p) <-> ongoing (checkers k) p.
Proof.
  split; [|intros; exists k, p; auto].
  intros (k' & p' & E & O). apply tag_inj in E. destruct E; subst. auto.
Qed.
Lemma vwf_tag k p : vwf k (tag k p) <-> wf (checkers k) p.
Proof.
  split; [|intros; exists p; auto].
  intros (p' & E & O). apply tag_inj in E. destruct E; subst. auto.
Qed.
Lemma vwf_variant k v : vwf k v -> vp_variant v = k.
Proof. intros (p & -> & _). apply vp_variant_tag. Qed.

Lemma classic_rules_tag m k p d : classic_rules m (tag k p) d =
  (l <- generate_legal_positions m (checkers k) p d ;; Ret (map (tag k) l)).
Proof. destruct k; reflexivity. Qed.
Lemma no_hit_rules_tag m k p d : no_hit_rules m (tag k p) d =
  (l <- no_hit_positions m (checkers k) p d ;; Ret (map (tag k) l)).
Proof. destruct k; reflexivity. Qed.
Lemma vp_game_state_tag m k p : vp_game_state m (tag k p) = game_state m (checkers k) p.
Proof. destruct k; reflexivity. Qed.
Lemma vp_phase_tag m k p : vp_phase m (tag k p) = phase m (checkers k) p.
Proof. destruct k; reflexivity. Qed.
Lemma vp_num_checkers_tag k p : vp_num_checkers (tag k p) = checkers k.
Proof. destruct k; reflexivity. Qed.
Lemma vp_turn_tag k p : vp_turn (tag k p) = turn p.
Proof. destruct k; reflexivity. Qed.

(** The pure list, as flipped legal results. *)
Lemma legal_positions_raw m k p d :
  wf (checkers k) p -> ongoing (checkers k) p -> valid_dice d ->
  exists l, legal_positions m (tag k p) d = Ret (map (fun r => tag k (flipP r)) l) /\ l <> [] /\
  (forall r, In r l <-> legal_result d p r).
Proof.
  intros W O V. destruct (movegen_raw m d W O V) as (l & E & Hn & H).
  exists l. split; auto. unfold legal_positions. rewrite classic_rules_tag, E, bind_ret.
  rewrite map_map. reflexivity.
Qed.

Lemma legal_positions_correct m k v d : vwf k v -> vongoing v -> valid_dice d ->
  exists l, legal_positions m v d = Ret l /\ l <> [] /\ forall w, In w l <-> vlegal d v w.
Proof.
  intros (p & -> & W) O V. rewrite vongoing_tag in O.
  destruct (legal_positions_raw m k d W O V) as (l & E & Hn & H).
  eexists. split; [exact E|]. split; [destruct l; [congruence|discriminate]|].
  intros w. rewrite in_map_iff. split.
  - intros (r & <- & Hr). apply H in Hr. exists k, p, (flipP r), r.
    split; [auto|]. split; [auto|]. split; [auto|].
    apply flipP_mirrored. apply (legal_result_wf W V Hr).
  - intros (k' & p' & q & r & E1 & -> & L & M). apply tag_inj in E1. destruct E1; subst.
    exists r. split; [|apply H; auto].
    apply mirrored_iff in M; [congruence|]. apply (legal_result_wf W V L).
Qed.

