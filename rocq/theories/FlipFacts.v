(** [flip]: closed form, mirror property, involution, well-formedness. *)
From Verif Require Export MoveFacts.
Open Scope Z_scope.

(** Pure value of [flip] when nothing overflows. *)
Definition flipP (p : position) : position :=
  {| turn := negb (turn p); pips := rev (map Z.opp (pips p)); x_off := o_off p; o_off := x_off p |}.

Lemma In_pips N p v : wf N p -> In v (pips p) -> -127 <= v <= 127.
Proof.
  intros W H. apply (In_nth _ _ 0) in H. destruct H as (i & Hi & E).
  pose proof (wf_pt_bounds i W) as B. unfold pt in B. rewrite E in B. exact B.
Qed.

Lemma flip_ret m N p : wf N p -> flip m p = Ret (flipP p).
Proof.
  intros W. unfold flip. rewrite (mmap_ret _ Z.opp); [reflexivity|].
  intros v Hv. apply i8_ret. pose proof (In_pips _ W Hv). lia.
Qed.

Lemma nth_rev_opp (l : list Z) i : (i < length l)%nat ->
  nth i (rev (map Z.opp l)) 0 = - nth (length l - 1 - i) l 0.
Proof.
  intros H. rewrite rev_nth by (rewrite map_length; auto). rewrite map_length.
  change 0 with (Z.opp 0) at 1. rewrite map_nth. f_equal. f_equal. lia.
Qed.

Lemma pt_flipP p i : length (pips p) = 26%nat -> (i <= 25)%nat ->
  pt (flipP p) i = - pt p (25 - i).
Proof.
  intros L H. unfold pt, flipP. simpl. rewrite nth_rev_opp by lia. rewrite L.
  replace (26 - 1 - i)%nat with (25 - i)%nat by lia. reflexivity.
Qed.

Lemma flipP_mirrored p : length (pips p) = 26%nat -> mirrored p (flipP p).
Proof.
  intros L. unfold mirrored. repeat split; auto.
  - simpl. rewrite rev_length, map_length. auto.
  - intros i H. apply pt_flipP; auto.
Qed.

Lemma mirrored_iff p q : length (pips p) = 26%nat -> mirrored p q <-> q = flipP p.
Proof.
  intros L. split; [|intros ->; apply flipP_mirrored; auto].
  intros (A & B & C & D & E). apply position_ext; auto.
  - simpl. rewrite rev_length, map_length. auto.
  - intros i Hi. rewrite pt_flipP by (auto; lia). apply E. lia.
Qed.

Lemma flipP_involutive p : flipP (flipP p) = p.
Proof.
  destruct p as [t l x o]. unfold flipP. simpl. rewrite negb_involutive. f_equal.
  rewrite map_rev, rev_involutive, map_map. rewrite <- (map_id l) at 2.
  apply map_ext. intros. lia.
Qed.

Lemma flipP_inj p q : flipP p = flipP q -> p = q.
Proof. intros H. rewrite <- (flipP_involutive p), H. apply flipP_involutive. Qed.

Lemma sumZ_rev l : sumZ (rev l) = sumZ l.
Proof. induction l as [|a l IH]; simpl; auto. rewrite sumZ_app. simpl. lia. Qed.

Lemma flipP_x p : x_checkers (flipP p) = o_checkers p.
Proof.
  unfold x_checkers, o_checkers, flipP. simpl.
  rewrite map_rev, sumZ_rev, map_map. reflexivity.
Qed.
Lemma flipP_o p : o_checkers (flipP p) = x_checkers p.
Proof.
  unfold x_checkers, o_checkers, flipP. simpl.
  rewrite map_rev, sumZ_rev, map_map. f_equal. f_equal. apply map_ext. intros. f_equal. lia.
Qed.

Lemma flipP_wf N p : wf N p -> wf N (flipP p).
Proof.
  intros W. pose proof (wf_len W). constructor.
  - apply W.
  - simpl. rewrite rev_length, map_length. auto.
  - apply W.
  - apply W.
  - rewrite flipP_x. apply W.
  - rewrite flipP_o. apply W.
  - rewrite pt_flipP by lia. pose proof (wf_obar W). change (25 - 25)%nat with 0%nat. lia.
  - rewrite pt_flipP by lia. pose proof (wf_xbar W). change (25 - 0)%nat with 25%nat. lia.
Qed.

Lemma flipP_length p : length (pips (flipP p)) = length (pips p).
Proof. simpl. rewrite rev_length, map_length. auto. Qed.
