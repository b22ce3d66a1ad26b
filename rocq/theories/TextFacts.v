(** Facts about texts up to case and blanks, and blank-separated words. *)
From Coq Require Import Strings.String.
From Verif Require Import SpecText StrFacts NumFacts SpecMoveText.
Open Scope Z_scope.

Lemma same_letter_iff c d : same_letter c d <-> lower_char c = lower_char d.
Proof.
  unfold same_letter, lower_char.
  destruct (Z.leb_spec 65 c), (Z.leb_spec c 90), (Z.leb_spec 65 d), (Z.leb_spec d 90); simpl; lia.
Qed.
Lemma same_text_iff s : forall t, same_text s t <-> lower s = lower t.
Proof.
  induction s as [|c s IH]; intros [|d t]; simpl.
  - split; auto. constructor.
  - split; [intros H; inversion H|discriminate].
  - split; [intros H; inversion H|discriminate].
  - split.
    + intros H. inversion H; subst. f_equal; [apply same_letter_iff; auto|apply IH; auto].
    + intros H. inversion H. constructor; [apply same_letter_iff; auto|apply IH; auto].
Qed.

Lemma lower_no_ws s : no_ws (lower s) <-> no_ws s.
Proof.
  unfold no_ws, lower. rewrite !Forall_forall. split; intros H c I.
  - rewrite <- is_ws_lower. apply H. apply in_map. exact I.
  - apply in_map_iff in I. destruct I as (d & <- & I). rewrite is_ws_lower. auto.
Qed.
Lemma lower_trimmed s : trimmed (lower s) -> trimmed s.
Proof.
  intros ((c & t & E1 & C) & (d & t' & E2 & D)). split.
  - destruct s as [|x s]; [discriminate|]. inversion E1; subst. rewrite is_ws_lower in C. eauto.
  - destruct s as [|x0 s0] eqn:Eu; [destruct t'; discriminate|]. rewrite <- Eu in *.
    assert (Hu : s <> []) by (rewrite Eu; discriminate).
    destruct (exists_last Hu) as (w & x & Ew). rewrite Ew in *. rewrite lower_app in E2.
    apply app_inj_tail in E2. destruct E2 as (_ & E2). subst d. rewrite is_ws_lower in D. eauto.
Qed.

(** [spells] for a lower-case word. *)
Lemma spells_iff s t : trimmed t -> lower t = t -> spells s t <-> lower (trim s) = t.
Proof.
  intros T L. split.
  - intros (a & u & b & -> & A & B & S). apply same_text_iff in S. rewrite L in S.
    rewrite trim_trimmed; auto. apply lower_trimmed. rewrite S. exact T.
  - intros E. destruct (trim_spec s) as (a & b & Es & A & B). exists a, (trim s), b.
    repeat (split; [assumption|]). apply same_text_iff. congruence.
Qed.
Lemma spells_ignore s t : trimmed t -> lower t = t -> spells s t <-> eq_ignore_case (trim s) t = true.
Proof. intros T L. rewrite spells_iff by auto. rewrite eq_ignore_case_iff, L. reflexivity. Qed.

Lemma blank_free_word w : blank_free w <-> word w.
Proof. reflexivity. Qed.

Lemma split_ws_blank b : only_blanks b -> split_ws b = [].
Proof. intros H. rewrite <- (app_nil_r b), split_ws_blank_app by exact H. apply split_ws_nil. Qed.

Lemma words_split t ws : words t ws -> split_ws t = ws.
Proof.
  induction 1 as [b B|b w B W|b w c t ws B W C _ IH].
  - apply split_ws_blank; auto.
  - rewrite split_ws_blank_app by auto. apply split_ws_word; auto.
  - rewrite split_ws_blank_app by auto. rewrite split_ws_cons by auto. congruence.
Qed.
Lemma split_words t : words t (split_ws t).
Proof.
  assert (G : forall n t, (length t <= n)%nat -> words t (split_ws t)).
  { clear t. induction n as [|n IH]; intros t L.
    - destruct t; [|simpl in L; lia]. apply words_none. constructor.
    - destruct (trim_start_spec t) as (b & E & B).
      destruct (trim_start t) as [|c u] eqn:Et.
      + rewrite app_nil_r in E. subst. rewrite split_ws_blank by auto. apply words_none; auto.
      + pose proof (trim_start_head _ Et) as C.
        assert (W : exists w r, c :: u = w ++ r /\ word w /\ (r = [] \/ exists d r', r = d :: r' /\ is_ws d = true)).
        { clear - C. revert c C. induction u as [|x u IHu]; intros c C.
          - exists [c], []. split; auto. split; [split; [discriminate|repeat constructor; auto]|auto].
          - destruct (is_ws x) eqn:X.
            + exists [c], (x :: u). split; auto. split; [split; [discriminate|repeat constructor; auto]|]. right; eauto.
            + destruct (IHu x X) as (w & r & E & (W1 & W2) & R). exists (c :: w), r.
              split; [simpl; congruence|]. split; [split; [discriminate|constructor; auto]|auto]. }
        destruct W as (w & r & E2 & W & R). rewrite E, E2 in L |- *. rewrite app_length in L.
        rewrite split_ws_blank_app by auto.
        destruct R as [->|(d & r' & -> & D)].
        * rewrite app_nil_r. rewrite split_ws_word by auto. apply words_last; auto.
        * rewrite split_ws_cons by auto. apply words_more; auto. apply IH.
          rewrite app_length in L. destruct W as (W & _). destruct w; [contradiction|]. simpl in L. lia. }
  eapply G. reflexivity.
Qed.
Lemma words_iff t ws : words t ws <-> split_ws t = ws.
Proof. split; [apply words_split|intros <-; apply split_words]. Qed.

Lemma lower_digits s v : numeral (lower s) v -> lower s = s.
Proof.
  intros H. apply numeral_chars in H. unfold lower in *. revert H. induction s as [|c s IH]; simpl; auto.
  intros H. inversion H as [|x l H1 H2]; subst. f_equal; [|apply IH; exact H2].
  unfold lower_char in *. destruct (Z.leb_spec 65 c), (Z.leb_spec c 90); simpl in *; lia.
Qed.
Lemma digits_lower s v : numeral s v -> lower s = s.
Proof.
  intros H. apply numeral_chars in H. unfold lower. revert H. induction s as [|c s IH]; simpl; auto.
  intros H. inversion H as [|x l H1 H2]; subst. f_equal; [|apply IH; exact H2].
  unfold lower_char. destruct (Z.leb_spec 65 c), (Z.leb_spec c 90); simpl in *; lia.
Qed.
Lemma unsigned_lower max s v : unsigned_text max (lower s) v <-> unsigned_text max s v.
Proof.
  unfold unsigned_text. split; intros (H & M); (split; [|exact M]).
  - destruct H as [H|(t & E & H)].
    + left. rewrite <- (lower_digits _ H). exact H.
    + destruct s as [|c s]; [discriminate|]. simpl in E. inversion E. subst t.
      right. exists s. split.
      * f_equal. unfold lower_char in *. destruct (Z.leb_spec 65 c), (Z.leb_spec c 90); simpl in *; lia.
      * rewrite <- (lower_digits _ H). exact H.
  - destruct H as [H|(t & -> & H)].
    + left. rewrite (digits_lower H). exact H.
    + right. exists t. simpl. rewrite (digits_lower H). auto.
Qed.
