(** Properties C33, C34, C46: equality, variants, debug text.  Read with SpecRules.v,
    SpecVariants.v and SpecText.v. *)
From Coq Require Import Strings.String.
From Verif Require Import SpecVariants SpecText SpecGame StrFacts EqFacts DebugFacts HashFacts BaseFacts VariantFacts.
Open Scope Z_scope.

(** ** C33 *)

(** [==] holds exactly when the boards and the off counts agree. *)
Theorem C33_eq_iff : forall p q, length (pips p) = 26%nat -> length (pips q) = 26%nat ->
  (position_eqb p q = true <->
   (forall i, (i < 26)%nat -> pip p i = pip q i) /\ x_off p = x_off q /\ o_off p = o_off q).
Proof.
  intros p q L L'. rewrite position_eqb_iff. unfold pip. split.
  - intros (E & X & O). rewrite E. auto.
  - intros (E & X & O). split; auto. apply nth_ext26; auto. intros i Hi. specialize (E i Hi).
    rewrite !(index_ret _ 0) in E by lia. congruence.
Qed.
Theorem C33_equivalence :
  (forall p, position_eqb p p = true) /\
  (forall p q, position_eqb p q = position_eqb q p) /\
  (forall p q r, position_eqb p q = true -> position_eqb q r = true -> position_eqb p r = true).
Proof.
  assert (S : forall p q, position_eqb p q = true -> position_eqb q p = true)
    by (intros p q; rewrite !position_eqb_iff; intuition).
  split; [intros p; apply position_eqb_iff; auto|]. split.
  - intros p q. destruct (position_eqb p q) eqn:E, (position_eqb q p) eqn:F; auto; apply S in E || apply S in F; congruence.
  - intros p q r. rewrite !position_eqb_iff. intuition congruence.
Qed.
Lemma app_inj_len (a b c d : list Z) : length a = length b -> a ++ c = b ++ d -> a = b /\ c = d.
Proof.
  revert b; induction a as [|x a IH]; intros [|y b] L E; simpl in L, E; try lia; auto.
  inversion E; subst. destruct (IH b ltac:(lia) H1). subst. auto.
Qed.
(** Equal positions feed the same data to any hasher (and unequal ones different data). *)
Theorem C33_hash : forall p q, length (pips p) = 26%nat -> length (pips q) = 26%nat ->
  (hash_feed p = hash_feed q <-> position_eqb p q = true).
Proof.
  intros p q L L'. rewrite position_eqb_iff. unfold hash_feed. split.
  - intros E. destruct (@app_inj_len (pips p) (pips q) _ _ ltac:(congruence) E) as (A & G). inversion G. auto.
  - intros (A & B & C). congruence.
Qed.
(** Equal positions behave the same: same state, phase and hash value, same accessors, and their
    move lists are equal element by element. *)
Definition same_outcome {A} (R : A -> A -> Prop) (a b : res A) : Prop :=
  match a, b with Ret x, Ret y => R x y | Panic k, Panic l => k = l | _, _ => False end.
Definition equal_positions (p q : position) : Prop := position_eqb p q = true.
Lemma rrel_same l h (a b : res l) (R : l -> l -> Prop) : rrel h a b -> (forall x, R x (h x)) -> same_outcome R a b.
Proof. unfold rrel. intros -> H. destruct a; simpl; auto. Qed.
Theorem C33_same_behaviour : forall p q, equal_positions p q -> forall m N,
  game_state m N p = game_state m N q /\ phase m N p = phase m N q /\ dbhash m N p = dbhash m N q /\
  x_bar p = x_bar q /\ o_bar m p = o_bar m q /\ debug_fmt m p = debug_fmt m q /\
  same_outcome equal_positions (flip m p) (flip m q) /\
  forall d, same_outcome (Forall2 equal_positions) (generate_legal_positions m N p d)
              (generate_legal_positions m N q d).
Proof.
  intros p q E m N. apply position_eqb_st in E. rewrite E.
  do 6 (split; [reflexivity|]). split.
  - eapply rrel_same; [apply st_flip|]. intros; apply position_eqb_of_st.
  - intros d. eapply rrel_same; [apply st_generate|].
    induction x; simpl; constructor; auto. apply position_eqb_of_st.
Qed.
Lemma vpos_eqb_tag k p w : vpos_eqb (tag k p) w = true <-> exists q, w = tag k q /\ position_eqb p q = true.
Proof.
  split.
  - destruct k, w; simpl; intros H; try discriminate; eauto.
  - intros (q & -> & H). destruct k; exact H.
Qed.
(** The same for positions of variants and every rule entry point. *)
Theorem C33_variant_behaviour : forall v w, vpos_eqb v w = true -> forall m,
  vp_variant v = vp_variant w /\ vp_game_state m v = vp_game_state m w /\ vp_phase m v = vp_phase m w /\
  forall d, same_outcome (Forall2 (fun a b => vpos_eqb a b = true)) (legal_positions m v d) (legal_positions m w d).
Proof.
  intros v w H m. rewrite (tag_surj v) in *. apply vpos_eqb_tag in H. destruct H as (q & -> & H).
  rewrite !vp_variant_tag, !vp_game_state_tag, !vp_phase_tag.
  destruct (C33_same_behaviour H m (checkers (vp_variant v))) as (A & B & _ & _ & _ & _ & _ & C).
  split; auto. split; auto. split; auto. intros d. unfold legal_positions. rewrite !classic_rules_tag.
  specialize (C d). destruct (generate_legal_positions m _ (board_of v) d), (generate_legal_positions m _ q d);
    simpl in *; try tauto.
  induction C; simpl; constructor; auto. apply vpos_eqb_tag. eauto.
Qed.
Example C33_example :
  let p := BACKGAMMON in let q := {| turn := false; pips := pips BACKGAMMON; x_off := 0; o_off := 0 |} in
  p <> q /\ equal_positions p q /\ exists l, generate_legal_positions Debug 15 q (Mixed 3 1) = Ret l /\ length l = 16%nat.
Proof. split; [discriminate|]. split; [reflexivity|]. eexists. split; vm_compute; reflexivity. Qed.

(** ** C34 *)

Lemma same_letter_lower c d : same_letter c d -> lower_char c = lower_char d.
Proof.
  unfold same_letter, lower_char. intros H.
  destruct (Z.leb_spec 65 c), (Z.leb_spec c 90), (Z.leb_spec 65 d), (Z.leb_spec d 90); simpl; lia.
Qed.
Lemma lower_same_letter c d : lower_char c = d -> same_letter c d.
Proof.
  unfold same_letter, lower_char. destruct (Z.leb_spec 65 c), (Z.leb_spec c 90); simpl; lia.
Qed.
Lemma same_text_lower s t : same_text s t -> lower s = lower t.
Proof. induction 1; simpl; auto. f_equal; auto. apply same_letter_lower; auto. Qed.
Lemma lower_same_text s : same_text s (lower s).
Proof. induction s; simpl; constructor; auto. apply lower_same_letter. reflexivity. Qed.
Lemma lower_display v : lower (variant_display v) = variant_display v.
Proof. destruct v; reflexivity. Qed.
Lemma display_trimmed v : trimmed (variant_display v).
Proof.
  apply no_ws_trimmed; [destruct v; discriminate|].
  unfold no_ws. apply Forall_forall. intros c H. destruct v; simpl in H;
    repeat (destruct H as [<-|H]; [reflexivity|]); destruct H.
Qed.
Lemma from_str_lower s v : variant_from_str s = Some v <-> lower (trim s) = variant_display v.
Proof.
  unfold variant_from_str. split.
  - repeat match goal with |- context [str_eqb ?a ?b] =>
      destruct (str_eqb a b) eqn:?E; [apply str_eqb_eq in E; intros X; inversion X; subst; exact E|clear E] end.
    discriminate.
  - intros ->. destruct v; reflexivity.
Qed.

(** A text parses as a variant exactly if it spells its displayed name, up to ASCII case and
    surrounding blanks. *)
Theorem C34_parse : forall s v, variant_from_str s = Some v <-> spells s (variant_display v).
Proof.
  intros s v. rewrite from_str_lower. split.
  - intros E. destruct (trim_spec s) as (a & b & Es & A & B). exists a, (trim s), b.
    repeat (split; [assumption|]). rewrite <- E. apply lower_same_text.
  - intros (a & u & b & -> & A & B & T). pose proof (same_text_lower T) as L. rewrite lower_display in L.
    assert (U : trimmed u).
    { pose proof (display_trimmed v) as D. rewrite <- L in D.
      destruct D as ((c & t & E1 & C) & (d & t' & E2 & D)). split.
      - destruct u as [|x u]; [discriminate|]. inversion E1; subst. rewrite is_ws_lower in C. eauto.
      - destruct u as [|x0 u0] eqn:Eu; [destruct t'; discriminate|]. rewrite <- Eu in *.
        assert (Hu : u <> []) by (rewrite Eu; discriminate).
        destruct (exists_last Hu) as (w & x & Ew). rewrite Ew in *. rewrite lower_app in E2.
        apply app_inj_tail in E2. destruct E2 as (_ & E2). subst d. rewrite is_ws_lower in D. eauto. }
    rewrite trim_trimmed by auto. exact L.
Qed.
(** A blank is one of Unicode's 25 White_Space code points. *)
Definition white_space : list Z := [9; 10; 11; 12; 13; 32; 133; 160; 5760; 8192; 8193; 8194; 8195; 8196; 8197; 8198;
  8199; 8200; 8201; 8202; 8232; 8233; 8239; 8287; 12288].
Theorem C34_blanks : forall s, only_blanks s <-> Forall (fun c => In c white_space) s.
Proof.
  assert (X : forall c, is_ws c = true <-> In c white_space).
  { intros c. unfold is_ws, white_space. rewrite !orb_true_iff, !andb_true_iff, !Z.leb_le, !Z.eqb_eq. cbn [In]. lia. }
  intros s. unfold only_blanks. split; apply Forall_impl; intros c; apply X.
Qed.
Theorem C34_display_roundtrip : forall v, variant_from_str (variant_display v) = Some v.
Proof. destruct v; reflexivity. Qed.
Theorem C34_names_distinct : forall v w, variant_display v = variant_display w -> v = w.
Proof. intros v w E. pose proof (C34_display_roundtrip v). pose proof (C34_display_roundtrip w). congruence. Qed.
Theorem C34_all_variants : NoDup VARIANTS /\ forall v, In v VARIANTS.
Proof.
  split.
  - unfold VARIANTS. repeat (apply NoDup_cons; [simpl; intros H; repeat (destruct H as [H|H]; [discriminate|]); exact H|]).
    apply NoDup_nil.
  - destruct v; simpl; tauto.
Qed.
(** The displayed names and the titles are the documented ones. *)
Theorem C34_names : forall k, variant_display k = lit (wire_name k) /\ spec_name (spec k) = lit (title k).
Proof. destruct k; split; reflexivity. Qed.
(** Every start position is the variant's set-up, for both sides: on each point the side to move
    has what the set-up says, and the other side has the same seen from its own side. *)
Theorem C34_setup : forall k i, (i < 26)%nat ->
  pt (board_of (start_position k)) i = stands (setup k) i - stands (setup k) (25 - i).
Proof.
  intros k i H. destruct k; do 26 (destruct i as [|i]; [reflexivity|]); lia.
Qed.
Ltac solve_wf := constructor; vm_compute; try reflexivity; try (split; intro; discriminate); intro; discriminate.
(** Every start position is a well-formed, ongoing contact position of its variant with the
    advertised number of checkers, the same for both sides. *)
Theorem C34_start : forall k, exists p, start_position k = tag k p /\ wf (checkers k) p /\
  spec_num_checkers (spec k) = checkers k /\ vp_num_checkers (start_position k) = checkers k /\
  vp_variant (start_position k) = k /\ turn p = true /\
  x_off p = 0 /\ o_off p = 0 /\
  forall m, vp_game_state m (start_position k) = Ret Ongoing /\
    vp_phase m (start_position k) = Ret (POngoing Contact) /\
    exists q, flip m p = Ret q /\ equal_positions p q /\ mirrored p q.
Proof.
  intros k. exists (board_of (start_position k)).
  split; [destruct k; reflexivity|]. split; [destruct k; solve_wf|].
  do 6 (split; [destruct k; reflexivity|]).
  intros m. split; [destruct k, m; reflexivity|]. split; [destruct k, m; reflexivity|].
  assert (F : exists q, flip m (board_of (start_position k)) = Ret q /\ equal_positions (board_of (start_position k)) q)
    by (destruct k, m; eexists; split; vm_compute; reflexivity).
  destruct F as (q & Q & E). exists q. split; auto. split; auto.
  assert (W : wf (checkers k) (board_of (start_position k))) by (destruct k; solve_wf).
  rewrite (flip_ret m W) in Q. inversion Q; subst. apply flipP_mirrored. apply W.
Qed.

Example C34_example : variant_from_str (lit "  HyperGammon4 ") = Some Hypergammon4 /\
  variant_from_str (lit "hypergammon3") = None /\ spells (lit " Backgammon") (lit "backgammon").
Proof. split; [reflexivity|]. split; [reflexivity|]. apply (C34_parse (lit " Backgammon") Backgammon). reflexivity. Qed.

(** ** C46 *)

(** The debug text never fails on well-formed positions, and is the same exactly for equal ones. *)
Theorem C46_debug_text : forall m N p q, wf N p -> wf N q ->
  exists s t, debug_fmt m p = Ret s /\ debug_fmt m q = Ret t /\ (s = t <-> equal_positions p q).
Proof.
  intros m N p q Wp Wq. eexists _, _. split; [apply (debug_fmt_ret m Wp)|]. split; [apply (debug_fmt_ret m Wq)|].
  split.
  - intros E. apply (debug_fmt_inj m Wp Wq (debug_fmt_ret m Wp)). rewrite (debug_fmt_ret m Wq), E. reflexivity.
  - intros E. pose proof (C33_same_behaviour E m N) as (_ & _ & _ & _ & _ & D & _).
    rewrite (debug_fmt_ret m Wp), (debug_fmt_ret m Wq) in D. apply Ret_inj in D. exact D.
Qed.
Example C46_example : debug_fmt Debug HYPERGAMMON2 =
  Ret (lit "Position:" ++ [10] ++ lit "x: {24:1, 23:1}" ++ [10] ++ lit "o: {2:1, 1:1}").
Proof. vm_compute. reflexivity. Qed.

Print Assumptions C33_same_behaviour.
Print Assumptions C34_parse.
Print Assumptions C34_start.
Print Assumptions C46_debug_text.
