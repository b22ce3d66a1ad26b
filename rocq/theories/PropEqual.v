(** Property C33, continued: equal positions have the same IDs and the same move texts. *)
From Coq Require Import Strings.String.
From Verif Require Import SpecVariants SpecText EqFacts TextEqFacts VariantFacts PropIdentity MoveText Gnuid Show Xgid Fibs Perft Game.
Unset Implicit Arguments.
Open Scope Z_scope.

Definition vst (b : bool) (v : vpos) : vpos := tag (vp_variant v) (st b (board_of v)).
Lemma vst_tag b k p : vst b (tag k p) = tag k (st b p).
Proof. destruct k; reflexivity. Qed.
Lemma vpos_eqb_vst b v : vpos_eqb v (vst b v) = true.
Proof. destruct v; apply position_eqb_of_st. Qed.
Lemma vpos_eqb_is_vst v w : vpos_eqb v w = true -> exists b, w = vst b v.
Proof.
  destruct v, w; cbn [vpos_eqb]; intros H; try discriminate; apply position_eqb_st in H; exists (turn p0); rewrite H at 1; reflexivity.
Qed.

(** A listed move: its text and the position it leads to. *)
Definition same_move (a b : str * vpos) : Prop := fst a = fst b /\ vpos_eqb (snd a) (snd b) = true.
Definition same_moves (a b : move_text_error + list (str * vpos)) : Prop :=
  match a, b with inr l, inr l' => Forall2 same_move l l' | inl e, inl f => e = f | _, _ => False end.
Definition same_target (a b : option vpos) : Prop :=
  match a, b with Some v, Some w => vpos_eqb v w = true | None, None => True | _, _ => False end.

Theorem C33_text_behaviour : forall v v', vpos_eqb v v' = true -> forall m,
  gnuid_encode m v = gnuid_encode m v' /\
  (forall w w' d, vpos_eqb w w' = true -> encode_move m v w d = encode_move m v' w' d) /\
  (forall d text, same_outcome same_target (apply_move m v d text) (apply_move m v' d text)) /\
  (forall d, same_outcome same_moves (legal_moves m v d) (legal_moves m v' d)).
Proof.
  intros v v' H m. destruct (vpos_eqb_is_vst _ _ H) as (b & ->). clear H.
  split; [destruct v; reflexivity|]. split; [|split].
  - intros w w' d H. destruct (vpos_eqb_is_vst _ _ H) as (b' & ->). clear H. unfold encode_move.
    assert (encode_steps m (vst b v) (vst b' w) d = encode_steps m v w d) as ->; [|reflexivity].
    destruct v, w; cbn [encode_steps vst tag vp_variant board_of]; try reflexivity; apply st_encode_for.
  - intros d t.
    assert (R : forall wrap k p, (forall x, wrap x = tag k x) ->
      same_outcome same_target (option_wrap wrap (apply_for m p d t)) (option_wrap wrap (apply_for m (st b p) d t))).
    { intros wrap k p W. unfold option_wrap. pose proof (st_apply_for m b p d t) as E. unfold rrel in E. rewrite E.
      destruct (apply_for m p d t) as [[q|]|]; cbn; auto. rewrite !W. apply vpos_eqb_tag. eexists. split; [reflexivity|].
      apply position_eqb_of_st. }
    destruct v as [p|p|p|p|p|p|p]; cbn [apply_move vst tag vp_variant board_of].
    + apply (R VBackgammon Backgammon). reflexivity.
    + apply (R VNackgammon Nackgammon). reflexivity.
    + apply (R VLonggammon Longgammon). reflexivity.
    + apply (R VHypergammon Hypergammon). reflexivity.
    + apply (R VHypergammon2 Hypergammon2). reflexivity.
    + apply (R VHypergammon4 Hypergammon4). reflexivity.
    + apply (R VHypergammon5 Hypergammon5). reflexivity.
  - intros d. unfold legal_moves.
    assert (rrel (gmapE (vst (negb b))) (legal_steps m v d) (legal_steps m (vst b v) d)) as E
      by (destruct v; cbn [legal_steps vst tag vp_variant board_of]; apply st_legal_for; reflexivity).
    unfold rrel in E. rewrite E. destruct (legal_steps m v d) as [[e|l]|]; cbn; auto.
    clear E; induction l; cbn; constructor; auto. split; [reflexivity|]. apply vpos_eqb_vst.
Qed.
(** Two different values that are equal positions, and a move that both accept. *)
Example C33_text_example :
  let v := VBackgammon BACKGAMMON in
  let v' := VBackgammon {| turn := false; pips := pips BACKGAMMON; x_off := 0; o_off := 0 |} in
  v <> v' /\ vpos_eqb v v' = true /\
  exists w, apply_move Debug v' (Mixed 3 1) (lit "8/5 6/5") = Ret (Some w).
Proof. split; [discriminate|]. split; [reflexivity|]. eexists. vm_compute. reflexivity. Qed.

(** ** The other texts, the picture, the counts and whole games *)
Lemma perft_st m N w n : forall b p, perft m N (st b p) n w = perft m N p n w.
Proof.
  induction n as [|n IH]; intros b p; [reflexivity|]. cbn [perft].
  destruct (all_21 m) as [rolls|k]; [|reflexivity]. cbn [bind].
  assert (X : forall l t, mfold (fun total '(d, count) =>
      let mult := if w then Z.of_nat count else 1 in
      legal <- classic_positions m N (st b p) d ;;
      mfold (fun total next => sub <- perft m N next n w ;; prod <- u128 m (mult * sub) ;; u128 m (total + prod)) legal total) l t =
    mfold (fun total '(d, count) =>
      let mult := if w then Z.of_nat count else 1 in
      legal <- classic_positions m N p d ;;
      mfold (fun total next => sub <- perft m N next n w ;; prod <- u128 m (mult * sub) ;; u128 m (total + prod)) legal total) l t).
  { induction l as [|(d & c) l IHl]; intros t; [reflexivity|]. cbn [mfold]. cbv zeta. unfold classic_positions.
    pose proof (st_generate b m N p d) as E. unfold rrel in E. rewrite E.
    destruct (generate_legal_positions m N p d) as [ls|k]; [|reflexivity]. cbn [rmap bind].
    assert (Y : forall ls t, mfold (fun total next => sub <- perft m N next n w ;; prod <- u128 m ((if w then Z.of_nat c else 1) * sub) ;; u128 m (total + prod)) (map (st (negb b)) ls) t =
      mfold (fun total next => sub <- perft m N next n w ;; prod <- u128 m ((if w then Z.of_nat c else 1) * sub) ;; u128 m (total + prod)) ls t).
    { induction ls0 as [|q ls' IHs]; intros u; [reflexivity|]. cbn [map mfold]. rewrite IH.
      match goal with |- bind ?a _ = _ => destruct a; [|reflexivity] end. cbn [bind]. apply IHs. }
    rewrite Y. match goal with |- bind ?a _ = _ => destruct a; [|reflexivity] end. cbn [bind]. apply IHl. }
  apply X.
Qed.

(** The same picture, count of continuations and XGID board; the FIBS texts agree after "turn=x" or "turn=o". *)
Theorem C33_board_behaviour : forall p q, equal_positions p q -> forall m,
  show m p = show m q /\ xgid_encode_position m p = xgid_encode_position m q /\
  same_outcome (fun s t => skipn 6 s = skipn 6 t /\ (turn p = turn q -> s = t))
    (fibs_encode_position m p) (fibs_encode_position m q) /\
  forall N depth weighted, perft m N p depth weighted = perft m N q depth weighted.
Proof.
  intros p q H m. apply position_eqb_st in H. set (b := turn q) in H. clearbody b. subst q.
  split; [reflexivity|]. split; [reflexivity|]. split; [|intros; symmetry; apply perft_st].
  unfold fibs_encode_position. change (x_bar (st b p)) with (x_bar p). change (o_bar m (st b p)) with (o_bar m p).
  destruct (x_bar p) as [xb|]; [|reflexivity]. cbn [bind]. destruct (o_bar m p) as [ob|]; [|reflexivity]. cbn [bind].
  change (fun i => n <- pip (st b p) i ;; _) with (fun i => n <- pip p i ;;
      if 0 <? n then Ret (lit "x" ++ fmt_int n)
      else if n <? 0 then k <- i8 m (- n) ;; Ret (lit "o" ++ fmt_int k)
      else Ret (lit "-")).
  match goal with |- context [mmap ?f ?l] => destruct (mmap f l) end; [|reflexivity]. cbn [bind same_outcome turn st].
  split; [|intros ->; reflexivity]. destruct b, (turn p); reflexivity.
Qed.

Lemma st_mfilter m b p c l : rrel (map (st c))
  (mfilter (fun next => a <- o_bar m next ;; b <- o_bar m p ;; Ret (a <=? b)) l)
  (mfilter (fun next => a <- o_bar m next ;; b <- o_bar m (st b p) ;; Ret (a <=? b)) (map (st c) l)).
Proof.
  induction l as [|q l IH]; [reflexivity|]. cbn [map mfilter]. apply rb_eq. intros k.
  eapply rb_h; [exact IH|]. intros r. apply rr_ret. destruct k; reflexivity.
Qed.
Lemma vst_no_hit m b v d : rrel (map (vst (negb b))) (no_hit_rules m v d) (no_hit_rules m (vst b v) d).
Proof.
  assert (R : forall k N p, rrel (map (vst (negb b))) (map_variant_positions (no_hit_positions m N p d) (tag k))
     (map_variant_positions (no_hit_positions m N (st b p) d) (tag k))).
  { intros k N p. unfold map_variant_positions, no_hit_positions.
    eapply (rb_h (g := map (st (negb b)))).
    - eapply rb_h; [apply st_generate|]. intros l. apply st_mfilter.
    - intros l. apply rr_ret. rewrite !map_map. apply map_ext. intros q. symmetry. apply vst_tag. }
  destruct v; [apply (R Backgammon)|apply (R Nackgammon)|apply (R Longgammon)|apply (R Hypergammon)|
    apply (R Hypergammon2)|apply (R Hypergammon4)|apply (R Hypergammon5)].
Qed.
Lemma same_list b l : Forall2 (fun a b => vpos_eqb a b = true) l (map (vst b) l).
Proof. induction l; constructor; auto. apply vpos_eqb_vst. Qed.
Theorem C33_no_hit : forall v w, vpos_eqb v w = true -> forall m d,
  same_outcome (Forall2 (fun a b => vpos_eqb a b = true)) (no_hit_rules m v d) (no_hit_rules m w d).
Proof.
  intros v w H m d. destruct (vpos_eqb_is_vst _ _ H) as (b & ->).
  pose proof (vst_no_hit m b v d) as E. unfold rrel in E. rewrite E.
  destruct (no_hit_rules m v d); cbn; [apply same_list|reflexivity].
Qed.

(** A game continues the same way from an equal position: a policy and rules that do not tell equal positions apart (like
    both rule sets) give the same result after the same number of plies, with the same dice, in equal positions. *)
Definition same_game (g h : game) : Prop := g_variant g = g_variant h /\ vpos_eqb (g_position g) (g_position h) = true.
Definition same_choices {S} (P : policy S) : Prop := forall s v w d l l',
  vpos_eqb v w = true -> Forall2 (fun a b => vpos_eqb a b = true) l l' -> P s v d l = P s w d l'.
Definition same_rules (R : rules) : Prop := forall v w d, vpos_eqb v w = true ->
  same_outcome (Forall2 (fun a b => vpos_eqb a b = true)) (R v d) (R w d).
Lemma f2_nth_error {A B} (T : A -> B -> Prop) l l' : Forall2 T l l' -> forall i,
  match nth_error l i, nth_error l' i with Some a, Some b => T a b | None, None => True | _, _ => False end.
Proof. induction 1 as [|a b l l' H F IH]; intros [|i]; cbn; auto. apply IH. Qed.
Lemma f2_length {A B} (T : A -> B -> Prop) l l' : Forall2 T l l' -> length l = length l'.
Proof. induction 1; cbn; congruence. Qed.
Lemma eqb_variant v w : vpos_eqb v w = true -> vp_variant v = vp_variant w.
Proof. intros H. destruct (vpos_eqb_is_vst _ _ H) as (b & ->). destruct v; reflexivity. Qed.

Theorem C33_episode : forall G S m R (D : dice_gen G) (P : policy S), same_rules R -> same_choices P ->
  forall max_plies g h dg ps, same_game g h ->
  same_outcome (fun '(r, g1, dg1, ps1) '(r', h1, dg1', ps1') => r = r' /\ same_game g1 h1 /\ dg1 = dg1' /\ ps1 = ps1')
    (play_episode_with m R D P max_plies g dg ps) (play_episode_with m R D P max_plies h dg ps).
Proof.
  intros G S m R D P HR HP mx. unfold play_episode_with. generalize mx at 2 4 as todo. intros todo. generalize 0%nat as ply.
  induction todo as [|todo IH]; intros ply g h dg ps Hg; [cbn; auto|]. cbn [episode_loop].
  destruct (if (ply =? 0)%nat then gen_roll_mixed D dg else gen_roll D dg) as [(d & dg')|k]; [|reflexivity]. cbn [bind].
  unfold game_legal_positions_with. destruct Hg as (Hk & Hp).
  pose proof (HR _ _ d Hp) as X. pose proof (eqb_variant _ _ Hp) as Hv.
  destruct (R (g_position g) d) as [l|k], (R (g_position h) d) as [l'|k']; try contradiction; [|exact X].
  cbn [same_outcome bind] in *.
  destruct X as [|a b l l' Hab Hl]; [cbn; repeat split; auto|].
  assert (F : Forall2 (fun a b => vpos_eqb a b = true) (a :: l) (b :: l')) by (constructor; auto).
  rewrite (HP ps _ _ d _ _ Hp F). destruct (P ps (g_position h) d (b :: l')) as (i & ps').
  rewrite <- (f2_length _ _ _ F). destruct (length (a :: l) <=? i)%nat; [cbn; repeat split; auto|].
  unfold index. pose proof (f2_nth_error _ _ _ F i) as Y.
  destruct (nth_error (a :: l) i) as [v|], (nth_error (b :: l') i) as [w|]; try contradiction; [|reflexivity].
  cbn [bind g_position]. destruct (C33_variant_behaviour v w Y m) as (_ & -> & _).
  destruct (vp_game_state m w) as [[|r]|k]; cbn [bind]; [|cbn; repeat split; auto|reflexivity].
  apply IH. split; auto.
Qed.
Theorem C33_same_rules : forall m, same_rules (classic_rules m) /\ same_rules (no_hit_rules m).
Proof.
  intros m. split; intros v w d H.
  - destruct (C33_variant_behaviour v w H m) as (_ & _ & _ & X). apply X.
  - apply C33_no_hit, H.
Qed.
(** The two values of [C33_text_example] again: pictures, counts, and a game played from either. *)
Example C33_game_example :
  let v := BACKGAMMON in let v' := {| turn := false; pips := pips BACKGAMMON; x_off := 0; o_off := 0 |} in
  fibs_encode_position Debug v <> fibs_encode_position Debug v' /\
  (exists s, show Debug v' = Ret s /\ show Debug v = Ret s) /\
  same_choices (fun (s : unit) _ _ _ => (0%nat, s)) /\
  same_game (game_new Backgammon) {| g_variant := Backgammon; g_position := VBackgammon v' |}.
Proof.
  repeat split; try reflexivity.
  - vm_compute. discriminate.
  - eexists. split; [vm_compute; reflexivity|vm_compute; reflexivity].
Qed.
