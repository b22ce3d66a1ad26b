(** Property C79: every recorded game can be replayed with prepared dice.  Read with SpecReplay.v,
    SpecGame.v, SpecEpisode.v. *)
From Verif Require Import SpecReplay PropGame GameFacts VariantFacts EqFacts PropMoves PropDice BaseFacts PropIdentity.
Unset Implicit Arguments.
Open Scope Z_scope.

Lemma where_is_in : forall w l, In w l -> exists v, nth_error l (where_is w l) = Some v /\ vpos_eqb v w = true.
Proof.
  intros w l. induction l as [|v l IH]; intros I; [destruct I|]. cbn [where_is].
  destruct (vpos_eqb v w) eqn:E.
  - exists v. auto.
  - destruct I as [->|I]; [|apply IH; exact I].
    assert (vpos_eqb w w = true) by (destruct w; cbn; apply C33_equivalence). congruence.
Qed.
Lemma equal_same_turn : forall v w, vpos_eqb v w = true -> vp_turn v = vp_turn w -> v = w.
Proof.
  intros v w E T. rewrite (tag_surj v) in *. apply vpos_eqb_tag in E. destruct E as (q & -> & E).
  rewrite !vp_turn_tag in T. f_equal. apply position_eqb_iff in E. destruct E as (A & B & C).
  destruct (board_of v), q; cbn in *. subst. reflexivity.
Qed.
Definition mk (l : list dice) (n : nat) : mock := {| mock_dice := l; no_calls := n |}.
Lemma mock_next : forall pre d rest, mock_roll (mk (pre ++ d :: rest) (length pre)) = Ret (d, mk (pre ++ d :: rest) (S (length pre))).
Proof.
  intros. unfold mock_roll, index. cbn [mock_dice no_calls mk].
  rewrite nth_error_app2 by lia. rewrite Nat.sub_diag. reflexivity.
Qed.
Lemma mock_end : forall l, mock_roll (mk l (length l)) = Panic IndexOOB.
Proof.
  intros. unfold mock_roll, index. cbn [mock_dice no_calls mk].
  rewrite (proj2 (nth_error_None l (length l))) by lia. reflexivity.
Qed.
Lemma draw_next : forall pre d rest, (pre = [] -> is_mixed d = true) ->
  (if (length pre =? 0)%nat then gen_roll_mixed mock_gen (mk (pre ++ d :: rest) (length pre))
   else gen_roll mock_gen (mk (pre ++ d :: rest) (length pre)))
  = Ret (d, mk (pre ++ d :: rest) (S (length pre))).
Proof.
  intros pre d rest M. destruct pre as [|a pre].
  - cbn [length Nat.eqb app mock_gen gen_roll_mixed mock_dice mk roll_mixed_loop].
    change (mk (d :: rest) 0) with (mk ([] ++ d :: rest) (length (@nil dice))). rewrite mock_next. cbn [bind].
    destruct d; [reflexivity|discriminate (M eq_refl)].
  - cbn [length Nat.eqb]. cbn [mock_gen gen_roll]. apply (mock_next (a :: pre)).
Qed.
Lemma draw_end : forall l, (if (length l =? 0)%nat then gen_roll_mixed mock_gen (mk l (length l))
   else gen_roll mock_gen (mk l (length l))) = Panic IndexOOB.
Proof.
  intros [|a l]; cbn [length Nat.eqb mock_gen gen_roll gen_roll_mixed].
  - reflexivity.
  - apply (mock_end (a :: l)).
Qed.

Lemma next_skip : forall skip d rest, Forall (fun a => is_mixed a = false) skip -> is_mixed d = true ->
  next_mixed (skip ++ d :: rest) = Some (d, rest).
Proof.
  induction 1 as [|a skip A F IH]; intros M; cbn [app next_mixed]; [rewrite M; reflexivity|].
  rewrite A. apply IH, M.
Qed.
(** The opening roll skips doubles. *)
Lemma draw_skip : forall skip d rest, Forall (fun a => is_mixed a = false) skip -> is_mixed d = true ->
  gen_roll_mixed mock_gen (mk (skip ++ d :: rest) 0)
  = Ret (d, mk (skip ++ d :: rest) (S (length skip))).
Proof.
  intros skip d rest F M. cbn [mock_gen gen_roll_mixed mock_dice mk].
  rewrite roll_mixed_spec by lia. cbn [skipn]. rewrite (next_skip skip d rest F M). rewrite bind_ret.
  rewrite app_length. cbn [length]. replace (length skip + S (length rest) - length rest)%nat with (S (length skip)) by lia.
  reflexivity.
Qed.
Lemma draw_later : forall n pre d rest, n <> 0%nat ->
  (if (n =? 0)%nat then gen_roll_mixed mock_gen (mk (pre ++ d :: rest) (length pre))
   else gen_roll mock_gen (mk (pre ++ d :: rest) (length pre)))
  = Ret (d, mk (pre ++ d :: rest) (S (length pre))).
Proof.
  intros n pre d rest N. destruct (Nat.eqb_spec n 0); [contradiction|]. cbn [mock_gen gen_roll]. apply mock_next.
Qed.

Section Replay.
  Variables (m : mode) (k : variant).
  (** One iteration of the loop. *)
  Lemma replay_step : forall v d w ws max todo n dg dg', vwf k v -> vongoing v -> valid_dice d -> vlegal d v w ->
    (if (n =? 0)%nat then gen_roll_mixed mock_gen dg else gen_roll mock_gen dg) = Ret (d, dg') ->
    episode_loop m (classic_rules m) mock_gen replaying max (S todo) n
      {| g_variant := k; g_position := v |} dg (w :: ws) =
    (let g := {| g_variant := k; g_position := w |} in
     gs <- vp_game_state m w ;;
     match gs with
     | GameOver _ => Ret (GOk (n + 1)%nat, g, dg', ws)
     | Ongoing => episode_loop m (classic_rules m) mock_gen replaying max todo (n + 1) g dg' ws
     end).
  Proof.
    intros v d w ws max todo n dg dg' W O V L M. cbn [episode_loop]. rewrite M, bind_ret.
    destruct (legal_positions_correct m d W O V) as (l & E & Hn & H).
    unfold game_legal_positions_with. cbn [g_position].
    change (classic_rules m v d) with (legal_positions m v d). rewrite E, bind_ret. destruct l as [|w0 l0]; [contradiction|]. set (l := w0 :: l0) in *.
    cbn [replaying]. destruct (where_is_in w l (proj2 (H w) L)) as (w' & N & Q).
    assert (w' = w); [|subst w'].
    { apply equal_same_turn; auto.
      pose proof (@C03_conservation m k v d l w' W O V E (nth_error_In _ _ N)) as (_ & T & _).
      pose proof (@C03_conservation m k v d l w W O V E (proj2 (H w) L)) as (_ & T' & _). congruence. }
    assert (B : (where_is w l < length l)%nat) by (apply nth_error_Some; congruence).
    destruct (Nat.leb_spec (length l) (where_is w l)) as [X|_]; [lia|].
    unfold index. rewrite N, bind_ret. reflexivity.
  Qed.
  Lemma state_of : forall v d w, vwf k v -> vongoing v -> valid_dice d -> vlegal d v w -> exists s,
    vp_game_state m w = Ret s /\ (s = Ongoing <-> vongoing w).
  Proof.
    intros v d w W O V L. pose proof (vlegal_vwf W V L) as (q & Eq & Wq).
    destruct W as (p & -> & Wp). rewrite vongoing_tag in O.
    pose proof (legal_not_both k Wp O V L) as NB. rewrite Eq, board_of_tag in NB.
    destruct (game_state_outcome m Wq (or_introl NB)) as (s & Es & Os).
    exists s. rewrite Eq, vp_game_state_tag, vongoing_tag. split; auto.
    split; [intros ->; inversion Os; split; auto|]. intros (A & B). inversion Os; auto; lia.
  Qed.

  (** From the second play on. *)
  Lemma replay_loop max : forall l n pre v u todo, n <> 0%nat -> vwf k v -> recorded v l u ->
    (todo + n = max)%nat ->
    todo = length l \/ (l <> [] /\ (length l <= todo)%nat /\ ~ vongoing u) ->
    episode_loop m (classic_rules m) mock_gen replaying max todo n {| g_variant := k; g_position := v |}
      (mk (pre ++ map fst l) (length pre)) (map snd l) =
    Ret (GOk (n + length l)%nat, {| g_variant := k; g_position := u |},
         mk (pre ++ map fst l) (length pre + length l), []).
  Proof.
    induction l as [|(d & w) l IH]; intros n pre v u todo N0 W R T C.
    - inversion R; subst. destruct C as [->|(C & _)]; [|congruence]. cbn [length map episode_loop].
      rewrite !Nat.add_0_r. reflexivity.
    - inversion R as [|? ? ? ? ? O V L R']; subst. destruct todo as [|todo]; [destruct C as [C|(_ & C & _)]; cbn in C; lia|].
      cbn [map fst snd]. rewrite (replay_step v d w _ _ _ _ _ _ W O V L (draw_later n pre d (map fst l) N0)). cbv zeta.
      destruct (state_of v d w W O V L) as (s & -> & Hs). rewrite bind_ret.
      replace (S (length pre)) with (length (pre ++ [d])) by (rewrite app_length; cbn; lia).
      replace (pre ++ d :: map fst l) with ((pre ++ [d]) ++ map fst l) by (rewrite <- app_assoc; reflexivity).
      destruct s as [|r].
      + assert (Ow : vongoing w) by (apply Hs; auto).
        rewrite (IH (n + 1)%nat (pre ++ [d]) w u todo).
        * rewrite app_length. cbn [length].
          replace (length pre + 1 + length l)%nat with (length pre + S (length l))%nat by lia.
          replace (n + 1 + length l)%nat with (n + S (length l))%nat by lia. reflexivity.
        * lia.
        * exact (vlegal_vwf W V L).
        * exact R'.
        * lia.
        * destruct C as [C|(_ & C & D)]; [left; cbn in C; lia|]. right. split; [|split; [cbn in C; lia|auto]].
          intros ->. inversion R'; subst. contradiction.
      + assert (N : ~ vongoing w) by (intros X; apply Hs in X; discriminate).
        destruct l as [|(d2 & w2) l]; [|inversion R'; subst; contradiction].
        inversion R'; subst. cbn [length map]. rewrite app_length, app_nil_r. reflexivity.
  Qed.
  (** The whole record, with doubles before its first roll. *)
  Lemma replay_all : forall max skip l v u, Forall (fun a => is_mixed a = false) skip ->
    l <> [] -> opens_mixed l -> vwf k v -> recorded v l u ->
    max = length l \/ (length l <= max)%nat /\ ~ vongoing u ->
    episode_loop m (classic_rules m) mock_gen replaying max max 0 {| g_variant := k; g_position := v |}
      (mk (skip ++ map fst l) 0) (map snd l) =
    Ret (GOk (length l), {| g_variant := k; g_position := u |},
         mk (skip ++ map fst l) (length skip + length l), []).
  Proof.
    intros max skip l v u F NE M W R C. destruct l as [|(d & w) l]; [congruence|]. cbn [opens_mixed] in M.
    inversion R as [|? ? ? ? ? O V L R']; subst.
    assert (T : max <> 0%nat) by (destruct C as [->|(C & _)]; cbn in *; lia).
    destruct max as [|todo]; [congruence|].
    cbn [map fst snd]. rewrite (replay_step v d w _ _ _ 0%nat (mk (skip ++ d :: map fst l) 0) _ W O V L (draw_skip skip d (map fst l) F M)). cbv zeta.
    destruct (state_of v d w W O V L) as (s & -> & Hs). rewrite bind_ret.
    replace (S (length skip)) with (length (skip ++ [d])) by (rewrite app_length; cbn; lia).
    replace (skip ++ d :: map fst l) with ((skip ++ [d]) ++ map fst l) by (rewrite <- app_assoc; reflexivity).
    destruct s as [|r].
    - assert (Ow : vongoing w) by (apply Hs; auto).
      rewrite (replay_loop (S todo) l (0 + 1) (skip ++ [d]) w u todo).
      + rewrite app_length. cbn [length].
        replace (length skip + 1 + length l)%nat with (length skip + S (length l))%nat by lia. reflexivity.
      + lia.
      + exact (vlegal_vwf W V L).
      + exact R'.
      + lia.
      + destruct C as [C|(C & D)]; [left; cbn in C; lia|]. right. split; [|split; [cbn in C; lia|auto]].
        intros ->. inversion R'; subst. contradiction.
    - assert (N : ~ vongoing w) by (intros X; apply Hs in X; discriminate).
      destruct l as [|(d2 & w2) l]; [|inversion R'; subst; contradiction].
      inversion R'; subst. cbn [length map]. rewrite app_length, app_nil_r. reflexivity.
  Qed.
  Lemma replay_runs_out max : forall l n pre v u todo, n <> 0%nat -> vwf k v -> recorded v l u ->
    (length l < todo)%nat -> vongoing u ->
    episode_loop m (classic_rules m) mock_gen replaying max todo n {| g_variant := k; g_position := v |}
      (mk (pre ++ map fst l) (length pre)) (map snd l) = Panic IndexOOB.
  Proof.
    induction l as [|(d & w) l IH]; intros n pre v u todo N0 W R T Ou.
    - destruct todo as [|todo]; [cbn in T; lia|]. cbn [map episode_loop]. rewrite app_nil_r.
      destruct (Nat.eqb_spec n 0); [contradiction|]. cbn [mock_gen gen_roll]. rewrite mock_end. reflexivity.
    - inversion R as [|? ? ? ? ? O V L R']; subst. destruct todo as [|todo]; [cbn in T; lia|].
      cbn [map fst snd]. rewrite (replay_step v d w _ _ _ _ _ _ W O V L (draw_later n pre d (map fst l) N0)). cbv zeta.
      destruct (state_of v d w W O V L) as (s & -> & Hs). rewrite bind_ret.
      replace (S (length pre)) with (length (pre ++ [d])) by (rewrite app_length; cbn; lia).
      replace (pre ++ d :: map fst l) with ((pre ++ [d]) ++ map fst l) by (rewrite <- app_assoc; reflexivity).
      assert (Ow : vongoing w) by (inversion R'; subst; auto).
      assert (s = Ongoing) by (apply Hs; auto). subst s.
      apply (IH (n + 1)%nat (pre ++ [d]) w u todo).
      + lia.
      + exact (vlegal_vwf W V L).
      + exact R'.
      + cbn in T; lia.
      + auto.
  Qed.
  Lemma replay_all_out : forall max skip l v u, Forall (fun a => is_mixed a = false) skip ->
    opens_mixed l -> vwf k v -> recorded v l u -> (length l < max)%nat -> vongoing u ->
    episode_loop m (classic_rules m) mock_gen replaying max max 0 {| g_variant := k; g_position := v |}
      (mk (skip ++ map fst l) 0) (map snd l) = Panic IndexOOB.
  Proof.
    intros max skip l v u F M W R T Ou. destruct max as [|todo]; [lia|]. destruct l as [|(d & w) l].
    - cbn [map episode_loop Nat.eqb]. rewrite app_nil_r. cbn [mock_gen gen_roll_mixed mock_dice mk].
      rewrite roll_mixed_spec by lia. cbn [skipn].
      assert (next_mixed skip = None) as ->; [|reflexivity].
      clear - F. induction F as [|a l A F IH]; cbn [next_mixed]; [reflexivity|rewrite A; exact IH].
    - cbn [opens_mixed] in M. inversion R as [|? ? ? ? ? O V L R']; subst.
      cbn [map fst snd]. rewrite (replay_step v d w _ _ _ 0%nat (mk (skip ++ d :: map fst l) 0) _ W O V L (draw_skip skip d (map fst l) F M)). cbv zeta.
      destruct (state_of v d w W O V L) as (s & -> & Hs). rewrite bind_ret.
      replace (S (length skip)) with (length (skip ++ [d])) by (rewrite app_length; cbn; lia).
      replace (skip ++ d :: map fst l) with ((skip ++ [d]) ++ map fst l) by (rewrite <- app_assoc; reflexivity).
      assert (Ow : vongoing w) by (inversion R'; subst; auto).
      assert (s = Ongoing) by (apply Hs; auto). subst s.
      apply (replay_runs_out (S todo) l (0 + 1) (skip ++ [d]) w u todo).
      + lia.
      + exact (vlegal_vwf W V L).
      + exact R'.
      + cbn in T; lia.
      + auto.
  Qed.
End Replay.

(** ** C79 *)

(** Any record of a game that opens with a roll that is not a double: playing it back with the recorded
    dice and the policy that looks for the recorded positions makes exactly the recorded plays, ends in
    the recorded position, and uses up the dice (so [assert_all_dice_were_used] passes) - if as many
    plies are asked for, or if more are asked for and the recorded game is over. *)
Theorem C79_replay : forall m k v l u max, vwf k v -> recorded v l u -> opens_mixed l ->
  max = length l \/ (l <> [] /\ (length l <= max)%nat /\ ~ vongoing u) ->
  exists dg, play_episode m mock_gen replaying max {| g_variant := k; g_position := v |}
               (mock_new (map fst l)) (map snd l)
             = Ret (GOk (length l), {| g_variant := k; g_position := u |}, dg, []) /\
  mock_assert_all_used dg = Ret tt.
Proof.
  intros m k v l u max W R M C.
  exists (mk (map fst l) (length l)). split.
  - destruct l as [|x l].
    + inversion R; subst. destruct C as [->|(C & _)]; [reflexivity|congruence].
    + apply (replay_all m k max [] (x :: l) v u); auto; [discriminate|].
      destruct C as [C|(_ & C)]; auto.
  - unfold mock_assert_all_used. cbn [mk mock_dice no_calls]. rewrite map_length, Nat.eqb_refl. reflexivity.
Qed.

(** Doubles prepared before the opening roll are skipped - and count as used. *)
Theorem C79_opening_doubles : forall m k v l u max skip, vwf k v -> recorded v l u -> opens_mixed l -> l <> [] ->
  (forall d, In d skip -> exists a, d = Double a) ->
  max = length l \/ (length l <= max)%nat /\ ~ vongoing u ->
  exists dg, play_episode m mock_gen replaying max {| g_variant := k; g_position := v |}
               (mock_new (skip ++ map fst l)) (map snd l)
             = Ret (GOk (length l), {| g_variant := k; g_position := u |}, dg, []) /\
  mock_assert_all_used dg = Ret tt.
Proof.
  intros m k v l u max skip W R M NE S C.
  exists (mk (skip ++ map fst l) (length skip + length l)). split.
  - apply (replay_all m k max skip l v u); auto.
    apply Forall_forall. intros d I. destruct (S d I) as (a & ->). reflexivity.
  - unfold mock_assert_all_used. cbn [mk mock_dice no_calls]. rewrite app_length, map_length, Nat.eqb_refl. reflexivity.
Qed.

(** Asking for more plies of a game that is not over panics: the prepared dice run out. *)
Theorem C79_runs_out : forall m k v l u max skip, vwf k v -> recorded v l u -> opens_mixed l ->
  (forall d, In d skip -> exists a, d = Double a) ->
  (length l < max)%nat -> vongoing u ->
  play_episode m mock_gen replaying max {| g_variant := k; g_position := v |}
    (mock_new (skip ++ map fst l)) (map snd l) = Panic IndexOOB.
Proof.
  intros m k v l u max skip W R M S. apply (replay_all_out m k max skip l v u); auto.
  apply Forall_forall. intros d I. destruct (S d I) as (a & ->). reflexivity.
Qed.

(** Whatever is played, with whatever dice source and policy, has such a record: every episode that
    succeeds can be replayed, in any build. *)
Lemma plies_recorded : forall {G S} m (D : dice_gen G) (P : policy S) k, fair_gen D ->
  forall ply s n s', plies (classic_rules m) D P ply s n s' -> vwf k (fst (fst s)) ->
  exists l, recorded (fst (fst s)) l (fst (fst s')) /\ length l = n /\ (ply = 0%nat -> opens_mixed l).
Proof.
  intros G S m D P k (F1 & F2).
  induction 1 as [|ply v dg ps d dg1 l i ps1 w n s' O ED EL EP EN H IH]; intros W; cbn [fst] in *.
  - exists []. split; [constructor|]. split; [reflexivity|intros; exact Logic.I].
  - assert (V : valid_dice d /\ (ply = 0%nat -> is_mixed d = true)).
    { destruct (ply =? 0)%nat eqn:Z.
      - destruct (F2 dg) as (d0 & g0 & E0 & V & b & s & ->). rewrite ED in E0. inversion E0; subst. auto.
      - destruct (F1 dg) as (d0 & g0 & E0 & V). rewrite ED in E0. inversion E0; subst. split; auto.
        intros ->. discriminate. }
    destruct V as (V & M). destruct (@C01_legal_positions_exact m k v d W O V) as (l' & EL' & HL).
    change (classic_rules m v d) with (legal_positions m v d) in EL. rewrite EL in EL'. inversion EL'; subst l'.
    pose proof (proj1 (HL w) (nth_error_In _ _ EN)) as LW.
    destruct (IH (vlegal_vwf W V LW)) as (r & R & <- & _).
    exists ((d, w) :: r). split; [econstructor; eauto|]. split; [reflexivity|]. intros Z. exact (M Z).
Qed.
Theorem C79_every_episode : forall {G S} m m' (D : dice_gen G) (P : policy S) max g dg ps n g' dg' ps',
  vwf (g_variant g) (g_position g) -> vongoing (g_position g) -> fair_gen D ->
  play_episode m D P max g dg ps = Ret (GOk n, g', dg', ps') ->
  exists l dg2, recorded (g_position g) l (g_position g') /\ length l = n /\ opens_mixed l /\
    play_episode m' mock_gen replaying n g (mock_new (map fst l)) (map snd l) = Ret (GOk n, g', dg2, []) /\
    mock_assert_all_used dg2 = Ret tt.
Proof.
  intros G S m m' D P max g dg ps n g' dg' ps' W O F E.
  destruct (@C25_episode G S m D P max g dg ps W O F) as (r & g1 & dg1 & ps1 & E1 & K & H).
  rewrite E in E1. inversion E1; subst r g1 dg1 ps1. destruct H as (_ & Pl & _ & _).
  destruct (plies_recorded m D P (g_variant g) F _ _ _ _ Pl W) as (l & R & <- & M). cbn [fst] in R.
  specialize (M eq_refl).
  destruct (C79_replay m' (g_variant g) (g_position g) l (g_position g') (length l) W R M (or_introl eq_refl)) as (dg2 & E2 & A).
  exists l, dg2. split; auto. split; auto. split; auto. split; auto.
  destruct g as [gv gp], g' as [gv' gp']. cbn [g_variant g_position] in *. subst gv'. exact E2.
Qed.

(** A case: the finished three-ply game of C25_case has such a record. *)
Example C79_ex : exists l u, recorded (VHypergammon ex_bearoff) l u /\ length l = 3%nat /\ opens_mixed l /\ ~ vongoing u /\
  vwf Hypergammon (VHypergammon ex_bearoff).
Proof.
  destruct C25_case as (_ & (W & O & g & E & X & Y) & _).
  destruct (C79_every_episode Debug Debug const_gen first_policy 100
    {| g_variant := Hypergammon; g_position := VHypergammon ex_bearoff |} tt tt 3 g tt tt W O const_gen_fair E)
    as (l & dg2 & R & L & M & _).
  exists l, (g_position g). split; auto. split; auto. split; auto. split; [|exact W].
  intros (k & p & Ep & Op).
  destruct (@C25_episode unit unit Debug const_gen first_policy 100 {| g_variant := Hypergammon; g_position := VHypergammon ex_bearoff |} tt tt W O const_gen_fair) as (r & g1 & dg1 & ps1 & E1 & K & H).
  rewrite E in E1. inversion E1; subst. destruct H as (_ & _ & _ & H). apply H; [lia|]. exists k, p. auto.
Qed.
