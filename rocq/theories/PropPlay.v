(** Property C73: games refereed over UBGI.  Read with SpecPlay.v. *)
From Coq Require Import Strings.String.
From Verif Require Import SpecPlay SpecGnuid EngineDefaults BaseFacts StrFacts EqFacts VariantFacts MoveTextFacts FibsFacts FlipFacts MoveFacts EncodeFacts LeafFacts
  TextFacts UbgiFacts GameStateFacts PropIdentity PropGnuid PropMoveText PropApply PropUbgi PropReplies PropDice PropTexts PropMoves.
Unset Implicit Arguments.
Open Scope Z_scope.

(** The turn flag is irrelevant for plays. *)
Lemma may_st b p d a : may_move p d a <-> may_move (st b p) d a.
Proof. reflexivity. Qed.
Lemma moved_st b p d a q : moved p d a q -> moved (st b p) d a (st b q).
Proof. intros []. constructor; auto. Qed.
Lemma plays_as_st b ds s p r : plays_as ds s p r -> plays_as ds s (st b p) (st b r).
Proof.
  induction 1 as [|d ds from s p q r M Mv P IH]; [constructor|].
  eapply plays_as_cons; [exact M|exact (moved_st b _ _ _ _ Mv)|exact IH].
Qed.
Lemma plays_st b ds p r : plays ds p r -> plays ds (st b p) (st b r).
Proof.
  induction 1 as [|d ds p from q r M Mv P IH]; [constructor|].
  eapply plays_cons; [exact M|exact (moved_st b _ _ _ _ Mv)|exact IH].
Qed.
Lemma st_st b c p : st b (st c p) = st b p.
Proof. reflexivity. Qed.
Lemma st_self p : st (turn p) p = p.
Proof. destruct p; reflexivity. Qed.
Lemma legal_result_st b d p r : legal_result d p r -> legal_result d (st b p) (st b r).
Proof.
  intros (ds & U & P & Mx & One). exists ds. split; [auto|]. split; [apply plays_st, P|].
  assert (Back : forall ds' r', plays ds' (st b p) r' -> plays ds' p (st (turn p) r')).
  { intros ds' r' P'. apply (plays_st (turn p)) in P'. rewrite st_st, st_self in P'. exact P'. }
  split.
  - intros ds' r' U' P'. exact (Mx _ _ U' (Back _ _ P')).
  - intros a Ea b' r' U' P'. exact (One a Ea b' _ U' (Back _ _ P')).
Qed.
Lemma plays_roll_st b d p steps : plays_roll d p steps -> plays_roll d (st b p) steps.
Proof.
  intros (ds & rest & r & Pm & P & No & L). exists ds, rest, (st b r). split; [auto|].
  split; [apply plays_as_st, P|]. split; [exact No|]. apply legal_result_st, L.
Qed.

Lemma plays_as_on_board ds s p r : Forall valid_die ds -> plays_as ds s p r -> Forall on_board s.
Proof.
  intros V P. revert V. induction P as [|d ds from s p q r M Mv P IH]; intros V; constructor; inversion V; subst; auto.
  destruct M as (R & _). unfold on_board, step, valid_die in *. cbn [ms_from ms_to]. lia.
Qed.

(** The lines are what they should be. *)
Lemma position_text_line id : id_shape id -> gnubgid_line (position_text id) id.
Proof.
  intros (L & F & _). apply gnubgid_line_iff. unfold cmd_of, position_text.
  assert (NW : no_ws id).
  { eapply Forall_impl; [|exact F]. intros c C. unfold base64_char in C. unfold is_ws.
    repeat match goal with |- context [?a =? ?b] => destruct (Z.eqb_spec a b); try lia end;
    repeat match goal with |- context [?a <=? ?b] => destruct (Z.leb_spec a b); try lia end; reflexivity. }
  assert (Ne : id <> []) by (intros ->; discriminate L).
  assert (T : trim (lit "position gnubgid " ++ id) = lit "position gnubgid " ++ id).
  { apply trim_id. split.
    - exists (chr "p"), (lit "osition gnubgid " ++ id). split; reflexivity.
    - destruct (no_ws_trimmed Ne NW) as (_ & (c & t & E & W)). exists c, (lit "position gnubgid " ++ t).
      split; [|exact W]. rewrite E at 1. apply app_assoc. }
  rewrite T, parse_gnubgid, (trim_no_ws NW). reflexivity.
Qed.
Lemma roll_text_line a b : valid_die a -> valid_die b ->
  exists r, cmd_of (roll_text a b) = CDice r /\ two_dice r a b.
Proof.
  intros A B. exists [48 + Z.of_nat a; 32; 48 + Z.of_nat b]. apply valid_die_in in A, B. cbn [In seq] in A, B.
  repeat (destruct A as [<-|A]; [|]); try contradiction;
  repeat (destruct B as [<-|B]; [|]); try contradiction;
  (split; [vm_compute; reflexivity|]; eexists; eexists; split; [apply words_iff; vm_compute; reflexivity|];
   split; [apply parse_uint_some; vm_compute; reflexivity|]; split; [apply parse_uint_some; vm_compute; reflexivity|lia]).
Qed.

(** A turn, computed. *)
Lemma turn_computes {E} m mr (A : engine E) k e s v a b : plays_legally A k ->
  s_variant s = k -> g_variant (s_game s) = k -> vwf k v -> vongoing v -> valid_die a -> valid_die b ->
  exists id s1 s2 d e' steps w,
    gnuid_encode mr v = Ret id /\
    session_step m A e s (position_text id) = Ret (e, s1, [], false) /\
    session_step m A e s1 (roll_text a b) = Ret (e, s2, [], false) /\
    session_step m A e s2 question = Ret (e', s2, [lit "bestmove " ++ format_move_steps steps], false) /\
    dice_new mr a b = Ret d /\ valid_dice d /\ apply_move mr v d (format_move_steps steps) = Ret (Some w) /\ vlegal d v w /\
    s_variant s2 = k /\ g_variant (s_game s2) = k.
Proof.
  intros H Sk Gk Wv Ov Va Vb. destruct (C09_round_trip Wv) as (id & Enc & Sh & _ & Dec).
  destruct (Dec m) as (v' & D & Wv' & Eq & T). clear Dec.
  assert (Ev : exists p, v = tag k p /\ wf (checkers k) p /\ v' = tag k (st true p)).
  { destruct Wv as (p & -> & Wp). exists p. split; auto. split; auto. destruct Wv' as (p' & -> & _). rewrite !board_of_tag in *.
    apply position_eqb_st in Eq. rewrite T in Eq. congruence. }
  destruct Ev as (p & -> & Wp & ->). rewrite board_of_tag in *.
  assert (Ov' : vongoing (tag k (st true p))) by (rewrite vongoing_tag in Ov |- *; exact Ov).
  destruct (dice_new_shows mr Va Vb) as (d & Dn & Sh' & Vd).
  destruct (H e (tag k (st true p)) d Wv' Ov' Vd) as (e' & steps & Ch & PR). rewrite board_of_tag in PR.
  apply (plays_roll_st (turn p)) in PR. rewrite st_st, st_self in PR. destruct PR as (ds & rest & r & Pm & PA & No & LR).
  set (g := {| g_variant := k; g_position := tag k (st true p) |}).
  pose proof (position_text_line _ Sh) as GL. apply gnubgid_line_iff in GL.
  destruct (roll_text_line _ _ Va Vb) as (rr & DL & TD).
  exists id, (with_game s k g (s_dice s)), (with_game s k g (Some d)), d, e', steps, (tag k (flipP r)).
  split; [apply Enc|]. split.
  { rewrite step_cmd by (apply cmd_nonblank; rewrite GL; discriminate). rewrite GL. cbn [handle_command]. rewrite Sk.
    assert (trim id = id) as -> by (apply gnubgid_line_iff in GL; destruct GL as (raw & _ & X); apply stripped_iff in X; rewrite X; apply trim_trim).
    rewrite D. cbn [bind]. unfold set_position. rewrite Gk, vp_variant_tag.
    assert (variant_eqb k k = true) as -> by (destruct k; reflexivity). reflexivity. }
  split.
  { rewrite step_cmd by (apply cmd_nonblank; rewrite DL; discriminate). rewrite DL. cbn [handle_command].
    destruct (handle_dice_iff m (with_game s k g (s_dice s)) rr) as [(a' & b' & d' & T' & S' & _ & Hd)|(N & _)]; [|destruct (N _ _ TD)].
    destruct (two_dice_fun TD T') as (<- & <-). rewrite (shows_fun _ _ _ _ Sh' S'). rewrite Hd. reflexivity. }
  split.
  { assert (GO : cmd_of question = CGoChequer) by (vm_compute; reflexivity).
    rewrite step_cmd by (apply cmd_nonblank; rewrite GO; discriminate). rewrite GO. cbn [handle_command]. unfold handle_go.
    cbn [with_game s_dice s_game]. unfold g. rewrite Ch. reflexivity. }
  pose proof (legal_result_wf Wp Vd LR) as Wr.
  split; [auto|]. split; [auto|]. split; [|split; [|split; reflexivity]].
  - assert (U : uses d ds) by (exists rest; exact Pm). pose proof (uses_valid Vd U) as Vds.
    pose proof (plays_as_on_board _ _ _ _ Vds PA) as OB. apply (C63_accepts_exactly mr d _ _ Wv Vd).
    rewrite board_of_tag. exists steps, ds, rest, r, (flipP r). split; [apply format_move_text, OB|].
    split; [auto|]. split; [auto|]. split; [auto|]. split; [apply flipP_mirrored, Wr|reflexivity].
  - exists k, p, (flipP r), r. split; auto. split; auto. split; auto. apply flipP_mirrored, Wr.
Qed.

(** ** C73 *)

Definition in_variant (k : variant) (s : session) : Prop := s_variant s = k /\ g_variant (s_game s) = k.
Lemma reached_in_variant {E} m (A : engine E) e0 h e s k : reaches m A e0 h e s -> variant_after h k -> in_variant k s.
Proof.
  intros R V. destruct (reaches_invariant R) as [_ _ IV IG _ _ _ _ _].
  destruct (C38_unique m h) as (U & _). assert (s_variant s = k) by (apply U; auto). split; congruence.
Qed.
Lemma turn_exists {E} m mr (A : engine E) k e s v a b : plays_legally A k -> in_variant k s ->
  vwf k v -> vongoing v -> valid_die a -> valid_die b ->
  exists s' w d, one_turn m mr A (e, s) v a b s' w /\ in_variant k (snd s') /\ dice_new mr a b = Ret d /\ valid_dice d /\ vlegal d v w /\
    forall s'' w', one_turn m mr A (e, s) v a b s'' w' -> s'' = s' /\ w' = w.
Proof.
  intros H (Sk & Gk) Wv Ov Va Vb.
  destruct (turn_computes m mr A k e s v a b H Sk Gk Wv Ov Va Vb) as (id & s1 & s2 & d & e' & steps & w & E1 & E2 & E3 & E4 & E5 & Vd & E6 & L & S2 & G2).
  exists (e', s2), w, d. split; [|split; [split; auto|split; [auto|split; [auto|split; [auto|]]]]].
  - exists id, (e, s1), (e, s2), (format_move_steps steps), d. cbn [fst snd]. auto 8.
  - intros s'' w' (id' & t1 & t2 & t & d' & F1 & F2 & F3 & F4 & F5 & F6). cbn [fst snd] in *.
    assert (id' = id) as -> by congruence.
    assert (t1 = (e, s1)) as -> by congruence. cbn [fst snd] in *.
    assert (t2 = (e, s2)) as -> by congruence. cbn [fst snd] in *.
    assert (d' = d) as -> by congruence.
    rewrite E4 in F4. injection F4 as <- Ft.
    assert (t = format_move_steps steps) as -> by (apply (app_inv_head (lit "bestmove ")); congruence).
    split; [reflexivity|congruence].
Qed.

(** One turn: in any session set to the variant, whatever happened in it before, the engine's session
    accepts position and dice silently, answers with one move, the referee's library accepts that move,
    and the position it leads to is one of the legal ones.  There is only one way this can go. *)
Theorem C73_turn : forall E m mr (A : engine E) e0 h e s k v a b, plays_legally A k ->
  reaches m A e0 h e s -> variant_after h k -> vwf k v -> vongoing v -> valid_die a -> valid_die b ->
  exists s' w d, one_turn m mr A (e, s) v a b s' w /\ dice_new mr a b = Ret d /\ valid_dice d /\ vlegal d v w /\
    forall s'' w', one_turn m mr A (e, s) v a b s'' w' -> s'' = s' /\ w' = w.
Proof.
  intros E m mr A e0 h e s k v a b H R V Wv Ov Va Vb.
  destruct (turn_exists m mr A k e s v a b H (reached_in_variant _ _ _ _ _ _ _ R V) Wv Ov Va Vb) as (s' & w & d & T & _ & X). eauto 6.
Qed.

(** A whole game: with any list of rolls the referee and the session get to the end (the rolls run out,
    or somebody has borne off everything); the moves played are legal ones, one for each roll used, and
    the result is unique. *)
Theorem C73_game : forall E m mr (A : engine E) e0 h e s k v rolls, plays_legally A k ->
  reaches m A e0 h e s -> variant_after h k -> vwf k v -> Forall (fun r => valid_die (fst r) /\ valid_die (snd r)) rolls ->
  exists s' w n, refereed m mr A (e, s) v rolls s' w /\ played n v w /\ vwf k w /\
    (n <= List.length rolls)%nat /\ (n = List.length rolls \/ ~ vongoing w) /\
    forall s'' w', refereed m mr A (e, s) v rolls s'' w' -> s'' = s' /\ w' = w.
Proof.
  intros E m mr A e0 h e s k v rolls H R V Wv F. pose proof (reached_in_variant _ _ _ _ _ _ _ R V) as I. clear R V h e0.
  revert e s v Wv I. induction F as [|(a, b) rolls (Va & Vb) F IH]; intros e s v Wv I.
  - exists (e, s), v, 0%nat. split; [constructor|]. split; [constructor|]. split; [auto|]. split; [auto|]. split; [auto|].
    intros s'' w' X. inversion X; auto.
  - assert (D : vongoing v \/ ~ vongoing v).
    { destruct Wv as (p & -> & _). rewrite vongoing_tag. unfold ongoing. lia. }
    destruct D as [O|O].
    + destruct (turn_exists m mr A k e s v a b H I Wv O Va Vb) as ((e1, s1) & w & d & T & I1 & _ & Vd & L & U).
      pose proof (vlegal_vwf Wv Vd L) as Ww.
      destruct (IH e1 s1 w Ww I1) as (s2 & u & n & Rf & P & Wu & Le & Fin & U2).
      exists s2, u, (S n). split; [eapply ref_turn; eauto|]. split; [eapply played_S; eauto|]. split; [auto|].
      cbn [List.length]. split; [lia|]. split; [destruct Fin; auto|].
      intros s'' w' X. inversion X as [|? ? ? NO|? ? ? ? ? s1' w1 ? ? O' T' R']; subst; [contradiction|].
      destruct (U _ _ T') as (-> & ->). exact (U2 _ _ R').
    + exists (e, s), v, 0%nat. split; [apply ref_over, O|]. split; [constructor|]. split; [auto|]. split; [lia|].
      split; [auto|]. intros s'' w' X. inversion X; subst; auto. contradiction.
Qed.

(** The hypothesis on engines is met by an engine made with the library: it takes the first legal
    position and has the library write the steps. *)
Definition first_legal (m : mode) (e : unit) (g : game) (d : dice) : res (unit * (ubgi_error + list move_step)) :=
  l <- game_legal_positions m g d ;;
  match l with
  | [] => Ret (e, inr [])
  | w :: _ =>
      r <- encode_steps m (g_position g) w d ;;
      Ret (e, match r with inr steps => inr steps | inl _ => inl (err_bad_state (lit "encode")) end)
  end.
Definition first_engine (m : mode) : engine unit := minimal_engine (fun _ => lit "first") (fun _ => lit "1") (first_legal m).
Theorem C73_first_engine : forall m k, plays_legally (first_engine m) k.
Proof.
  intros m k e v d Wv Ov Vd. cbn [first_engine minimal_engine choose_move]. unfold first_legal, game_legal_positions, game_legal_positions_with.
  cbn [g_position]. destruct (legal_positions_correct m d Wv Ov Vd) as (l & El & Nn & Hl). unfold legal_positions in El. rewrite El. cbn [bind].
  destruct l as [|w l]; [congruence|]. assert (L : vlegal d v w) by (apply Hl; left; reflexivity). clear Hl Nn El l.
  pose proof Wv as (p & -> & Wp). apply vlegal_tag in L. destruct L as (r & q & -> & R & M).
  pose proof (legal_result_wf Wp Vd R) as Wr. apply mirrored_iff in M; [|apply Wr]. subst q.
  destruct (encode_legal m Wp Vd R) as (steps & En & OB & Co). rewrite encode_tag, En. cbn [bind].
  exists e, steps. split; [reflexivity|]. rewrite board_of_tag.
  assert (Ap : apply_move Debug (tag k p) d (format_move_steps steps) = Ret (Some (tag k (flipP r)))).
  { rewrite apply_tag, (apply_for_core Debug p d (format_move_text OB)), Co. reflexivity. }
  apply (C63_accepts_exactly Debug d _ _ Wv Vd) in Ap. destruct Ap as (st' & ds & rest & r' & q & MT & Pm & PA & No & Mr & Eq).
  rewrite board_of_tag in PA. pose proof (C17_unambiguous MT (format_move_text OB)) as ->.
  assert (Wr' : length (pips r') = 26%nat).
  { assert (U : uses d ds) by (exists rest; exact Pm). pose proof (uses_valid Vd U) as Vds.
    pose proof (plays_wf_any Wp Vds (plays_as_plays PA)) as W'. apply W'. }
  apply mirrored_iff in Mr; [|exact Wr'].
  assert (flipP r = q) by (destruct k; cbn in Eq; congruence).
  assert (r' = r) as -> by (rewrite <- (flipP_involutive r), <- (flipP_involutive r'); congruence).
  exists ds, rest, r. auto.
Qed.
(** Non-vacuity: the theorem applied to this engine, and a session with it. *)
Example C73_ex : exists s' w, refereed Debug Release (first_engine Debug) (tt, session_new (first_engine Debug) tt) (start_position Backgammon)
    [(3, 1)]%nat s' w /\ played 1 (start_position Backgammon) w /\ vwf Backgammon w.
Proof.
  destruct (C73_game unit Debug Release (first_engine Debug) tt [] tt (session_new (first_engine Debug) tt) Backgammon
    (start_position Backgammon) [(3, 1)]%nat (C73_first_engine _ _) (reaches_start _ _ _) (last_init _ _)) as (s' & w & n & Rf & P & Ww & Le & Fin & _).
  - apply start_wf.
  - repeat constructor; cbn; unfold valid_die; lia.
  - exists s', w. cbn [List.length] in *. assert (n = 1%nat) as ->; [|auto].
    destruct Fin as [->|N]; [reflexivity|]. destruct n as [|n]; [|lia]. inversion P; subst. destruct N. apply start_wf.
Qed.
Example C73_session : map snd (fst (run_ubgi_stdio Debug (first_engine Debug) tt (map Some
    [position_text (lit "4HPwATDgc/ABMA"); roll_text 3 1; question; roll_text 6 6; question]))) =
  [[]; []; [lit "bestmove 24/21 24/23"]; []; [lit "bestmove 8/2 8/2 8/2 13/7"]].
Proof. vm_compute. reflexivity. Qed.
