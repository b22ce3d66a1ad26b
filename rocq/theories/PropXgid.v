(** Properties C11, C12, C13: XGID texts.  Read with SpecXgid.v, SpecText.v, SpecVariants.v. *)
From Coq Require Import Strings.String.
From Verif Require Import XgidFacts PropIdentity PropGnuid BaseFacts MoveFacts StrFacts EqFacts DebugFacts TryFromFacts VariantFacts.
Open Scope Z_scope.

(** ** C11 *)

(** Encoding never fails and gives, in every build, the 26 characters that show the board; any build
    decodes them, for the same variant, to an equal position with x to move. *)
Theorem C11_round_trip : forall k v, vwf k v -> exists s,
  (forall m, xgid_encode m v = Ret s) /\ length s = 26%nat /\ Forall board_char s /\ shows s (pips (board_of v)) /\
  (forall m, exists w, xgid_decode m k s = Ret (inr w) /\ vwf k w /\
     equal_positions (board_of v) (board_of w) /\ turn (board_of w) = true).
Proof.
  intros k v (p & -> & W). rewrite board_of_tag. pose proof (checkers_bound k) as CB.
  exists (board_text p). pose proof (board_text_shows W ltac:(lia)) as S.
  destruct (shows_cells S) as (L & F & C & H0 & H25).
  split; [intros m; rewrite xgid_encode_tag; apply (xgid_encode_ret m W); lia|].
  split; auto. split; auto. split; auto. intros m. exists (tag k (st true p)).
  rewrite xgid_decode_tag, xgid_decode_board by auto. rewrite (proj2 (okc_bars L F) (conj H0 H25)), C, (try_from_wf m W).
  rewrite !bind_ret. split; [reflexivity|]. rewrite board_of_tag.
  split; [apply vwf_tag; destruct W; constructor; auto|]. split; [apply position_eqb_of_st|reflexivity].
Qed.

(** Distinct positions have distinct board texts. *)
Theorem C11_injective : forall k v w m m' s, vwf k v -> vwf k w ->
  xgid_encode m v = Ret s -> xgid_encode m' w = Ret s -> equal_positions (board_of v) (board_of w).
Proof.
  intros k v w m m' s V W E1 E2.
  destruct (C11_round_trip V) as (i1 & A1 & _ & _ & _ & B1). destruct (C11_round_trip W) as (i2 & A2 & _ & _ & _ & B2).
  rewrite A1 in E1. rewrite A2 in E2. apply Ret_inj in E1, E2. subst i1 i2.
  destruct (B1 Debug) as (u1 & D1 & _ & Q1 & _). destruct (B2 Debug) as (u2 & D2 & _ & Q2 & _).
  rewrite D1 in D2. inversion D2; subst u2. unfold equal_positions in *. apply position_eqb_iff in Q1, Q2.
  apply position_eqb_iff. destruct Q1 as (? & ? & ?), Q2 as (? & ? & ?). split; [congruence|]. split; congruence.
Qed.
Example C11_example : xgid_encode Debug (start_position Backgammon) = Ret (lit "-b----E-C---eE---c-e----B-") /\
  vwf Backgammon (start_position Backgammon).
Proof. split; [vm_compute; reflexivity|]. destruct (C34_start Backgammon) as (p & E & W & _). exists p. auto. Qed.

(** ** C12 *)

(** Full property: for every text and build, decoding returns, and what it accepts is well-formed. *)
Definition xgid_validates : Prop := forall m k s, exists r, xgid_decode m k s = Ret r /\ forall w, r = inr w -> vwf k w.

(** It is false: sixteen points with sixteen checkers each are 256 checkers, which wrap to 0 in the i8
    sum: a release build accepts the text with all checkers borne off, a debug build panics. *)
Definition crowded : str := lit "-pppppppppppppppp---------".
Theorem C12_refuted : ~ xgid_validates.
Proof.
  intros H. destruct (H Debug Backgammon crowded) as (r & E & _). vm_compute in E. discriminate E.
Qed.
Theorem C12_release_refuted : exists w, xgid_decode Release Backgammon crowded = Ret (inr w) /\ ~ vwf Backgammon w /\
  xgid_decode Debug Backgammon crowded = Panic Overflow.
Proof.
  eexists. split; [vm_compute; reflexivity|]. split; [|vm_compute; reflexivity].
  intros (p & E & W). apply (tag_inj Backgammon _ Backgammon) in E. destruct E as (_ & <-).
  pose proof (wf_x W) as X. vm_compute in X. discriminate X.
Qed.

(** What holds.  A text that shows no board is refused, never a panic. *)
Theorem C12_malformed_partial : forall m k s, (forall ps, ~ shows s ps) -> exists e, xgid_decode m k s = Ret (inl e).
Proof.
  intros m k s H. rewrite xgid_decode_tag. destruct (board_text_dec s) as [(L & F)|B].
  - rewrite xgid_decode_board by auto. destruct (forallb okc (combine (seq 0 26) s)) eqn:O.
    + exfalso. apply (okc_bars L F) in O. destruct O as (O1 & O2). exact (H _ (cells_shows L F O1 O2)).
    + eexists. reflexivity.
  - unfold xgid_decode_position. rewrite parse_board_bad by auto. eexists. reflexivity.
Qed.
(** A text that shows a board is accepted exactly if each side has at most the variant's checkers; the
    position then has exactly the shown checkers and is well-formed.  Missing: boards with more than
    127 checkers on a side. *)
Theorem C12_validates_partial : forall m k s ps, shows s ps -> x_count ps <= 127 -> o_count ps <= 127 ->
  exists r, xgid_decode m k s = Ret r /\
  match r with
  | inl _ => checkers k < x_count ps \/ checkers k < o_count ps
  | inr w => x_count ps <= checkers k /\ o_count ps <= checkers k /\
             vwf k w /\ pips (board_of w) = ps /\ turn (board_of w) = true
  end.
Proof.
  intros m k s ps S X O. pose proof (checkers_bound k) as CB. destruct (shows_cells S) as (L & F & C & H0 & H25).
  destruct S as (_ & LP & P25 & P0 & _).
  rewrite xgid_decode_tag, xgid_decode_board by auto. rewrite (proj2 (okc_bars L F) (conj H0 H25)), C.
  destruct (@try_from_bounded m (checkers k) ps ltac:(lia) LP X ltac:(lia)) as (r & E & A). rewrite E. unfold map_ok. rewrite !bind_ret.
  destruct r as [e|p]; cbn [try_answer] in A.
  - eexists. split; [reflexivity|]. cbv iota. unfold acceptable in A. lia.
  - destruct A as (A & Wp & Pp & Tp & _). eexists. split; [reflexivity|]. cbv iota. unfold acceptable in A.
    split; [tauto|]. split; [tauto|]. split; [apply vwf_tag; auto|]. rewrite board_of_tag. auto.
Qed.
(** In a debug build everything accepted is well-formed and is what the text shows. *)
Theorem C12_debug_partial : forall k s w, xgid_decode Debug k s = Ret (inr w) ->
  vwf k w /\ shows s (pips (board_of w)) /\ turn (board_of w) = true.
Proof.
  intros k s w E. pose proof (checkers_bound k) as CB.
  destruct (board_text_dec s) as [(L & F)|B]; [|rewrite xgid_decode_bad in E by auto; apply Ret_inj in E; discriminate E].
  rewrite xgid_decode_good in E by auto.
  destruct (forallb okc (combine (seq 0 26) s)) eqn:O; [|apply Ret_inj in E; discriminate E].
  apply (okc_bars L F) in O. destruct O as (O1 & O2). pose proof (cells_shows L F O1 O2) as S.
  apply bind_inv in E. destruct E as (y & E & Q). apply Ret_inj in Q. pose proof S as (_ & LC & _).
  apply try_from_debug in E; auto; [|lia]. destruct y as [|p]; [discriminate Q|]. injection Q as <-.
  cbn [try_answer] in E. destruct E as (_ & Wp & Pp & Tp & _). rewrite board_of_tag, Pp.
  split; [apply vwf_tag; auto|]. split; auto.
Qed.
Example C12_example : exists ps, shows (lit "-b----E-C---eE---c-e----B-") ps /\ x_count ps = 15 /\ o_count ps = 15.
Proof.
  destruct (C11_round_trip (proj2 C11_example)) as (s & A & _ & _ & S & _). specialize (A Debug).
  rewrite (proj1 C11_example) in A. apply Ret_inj in A. subst s. eexists. split; [exact S|]. split; reflexivity.
Qed.

(** ** C13 *)

(** [format] followed by [parse] gives the value back, for every value in the documented ranges. *)
Theorem C13_round_trip : forall x, xgid_ok x -> parse_xgid (format_xgid x) = inr x.
Proof. intros x H. apply parse_xgid_complete, format_xgid_text, H. Qed.
(** [parse] accepts exactly the texts of SpecXgid.xgid_text: ten fields separated by ':' of the right
    form, with optional "XGID=" and surrounding blanks. *)
Theorem C13_parse_exact : forall s x, parse_xgid s = inr x <-> xgid_text s x.
Proof. intros s x. split; [apply parse_xgid_sound|apply parse_xgid_complete]. Qed.
(** What it accepts is in range. *)
Theorem C13_parse_in_range : forall s x, parse_xgid s = inr x -> xgid_ok x.
Proof.
  intros s x H. apply parse_xgid_sound in H.
  destruct H as (pre & post & prefix & f0 & f1 & f2 & f3 & f4 & f5 & f6 & f7 & f8 & f9 & ES & Bpre & Bpost & EP & (L0 & F0 & E0) &
    E1 & E2 & E3 & E4 & E5 & E6 & E7 & E8 & E9).
  assert (U : forall mx f v, unsigned_text mx f v -> 0 <= v <= mx).
  { intros mx f v ([N|(t & _ & N)] & R); apply numeral_nonneg in N; lia. }
  split; [rewrite E0; auto|]. do 5 (split; [eapply U; eassumption|]). split.
  - intros a b D. rewrite D in E6. cbn [dice_text] in E6. tauto.
  - split; [destruct E8; lia|]. eapply U; eassumption.
Qed.
Definition ex_xgid : xgid := {| xg_board := lit "-b----E-C---eE---c-e----B-"; xg_max_cube := 10; xg_match_length := 7;
  xg_rules := 1; xg_score_x := 3; xg_score_o := 0; xg_dice := XRolled 6 1; xg_move_flag := true; xg_cube_owner := -1;
  xg_cube_power := 2 |}.
Example C13_example : xgid_ok ex_xgid /\ format_xgid ex_xgid = lit "XGID=-b----E-C---eE---c-e----B-:10:7:1:3:0:61:1:-1:2" /\
  parse_xgid (lit " -b----E-C---eE---c-e----B-:10:7:1:3:0:61:1:-1:2  ") = inr ex_xgid.
Proof.
  split; [|split; vm_compute; reflexivity]. apply (C13_parse_in_range (lit "XGID=-b----E-C---eE---c-e----B-:10:7:1:3:0:61:1:-1:2")).
  vm_compute. reflexivity.
Qed.

Print Assumptions C11_round_trip.
Print Assumptions C12_validates_partial.
Print Assumptions C13_parse_exact.
