(** Properties C14, C15: FIBS board texts.  Read with SpecFibs.v, SpecText.v, SpecVariants.v. *)
From Coq Require Import Strings.String.
From Verif Require Import FibsFacts PropIdentity PropGnuid VariantFacts.
Open Scope Z_scope.

(** ** C14 *)

(** Full property: decoding the encoding gives the position back, with its turn. *)
Definition fibs_round_trips : Prop := forall k v m, vwf k v ->
  exists s, fibs_encode m v = Ret s /\ fibs_decode m k s = Ret (inr v).

(** The text written is, in every build, a FIBS text that says exactly what the position is, from x's
    side, whoever is to move. *)
Theorem C14_encode_says : forall k v, vwf k v -> exists s b,
  (forall m, fibs_encode m v = Ret s) /\ fibs_text s b /\
  fb_turn b = (if turn (board_of v) then lit "x" else lit "o") /\ fb_pips b = pips (board_of v) /\
  fb_x_off b = x_off (board_of v) /\ fb_o_off b = o_off (board_of v).
Proof.
  intros k v (p & -> & W). rewrite board_of_tag. exists (fibs_out p), (board_fibs p).
  split; [intros m; destruct k; apply (fibs_encode_ret m W)|]. split; [exact (fibs_out_text W)|].
  split; [reflexivity|]. split; [exact (fb_pips_board W)|]. auto.
Qed.

Lemma fibs_decode_out m k p : wf (checkers k) p -> fibs_decode m k (fibs_out p) =
  map_ok (tag k) (fibs_finish m (checkers k) (if turn p then lit "x" else lit "o") (x_off p) (o_off p) (pips p)).
Proof.
  intros W. rewrite fibs_decode_tag, (fibs_decode_complete m (checkers k) (fibs_out_text W)).
  - rewrite (fb_pips_board W). reflexivity.
  - pose proof (wf_pt_bounds 25 W). unfold board_fibs. cbn [fb_x_bar]. lia.
  - pose proof (wf_pt_bounds 0 W). unfold board_fibs. cbn [fb_o_bar]. lia.
  - unfold board_fibs. cbn [fb_points]. apply Forall_map. apply Forall_forall. intros i _. pose proof (wf_pt_bounds i W). lia.
Qed.

(** Round trip when x is to move: the very same position, in any combination of builds. *)
Theorem C14_x_to_move_partial : forall k v m m', vwf k v -> turn (board_of v) = true ->
  exists s, fibs_encode m v = Ret s /\ fibs_decode m' k s = Ret (inr v).
Proof.
  intros k v m m' (p & -> & W) T. rewrite board_of_tag in T. exists (fibs_out p).
  split; [destruct k; apply (fibs_encode_ret m W)|]. rewrite (fibs_decode_out m' k W), T. unfold fibs_finish.
  rewrite (try_from_wf m' W), bind_ret. change (str_eqb (lit "x") (lit "o")) with false. change (str_eqb (lit "x") (lit "x")) with true.
  cbv iota. cbn [negb]. unfold ebind. rewrite bind_ret. cbn [x_off o_off]. rewrite !Z.eqb_refl. cbn [negb orb].
  unfold map_ok. rewrite bind_ret. destruct p as [tp ps xo oo]; change (tp = true) in T; subst; reflexivity.
Qed.
(** When o is to move the decoder mirrors a board that was not mirrored: the answer is the mirror
    image (still o to move) if both sides have borne off equally many, and an error otherwise. *)
Theorem C14_o_to_move_partial : forall k v m m', vwf k v -> turn (board_of v) = false ->
  exists s, fibs_encode m v = Ret s /\
  (x_off (board_of v) <> o_off (board_of v) -> exists e, fibs_decode m' k s = Ret (inl e)) /\
  (x_off (board_of v) = o_off (board_of v) -> exists w, fibs_decode m' k s = Ret (inr w) /\ vwf k w /\
     turn (board_of w) = false /\ forall i, (i <= 25)%nat -> pt (board_of w) i = - pt (board_of v) (25 - i)).
Proof.
  intros k v m m' (p & -> & W) T. rewrite board_of_tag in *. exists (fibs_out p).
  split; [destruct k; apply (fibs_encode_ret m W)|]. rewrite (fibs_decode_out m' k W), T. unfold fibs_finish.
  rewrite (try_from_wf m' W), bind_ret. change (str_eqb (lit "o") (lit "o")) with true. cbv iota.
  set (q := {| turn := true; pips := pips p; x_off := x_off p; o_off := o_off p |}).
  assert (Wq : wf (checkers k) q) by (destruct W; constructor; auto).
  rewrite (flip_ret m' Wq). unfold ebind. rewrite !bind_ret. change (x_off (flipP q)) with (o_off p). change (o_off (flipP q)) with (x_off p). split; intros E.
  - destruct (Z.eqb_spec (o_off p) (x_off p)); [lia|]. cbn [negb orb]. eexists. reflexivity.
  - rewrite E, Z.eqb_refl. cbn [negb orb]. eexists. split; [reflexivity|]. rewrite board_of_tag.
    split; [apply vwf_tag, flipP_wf, Wq|]. split; [reflexivity|]. intros i Hi. rewrite pt_flipP by (auto; apply (wf_len Wq)). reflexivity.
Qed.
(** So the full property is false: the start position with o to move comes back mirrored, and a
    position with o to move and one checker off is refused. *)
Definition o_start : vpos := VHypergammon {| turn := false; pips := upd (upd (upd (upd (repeat 0 26) 24 1) 1 (-1)) 23 1) 2 (-1);
  x_off := 1; o_off := 1 |}.
Definition o_one : vpos := VHypergammon {| turn := false; pips := upd (upd (repeat 0 26) 3 1) 7 (-3); x_off := 2; o_off := 0 |}.
Theorem C14_refuted : ~ fibs_round_trips.
Proof.
  intros H. assert (W : vwf Hypergammon o_one).
  { eexists. split; [reflexivity|]. constructor; vm_compute; repeat split; congruence. }
  destruct (H Hypergammon o_one Debug W) as (s & E & D). vm_compute in E. injection E as <-. vm_compute in D. discriminate D.
Qed.
Example C14_example : exists v, vwf Hypergammon v /\ turn (board_of v) = false /\ x_off (board_of v) = o_off (board_of v).
Proof.
  exists o_start. split; [|split; reflexivity]. eexists. split; [reflexivity|]. constructor; vm_compute; repeat split; congruence.
Qed.
(** Distinct positions with x to move have distinct texts. *)
Theorem C14_injective : forall k v w m s, vwf k v -> vwf k w -> turn (board_of v) = true -> turn (board_of w) = true ->
  fibs_encode m v = Ret s -> fibs_encode m w = Ret s -> v = w.
Proof.
  intros k v w m s V W TV TW E1 E2.
  destruct (C14_x_to_move_partial m m V TV) as (s1 & A1 & B1). destruct (C14_x_to_move_partial m m W TW) as (s2 & A2 & B2).
  rewrite E1 in A1. rewrite E2 in A2. apply Ret_inj in A1, A2. subst s1 s2. rewrite B1 in B2. apply Ret_inj in B2. injection B2 as ->. reflexivity.
Qed.

(** ** C15 *)

(** Full property: for every text and build decoding returns, and what is accepted is well-formed and
    has the off counts the text says. *)
Definition fibs_validates : Prop := forall m k s, exists r, fibs_decode m k s = Ret r /\
  forall w, r = inr w -> vwf k w /\
  exists b, fibs_text s b /\ fb_x_off b = x_off (board_of w) /\ fb_o_off b = o_off (board_of w).

(** It is false.  "o-128" is negated in i8: a debug build panics. *)
Definition o_minus_128 : str := lit "turn=x;bar=x0,o0;off=x0,o0;points=o-128,-,-,-,-,-,-,-,-,-,-,-,-,-,-,-,-,-,-,-,-,-,-,-".
Theorem C15_refuted : ~ fibs_validates.
Proof. intros H. destruct (H Debug Backgammon o_minus_128) as (r & E & _). vm_compute in E. discriminate E. Qed.
(** 256 checkers wrap to 0: a release build accepts them with all fifteen borne off. *)
Definition fibs_crowded : str := lit "turn=x;bar=x0,o0;off=x15,o15;points=x127,x127,x2,-,-,-,-,-,-,-,-,-,-,-,-,-,-,-,-,-,-,-,-,-".
Theorem C15_release_refuted : exists w, fibs_decode Release Backgammon fibs_crowded = Ret (inr w) /\ ~ vwf Backgammon w /\
  fibs_decode Debug Backgammon fibs_crowded = Panic Overflow.
Proof.
  eexists. split; [vm_compute; reflexivity|]. split; [|vm_compute; reflexivity].
  intros (p & E & W). apply (tag_inj Backgammon _ Backgammon) in E. destruct E as (_ & <-).
  pose proof (wf_x W) as X. vm_compute in X. discriminate X.
Qed.

(** What holds.  The only panic is a failed overflow check of a debug build; release builds never panic. *)
Theorem C15_panics_partial : forall m k s, (exists r, fibs_decode m k s = Ret r) \/ (m = Debug /\ fibs_decode m k s = Panic Overflow).
Proof. intros m k s. rewrite fibs_decode_tag. apply fine_map_ok, fine_fibs. Qed.

Lemma finish_offs m N t xe oe ps p : fibs_finish m N t xe oe ps = Ret (inr p) -> x_off p = xe /\ o_off p = oe.
Proof.
  unfold fibs_finish. intros H. apply bind_inv in H. destruct H as ([e|q] & _ & H); [discriminate H|].
  unfold ebind in H. apply bind_inv in H. destruct H as ([e|q'] & _ & H); [discriminate H|].
  destruct (Z.eqb_spec (x_off q') xe); [|discriminate H]. destruct (Z.eqb_spec (o_off q') oe); [|discriminate H].
  cbn [negb orb] in H. apply Ret_inj in H. injection H as <-. auto.
Qed.
(** In every build, what is accepted is a FIBS text with these off counts. *)
Theorem C15_off_counts : forall m k s w, fibs_decode m k s = Ret (inr w) ->
  exists b, fibs_text s b /\ fb_x_off b = x_off (board_of w) /\ fb_o_off b = o_off (board_of w).
Proof.
  intros m k s w H. rewrite fibs_decode_tag in H. unfold map_ok in H. apply bind_inv in H. destruct H as ([e|p] & H & Q); [discriminate Q|].
  apply Ret_inj in Q. injection Q as <-. rewrite board_of_tag. apply fibs_decode_sound in H. destruct H as (b & nb & vs & T & _ & _ & F).
  apply finish_offs in F. exists b. destruct F. auto.
Qed.
(** A text that is not a FIBS text is never accepted. *)
Theorem C15_malformed_partial : forall m k s, (forall b, ~ fibs_text s b) -> forall w, fibs_decode m k s <> Ret (inr w).
Proof. intros m k s H w E. apply C15_off_counts in E. destruct E as (b & T & _). exact (H b T). Qed.

(** The position that a FIBS text describes for N checkers a side: x to move as written, or o to move
    with the written board mirrored. *)
Definition fibs_says (b : fibs_board) (p : position) : Prop :=
  (fb_turn b = lit "x" /\ turn p = true /\ pips p = fb_pips b) \/
  (fb_turn b = lit "o" /\ turn p = false /\ length (pips p) = 26%nat /\
   forall i, (i <= 25)%nat -> pt p i = - nth (25 - i) (fb_pips b) 0).

Lemma fb_pips_length s b : fibs_text s b -> length (fb_pips b) = 26%nat.
Proof.
  intros (fs & es & bar & off & ws & _ & _ & _ & _ & _ & _ & _ & _ & L & F). apply Forall2_length in F.
  unfold fb_pips. cbn [length]. rewrite app_length, rev_length. cbn [length]. lia.
Qed.
Lemma says_of b p w : length (pips p) = 26%nat -> pips p = fb_pips b -> turn p = true ->
  ((fb_turn b = lit "x" /\ w = p) \/ (fb_turn b = lit "o" /\ w = flipP p)) -> fibs_says b w.
Proof.
  intros L P T [(E & ->)|(E & ->)]; [left; auto|right]. split; auto. split; [unfold flipP; cbn; rewrite T; reflexivity|].
  split; [rewrite flipP_length; auto|]. intros i Hi. rewrite pt_flipP by auto. unfold pt. rewrite P. reflexivity.
Qed.
Lemma count_bounds ps : (forall v, In v ps -> v <= x_count ps) /\ (forall v, In v ps -> - v <= o_count ps).
Proof.
  unfold x_count, o_count. split; induction ps as [|a l IH]; intros v; try (intros []; fail); cbn [map];
    unfold sumZ; cbn [fold_right]; fold (sumZ (map (fun v => Z.max 0 v) l)); fold (sumZ (map (fun v => Z.max 0 (- v)) l)).
  - pose proof (sumZ_nonneg (fun v => Z.max 0 v) l ltac:(intros; lia)). intros [<-|I]; [lia|]. apply IH in I. lia.
  - pose proof (sumZ_nonneg (fun v => Z.max 0 (- v)) l ltac:(intros; lia)). intros [<-|I]; [lia|]. apply IH in I. lia.
Qed.
(** For texts that show at most 127 checkers a side no build
    panics; the text is accepted exactly if the turn is x or o, no side has more checkers than the
    variant, the bars hold no foreign checkers, and the off counts are those of the board; the position
    is then well-formed and the one described. *)
Theorem C15_validates_partial : forall m k s b, fibs_text s b -> x_count (fb_pips b) <= 127 -> o_count (fb_pips b) <= 127 ->
  exists r, fibs_decode m k s = Ret r /\
  match r with
  | inr w => vwf k w /\ fibs_says b (board_of w) /\ x_off (board_of w) = fb_x_off b /\ o_off (board_of w) = fb_o_off b
  | inl _ => ~ exists p, wf (checkers k) p /\ fibs_says b p /\ x_off p = fb_x_off b /\ o_off p = fb_o_off b
  end.
Proof.
  intros m k s b T X O. pose proof (checkers_bound k) as CB. pose proof (fb_pips_length T) as L.
  destruct (count_bounds (fb_pips b)) as (BX & BO). rewrite fibs_decode_tag, (fibs_decode_complete m (checkers k) T).
  - destruct (@fibs_finish_ok m (checkers k) (fb_turn b) (fb_x_off b) (fb_o_off b) (fb_pips b) ltac:(lia) L X O) as (r & E & A).
    rewrite E. unfold map_ok. rewrite bind_ret. destruct r as [e|w]; (eexists; split; [reflexivity|]); cbv iota in *.
    + intros (p & W & S & XO & OO).
      assert (Q : exists q, wf (checkers k) q /\ pips q = fb_pips b /\ ((fb_turn b = lit "x" /\ p = q) \/ (fb_turn b = lit "o" /\ x_off q = o_off p /\ o_off q = x_off p))).
      { destruct S as [(TX & _ & P)|(TO & TT & LP & P)]; [exists p; auto|]. exists (flipP p). split; [apply flipP_wf; auto|].
        split; [|right; auto]. apply nth_ext with (d := 0) (d' := 0); [rewrite flipP_length, LP, L; auto|]. rewrite flipP_length, LP. intros i Hi.
        change (nth i (pips (flipP p)) 0) with (pt (flipP p) i). rewrite pt_flipP by (auto; lia). rewrite P by lia.
        replace (25 - (25 - i))%nat with i by lia. lia. }
      destruct Q as (q & Wq & Pq & Q). pose proof (wf_acceptable Wq) as AC. rewrite Pq in AC.
      pose proof (wf_x Wq) as CX. pose proof (wf_o Wq) as CO. unfold x_checkers in CX. unfold o_checkers in CO. rewrite Pq in CX, CO.
      fold (x_count (fb_pips b)) in CX. fold (o_count (fb_pips b)) in CO.
      destruct A as [A|[(A & A')|[(A & A')|(A & A')]]]; [contradiction| | |];
        destruct Q as [(TX & ->)|(TO & Q1 & Q2)]; try congruence; try lia; try (rewrite A in *; discriminate).
    + destruct A as (_ & p & W & P & TT & XO & OO & C & EX & EO). rewrite board_of_tag.
      split; [apply vwf_tag; destruct C as [(_ & ->)|(_ & ->)]; [auto|apply flipP_wf; auto]|].
      split; [apply (@says_of b p); auto; apply W|]. auto.
  - etransitivity; [apply BX|exact X]. unfold fb_pips. right. apply in_app_iff. right. left. reflexivity.
  - specialize (BO (- fb_o_bar b)). rewrite Z.opp_involutive in BO. etransitivity; [apply BO|exact O]. left. reflexivity.
  - apply Forall_forall. intros v Hv. etransitivity; [apply BX|exact X]. right. apply in_app_iff. left. apply in_rev in Hv. exact Hv.
Qed.

(** In a debug build everything accepted is well-formed and is what the text describes. *)
Theorem C15_debug_partial : forall k s w, fibs_decode Debug k s = Ret (inr w) ->
  exists b, fibs_text s b /\ vwf k w /\ fibs_says b (board_of w) /\ x_off (board_of w) = fb_x_off b /\ o_off (board_of w) = fb_o_off b.
Proof.
  intros k s w H. pose proof (checkers_bound k) as CB. rewrite fibs_decode_tag in H. unfold map_ok in H. apply bind_inv in H.
  destruct H as ([e|q] & H & Q); [discriminate Q|]. apply Ret_inj in Q. injection Q as <-. rewrite board_of_tag.
  apply fibs_decode_sound in H. destruct H as (b & nb & vs & T & NB & V & F). exists b. split; [exact T|].
  destruct (@finish_offs _ _ _ _ _ _ _ F) as (XO & OO).
  assert (DI : forall z v, i8 Debug z = Ret v -> v = z /\ -128 <= z <= 127).
  { intros z v. unfold i8, in_i8. destruct (Z.leb_spec (-128) z), (Z.leb_spec z 127); cbn [andb]; intros G; try discriminate G.
    apply Ret_inj in G. lia. }
  assert (VS : vs = fb_points b).
  { clear - V DI. induction V as [|x y l l' P V IH]; auto. apply DI in P. f_equal; tauto. }
  subst vs. apply DI in NB. destruct NB as (-> & NR).
  pose proof T as (fs & es & bar & off & ws & _ & _ & _ & _ & CT & _). apply counts_range in CT.
  pose proof (fb_pips_length T) as L.
  assert (AI : forall z, 0 <= z <= 255 -> as_i8 z = if z <=? 127 then z else z - 256).
  { intros z Hz. unfold as_i8, wrap_i8. destruct (Z.leb_spec z 127).
    - rewrite Z.mod_small; lia.
    - replace (z + 128) with (z - 128 + 1 * 256) by lia. rewrite Z.mod_add, Z.mod_small; lia. }
  unfold fibs_finish in F. apply bind_inv in F. destruct F as ([e|p] & E & F); [discriminate F|].
  assert (LL : length (- as_i8 (fb_o_bar b) :: rev (fb_points b) ++ [as_i8 (fb_x_bar b)]) = 26%nat).
  { unfold fb_pips in L. cbn [length] in *. rewrite app_length in *. cbn [length] in *. exact L. }
  apply try_from_debug in E; auto; [|lia]. cbn [try_answer] in E. destruct E as (A & W & P & TT & _ & _).
  destruct A as (_ & _ & A25 & A0). cbn [nth] in A0. rewrite AI in A0 by lia.
  assert (N25 : nth 25 (- as_i8 (fb_o_bar b) :: rev (fb_points b) ++ [as_i8 (fb_x_bar b)]) 0 = as_i8 (fb_x_bar b)).
  { change (nth 25 (- as_i8 (fb_o_bar b) :: rev (fb_points b) ++ [as_i8 (fb_x_bar b)]) 0) with
      (nth 24 (rev (fb_points b) ++ [as_i8 (fb_x_bar b)]) 0). cbn [length] in LL. rewrite app_length in LL. cbn [length] in LL.
    rewrite app_nth2 by lia. replace (24 - length (rev (fb_points b)))%nat with O by lia. reflexivity. }
  rewrite N25, AI in A25 by lia.
  assert (XB : fb_x_bar b <= 127) by (destruct (Z.leb_spec (fb_x_bar b) 127); lia).
  assert (OB : fb_o_bar b <= 127) by (destruct (Z.leb_spec (fb_o_bar b) 127); lia).
  assert (EQ : pips p = fb_pips b).
  { rewrite P. unfold fb_pips. rewrite !AI by lia. destruct (Z.leb_spec (fb_o_bar b) 127); [|lia]. destruct (Z.leb_spec (fb_x_bar b) 127); [|lia]. reflexivity. }
  assert (LP : length (pips p) = 26%nat) by apply W.
  unfold ebind in F. apply bind_inv in F. destruct F as ([e|q'] & G & F); [discriminate F|].
  destruct (negb (x_off q' =? fb_x_off b) || negb (o_off q' =? fb_o_off b)); [discriminate F|]. apply Ret_inj in F. injection F as ->.
  assert (C : (fb_turn b = lit "x" /\ q = p) \/ (fb_turn b = lit "o" /\ q = flipP p)).
  { destruct (str_eqb (fb_turn b) (lit "o")) eqn:TO.
    - rewrite (flip_ret Debug W), bind_ret in G. apply Ret_inj in G. injection G as <-. right. apply str_eqb_eq in TO. auto.
    - destruct (str_eqb (fb_turn b) (lit "x")) eqn:TX; cbn [negb] in G; [|discriminate G]. apply Ret_inj in G. injection G as <-.
      left. apply str_eqb_eq in TX. auto. }
  split; [apply vwf_tag; destruct C as [(_ & ->)|(_ & ->)]; [auto|apply flipP_wf; auto]|].
  split; [apply (@says_of b p); auto|]. auto.
Qed.
(** Blanks, repeated fields and reordered fields are accepted. *)
Example C15_example : exists b, fibs_text (lit "turn=o; bar=x1,o0 ;bar = o1,x1;off=x1,o1;points=x1,-,-,-,-,-,-,-,-,-,-,-,-,-,-,-,-,-,-,-,-,-,-,o1") b /\
  x_count (fb_pips b) = 2 /\ o_count (fb_pips b) = 2.
Proof.
  destruct (fibs_decode Debug Hypergammon (lit "turn=o; bar=x1,o0 ;bar = o1,x1;off=x1,o1;points=x1,-,-,-,-,-,-,-,-,-,-,-,-,-,-,-,-,-,-,-,-,-,-,o1")) as [[e|w]|] eqn:E;
    try (vm_compute in E; discriminate E).
  destruct (C15_debug_partial _ _ E) as (b & T & _ & S & _). exists b. split; [exact T|].
  vm_compute in E. apply Ret_inj in E. injection E as <-.
  destruct S as [(_ & TT & _)|(_ & _ & _ & P)]; [discriminate TT|]. pose proof (fb_pips_length T) as L.
  assert (Q : fb_pips b = map (fun i => - pt (board_of (VHypergammon {| turn := false; pips := [-1; -1; 0; 0; 0; 0; 0; 0; 0; 0; 0; 0; 0; 0; 0; 0; 0; 0; 0; 0; 0; 0; 0; 0; 1; 1]; x_off := 1; o_off := 1 |})) (25 - i)) (seq 0 26)).
  { apply nth_ext with (d := 0) (d' := 0); [rewrite L; reflexivity|]. rewrite L. intros i Hi.
    rewrite nth_map_seq by lia. cbn [Nat.add]. rewrite P by lia. replace (25 - (25 - i))%nat with i by lia. lia. }
  rewrite Q. vm_compute. auto.
Qed.

Print Assumptions C14_o_to_move_partial.
Print Assumptions C15_validates_partial.
Print Assumptions C15_debug_partial.
