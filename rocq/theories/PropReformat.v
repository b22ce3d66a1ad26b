(** Property C81: rewriting accepted texts, and one format in another.  Read with SpecXgid.v, SpecGnuid.v, SpecVariants.v. *)
From Coq Require Import Strings.String.
From Verif Require Import Fibs FibsFacts SpecExact TryFromFacts ModeFacts GnuidFacts Base64Facts XgidFacts VariantFacts PropGnuid PropXgid PropFibs PropExact PropIdentity EqFacts HashFacts BaseFacts MoveFacts DebugFacts.
Unset Implicit Arguments.
Open Scope Z_scope.

(** Boards show in only one way. *)
Lemma shows_fun s t ps : shows s ps -> shows t ps -> s = t.
Proof.
  intros (L & _ & _ & _ & A) (L' & _ & _ & _ & B). apply nth_ext with (d := 0) (d' := 0); [congruence|].
  intros i Hi. rewrite L in Hi. replace i with (25 - (25 - i))%nat by lia.
  rewrite (proj2 (A (25 - i)%nat ltac:(lia))), (proj2 (B (25 - i)%nat ltac:(lia))). reflexivity.
Qed.
Lemma xgid_accepted m k s w : xgid_decode m k s = Ret (inr w) -> shows s (pips (board_of w)) /\ turn (board_of w) = true.
Proof.
  intros E. assert (S : exists ps, shows s ps).
  { destruct (board_text_dec s) as [(L & F)|B].
    - destruct (forallb okc (combine (seq 0 26) s)) eqn:O.
      + apply (okc_bars L F) in O. destruct O as (O1 & O2). eexists. exact (cells_shows L F O1 O2).
      + exfalso. rewrite xgid_decode_good, O in E by auto. discriminate.
    - exfalso. rewrite (xgid_decode_bad _ _ B) in E. discriminate. }
  destruct S as (ps & S). destruct (proj2 (C62_exact k s) ps S) as (_ & D & r & xo & oo & R & _ & _ & M).
  destruct m.
  - destruct (C12_debug_partial _ _ E) as (_ & H & T). auto.
  - rewrite R in E. apply Ret_inj in E. subst r. destruct M as (_ & _ & ->). rewrite board_of_tag. auto.
Qed.
(** An accepted XGID board text is the one that is written for the position it gives: there is no other spelling. *)
Theorem C81_xgid : forall m k s w, xgid_decode m k s = Ret (inr w) -> vwf k w -> forall m', xgid_encode m' w = Ret s.
Proof.
  intros m k s w E V m'. destruct (xgid_accepted _ _ _ _ E) as (S & _). destruct (C11_round_trip V) as (t & A & _ & _ & S' & _).
  rewrite (shows_fun _ _ _ S S'). apply A.
Qed.
(** In a debug build every accepted text is rewritten unchanged. *)
Theorem C81_xgid_debug : forall k s w, xgid_decode Debug k s = Ret (inr w) -> forall m', xgid_encode m' w = Ret s.
Proof. intros k s w E m'. eapply C81_xgid; [exact E|]. exact (proj1 (C12_debug_partial _ _ E)). Qed.

(** Position IDs. *)
Lemma key_of_fun id key key' : key_of id key -> key_of id key' -> key = key'.
Proof.
  rewrite !key_of_iff. intros (L & F & E) (L' & F' & E'). pose proof (proj2 (proj2 (b64_10 L F))) as A. pose proof (proj2 (proj2 (b64_10 L' F'))) as B.
  rewrite <- E in A. rewrite <- E' in B. congruence.
Qed.
Lemma counts_ext o x o' x' : (forall i, (i <= 24)%nat -> o i = o' i) -> (forall i, (1 <= i <= 25)%nat -> x i = x' i) -> counts o x = counts o' x'.
Proof.
  intros O X. unfold counts. f_equal; [|f_equal; [f_equal; apply O; lia|f_equal; [|f_equal; apply X; lia]]].
  - apply map_ext_in. intros i I. apply in_rev, in_seq in I. apply O. lia.
  - apply map_ext_in. intros i I. apply in_seq in I. apply X. lia.
Qed.
Lemma same_turn_eq k v w : vwf k v -> vwf k w -> equal_positions (board_of v) (board_of w) -> turn (board_of v) = turn (board_of w) -> v = w.
Proof.
  intros (p & -> & _) (q & -> & _). rewrite !board_of_tag. intros E T. f_equal. apply position_eqb_iff in E. destruct E as (A & B & C).
  destruct p, q; cbn in *. subst. reflexivity.
Qed.
(** What an accepted ID that gives a well-formed position lists. *)
Lemma gnuid_accepted m k id w : gnuid_decode m k id = Ret (inr w) -> vwf k w ->
  exists key o x, key_of id key /\ key_lists key o x /\ turn (board_of w) = true /\
    counts o x = counts (o_on (board_of w)) (x_on (board_of w)).
Proof.
  intros E V. destruct (C60_exact m k id) as (R1 & R2 & R3 & R4).
  assert (K : exists key, key_of id key /\ exists o x, key_lists key o x).
  { rewrite gnuid_decode_tag in E. unfold rmap_ok in E. apply bind_inv in E. destruct E as ([e|p] & E & Q); [discriminate Q|].
    unfold gnuid_decode_position in E. destruct (b64_decode (id ++ lit "==")) as [key|] eqn:D; [|discriminate E].
    destruct (Nat.eqb_spec (List.length key) 10) as [L|]; [|discriminate E].
    destruct (b64_id_inv _ D L) as (_ & F & ID). apply bind_inv in E. destruct E as (q & E & _).
    exists key. split; [apply key_of_iff; auto|]. exact (decode_key_inv _ _ _ L E). }
  destruct K as (key & KO & o & x & KL). exists key, o, x. split; [exact KO|]. split; [exact KL|].
  destruct (R4 key o x KO KL) as (Dp & A). pose proof (checkers_bound k) as CB.
  destruct KL as (LK & U & T). 
  assert (TT : (total (counts o x) = o_total o + x_total x)%nat).
  { unfold counts, o_total, x_total. unfold total. cbn [seq rev map app fold_right]. lia. }
  assert (H : m = Release \/ ((x_total x <= Z.to_nat (checkers k))%nat /\ (o_total o <= Z.to_nat (checkers k))%nat)).
  { destruct m; [right|left; reflexivity]. destruct (le_dec (x_total x) (Z.to_nat (checkers k))), (le_dec (o_total o) (Z.to_nat (checkers k))); auto;
    exfalso; assert (C : gnuid_decode Debug k id = Panic Overflow) by (apply Dp; [reflexivity|lia]); congruence. }
  destruct (A H) as (p & E' & TR & LP & WX & WO & P0 & P25 & PI). rewrite E in E'. apply Ret_inj in E'. inversion E'; subst w. clear E' A Dp R1 R2 R3 R4.
  destruct V as (q & Eq & W). assert (p = q) as <-. { rewrite <- (board_of_tag k p), Eq, board_of_tag. reflexivity. }
  rewrite board_of_tag. split; [exact TR|].
  destruct WX as (BX & cx & WX), WO as (BO & co & WO). pose proof (wf_off_bounds W) as OB.
  assert (x_off p = checkers k - Z.of_nat (x_total x)) as XO by lia.
  assert (o_off p = checkers k - Z.of_nat (o_total o)) as OO by lia.
  assert (D : pips p = decoded o x).
  { apply nth_ext with (d := 0) (d' := 0); [rewrite LP; unfold decoded; rewrite map_length, seq_length; reflexivity|]. intros i Hi. rewrite LP in Hi.
    rewrite decoded_nth by exact Hi. change (nth i (pips p) 0) with (pt p i).
    destruct (Nat.eqb_spec i 0) as [->|]; [rewrite P0; change (0 =? 25)%nat with false; cbv iota; lia|]. destruct (Nat.eqb_spec i 25) as [->|]; [rewrite P25; lia|]. rewrite PI by lia. reflexivity. }
  pose proof (proj1 (@decoded_wf k o x p ltac:(lia) ltac:(lia) D XO OO) W) as NC.
  apply counts_ext; intros i Hi; unfold o_on, x_on.
  - destruct (Nat.eq_dec i 0) as [->|]; [lia|]. rewrite PI by lia. specialize (NC i ltac:(lia)). lia.
  - destruct (Nat.eq_dec i 25) as [->|]; [lia|]. rewrite PI by lia. specialize (NC i ltac:(lia)). lia.
Qed.
Lemma key_lists_ext key o x o' x' : counts o x = counts o' x' -> key_lists key o x -> key_lists key o' x'.
Proof. unfold key_lists. intros ->. auto. Qed.
(** Rewriting an accepted ID gives an ID of the same position; it is the same ID exactly if the bits after the listed checkers are zero. *)
Theorem C81_gnuid : forall m k id w, gnuid_decode m k id = Ret (inr w) -> vwf k w -> exists id',
  (forall m', gnuid_encode m' w = Ret id') /\ (forall m', gnuid_decode m' k id' = Ret (inr w)) /\
  (id' = id <-> forall key o x, key_of id key -> key_lists key o x -> rest_clear key o x).
Proof.
  intros m k id w E V. destruct (gnuid_accepted _ _ _ _ E V) as (key & o & x & KO & KL & TR & CE).
  destruct (C09_round_trip V) as (id' & A & _ & _ & B). exists id'. split; [exact A|]. split.
  - intros m'. destruct (B m') as (w' & D & V' & Q & T). rewrite D. do 2 f_equal. symmetry. apply (same_turn_eq k); auto. congruence.
  - split.
    + intros -> key' o' x' KO' KL'. assert (key' = key) as -> by (eapply key_of_fun; eauto).
      destruct (C60_lists_unique KL' KL) as (O & X). pose proof (proj1 (@C09_exact k w Debug id V) (A Debug)) as (key2 & KO2 & _ & RC).
      assert (key2 = key) as -> by (eapply key_of_fun; eauto). unfold rest_clear in *. rewrite <- CE in RC. rewrite (counts_ext _ _ _ _ O X). exact RC.
    + intros H. specialize (H key o x KO KL).
      assert (C : gnuid_encode Debug w = Ret id).
      { apply (@C09_exact k w Debug id V). exists key. split; [exact KO|]. split; [apply (key_lists_ext _ _ _ _ _ CE KL)|].
        unfold rest_clear in *. rewrite <- CE. exact H. }
      rewrite A in C. apply Ret_inj in C. exact C.
Qed.

(** Every well-formed position is written in all formats, and its ID and its XGID text are read as the same position; with x to
    move that is the position itself, and its FIBS text is read as it too.  So texts can be converted between the formats. *)
Theorem C81_formats_agree : forall k v, vwf k v -> exists id s f w,
  (forall m, gnuid_encode m v = Ret id /\ xgid_encode m v = Ret s /\ fibs_encode m v = Ret f) /\
  (forall m, gnuid_decode m k id = Ret (inr w) /\ xgid_decode m k s = Ret (inr w)) /\
  vwf k w /\ equal_positions (board_of v) (board_of w) /\ turn (board_of w) = true /\
  (turn (board_of v) = true -> w = v /\ forall m, fibs_decode m k f = Ret (inr w)).
Proof.
  intros k v V. destruct (C09_round_trip V) as (id & A & _ & _ & B). destruct (C11_round_trip V) as (s & A' & _ & _ & _ & B').
  destruct (C14_encode_says V) as (f & b & AF & _).
  destruct (B Debug) as (w & D & VW & Q & T). exists id, s, f, w. split; [auto|].
  assert (U : forall w', vwf k w' -> equal_positions (board_of v) (board_of w') -> turn (board_of w') = true -> w' = w).
  { intros w' V' Q' T'. apply (same_turn_eq k); auto; [|congruence]. unfold equal_positions in *. apply position_eqb_iff in Q, Q'.
    apply position_eqb_iff. destruct Q as (? & ? & ?), Q' as (? & ? & ?). repeat split; congruence. }
  split.
  { intros m. destruct (B m) as (w1 & D1 & V1 & Q1 & T1). destruct (B' m) as (w2 & D2 & V2 & Q2 & T2).
    rewrite D1, D2, (U w1), (U w2); auto. }
  split; [exact VW|]. split; [exact Q|]. split; [exact T|]. intros TV.
  assert (W : w = v). { apply (same_turn_eq k); auto; [|congruence]. unfold equal_positions in *. apply position_eqb_iff in Q. apply position_eqb_iff.
    destruct Q as (? & ? & ?). repeat split; congruence. }
  split; [exact W|]. intros m. subst w. destruct (@C14_x_to_move_partial k v m m V TV) as (f' & F1 & F2). rewrite AF in F1. apply Ret_inj in F1. subst f'. exact F2.
Qed.
(** Converting an ID to an XGID board text and back, or the other way round, keeps the position. *)
Theorem C81_convert : forall m k t w, gnuid_decode m k t = Ret (inr w) \/ xgid_decode m k t = Ret (inr w) -> vwf k w -> exists id s f,
  (forall m, gnuid_encode m w = Ret id /\ xgid_encode m w = Ret s /\ fibs_encode m w = Ret f) /\
  (forall m, gnuid_decode m k id = Ret (inr w) /\ xgid_decode m k s = Ret (inr w) /\ fibs_decode m k f = Ret (inr w)).
Proof.
  intros m k t w H V. assert (T : turn (board_of w) = true).
  { destruct H as [H|H]; [destruct (gnuid_accepted _ _ _ _ H V) as (? & ? & ? & _ & _ & T & _); exact T|exact (proj2 (xgid_accepted _ _ _ _ H))]. }
  destruct (C81_formats_agree k w V) as (id & s & f & w' & A & B & _ & _ & _ & C). destruct (C T) as (-> & F).
  exists id, s, f. split; [exact A|]. intros m'. destruct (B m'). auto.
Qed.
(** One checker of each side, written with and without stray bits at the end. *)
Example C81_case : exists w, gnuid_decode Debug Hypergammon (lit "AAAAAAEAAACAAw") = Ret (inr w) /\ vwf Hypergammon w /\
  pt (board_of w) 24 = 0 /\ gnuid_encode Debug w <> Ret (lit "AAAAAAEAAACAAw").
Proof.
  eexists. split; [vm_compute; reflexivity|]. split; [|split; [vm_compute; reflexivity|]].
  - eexists. split; [reflexivity|]. constructor; try (vm_compute; congruence); cbv; intuition congruence.
  - vm_compute. intros H. discriminate H.
Qed.
Example C81_convert_case : exists w, gnuid_decode Debug Backgammon (lit "4HPwATDgc/ABMA") = Ret (inr w) /\ vwf Backgammon w /\
  xgid_encode Debug w = Ret (lit "-b----E-C---eE---c-e----B-").
Proof.
  destruct (C34_start Backgammon) as (p & E & W & _). destruct (C09_round_trip (ex_intro _ p (conj E W))) as (id & A & _ & _ & B).
  specialize (A Debug). rewrite (proj1 C09_example) in A. apply Ret_inj in A. subst id. destruct (B Debug) as (w & D & V & _).
  exists w. split; [exact D|]. split; [exact V|]. vm_compute in D. apply Ret_inj in D. inversion D; subst w. vm_compute. reflexivity.
Qed.
