(** Properties C59 - C62: what the position builders and a session do on every input, with the exact
    inputs that make them panic.  Read with SpecExact.v. *)
From Coq Require Import Strings.String.
From Verif Require Import SpecExact TryFromFacts ModeFacts GnuidFacts XgidFacts UbgiFacts VariantFacts Base64Facts PropGnuid PropXgid PropUbgi FibsFacts EngineFacts.
Open Scope Z_scope.

(** ** C59: building a position from 26 numbers *)
Lemma wrap_wraps z : wraps_to z (wrap_i8 z).
Proof.
  unfold wraps_to, wrap_i8. pose proof (Z.mod_pos_bound (z + 128) 256 ltac:(lia)).
  split; [lia|]. exists ((z + 128) / 256). pose proof (Z.div_mod (z + 128) 256 ltac:(lia)). lia.
Qed.
Lemma wraps_fun z v w : wraps_to z v -> wraps_to z w -> v = w.
Proof. intros (A & k & E) (B & l & F). lia. Qed.
Lemma i8_release z : exists v, i8 Release z = Ret v /\ wraps_to z v.
Proof.
  unfold i8. destruct (in_i8 z) eqn:E.
  - exists z. split; auto. unfold in_i8 in E. apply andb_true_iff in E. rewrite !Z.leb_le in E. split; [lia|]. exists 0. lia.
  - exists (wrap_i8 z). split; auto. apply wrap_wraps.
Qed.
Lemma sum_release l : forall s s', wraps_to s' s -> exists v, mfold (fun s z => i8 Release (s + z)) l s = Ret v /\ wraps_to (s' + sumZ l) v.
Proof.
  induction l as [|a l IH]; intros s s' W; cbn [mfold].
  - exists s. split; auto. cbn. rewrite Z.add_0_r. exact W.
  - destruct (i8_release (s + a)) as (u & -> & U). cbn [bind].
    destruct (IH u (s' + a)) as (v & E & V).
    { destruct U as (R & k & E), W as (_ & l' & F). split; [exact R|]. exists (k + l'). lia. }
    exists v. split; auto. change (sumZ (a :: l)) with (a + sumZ l). replace (s' + (a + sumZ l)) with (s' + a + sumZ l) by lia. exact V.
Qed.
Lemma wraps_zero : wraps_to 0 0.
Proof. split; [lia|]. exists 0. lia. Qed.

(** Release builds never panic; the sums are taken modulo 256. *)
Theorem C59_release : forall N ps, 1 <= N <= 127 -> length ps = 26%nat ->
  exists r xo oo, try_from Release N ps = Ret r /\ wraps_to (N - x_count ps) xo /\ wraps_to (N - o_count ps) oo /\
    answer_with xo oo ps r.
Proof.
  intros N ps HN L. unfold try_from, sum_i8.
  destruct (sum_release (filter (fun v => 0 <? v) ps) wraps_zero) as (sx & -> & SX). cbn [bind]. rewrite sumZ_filter_pos in SX.
  rewrite as_i8_id by lia. destruct (i8_release (N - sx)) as (xo & -> & XO). cbn [bind].
  destruct (sum_release (filter (fun v => v <? 0) ps) wraps_zero) as (so & -> & SO). cbn [bind]. rewrite sumZ_filter_neg in SO.
  destruct (i8_release (N + so)) as (oo & -> & OO). cbn [bind].
  fold (x_count ps) in SX. fold (o_count ps) in SO.
  assert (WX : wraps_to (N - x_count ps) xo).
  { destruct XO as (R & k & E), SX as (_ & l & F). split; [exact R|]. exists (k - l). lia. }
  assert (WO : wraps_to (N - o_count ps) oo).
  { destruct OO as (R & k & E), SO as (_ & l & F). split; [exact R|]. exists (k + l). lia. }
  pose proof WX as (RX & _). pose proof WO as (RO & _).
  destruct (Z.ltb_spec xo 0). { exists (inl XTooMany), xo, oo. auto. }
  destruct (Z.ltb_spec oo 0). { exists (inl OTooMany), xo, oo. cbn [answer_with]. auto 12. }
  unfold X_BAR, O_BAR. rewrite (index_ret _ 0) by lia. cbn [bind].
  destruct (Z.ltb_spec (nth 25 ps 0) 0). { exists (inl XBarNegative), xo, oo. cbn [answer_with]. auto 12. }
  rewrite (index_ret _ 0) by lia. cbn [bind].
  destruct (Z.ltb_spec 0 (nth 0 ps 0)). { exists (inl OBarPositive), xo, oo. cbn [answer_with]. auto 12. }
  eexists (inr _), xo, oo. split; [reflexivity|]. split; [auto|]. split; [auto|]. cbn [answer_with]. rewrite !as_u8_id by lia. auto 12.
Qed.

Lemma fine_not {A} m (r : res A) : fine m r -> (forall a, r <> Ret a) -> m = Debug /\ r = Panic Overflow.
Proof. intros [(a & E)|E] N; [exfalso; exact (N a E)|exact E]. Qed.

Lemma refines_sum l : forall s, refines (mfold (fun s z => i8 Debug (s + z)) l s) (mfold (fun s z => i8 Release (s + z)) l s).
Proof.
  induction l as [|z l IH]; intros s; cbn [mfold]; [apply refines_refl|]. apply refines_bind; [apply refines_i8|intros; apply IH].
Qed.
(** Debug builds panic exactly when a side shows more checkers than an 8-bit sum holds, and otherwise give the
    same answer. *)
Theorem C59_debug_panics : forall N ps, 1 <= N <= 127 -> length ps = 26%nat ->
  (overflows ps <-> try_from Debug N ps = Panic Overflow) /\
  (~ overflows ps -> try_from Debug N ps = try_from Release N ps).
Proof.
  intros N ps HN L. unfold overflows.
  assert (B : ~ (127 < x_count ps \/ 128 < o_count ps) -> exists r, try_from Debug N ps = Ret r).
  { intros H. destruct (@try_from_bounded Debug N ps HN L ltac:(lia) ltac:(lia)) as (r & E & _). eauto. }
  split; [split|].
  - intros H. destruct (fine_try_from Debug N ps L) as [(r & E)|(_ & E)]; [|exact E]. exfalso.
    unfold try_from in E. apply bind_inv in E. destruct E as (sx & E1 & E). apply bind_inv in E. destruct E as (xo & _ & E).
    apply bind_inv in E. destruct E as (so & E3 & _).
    pose proof (sum_i8_debug _ E1) as S1. rewrite sumZ_filter_pos in S1. fold (x_count ps) in S1.
    pose proof (sum_i8_debug _ E3) as S2. rewrite sumZ_filter_neg in S2. fold (o_count ps) in S2.
    assert (R1 : i8_range sx) by (eapply sum_i8_debug_range; [|exact E1]; unfold i8_range; lia).
    assert (R2 : i8_range so) by (eapply sum_i8_debug_range; [|exact E3]; unfold i8_range; lia).
    unfold i8_range in *. lia.
  - intros E. destruct (Z_lt_dec 127 (x_count ps)); auto. destruct (Z_lt_dec 128 (o_count ps)); auto.
    exfalso. destruct B as (r & E'); [lia|congruence].
  - intros H. destruct (B H) as (r & E). rewrite E. symmetry.
    destruct (@try_from_bounded Release N ps HN L ltac:(lia) ltac:(lia)) as (r' & E' & _).
    assert (R : refines (try_from Debug N ps) (try_from Release N ps)).
    { unfold try_from, sum_i8. apply refines_bind; [|intros; apply refines_bind; [apply refines_i8|intros; apply refines_bind; [|intros; apply refines_bind; [apply refines_i8|intros; apply refines_refl]]]].
      all: apply refines_sum. }
    apply R, E.
Qed.
(** 256 checkers look like none. *)
Example C59_ex : exists ps, length ps = 26%nat /\ overflows ps /\ try_from Debug 15 ps = Panic Overflow /\
  exists p, try_from Release 15 ps = Ret (inr p) /\ x_off p = 15 /\ x_count ps = 256.
Proof.
  exists [0; 127; 127; 2; 0; 0; 0; 0; 0; 0; 0; 0; 0; 0; 0; 0; 0; 0; 0; 0; 0; 0; 0; 0; 0; 0].
  split; [reflexivity|]. split; [left; reflexivity|]. split; [reflexivity|]. eexists. split; [vm_compute; reflexivity|]. split; reflexivity.
Qed.

(** ** C60: decoding position IDs *)

Lemma u8_cases m z : (0 <= z <= 255 /\ u8 m z = Ret z) \/
  (~ 0 <= z <= 255 /\ match m with Debug => u8 m z = Panic Overflow | Release => exists v, u8 m z = Ret v /\ wraps_to_unsigned z v end).
Proof.
  unfold u8, in_u8. destruct (Z.leb_spec 0 z), (Z.leb_spec z 255); cbn [andb]; [left; auto|right..]; (split; [lia|]); destruct m; auto.
  all: exists (wrap_u8 z); split; auto; unfold wraps_to_unsigned, wrap_u8; pose proof (Z.mod_pos_bound z 256 ltac:(lia)); split; [lia|];
       exists (z / 256); pose proof (Z.div_mod z 256 ltac:(lia)); lia.
Qed.

(** A text is refused exactly when it has not the shape of an ID.  If the ten bytes list checkers, the position with
    the listed checkers is returned, except that too many checkers make a debug build panic and a release build take
    the missing ones modulo 256.  If they run on beyond the 80 bits the decoder panics in every build. *)
Theorem C60_exact : forall m k id,
  (~ id_shape id -> exists e, gnuid_decode m k id = Ret (inl e)) /\
  (id_shape id -> exists key, key_of id key) /\
  (forall key, key_of id key -> (forall o x, ~ key_lists key o x) -> exists e, gnuid_decode m k id = Panic e) /\
  (forall key o x, key_of id key -> key_lists key o x ->
    let fits := (x_total x <= Z.to_nat (checkers k))%nat /\ (o_total o <= Z.to_nat (checkers k))%nat in
    (m = Debug -> ~ fits -> gnuid_decode m k id = Panic Overflow) /\
    (m = Release \/ fits -> exists p, gnuid_decode m k id = Ret (inr (tag k p)) /\
       turn p = true /\ length (pips p) = 26%nat /\
       wraps_to_unsigned (checkers k - Z.of_nat (x_total x)) (x_off p) /\ wraps_to_unsigned (checkers k - Z.of_nat (o_total o)) (o_off p) /\
       pt p 0 = - Z.of_nat (o 0%nat) /\ pt p 25 = Z.of_nat (x 25%nat) /\
       forall i, (1 <= i <= 24)%nat -> pt p i = Z.of_nat (x i) - Z.of_nat (o i))).
Proof.
  intros m k id. pose proof (checkers_bound k) as CB.
  split; [apply C10_malformed_partial|]. split.
  { apply C10_shape_partial. }
  split.
  - intros key KO N. apply key_of_iff in KO. destruct KO as (L & F & ->). rewrite gnuid_decode_tag, (decode_of_key m _ L F).
    destruct (decode_key m (checkers k) key) as [p|e] eqn:E; [|exists e; reflexivity].
    exfalso. destruct (decode_key_inv _ _ _ L E) as (o & x & K). exact (N _ _ K).
  - intros key o x KO K fits. apply key_of_iff in KO. destruct KO as (L & F & ->). rewrite gnuid_decode_tag, (decode_of_key m _ L F), (decode_key_ret m _ K).
    pose proof (u8_cases m (checkers k - Z.of_nat (x_total x))) as UX. pose proof (u8_cases m (checkers k - Z.of_nat (o_total o))) as UO.
    split.
    + intros -> NF. destruct UX as [(RX & ->)|(NX & EX)]; [|rewrite EX; reflexivity]. cbn [bind].
      destruct UO as [(RO & ->)|(NO & EO)]; [|rewrite EO; reflexivity]. exfalso. apply NF. unfold fits. lia.
    + intros H.
      assert (X : exists xo, u8 m (checkers k - Z.of_nat (x_total x)) = Ret xo /\ wraps_to_unsigned (checkers k - Z.of_nat (x_total x)) xo).
      { destruct UX as [(RX & ->)|(NX & EX)]; [eexists; split; [reflexivity|]; split; [lia|exists 0; lia]|].
        destruct H as [->|(H1 & H2)]; [exact EX|]. exfalso. apply NX. lia. }
      assert (O : exists oo, u8 m (checkers k - Z.of_nat (o_total o)) = Ret oo /\ wraps_to_unsigned (checkers k - Z.of_nat (o_total o)) oo).
      { destruct UO as [(RX & ->)|(NX & EX)]; [eexists; split; [reflexivity|]; split; [lia|exists 0; lia]|].
        destruct H as [->|(H1 & H2)]; [exact EX|]. exfalso. apply NX. lia. }
      destruct X as (xo & -> & X), O as (oo & -> & O). cbn [bind]. unfold rmap_ok. cbn [bind].
      eexists. split; [reflexivity|]. cbn [turn pips x_off o_off]. split; [reflexivity|].
      unfold pt; cbn [pips]. split; [unfold decoded; rewrite map_length, seq_length; reflexivity|]. split; [exact X|]. split; [exact O|].
      rewrite !decoded_nth by lia. cbv [Nat.eqb]. split; [lia|]. split; [lia|].
      intros i Hi. rewrite decoded_nth by lia. destruct (Nat.eqb_spec i 0), (Nat.eqb_spec i 25); lia.
Qed.
(** The listed checkers are determined by the key. *)
Lemma unary_fun f : forall ks ls b, length ks = length ls -> unary f b ks -> unary f b ls -> ks = ls.
Proof.
  induction ks as [|k ks IH]; intros [|l ls] b L U V; try discriminate L; auto.
  destruct U as (U1 & U2 & U3), V as (V1 & V2 & V3).
  assert (k = l) as ->.
  { destruct (Nat.lt_trichotomy k l) as [H|[H|H]]; auto.
    - rewrite (V1 (b + k)%nat) in U2 by lia. discriminate.
    - rewrite (U1 (b + l)%nat) in V2 by lia. discriminate. }
  f_equal. injection L as L. eapply IH; eauto.
Qed.
Theorem C60_lists_unique : forall key o x o' x', key_lists key o x -> key_lists key o' x' ->
  (forall i, (i <= 24)%nat -> o i = o' i) /\ (forall i, (1 <= i <= 25)%nat -> x i = x' i).
Proof.
  intros key o x o' x' (_ & U & _) (_ & V & _).
  assert (E : counts o x = counts o' x'). { eapply unary_fun; eauto. }
  unfold counts in E. cbn [seq rev map app] in E. injection E. intros. split; intros i Hi;
  do 26 (destruct i as [|i]; [first [assumption|lia]|]); lia.
Qed.

Example C60_ex : exists key o x, key_of (lit "4HPwATDgc/ABMA") key /\ key_lists key o x /\ x_total x = 15%nat /\ o_total o = 15%nat.
Proof.
  destruct (C09_round_trip (proj2 C09_example)) as (id & E & _ & (key & Q & K) & _).
  specialize (E Debug). rewrite (proj1 C09_example) in E. apply Ret_inj in E. subst id. do 3 eexists.
  split; [exact Q|]. split; [exact K|]. split; vm_compute; reflexivity.
Qed.

(** ** C61: which lines crash a session *)

(** IDs whose key runs on beyond its 80 bits or, in a debug build, lists too many checkers. *)
Definition bad_id (m : mode) (k : variant) (id : str) : Prop :=
  exists key, key_of id key /\
  ((forall o x, ~ key_lists key o x) \/
   (m = Debug /\ exists o x, key_lists key o x /\ checkers k < Z.of_nat (Nat.max (x_total x) (o_total o)))).

Lemma key_lists_dec m k key : length key = 10%nat -> Forall is_byte key -> (exists o x, key_lists key o x) \/ exists e, decode_key m k key = Panic e.
Proof.
  intros L F. destruct (decode_key m k key) as [p|e] eqn:E; [|right; eauto]. left. eapply decode_key_inv; eauto.
Qed.

Theorem C61_decoder : forall m k id, (exists e, gnuid_decode m k id = Panic e) <-> bad_id m k id.
Proof.
  intros m k id. pose proof (checkers_bound k) as CB. destruct (C60_exact m k id) as (R1 & R2 & R3 & R4). split.
  - intros (e & E). assert (S : ~ ~ id_shape id). { intros N. destruct (R1 N) as (e' & E'). congruence. }
    assert (S' : exists key, key_of id key).
    { destruct (b64_decode (id ++ lit "==")) as [key|] eqn:D.
      - destruct (Nat.eq_dec (length key) 10) as [L|L].
        + destruct (b64_id_inv _ D L) as (_ & F & Q). exists key. apply key_of_iff. auto.
        + exfalso. rewrite gnuid_decode_tag in E. unfold gnuid_decode_position in E. rewrite D in E.
          destruct (Nat.eqb_spec (length key) 10); [lia|discriminate].
      - exfalso. rewrite gnuid_decode_tag in E. unfold gnuid_decode_position in E. rewrite D in E. discriminate. }
    destruct S' as (key & K). exists key. split; auto.
    destruct (key_lists_dec Release (checkers k) (proj1 K) (proj1 (proj2 K))) as [(o & x & KL)|(e' & P)].
    + right. destruct (R4 key o x K KL) as (D & A).
      assert (NF : ~ ((x_total x <= Z.to_nat (checkers k))%nat /\ (o_total o <= Z.to_nat (checkers k))%nat)).
      { intros Ft. destruct (A (or_intror Ft)) as (p & E' & _). congruence. }
      split; [|exists o, x; split; auto; lia]. destruct m; auto. exfalso. destruct (A (or_introl eq_refl)) as (p & E' & _). congruence.
    + left. intros o x KL. rewrite (decode_key_ret Release _ KL) in P.
      destruct (u8_cases Release (checkers k - Z.of_nat (x_total x))) as [(_ & EX)|(_ & v & EX & _)]; rewrite EX in P; cbn [bind] in P;
      destruct (u8_cases Release (checkers k - Z.of_nat (o_total o))) as [(_ & EO)|(_ & w & EO & _)]; rewrite EO in P; discriminate P.
  - intros (key & K & [N|(-> & o & x & KL & T)]).
    + destruct (R3 key K N) as (e & E). eauto.
    + destruct (R4 key o x K KL) as (D & _). exists Overflow. apply D; auto. lia.
Qed.

(** With an engine that does not panic, a line crashes a session exactly when it is "position gnubgid" with such an ID. *)
Theorem C61_step : forall E m (A : engine E) e0 h e st line k, never_panics A -> reaches m A e0 h e st -> variant_after h k ->
  ((exists r, session_step m A e st line = Panic r) <-> exists id, gnubgid_line line id /\ bad_id m k id).
Proof.
  intros E m A e0 h e st line k NP R V. destruct (reaches_invariant R) as [_ _ IV _ _ _ _ _ _].
  assert (k = s_variant st) as -> by (eapply variant_after_fun; eauto). split.
  - intros (r & P). destruct (cmd_of line) eqn:C.
    7: { exists id. split; [apply gnubgid_line_iff, C|]. apply C61_decoder.
         destruct (gnuid_decode m (s_variant st) id) as [x|r'] eqn:D; [|eauto]. exfalso.
         destruct (@C41_step_partial E m A e st line NP) as (? & ? & ? & ? & Q); [|congruence].
         intros id' G. apply gnubgid_line_iff in G. assert (id' = id) as -> by congruence. eauto. }
    all: exfalso; destruct (@C41_step_partial E m A e st line NP) as (? & ? & ? & ? & Q); [|congruence];
         intros id' G; apply gnubgid_line_iff in G; congruence.
  - intros (id & G & B). apply C61_decoder in B. destruct B as (r & D). pose proof G as (raw & _ & S). apply gnubgid_line_iff in G.
    exists r. rewrite step_cmd by (apply cmd_nonblank; rewrite G; discriminate). rewrite G. cbn [handle_command].
    assert (T : trim id = id) by (apply stripped_iff in S; subst id; apply trim_trim). rewrite T, D. reflexivity.
Qed.
(** A crashed session stopped at such a line. *)
Theorem C61_session : forall E m (A : engine E) e0 input h r, never_panics A ->
  run_ubgi_stdio m A e0 input = (h, Panic r) ->
  exists line k id, variant_after h k /\ gnubgid_line line id /\ bad_id m k id /\
    forall ls, read_lines input ls -> exists rest, ls = map fst h ++ line :: rest.
Proof.
  intros E m A e0 input h r NP H. apply C42_reads in H. destruct H as (e & st & line & R & S & L).
  destruct (C38_in_step R) as (V & _). destruct (proj1 (C61_step line NP R V)) as (id & G & B); [eauto|].
  exists line, (s_variant st), id. auto.
Qed.
(** Conversely, a session that reads such a line crashes. *)
Lemma reaches_loop {E} m (A : engine E) e0 h e st : reaches m A e0 h e st -> (forall x, In x h -> ~ is_line (lit "quit") (fst x)) ->
  forall rest, run_ubgi_stdio m A e0 (map (fun x => Some (fst x)) h ++ rest) =
    (h ++ fst (session_loop m A e st rest), snd (session_loop m A e st rest)).
Proof.
  induction 1 as [|h e st line e' st' out q R IH S]; intros NQ rest.
  - cbn [map app]. unfold run_ubgi_stdio. apply surjective_pairing.
  - rewrite map_app, <- app_assoc. cbn [map app fst]. rewrite IH by (intros x I; apply NQ, in_app_iff; auto).
    cbn [session_loop]. rewrite S. assert (q = false) as ->.
    { destruct q; auto. exfalso. apply (NQ (line, out)); [apply in_app_iff; right; left; auto|]. cbn [fst]. apply quit_iff.
      apply step_inv in S. destruct S as [(_ & _ & _ & _ & ?)|(_ & _ & T)]; [discriminate|]. tauto. }
    destruct (session_loop m A e' st' rest) as (h2, r2). cbn [fst snd]. rewrite <- app_assoc. reflexivity.
Qed.
Theorem C61_crashes : forall E m (A : engine E) e0 h e st line k id rest, never_panics A -> reaches m A e0 h e st ->
  (forall x, In x h -> ~ is_line (lit "quit") (fst x)) -> variant_after h k -> gnubgid_line line id -> bad_id m k id ->
  exists r, run_ubgi_stdio m A e0 (map (fun x => Some (fst x)) h ++ Some line :: rest) = (h, Panic r).
Proof.
  intros E m A e0 h e st line k id rest NP R NQ V G B.
  destruct (proj2 (C61_step line NP R V)) as (r & P); [eauto|]. exists r.
  rewrite (reaches_loop R NQ). cbn [session_loop]. rewrite P. cbn [fst snd]. rewrite app_nil_r. reflexivity.
Qed.

Example C61_ex : bad_id Release Backgammon (lit "/////////////w") /\ gnubgid_line (lit " position gnubgid  /////////////w") (lit "/////////////w").
Proof.
  split; [apply C61_decoder; eexists; vm_compute; reflexivity|]. apply gnubgid_line_iff. reflexivity.
Qed.

(** ** C62: decoding XGID boards *)
Theorem C62_exact : forall k s,
  ((forall ps, ~ shows s ps) -> exists e, forall m, xgid_decode m k s = Ret (inl e)) /\
  (forall ps, shows s ps ->
    (overflows ps <-> xgid_decode Debug k s = Panic Overflow) /\
    (~ overflows ps -> xgid_decode Debug k s = xgid_decode Release k s) /\
    exists r xo oo, xgid_decode Release k s = Ret r /\
      wraps_to (checkers k - x_count ps) xo /\ wraps_to (checkers k - o_count ps) oo /\
      match r with
      | inr w => 0 <= xo /\ 0 <= oo /\ w = tag k {| turn := true; pips := ps; x_off := xo; o_off := oo |}
      | inl _ => xo < 0 \/ oo < 0
      end).
Proof.
  intros k s. pose proof (checkers_bound k) as CB. split.
  - intros H. destruct (board_text_dec s) as [(L & F)|B].
    + destruct (forallb okc (combine (seq 0 26) s)) eqn:O.
      * exfalso. apply (okc_bars L F) in O. destruct O as (O1 & O2). exact (H _ (cells_shows L F O1 O2)).
      * eexists. intros m. rewrite xgid_decode_good, O by auto. reflexivity.
    + eexists. intros m. apply xgid_decode_bad, B.
  - intros ps S. destruct (shows_cells S) as (L & F & C & H0 & H25). destruct S as (_ & LP & P25 & P0 & _).
    rewrite !xgid_decode_good by auto. rewrite (proj2 (okc_bars L F) (conj H0 H25)), C.
    destruct (@C59_debug_panics (checkers k) ps ltac:(lia) LP) as (D1 & D2).
    destruct (@C59_release (checkers k) ps ltac:(lia) LP) as (r & xo & oo & R & WX & WO & An).
    split; [|split].
    + rewrite D1. split; [intros E; rewrite E; reflexivity|]. destruct (try_from Debug (checkers k) ps) as [[e|p]|e]; cbn [bind]; intros E; congruence.
    + intros N. rewrite (D2 N). reflexivity.
    + rewrite R. cbn [bind]. eexists _, xo, oo. split; [reflexivity|]. split; [exact WX|]. split; [exact WO|].
      destruct r as [[]|p]; cbn [answer_with] in An; auto; try lia. destruct An as (? & ? & _ & _ & ->). auto.
Qed.
Example C62_ex : exists ps, shows (lit "-b----E-C---eE---c-e----B-") ps /\ ~ overflows ps.
Proof.
  destruct C12_example as (ps & S & X & O). exists ps. split; auto. unfold overflows. lia.
Qed.
