(** C84: bad texts are answered with the error that says what is wrong. *)
From Coq Require Import Strings.String.
From Verif Require Import SpecErrors ErrorText XgidFacts FibsFacts GnuidFacts EngineFacts StrFacts NumFacts TextFacts WrittenFacts UbgiFacts DebugFacts BaseFacts
  PropFibs PropExact2.
Unset Implicit Arguments.
Open Scope Z_scope.

(** ** Full XGIDs *)

Lemma fields_split s : xgid_fields s (split_on 58 (match strip_prefix (lit "XGID=") (trim s) with Some u => u | None => trim s end)).
Proof.
  exists (trim s), (match strip_prefix (lit "XGID=") (trim s) with Some u => u | None => trim s end).
  split; [apply stripped_iff; reflexivity|]. split.
  - destruct (strip_prefix (lit "XGID=") (trim s)) as [u|] eqn:E; [left; apply strip_prefix_some, E|right].
    split; [reflexivity|]. intros v Hv. rewrite Hv, strip_prefix_app in E. discriminate E.
  - change (lit ":") with [58]. rewrite join_split_on. split; [reflexivity|]. split; [apply split_on_nonempty|].
    eapply Forall_impl; [|apply split_on_without]. intros w. apply not_in_without.
Qed.
Lemma fields_fun s fs : xgid_fields s fs ->
  fs = split_on 58 (match strip_prefix (lit "XGID=") (trim s) with Some u => u | None => trim s end).
Proof.
  intros (t & u & St & H & J & N & F). apply stripped_iff in St. subst t.
  assert (E : match strip_prefix (lit "XGID=") (trim s) with Some u => u | None => trim s end = u).
  { destruct H as [H|(H & Q)]; [rewrite H, strip_prefix_app; reflexivity|].
    destruct (strip_prefix (lit "XGID=") (trim s)) as [v|] eqn:E; [|exact H]. apply strip_prefix_some in E. destruct (Q v E). }
  rewrite E, J. change (lit ":") with [58]. rewrite split_on_join; auto.
  eapply Forall_impl; [|exact F]. intros w. apply not_in_without.
Qed.

Definition all_fine (fs : list str) : Prop := List.length fs = 10%nat /\ forall j, (j < 10)%nat -> exists f, nth_error fs j = Some f /\ field_ok j f.
Lemma complaint_fun fs e e' : xgid_complaint fs e -> xgid_complaint fs e' -> e = e'.
Proof.
  intros (i & Li & A & B) (i' & Li' & A' & B').
  destruct (Nat.lt_trichotomy i i') as [L|[<-|L]].
  - exfalso. destruct (A' i L) as (f & Ef & Of).
    destruct B as [(_ & X & _)|[(_ & (g & Eg & Ng) & _)|(X & _)]]; [congruence| |lia]. rewrite Ef in Eg. injection Eg as <-. contradiction.
  - destruct B as [(L1 & N1 & ->)|[(L1 & (g & Eg & Ng) & ->)|(N1 & L1 & ->)]]; destruct B' as [(L2 & N2 & ->)|[(L2 & (g' & Eg' & Ng') & ->)|(N2 & L2 & ->)]];
      try reflexivity; try lia; congruence.
  - exfalso. destruct (A i' L) as (f & Ef & Of).
    destruct B' as [(_ & X & _)|[(_ & (g & Eg & Ng) & _)|(X & _)]]; [congruence| |lia]. rewrite Ef in Eg. injection Eg as <-. contradiction.
Qed.
Lemma fine_no_complaint fs e : all_fine fs -> ~ xgid_complaint fs e.
Proof.
  intros (L & A) (i & Li & _ & [(L1 & B & _)|[(L1 & (g & Eg & Ng) & _)|(_ & L1 & _)]]); [| |lia].
  - destruct (A i L1) as (f & Ef & _). congruence.
  - destruct (A i L1) as (f & Ef & Of). congruence.
Qed.
Definition so_far (fs : list str) (i : nat) : Prop := forall j, (j < i)%nat -> exists f, nth_error fs j = Some f /\ field_ok j f.
Lemma so_far_S fs i f : so_far fs i -> nth_error fs i = Some f -> field_ok i f -> so_far fs (S i).
Proof. intros A E O j Lj. destruct (Nat.eq_dec j i) as [->|]; [exists f; auto|apply A; lia]. Qed.
Lemma complain_missing fs i : (i < 10)%nat -> so_far fs i -> nth_error fs i = None -> xgid_complaint fs XgidInvalidPayload.
Proof. intros L A E. exists i. split; [lia|]. split; [exact A|]. left. auto. Qed.
Lemma complain_bad fs i f : (i < 10)%nat -> so_far fs i -> nth_error fs i = Some f -> ~ field_ok i f -> xgid_complaint fs (field_error i).
Proof. intros L A E O. exists i. split; [lia|]. split; [exact A|]. right. left. eauto. Qed.

(** The outcome of reading the fields. *)
Definition outcome (fs : list str) (r : xgid_error + xgid) : Prop :=
  (exists e, r = inl e /\ xgid_complaint fs e) \/ (exists x, r = inr x /\ all_fine fs).
Lemma skipn_S (fs : list str) : forall i f rest, skipn i fs = f :: rest -> skipn (S i) fs = rest.
Proof.
  induction fs as [|g fs IH]; intros i f rest E; destruct i as [|i]; try discriminate E.
  - injection E as _ E. exact E.
  - exact (IH i f rest E).
Qed.
Lemma test_field {T} fs i f rest (o : xgid_error + T) (k : T -> xgid_error + xgid) : (i < 10)%nat -> so_far fs i -> skipn i fs = f :: rest ->
  (forall a, o = inr a -> field_ok i f) -> (forall e, o = inl e -> e = field_error i /\ ~ field_ok i f) ->
  (forall a, o = inr a -> so_far fs (S i) -> skipn (S i) fs = rest -> outcome fs (k a)) -> outcome fs (pbind o k).
Proof.
  intros L A E G B K.
  assert (N : nth_error fs i = Some f).
  { rewrite <- (firstn_skipn i fs), E, nth_error_app2; rewrite firstn_length_le; try (rewrite Nat.sub_diag; reflexivity); try lia;
    apply Nat.lt_le_incl; destruct (Nat.lt_ge_cases i (List.length fs)) as [|X]; auto; rewrite skipn_all2 in E by lia; discriminate E. }
  destruct o as [e|a]; cbn [pbind].
  - left. exists e. split; [reflexivity|]. destruct (B e eq_refl) as (-> & Nf). exact (complain_bad fs i f L A N Nf).
  - apply (K a eq_refl); [exact (so_far_S fs i f A N (G a eq_refl))|]. exact (skipn_S fs i f rest E).
Qed.
Lemma next_field fs i parts (k : str * list str -> xgid_error + xgid) : (i < 10)%nat -> so_far fs i -> skipn i fs = parts ->
  (forall f rest, parts = f :: rest -> outcome fs (k (f, rest))) -> outcome fs (pbind (next_part parts) k).
Proof.
  intros L A E K. destruct parts as [|f rest]; cbn [next_part pbind].
  - left. exists XgidInvalidPayload. split; [reflexivity|]. apply (complain_missing fs i L A). apply nth_error_None.
    assert (X : List.length (skipn i fs) = 0%nat) by (rewrite E; reflexivity). rewrite skipn_length in X. lia.
  - exact (K f rest eq_refl).
Qed.
Lemma uint_test max e f : (forall a, xnum e (parse_uint max f) = inr a -> exists v, unsigned_text max f v) /\
  (forall e', xnum e (parse_uint max f) = inl e' -> e' = e /\ ~ exists v, unsigned_text max f v).
Proof.
  unfold xnum. split.
  - intros a H. apply ok_or_inv, parse_uint_some in H. eauto.
  - intros e' H. destruct (parse_uint max f) as [v|] eqn:E; [discriminate H|]. cbn [ok_or] in H. injection H as <-. split; auto.
    intros (v & V). apply parse_uint_some in V. congruence.
Qed.
Lemma dice_test f : forall e, xgid_parse_dice f = inl e -> e = XgidInvalidField (lit "dice").
Proof.
  intros e. unfold xgid_parse_dice. destruct (str_eqb f (lit "D")); [discriminate|].
  destruct f as [|c1 [|c2 [|c3 f]]]; try (intros H; injection H as <-; reflexivity).
  destruct (digit c1) as [d1|]; cbn [ok_or pbind]; [|intros H; injection H as <-; reflexivity].
  destruct (digit c2) as [d2|]; cbn [ok_or pbind]; [|intros H; injection H as <-; reflexivity].
  destruct ((6 <? d1) || (6 <? d2)); [intros H; injection H as <-; reflexivity|discriminate].
Qed.

Lemma parse_xgid_outcome s fs : xgid_fields s fs -> outcome fs (parse_xgid s).
Proof.
  intros F. apply fields_fun in F. unfold parse_xgid. cbv zeta. rewrite <- F. clear F.
  apply (next_field fs 0); [lia|intros j Lj; lia|reflexivity|]. intros f0 l0 E0. cbv beta iota.
  apply (test_field fs 0 f0 l0); [lia|intros j Lj; lia|exact E0| | |].
  { intros a H. apply parse_board_inv in H. destruct H as (_ & H). exact H. }
  { intros e H. destruct (board_text_dec f0) as [G|G]; [rewrite parse_board_ok in H by apply G; discriminate H|].
    rewrite parse_board_bad in H by exact G. injection H as <-. split; [reflexivity|exact G]. }
  clear E0. intros v0 _ A1 E1.
  apply (next_field fs 1); [lia|exact A1|exact E1|]. intros f1 l1 ->. cbv beta iota.
  apply (test_field fs 1 f1 l1); [lia|exact A1|exact E1|apply uint_test|apply (uint_test 255 XgidInvalidPayload)|]. clear A1 E1. intros v1 _ A E.
  apply (next_field fs 2); [lia|exact A|exact E|]. intros f2 l2 ->. cbv beta iota.
  apply (test_field fs 2 f2 l2); [lia|exact A|exact E|apply uint_test|apply (uint_test 65535 XgidInvalidPayload)|]. clear A E. intros v2 _ A E.
  apply (next_field fs 3); [lia|exact A|exact E|]. intros f3 l3 ->. cbv beta iota.
  apply (test_field fs 3 f3 l3); [lia|exact A|exact E|apply uint_test|apply (uint_test 255 XgidInvalidPayload)|]. clear A E. intros v3 _ A E.
  apply (next_field fs 4); [lia|exact A|exact E|]. intros f4 l4 ->. cbv beta iota.
  apply (test_field fs 4 f4 l4); [lia|exact A|exact E|apply uint_test|apply (uint_test 65535 XgidInvalidPayload)|]. clear A E. intros v4 _ A E.
  apply (next_field fs 5); [lia|exact A|exact E|]. intros f5 l5 ->. cbv beta iota.
  apply (test_field fs 5 f5 l5); [lia|exact A|exact E|apply uint_test|apply (uint_test 65535 XgidInvalidPayload)|]. clear A E. intros v5 _ A E.
  apply (next_field fs 6); [lia|exact A|exact E|]. intros f6 l6 ->. cbv beta iota.
  apply (test_field fs 6 f6 l6); [lia|exact A|exact E| | |].
  { intros d H. exists d. apply xgid_dice_some, H. }
  { intros e H. split; [apply (dice_test f6), H|]. intros (d & D). apply xgid_dice_some in D. congruence. }
  clear A E. intros v6 _ A E.
  apply (next_field fs 7); [lia|exact A|exact E|]. intros f7 l7 ->. cbv beta iota.
  apply (test_field fs 7 f7 l7); [lia|exact A|exact E| | |].
  { intros b H. cbn [field_ok]. destruct (str_eqb f7 (lit "0")) eqn:Q; [apply str_eqb_eq in Q; auto|].
    destruct (str_eqb f7 (lit "1")) eqn:Q'; [apply str_eqb_eq in Q'; auto|discriminate H]. }
  { intros e H. destruct (str_eqb f7 (lit "0")) eqn:Q; [discriminate H|]. destruct (str_eqb f7 (lit "1")) eqn:Q'; [discriminate H|].
    injection H as <-. split; [reflexivity|]. apply str_eqb_neq in Q, Q'. cbn [field_ok]. tauto. }
  clear A E. intros v7 _ A E.
  apply (next_field fs 8); [lia|exact A|exact E|]. intros f8 l8 ->. cbv beta iota.
  assert (Owner : forall k : Z -> xgid_error + xgid,
    pbind (xnum (XgidInvalidField (lit "cube_owner")) (parse_i8 f8)) (fun c => if negb ((-1 <=? c) && (c <=? 1)) then inl (XgidInvalidField (lit "cube_owner")) else k c)
    = pbind (match parse_i8 f8 with Some c => if negb ((-1 <=? c) && (c <=? 1)) then inl (XgidInvalidField (lit "cube_owner")) else inr c
             | None => inl (XgidInvalidField (lit "cube_owner")) end) k).
  { intros k. unfold xnum. destruct (parse_i8 f8) as [c|]; cbn [ok_or pbind]; [|reflexivity]. destruct (negb _); reflexivity. }
  rewrite Owner. clear Owner. unfold parse_i8.
  apply (test_field fs 8 f8 l8); [lia|exact A|exact E| | |].
  { intros c H. destruct (parse_int (-128) 127 f8) as [c'|] eqn:P; [|discriminate H].
    destruct ((-1 <=? c') && (c' <=? 1)) eqn:R; [|discriminate H]. apply andb_true_iff in R. rewrite !Z.leb_le in R.
    apply parse_int_some in P. exists c'. split; [apply P|lia]. }
  { intros e H. destruct (parse_int (-128) 127 f8) as [c'|] eqn:P.
    - destruct ((-1 <=? c') && (c' <=? 1)) eqn:R; [discriminate H|]. injection H as <-. split; [reflexivity|].
      intros (c & S & Rc). assert (S2 : signed_text (-128) 127 f8 c) by (split; [exact S|lia]). apply parse_int_some in S2.
      assert (c = c') by congruence. subst c'. apply andb_false_iff in R. rewrite !Z.leb_gt in R. lia.
    - injection H as <-. split; [reflexivity|].
      intros (c & S & Rc). assert (S2 : signed_text (-128) 127 f8 c) by (split; [exact S|lia]). apply parse_int_some in S2. congruence. }
  clear A E. intros v8 _ A E.
  apply (next_field fs 9); [lia|exact A|exact E|]. intros f9 l9 ->. cbv beta iota.
  apply (test_field fs 9 f9 l9); [lia|exact A|exact E|apply uint_test|apply (uint_test 255 XgidInvalidPayload)|]. clear A E. intros v9 _ A E.
  assert (L9 : List.length (skipn 10 fs) = List.length l9) by (rewrite E; reflexivity). rewrite skipn_length in L9.
  destruct (A 9%nat ltac:(lia)) as (g & Eg & _).
  assert (L10 : (9 < List.length fs)%nat) by (apply nth_error_Some; congruence).
  destruct l9 as [|w l9].
  - right. eexists. split; [reflexivity|]. split; [cbn [List.length] in L9; lia|exact A].
  - left. eexists. split; [reflexivity|]. exists 10%nat. split; [lia|]. split; [exact A|]. right. right.
    cbn [List.length] in L9. split; [reflexivity|]. split; [lia|reflexivity].
Qed.

(** A full XGID is answered with the error of the first thing that is wrong in it. *)
Theorem C84_xgid : forall s e, parse_xgid s = inl e <-> exists fs, xgid_fields s fs /\ xgid_complaint fs e.
Proof.
  intros s e. split.
  - intros H. exists (split_on 58 (match strip_prefix (lit "XGID=") (trim s) with Some u => u | None => trim s end)).
    split; [apply fields_split|]. destruct (parse_xgid_outcome s _ (fields_split s)) as [(e' & E & C)|(x & E & _)]; [|congruence].
    rewrite H in E. injection E as <-. exact C.
  - intros (fs & F & C). destruct (parse_xgid_outcome s fs F) as [(e' & E & C')|(x & E & Fi)].
    + rewrite E. f_equal. exact (complaint_fun fs e' e C' C).
    + destruct (fine_no_complaint fs e Fi C).
Qed.

(** A board text that is not one is a bad board; one that shows something else than a position is a bad position. *)
Theorem C84_xgid_board : forall m k s,
  (xgid_decode m k s = Ret (inl (XgidInvalidField (lit "board"))) <-> forall ps, ~ shows s ps) /\
  (forall e, xgid_decode m k s = Ret (inl e) -> e = XgidInvalidField (lit "board") \/ e = XgidInvalidPosition).
Proof.
  intros m k s. destruct (board_text_dec s) as [(L & F)|N].
  - rewrite xgid_decode_good by assumption. pose proof (okc_bars L F) as O. destruct (forallb okc (combine (seq 0 26) s)) eqn:E.
    + destruct (proj1 O eq_refl) as (O1 & O2). pose proof (cells_shows L F O1 O2) as Sh. split.
      * split; [|intros H; destruct (H _ Sh)]. intros H. apply bind_inv in H. destruct H as ([e|p] & _ & H); discriminate H.
      * intros e H. apply bind_inv in H. destruct H as ([e'|p] & _ & H); [|discriminate H]. apply Ret_inj in H. injection H as <-. auto.
    + split; [|intros e H; apply Ret_inj in H; injection H as <-; auto]. split; [|reflexivity].
      intros _ ps Sh. apply shows_cells in Sh. destruct Sh as (_ & _ & _ & X). apply O in X. discriminate X.
  - rewrite xgid_decode_bad by exact N. split; [|intros e H; apply Ret_inj in H; injection H as <-; auto]. split; [|reflexivity].
    intros _ ps Sh. apply shows_cells in Sh. tauto.
Qed.

(** ** GNU IDs *)

Lemma spells_bytes_iff : forall n id, (List.length id <= n)%nat -> (spells_bytes id <-> exists key, b64_decode (id ++ [61; 61]) = Some key).
Proof.
  induction n as [n IH] using lt_wf_ind. intros id LI.
  destruct id as [|c0 id]; [split; [intros ((n' & L) & _); cbn [List.length] in L; lia|intros (key & H); discriminate H]|].
  destruct id as [|c1 id]; [split; [intros ((n' & L) & _); cbn [List.length] in L; lia|intros (key & H); discriminate H]|].
  destruct id as [|c2 id].
  { split.
    - intros (_ & F & I). apply Forall_cons_iff in F. destruct F as (F & _). cbn [last] in I. exact (b64_last_some F I).
    - intros (key & H). cbn [app b64_decode] in H. apply b64_last_inv in H. destruct H as (a & _ & _ & C0 & I & _).
      split; [exists 0%nat; reflexivity|]. split; [|exact I]. constructor; [exact C0|]. constructor; [|constructor].
      cbn [In] in I. unfold base64_char. lia. }
  destruct id as [|c3 id].
  { split; [intros ((n' & L) & _); cbn [List.length] in L; lia|]. intros (key & H). cbn [app b64_decode] in H. destruct (b64_group _ _ _ _); discriminate H. }
  assert (E : b64_decode ((c0 :: c1 :: c2 :: c3 :: id) ++ [61; 61]) =
    match b64_group c0 c1 c2 c3, b64_decode (id ++ [61; 61]) with Some g, Some l => Some (g ++ l) | _, _ => None end) by (destruct id; reflexivity).
  rewrite E. clear E. cbn [List.length] in LI. specialize (IH (List.length id) ltac:(lia) id (le_n _)). split.
  - intros ((n' & L) & F & I). cbn [List.length] in L. rewrite !Forall_cons_iff in F. destruct F as (F0 & F1 & F2 & F3 & F).
    destruct (@b64_group_some c0 c1 c2 c3 F0 F1 F2 F3) as (g & G). rewrite G.
    destruct (proj1 IH) as (key & K).
    { split; [exists (n' - 1)%nat; lia|]. split; [exact F|]. destruct id as [|c id]; [cbn [List.length] in L; lia|exact I]. }
    rewrite K. eauto.
  - intros (key & H). destruct (b64_group c0 c1 c2 c3) as [g|] eqn:G; [|discriminate H].
    destruct (b64_decode (id ++ [61; 61])) as [l|]; [|discriminate H].
    destruct (proj2 IH (ex_intro _ l eq_refl)) as ((n' & L) & F & I).
    apply b64_group_inv in G. destruct G as (a & b & c & _ & _ & _ & _ & C0 & C1 & C2 & C3 & _).
    split; [exists (S n'); cbn [List.length]; lia|]. split; [repeat (constructor; [assumption|]); exact F|].
    destruct id as [|c' id]; [cbn [List.length] in L; lia|exact I].
Qed.

(** An ID that spells bytes, but not ten of them, has a bad key length; any other bad ID is a bad payload. *)
Theorem C84_gnuid : forall m k id e, gnuid_decode m k id = Ret (inl e) <->
  (e = GnuidKeyLength /\ spells_bytes id /\ List.length id <> 14%nat) \/ (e = GnuidInvalidPayload /\ ~ spells_bytes id).
Proof.
  intros m k id e. rewrite gnuid_decode_tag. unfold gnuid_decode_position. change (lit "==") with [61; 61].
  pose proof (spells_bytes_iff (List.length id) id (le_n _)) as S.
  destruct (b64_decode (id ++ [61; 61])) as [key|] eqn:D.
  - pose proof (@b64_len key (List.length id) id (le_n _) D) as L. pose proof (proj2 S (ex_intro _ key eq_refl)) as Sp.
    destruct (Nat.eqb_spec (List.length key) 10) as [E|E]; unfold rmap_ok.
    + split; [|intros [(_ & _ & N)|(_ & N)]; [lia|contradiction]].
      intros H. apply bind_inv in H. destruct H as (x & Hx & H). apply bind_inv in Hx. destruct Hx as (p & _ & Hx). apply Ret_inj in Hx. subst x. discriminate H.
    + rewrite bind_ret. split.
      * intros H. apply Ret_inj in H. injection H as <-. left. split; [reflexivity|]. split; [exact Sp|lia].
      * intros [(-> & _)|(_ & N)]; [reflexivity|contradiction].
  - unfold rmap_ok. rewrite bind_ret. assert (N : ~ spells_bytes id) by (intros Sp; apply S in Sp; destruct Sp as (key & K); discriminate K). split.
    + intros H. apply Ret_inj in H. injection H as <-. auto.
    + intros [(_ & Sp & _)|(-> & _)]; [contradiction|reflexivity].
Qed.

(** ** FIBS boards *)

Lemma pfold_err {E A S} (f : S -> A -> E + S) l : forall s e, pfold f l s = inl e <->
  exists us w ws s', l = us ++ w :: ws /\ pfold f us s = inr s' /\ f s' w = inl e.
Proof.
  induction l as [|a l IH]; intros s e; cbn [pfold].
  - split; [discriminate|]. intros (us & w & ws & s' & X & _). destruct us; discriminate X.
  - split.
    + destruct (f s a) as [e'|s1] eqn:F; cbn [pbind].
      * intros H. injection H as ->. exists [], a, l, s. auto.
      * intros H. apply IH in H. destruct H as (us & w & ws & s' & -> & P & Q). exists (a :: us), w, ws, s'.
        split; [reflexivity|]. split; [cbn [pfold]; rewrite F; exact P|exact Q].
    + intros (us & w & ws & s' & X & P & Q). destruct us as [|u us].
      * injection X as -> ->. cbn [pfold] in P. injection P as ->. rewrite Q. reflexivity.
      * injection X as -> ->. cbn [pfold] in P. destruct (f s u) as [e'|s1] eqn:F; [discriminate P|]. cbn [pbind] in P |- *.
        apply IH. exists us, w, ws, s'. auto.
Qed.
Lemma count_step_err st w e : fibs_count_step st w = inl e -> e = FibsInvalidField (lit "count").
Proof.
  unfold fibs_count_step. destruct st as [x o]. destruct (strip_prefix (lit "x") (trim w)) as [r|].
  - destruct (parse_u8 r); cbn [ok_or pbind]; intros H; [discriminate H|injection H as <-; reflexivity].
  - destruct (strip_prefix (lit "o") (trim w)) as [r|]; [|intros H; injection H as <-; reflexivity].
    destruct (parse_u8 r); cbn [ok_or pbind]; intros H; [discriminate H|injection H as <-; reflexivity].
Qed.
Lemma counts_cases s : (exists x o, fibs_two_counts s = inr (x, o) /\ counts_text s x o) \/
  (fibs_two_counts s = inl (FibsInvalidField (lit "count")) /\ no_counts s).
Proof.
  destruct (fibs_two_counts s) as [e|[x o]] eqn:E.
  - right. split; [|intros x o C; apply two_counts_iff in C; congruence]. f_equal. unfold fibs_two_counts in E.
    destruct (pfold fibs_count_step (split_on 44 s) (None, None)) as [e'|[[x|] [o|]]] eqn:P; cbn [pbind ok_or] in E;
      try (injection E as <-; reflexivity); [|discriminate E].
    injection E as <-. apply pfold_err in P. destruct P as (us & w & ws & s' & _ & _ & P). exact (count_step_err _ _ _ P).
  - left. exists x, o. split; [reflexivity|apply two_counts_iff, E].
Qed.
Lemma field_step_err st w e : fibs_field_step st w = inl e -> e = FibsInvalidPayload.
Proof.
  unfold fibs_field_step. destruct (split_once 61 w) as [[k v]|]; cbn [ok_or pbind]; [|intros H; injection H as <-; reflexivity].
  destruct (str_eqb (trim k) (lit "turn")); [discriminate|]. destruct (str_eqb (trim k) (lit "bar")); [discriminate|].
  destruct (str_eqb (trim k) (lit "off")); [discriminate|]. destruct (str_eqb (trim k) (lit "points")); [discriminate|].
  intros H; injection H as <-; reflexivity.
Qed.

(** Reading points: a panic (debug builds), or on to the rest. *)
Lemma ploop_prefix m us : forall ns n rest ps, Forall2 point_text us ns -> (List.length us <= n)%nat ->
  (m = Debug /\ ploop m (us ++ rest) n ps = Panic Overflow) \/ exists ps', ploop m (us ++ rest) n ps = ploop m rest (n - List.length us) ps'.
Proof.
  induction us as [|w us IH]; intros ns n rest ps F L.
  - right. exists ps. rewrite Nat.sub_0_r. reflexivity.
  - inversion F as [|? k ? ns' P F']; subst. destruct n as [|n]; [cbn [List.length] in L; lia|]. cbn [app ploop List.length] in *.
    rewrite (point_token_reads m P). destruct (fine_i8 m k) as [(v & V)|(-> & V)]; rewrite V; unfold ebind.
    + rewrite !bind_ret. exact (IH ns' n rest (upd ps (S n) v) F' ltac:(lia)).
    + left. auto.
Qed.
Lemma ploop_err m : forall n ws ps e, ploop m ws n ps = Ret (inl e) ->
  (exists us w ws' ns, ws = us ++ w :: ws' /\ (List.length us < n)%nat /\ Forall2 point_text us ns /\ (forall k, ~ point_text w k) /\ e = FibsInvalidField (lit "points")) \/
  (exists ns, Forall2 point_text ws ns /\ (List.length ws < n)%nat /\ e = FibsInvalidPayload).
Proof.
  induction n as [|n IH]; intros ws ps e H; cbn [ploop] in H; [discriminate H|].
  destruct ws as [|w ws].
  - apply Ret_inj in H. injection H as <-. right. exists []. split; [constructor|]. split; [cbn [List.length]; lia|reflexivity].
  - destruct (point_token_inv m w) as [(k & P)|B].
    + rewrite (point_token_reads m P) in H. destruct (i8 m k) as [v|] eqn:V; [|discriminate H]. unfold ebind in H. rewrite !bind_ret in H.
      apply IH in H. destruct H as [(us & w' & ws' & ns & -> & L & F & N & ->)|(ns & F & L & ->)].
      * left. exists (w :: us), w', ws', (k :: ns). split; [reflexivity|]. split; [cbn [List.length]; lia|]. split; [constructor; assumption|]. split; [exact N|reflexivity].
      * right. exists (k :: ns). split; [constructor; assumption|]. split; [cbn [List.length]; lia|reflexivity].
    + rewrite B in H. unfold ebind in H. rewrite bind_ret in H. apply Ret_inj in H. injection H as <-. left. exists [], w, ws, [].
      split; [reflexivity|]. split; [cbn [List.length]; lia|]. split; [constructor|]. split; [|reflexivity].
      intros k P. rewrite (point_token_reads m P) in B. destruct (i8 m k); discriminate B.
Qed.

Lemma values_pfold s t bar off pts : fibs_values s t bar off pts <-> pfold fibs_field_step (split_on 59 s) fibs_no_fields =
    inr {| f_turn := Some t; f_bar := Some bar; f_off := Some off; f_points := Some pts |}.
Proof. rewrite fields_iff. reflexivity. Qed.

(** Every error is one of the complaints, or the text is a board. *)
Lemma fibs_err m N s e : fibs_decode_position m N s = Ret (inl e) ->
  fibs_complaint s e \/ ((e = FibsInvalidPosition \/ e = FibsInvalidField (lit "turn")) /\ exists b, fibs_text s b).
Proof.
  rewrite fibs_decode_unfold. unfold lift, ebind. rewrite bind_ret. intros H.
  destruct (pfold fibs_field_step (split_on 59 s) fibs_no_fields) as [e'|st] eqn:P.
  { apply Ret_inj in H. injection H as <-. left. pose proof P as P'. apply pfold_err in P. destruct P as (us & w & ws & s' & _ & _ & P). rewrite (field_step_err _ _ _ P).
    apply bad_fields. intros t bar off pts V. apply values_pfold in V. congruence. }
  assert (Bad : forall (q : fibs_error + str), (forall t bar off pts, st <> {| f_turn := Some t; f_bar := Some bar; f_off := Some off; f_points := Some pts |}) ->
    e = FibsInvalidPayload -> fibs_complaint s e).
  { intros _ Q ->. apply bad_fields. intros t bar off pts V. apply values_pfold in V. rewrite P in V. injection V as V. destruct (Q _ _ _ _ V). }
  destruct st as [[t|] [bar|] [off|] [pts|]]; cbn [f_turn f_bar f_off f_points ok_or] in H; rewrite ?bind_ret in H;
    try (left; apply Bad; [exact (inl FibsInvalidPayload)|intros; discriminate|apply Ret_inj in H; injection H as <-; reflexivity]).
  clear Bad. apply values_pfold in P.
  destruct (counts_cases bar) as [(xb & ob & E1 & C1)|(E1 & C1)]; rewrite E1, ?bind_ret in H.
  2:{ apply Ret_inj in H. injection H as <-. left. eapply bad_bar; eassumption. }
  destruct (counts_cases off) as [(xo & oo & E2 & C2)|(E2 & C2)]; rewrite E2, ?bind_ret in H.
  2:{ apply Ret_inj in H. injection H as <-. left. eapply bad_off; eassumption. }
  assert (FW : Forall (fun w => ~ In 44 w) (split_on 44 pts)) by (eapply Forall_impl; [|apply split_on_without]; intros w; apply not_in_without).
  pose proof (join_split_on 44 pts) as J. pose proof (split_on_nonempty 44 pts) as NE. rewrite <- J in P. change [44] with (lit ",") in P. clear J.
  apply bind_inv in H. destruct H as (nb & _ & H). apply bind_inv in H. destruct H as ([e'|ps] & L & H).
  { apply Ret_inj in H. injection H as ->. left. apply ploop_err in L.
    destruct L as [(us & w & ws' & ns & E & L & F & N' & ->)|(ns & F & L & ->)].
    - rewrite E in P, FW. eapply bad_point; eassumption.
    - rewrite <- (app_nil_r (split_on 44 pts)) in P, FW. eapply bad_number; try eassumption; left; auto. }
  apply ploop_sound in L; [|cbn [List.length]; rewrite app_length, repeat_length; cbn [List.length]; lia].
  destruct L as (LW & ns & vs & F & _ & _).
  destruct (Nat.ltb_spec 24 (List.length (split_on 44 pts))) as [Lt|Le].
  { apply Ret_inj in H. injection H as <-. left. rewrite <- (firstn_skipn 24 (split_on 44 pts)) in P, FW.
    eapply bad_number; [exact P|exact C1|exact C2|exact FW| |exact F|right; split].
    - intros X. apply (f_equal (@List.length _)) in X. rewrite firstn_length_le in X by lia. discriminate X.
    - apply firstn_length_le. lia.
    - intros X. apply (f_equal (@List.length _)) in X. rewrite skipn_length in X. cbn [List.length] in X. lia. }
  right. split.
  - unfold fibs_finish in H. apply bind_inv in H. destruct H as ([er|p] & _ & H); [apply Ret_inj in H; injection H as <-; auto|].
    unfold ebind in H. apply bind_inv in H. destruct H as (q & Q & H).
    destruct (str_eqb t (lit "o")).
    + apply bind_inv in Q. destruct Q as (q' & _ & Q). apply Ret_inj in Q. subst q.
      destruct (_ || _); [apply Ret_inj in H; injection H as <-; auto|discriminate H].
    + destruct (negb (str_eqb t (lit "x"))); apply Ret_inj in Q; subst q.
      * apply Ret_inj in H. injection H as <-. auto.
      * destruct (_ || _); [apply Ret_inj in H; injection H as <-; auto|discriminate H].
  - rewrite firstn_all2 in F by exact Le. destruct P as (fs & es & -> & FF & A & B & C & D).
    exists {| fb_turn := t; fb_x_bar := xb; fb_o_bar := ob; fb_x_off := xo; fb_o_off := oo; fb_points := ns |}.
    exists fs, es, bar, off, (split_on 44 pts). cbn [fb_turn fb_x_bar fb_o_bar fb_x_off fb_o_off fb_points].
    repeat (split; [solve [auto]|]). split; [lia|exact F].
Qed.

(** Each complaint is what is answered, unless a debug build panics first. *)
Lemma fibs_complains m N s e : fibs_complaint s e -> fibs_decode_position m N s = Ret (inl e) \/ (m = Debug /\ fibs_decode_position m N s = Panic Overflow).
Proof.
  assert (FW : forall ws, Forall (fun w => ~ In 44 w) ws -> ws <> [] -> split_on 44 (join (lit ",") ws) = ws).
  { intros ws F NE. apply split_on_join; auto. eapply Forall_impl; [|exact F]. intros w. apply not_in_without. }
  intros C. rewrite fibs_decode_unfold. unfold lift, ebind. rewrite bind_ret. destruct C as
    [NV|t bar off pts V NC|t bar off pts x o V CB NC|t bar off xb ob xo oo us w ws ns V CB CO FC L F NP|t bar off xb ob xo oo us ws ns V CB CO FC NE F L].
  - left. destruct (pfold fibs_field_step (split_on 59 s) fibs_no_fields) as [e'|st] eqn:P.
    + pose proof P as P'. apply pfold_err in P'. destruct P' as (us & w & ws & s' & _ & _ & P'). rewrite (field_step_err _ _ _ P'). reflexivity.
    + destruct st as [[t|] [bar|] [off|] [pts|]]; cbn [f_turn f_bar f_off f_points ok_or]; rewrite ?bind_ret; try reflexivity.
      apply values_pfold in P. destruct (NV _ _ _ _ P).
  - left. apply values_pfold in V. rewrite V. cbn [f_turn f_bar f_off f_points ok_or]; rewrite ?bind_ret.
    destruct (counts_cases bar) as [(xb & ob & E1 & C1)|(E1 & C1)]; [destruct (NC _ _ C1)|]. rewrite E1. reflexivity.
  - left. apply values_pfold in V. rewrite V. cbn [f_turn f_bar f_off f_points ok_or]; rewrite ?bind_ret.
    apply two_counts_iff in CB. rewrite CB, ?bind_ret.
    destruct (counts_cases off) as [(xb & ob & E1 & C1)|(E1 & C1)]; [destruct (NC _ _ C1)|]. rewrite E1. reflexivity.
  - apply values_pfold in V. rewrite V. cbn [f_turn f_bar f_off f_points ok_or]; rewrite ?bind_ret.
    apply two_counts_iff in CB, CO. rewrite CB, ?bind_ret, CO, ?bind_ret.
    destruct (fine_i8 m (- as_i8 ob)) as [(nb & E)|(-> & E)]; rewrite E; [|right; auto]. rewrite bind_ret.
    rewrite FW; [|exact FC|destruct us; discriminate].
    destruct (ploop_prefix m us ns 24 (w :: ws) (nb :: repeat 0 24 ++ [as_i8 xb]) F ltac:(lia)) as [(-> & P)|(ps' & P)]; rewrite P; [right; auto|]. left.
    destruct (24 - List.length us)%nat as [|n] eqn:S; [lia|]. cbn [ploop].
    destruct (point_token_inv m w) as [(k & Q)|B]; [destruct (NP k Q)|]. rewrite B. reflexivity.
  - apply values_pfold in V. rewrite V. cbn [f_turn f_bar f_off f_points ok_or]; rewrite ?bind_ret.
    apply two_counts_iff in CB, CO. rewrite CB, ?bind_ret, CO, ?bind_ret.
    destruct (fine_i8 m (- as_i8 ob)) as [(nb & E)|(-> & E)]; rewrite E; [|right; auto]. rewrite bind_ret.
    rewrite FW; [|exact FC|destruct us; [contradiction|discriminate]].
    destruct (ploop_prefix m us ns 24 ws (nb :: repeat 0 24 ++ [as_i8 xb]) F ltac:(lia)) as [(-> & P)|(ps' & P)]; rewrite P; [right; auto|]. left.
    destruct L as [(L & ->)|(L & NW)].
    + destruct (24 - List.length us)%nat as [|n] eqn:S; [lia|]. reflexivity.
    + rewrite L. change (24 - 24)%nat with 0%nat. cbn [ploop]. rewrite bind_ret.
      destruct (Nat.ltb_spec 24 (List.length (us ++ ws))) as [_|Le]; [reflexivity|].
      rewrite app_length in Le. destruct ws; [contradiction|]. cbn [List.length] in Le. lia.
Qed.
Lemma map_ok_inl {E A B} (f : A -> B) (r : res (E + A)) e : map_ok f r = Ret (inl e) <-> r = Ret (inl e).
Proof.
  unfold map_ok. split; [|intros ->; reflexivity]. intros H. apply bind_inv in H. destruct H as ([e'|a] & -> & H); [|discriminate H].
  apply Ret_inj in H. injection H as ->. reflexivity.
Qed.

(** A text that is not a FIBS board is answered with the error of the first thing that is wrong in it; the errors
    about the position and the turn are kept for boards (C69 says when). *)
Theorem C84_fibs : forall k s e,
  (fibs_complaint s e -> fibs_decode Release k s = Ret (inl e) /\ forall b, ~ fibs_text s b) /\
  (fibs_decode Release k s = Ret (inl e) ->
     fibs_complaint s e \/ ((e = FibsInvalidPosition \/ e = FibsInvalidField (lit "turn")) /\ exists b, fibs_text s b)).
Proof.
  intros k s e. split.
  - intros C. assert (D : fibs_decode Release k s = Ret (inl e)).
    { rewrite fibs_decode_tag. apply map_ok_inl. destruct (fibs_complains Release (checkers k) s e C) as [D|(D & _)]; [exact D|discriminate D]. }
    split; [exact D|]. intros b T. destruct (C69_release k T (wrapped_map (fb_pips b))) as (r & xo & oo & D' & _ & _ & An).
    rewrite D in D'. apply Ret_inj in D'. subst r. remember (inl e : fibs_error + vpos) as q eqn:Q.
    destruct An; try discriminate Q; injection Q as <-; inversion C.
  - intros D. rewrite fibs_decode_tag in D. apply map_ok_inl in D. exact (fibs_err _ _ _ _ D).
Qed.
(** A debug build answers the same error, if it does not panic (C69 says when). *)
Theorem C84_fibs_debug : forall k s e, fibs_decode Debug k s = Ret (inl e) -> fibs_decode Release k s = Ret (inl e).
Proof.
  intros k s e D. pose proof D as D'. rewrite fibs_decode_tag in D'. apply map_ok_inl, fibs_err in D'. destruct D' as [C|(_ & b & T)].
  - apply (C84_fibs k s e), C.
  - destruct (C69_debug k T (wrapped_map (fb_pips b))) as (P & Q). rewrite <- Q; [exact D|]. intros X. apply P in X. congruence.
Qed.

(** ** Engine specs *)

Lemma override_err s m w e : override_step s m w = inl e <-> exists p, stripped w p /\ p <> [] /\ ~ In 61 p /\ e = InvalidOverride p s.
Proof.
  unfold override_step. change (chr "=") with 61. split.
  - destruct (nonempty (trim w)) eqn:N; [|discriminate]. apply nonempty_iff in N.
    destruct (split_once 61 (trim w)) as [[k v]|] eqn:S; [discriminate|]. intros H. injection H as <-. exists (trim w).
    split; [apply stripped_iff; reflexivity|]. split; [exact N|]. split; [|reflexivity]. apply not_in_without, split_once_none_inv, S.
  - intros (p & St & N & I & ->). apply stripped_iff in St. subst p. apply nonempty_iff in N. rewrite N.
    rewrite split_once_none; [reflexivity|]. apply not_in_without, I.
Qed.
Lemma head_fun h alias version alias' version' : head_text h alias version -> head_text h alias' version' -> alias = alias' /\ version = version'.
Proof. intros A B. apply head_iff in A, B. rewrite A in B. injection B as -> ->. auto. Qed.

Lemma parts_fun s h ws h' ws' : spec_parts s h ws -> spec_parts s h' ws' -> h = h' /\ ws = ws'.
Proof.
  assert (Join : forall ws, Forall (fun w => ~ In 44 w) ws -> ws <> [] -> split_on 44 (join (lit ",") ws) = ws).
  { intros l F N. apply split_on_join; auto. eapply Forall_impl; [|exact F]. intros w. apply not_in_without. }
  assert (No : forall a b, ~ In 58 (a ++ lit ":" ++ b) -> False) by (intros a b H; apply H, in_or_app; right; left; reflexivity).
  intros (N & C & F) (N' & C' & F'). destruct C as [(-> & ->)|(E & NE)], C' as [(-> & ->)|(E' & NE')].
  - auto.
  - rewrite E' in N. destruct (No _ _ N).
  - rewrite E in N'. destruct (No _ _ N').
  - apply not_in_without in N, N'. pose proof (split_once_app (join (lit ",") ws) N) as X. pose proof (split_once_app (join (lit ",") ws') N') as Y.
    change (lit ":" ++ ?l) with (58 :: l) in *. rewrite <- E in X. rewrite <- E', X in Y. injection Y as -> Y.
    split; [reflexivity|]. exact (eq_trans (eq_sym (Join ws F NE)) (eq_trans (f_equal (split_on 44) Y) (Join ws' F' NE'))).
Qed.
Lemma parse_spec_cut s : exists h ws alias version, spec_parts s h ws /\ head_text h alias version /\
  parse_engine_spec s = if nonempty alias then
    options <-! pfold (override_step s) ws [] ;; inr {| es_alias := alias; es_version := version; es_options := options |}
  else inl (InvalidSpec s).
Proof.
  unfold parse_engine_spec. change (chr ":") with 58. change (chr ",") with 44.
  assert (Raw : forall b, (if nonempty (trim b) then pfold (override_step s) (split_on 44 (trim b)) [] else inr []) =
     pfold (override_step s) (split_on 44 b) []).
  { intros b. rewrite <- (pfold_trim s (split_on 44 b)), <- (@split_on_trim 44 b eq_refl). rewrite pfold_trim.
    destruct (nonempty (trim b)) eqn:N; auto. apply nonempty_false in N. rewrite N. reflexivity. }
  destruct (split_once 58 s) as [(a, b)|] eqn:E.
  - apply split_once_some in E. destruct E as (-> & Wa). cbv beta iota zeta. rewrite Raw.
    destruct (parse_alias_version (trim a)) as (alias, version) eqn:H. apply head_iff in H.
    exists a, (split_on 44 b), alias, version. split; [|auto]. split; [apply not_in_without, Wa|]. split.
    + right. split; [|apply split_on_nonempty]. change (lit ",") with [44]. rewrite join_split_on. reflexivity.
    + eapply Forall_impl; [|apply split_on_without]. intros w. apply not_in_without.
  - apply split_once_none_inv in E. cbv beta iota zeta.
    destruct (parse_alias_version (trim s)) as (alias, version) eqn:H. apply head_iff in H.
    exists s, [], alias, version. split; [|auto]. split; [apply not_in_without, E|]. split; [auto|constructor].
Qed.

(** An engine spec without an alias is an invalid spec; otherwise the first override that is neither blank nor has an
    '=' is named in the error, without the blanks around it. *)
Theorem C84_engine : forall s e, parse_engine_spec s = inl e <-> spec_complaint s e.
Proof.
  intros s e. destruct (parse_spec_cut s) as (h & ws & alias & version & P & H & ->). split.
  - destruct (nonempty alias) eqn:N.
    + apply nonempty_iff in N. destruct (pfold (override_step s) ws []) as [e'|o] eqn:O; [|discriminate]. cbn [pbind]. intros X. injection X as ->.
      apply pfold_err in O. destruct O as (us & w & ws' & o & -> & O & W). apply overrides_iff in O. destruct O as (es & O & _).
      apply override_err in W. destruct W as (p & St & Np & I & ->). eapply bad_override; eassumption.
    + apply nonempty_false in N. subst alias. intros X. injection X as <-. eapply no_alias; eassumption.
  - intros C. destruct C as [h' ws' version' P' H'|h' us w ws' alias' version' es p P' H' Na O St Np I].
    + destruct (parts_fun _ _ _ _ _ P P') as (-> & ->). destruct (head_fun _ _ _ _ _ H H') as (-> & ->). reflexivity.
    + destruct (parts_fun _ _ _ _ _ P P') as (-> & ->). destruct (head_fun _ _ _ _ _ H H') as (-> & ->). apply nonempty_iff in Na. rewrite Na.
      assert (X : pfold (override_step s) (us ++ w :: ws') [] = inl (InvalidOverride p s)).
      { apply pfold_err. exists us, w, ws', (insert_all es []). split; [reflexivity|]. split; [apply overrides_iff; eauto|].
        apply override_err. eauto. }
      rewrite X. reflexivity.
Qed.

(** ** Values of options *)

Theorem C84_option_value : forall o raw t, parse_value o raw = inl t <-> value_complaint raw o t.
Proof.
  intros o raw t. destruct o as [key min max d minor|key d minor|key choices d minor|key d minor]; cbn [parse_value].
  - split.
    + destruct (parse_i64 raw) as [v|] eqn:P; cbn [ok_or pbind].
      * apply parse_int_some in P. destruct min as [a|], max as [b|]; try discriminate.
        destruct ((v <? a) || (b <? v)) eqn:R; [|discriminate]. intros X. injection X as <-.
        apply orb_true_iff in R. rewrite !Z.ltb_lt in R. eapply out_of_range; [exact P|exact R|apply integer_iff; reflexivity|apply integer_iff; reflexivity].
      * intros X. injection X as <-. apply not_a_number. intros n S. apply parse_int_some in S. unfold parse_i64 in P. congruence.
    + intros C. inversion C as [? ? ? ? ? N|? a b ? ? n ta tb S R A B| |]; subst.
      * destruct (parse_i64 raw) as [v|] eqn:P; [|reflexivity]. apply parse_int_some in P. destruct (N v P).
      * apply parse_int_some in S. unfold parse_i64. rewrite S. cbn [ok_or pbind].
        apply integer_iff in A, B. subst ta tb. replace ((n <? a) || (b <? n)) with true; [reflexivity|].
        symmetry. apply orb_true_iff. rewrite !Z.ltb_lt. exact R.
  - split.
    + destruct (str_eqb raw (lit "true")) eqn:Q; [discriminate|]. destruct (str_eqb raw (lit "false")) eqn:Q'; [discriminate|].
      intros X. injection X as <-. apply str_eqb_neq in Q, Q'. apply not_a_bool; assumption.
    + intros C. inversion C as [| |? ? ? A B|]; subst. apply str_eqb_neq in A, B. rewrite A, B. reflexivity.
  - split.
    + destruct (existsb (fun c => str_eqb c raw) choices) eqn:Q; [discriminate|]. intros X. injection X as <-. apply not_a_choice. intros I.
      assert (T : existsb (fun c => str_eqb c raw) choices = true) by (apply existsb_exists; exists raw; split; [exact I|apply str_eqb_refl]). congruence.
    + intros C. inversion C as [| | |? ? ? ? N]; subst.
      destruct (existsb (fun c => str_eqb c raw) choices) eqn:Q; [|reflexivity].
      apply existsb_exists in Q. destruct Q as (c & I & Q). apply str_eqb_eq in Q. subst c. contradiction.
  - split; [discriminate|]. intros C. inversion C.
Qed.

(** ** Messages *)

Theorem C84_xgid_message : forall s e, (parse_xgid s = inl e \/ exists m k, xgid_decode m k s = Ret (inl e)) -> In (e, xgid_error_text e) xgid_messages.
Proof.
  intros s e [H|(m & k & H)].
  - apply C84_xgid in H. destruct H as (fs & _ & i & Li & _ & [(_ & _ & ->)|[(L & _ & ->)|(_ & _ & ->)]]); [left; reflexivity| |left; reflexivity].
    do 10 (destruct i as [|i]; [unfold xgid_messages; cbn [field_error In]; tauto|]). lia.
  - apply (C84_xgid_board m k s) in H. unfold xgid_messages. cbn [In]. destruct H as [-> | ->]; tauto.
Qed.
Theorem C84_fibs_message : forall m k s e, fibs_decode m k s = Ret (inl e) -> In (e, fibs_error_text e) fibs_messages.
Proof.
  intros m k s e H. assert (R : fibs_decode Release k s = Ret (inl e)) by (destruct m; [apply C84_fibs_debug|]; exact H).
  apply C84_fibs in R. unfold fibs_messages. cbn [In]. destruct R as [C|([-> | ->] & _)]; [destruct C| |]; tauto.
Qed.
Theorem C84_gnuid_message : forall m k id e, gnuid_decode m k id = Ret (inl e) -> In (e, gnuid_error_text e) gnuid_messages.
Proof. intros m k id e H. apply C84_gnuid in H. unfold gnuid_messages. cbn [In]. destruct H as [(-> & _)|(-> & _)]; tauto. Qed.
(** The messages of engine specs quote the text, and the override. *)
Theorem C84_engine_message : forall s e, parse_engine_spec s = inl e ->
  engine_spec_error_text e = lit "invalid engine spec '" ++ s ++ lit "'" \/
  exists p, engine_spec_error_text e = lit "invalid engine override '" ++ p ++ lit "' in '" ++ s ++ lit "'" /\ p <> [] /\ ~ In 61 p /\
    exists a b, s = a ++ p ++ b.
Proof.
  intros s e H. apply C84_engine in H. destruct H as [h ws v P H|h us w ws alias v es p (_ & P & _) H N O St Np I]; [left; reflexivity|].
  right. exists p. split; [reflexivity|]. split; [exact Np|]. split; [exact I|].
  destruct St as ((a & b & -> & _) & _). destruct P as [(_ & P)|(-> & _)]; [destruct us; discriminate P|].
  assert (J : forall us ws', exists c d, join (lit ",") (us ++ (a ++ p ++ b) :: ws') = c ++ p ++ d).
  { clear. induction us as [|u us IH]; intros ws'.
    - destruct ws' as [|w' ws']; cbn [app join].
      + exists a, b. reflexivity.
      + exists a, (b ++ lit "," ++ join (lit ",") (w' :: ws')). rewrite <- !app_assoc. reflexivity.
    - destruct (IH ws') as (c & d & E). exists (u ++ lit "," ++ c), d. cbn [app]. rewrite <- !app_assoc, <- E. destruct us; reflexivity. }
  destruct (J us ws) as (c & d & E). exists (h ++ lit ":" ++ c), d. rewrite <- !app_assoc. exact (f_equal (fun x => h ++ lit ":" ++ x) E).
Qed.

(** Games and move texts. *)
Theorem C84_other_messages :
  (forall e : game_error, In (e, game_error_text e) game_messages) /\ (forall e : move_text_error, In (e, move_text_error_text e) move_messages).
Proof. unfold game_messages, move_messages. cbn [In]. split; intros e; destruct e; tauto. Qed.

(** ** Cases *)
Example C84_case_xgid : parse_xgid (lit " XGID=-b----E-C---eE---c-e----B--:0:0:1:0:0:00:1:0:10") = inl (XgidInvalidField (lit "board")) /\
  parse_xgid (lit " XGID=-b----E-C---eE---c-e----B-:0:0:1:0:0:7:3:0:10") = inl (XgidInvalidField (lit "dice")) /\
  parse_xgid (lit "XGID=-b----E-C---eE---c-e----B-:0:0:1:00") = inl XgidInvalidPayload /\
  parse_xgid (lit "-b----E-C---eE---c-e----B-:0:0:0:0:0:31:2:5") = inl (XgidInvalidField (lit "move_flag")) /\
  parse_xgid (lit "-b----E-C---eE---c-e----B-:0:0:0:0:0:31:1:5:1") = inl (XgidInvalidField (lit "cube_owner")) /\
  parse_xgid (lit "-b----E-C---eE---c-e----B-:0:0:0:0:0:31:1:-1:1:") = inl XgidInvalidPayload.
Proof. repeat split; vm_compute; reflexivity. Qed.
Example C84_case_board : xgid_decode Debug Hypergammon (lit "-b----E-C---eE---c-e----B-") = Ret (inl XgidInvalidPosition) /\
  xgid_decode Debug Backgammon (lit "-b----E-C---eE---c-e----Bb") = Ret (inl (XgidInvalidField (lit "board"))) /\
  gnuid_decode Debug Backgammon (lit "4HPwATDgc/ABMA") <> Ret (inl GnuidInvalidPayload) /\
  gnuid_decode Debug Backgammon (lit "4HPwATDgcA") = Ret (inl GnuidKeyLength) /\
  gnuid_decode Debug Backgammon (lit "4HPwATDgc/ABMA==") = Ret (inl GnuidInvalidPayload).
Proof. split; [vm_compute; reflexivity|]. split; [vm_compute; reflexivity|]. split; [vm_compute; discriminate|]. split; vm_compute; reflexivity. Qed.
Example C84_case_fibs : fibs_decode Release Hypergammon (lit "turn=x;bar=x0,o0;off=x0,o0") = Ret (inl FibsInvalidPayload) /\
  fibs_decode Release Hypergammon (lit "turn=x;bar=x0;off=x0,o0;points=-") = Ret (inl (FibsInvalidField (lit "count"))) /\
  fibs_decode Release Hypergammon (lit "turn=x;bar=x0,o0;off=x0,o0;points=-,-,q") = Ret (inl (FibsInvalidField (lit "points"))) /\
  fibs_decode Release Hypergammon (lit "turn=x;bar=x0,o0;off=x0,o0;points=-,-,x1") = Ret (inl FibsInvalidPayload).
Proof. repeat split; vm_compute; reflexivity. Qed.
Example C84_case_engine : parse_engine_spec (lit " @v1:ply=2") = inl (InvalidSpec (lit " @v1:ply=2")) /\
  parse_engine_spec (lit "hawk:ply=2, , fast ,x") = inl (InvalidOverride (lit "fast") (lit "hawk:ply=2, , fast ,x")) /\
  parse_value (OInteger (lit "k") (Some (-3)) (Some 4) 0 false) (lit "5") = inl (lit "must be in range -3..4") /\
  parse_value (OInteger (lit "k") None None 0 false) (lit "5.0") = inl (lit "expected int, got '5.0'").
Proof. repeat split; vm_compute; reflexivity. Qed.
