(** Property C83: the lines a session writes.  Read with SpecOutput.v. *)
From Coq Require Import Strings.String.
From Verif Require Import SpecOutput UbgiFacts EngineFacts StrFacts PropIdentity PropUbgi PropReplies.
Unset Implicit Arguments.
Open Scope Z_scope.

(** ** Texts without line feeds *)
Lemma ol_app a b : one_line a -> one_line b -> one_line (a ++ b).
Proof. unfold one_line. intros A B I. apply in_app_iff in I. tauto. Qed.
Lemma ol_sub a s b : one_line (a ++ s ++ b) -> one_line s.
Proof. unfold one_line. intros H I. apply H. apply in_app_iff. right. apply in_app_iff. auto. Qed.
Lemma ol_trim s : one_line s -> one_line (trim s).
Proof. intros H. apply not_in_without. apply trim_without. apply not_in_without. exact H. Qed.
Lemma ol_lit s : existsb (Z.eqb 10) s = false -> one_line s.
Proof.
  intros H I. apply not_true_iff_false in H. apply H. apply existsb_exists. exists 10. split; auto.
Qed.
Ltac ol := first [apply ol_lit; vm_compute; reflexivity | assumption].
Lemma ol_int z : one_line (fmt_int z).
Proof. apply not_in_without. apply fmt_int_without; lia. Qed.
Lemma ol_uint z : 0 <= z -> one_line (fmt_uint z).
Proof. intros H. pose proof (ol_int z) as X. unfold fmt_int in X. destruct (Z.ltb_spec z 0); [lia|exact X]. Qed.
Lemma ol_join sep l : one_line sep -> Forall one_line l -> one_line (join sep l).
Proof.
  intros S F. induction F as [|x l X F IH]; [intros []|].
  destruct l as [|y l]; [exact X|].
  change (join sep (x :: y :: l)) with (x ++ sep ++ join sep (y :: l)).
  apply ol_app; auto. apply ol_app; auto.
Qed.
Lemma ol_wire v : value_one_line v -> one_line (to_wire v).
Proof. destruct v as [z|b|s|s]; cbn; auto; [intros _; apply ol_int|intros _; destruct b; ol]. Qed.
Lemma ol_point n : one_line (point_to_text n).
Proof.
  unfold point_to_text. destruct (n =? 25)%nat; [ol|]. destruct (n =? 0)%nat; [ol|]. apply ol_uint. lia.
Qed.
Lemma ol_steps mv : one_line (format_move_steps mv).
Proof.
  unfold format_move_steps. destruct mv as [|s mv]; [ol|]. apply ol_join; [ol|].
  apply Forall_forall. intros t I. apply in_map_iff in I. destruct I as (x & <- & _).
  unfold pair_text. apply ol_app; [apply ol_point|]. apply ol_app; [ol|apply ol_point].
Qed.
Lemma ol_minor s b : one_line s -> one_line (with_minor s b).
Proof. intros H. destruct b; cbn; auto. apply ol_app; [auto|ol]. Qed.
Lemma ol_key_line o : option_one_line o -> one_line (to_key_line o).
Proof.
  destruct o as [k mn mx d mi|k d mi|k cs d mi|k d mi]; cbn [option_one_line to_key_line]; intros H.
  - destruct mn as [a|]; [destruct mx as [b|]|]; apply ol_minor; repeat (apply ol_app; try ol; try apply ol_int); apply ol_int.
  - apply ol_minor; repeat (apply ol_app; try ol). destruct d; ol.
  - destruct H as (H1 & H2 & H3). apply ol_minor; repeat (apply ol_app; try ol). apply ol_join; [ol|auto].
  - destruct H as (H1 & H2). apply ol_minor; repeat (apply ol_app; try ol).
Qed.
Lemma ol_variant k : one_line (variant_display k).
Proof. destruct k; ol. Qed.
Lemma ol_err e : error_one_line e -> one_line (ubgi_error_display e).
Proof. destruct e; auto. Qed.
Lemma ol_prefix p t r : strip_prefix p t = Some r -> one_line t -> one_line r.
Proof.
  intros E H. apply strip_prefix_some in E. subst t.
  intros I. apply H. apply in_app_iff. auto.
Qed.

(** ** The values kept by the session *)
Definition tidy {E} (A : engine E) (st : session) : Prop :=
  Forall option_one_line (s_option_specs st) /\ Forall (fun kv => value_one_line (snd kv)) (s_option_values st) /\
  one_line (s_variant_key st).

Lemma values_get_tidy k m v : Forall (fun kv : str * option_value => value_one_line (snd kv)) m -> values_get k m = Some v -> value_one_line v.
Proof.
  induction 1 as [|(k', v') m H F IH]; cbn [values_get]; [discriminate|].
  destruct (str_eqb k k'); [intros X; inversion X; subst; exact H|exact IH].
Qed.
Lemma tidy_new {E} (A : engine E) e : one_line_engine A -> tidy A (session_new A e).
Proof.
  intros O. split; [apply (ole_options A O)|]. split; [|unfold session_new; cbn [s_variant_key]; ol].
  cbn [session_new s_option_values]. pose proof (ole_options A O e) as F.
  assert (G : Forall (fun kv : str * option_value => value_one_line (snd kv)) []) by constructor.
  revert G. generalize (@nil (str * option_value)).
  induction F as [|o l H F IH]; intros m G; [exact G|]. cbn [fold_left]. apply IH.
  constructor; [|exact G]. cbn [snd]. destruct o; cbn in *; tauto.
Qed.
Lemma parse_tidy o raw v : one_line raw -> parse_value o raw = inr v -> value_one_line v.
Proof.
  intros H P. apply parse_value_iff in P. destruct o; cbn [denotes] in P.
  - destruct P as (n & -> & _). exact Logic.I.
  - destruct P as [(_ & ->)|(_ & ->)]; exact Logic.I.
  - destruct P as (_ & ->). exact H.
  - subst. exact H.
Qed.
Lemma get_key_line line k : one_line line -> get_line line k -> one_line k.
Proof.
  intros H (r & S & T). apply stripped_iff in S, T. subst k. apply ol_trim.
  pose proof (ol_trim _ H) as X. rewrite <- S in X. intros I. apply X. apply in_app_iff. auto.
Qed.
Lemma set_key_line line k v : one_line line -> set_line line k v -> one_line k /\ one_line v.
Proof.
  intros H (r & k0 & S & _ & T & D). apply stripped_iff in S, T. subst k.
  pose proof (ol_trim _ H) as X. rewrite <- S in X.
  assert (R : one_line r) by (intros I; apply X; apply in_app_iff; auto).
  destruct D as [(v0 & -> & S')|(-> & ->)].
  - apply stripped_iff in S'. subst v. split; apply ol_trim.
    + intros I; apply R; apply in_app_iff; auto.
    + intros I; apply R. apply in_app_iff. right. apply in_app_iff. auto.
  - split; [apply ol_trim; auto|intros []].
Qed.

Lemma ret3 {X Y Z} (a a' : X) (b b' : Y) (c c' : Z) : Ret (a, b, c) = Ret (a', b', c') -> a' = a /\ b' = b /\ c' = c.
Proof. intros H. inversion H. auto. Qed.
Lemma ret2 {X Y} (a a' : X) (b b' : Y) : Ret (a, b) = Ret (a', b') -> a' = a /\ b' = b.
Proof. intros H. inversion H. auto. Qed.
Ltac inv3 S := apply ret3 in S; destruct S as (-> & -> & ->).
Ltac inv2 S := apply ret2 in S; destruct S as (-> & ->).
Lemma step_tidy {E} m (A : engine E) e st line e' st' out q : one_line_engine A -> one_line line -> tidy A st ->
  session_step m A e st line = Ret (e', st', out, q) -> tidy A st' /\ Forall one_line out.
Proof.
  intros O L (T1 & T2 & T3) S. destruct (step_inv m A e st line S) as [(_ & -> & -> & -> & _)|(_ & S' & _)].
  { split; [split; auto|constructor]. }
  assert (T : tidy A st) by (split; auto). clear S. rename S' into S.
  assert (K : Forall one_line (render_key_lines st)).
  { constructor; auto. apply Forall_forall. intros t I. apply in_map_iff in I. destruct I as (o & <- & I).
    apply ol_key_line. rewrite Forall_forall in T1. auto. }
  destruct (cmd_of line) eqn:C; cbn [handle_command] in S.
  - assert (F : Forall one_line ([lit "id name " ++ id_name A e; lit "id author bkgm"; lit "id version " ++ id_version A e;
                   lit "proto 0.2"] ++ render_key_lines st ++ [lit "ubgiok"])).
    { rewrite !Forall_app. split; [|split; [exact K|repeat constructor; ol]].
      repeat constructor; first [ol|apply ol_app; [ol|apply O]]. }
    inv3 S. split; [exact T|exact F].
  - destruct (on_ready A e) as [(e1, r)|] eqn:R; [|discriminate]. cbn [bind] in S.
    destruct r as [er|u]; inv3 S; split; auto; repeat constructor; [|ol].
    cbn [to_line]. apply ol_app; [ol|]. apply ol_app; [ol|]. apply ol_err. eapply ole_ready; eauto.
  - inv3 S. split; [split; auto|constructor].
  - inv3 S. split; auto.
  - apply get_line_iff in C. pose proof (get_key_line _ _ L C) as Kk.
    unfold handle_get in S. destruct (str_eqb key (lit "game.variant")).
    + cbn [bind] in S. inv3 S. split; auto. repeat constructor. apply ol_app; [ol|apply ol_variant].
    + destruct (values_get key (s_option_values st)) as [v|] eqn:G.
      * cbn [bind] in S. inv3 S. split; auto. repeat constructor. repeat (apply ol_app; try ol).
        apply ol_wire. eapply values_get_tidy; eauto.
      * destruct (eng_get A e key) as [o|] eqn:G'; [|discriminate]. cbn [bind] in S.
        destruct o as [v|]; inv3 S; split; auto; repeat constructor.
        -- repeat (apply ol_app; try ol). apply ol_wire. eapply ole_get; eauto.
        -- cbn [to_line]. ol.
  - apply set_line_iff in C. destruct (set_key_line _ _ _ L C) as (Kk & Kv).
    unfold handle_set in S. destruct (negb (nonempty key) || negb (nonempty value)).
    { inv3 S. split; auto. repeat constructor. cbn [to_line]. ol. }
    destruct (str_eqb key (lit "game.variant")).
    { destruct (variant_from_str value); inv3 S; split; try (split; auto; fail); auto; repeat constructor.
      cbn [to_line]. ol. }
    destruct (find _ _) as [spec|].
    2:{ inv3 S. split; auto. repeat constructor. cbn [to_line]. ol. }
    destruct (parse_value spec value) as [x|parsed] eqn:P.
    { inv3 S. split; auto. repeat constructor. cbn [to_line]. apply ol_app; [ol|auto]. }
    destruct (eng_set A e key parsed) as [(e1, r)|] eqn:R; [|discriminate]. cbn [bind] in S.
    destruct r as [er|u]; inv3 S.
    + split; auto. constructor; [|constructor]. pose proof (ole_set A O _ _ _ _ _ R) as X.
      destruct er as [s|s|s]; cbn [map_engine_set_error error_one_line] in *.
      * cbn [to_line]. ol.
      * destruct (nonempty s); cbn [to_line]; apply ol_app; auto; ol.
      * cbn [to_line]. apply ol_app; [ol|]. apply ol_app; [ol|auto].
    + split; [|constructor]. split; auto. split; auto. constructor; auto. cbn [snd]. eapply parse_tidy; eauto.
  - destruct (gnuid_decode m (s_variant st) (trim id)) as [[er|pos]|]; [| |discriminate]; cbn [bind] in S.
    + inv3 S. split; auto. repeat constructor. cbn [to_line]. ol.
    + destruct (set_position (s_game st) pos) as (?, g). inv3 S. split; [split; auto|constructor].
  - inv3 S. split; auto. repeat constructor. cbn [to_line]. ol.
  - inv3 S. split; auto. repeat constructor. cbn [to_line]. ol.
  - destruct (handle_dice m st rest) as [(st1, o1)|] eqn:D; [|discriminate]. cbn [bind] in S. inv3 S.
    unfold handle_dice in D. destruct (split_ws rest) as [|w1 [|w2 [|w3 ws]]].
    1,2,4: inv2 D; split; auto; repeat constructor; cbn [to_line]; ol.
    destruct (parse_usize w1), (parse_usize w2).
    2,3,4: inv2 D; split; auto; repeat constructor; cbn [to_line]; ol.
    destruct (_ && _).
    + destruct (dice_new m _ _); [|discriminate]. cbn [bind] in D. inv2 D. split; [split; auto|constructor].
    + inv2 D; split; auto; repeat constructor; cbn [to_line]; ol.
  - destruct (handle_go A e st) as [(e1, o1)|] eqn:D; [|discriminate]. cbn [bind] in S. inv3 S. split; auto.
    unfold handle_go in D. destruct (s_dice st) as [d|].
    + destruct (choose_move A e (s_game st) d) as [(e2, r)|] eqn:R; [|discriminate]. cbn [bind] in D.
      destruct r as [er|mv]; inv2 D; repeat constructor.
      * cbn [to_line]. apply ol_app; [ol|]. apply ol_app; [ol|]. apply ol_err. eapply ole_move; eauto.
      * apply ol_app; [ol|apply ol_steps].
    + inv2 D. repeat constructor. cbn [to_line]. ol.
  - inv3 S. split; auto. repeat constructor. cbn [to_line]. ol.
  - inv3 S. split; auto. repeat constructor. cbn [to_line]. ol.
  - inv3 S. split; auto.
  - inv3 S. split; auto. repeat constructor. cbn [to_line]. ol.
Qed.

Lemma loop_tidy {E} m (A : engine E) input : forall e st log r, one_line_engine A ->
  (forall line, In (Some line) input -> one_line line) -> tidy A st ->
  session_loop m A e st input = (log, r) -> Forall (fun lo => Forall one_line (snd lo)) log.
Proof.
  induction input as [|[line|] rest IH]; intros e st log r O L T X; cbn [session_loop] in X.
  - inversion X; subst. constructor.
  - destruct (session_step m A e st line) as [(((e', st'), out), q)|] eqn:S; [|inversion X; subst; constructor].
    destruct (step_tidy m A e st line e' st' out q O (L line (or_introl eq_refl)) T S) as (T' & F).
    destruct q.
    + inversion X; subst. constructor; [exact F|constructor].
    + destruct (session_loop m A e' st' rest) as (log', r') eqn:X'. inversion X; subst.
      constructor; [exact F|]. eapply IH; eauto. intros l I. apply L. right. exact I.
  - inversion X; subst. constructor.
Qed.

(** ** Reading the output back *)
Lemma first_line a b s t : one_line a -> one_line b -> a ++ 10 :: s = b ++ 10 :: t -> a = b /\ s = t.
Proof.
  revert b. induction a as [|x a IH]; intros [|y b] A B E; cbn in E.
  - inversion E. auto.
  - inversion E; subst. exfalso. apply B. left. reflexivity.
  - inversion E; subst. exfalso. apply A. left. reflexivity.
  - inversion E; subst. destruct (IH b) as (-> & ->); auto; [intros I; apply A; right; auto|intros I; apply B; right; auto].
Qed.
Lemma written_inj a : forall b, Forall one_line a -> Forall one_line b -> written a = written b -> a = b.
Proof.
  unfold written. induction a as [|x a IH]; intros [|y b] FA FB E; cbn in E; auto.
  - destruct y; discriminate.
  - destruct x; discriminate.
  - rewrite <- !app_assoc in E. cbn in E. inversion FA; inversion FB; subst.
    destruct (first_line x y _ _ ltac:(auto) ltac:(auto) E) as (-> & E'). f_equal. apply IH; auto.
Qed.

(** ** C83 *)

(** If the engine's texts are single lines, then so is every reply of every session, whatever
    is sent to it. *)
Theorem C83_single_lines : forall E m (A : engine E) e input log r,
  one_line_engine A -> (forall line, In (Some line) input -> one_line line) ->
  run_ubgi_stdio m A e input = (log, r) ->
  forall line out, In (line, out) log -> Forall one_line out.
Proof.
  intros E m A e input log r O L X line out I.
  pose proof (loop_tidy m A input e _ log r O L (tidy_new A e O) X) as F.
  rewrite Forall_forall in F. exact (F _ I).
Qed.

(** So the written stream can be taken apart in only one way: into the replies. *)
Theorem C83_read_back : forall E m (A : engine E) e input log r,
  one_line_engine A -> (forall line, In (Some line) input -> one_line line) ->
  run_ubgi_stdio m A e input = (log, r) ->
  forall lines, Forall one_line lines -> written lines = written (concat (map snd log)) ->
  lines = concat (map snd log).
Proof.
  intros E m A e input log r O L X lines F W. apply written_inj; auto.
  pose proof (loop_tidy m A input e _ log r O L (tidy_new A e O) X) as G.
  clear -G. induction G as [|x l H G IH]; cbn [map concat]; [constructor|]. apply Forall_app. auto.
Qed.

(** A host can wait for the answer: a question gets exactly one line, its answer or an error;
    everything else but the two listings ([keys], [ubgi], see C42) gets silence or one error. *)
Theorem C83_answers : forall E m (A : engine E) e st line e' st' out q,
  session_step m A e st line = Ret (e', st', out, q) ->
  (is_line (lit "isready") line -> out = [lit "readyok"] \/ one_error out) /\
  (forall key, get_line line key -> (exists t, out = [lit "value " ++ key ++ lit " " ++ t]) \/ one_error out) /\
  (go_line line -> (exists t, out = [lit "bestmove " ++ t]) \/ one_error out) /\
  (~ is_line (lit "isready") line -> (forall key, ~ get_line line key) -> ~ go_line line ->
   ~ is_line (lit "keys") line -> ~ is_line (lit "ubgi") line -> out = [] \/ one_error out).
Proof.
  intros E m A e st line e' st' out q S.
  assert (ER : forall p, one_error [to_line p]).
  { intros [d|d|d|d]; cbn [to_line]; eexists.
    - change (lit "error bad_command ") with (lit "error " ++ lit "bad_command "). rewrite <- app_assoc. reflexivity.
    - change (lit "error bad_value ") with (lit "error " ++ lit "bad_value "). rewrite <- app_assoc. reflexivity.
    - change (lit "error bad_state ") with (lit "error " ++ lit "bad_state "). rewrite <- app_assoc. reflexivity.
    - change (lit "error unsupported ") with (lit "error " ++ lit "unsupported "). rewrite <- app_assoc. reflexivity. }
  rewrite isready_iff, go_iff, keys_iff, ubgi_iff. setoid_rewrite get_line_iff.
  destruct (step_inv m A e st line S) as [(T & -> & -> & -> & _)|(_ & H & _)].
  { rewrite (blank_cmd _ T). repeat split; try discriminate. auto. }
  clear S. rename H into S.
  destruct (cmd_of line) as [| | | |key|key value|id| | |rest| | | | |] eqn:C; cbn [handle_command] in S;
    (split; [intros X|split; [intros k X|split; [intros X|intros X1 X2 X3 X4 X5]]]); try discriminate; try congruence;
    try (inv3 S; auto; fail).
  - apply bind_inv in S. destruct S as ((e1, [er|u]) & _ & S); inv3 S; auto.
  - inversion X; subst k. apply bind_inv in S. destruct S as (o & H1 & S). inv3 S. unfold handle_get in H1.
    destruct (str_eqb key (lit "game.variant")) eqn:K.
    + apply str_eqb_eq in K. subst key. apply Ret_inj in H1. subst o. left. eexists. reflexivity.
    + destruct (values_get _ _); [apply Ret_inj in H1; subst o; left; eexists; reflexivity|].
      apply bind_inv in H1. destruct H1 as ([v|] & _ & H1); apply Ret_inj in H1; subst o; [left; eexists; reflexivity|auto].
  - unfold handle_set in S. destruct (_ || _); [inv3 S; auto|].
    destruct (str_eqb _ _); [destruct (variant_from_str value); inv3 S; auto|].
    destruct (find _ _) as [o|]; [|inv3 S; auto].
    destruct (parse_value o value); [inv3 S; auto|].
    apply bind_inv in S. destruct S as ((e1, [er|u]) & _ & S); inv3 S; auto.
  - apply bind_inv in S. destruct S as ([er|p] & _ & S); [inv3 S; auto|].
    destruct (set_position (s_game st) p). inv3 S; auto.
  - apply bind_inv in S. destruct S as ((s1, o1) & D & S). inv3 S.
    unfold handle_dice in D. destruct (split_ws rest) as [|w1 [|w2 [|w3 ws]]].
    1,2,4: inv2 D; auto.
    destruct (parse_usize w1), (parse_usize w2). 2,3,4: inv2 D; auto.
    destruct (_ && _); [|inv2 D; auto]. apply bind_inv in D. destruct D as (d & _ & D). inv2 D; auto.
  - apply bind_inv in S. destruct S as ((e1, o) & H1 & S). inv3 S. unfold handle_go in H1.
    destruct (s_dice _); [|inv2 H1; auto].
    apply bind_inv in H1. destruct H1 as ((e2, [er|mv]) & _ & H1); inv2 H1; [auto|left; eexists; reflexivity].
Qed.

(** Every line written begins with one of the words of the protocol. *)
Theorem C83_kinds : forall E m (A : engine E) e0 h e st,
  reaches m A e0 h e st -> forall line out reply, In (line, out) h -> In reply out -> known_reply reply.
Proof.
  intros E m A e0 h e st R. induction R as [|h e st line e' st' out q R IH S]; intros l o reply I J; [destruct I|].
  apply in_app_iff in I. destruct I as [I|[I|[]]]; [eapply IH; eauto|]. inversion I; subst l o.
  destruct (C83_answers E m A e st line e' st' out q S) as (A1 & A2 & A3 & A4).
  destruct (@C42_replies E m A e0 h e st line e' st' out q R S) as (_ & _ & _ & _ & B1 & B2 & _).
  assert (ERR : one_error out -> known_reply reply).
  { intros (t & ->). destruct J as [<-|[]]. right. right. exists (lit "error "). split; [do 7 right; left; reflexivity|eexists; reflexivity]. }
  assert (KEY : forall x, In x (key_lines (eng_options A e0)) -> known_reply x).
  { intros x [<-|K]; (right; right; exists (lit "key "); split; [do 4 right; left; reflexivity|]).
    - eexists. exact eq_refl.
    - apply in_map_iff in K. destruct K as (op & <- & _). unfold begins_with.
      destruct op as [k [mn|] [mx|] d mi|k d mi|k cs d mi|k d mi]; cbn [to_key_line]; destruct mi; cbn [with_minor];
        eexists; rewrite <- ?app_assoc; reflexivity. }
  destruct (list_eq_dec Z.eq_dec (lit "isready") (trim line)) as [Q1|Q1].
  { apply stripped_iff in Q1. destruct (A1 Q1) as [->|X]; auto. destruct J as [<-|[]]. left. reflexivity. }
  destruct (list_eq_dec Z.eq_dec (lit "keys") (trim line)) as [Q2|Q2].
  { apply stripped_iff in Q2. rewrite (B1 Q2) in J. auto. }
  destruct (list_eq_dec Z.eq_dec (lit "ubgi") (trim line)) as [Q3|Q3].
  { apply stripped_iff in Q3. rewrite (B2 Q3) in J. apply in_app_iff in J. destruct J as [J|J].
    - destruct J as [<-|[<-|[<-|[<-|[]]]]]; right; right.
      + exists (lit "id name "). split; [left; reflexivity|eexists; reflexivity].
      + exists (lit "id author "). split; [right; left; reflexivity|exists (lit "bkgm"); reflexivity].
      + exists (lit "id version "). split; [do 2 right; left; reflexivity|eexists; reflexivity].
      + exists (lit "proto "). split; [do 3 right; left; reflexivity|exists (lit "0.2"); reflexivity].
    - apply in_app_iff in J. destruct J as [J|[<-|[]]]; auto. right. left. reflexivity. }
  destruct (cmd_of line) as [| | | |key|key value|id| | |rest| | | | |] eqn:C;
    try (destruct A4 as [->|X]; [unfold is_line; rewrite stripped_iff; auto|intros k; rewrite get_line_iff, C; discriminate|
         rewrite go_iff, C; discriminate|unfold is_line; rewrite stripped_iff; auto|unfold is_line; rewrite stripped_iff; auto|destruct J|auto]; fail).
  - apply get_line_iff in C. destruct (A2 _ C) as [(t & ->)|X]; auto. destruct J as [<-|[]]. right. right. exists (lit "value ").
    split; [do 5 right; left; reflexivity|eexists; reflexivity].
  - apply go_iff in C. destruct (A3 C) as [(t & ->)|X]; auto. destruct J as [<-|[]]. right. right. exists (lit "bestmove ").
    split; [do 6 right; left; reflexivity|eexists; reflexivity].
Qed.

(** ** Cases *)
Lemma C83_engine_case : one_line_engine passing_engine.
Proof.
  constructor; cbn; intros; try discriminate; try ol.
  repeat constructor; try ol.
Qed.
(** The session of C42_ex meets the hypotheses; its 14 lines can be read back. *)
Example C83_case : (forall line, In (Some line) demo -> one_line line) /\
  (exists log r, run_ubgi_stdio Debug passing_engine tt demo = (log, r) /\ List.length (concat (map snd log)) = 14%nat) /\
  go_line (lit " go ") /\ get_line (lit "get engine.ply") (lit "engine.ply").
Proof.
  split; [|split; [|split]].
  - intros line I. unfold demo in I. cbn [map] in I.
    repeat (destruct I as [X|I]; [inversion X; ol|]). destruct I.
  - eexists. eexists. split; [vm_compute; reflexivity|reflexivity].
  - left. apply stripped_iff. reflexivity.
  - apply get_line_iff. reflexivity.
Qed.
(** The hypothesis on the engine is needed: a name with a line feed comes out as two lines. *)
Definition split_engine : engine unit := {|
  id_name := fun _ => lit "one" ++ [10] ++ lit "readyok"; id_version := fun _ => lit "1";
  on_ready := fun _ => Ret (tt, inr tt); eng_options := fun _ => [];
  eng_get := fun _ _ => Ret None; eng_set := fun _ _ _ => Ret (tt, inr tt);
  choose_move := fun _ _ _ => Ret (tt, inr []) |}.
Example C83_needed : exists out, In (lit "ubgi", out) (fst (run_ubgi_stdio Release split_engine tt [Some (lit "ubgi")])) /\
  ~ Forall one_line out.
Proof.
  eexists. split; [left; vm_compute; reflexivity|]. intros F. inversion F as [|? ? X _]. apply X. vm_compute. auto 20.
Qed.
Print Assumptions C83_read_back.
Print Assumptions C83_kinds.
