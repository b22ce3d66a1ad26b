(** Property C98: a UBGI session can be taken up where another one stopped.  Read with SpecResume.v. *)
From Coq Require Import Strings.String.
From Verif Require Import SpecResume UbgiFacts PropIdentity PropUbgi PropReplies PropStream.
Unset Implicit Arguments.
Open Scope Z_scope.

Section Resume.
Context {E : Type} (m : mode) (A : engine E) (cur : E -> str -> option option_value) (SE : is_its_settings A cur).
Notation same := (same_settings cur).

Lemma same_refl e : same e e. Proof. intros k. reflexivity. Qed.
Lemma same_sym e f : same e f -> same f e. Proof. intros H k. symmetry. apply H. Qed.
Lemma same_trans e f g : same e f -> same f g -> same e g. Proof. intros H K k. rewrite (H k). apply K. Qed.

(** Two sessions in the same state, as far as answers go. *)
Definition twin (st su : session) : Prop :=
  s_variant st = s_variant su /\ s_game st = s_game su /\ s_dice st = s_dice su /\ s_option_specs st = s_option_specs su /\
  s_variant_key st = s_variant_key su /\
  forall key, key <> GV -> values_get key (s_option_values st) = values_get key (s_option_values su).

Lemma twin_step e st f su line : same e f -> twin st su ->
  match session_step m A e st line with
  | Panic k => session_step m A f su line = Panic k
  | Ret (e', st', out, q) => exists f' su', session_step m A f su line = Ret (f', su', out, q) /\ same e' f' /\ twin st' su'
  end.
Proof.
  intros S T. destruct (trim line) eqn:Tr.
  { rewrite !step_blank by auto. eauto 8. }
  assert (N : trim line <> []) by congruence. rewrite !step_cmd by auto.
  assert (H : match handle_command m A e st (cmd_of line) with
    | Panic k => handle_command m A f su (cmd_of line) = Panic k
    | Ret (e', st', out) => exists f' su', handle_command m A f su (cmd_of line) = Ret (f', su', out) /\ same e' f' /\ twin st' su'
    end).
  2: { destruct (handle_command m A e st (cmd_of line)) as [[[e' st'] out]|k].
       - destruct H as (f' & su' & -> & S' & T'). cbn [bind]. eauto 8.
       - rewrite H. reflexivity. }
  pose proof T as (Tv & Tg & Td & To & Tk & Tm).
  destruct (cmd_of line) as [| | | |key|key v|id| | |rest| | | | |] eqn:C; cbn [handle_command];
    try (do 2 eexists; split; [reflexivity|]; split; [exact S|exact T]).
  - destruct (its_names _ _ SE e f S) as (-> & ->). unfold render_key_lines. rewrite Tk, To. eauto 8.
  - pose proof (its_ready _ _ SE e f S) as Q. pose proof (its_ready_keeps _ _ SE e) as K1. pose proof (its_ready_keeps _ _ SE f) as K2.
    destruct (on_ready A e) as [[e1 r]|k], (on_ready A f) as [[f1 r']|k']; cbn [answer] in Q; try discriminate; [|cbn [bind]; congruence].
    assert (r' = r) as -> by congruence.
    assert (same e1 f1) by (eapply same_trans; [eapply K1; reflexivity|]; eapply same_trans; [exact S|]; apply same_sym; eapply K2; reflexivity).
    destruct r; cbn [bind]; eauto 8.
  - rewrite Tv. do 2 eexists. split; [reflexivity|]. split; [exact S|]. repeat split; auto.
  - unfold render_key_lines. rewrite Tk, To. eauto 8.
  - unfold handle_get. rewrite Tv. destruct (str_eqb key (lit "game.variant")) eqn:Q; [cbn [bind]; eauto 8|].
    rewrite (Tm key) by (intros ->; vm_compute in Q; discriminate).
    destruct (values_get key (s_option_values su)); [cbn [bind]; eauto 8|]. rewrite (its_get _ _ SE e f key S).
    destruct (eng_get A f key) as [[v|]|k]; cbn [bind]; eauto 8.
  - unfold handle_set. destruct (_ || _); [eauto 8|].
    destruct (str_eqb key _) eqn:Q.
    { destruct (variant_from_str v) as [w|]; [|eauto 8]. rewrite Td. do 2 eexists. split; [reflexivity|]. split; [exact S|]. repeat split; auto. }
    rewrite To. destruct (find _ _) as [o|]; [|eauto 8].
    destruct (parse_value o v) as [er|w]; [eauto 8|].
    pose proof (its_values _ _ SE e f key w) as V.
    destruct (eng_set A e key w) as [[e1 r]|k] eqn:E1, (eng_set A f key w) as [[f1 r']|k'] eqn:F1; cbn [answer] in V; try discriminate; cbn [bind]; [|congruence].
    assert (r' = r) as -> by congruence. destruct r as [er|u].
    + pose proof (its_refused _ _ SE _ _ _ _ _ E1). pose proof (its_refused _ _ SE _ _ _ _ _ F1).
      do 2 eexists. split; [reflexivity|]. split; [|exact T]. eapply same_trans; [eassumption|]. eapply same_trans; [exact S|]. apply same_sym; assumption.
    + destruct (its_set _ _ SE _ _ _ _ _ E1) as (P1 & P2). destruct (its_set _ _ SE _ _ _ _ _ F1) as (P3 & P4).
      do 2 eexists. split; [reflexivity|]. split.
      * intros k. destruct (list_eq_dec Z.eq_dec k key) as [->|D]; [congruence|]. rewrite P2, P4 by auto. apply S.
      * repeat split; auto. cbn [with_values s_option_values]. unfold values_insert. intros k D. cbn [values_get].
        destruct (str_eqb k key); auto.
  - rewrite Tv, Tg, Td. destruct (gnuid_decode m (s_variant su) (trim id)) as [[er|p]|] eqn:D; cbn [bind]; [eauto 8| |reflexivity].
    destruct (set_position (s_game su) p) as [x g1]. do 2 eexists. split; [reflexivity|]. split; [exact S|]. repeat split; auto.
  - unfold handle_dice. rewrite Tv, Tg.
    destruct (split_ws rest) as [|w1 [|w2 [|w3 ws]]]; cbn [bind]; try (eauto 8; fail).
    destruct (parse_usize w1) as [x|]; [|cbn [bind]; eauto 8].
    destruct (parse_usize w2) as [y|]; [|cbn [bind]; eauto 8].
    destruct (_ && _); [|cbn [bind]; eauto 8].
    destruct (dice_new _ _ _) as [nd|]; cbn [bind]; [|reflexivity].
    do 2 eexists. split; [reflexivity|]. split; [exact S|]. repeat split; auto.
  - unfold handle_go. rewrite Td, Tg. destruct (s_dice su) as [d|]; [|cbn [bind]; eauto 8].
    pose proof (its_move _ _ SE e f (s_game su) d S) as Q. pose proof (its_move_keeps _ _ SE e (s_game su) d) as K1.
    pose proof (its_move_keeps _ _ SE f (s_game su) d) as K2.
    destruct (choose_move A e (s_game su) d) as [[e1 r]|k], (choose_move A f (s_game su) d) as [[f1 r']|k']; cbn [answer] in Q; try discriminate; [|cbn [bind]; congruence].
    assert (r' = r) as -> by congruence.
    assert (same e1 f1) by (eapply same_trans; [eapply K1; reflexivity|]; eapply same_trans; [exact S|]; apply same_sym; eapply K2; reflexivity).
    destruct r; cbn [bind]; eauto 8.
Qed.

Lemma twin_loop : forall b e st f su, same e f -> twin st su ->
  fst (session_loop m A e st b) = fst (session_loop m A f su b) /\
  ends_alike cur (snd (session_loop m A e st b)) (snd (session_loop m A f su b)).
Proof.
  induction b as [|[line|] b IH]; intros e st f su S T; cbn [session_loop fst snd ends_alike].
  - destruct T as (? & ? & ? & _). auto.
  - pose proof (twin_step e st f su line S T) as H.
    destruct (session_step m A e st line) as [[[[e' st'] out] q]|k].
    + destruct H as (f' & su' & -> & S' & T'). destruct q.
      * cbn [fst snd ends_alike]. destruct T' as (? & ? & ? & _). auto 6.
      * destruct (IH e' st' f' su' S' T') as (I1 & I2).
        destruct (session_loop m A e' st' b), (session_loop m A f' su' b). cbn [fst snd] in *. split; [congruence|exact I2].
    + rewrite H. cbn. auto.
  - destruct T as (? & ? & ? & _). auto.
Qed.

(** *** What the history left *)
Variable e0 : E.
Notation os := (eng_options A e0).
Definition shaped (key : str) (v : option_value) : Prop :=
  trimmed key /\ ~ In 32 key /\ trimmed (to_wire v) /\ (exists o, declared os key o /\ parse_value o (to_wire v) = inr v) /\
  exists e1 e2 u, eng_set A e1 key v = Ret (e2, inr u).

Lemma trimmed_of k : trim k = k -> k <> [] -> trimmed k.
Proof. intros T N. destruct (trim_result k) as [X|X]; congruence. Qed.
Lemma word_trimmed w : word w -> trimmed w.
Proof. intros (N & W). apply no_ws_trimmed; auto. Qed.
Lemma wire_trimmed o t v : denotes o t v -> trimmed t -> trimmed (to_wire v).
Proof.
  destruct o as [k mn mx d mi|k d mi|k cs d mi|k d mi]; cbn [denotes]; intros D T.
  - destruct D as (n & -> & _). cbn [to_wire]. apply word_trimmed, fmt_int_word.
  - destruct D as [(-> & ->)|(-> & ->)]; exact T.
  - destruct D as (_ & ->). exact T.
  - subst v. exact T.
Qed.

Lemma set_line_shape line key t : set_line line key t -> trim key = key /\ ~ In 32 key /\ trim t = t.
Proof.
  intros (r & k & _ & N & K & V). apply stripped_iff in K. subst key. split; [apply trim_trim|]. split.
  - intros I. apply N. destruct (trim_spec k) as (a & b & Ek & _ & _). rewrite Ek. apply in_or_app. right. apply in_or_app. left. exact I.
  - destruct V as [(v & _ & V)|(_ & ->)]; [|reflexivity]. apply stripped_iff in V. subst t. apply trim_trim.
Qed.

Lemma one_step h e st line e' st' out q : reaches m A e0 h e st -> session_step m A e st line = Ret (e', st', out, q) ->
  (exists key v, key <> GV /\ sets_option os key [] line out v /\ shaped key v /\ cur e' key = Some v /\
     (forall k, k <> key -> cur e' k = cur e k) /\ s_option_values st' = values_insert key v (s_option_values st)) \/
  ((forall key v, key <> GV -> ~ sets_option os key [] line out v) /\ same e' e /\ s_option_values st' = s_option_values st).
Proof.
  intros R S. pose proof (i_specs (reaches_invariant R)) as Sp.
  apply step_inv in S. destruct S as [(Tr & -> & -> & -> & _)|(N & H & _)].
  { right. split; [|split; [apply same_refl|reflexivity]]. intros key v _ (_ & o & t & L & _). apply set_line_iff in L.
    pose proof (blank_cmd _ Tr). congruence. }
  assert (K : (forall k v, cmd_of line <> CSet k v) -> same e' e /\ s_option_values st' = s_option_values st ->
     (forall key v, key <> GV -> ~ sets_option os key [] line out v) /\ same e' e /\ s_option_values st' = s_option_values st).
  { intros X Y. split; [|exact Y]. intros key v _ (_ & o & t & L & _). apply set_line_iff in L. exact (X _ _ L). }
  destruct (cmd_of line) as [| | | |key|key t|id| | |rest| | | | |] eqn:C; cbn [handle_command] in H.
  all: try (right; apply K; [discriminate|]; inversion H; subst; split; [apply same_refl|reflexivity]).
  - right. apply K; [discriminate|]. apply bind_inv in H. destruct H as ((e1, r) & O & H).
    pose proof (its_ready_keeps _ _ SE _ _ _ O). destruct r; inversion H; subst; auto.
  - right. apply K; [discriminate|]. apply bind_inv in H. destruct H as (o & _ & H). inversion H; subst; split; [apply same_refl|reflexivity].
  - unfold handle_set in H.
    clear K.
    destruct (negb (nonempty key) || negb (nonempty t)) eqn:Ne.
    { right. inversion H; subst. split; [|split; [apply same_refl|reflexivity]]. intros k v _ (O & _). discriminate. }
    assert (Kn : key <> [] /\ t <> []) by (destruct key, t; try discriminate; split; discriminate).
    destruct (str_eqb key (lit "game.variant")) eqn:Q.
    { apply str_eqb_eq in Q.
      assert (X : forall k v, k <> GV -> ~ sets_option os k [] line out v).
      { intros k v G (_ & o & t' & L & _). apply set_line_iff in L. unfold GV in G. congruence. }
      right. split; [exact X|]. destruct (variant_from_str t); inversion H; subst; (split; [apply same_refl|reflexivity]). }
    assert (G : key <> GV) by (intros ->; vm_compute in Q; discriminate).
    assert (NO : forall B : Prop, (out <> [] \/ forall o v, declared os key o -> ~ denotes o t v) -> same e' e /\ s_option_values st' = s_option_values st -> B \/
      ((forall key v, key <> GV -> ~ sets_option os key [] line out v) /\ same e' e /\ s_option_values st' = s_option_values st)).
    { intros B X Y. right. split; [|exact Y]. intros k v _ (O & o & t' & L & D & Dn). apply set_line_iff in L.
      assert (k = key /\ t' = t) as (-> & ->) by (split; congruence). destruct X as [X|X]; [exact (X O)|exact (X o v D Dn)]. }
    rewrite Sp in H. destruct (find (fun spec => str_eqb (spec_key spec) key) os) as [o|] eqn:F.
    2: { apply NO; [left|]; inversion H; subst; [discriminate|split; [apply same_refl|reflexivity]]. }
    destruct (parse_value o t) as [er|v] eqn:P.
    { apply NO; [left|]; inversion H; subst; [discriminate|split; [apply same_refl|reflexivity]]. }
    apply bind_inv in H. destruct H as ((e1, [er|u]) & Es & H).
    { pose proof (its_refused _ _ SE _ _ _ _ _ Es). apply NO; [left|]; inversion H; subst; [discriminate|auto]. }
    inversion H; subst. destruct (its_set _ _ SE _ _ _ _ _ Es) as (P1 & P2).
    apply find_declared in F. assert (L : set_line line key t) by (apply set_line_iff, C).
    destruct (set_line_shape _ _ _ L) as (Tk & N32 & Tt). pose proof (proj1 (parse_value_iff _ _ _) P) as D.
    left. exists key, v. split; [exact G|]. split; [split; [reflexivity|eauto]|]. split.
    { split; [apply trimmed_of; tauto|]. split; [exact N32|]. split; [eapply wire_trimmed; [exact D|apply trimmed_of; tauto]|].
      split; [exists o; split; [exact F|eapply C36_wire_round_trip; exact P]|eauto]. }
    split; [exact P1|]. split; [exact P2|reflexivity].
  - right. apply K; [discriminate|]. apply bind_inv in H. destruct H as ([er|p] & _ & H); [inversion H; subst; split; [apply same_refl|reflexivity]|].
    destruct (set_position (s_game st) p). inversion H; subst. split; [apply same_refl|reflexivity].
  - right. apply K; [discriminate|]. destruct (handle_dice_iff m st rest) as [(a & b & d & _ & _ & _ & Hd)|(_ & Hd)]; rewrite Hd in H; cbn in H; inversion H; subst; (split; [apply same_refl|reflexivity]).
  - right. apply K; [discriminate|]. apply bind_inv in H. destruct H as ((e1, o) & Hg & H). inversion H; subst. split; [|reflexivity].
    unfold handle_go in Hg. destruct (s_dice st') as [d|]; [|inversion Hg; apply same_refl].
    apply bind_inv in Hg. destruct Hg as ((e2, r) & Em & Hg). pose proof (its_move_keeps _ _ SE _ _ _ _ _ Em). destruct r; inversion Hg; subst; auto.
Qed.

Lemma trace h e st : reaches m A e0 h e st -> cur e GV = cur e0 GV /\ forall key, key <> GV ->
  (exists v, last_given os h key v /\ values_get key (s_option_values st) = Some v /\ cur e key = Some v /\ shaped key v) \/
  ((forall line out v, In (line, out) h -> ~ sets_option os key [] line out v) /\
   values_get key (s_option_values st) = values_get key (s_option_values (session_new A e0)) /\ cur e key = cur e0 key).
Proof.
  induction 1 as [|h e st line e' st' out q R (G & IH) S].
  { split; [reflexivity|]. intros key _. right. split; [intros ? ? ? []|]. auto. }
  destruct (one_step _ _ _ _ _ _ _ _ R S) as [(key & v & Kg & SO & Sh & C1 & C2 & V)|(NS & Sm & V)].
  - split; [rewrite C2 by (intros X; apply Kg; congruence); exact G|]. intros k Kk.
    destruct (list_eq_dec Z.eq_dec k key) as [->|D].
    + left. exists v. split; [exists h, line, out, []; split; [reflexivity|split; [exact SO|intros ? ? ? []]]|].
      rewrite V. unfold values_insert. cbn [values_get]. rewrite (proj2 (str_eqb_eq key key) eq_refl). auto.
    + rewrite V. unfold values_insert. cbn [values_get].
      destruct (str_eqb k key) eqn:Q; [apply str_eqb_eq in Q; contradiction|]. rewrite (C2 k D).
      assert (NK : forall w, ~ sets_option os k [] line out w).
      { intros w (_ & o & t & L & _). destruct SO as (_ & o2 & t2 & L2 & _). apply set_line_iff in L, L2. congruence. }
      destruct (IH k Kk) as [(w & (h1 & l1 & o1 & h2 & -> & S1 & S2) & X)|(X1 & X2)].
      * left. exists w. split; [|exact X]. exists h1, l1, o1, (h2 ++ [(line, out)]). split; [rewrite <- app_assoc; reflexivity|].
        split; [exact S1|]. intros l' o' v' I. apply in_app_or in I. destruct I as [I|[I|[]]]; [apply S2, I|]. inversion I; subst. apply NK.
      * right. split; [|exact X2]. intros l' o' v' I. apply in_app_or in I. destruct I as [I|[I|[]]]; [apply X1, I|]. inversion I; subst. apply NK.
  - split; [rewrite (Sm GV); exact G|]. intros k Kk. rewrite V, (Sm k).
    destruct (IH k Kk) as [(w & (h1 & l1 & o1 & h2 & -> & S1 & S2) & X)|(X1 & X2)].
    + left. exists w. split; [|exact X]. exists h1, l1, o1, (h2 ++ [(line, out)]). split; [rewrite <- app_assoc; reflexivity|].
      split; [exact S1|]. intros l' o' v' I. apply in_app_or in I. destruct I as [I|[I|[]]]; [apply S2, I|]. inversion I; subst. apply (NS k v' Kk).
    + right. split; [|exact X2]. intros l' o' v' I. apply in_app_or in I. destruct I as [I|[I|[]]]; [apply X1, I|]. inversion I; subst. apply (NS k v' Kk).
Qed.

(** *** The script *)
Lemma set_text_cmd key v : shaped key v -> cmd_of (set_text (key, v)) = CSet key (to_wire v).
Proof.
  intros (((c & t & -> & Hc) & Tk2) & N & ((c1 & t1 & E1 & H1) & (c2 & t2 & E2 & H2)) & _). apply set_line_iff.
  exists ((c :: t) ++ lit " " ++ to_wire v), (c :: t). split; [|split; [exact N|split]].
  - apply stripped_iff. symmetry. apply trim_id. unfold set_text. cbn [fst snd]. split.
    + exists (chr "s"), (lit "et " ++ (c :: t) ++ lit " " ++ to_wire v). split; reflexivity.
    + exists c2, (lit "set " ++ (c :: t) ++ lit " " ++ t2). split; [|exact H2]. rewrite E2. rewrite <- !app_assoc. reflexivity.
  - apply stripped_iff. symmetry. apply trim_id. split; eauto.
  - left. exists (to_wire v). split; [reflexivity|]. apply stripped_iff. symmetry. apply trim_id. split; eauto.
Qed.
Lemma set_text_step f su key v : s_option_specs su = os -> key <> GV -> shaped key v -> exists f',
  session_step m A f su (set_text (key, v)) = Ret (f', with_values su (values_insert key v (s_option_values su)), [], false) /\
  cur f' key = Some v /\ forall k, k <> key -> cur f' k = cur f k.
Proof.
  intros Sp G Sh. pose proof (set_text_cmd key v Sh) as C. destruct Sh as (((c & t & -> & _) & _) & _ & ((c1 & t1 & E1 & _) & _) & (o & D & P) & (e1 & e2 & u & Es)).
  rewrite step_cmd by (apply cmd_nonblank; rewrite C; discriminate). rewrite C. cbn [handle_command]. unfold handle_set.
  replace (nonempty (to_wire v)) with true by (rewrite E1; reflexivity). cbn [nonempty negb orb].
  destruct (str_eqb (c :: t) (lit "game.variant")) eqn:Q; [apply str_eqb_eq in Q; contradiction|].
  apply find_declared in D. rewrite Sp, D, P.
  pose proof (its_values _ _ SE e1 f (c :: t) v) as V. rewrite Es in V.
  destruct (eng_set A f (c :: t) v) as [[f1 r]|k] eqn:F1; cbn [answer] in V; [|discriminate].
  assert (r = inr u) as -> by congruence. cbn [bind]. destruct (its_set _ _ SE _ _ _ _ _ F1) as (P1 & P2).
  exists f1. split; [reflexivity|]. auto.
Qed.

Definition quiet (l : str) : str * list str := (l, []).
Lemma walk_app : forall a b e st la e1 st1, walk m A e st a = (la, On e1 st1) ->
  walk m A e st (a ++ b) = (let '(lb, x) := walk m A e1 st1 b in (la ++ lb, x)).
Proof.
  induction a as [|line a IH]; intros b e st la e1 st1 W; cbn [walk app] in *.
  - inversion W; subst. destruct (walk m A e1 st1 b); reflexivity.
  - destruct (session_step m A e st line) as [[[[e' st'] out] q]|k]; [|inversion W].
    destruct q; [inversion W|]. destruct (walk m A e' st' a) as [l x] eqn:W'. inversion W; subst.
    rewrite (IH b _ _ _ _ _ W'). destruct (walk m A e1 st1 b); reflexivity.
Qed.

Lemma script_sets : forall kvs f su, s_option_specs su = os -> (forall key v, In (key, v) kvs -> key <> GV /\ shaped key v) ->
  (forall key v w, In (key, v) kvs -> In (key, w) kvs -> v = w) ->
  exists f' vals, walk m A f su (map set_text kvs) = (map quiet (map set_text kvs), On f' (with_values su vals)) /\
    cur f' GV = cur f GV /\ forall key, key <> GV ->
      (exists v, In (key, v) kvs /\ values_get key vals = Some v /\ cur f' key = Some v) \/
      ((forall v, ~ In (key, v) kvs) /\ values_get key vals = values_get key (s_option_values su) /\ cur f' key = cur f key).
Proof.
  induction kvs as [|(key, v) kvs IH]; intros f su Sp Sh Fn.
  { exists f, (s_option_values su). split; [destruct su; reflexivity|]. split; [reflexivity|]. intros k _. right. split; [intros w []|auto]. }
  destruct (Sh key v (or_introl eq_refl)) as (G & S1).
  destruct (set_text_step f su key v Sp G S1) as (f1 & St & C1 & C2).
  destruct (IH f1 (with_values su (values_insert key v (s_option_values su)))) as (f2 & vals & W & CG & H).
  { exact Sp. } { intros k w I. apply Sh. right. exact I. } { intros k w w' I I'. eapply Fn; right; eassumption. }
  exists f2, vals. split; [|split].
  - cbn [map walk]. rewrite St. rewrite W. reflexivity.
  - rewrite CG. apply C2. congruence.
  - intros k Kk. destruct (H k Kk) as [(w & I & X)|(X1 & X2 & X3)].
    + left. exists w. split; [right; exact I|exact X].
    + cbn [with_values s_option_values] in X2. unfold values_insert in X2. cbn [values_get] in X2.
      destruct (list_eq_dec Z.eq_dec k key) as [->|D].
      * left. exists v. split; [left; reflexivity|]. rewrite (proj2 (str_eqb_eq key key) eq_refl) in X2. split; [exact X2|congruence].
      * right. destruct (str_eqb k key) eqn:Q; [apply str_eqb_eq in Q; contradiction|]. split; [|split; [exact X2|rewrite X3; apply C2; exact D]].
        intros w [I|I]; [inversion I; subst; contradiction|exact (X1 w I)].
Qed.

Lemma variant_text_step f su k : session_step m A f su (lit "set game.variant " ++ variant_display k) = Ret (f, with_game su k (game_new k) (s_dice su), [], false).
Proof.
  assert (C : cmd_of (lit "set game.variant " ++ variant_display k) = CSet (lit "game.variant") (variant_display k)) by (destruct k; vm_compute; reflexivity).
  rewrite step_cmd by (apply cmd_nonblank; rewrite C; discriminate). rewrite C. cbn [handle_command]. unfold handle_set.
  replace (nonempty (variant_display k)) with true by (destruct k; reflexivity). cbn [negb orb nonempty lit].
  rewrite (proj2 (str_eqb_eq _ _) eq_refl), C34_display_roundtrip. reflexivity.
Qed.
Lemma position_text_step f su k id p : s_variant su = k -> g_variant (s_game su) = k -> stripped id id -> gnuid_decode m k id = Ret (inr p) ->
  session_step m A f su (lit "position gnubgid " ++ id) = Ret (f, with_game su k {| g_variant := k; g_position := p |} (s_dice su), [], false).
Proof.
  intros V Vg T D. apply stripped_iff in T.
  assert (C : cmd_of (lit "position gnubgid " ++ id) = CPositionGnubgid id).
  { apply gnubgid_line_iff. destruct id as [|c id'] eqn:Ei; [exfalso; destruct k; vm_compute in D; discriminate|]. rewrite <- Ei in *.
    exists id. split; [|apply stripped_iff; exact T]. apply stripped_iff. symmetry.
    destruct (trim_result id) as [X|X]; [congruence|]. rewrite <- T in X. destruct X as (_ & (c2 & t2 & E2 & H2)).
    apply trim_id. split.
    - exists (chr "p"), (lit "osition gnubgid " ++ id). split; reflexivity.
    - exists c2, (lit "position gnubgid " ++ t2). split; [rewrite E2, <- app_assoc; reflexivity|exact H2]. }
  rewrite step_cmd by (apply cmd_nonblank; rewrite C; discriminate). rewrite C. cbn [handle_command]. rewrite V, <- T, D. cbn [bind].
  pose proof (decode_variant _ _ _ D) as Vp. unfold set_position. rewrite Vp, Vg.
  replace (variant_eqb k k) with true by (destruct k; reflexivity). reflexivity.
Qed.
Lemma dice_text_step f su a b d : (1 <= a <= 6)%nat -> (1 <= b <= 6)%nat -> SpecDice.shows d a b = true ->
  session_step m A f su (lit "dice " ++ fmt_uint (Z.of_nat a) ++ lit " " ++ fmt_uint (Z.of_nat b)) =
  Ret (f, with_game su (s_variant su) (s_game su) (Some d), [], false).
Proof.
  intros Ha Hb Hd.
  assert (X : forall a b, (1 <= a <= 6)%nat -> (1 <= b <= 6)%nat ->
    cmd_of (lit "dice " ++ fmt_uint (Z.of_nat a) ++ lit " " ++ fmt_uint (Z.of_nat b)) = CDice (fmt_uint (Z.of_nat a) ++ lit " " ++ fmt_uint (Z.of_nat b)) /\
    split_ws (fmt_uint (Z.of_nat a) ++ lit " " ++ fmt_uint (Z.of_nat b)) = [fmt_uint (Z.of_nat a); fmt_uint (Z.of_nat b)] /\
    parse_usize (fmt_uint (Z.of_nat a)) = Some (Z.of_nat a) /\ parse_usize (fmt_uint (Z.of_nat b)) = Some (Z.of_nat b)).
  { clear. intros a b Ha Hb.
    assert (a = 1 \/ a = 2 \/ a = 3 \/ a = 4 \/ a = 5 \/ a = 6)%nat as Ca by lia.
    assert (b = 1 \/ b = 2 \/ b = 3 \/ b = 4 \/ b = 5 \/ b = 6)%nat as Cb by lia.
    destruct Ca as [ -> | [ -> | [ -> | [ -> | [ -> | -> ]]]]]; destruct Cb as [ -> | [ -> | [ -> | [ -> | [ -> | -> ]]]]]; vm_compute; auto. }
  destruct (X a b Ha Hb) as (C & W & P1 & P2). rewrite step_cmd by (apply cmd_nonblank; rewrite C; discriminate). rewrite C. cbn [handle_command].
  unfold handle_dice. rewrite W, P1, P2.
  replace ((1 <=? Z.of_nat a) && (Z.of_nat a <=? 6) && ((1 <=? Z.of_nat b) && (Z.of_nat b <=? 6))) with true
    by (symmetry; rewrite !andb_true_iff, !Z.leb_le; lia).
  rewrite !Nat2Z.id. destruct (dice_new_shows m Ha Hb) as (d' & -> & Sh & _). cbn [bind].
  rewrite (shows_fun _ _ _ _ Sh Hd). reflexivity.
Qed.

Lemma last_given_fun h key v w : last_given os h key v -> last_given os h key w -> v = w.
Proof.
  intros (h1 & l & o & h2 & E1 & S & N) (h1' & l' & o' & h2' & E2 & S' & N').
  destruct (Nat.lt_trichotomy (List.length h1) (List.length h1')) as [L|[L|L]].
  - exfalso. assert (I : In (l', o') h2).
    { subst h. pose proof (nth_mid h1' (l', o') h2') as K. rewrite <- E2 in K.
      rewrite nth_error_app2 in K by lia. destruct (List.length h1' - List.length h1)%nat as [|n] eqn:Z; [lia|]. cbn [nth_error] in K.
      eapply nth_error_In, K. }
    exact (N _ _ _ I S').
  - assert (h1 = h1' /\ (l, o) :: h2 = (l', o') :: h2') as (<- & X).
    { subst h. clear - E2 L. revert h1' E2 L. induction h1 as [|x h1 IH]; intros [|y h1'] E2 L; cbn in *; try lia; [auto|].
      injection E2 as -> E2. destruct (IH h1' E2 ltac:(lia)) as (-> & ?). auto. }
    inversion X; subst. destruct S as (_ & a & t & S & D & V), S' as (_ & a' & t' & S' & D' & V'). apply set_line_iff in S, S'.
    assert (t' = t) as -> by congruence. rewrite (declared_fun D' D) in V'. eapply denotes_fun; eauto.
  - exfalso. assert (I : In (l, o) h2').
    { subst h. pose proof (nth_mid h1 (l, o) h2) as K. rewrite E2 in K.
      rewrite nth_error_app2 in K by lia. destruct (List.length h1 - List.length h1')%nat as [|n] eqn:Z; [lia|]. cbn [nth_error] in K.
      eapply nth_error_In, K. }
    exact (N' _ _ _ I S).
Qed.

Lemma walk_script f0 h e st script : same e0 f0 -> eng_options A f0 = os -> reaches m A e0 h e st -> resumes m os h script ->
  exists f su, walk m A f0 (session_new A f0) script = (map quiet script, On f su) /\ same e f /\ twin st su.
Proof.
  intros S0 O0 R (kvs & k & p & pos & ds & d & -> & Kv & Vk & Pp & Pos & Dd & Ds).
  pose proof (reaches_invariant R) as I. destruct I as [I1 I2 I3 I4 I5 I6 I7 I8 I9].
  pose proof (trace _ _ _ R) as (TG & T). destruct (C38_unique m h) as (U1 & U2 & U3).
  assert (k = s_variant st) as -> by (eapply U1; eauto). assert (p = g_position (s_game st)) as -> by (eapply U2; eauto).
  assert (d = s_dice st) as -> by (eapply U3; eauto). clear U1 U2 U3.
  assert (N0 : session_new A f0 = session_new A e0) by (unfold session_new; rewrite O0; reflexivity). rewrite N0.
  destruct (script_sets kvs f0 (session_new A e0) eq_refl) as (f1 & vals & W & CG & H).
  { intros key v J. apply Kv in J. destruct J as (G & J). split; [exact G|].
    destruct (T key G) as [(w & L & _ & _ & Sh)|(N & _)]; [rewrite (last_given_fun _ _ _ _ J L); exact Sh|].
    exfalso. destruct J as (h1 & l & o & h2 & -> & S & _). eapply N; [|exact S]. apply in_or_app. right. left. reflexivity. }
  { intros key v w J J'. apply Kv in J, J'. eapply last_given_fun; [apply J|apply J']. }
  set (su0 := with_values (session_new A e0) vals) in *.
  assert (W2 : walk m A f1 su0 ([lit "set game.variant " ++ variant_display (s_variant st)] ++ pos ++ ds) =
    (map quiet ([lit "set game.variant " ++ variant_display (s_variant st)] ++ pos ++ ds),
     On f1 (with_game su0 (s_variant st) (s_game st) (s_dice st)))).
  { cbn [app walk map]. rewrite variant_text_step.
    set (su1 := with_game su0 (s_variant st) (game_new (s_variant st)) (s_dice su0)).
    assert (Wp : walk m A f1 su1 pos = (map quiet pos, On f1 (with_game su0 (s_variant st) (s_game st) (s_dice su0)))).
    { assert (Eg : forall q, q = g_position (s_game st) -> {| g_variant := s_variant st; g_position := q |} = s_game st).
      { intros q ->. destruct (s_game st) as [gv gp]. cbn in *. congruence. }
      destruct Pos as [(-> & Ep)|(id & -> & Tr & D)]; cbn [walk map].
      - unfold su1, game_new. rewrite (Eg (start_position (s_variant st))) by congruence. reflexivity.
      - rewrite (position_text_step f1 su1 (s_variant st) id _ eq_refl eq_refl Tr D). cbn [with_game s_dice su1].
        rewrite (Eg _ eq_refl). reflexivity. }
    rewrite (walk_app _ _ _ _ _ _ _ Wp).
    destruct Ds as [(-> & Ed)|(a & b & d' & Ed & Ha & Hb & Sh & ->)]; cbn [walk map].
    - rewrite Ed. rewrite app_nil_r. cbn. rewrite app_nil_r. reflexivity.
    - rewrite (dice_text_step _ _ _ _ _ Ha Hb Sh). cbn [with_game s_variant s_game]. rewrite Ed. rewrite map_app. reflexivity. }
  exists f1, (with_game su0 (s_variant st) (s_game st) (s_dice st)).
  split; [|split].
  - rewrite (walk_app _ _ _ _ _ _ _ W). rewrite W2. rewrite !map_app. reflexivity.
  - intros key. destruct (list_eq_dec Z.eq_dec key GV) as [->|G].
    { rewrite TG, CG. apply S0. }
    destruct (T key G) as [(v & L & _ & C1 & _)|(N & _ & C1)]; destruct (H key G) as [(w & J & _ & C2)|(N' & _ & C2)].
    + apply Kv in J. rewrite C1, C2. f_equal. eapply last_given_fun; [exact L|apply J].
    + exfalso. apply (N' v), Kv. auto.
    + exfalso. apply Kv in J. destruct J as (_ & h1 & l & o & h2 & -> & S & _). eapply N; [|exact S]. apply in_or_app. right. left. reflexivity.
    + rewrite C1, C2. apply S0.
  - split; [reflexivity|]. split; [reflexivity|]. split; [reflexivity|]. split; [exact I1|]. split; [exact I2|].
    intros key G. change (s_option_values (with_game su0 (s_variant st) (s_game st) (s_dice st))) with vals.
    destruct (T key G) as [(v & L & C1 & _ & _)|(N & C1 & _)]; destruct (H key G) as [(w & J & C2 & _)|(N' & C2 & _)].
    + apply Kv in J. rewrite C1, C2. f_equal. eapply last_given_fun; [exact L|apply J].
    + exfalso. apply (N' v), Kv. auto.
    + exfalso. apply Kv in J. destruct J as (_ & h1 & l & o & h2 & -> & S & _). eapply N; [|exact S]. apply in_or_app. right. left. reflexivity.
    + rewrite C1, C2. reflexivity.
Qed.
End Resume.

(** Restart an engine that is no more than its settings, send the lines of the script: they are all accepted without a
    word, and from then on every line gets the reply it would have got in the old session, to the same end. *)
Theorem C98_resume : forall E m (A : engine E) cur e0 f0 a b log r script,
  is_its_settings A cur -> same_settings cur e0 f0 -> eng_options A f0 = eng_options A e0 ->
  Forall (fun line => ~ is_line (lit "quit") line) a ->
  run_ubgi_stdio m A e0 (map Some a ++ b) = (log, r) -> (List.length a <= List.length log)%nat ->
  resumes m (eng_options A e0) (firstn (List.length a) log) script ->
  exists r', run_ubgi_stdio m A f0 (map Some script ++ b) = (map (fun line => (line, [])) script ++ skipn (List.length a) log, r') /\
    ends_alike cur r r'.
Proof.
  intros E m A cur e0 f0 a b log r script SE S0 O0 NQ X L Rs. unfold run_ubgi_stdio in *. rewrite loop_walk in X.
  destruct (walk m A e0 (session_new A e0) a) as [la [ra|e st]] eqn:W; pose proof (walk_length m A _ _ _ _ _ W) as LW; cbn beta iota in LW.
  { exfalso. inversion X; subst. revert NQ W L. clear. generalize (session_new A e0) as st. revert e0 log.
    induction a as [|line a IH]; intros e log st NQ W L; cbn [walk] in W; [inversion W|].
    inversion NQ; subst. destruct (session_step m A e st line) as [[[[e' st'] out] q]|k] eqn:S; [|inversion W; subst; cbn in L; lia].
    destruct q.
    - apply step_inv in S. destruct S as [(_ & _ & _ & _ & ?)|(_ & _ & Q)]; [discriminate|]. apply H1, quit_iff, Q. reflexivity.
    - destruct (walk m A e' st' a) as [l y] eqn:W'. inversion W; subst. cbn in L. eapply (IH e' l st' H2 W'). lia. }
  pose proof (walk_reaches m A e0 _ _ _ _ _ _ _ (reaches_start m A e0) W) as R. cbn [app] in R.
  destruct (session_loop m A e st b) as [lb rb] eqn:Lb. inversion X; subst log r.
  rewrite <- LW, firstn_app, Nat.sub_diag, firstn_all in Rs. cbn [firstn] in Rs. rewrite app_nil_r in Rs.
  destruct (walk_script m A cur SE e0 f0 la e st script S0 O0 R Rs) as (f & su & Ws & Sm & T).
  rewrite loop_walk, Ws. destruct (twin_loop m A cur SE b e st f su Sm T) as (T1 & T2). rewrite Lb in T1, T2. cbn [fst snd] in T1, T2.
  destruct (session_loop m A f su b) as [ls rs]. cbn [fst snd] in T1, T2. exists rs. split; [|exact T2].
  rewrite <- LW, skipn_app, Nat.sub_diag, skipn_all. cbn [skipn app]. rewrite T1. reflexivity.
Qed.

Lemma run_prefix {E} m (A : engine E) e0 : forall input h e st log r, reaches m A e0 h e st -> session_loop m A e st input = (log, r) ->
  forall n, exists e' st', reaches m A e0 (h ++ firstn n log) e' st'.
Proof.
  induction input as [|[line|] input IH]; intros h e st log r R X n; cbn [session_loop] in X.
  - inversion X; subst. rewrite firstn_nil, app_nil_r. eauto.
  - destruct (session_step m A e st line) as [[[[e' st'] out] q]|k] eqn:S.
    2: { inversion X; subst. rewrite firstn_nil, app_nil_r. eauto. }
    assert (R' : reaches m A e0 (h ++ [(line, out)]) e' st') by (econstructor; eauto).
    destruct n as [|n]; [cbn [firstn]; rewrite app_nil_r; eauto|].
    destruct q.
    + inversion X; subst. cbn [firstn]. rewrite firstn_nil. eauto.
    + destruct (session_loop m A e' st' input) as [l y] eqn:L. inversion X; subst. cbn [firstn].
      destruct (IH _ _ _ _ _ R' L n) as (e2 & st2 & R2). rewrite <- app_assoc in R2. eauto.
  - inversion X; subst. rewrite firstn_nil, app_nil_r. eauto.
Qed.

Lemma position_text m h p : position_after m h p ->
  p = start_position (vp_variant p) \/ exists id, stripped id id /\ gnuid_decode m (vp_variant p) id = Ret (inr p).
Proof.
  induction 1 as [|h line out p S|h line out p _ IH _]; [left; reflexivity| |exact IH].
  destruct S as (_ & [(k & _ & ->)|[(_ & k & _ & ->)|(id & k & L & _ & D)]]).
  - left. rewrite start_variant. reflexivity.
  - left. rewrite start_variant. reflexivity.
  - right. rewrite (decode_variant _ _ _ D). exists id. split; [|exact D].
    destruct L as (r & _ & L). apply stripped_iff in L. apply stripped_iff. subst id. symmetry. apply trim_trim.
Qed.

(** There always is such a script, of at most three lines more than there are options. *)
Theorem C98_script : forall E m (A : engine E) cur e0 input log r n, is_its_settings A cur ->
  run_ubgi_stdio m A e0 input = (log, r) ->
  exists script, resumes m (eng_options A e0) (firstn n log) script /\ (List.length script <= List.length (eng_options A e0) + 3)%nat.
Proof.
  intros E m A cur e0 input log r n SE X.
  destruct (run_prefix m A e0 input [] e0 (session_new A e0) log r (reaches_start m A e0) X n) as (e & st & R). cbn [app] in R.
  set (h := firstn n log) in *. pose proof (trace m A cur SE e0 h e st R) as (_ & T).
  destruct (reaches_invariant R) as [I1 I2 I3 I4 I5 I6 I7 I8 I9].
  assert (K : forall os, exists kvs, (List.length kvs <= List.length os)%nat /\
    forall key v, In (key, v) kvs <-> key <> GV /\ last_given (eng_options A e0) h key v /\ In key (map spec_key os)).
  { induction os as [|o os (kvs & L & IH)]; [exists []; split; [cbn; lia|]; intros key v; cbn; tauto|].
    destruct (list_eq_dec Z.eq_dec (spec_key o) GV) as [G|G].
    { exists kvs. split; [cbn; lia|]. intros key v. rewrite IH. cbn [map In]. split; [tauto|]. intros (N & L1 & [Q|Q]); [congruence|auto]. }
    destruct (T (spec_key o) G) as [(v & Lg & _)|(N & _)].
    - exists ((spec_key o, v) :: kvs). split; [cbn; lia|]. intros key w. cbn [In map]. split.
      + intros [Q|Q]; [inversion Q; subst; auto|]. apply IH in Q. tauto.
      + intros (Nk & L1 & [Q|Q]); [|right; apply IH; auto]. left. subst key. f_equal. eapply last_given_fun; eassumption.
    - exists kvs. split; [cbn; lia|]. intros key v. rewrite IH. cbn [map In]. split; [tauto|]. intros (Nk & L1 & [Q|Q]); [|auto].
      exfalso. subst key. destruct L1 as (h1 & l & o1 & h2 & Eh & S & _). eapply N; [|exact S]. rewrite Eh. apply in_or_app. right. left. reflexivity. }
  destruct (K (eng_options A e0)) as (kvs & L & Kv).
  assert (Pos : exists pos, (List.length pos <= 1)%nat /\
    ((pos = [] /\ g_position (s_game st) = start_position (s_variant st)) \/
     (exists id, pos = [lit "position gnubgid " ++ id] /\ stripped id id /\ gnuid_decode m (s_variant st) id = Ret (inr (g_position (s_game st)))))).
  { destruct (position_text _ _ _ I6) as [Q|(id & Q1 & Q2)]; rewrite I5 in *.
    - exists []. split; [cbn; lia|]. auto.
    - exists [lit "position gnubgid " ++ id]. split; [cbn; lia|]. right. eauto. }
  destruct Pos as (pos & Lp & Pos).
  assert (Ds : exists ds, (List.length ds <= 1)%nat /\ ((ds = [] /\ s_dice st = None) \/
     (exists a b d', s_dice st = Some d' /\ (1 <= a <= 6)%nat /\ (1 <= b <= 6)%nat /\ SpecDice.shows d' a b = true /\
        ds = [lit "dice " ++ fmt_uint (Z.of_nat a) ++ lit " " ++ fmt_uint (Z.of_nat b)]))).
  { destruct (s_dice st) as [d|]; [|exists []; split; [cbn; lia|auto]]. specialize (I8 d eq_refl).
    assert (exists a b, (1 <= a <= 6)%nat /\ (1 <= b <= 6)%nat /\ SpecDice.shows d a b = true) as (a & b & Ha & Hb & Sh).
    { destruct d as [big small|x]; cbn in I8.
      - exists big, small. unfold valid_die in I8. split; [lia|]. split; [lia|]. cbn. rewrite !Nat.eqb_refl. rewrite (proj2 (Nat.ltb_lt small big)) by lia. reflexivity.
      - exists x, x. unfold valid_die in I8. split; [lia|]. split; [lia|]. cbn. rewrite !Nat.eqb_refl. reflexivity. }
    eexists. split; [|right; exists a, b, d; repeat split; try lia; eauto]. cbn. lia. }
  destruct Ds as (ds & Ld & Ds).
  eexists. split.
  - exists kvs, (s_variant st), (g_position (s_game st)), pos, ds, (s_dice st). split; [reflexivity|].
    split; [|split; [exact I3|split; [exact I6|split; [exact Pos|split; [exact I7|exact Ds]]]]].
    intros key v. rewrite Kv. split; [tauto|]. intros (N & Lg). split; [exact N|]. split; [exact Lg|].
    destruct Lg as (h1 & l & o1 & h2 & _ & (_ & o & t & _ & (a & b & Eo & Ek & _) & _) & _). rewrite Eo, map_app. apply in_or_app. right. left. exact Ek.
  - rewrite !app_length, map_length. cbn [List.length]. lia.
Qed.

(** A case: an engine with one option, on which its moves depend; a session with a setting made twice, a "go", a
    variant, a position and dice; and the four lines that are enough. *)
Definition ply_engine : engine Z := {|
  id_name := fun _ => lit "plyer"; id_version := fun _ => lit "1";
  on_ready := fun e => Ret (e, inr tt);
  eng_options := fun _ => [opt_integer (lit "engine.ply") 1 4 2];
  eng_get := fun e key => Ret (if str_eqb key (lit "engine.ply") then Some (OVInt e) else None);
  eng_set := fun e key v => match v with
                            | OVInt n => if str_eqb key (lit "engine.ply") then Ret (n, inr tt) else Ret (e, inl (Unsupported []))
                            | _ => Ret (e, inl (Unsupported [])) end;
  choose_move := fun e _ _ => Ret (e, if e =? 4 then inr [] else inl (BadState (lit "shallow"))) |}.
Definition ply_of (e : Z) (key : str) : option option_value := if str_eqb key (lit "engine.ply") then Some (OVInt e) else None.
Lemma ply_its : is_its_settings ply_engine ply_of.
Proof.
  assert (I : forall e f, same_settings ply_of e f -> e = f).
  { intros e f H. specialize (H (lit "engine.ply")). unfold ply_of in H. rewrite (proj2 (str_eqb_eq _ _) eq_refl) in H. congruence. }
  constructor; cbn [ply_engine id_name id_version on_ready eng_get eng_set choose_move].
  - auto.
  - intros e f key H. rewrite (I _ _ H). reflexivity.
  - intros e f H. rewrite (I _ _ H). reflexivity.
  - intros e e' r H. inversion H; subst. intros k; reflexivity.
  - intros e f g d H. rewrite (I _ _ H). reflexivity.
  - intros e g d e' r H. inversion H; subst. intros k; reflexivity.
  - intros e f key [n|b|s|s]; try reflexivity. destruct (str_eqb key _); reflexivity.
  - intros e key [n|b|s|s] e' u H; try discriminate. destruct (str_eqb key _) eqn:Q; [|discriminate]. inversion H; subst.
    unfold ply_of. rewrite Q. split; [reflexivity|]. intros k N. apply str_eqb_eq in Q. subst key.
    destruct (str_eqb k _) eqn:Q2; [|reflexivity]. apply str_eqb_eq in Q2. contradiction.
  - intros e key [n|b|s|s] e' er H; try (inversion H; intros k; reflexivity). destruct (str_eqb key _); inversion H; intros k; reflexivity.
Qed.
Definition ex_session : list str := lines ["set engine.ply 3"; "dice 6 5"; "set game.variant nackgammon"; "go"; "set engine.ply 4";
  "set game.variant hypergammon"; "get engine.ply"; "position gnubgid AAAAAAEAAACAAw"; "set engine.ply 9"; "dice 2 1"]%string.
Definition ex_script : list str := lines ["set engine.ply 4"; "set game.variant hypergammon"; "position gnubgid AAAAAAEAAACAAw"; "dice 2 1"]%string.
Definition ex_log : history := Eval vm_compute in fst (run_ubgi_stdio Debug ply_engine 2 (map Some ex_session)).
Definition ex_place : vpos := Eval vm_compute in
  match gnuid_decode Debug Hypergammon (lit "AAAAAAEAAACAAw") with Ret (inr p) => p | _ => start_position Hypergammon end.
Example C98_case : is_its_settings ply_engine ply_of /\ ex_place <> start_position Hypergammon /\ Forall (fun line => ~ is_line (lit "quit") line) ex_session /\
  fst (run_ubgi_stdio Debug ply_engine 2 (map Some ex_session)) = ex_log /\
  resumes Debug (eng_options ply_engine 2) ex_log ex_script /\
  map snd (fst (run_ubgi_stdio Debug ply_engine 2 (map Some ex_script ++ [Some (lit "get engine.ply"); Some (lit "go")]))) =
    [[]; []; []; []; [lit "value engine.ply 4"]; [lit "bestmove pass"]].
Proof.
  split; [exact ply_its|]. split; [discriminate|]. split.
  { unfold ex_session, lines. cbn [map]. repeat (apply Forall_cons; [intros Q; apply quit_iff in Q; vm_compute in Q; discriminate|]). apply Forall_nil. }
  split; [vm_compute; reflexivity|]. split; [|vm_compute; reflexivity].
  assert (W : exists st, walk Debug ply_engine 2 (session_new ply_engine 2) ex_session = (ex_log, On 4 st) /\
    s_variant st = Hypergammon /\ g_position (s_game st) = ex_place /\ s_dice st = Some (Mixed 2 1)).
  { eexists. split; [vm_compute; reflexivity|]. split; [reflexivity|]. split; vm_compute; reflexivity. }
  destruct W as (st & W & W1 & W2 & W3).
  pose proof (walk_reaches Debug ply_engine 2 _ _ _ _ _ _ _ (reaches_start Debug ply_engine 2) W) as R. cbn [app] in R.
  pose proof (reaches_invariant R) as [I1 I2 I3 I4 I5 I6 I7 I8 I9]. rewrite W1 in I3. rewrite W2 in I6. rewrite W3 in I7.
  pose proof (trace Debug ply_engine ply_of ply_its 2 _ _ _ R) as (_ & T).
  assert (L : last_given (eng_options ply_engine 2) ex_log (lit "engine.ply") (OVInt 4)).
  { destruct (T (lit "engine.ply") ltac:(discriminate)) as [(v & L & _ & C & _)|(_ & _ & C)]; [|vm_compute in C; discriminate].
    assert (v = OVInt 4) as -> by (vm_compute in C; congruence). exact L. }
  exists [(lit "engine.ply", OVInt 4)], Hypergammon, ex_place, [lit "position gnubgid AAAAAAEAAACAAw"], [lit "dice 2 1"], (Some (Mixed 2 1)).
  split; [vm_compute; reflexivity|]. split.
  { intros key v. split.
    - intros [Q|[]]. inversion Q; subst. split; [discriminate|exact L].
    - intros (_ & L2). left. assert (K : key = lit "engine.ply").
      { destruct L2 as (h1 & l & o & h2 & _ & (_ & o1 & t & _ & (a & b & Eo & Ek & _) & _) & _).
        destruct a as [|x [|y a]]; cbn in Eo; [|discriminate|discriminate]. injection Eo as Eo _. rewrite <- Ek, <- Eo. reflexivity. }
      rewrite K in *. f_equal. eapply last_given_fun; eassumption. }
  split; [exact I3|]. split; [exact I6|]. split; [|split; [exact I7|]].
  - right. exists (lit "AAAAAAEAAACAAw"). split; [reflexivity|]. split; [apply stripped_iff; vm_compute; reflexivity|vm_compute; reflexivity].
  - right. exists 2%nat, 1%nat, (Mixed 2 1). split; [reflexivity|]. split; [lia|]. split; [lia|]. split; [reflexivity|vm_compute; reflexivity].
Qed.
