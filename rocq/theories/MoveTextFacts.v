(** Facts about the text half of move_text.rs. *)
From Coq Require Import Strings.String.
From Verif Require Import SpecText StrFacts NumFacts FibsFacts TextFacts SpecMoveText.
Open Scope Z_scope.

Lemma filter_no_ws f w : no_ws w -> no_ws (filter f w).
Proof.
  unfold no_ws. rewrite !Forall_forall. intros H c I. apply filter_In in I. apply H. tauto.
Qed.
Lemma split_on_no_ws c w : no_ws w -> Forall no_ws (split_on c w).
Proof.
  induction w as [|x w IH]; intros H; simpl; [repeat constructor|].
  inversion H; subst. destruct (x =? c); [constructor; [constructor|auto]|].
  specialize (IH H3). destruct (split_on c w); inversion IH; subst; constructor; auto; constructor; auto.
Qed.

(** Points. *)
Lemma parse_number_iff w n : parse_number (lower w) = Some n <-> point_word w n.
Proof.
  unfold parse_number, point_word, parse_usize. rewrite <- unsigned_lower. split.
  - destruct (parse_uint _ (lower w)) as [v|] eqn:E; [|discriminate]. apply parse_uint_some in E.
    destruct (Z.leb_spec 1 v), (Z.leb_spec v 24); try discriminate. intros X. inversion X; subst.
    split; [lia|]. rewrite Z2Nat.id by lia. exact E.
  - intros (R & U). apply parse_uint_some in U. rewrite U.
    destruct (Z.leb_spec 1 (Z.of_nat n)), (Z.leb_spec (Z.of_nat n) 24); try lia. simpl. rewrite Nat2Z.id. reflexivity.
Qed.
Lemma mid_iff w n : no_ws w -> parse_mid_point w = Some n <-> point_word w n.
Proof. intros H. unfold parse_mid_point. rewrite trim_no_ws by auto. apply parse_number_iff. Qed.

Lemma point_digits w n : point_word w n -> forall c, ~ 48 <= c <= 57 -> c <> 43 -> without c w.
Proof.
  intros (_ & ([H|(t & -> & H)] & _)) c C D; apply numeral_chars in H; unfold without; rewrite Forall_forall in *.
  - intros x I E. subst. apply C. auto.
  - intros x [<-|I]; [congruence|]. intros ->. apply C. auto.
Qed.
Lemma point_not_word w n t : point_word w n -> same_text w (lit t) ->
  Forall (fun c => ~ 48 <= c <= 57 /\ c <> 43) (lower (lit t)) -> False.
Proof.
  intros P S F. apply same_text_iff in S. destruct P as (_ & U & _).
  destruct U as [H|(u & -> & H)].
  - rewrite (digits_lower H) in S. pose proof (numeral_chars H) as C. rewrite S in C.
    destruct w as [|c w]; [exact (numeral_nil H)|]. rewrite <- S in *. inversion F; inversion C; subst. tauto.
  - simpl in S. change (lower_char 43) with 43 in S. rewrite <- S in F. inversion F; subst. tauto.
Qed.

Ltac not_num := let H := fresh in intros H; vm_compute in H; repeat constructor; try lia.

Lemma from_iff w n : no_ws w -> parse_from_point w = Some n <-> from_word w n.
Proof.
  intros H. unfold parse_from_point, from_word. rewrite trim_no_ws by auto.
  rewrite same_text_iff. change (lower (lit "bar")) with (lit "bar"). split.
  - destruct (str_eqb (lower w) (lit "bar")) eqn:E.
    + apply str_eqb_eq in E. intros X. inversion X. auto.
    + intros X. right. apply parse_number_iff. exact X.
  - intros [(E & ->)|P].
    + rewrite E. rewrite str_eqb_refl. reflexivity.
    + destruct (str_eqb (lower w) (lit "bar")) eqn:E; [|apply parse_number_iff; exact P].
      apply str_eqb_eq in E. exfalso. apply (point_not_word "bar" P).
      * apply same_text_iff. exact E.
      * change (lower (lit "bar")) with [98; 97; 114]. repeat constructor; lia.
Qed.
Lemma to_iff w n : no_ws w -> parse_to_point w = Some n <-> to_word w n.
Proof.
  intros H. unfold parse_to_point, to_word. rewrite trim_no_ws by auto.
  rewrite same_text_iff. change (lower (lit "off")) with (lit "off"). split.
  - destruct (str_eqb (lower w) (lit "off")) eqn:E.
    + apply str_eqb_eq in E. intros X. inversion X. auto.
    + intros X. right. apply parse_number_iff. exact X.
  - intros [(E & ->)|P].
    + rewrite E. rewrite str_eqb_refl. reflexivity.
    + destruct (str_eqb (lower w) (lit "off")) eqn:E; [|apply parse_number_iff; exact P].
      apply str_eqb_eq in E. exfalso. apply (point_not_word "off" P).
      * apply same_text_iff. exact E.
      * change (lower (lit "off")) with [111; 102; 102]. repeat constructor; lia.
Qed.

(** Words contain no '/'. *)
Lemma same_without w t c : same_text w t -> Forall (fun x => lower_char x <> lower_char c) t -> without c w.
Proof.
  intros S F. unfold without. induction S as [|x y w t L S IH]; [constructor|].
  inversion F; subst. constructor; [|apply IH; auto].
  intros ->. apply same_letter_iff in L. congruence.
Qed.
Lemma from_without w n : from_word w n -> without 47 w.
Proof.
  intros [(S & _)|P].
  - eapply same_without; [exact S|]. change (lit "bar") with [98; 97; 114]. repeat constructor; vm_compute; discriminate.
  - eapply point_digits; [exact P|lia|lia].
Qed.
Lemma to_without w n : to_word w n -> without 47 w.
Proof.
  intros [(S & _)|P].
  - eapply same_without; [exact S|]. change (lit "off") with [111; 102; 102]. repeat constructor; vm_compute; discriminate.
  - eapply point_digits; [exact P|lia|lia].
Qed.

(** Paths. *)
Lemma path_rest_iff parts : Forall no_ws parts -> forall vs,
  path_rest parts = Some vs <->
  (parts = [] /\ vs = []) \/
  exists mids ms z t, parts = mids ++ [z] /\ vs = ms ++ [t] /\ Forall2 point_word mids ms /\ to_word z t.
Proof.
  induction parts as [|p parts IH]; intros H vs.
  - simpl. split; [intros X; inversion X; auto|]. intros [(_ & ->)|(mids & ms & z & t & E & _)]; auto.
    destruct mids; discriminate.
  - inversion H as [|? ? Hp Hq]; subst. simpl. destruct parts as [|p' parts'].
    + destruct (parse_to_point p) as [v|] eqn:E.
      * apply (to_iff _ Hp) in E. simpl. split.
        -- intros X. inversion X; subst. right. exists [], [], p, v. auto.
        -- intros [(? & ?)|(mids & ms & z & t & E1 & -> & F & T)]; [discriminate|].
           destruct mids as [|? [|? ?]]; inversion E1; subst. inversion F; subst. simpl.
           apply (to_iff _ Hp) in T. apply (to_iff _ Hp) in E. congruence.
      * split; [discriminate|]. intros [(? & ?)|(mids & ms & z & t & E1 & -> & F & T)]; [discriminate|].
        destruct mids as [|? [|? ?]]; inversion E1; subst. apply (to_iff _ Hp) in T. congruence.
    + set (rest := p' :: parts') in *. specialize (IH Hq).
      destruct (parse_mid_point p) as [v|] eqn:E.
      * apply (mid_iff _ Hp) in E. split.
        -- destruct (path_rest rest) as [vs'|] eqn:R; [|discriminate]. simpl. intros X. inversion X; subst.
           destruct (proj1 (IH vs') eq_refl) as [(? & _)|(mids & ms & z & t & E1 & -> & F & T)]; [discriminate|].
           right. exists (p :: mids), (v :: ms), z, t. rewrite E1. auto.
        -- intros [(? & _)|(mids & ms & z & t & E1 & -> & F & T)]; [discriminate|].
           destruct mids as [|q mids]; [unfold rest in E1; destruct parts'; discriminate|].
           inversion E1. subst q. inversion F as [|? w ? ms' P F']; subst.
           assert (v = w) as <-.
           { apply (mid_iff _ Hp) in P. apply (mid_iff _ Hp) in E. congruence. }
           assert (R : path_rest rest = Some (ms' ++ [t])) by (apply IH; right; exists mids, ms', z, t; auto).
           rewrite R. reflexivity.
      * split; [discriminate|]. intros [(? & _)|(mids & ms & z & t & E1 & -> & F & T)]; [discriminate|].
        destruct mids as [|q mids]; [unfold rest in E1; destruct parts'; discriminate|].
        inversion E1. subst q. inversion F as [|? w ? ms' P F']; subst.
        apply (mid_iff _ Hp) in P. congruence.
Qed.

Lemma path_iff w pts : no_ws w ->
  parse_path_points (split_on 47 (unmarked w)) = Some pts <-> path_word w pts.
Proof.
  intros H. assert (Hp : Forall no_ws (split_on 47 (unmarked w))) by (apply split_on_no_ws, filter_no_ws, H).
  pose proof (join_split_on 47 (unmarked w)) as J.
  split.
  - destruct (split_on 47 (unmarked w)) as [|a more] eqn:E; [discriminate|]. unfold parse_path_points.
    inversion Hp; subst. destruct (parse_from_point a) as [f|] eqn:F; [|discriminate].
    destruct (path_rest more) as [vs|] eqn:R; [|discriminate].
    destruct more as [|x more']; [discriminate|]. intros X. inversion X; subst.
    apply path_rest_iff in R; auto. destruct R as [(? & _)|(mids & ms & z & t & E1 & -> & G & T)]; [discriminate|].
    rewrite E1 in J. exists a, f, mids, ms, z, t. split; [symmetry; exact J|]. split; auto.
    apply from_iff in F; auto.
  - intros (a & f & mids & ms & z & t & E & -> & F & G & T).
    assert (S : split_on 47 (unmarked w) = a :: mids ++ [z]).
    { rewrite E. change (lit "/") with [47]. apply split_on_join; [discriminate|].
      constructor; [eapply from_without; eauto|]. apply Forall_app. split; [|constructor; [eapply to_without; eauto|constructor]].
      clear -G. induction G; constructor; auto. eapply point_digits; eauto; lia. }
    rewrite S in *. unfold parse_path_points. inversion Hp as [|? ? Ha Hm]; subst.
    apply from_iff in F; auto. rewrite F.
    rewrite (proj2 (path_rest_iff Hm (ms ++ [t]))) by (right; exists mids, ms, z, t; auto).
    destruct mids; reflexivity.
Qed.

Lemma windows_legs l : map (fun w => pair_text (fst w) (snd w)) (windows2 l) =
  map (fun s => pair_text (ms_from s) (ms_to s)) (legs l).
Proof. induction l as [|a [|b l] IH]; auto. cbn [windows2 legs map] in *. rewrite IH. reflexivity. Qed.

Lemma normalize_tokens_iff ws : Forall no_ws ws -> forall r,
  normalize_tokens ws = Some r <->
  exists paths, Forall2 path_word ws paths /\ r = map (fun s => pair_text (ms_from s) (ms_to s)) (flat_map legs paths).
Proof.
  induction ws as [|w ws IH]; intros H r.
  - simpl. split; [intros X; inversion X; exists []; auto|]. intros (ps & F & ->). inversion F. reflexivity.
  - inversion H as [|? ? Hw Hr]; subst. specialize (IH Hr). cbn [normalize_tokens].
    change (filter (fun c => negb ((c =? 42) || (c =? 44))) w) with (unmarked w). split.
    + destruct (parse_path_points _) as [pts|] eqn:P; [|discriminate]. apply path_iff in P; auto.
      destruct (normalize_tokens ws) as [r'|] eqn:R; [|discriminate]. cbn [option_map]. intros X. inversion X; subst.
      destruct (proj1 (IH r') eq_refl) as (ps & F & ->). exists (pts :: ps). split; auto.
      cbn [flat_map]. rewrite map_app, windows_legs. reflexivity.
    + intros (ps & F & ->). inversion F as [|? pts ? ps' P F']; subst. apply path_iff in P; auto. rewrite P.
      rewrite (proj2 (IH _)) by (exists ps'; eauto). cbn [option_map flat_map]. rewrite map_app, windows_legs. reflexivity.
Qed.

Lemma pass_trimmed : trimmed (lit "pass").
Proof. apply no_ws_trimmed; [discriminate|]. unfold no_ws. change (lit "pass") with [112; 97; 115; 115]. repeat constructor. Qed.
Lemma says_pass_iff t : says_pass t <-> eq_ignore_case (trim t) (lit "pass") = true.
Proof. unfold says_pass. apply spells_ignore; [apply pass_trimmed|reflexivity]. Qed.

Lemma words_no_ws t ws : words t ws -> Forall no_ws ws.
Proof.
  intros H. apply words_iff in H. subst. pose proof (split_ws_words t) as W.
  eapply Forall_impl; [|exact W]. intros w (_ & X). exact X.
Qed.
Lemma path_legs w pts : path_word w pts -> legs pts <> [].
Proof.
  intros (a & f & mids & ms & z & t & _ & -> & _). destruct ms; discriminate.
Qed.
Lemma format_nonempty l : l <> [] ->
  format_move_steps l = join (lit " ") (map (fun s => pair_text (ms_from s) (ms_to s)) l).
Proof. destruct l; [congruence|reflexivity]. Qed.

Lemma trim_words t : forall ws, words t ws -> forall c u, trim t = c :: u -> ws <> [].
Proof.
  intros ws W c u E ->. inversion W; subst. rewrite trim_blank in E by auto. discriminate.
Qed.

(** A text that says "pass" is not a path. *)
Lemma pass_no_path t ws paths : says_pass t -> words t ws -> ws <> [] -> Forall2 path_word ws paths -> False.
Proof.
  intros (a & u & b & -> & A & B & S) W _ F.
  assert (Wu : word u).
  { apply same_text_iff in S. change (lower (lit "pass")) with [112; 97; 115; 115] in S. split.
    - intros ->. discriminate S.
    - apply lower_no_ws. rewrite S. unfold no_ws. repeat constructor. }
  assert (E : ws = [u]).
  { apply words_iff in W. subst. rewrite split_ws_blank_app by exact A.
    destruct b as [|c b]; [rewrite app_nil_r; apply split_ws_word; auto|]. inversion B; subst.
    rewrite split_ws_cons by auto. f_equal. apply split_ws_blank. auto. }
  subst ws. inversion F as [|? pts ? ps P F']; subst.
  destruct P as (x & f & mids & ms & z & t & E & _).
  assert (U : Forall (fun c => c <> 47) (unmarked u)).
  { apply same_text_iff in S. change (lower (lit "pass")) with [112; 97; 115; 115] in S.
    assert (I : Forall (fun c => lower_char c <> 47) u).
    { apply Forall_forall. intros c I E'. apply (in_map lower_char) in I. fold (lower u) in I.
      rewrite S, E' in I. simpl in I. lia. }
    apply Forall_forall. intros c I' E'. apply filter_In in I'. destruct I' as (I' & _).
    rewrite Forall_forall in I. apply (I c I'). rewrite E'. reflexivity. }
  rewrite E in U. rewrite Forall_forall in U. apply (U 47); auto.
  destruct (mids ++ [z]) as [|y l] eqn:Em; [destruct mids; discriminate|].
  change (lit "/") with [47]. cbn [join]. apply in_or_app. right. left. reflexivity.
Qed.

Lemma normalize_iff t s : normalize t = Some s <-> exists steps, move_text t steps /\ s = format_move_steps steps.
Proof.
  unfold normalize, move_text. pose proof (says_pass_iff t) as SP.
  destruct (eq_ignore_case (trim t) (lit "pass")) eqn:E.
  - clear E. pose proof (proj2 SP eq_refl) as E. split.
    + intros X. inversion X; subst. exists []. auto.
    + intros (steps & [(_ & ->)|(ws & ps & W & N & F & _)] & ->); [reflexivity|].
      exfalso. eapply pass_no_path; eauto.
  - assert (W : words t (split_ws t)) by apply split_words.
    assert (NW : Forall no_ws (split_ws t)) by (eapply words_no_ws; eauto).
    pose proof (normalize_tokens_iff NW) as NT. split.
    + destruct (normalize_tokens (split_ws t)) as [[|r0 r]|] eqn:R; [discriminate| |discriminate].
      intros X. assert (s = join (lit " ") (r0 :: r)) as -> by congruence. clear X.
      destruct (proj1 (NT _) eq_refl) as (ps & F & Er).
      exists (flat_map legs ps). split.
      * right. exists (split_ws t), ps. repeat split; auto. intros N. rewrite N in F. inversion F; subst. discriminate.
      * rewrite format_nonempty; [|intros N; rewrite N in Er; discriminate]. rewrite Er. reflexivity.
    + intros (steps & [(P & _)|(ws & ps & W' & N & F & ->)] & ->).
      { apply SP in P. discriminate P. }
      apply words_iff in W'. rewrite W' in NT. rewrite W'.
      rewrite (proj2 (NT _)) by (exists ps; eauto).
      assert (L : flat_map legs ps <> []).
      { destruct ws; [congruence|]. inversion F as [|? pts ? ps' P F']; subst. apply path_legs in P.
        cbn [flat_map]. destruct (legs pts); [congruence|discriminate]. }
      rewrite format_nonempty by auto. destruct (flat_map legs ps) as [|l0 l]; [congruence|]. reflexivity.
Qed.

(** [parse_move_steps]. *)
Lemma existsb_without c s : existsb (Z.eqb c) s = false <-> without c s.
Proof.
  unfold without. rewrite Forall_forall. split.
  - intros H x I E. subst. rewrite <- not_true_iff_false in H. apply H. apply existsb_exists. exists c. split; auto. apply Z.eqb_refl.
  - intros H. apply not_true_iff_false. intros E. apply existsb_exists in E. destruct E as (x & I & E).
    apply Z.eqb_eq in E. subst. apply (H x I). reflexivity.
Qed.
Lemma step_word_iff w s : no_ws w -> step_word w s <->
  exists a z, split_once 47 w = Some (a, z) /\ existsb (Z.eqb 47) z = false /\
    parse_from_point a = Some (ms_from s) /\ parse_to_point z = Some (ms_to s).
Proof.
  intros H. split.
  - intros (a & z & -> & F & T). change (lit "/") with [47] in *. exists a, z.
    apply no_ws_app in H. destruct H as (Ha & Hz). inversion Hz as [|? ? Hs Hz']; subst. split.
    + apply split_once_app. eapply from_without; eauto.
    + split; [apply existsb_without; eapply to_without; eauto|].
      split; [apply from_iff; auto|apply to_iff; auto].
  - intros (a & z & E & X & F & T). apply split_once_some in E. destruct E as (-> & Wa).
    apply no_ws_app in H. destruct H as (Ha & Hz). inversion Hz as [|? ? Hs Hz']; subst.
    exists a, z. split; [reflexivity|]. split; [apply from_iff; auto|apply to_iff; auto].
Qed.
Lemma parse_step_tokens_iff ws : Forall no_ws ws -> forall st,
  parse_step_tokens ws = Some st <-> Forall2 step_word ws st.
Proof.
  induction ws as [|w ws IH]; intros H st.
  - simpl. split; [intros X; inversion X; constructor|intros X; inversion X; reflexivity].
  - inversion H as [|? ? Hw Hr]; subst. specialize (IH Hr). cbn [parse_step_tokens]. split.
    + destruct (split_once 47 w) as [(a, z)|] eqn:E; [|discriminate].
      destruct (existsb (Z.eqb 47) z) eqn:X; [discriminate|].
      destruct (parse_from_point a) as [f|] eqn:F; [|discriminate].
      destruct (parse_to_point z) as [t|] eqn:T; [|discriminate].
      destruct (parse_step_tokens ws) as [st'|] eqn:R; [|discriminate]. cbn [option_map]. intros Y. inversion Y; subst.
      constructor; [|apply IH; reflexivity]. apply step_word_iff; auto. exists a, z. auto.
    + intros F2. inversion F2 as [|? s ? st' S F2']; subst. apply step_word_iff in S; auto.
      destruct S as (a & z & E & X & F & T). rewrite E, X, F, T.
      rewrite (proj2 (IH st') F2'). cbn [option_map]. destruct s. reflexivity.
Qed.
Lemma pass_no_steps t ws st : says_pass t -> words t ws -> Forall2 step_word ws st -> False.
Proof.
  intros P W F. assert (N : ws <> []).
  { intros ->. destruct P as (a & u & b & -> & A & B & S). apply words_iff in W.
    rewrite split_ws_blank_app in W by exact A.
    apply same_text_iff in S. change (lower (lit "pass")) with [112; 97; 115; 115] in S.
    assert (Wu : word u). { split; [intros ->; discriminate S|]. apply lower_no_ws. rewrite S. unfold no_ws. repeat constructor. }
    destruct b as [|c b]; [rewrite app_nil_r, split_ws_word in W by auto; discriminate|]. inversion B; subst.
    rewrite split_ws_cons in W by auto. discriminate. }
  assert (G : forall w s, step_word w s -> In 47 w).
  { intros w s (a & z & -> & _). change (lit "/") with [47]. apply in_or_app. right. left. reflexivity. }
  destruct P as (a & u & b & -> & A & B & S).
  destruct ws as [|w ws]; [congruence|]. inversion F as [|? s ? st' S1 F']; subst. apply G in S1.
  apply words_iff in W.
  assert (I : In 47 u).
  { rewrite split_ws_blank_app in W by exact A.
    apply same_text_iff in S. change (lower (lit "pass")) with [112; 97; 115; 115] in S.
    assert (Wu : word u). { split; [intros ->; discriminate S|]. apply lower_no_ws. rewrite S. unfold no_ws. repeat constructor. }
    destruct b as [|c b].
    - rewrite app_nil_r, split_ws_word in W by auto. inversion W; subst. auto.
    - inversion B; subst. rewrite split_ws_cons in W by auto. inversion W; subst. auto. }
  apply same_text_iff in S. change (lower (lit "pass")) with [112; 97; 115; 115] in S.
  apply (in_map lower_char) in I. fold (lower u) in I. rewrite S in I. change (lower_char 47) with 47 in I. simpl in I. lia.
Qed.
Lemma parse_move_steps_iff t st : parse_move_steps t = Some st <-> step_text t st.
Proof.
  unfold parse_move_steps, step_text. pose proof (says_pass_iff t) as SP.
  destruct (eq_ignore_case (trim t) (lit "pass")) eqn:E; clear E.
  - pose proof (proj2 SP eq_refl) as E. split.
    + intros X. inversion X; subst. auto.
    + intros [(_ & ->)|(ws & W & F)]; [reflexivity|]. exfalso. eapply pass_no_steps; eauto.
  - assert (W : words t (split_ws t)) by apply split_words.
    assert (NW : Forall no_ws (split_ws t)) by (eapply words_no_ws; eauto).
    rewrite (parse_step_tokens_iff NW). split.
    + intros F. right. eauto.
    + intros [(P & _)|(ws & W' & F)]; [apply SP in P; discriminate P|]. apply words_iff in W'. congruence.
Qed.

(** Printed points and steps. *)
Lemma fmt_point n : (1 <= n <= 24)%nat -> point_word (fmt_uint (Z.of_nat n)) n /\ word (fmt_uint (Z.of_nat n)) /\
  without 47 (fmt_uint (Z.of_nat n)) /\ unmarked (fmt_uint (Z.of_nat n)) = fmt_uint (Z.of_nat n).
Proof.
  intros H. split; [|split; [apply fmt_uint_word; lia|split; [apply fmt_uint_without; lia|]]].
  - split; auto. split; [left; apply fmt_uint_numeral; lia|]. lia.
  - pose proof (@fmt_uint_without (Z.of_nat n) 42 ltac:(lia) ltac:(lia)) as A.
    pose proof (@fmt_uint_without (Z.of_nat n) 44 ltac:(lia) ltac:(lia)) as B.
    unfold unmarked. change (chr "*") with 42. change (chr ",") with 44. revert A B. generalize (fmt_uint (Z.of_nat n)).
    unfold without. induction 1 as [|c s C A IH]; intros B; auto. inversion B; subst. cbn [filter].
    destruct (Z.eqb_spec c 42), (Z.eqb_spec c 44); try contradiction. cbn [negb orb]. rewrite IH; auto.
Qed.
Lemma from_text n : (1 <= n <= 25)%nat -> from_word (point_to_text n) n /\ word (point_to_text n) /\
  unmarked (point_to_text n) = point_to_text n.
Proof.
  intros H. unfold point_to_text. destruct (Nat.eqb_spec n 25) as [->|N].
  - split; [left; split; [apply same_text_iff; reflexivity|reflexivity]|]. split; [|reflexivity].
    split; [discriminate|]. change (lit "bar") with [98; 97; 114]. unfold no_ws. repeat constructor.
  - destruct (Nat.eqb_spec n 0); [lia|]. destruct (@fmt_point n ltac:(lia)) as (A & B & _ & C). split; [right; auto|auto].
Qed.
Lemma to_text n : (n <= 24)%nat -> to_word (point_to_text n) n /\ word (point_to_text n) /\
  unmarked (point_to_text n) = point_to_text n.
Proof.
  intros H. unfold point_to_text. destruct (Nat.eqb_spec n 25); [lia|]. destruct (Nat.eqb_spec n 0) as [->|N].
  - split; [left; split; [apply same_text_iff; reflexivity|reflexivity]|]. split; [|reflexivity].
    split; [discriminate|]. change (lit "off") with [111; 102; 102]. unfold no_ws. repeat constructor.
  - destruct (@fmt_point n ltac:(lia)) as (A & B & _ & C). split; [right; auto|auto].
Qed.
Lemma pair_text_facts s : on_board s -> let w := pair_text (ms_from s) (ms_to s) in
  word w /\ step_word w s /\ path_word w [ms_from s; ms_to s].
Proof.
  intros (F & T). destruct (from_text F) as (A & (B1 & B2) & C), (to_text T) as (A' & (B1' & B2') & C').
  cbv zeta. unfold pair_text. change (lit "/") with [47]. split; [|split].
  - split; [destruct (point_to_text (ms_from s)); [congruence|discriminate]|].
    apply no_ws_app. split; auto. constructor; [reflexivity|auto].
  - exists (point_to_text (ms_from s)), (point_to_text (ms_to s)). auto.
  - exists (point_to_text (ms_from s)), (ms_from s), [], [], (point_to_text (ms_to s)), (ms_to s).
    split; [|auto]. unfold unmarked in *. rewrite filter_app. rewrite C. cbn [app filter]. rewrite C'. reflexivity.
Qed.

Lemma format_words st : Forall on_board st -> st <> [] ->
  words (format_move_steps st) (map (fun s => pair_text (ms_from s) (ms_to s)) st).
Proof.
  intros H N. rewrite format_nonempty by auto. apply words_iff. change (lit " ") with [32]. apply split_ws_join.
  clear N. induction H; constructor; auto. apply pair_text_facts. auto.
Qed.
Lemma format_step_text st : Forall on_board st -> step_text (format_move_steps st) st.
Proof.
  intros H. destruct st as [|s0 st0] eqn:E.
  - left. split; [|reflexivity]. apply says_pass_iff. reflexivity.
  - right. rewrite <- E in *. exists (map (fun s => pair_text (ms_from s) (ms_to s)) st).
    split; [apply format_words; auto; rewrite E; discriminate|].
    clear E. induction H; constructor; auto. apply pair_text_facts. auto.
Qed.
Lemma format_move_text st : Forall on_board st -> move_text (format_move_steps st) st.
Proof.
  intros H. destruct st as [|s0 st0] eqn:E.
  - left. split; [|reflexivity]. apply says_pass_iff. reflexivity.
  - right. rewrite <- E in *. exists (map (fun s => pair_text (ms_from s) (ms_to s)) st), (map (fun s => [ms_from s; ms_to s]) st).
    split; [apply format_words; auto; rewrite E; discriminate|].
    split; [rewrite E; discriminate|]. clear E. induction H as [|s st O H IH]; [split; [constructor|reflexivity]|].
    destruct IH as (I1 & I2). split.
    + constructor; auto. apply pair_text_facts. auto.
    + cbn [map flat_map]. rewrite <- I2. destruct s. reflexivity.
Qed.

Lemma point_range w n : point_word w n -> (1 <= n <= 24)%nat.
Proof. intros (H & _). exact H. Qed.
Lemma path_on_board w pts : path_word w pts -> Forall on_board (legs pts).
Proof.
  intros (a & f & mids & ms & z & t & _ & -> & F & G & T).
  assert (Hf : (1 <= f <= 25)%nat) by (destruct F as [(_ & ->)|P]; [lia|apply point_range in P; lia]).
  assert (Ht : (t <= 24)%nat) by (destruct T as [(_ & ->)|P]; [lia|apply point_range in P; lia]).
  clear F T. revert f Hf. induction G as [|w' n mids ms P G IH]; intros f Hf.
  - cbn [app legs]. constructor; [split; cbn; lia|constructor].
  - cbn [app legs]. apply point_range in P. constructor; [split; cbn; lia|]. apply IH. lia.
Qed.
Lemma move_text_on_board t st : move_text t st -> Forall on_board st.
Proof.
  intros [(_ & ->)|(ws & ps & _ & _ & F & ->)]; [constructor|].
  induction F; [constructor|]. cbn [flat_map]. apply Forall_app. split; auto. eapply path_on_board; eauto.
Qed.
Lemma path_word_fun w p q : no_ws w -> path_word w p -> path_word w q -> p = q.
Proof. intros H A B. apply path_iff in A; auto. apply path_iff in B; auto. congruence. Qed.
Lemma move_text_fun t a b : move_text t a -> move_text t b -> a = b.
Proof.
  intros [(P & ->)|(ws & ps & W & N & F & ->)] [(P' & ->)|(ws' & ps' & W' & N' & F' & ->)]; auto.
  - exfalso. exact (pass_no_path P W' N' F').
  - exfalso. exact (pass_no_path P' W N F).
  - assert (ws' = ws) as -> by (apply words_iff in W; apply words_iff in W'; congruence).
    f_equal. pose proof (words_no_ws W) as NW. clear -F F' NW. revert ps' F'.
    induction F as [|w p ws ps P F IH]; intros ps' F'; inversion F'; subst; auto. inversion NW; subst.
    f_equal; [eapply path_word_fun; eauto|apply IH; auto].
Qed.
Lemma format_inj a b : Forall on_board a -> Forall on_board b -> format_move_steps a = format_move_steps b -> a = b.
Proof.
  intros A B E. pose proof (format_move_text A) as X. rewrite E in X.
  eapply move_text_fun; eauto. apply format_move_text. auto.
Qed.
