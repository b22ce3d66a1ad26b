(** Facts about the models of ubgi.rs and runtime.rs. *)
From Coq Require Import Strings.String.
From Verif Require Export SpecUbgi EngineFacts MoveTextFacts.
From Verif Require Import PropDice PropIdentity.
Open Scope Z_scope.

(** ** What a line parses to *)
Definition cmd_of (line : str) : command := parse_command (trim line).

Lemma parse_get r : parse_command (lit "get " ++ r) = CGet (trim r).
Proof. reflexivity. Qed.
Lemma parse_set r : parse_command (lit "set " ++ r) =
  match split_once 32 r with Some (k, v) => CSet (trim k) (trim v) | None => CSet (trim r) [] end.
Proof. reflexivity. Qed.
Lemma parse_gnubgid r : parse_command (lit "position gnubgid " ++ r) = CPositionGnubgid (trim r).
Proof. reflexivity. Qed.
Lemma parse_dice r : parse_command (lit "dice " ++ r) = CDice r.
Proof. reflexivity. Qed.

Lemma parse_cases t :
  match parse_command t with
  | CUbgi => t = lit "ubgi" | CIsReady => t = lit "isready" | CNewGame => t = lit "newgame" | CKeys => t = lit "keys"
  | CGet k => exists r, t = lit "get " ++ r /\ k = trim r
  | CSet k v => exists r, t = lit "set " ++ r /\
      match split_once 32 r with Some (a, b) => k = trim a /\ v = trim b | None => k = trim r /\ v = [] end
  | CPositionGnubgid id => exists r, t = lit "position gnubgid " ++ r /\ id = trim r
  | CPositionXgid => exists r, t = lit "position " ++ r
  | CPositionUnknown => exists r, t = lit "position " ++ r
  | CDice r => t = lit "dice " ++ r
  | CGoChequer => t = lit "go" \/ t = lit "go chequer" | CGoCube => t = lit "go cube" | CGoTurn => t = lit "go turn"
  | CQuit => t = lit "quit"
  | CUnknown => forall s, In s [lit "ubgi"; lit "isready"; lit "newgame"; lit "keys"; lit "go"; lit "go chequer"; lit "go cube";
                   lit "go turn"; lit "quit"] -> t <> s
  end.
Proof.
  unfold parse_command. change (chr " ") with 32.
  repeat match goal with |- context [if str_eqb t ?s then _ else _] =>
    let E := fresh "E" in destruct (str_eqb t s) eqn:E; [apply str_eqb_eq in E; exact E|apply str_eqb_neq in E] end.
  destruct (strip_prefix (lit "get ") t) as [r|] eqn:G; [apply strip_prefix_some in G; exists r; auto|].
  destruct (strip_prefix (lit "set ") t) as [r|] eqn:S.
  { apply strip_prefix_some in S. destruct (split_once 32 r) as [(a, b)|] eqn:P.
    - exists r. rewrite P. auto.
    - exists r. rewrite P. auto. }
  destruct (strip_prefix (lit "position gnubgid ") t) as [r|] eqn:N; [apply strip_prefix_some in N; exists r; auto|].
  destruct (str_eqb t (lit "position xgid") || starts_with (lit "position xgid ") t) eqn:X.
  { apply orb_true_iff in X. destruct X as [X|X]; [apply str_eqb_eq in X; subst t; exists (lit "xgid"); reflexivity|].
    apply starts_with_iff in X. destruct X as (r & ->). exists (lit "xgid " ++ r). reflexivity. }
  destruct (starts_with (lit "position ") t) eqn:Y; [apply starts_with_iff in Y; exact Y|].
  destruct (strip_prefix (lit "dice ") t) as [r|] eqn:D; [apply strip_prefix_some in D; exact D|].
  destruct (str_eqb t (lit "go") || str_eqb t (lit "go chequer")) eqn:Z.
  { apply orb_true_iff in Z. rewrite !str_eqb_eq in Z. exact Z. }
  apply orb_false_iff in Z. rewrite !str_eqb_neq in Z. destruct Z as (Z1 & Z2).
  repeat match goal with |- context [if str_eqb t ?s then _ else _] =>
    let E := fresh "E" in destruct (str_eqb t s) eqn:E; [apply str_eqb_eq in E; exact E|apply str_eqb_neq in E] end.
  intros s I -> . cbn [In] in I. intuition congruence.
Qed.
(** Lines with one of the prefixes are not unknown. *)
Lemma parse_unknown t p r : In p [lit "get "; lit "set "; lit "position "; lit "dice "] -> t = p ++ r -> parse_command t <> CUnknown.
Proof.
  intros [<-|[<-|[<-|[<-|[]]]]] ->; [rewrite parse_get; discriminate| | |rewrite parse_dice; discriminate].
  - rewrite parse_set. destruct (split_once 32 r) as [(a, b)|]; discriminate.
  - unfold parse_command.
    change (strip_prefix (lit "get ") (lit "position " ++ r)) with (@None str).
    change (strip_prefix (lit "set ") (lit "position " ++ r)) with (@None str).
    assert (S : starts_with (lit "position ") (lit "position " ++ r) = true) by apply starts_with_app. rewrite S.
    change (str_eqb (lit "position " ++ r) (lit "ubgi")) with false.
    change (str_eqb (lit "position " ++ r) (lit "isready")) with false.
    change (str_eqb (lit "position " ++ r) (lit "newgame")) with false.
    change (str_eqb (lit "position " ++ r) (lit "keys")) with false. cbv beta iota.
    destruct (strip_prefix (lit "position gnubgid ") (lit "position " ++ r)); [discriminate|].
    destruct (_ || _); discriminate.
Qed.

Lemma get_line_iff line k : get_line line k <-> cmd_of line = CGet k.
Proof.
  unfold get_line, cmd_of. split.
  - intros (r & S & K). apply stripped_iff in S, K. rewrite <- S, parse_get, K. reflexivity.
  - intros E. pose proof (parse_cases (trim line)) as C. rewrite E in C. destruct C as (r & T & ->).
    exists r. rewrite !stripped_iff. auto.
Qed.
Lemma set_line_iff line k v : set_line line k v <-> cmd_of line = CSet k v.
Proof.
  unfold set_line, cmd_of. split.
  - intros (r & k' & S & N & K & V). apply stripped_iff in S, K. rewrite <- S, parse_set. apply not_in_without in N.
    destruct V as [(v' & -> & V)|(-> & ->)].
    + apply stripped_iff in V. change (lit " " ++ v') with (32 :: v'). rewrite (split_once_app v' N). congruence.
    + rewrite (split_once_none N). congruence.
  - intros E. pose proof (parse_cases (trim line)) as C. rewrite E in C. destruct C as (r & T & C).
    destruct (split_once 32 r) as [(a, b)|] eqn:P.
    + apply split_once_some in P. destruct P as (-> & N). destruct C as (-> & ->).
      exists (a ++ 32 :: b), a. rewrite !stripped_iff. split; auto. split; [apply not_in_without, N|]. split; auto. left.
      exists b. split; [reflexivity|apply stripped_iff; auto].
    + apply split_once_none_inv in P. destruct C as (-> & ->). exists r, r. rewrite !stripped_iff.
      split; auto. split; [apply not_in_without, P|]. auto.
Qed.
Lemma gnubgid_line_iff line id : gnubgid_line line id <-> cmd_of line = CPositionGnubgid id.
Proof.
  unfold gnubgid_line, cmd_of. split.
  - intros (r & S & K). apply stripped_iff in S, K. rewrite <- S, parse_gnubgid, K. reflexivity.
  - intros E. pose proof (parse_cases (trim line)) as C. rewrite E in C. destruct C as (r & T & ->).
    exists r. rewrite !stripped_iff. auto.
Qed.
Lemma dice_line_iff line r : dice_line line r <-> cmd_of line = CDice r.
Proof.
  unfold dice_line, cmd_of. rewrite stripped_iff. split.
  - intros S. rewrite <- S. apply parse_dice.
  - intros E. pose proof (parse_cases (trim line)) as C. rewrite E in C. auto.
Qed.
Ltac plain_line := unfold is_line, cmd_of; rewrite stripped_iff; split;
  [intros S; rewrite <- S; reflexivity|
   intros E; match type of E with parse_command (trim ?line) = _ => pose proof (parse_cases (trim line)) as C; rewrite E in C; auto end].
Lemma newgame_iff line : is_line (lit "newgame") line <-> cmd_of line = CNewGame.
Proof. plain_line. Qed.
Lemma ubgi_iff line : is_line (lit "ubgi") line <-> cmd_of line = CUbgi.
Proof. plain_line. Qed.
Lemma isready_iff line : is_line (lit "isready") line <-> cmd_of line = CIsReady.
Proof. plain_line. Qed.
Lemma keys_iff line : is_line (lit "keys") line <-> cmd_of line = CKeys.
Proof. plain_line. Qed.
Lemma quit_iff line : is_line (lit "quit") line <-> cmd_of line = CQuit.
Proof. plain_line. Qed.
Lemma go_iff line : go_line line <-> cmd_of line = CGoChequer.
Proof.
  unfold go_line, is_line, cmd_of. rewrite !stripped_iff. split.
  - intros [S|S]; rewrite <- S; reflexivity.
  - intros E. pose proof (parse_cases (trim line)) as C. rewrite E in C. intuition.
Qed.
Lemma known_iff line : known_line line <-> cmd_of line <> CUnknown.
Proof.
  unfold known_line, cmd_of, is_line. split.
  - intros [(s & I & S)|(p & r & I & S)]; apply stripped_iff in S.
    + intros E. pose proof (parse_cases (trim line)) as C. rewrite E in C. exact (C s I (eq_sym S)).
    + exact (@parse_unknown _ p r I (eq_sym S)).
  - intros N. setoid_rewrite stripped_iff. pose proof (parse_cases (trim line)) as C.
    destruct (parse_command (trim line)); try congruence.
    all: try (left; eexists; split; [|symmetry; exact C]; cbn; tauto).
    all: try (right; eexists; eexists; split; [|symmetry; exact C]; cbn; tauto).
    all: try (destruct C as (? & C & _); right; eexists; eexists; split; [|symmetry; exact C]; cbn; tauto).
    all: try (destruct C as (? & C); right; eexists; eexists; split; [|symmetry; exact C]; cbn; tauto).
    + destruct C as (r & C & _). right. exists (lit "position "), (lit "gnubgid " ++ r). split; [cbn; tauto|]. rewrite C. reflexivity.
    + destruct C as [C|C]; left; eexists; (split; [|symmetry; exact C]); cbn; tauto.
Qed.
Lemma blank_cmd line : trim line = [] -> cmd_of line = CUnknown.
Proof. unfold cmd_of. intros ->. reflexivity. Qed.

(** ** One step *)
Lemma step_cmd {E} m (A : engine E) e st line : trim line <> [] -> session_step m A e st line =
  ('(e, st, out) <- handle_command m A e st (cmd_of line) ;;
   Ret (e, st, out, match cmd_of line with CQuit => true | _ => false end)).
Proof. intros N. apply nonempty_iff in N. unfold session_step. rewrite N. reflexivity. Qed.
Lemma step_blank {E} m (A : engine E) e st line : trim line = [] -> session_step m A e st line = Ret (e, st, [], false).
Proof. intros N. unfold session_step. rewrite N. reflexivity. Qed.
Lemma cmd_nonblank line : cmd_of line <> CUnknown -> trim line <> [].
Proof. intros H E. apply H, blank_cmd, E. Qed.
Lemma step_inv {E} m (A : engine E) e st line e' st' out q : session_step m A e st line = Ret (e', st', out, q) ->
  (trim line = [] /\ e' = e /\ st' = st /\ out = [] /\ q = false) \/
  (trim line <> [] /\ handle_command m A e st (cmd_of line) = Ret (e', st', out) /\ (q = true <-> cmd_of line = CQuit)).
Proof.
  destruct (trim line) eqn:T.
  - rewrite step_blank by auto. intros X. inversion X; subst. auto 6.
  - assert (N : trim line <> []) by congruence. rewrite step_cmd by auto. intros X. right. split; [congruence|].
    destruct (handle_command m A e st (cmd_of line)) as [((a, b), c)|]; [|discriminate]. cbn in X. inversion X; subst.
    split; auto. destruct (cmd_of line); split; congruence.
Qed.

(** ** Values of options *)
Lemma parse_value_iff o raw v : parse_value o raw = inr v <-> denotes o raw v.
Proof.
  destruct o as [k mn mx d mi|k d mi|k cs d mi|k d mi]; cbn [parse_value denotes].
  - unfold parse_i64. destruct (parse_int (- 2 ^ 63) (2 ^ 63 - 1) raw) as [n|] eqn:P.
    + apply parse_int_some in P. cbn [ok_or pbind].
      assert (U : forall n', signed_text (- 2 ^ 63) (2 ^ 63 - 1) raw n' -> n' = n).
      { intros n' H. apply parse_int_some in H, P. congruence. }
      destruct mn as [a|]; [destruct mx as [b|]|].
      * destruct ((n <? a) || (b <? n)) eqn:R.
        -- split; [discriminate|]. intros (n' & -> & S & H). specialize (H a b eq_refl eq_refl). rewrite (U n' S) in H.
           apply orb_true_iff in R. rewrite !Z.ltb_lt in R. lia.
        -- apply orb_false_iff in R. rewrite !Z.ltb_ge in R. split.
           ++ intros X. inversion X; subst. exists n. split; auto. split; auto. intros a' b' Ea Eb. inversion Ea; inversion Eb; subst. lia.
           ++ intros (n' & -> & S & _). rewrite (U n' S). reflexivity.
      * split.
        -- intros X. inversion X; subst. exists n. split; auto. split; auto. discriminate.
        -- intros (n' & -> & S & _). rewrite (U n' S). reflexivity.
      * split.
        -- intros X. inversion X; subst. exists n. split; auto. split; auto. discriminate.
        -- intros (n' & -> & S & _). rewrite (U n' S). reflexivity.
    + cbn [ok_or pbind]. split; [discriminate|]. intros (n & -> & S & _). apply parse_int_some in S. congruence.
  - destruct (str_eqb raw (lit "true")) eqn:T.
    + apply str_eqb_eq in T. subst. split; [intros X; inversion X; auto|]. intros [(_ & ->)|(X & _)]; [auto|discriminate].
    + apply str_eqb_neq in T. destruct (str_eqb raw (lit "false")) eqn:F.
      * apply str_eqb_eq in F. subst. split; [intros X; inversion X; auto|]. intros [(X & _)|(_ & ->)]; [discriminate|auto].
      * apply str_eqb_neq in F. split; [discriminate|]. intros [(X & _)|(X & _)]; congruence.
  - destruct (existsb (fun c => str_eqb c raw) cs) eqn:X.
    + apply existsb_exists in X. destruct X as (c & I & Q). apply str_eqb_eq in Q. subst c. split; [intros X; inversion X; auto|].
      intros (_ & ->). reflexivity.
    + split; [discriminate|]. intros (I & ->). rewrite <- not_true_iff_false in X. exfalso. apply X.
      apply existsb_exists. exists raw. split; auto. apply str_eqb_refl.
  - split; [intros X; inversion X; auto|intros ->; auto].
Qed.
Lemma denotes_fun o raw v w : denotes o raw v -> denotes o raw w -> v = w.
Proof. intros A B. apply parse_value_iff in A, B. congruence. Qed.

(** ** Declared options *)
Lemma find_declared os key o : find (fun o => str_eqb (spec_key o) key) os = Some o <-> declared os key o.
Proof.
  unfold declared. induction os as [|x os IH]; cbn [find].
  - split; [discriminate|]. intros (a & b & E & _). destruct a; discriminate.
  - destruct (str_eqb (spec_key x) key) eqn:K.
    + apply str_eqb_eq in K. split.
      * intros X. inversion X; subst. exists [], os. auto.
      * intros ([|y a] & b & E & Ko & F); inversion E; subst; auto. inversion F. congruence.
    + apply str_eqb_neq in K. rewrite IH. split.
      * intros (a & b & -> & Ko & F). exists (x :: a), b. auto.
      * intros ([|y a] & b & E & Ko & F); inversion E; subst; [congruence|]. inversion F. exists a, b. auto.
Qed.
Lemma declared_fun os key o o' : declared os key o -> declared os key o' -> o = o'.
Proof. intros A B. apply find_declared in A, B. congruence. Qed.
Lemma defaults_get os key : forall m, values_get key (fold_left (fun m o => values_insert (spec_key o) (default_value o) m) os m) =
  match find (fun o => str_eqb (spec_key o) key) (rev os) with Some o => Some (default_value o) | None => values_get key m end.
Proof.
  induction os as [|x os IH] using rev_ind; intros m; [reflexivity|].
  rewrite fold_left_app, rev_app_distr. cbn [fold_left rev app find values_insert values_get].
  assert (S : str_eqb key (spec_key x) = str_eqb (spec_key x) key).
  { destruct (str_eqb (spec_key x) key) eqn:Q; [apply str_eqb_eq in Q; subst; apply str_eqb_refl|].
    apply str_eqb_neq in Q. apply str_eqb_neq. auto. }
  unfold values_insert at 1. cbn [values_get]. rewrite S. destruct (str_eqb (spec_key x) key); auto.
Qed.
Lemma find_default os key o : find (fun o => str_eqb (spec_key o) key) (rev os) = Some o <-> default_of os key o.
Proof.
  rewrite find_declared. unfold declared, default_of. split.
  - intros (a & b & E & K & F). exists (rev b), (rev a). split; [|split; auto].
    + rewrite <- (rev_involutive os), E, rev_app_distr. cbn [rev]. rewrite <- app_assoc. reflexivity.
    + apply Forall_rev, F.
  - intros (a & b & -> & K & F). exists (rev b), (rev a). split; [|split; auto].
    + rewrite rev_app_distr. cbn [rev]. rewrite <- app_assoc. reflexivity.
    + apply Forall_rev, F.
Qed.

(** ** Histories *)
Lemma last_event_fun {A} (init : A) (sets : history -> str -> list str -> A -> Prop) : (forall h line out a b, sets h line out a -> sets h line out b -> a = b) ->
  forall h a, last_event init sets h a -> forall b, last_event init sets h b -> a = b.
Proof.
  intros F h a H. induction H as [|h line out a S|h line out a H IH N]; intros b H'.
  - inversion H' as [E|? ? ? ? S E|? ? ? ? S N E]; auto; destruct h; discriminate.
  - inversion H' as [E|h' l' o' a' S' E|h' l' o' a' L' N' E]; subst; [destruct h; discriminate| |];
      apply app_inj_tail in E; destruct E as (-> & E); inversion E; subst.
    + eapply F; eauto.
    + exfalso. eapply N'; eauto.
  - inversion H' as [E|h' l' o' a' S' E|h' l' o' a' L' N' E]; subst; [destruct h; discriminate| |];
      apply app_inj_tail in E; destruct E as (-> & E); inversion E; subst.
    + exfalso. eapply N; eauto.
    + apply IH; auto.
Qed.
Lemma dice_new_shows m a b : valid_die a -> valid_die b -> exists d, dice_new m a b = Ret d /\ SpecDice.shows d a b = true /\ valid_dice d.
Proof.
  intros A B. destruct (Nat.eq_dec a b) as [->|N].
  - exists (Double b). rewrite dice_new_double by auto. split; auto. split; [|exact A]. cbn. rewrite Nat.eqb_refl. reflexivity.
  - exists (Mixed (Nat.max a b) (Nat.min a b)). rewrite dice_new_mixed by auto. split; auto. unfold valid_die in *. split.
    + cbn. apply andb_true_iff. rewrite Nat.ltb_lt, orb_true_iff, !andb_true_iff, !Nat.eqb_eq. lia.
    + cbn. unfold valid_die. lia.
Qed.
Lemma shows_fun d d' a b : SpecDice.shows d a b = true -> SpecDice.shows d' a b = true -> d = d'.
Proof.
  destruct d as [x y|x], d' as [z w|z]; cbn; rewrite ?andb_true_iff, ?orb_true_iff, ?andb_true_iff, ?Nat.ltb_lt, ?Nat.eqb_eq; intros.
  - f_equal; lia.
  - lia.
  - lia.
  - f_equal; lia.
Qed.
Lemma two_dice_fun r a b a' b' : two_dice r a b -> two_dice r a' b' -> a = a' /\ b = b'.
Proof.
  intros (w1 & w2 & W & A & B & _) (w1' & w2' & W' & A' & B' & _). apply words_iff in W, W'.
  assert (w1 = w1' /\ w2 = w2') as (-> & ->) by (split; congruence).
  apply parse_uint_some in A, A', B, B'. split; apply Nat2Z.inj; congruence.
Qed.

(** What [handle_dice] does. *)
Lemma handle_dice_iff m st r :
  (exists a b d, two_dice r a b /\ SpecDice.shows d a b = true /\ valid_dice d /\
     handle_dice m st r = Ret (with_game st (s_variant st) (s_game st) (Some d), [])) \/
  ((forall a b, ~ two_dice r a b) /\ handle_dice m st r = Ret (st, [lit "error bad_value dice"])).
Proof.
  unfold handle_dice. destruct (split_ws r) as [|w1 [|w2 [|w3 ws]]] eqn:W.
  1,2,4: right; split; auto; intros a b (u1 & u2 & U & _); apply words_iff in U; congruence.
  assert (NoP : forall w, parse_usize w = None -> forall v, ~ unsigned_text (2 ^ 64 - 1) w v).
  { intros w P v U. unfold parse_usize in P. apply parse_uint_some in U. congruence. }
  destruct (parse_usize w1) as [a|] eqn:A; [destruct (parse_usize w2) as [b|] eqn:B|].
  - unfold parse_usize in A, B. apply parse_uint_some in A, B.
    assert (Un : forall a' b', two_dice r a' b' -> a = Z.of_nat a' /\ b = Z.of_nat b' /\ (1 <= a' <= 6)%nat /\ (1 <= b' <= 6)%nat).
    { intros a' b' (u1 & u2 & U & A' & B' & Ra & Rb). apply words_iff in U. assert (u1 = w1 /\ u2 = w2) as (-> & ->) by (split; congruence).
      apply parse_uint_some in A, A', B, B'. assert (a = Z.of_nat a' /\ b = Z.of_nat b') as (? & ?) by (split; congruence). auto. }
    destruct (((1 <=? a) && (a <=? 6)) && ((1 <=? b) && (b <=? 6))) eqn:R.
    + rewrite !andb_true_iff, !Z.leb_le in R. left. exists (Z.to_nat a), (Z.to_nat b).
      destruct (@dice_new_shows m (Z.to_nat a) (Z.to_nat b)) as (d & E & S & V); [unfold valid_die; lia|unfold valid_die; lia|].
      exists d. rewrite E. split; [|auto]. exists w1, w2. rewrite words_iff, !Z2Nat.id by lia. split; auto. split; auto. split; auto. lia.
    + right. split; auto. intros a' b' T. destruct (Un _ _ T) as (-> & -> & Ra & Rb).
      rewrite <- not_true_iff_false in R. apply R. rewrite !andb_true_iff, !Z.leb_le. lia.
  - right. split; auto. intros a' b' (u1 & u2 & U & A' & B' & _). apply words_iff in U. assert (u2 = w2) as -> by congruence. exact (NoP _ B _ B').
  - right. split; auto. intros a' b' (u1 & u2 & U & A' & B' & _). apply words_iff in U. assert (u1 = w1) as -> by congruence. exact (NoP _ A _ A').
Qed.

(** Decoding gives a position of the variant asked for. *)
Lemma decode_variant m k id p : gnuid_decode m k id = Ret (inr p) -> vp_variant p = k.
Proof.
  destruct k; cbn; unfold rmap_ok; intros H; apply bind_inv in H; destruct H as ([e|q] & _ & E); inversion E; reflexivity.
Qed.
Lemma start_variant k : vp_variant (start_position k) = k.
Proof. destruct k; reflexivity. Qed.

(** ** The invariant of a session *)
Definition GV : str := lit "game.variant".
Record invariant {E} (m : mode) (A : engine E) (e0 : E) (h : history) (st : session) : Prop := {
  i_specs : s_option_specs st = eng_options A e0;
  i_key : s_variant_key st = s_variant_key (session_new A e0);
  i_variant : variant_after h (s_variant st);
  i_gvariant : g_variant (s_game st) = s_variant st;
  i_pvariant : vp_variant (g_position (s_game st)) = s_variant st;
  i_position : position_after m h (g_position (s_game st));
  i_dice : dice_after h (s_dice st);
  i_valid : forall d, s_dice st = Some d -> valid_dice d;
  i_values : forall key, key <> GV ->
    match values_get key (s_option_values st) with
    | Some v => exists o, default_of (eng_options A e0) key o /\ value_after (eng_options A e0) key o h v
    | None => forall o, ~ default_of (eng_options A e0) key o
    end }.

Lemma invariant_start {E} m (A : engine E) e0 : invariant m A e0 [] (session_new A e0).
Proof.
  constructor; try reflexivity; try (apply last_init).
  - discriminate.
  - intros key _. cbn [session_new s_option_values]. rewrite defaults_get. cbn [values_get].
    destruct (find (fun o => str_eqb (spec_key o) key) (rev (eng_options A e0))) as [o|] eqn:F.
    + exists o. split; [apply find_default, F|]. apply last_init.
    + intros o D. apply find_default in D. congruence.
Qed.

(** A step that changes nothing and sets nothing. *)
Lemma invariant_keep {E} m (A : engine E) e0 h st line out : invariant m A e0 h st ->
  (forall k v, cmd_of line = CSet k v -> out <> []) -> cmd_of line <> CNewGame ->
  (forall id, cmd_of line = CPositionGnubgid id -> out <> []) ->
  (forall r a b, cmd_of line = CDice r -> ~ two_dice r a b) -> invariant m A e0 (h ++ [(line, out)]) st.
Proof.
  intros [I1 I2 I3 I4 I5 I6 I7 I8 I9] NS NN NG ND.
  assert (SV : forall k, ~ sets_variant h line out k).
  { intros k (-> & t & S & _). apply set_line_iff in S. exact (NS _ _ S eq_refl). }
  constructor; auto.
  - apply last_keep; auto.
  - apply last_keep; auto. intros p (-> & [(k & S & _)|[(S & _)|(id & k & S & _)]]).
    + exact (SV _ S).
    + apply newgame_iff in S. auto.
    + apply gnubgid_line_iff in S. exact (NG _ S eq_refl).
  - apply last_keep; auto. intros d [(S & _)|(r & a & b & d' & S & T & _)].
    + apply newgame_iff in S. auto.
    + apply dice_line_iff in S. exact (ND _ _ _ S T).
  - intros key N. specialize (I9 key N). destruct (values_get key (s_option_values st)) as [v|]; auto.
    destruct I9 as (o & D & L). exists o. split; auto. apply last_keep; auto.
    intros w (-> & o' & t & S & _). apply set_line_iff in S. exact (NS _ _ S eq_refl).
Qed.

(** Replies that are not silence. *)
Lemma invariant_step {E} m (A : engine E) e0 h e st line e' st' out q : invariant m A e0 h st ->
  session_step m A e st line = Ret (e', st', out, q) -> invariant m A e0 (h ++ [(line, out)]) st'.
Proof.
  intros I St. apply step_inv in St. destruct St as [(T & -> & -> & -> & _)|(T & H & _)].
  { pose proof (blank_cmd _ T) as C. apply invariant_keep; auto; rewrite C; discriminate. }
  destruct (cmd_of line) as [| | | |key|key value|id| | |rest| | | | |] eqn:C; cbn [handle_command] in H.
  all: try (inversion H; subst; apply invariant_keep; auto; rewrite C; discriminate).
  - apply bind_inv in H. destruct H as ((e1, [er|u]) & H1 & H); inversion H; subst; apply invariant_keep; auto; rewrite C; discriminate.
  - (* newgame *)
    inversion H; subst. destruct I as [I1 I2 I3 I4 I5 I6 I7 I8 I9].
    assert (NL : is_line (lit "newgame") line) by (apply newgame_iff, C).
    constructor; cbn [with_game s_option_specs s_variant_key s_variant s_game s_dice s_option_values game_new g_variant g_position]; auto.
    + apply last_keep; auto. intros k (_ & t & S & _). apply set_line_iff in S. congruence.
    + apply start_variant.
    + apply last_set. split; auto. right. left. split; auto. exists (s_variant st). auto.
    + apply last_set. left. auto.
    + discriminate.
    + intros k N. specialize (I9 k N). destruct (values_get k (s_option_values st)) as [v|]; auto.
      destruct I9 as (o & D & L). exists o. split; auto. apply last_keep; auto.
      intros w (_ & o' & t & S & _). apply set_line_iff in S. congruence.
  - apply bind_inv in H. destruct H as (o & H1 & H). inversion H; subst. apply invariant_keep; auto; rewrite C; discriminate.
  - (* set *)
    unfold handle_set in H. destruct (negb (nonempty key) || negb (nonempty value)) eqn:N.
    { inversion H; subst. apply invariant_keep; auto; rewrite C; intros; discriminate. }
    destruct (str_eqb key (lit "game.variant")) eqn:G.
    + apply str_eqb_eq in G. subst key. destruct (variant_from_str value) as [k|] eqn:V.
      2: { inversion H; subst. apply invariant_keep; auto; rewrite C; intros; discriminate. }
      inversion H; subst. destruct I as [I1 I2 I3 I4 I5 I6 I7 I8 I9].
      assert (SV : sets_variant h line [] k).
      { split; auto. exists value. split; [apply set_line_iff, C|]. apply C34_parse, V. }
      constructor; cbn [with_game s_option_specs s_variant_key s_variant s_game s_dice s_option_values game_new g_variant g_position]; auto.
      * apply last_set, SV.
      * apply start_variant.
      * apply last_set. split; auto. left. eauto.
      * apply last_keep; auto. intros d [(S & _)|(r & a & b & d' & S & _)]; [apply newgame_iff in S|apply dice_line_iff in S]; congruence.
      * intros k' N'. specialize (I9 k' N'). destruct (values_get k' (s_option_values st)) as [v|]; auto.
        destruct I9 as (o & D & L). exists o. split; auto. apply last_keep; auto.
        intros w (_ & o' & t & S & _). apply set_line_iff in S. rewrite C in S. apply N'. unfold GV. congruence.
    + apply str_eqb_neq in G.
      destruct (find (fun o => str_eqb (spec_key o) key) (s_option_specs st)) as [o|] eqn:F.
      2: { inversion H; subst. apply invariant_keep; auto; rewrite C; intros; discriminate. }
      destruct (parse_value o value) as [er|v] eqn:P.
      1: { inversion H; subst. apply invariant_keep; auto; rewrite C; intros; discriminate. }
      apply bind_inv in H. destruct H as ((e1, [er|u]) & H1 & H); inversion H; subst.
      1: { apply invariant_keep; auto; rewrite C; intros; discriminate. }
      destruct I as [I1 I2 I3 I4 I5 I6 I7 I8 I9]. rewrite I1 in F. apply find_declared in F. apply parse_value_iff in P.
      assert (NV : forall k, ~ sets_variant h line [] k).
      { intros k (_ & t & S & _). apply set_line_iff in S. rewrite C in S. inversion S. congruence. }
      constructor; cbn [with_values s_option_specs s_variant_key s_variant s_game s_dice s_option_values]; auto.
      * apply last_keep; auto.
      * apply last_keep; auto. intros p (_ & [(k & S & _)|[(S & _)|(id & k & S & _)]]).
        -- exact (NV _ S).
        -- apply newgame_iff in S. congruence.
        -- apply gnubgid_line_iff in S. congruence.
      * apply last_keep; auto. intros d [(S & _)|(r & a & b & d' & S & _)]; [apply newgame_iff in S|apply dice_line_iff in S]; congruence.
      * intros k' N'. specialize (I9 k' N'). unfold values_insert. cbn [values_get].
        destruct (str_eqb k' key) eqn:Q.
        -- apply str_eqb_eq in Q. subst k'.
           assert (D : exists o', default_of (eng_options A e0) key o').
           { destruct (find (fun o => str_eqb (spec_key o) key) (rev (eng_options A e0))) as [o'|] eqn:F'.
             - exists o'. apply find_default, F'.
             - exfalso. destruct F as (a & b & Eo & K & _).
               assert (Io : In o (rev (eng_options A e0))) by (rewrite <- in_rev, Eo; apply in_or_app; right; left; auto).
               pose proof (find_none _ _ F' o Io) as X. cbn in X. rewrite K, str_eqb_refl in X. discriminate. }
           destruct D as (o' & D). exists o'. split; auto. apply last_set. split; auto. exists o, value. split; [apply set_line_iff, C|auto].
        -- apply str_eqb_neq in Q. destruct (values_get k' (s_option_values st)) as [w|]; auto.
           destruct I9 as (o' & D & L). exists o'. split; auto. apply last_keep; auto.
           intros w' (_ & o'' & t & S & _). apply set_line_iff in S. rewrite C in S. inversion S. congruence.
  - (* gnubgid *)
    apply bind_inv in H. destruct H as ([er|p] & D & H); [inversion H; subst; apply invariant_keep; auto; rewrite C; intros; discriminate|].
    pose proof (decode_variant _ _ _ D) as VP. destruct I as [I1 I2 I3 I4 I5 I6 I7 I8 I9].
    assert (SP : set_position (s_game st) p = (GOk tt, {| g_variant := g_variant (s_game st); g_position := p |})).
    { unfold set_position. rewrite VP, I4. destruct (s_variant st); reflexivity. }
    rewrite SP in H. inversion H; subst.
    assert (GL : gnubgid_line line id) by (apply gnubgid_line_iff, C).
    assert (Ti : trim id = id).
    { destruct GL as (r & _ & S). apply stripped_iff in S. subst id. apply trim_trim. }
    rewrite Ti in D.
    constructor; cbn [with_game s_option_specs s_variant_key s_variant s_game s_dice s_option_values g_variant g_position]; auto.
    + apply last_keep; auto. intros k (_ & t & S & _). apply set_line_iff in S. congruence.
    + apply last_set. split; auto. right. right. exists id, (s_variant st). auto.
    + apply last_keep; auto. intros d [(S & _)|(r & a & b & d' & S & _)]; [apply newgame_iff in S|apply dice_line_iff in S]; congruence.
    + intros k N. specialize (I9 k N). destruct (values_get k (s_option_values st)) as [v|]; auto.
      destruct I9 as (o & Dd & L). exists o. split; auto. apply last_keep; auto.
      intros w (_ & o' & t & S & _). apply set_line_iff in S. congruence.
  - (* dice *)
    destruct (handle_dice_iff m st rest) as [(a & b & d & T2 & Sh & V & Hd)|(N & Hd)]; rewrite Hd in H; cbn in H; inversion H; subst.
    + destruct I as [I1 I2 I3 I4 I5 I6 I7 I8 I9].
      assert (DL : dice_line line rest) by (apply dice_line_iff, C).
      constructor; cbn [with_game s_option_specs s_variant_key s_variant s_game s_dice s_option_values g_variant g_position]; auto.
      * apply last_keep; auto. intros k (_ & t & S & _). apply set_line_iff in S. congruence.
      * apply last_keep; auto. intros p (_ & [(k & (_ & t & S & _) & _)|[(S & _)|(id & k & S & _)]]);
          [apply set_line_iff in S|apply newgame_iff in S|apply gnubgid_line_iff in S]; congruence.
      * apply last_set. right. exists rest, a, b, d. auto.
      * intros d' X. congruence.
      * intros k N. specialize (I9 k N). destruct (values_get k (s_option_values st)) as [v|]; auto.
        destruct I9 as (o & Dd & L). exists o. split; auto. apply last_keep; auto.
        intros w (_ & o' & t & S & _). apply set_line_iff in S. congruence.
    + apply invariant_keep; auto; rewrite C; try discriminate. intros r a b X. inversion X; subst. apply N.
  - (* go *)
    apply bind_inv in H. destruct H as ((e1, o) & H1 & H). inversion H; subst. apply invariant_keep; auto; rewrite C; discriminate.
Qed.
Lemma reaches_invariant {E} m (A : engine E) e0 h e st : reaches m A e0 h e st -> invariant m A e0 h st.
Proof. induction 1 as [|h e st line e' st' out q R IH S]; [apply invariant_start|]. eapply invariant_step; eauto. Qed.
