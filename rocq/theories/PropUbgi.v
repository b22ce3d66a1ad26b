(** Properties C36-C42: UBGI options and sessions.  Read with SpecUbgi.v, SpecText.v, SpecFibs.v
    (stripped), SpecMoveText.v (words, blank_free), SpecDice.v (shows), SpecGnuid.v. *)
From Coq Require Import Strings.String.
From Verif Require Import UbgiFacts PropGnuid PropIdentity GnuidFacts.
Open Scope Z_scope.

(** ** C36: option values *)

(** A text is accepted exactly when it denotes a value of the option: an i64 inside the bounds (if both
    are given), "true"/"false", a listed choice, any text. *)
Theorem C36_accepts_exactly : forall o raw v, parse_value o raw = inr v <-> denotes o raw v.
Proof. intros o raw v. apply parse_value_iff. Qed.

(** The wire form of an accepted value parses back to it. *)
Theorem C36_wire_round_trip : forall o raw v, parse_value o raw = inr v -> parse_value o (to_wire v) = inr v.
Proof.
  intros o raw v H. apply parse_value_iff in H. apply parse_value_iff.
  destruct o as [k mn mx d mi|k d mi|k cs d mi|k d mi]; cbn [denotes] in *.
  - destruct H as (n & -> & S & B). exists n. split; auto. split; auto. cbn [to_wire].
    apply parse_int_some, parse_int_fmt. destruct S as (_ & R). exact R.
  - destruct H as [(-> & ->)|(-> & ->)]; auto.
  - destruct H as (I & ->). auto.
  - subst v. reflexivity.
Qed.
(** So does the default, if it lies in the domain. *)
Theorem C36_default_round_trip : forall o raw, denotes o raw (default_value o) ->
  parse_value o (to_wire (default_value o)) = inr (default_value o).
Proof. intros o raw H. eapply C36_wire_round_trip, C36_accepts_exactly, H. Qed.
(** The default of an option is the value its wire form denotes, whenever it is allowed by the option;
    the key line shows that wire form. *)
Definition default_allowed (o : option_spec) : Prop :=
  match o with
  | OInteger _ min max d _ => - 2 ^ 63 <= d <= 2 ^ 63 - 1 /\ forall a b, min = Some a -> max = Some b -> a <= d <= b
  | OChoice _ choices d _ => In d choices
  | OBoolean _ _ _ | OText _ _ _ => True
  end.
Theorem C36_default : forall o, default_allowed o ->
  denotes o (to_wire (default_value o)) (default_value o) /\ kl_default (described o) = to_wire (default_value o).
Proof.
  intros [k mn mx d mi|k d mi|k cs d mi|k d mi]; cbn [default_allowed denotes default_value to_wire].
  - intros (R & B). split; [|destruct mn, mx; reflexivity]. exists d. split; auto. split; auto. apply parse_int_some, parse_int_fmt. lia.
  - intros _. split; [|reflexivity]. destruct d; auto.
  - intros I. auto.
  - auto.
Qed.
(** A single bound is not enforced. *)
Theorem C36_single_bound_ignored : forall k mn d mi raw n, signed_text (- 2 ^ 63) (2 ^ 63 - 1) raw n ->
  parse_value (OInteger k (Some mn) None d mi) raw = inr (OVInt n) /\ parse_value (OInteger k None (Some mn) d mi) raw = inr (OVInt n).
Proof. intros k mn d mi raw n S. split; apply parse_value_iff; exists n; split; auto; split; auto; discriminate. Qed.
(** Different values have different wire forms for the same option. *)
Theorem C36_wire_injective : forall o a b v w, parse_value o a = inr v -> parse_value o b = inr w -> to_wire v = to_wire w -> v = w.
Proof.
  intros o a b v w A B E. apply C36_wire_round_trip in A, B. rewrite E in A. congruence.
Qed.

Example C36_ex : parse_value (opt_integer (lit "engine.ply") 1 4 2) (lit "+03") = inr (OVInt 3) /\
  parse_value (opt_integer (lit "engine.ply") 1 4 2) (lit "7") = inl (lit "must be in range 1..4") /\
  denotes (opt_integer (lit "engine.ply") 1 4 2) (lit "3") (OVInt 3).
Proof. split; [reflexivity|]. split; [reflexivity|]. apply parse_value_iff. reflexivity. Qed.

(** ** C37: key lines *)
Lemma contains_app p a b : contains p (a ++ p ++ b) = true.
Proof.
  induction a as [|x a IH]; cbn [app].
  - destruct (p ++ b) eqn:E; cbn [contains]; rewrite <- E, starts_with_app; reflexivity.
  - cbn [contains]. rewrite IH. apply orb_true_r.
Qed.
Lemma contains_without p s c : In c p -> without c s -> contains p s = false.
Proof.
  intros I W. induction W as [|x s N W IH]; cbn [contains].
  - destruct p; [destruct I|reflexivity].
  - rewrite IH, orb_false_r. unfold starts_with. destruct (strip_prefix p (x :: s)) as [t|] eqn:E; auto.
    apply strip_prefix_some in E. assert (W' : without c (p ++ t)) by (rewrite <- E; constructor; auto).
    exfalso. apply Forall_app in W'. destruct W' as (W' & _). unfold without in W'. rewrite Forall_forall in W'. exact (W' c I eq_refl).
Qed.
Lemma words_join l : Forall word l -> split_ws (join [32] l) = l.
Proof. apply split_ws_join. Qed.
Lemma int_no_dots n : looks_like_int_domain (fmt_int n) = false.
Proof. apply (@contains_without _ _ 46); [cbn; auto|]. apply fmt_int_without; lia. Qed.
Lemma word_lit s : existsb is_ws (lit s) = false -> lit s <> [] -> word (lit s).
Proof.
  intros H N. split; auto. apply Forall_forall. intros c I. destruct (is_ws c) eqn:W; auto.
  rewrite <- not_true_iff_false in H. exfalso. apply H. apply existsb_exists. eauto.
Qed.
Lemma minor_words base minor l : base = join [32] l -> l <> [] ->
  with_minor base minor = join [32] (l ++ if minor then [lit "!"] else []).
Proof.
  intros -> N. unfold with_minor. destruct minor; [|rewrite app_nil_r; reflexivity].
  induction l as [|a l IH]; [congruence|]. destruct l as [|b l]; [reflexivity|].
  cbn [join app]. cbn [join app] in IH. rewrite <- IH by discriminate. rewrite <- !app_assoc. reflexivity.
Qed.
Lemma key_words l minor base : base = join [32] l -> l <> [] -> Forall word l ->
  split_ws (with_minor base minor) = l ++ if minor then [lit "!"] else [].
Proof.
  intros E N F. rewrite (@minor_words base minor l E N). apply split_ws_join. apply Forall_app. split; auto.
  destruct minor; [|constructor]. constructor; [|constructor]. apply word_lit; [reflexivity|discriminate].
Qed.

(** The key line of an option, parsed, describes the option. *)
Theorem C37_key_line_round_trip : forall o, wordy o -> parse_key_line (to_key_line o) = Some (described o).
Proof.
  intros o W. assert (K : word (lit "key")) by (apply word_lit; [reflexivity|discriminate]).
  destruct o as [k mn mx d mi|k d mi|k cs d mi|k d mi]; cbn [wordy] in W.
  - apply blank_free_word in W. pose proof (fmt_int_word d) as Wd.
    assert (Wi : word (lit "int")) by (apply word_lit; [reflexivity|discriminate]).
    assert (Plain : parse_key_line (with_minor (lit "key " ++ k ++ lit " int " ++ fmt_int d) mi) =
      Some {| kl_name := k; kl_key_type := lit "int"; kl_domain := None; kl_default := fmt_int d; kl_minor := mi; kl_description := [] |}).
    { unfold parse_key_line. rewrite (@key_words [lit "key"; k; lit "int"; fmt_int d] mi) by (try reflexivity; try discriminate; auto).
      cbn [app]. change (str_eqb (lit "key") (lit "key")) with true. change (str_eqb (lit "int") (lit "bool")) with false.
      change (str_eqb (lit "int") (lit "int")) with true. cbv beta iota. rewrite int_no_dots. cbn [negb andb]. destruct mi; reflexivity. }
    destruct mn as [a|]; [destruct mx as [b|]|]; try exact Plain. cbn [to_key_line described].
    set (dom := fmt_int a ++ lit ".." ++ fmt_int b).
    assert (Wdom : word dom).
    { split; [destruct (fmt_int_word a) as (N & _); unfold dom; destruct (fmt_int a); [congruence|discriminate]|].
      unfold dom. apply Forall_app. split; [apply fmt_int_word|]. apply Forall_app. split; [repeat constructor|apply fmt_int_word]. }
    unfold parse_key_line. rewrite (@key_words [lit "key"; k; lit "int"; dom; fmt_int d] mi).
    + cbn [app]. change (str_eqb (lit "key") (lit "key")) with true. change (str_eqb (lit "int") (lit "bool")) with false.
      change (str_eqb (lit "int") (lit "int")) with true. cbv beta iota.
      assert (L : looks_like_int_domain dom = true) by apply contains_app. rewrite L. cbn [negb andb]. destruct mi; reflexivity.
    + unfold dom. cbn [join]. rewrite <- !app_assoc. reflexivity.
    + discriminate.
    + auto 7.
  - apply blank_free_word in W. cbn [to_key_line described].
    assert (Wb : word (lit "bool")) by (apply word_lit; [reflexivity|discriminate]).
    assert (Wd : word (if d then lit "true" else lit "false")) by (destruct d; apply word_lit; try reflexivity; discriminate).
    unfold parse_key_line. rewrite (@key_words [lit "key"; k; lit "bool"; if d then lit "true" else lit "false"] mi) by (try reflexivity; try discriminate; auto).
    cbn [app]. change (str_eqb (lit "key") (lit "key")) with true. change (str_eqb (lit "bool") (lit "bool")) with true. cbv beta iota.
    destruct mi; reflexivity.
  - destruct W as (Wk & Wc & Wd). apply blank_free_word in Wk, Wc, Wd. cbn [to_key_line described].
    assert (We : word (lit "enum")) by (apply word_lit; [reflexivity|discriminate]).
    unfold parse_key_line. rewrite (@key_words [lit "key"; k; lit "enum"; join (lit "|") cs; d] mi) by (try reflexivity; try discriminate; auto 6).
    cbn [app]. change (str_eqb (lit "key") (lit "key")) with true. change (str_eqb (lit "enum") (lit "bool")) with false.
    change (str_eqb (lit "enum") (lit "int")) with false. cbn [andb]. cbv beta iota. destruct mi; reflexivity.
  - destruct W as (Wk & Wd). apply blank_free_word in Wk, Wd. cbn [to_key_line described].
    assert (Ws : word (lit "string")) by (apply word_lit; [reflexivity|discriminate]).
    assert (Wx : word (lit "*")) by (apply word_lit; [reflexivity|discriminate]).
    unfold parse_key_line. rewrite (@key_words [lit "key"; k; lit "string"; lit "*"; d] mi) by (try reflexivity; try discriminate; auto 6).
    cbn [app]. change (str_eqb (lit "key") (lit "key")) with true. change (str_eqb (lit "string") (lit "bool")) with false.
    change (str_eqb (lit "string") (lit "int")) with false. cbn [andb]. cbv beta iota. destruct mi; reflexivity.
Qed.
(** The words may not be empty: a text option with an empty default has an unreadable key line, and with
    the minor mark it is read as a different option. *)
Theorem C37_empty_default : forall k, blank_free k -> parse_key_line (to_key_line (OText k [] false)) = None /\
  exists l, parse_key_line (to_key_line (OText k [] true)) = Some l /\ kl_default l = lit "!" /\ kl_minor l = false.
Proof.
  intros k Wk. apply blank_free_word in Wk.
  assert (K : word (lit "key")) by (apply word_lit; [reflexivity|discriminate]).
  assert (Ws : word (lit "string")) by (apply word_lit; [reflexivity|discriminate]).
  assert (Wx : word (lit "*")) by (apply word_lit; [reflexivity|discriminate]).
  assert (We : word (lit "!")) by (apply word_lit; [reflexivity|discriminate]).
  assert (X : forall l, Forall word l -> split_ws (join [32] ([lit "key"; k; lit "string"; lit "*"] ++ [] :: l)) = [lit "key"; k; lit "string"; lit "*"] ++ l).
  { intros l F. cbn [join app].
    change (lit "key" ++ [32] ++ k ++ [32] ++ lit "string" ++ [32] ++ lit "*" ++ [32] ++ match l with [] => [] | _ :: _ => [] ++ [32] ++ join [32] l end)
      with (lit "key" ++ 32 :: (k ++ 32 :: (lit "string" ++ 32 :: (lit "*" ++ 32 :: match l with [] => [] | _ :: _ => [32] ++ join [32] l end)))).
    rewrite !split_ws_cons by auto. do 4 f_equal. destruct l as [|w l]; [reflexivity|].
    change (split_ws ([32] ++ join [32] (w :: l)) = w :: l). rewrite (@split_ws_blank_app [32]) by (constructor; [reflexivity|constructor]). apply split_ws_join, F. }
  unfold parse_key_line. cbn [to_key_line with_minor]. split.
  - pose proof (X [] (Forall_nil _)) as E. cbn [join app] in E.
    change (lit "key " ++ k ++ lit " string * " ++ []) with (lit "key" ++ [32] ++ k ++ [32] ++ lit "string" ++ [32] ++ lit "*" ++ [32] ++ []).
    cbn [app] in E. cbn [app]. rewrite E. reflexivity.
  - pose proof (X [lit "!"] (Forall_cons _ We (Forall_nil _))) as E. cbn [join app] in E.
    replace ((lit "key " ++ k ++ lit " string * " ++ []) ++ lit " !") with (lit "key" ++ [32] ++ k ++ [32] ++ lit "string" ++ [32] ++ lit "*" ++ [32] ++ [32] ++ lit "!")
      by (rewrite <- !app_assoc; reflexivity).
    cbn [app] in E. cbn [app]. rewrite E. eexists. split; [reflexivity|]. auto.
Qed.
(** What the constructors of options declare: the key line shown and the values taken. *)
Theorem C37_constructors : forall key, blank_free key ->
  (forall a b d,
     parse_key_line (to_key_line (opt_integer key a b d)) =
       Some {| kl_name := key; kl_key_type := lit "int"; kl_domain := Some (fmt_int a ++ lit ".." ++ fmt_int b);
               kl_default := fmt_int d; kl_minor := false; kl_description := [] |} /\
     forall raw v, parse_value (opt_integer key a b d) raw = inr v <->
       exists n, v = OVInt n /\ signed_text (- 2 ^ 63) (2 ^ 63 - 1) raw n /\ a <= n <= b) /\
  (forall d,
     parse_key_line (to_key_line (opt_integer_unbounded key d)) =
       Some {| kl_name := key; kl_key_type := lit "int"; kl_domain := None; kl_default := fmt_int d;
               kl_minor := false; kl_description := [] |} /\
     forall raw v, parse_value (opt_integer_unbounded key d) raw = inr v <->
       exists n, v = OVInt n /\ signed_text (- 2 ^ 63) (2 ^ 63 - 1) raw n) /\
  (forall d : bool,
     parse_key_line (to_key_line (opt_boolean key d)) =
       Some {| kl_name := key; kl_key_type := lit "bool"; kl_domain := None;
               kl_default := (if d then lit "true" else lit "false"); kl_minor := false; kl_description := [] |}) /\
  (forall cs d, blank_free (join (lit "|") cs) -> blank_free d ->
     parse_key_line (to_key_line (opt_choice key cs d)) =
       Some {| kl_name := key; kl_key_type := lit "enum"; kl_domain := Some (join (lit "|") cs);
               kl_default := d; kl_minor := false; kl_description := [] |} /\
     forall raw v, parse_value (opt_choice key cs d) raw = inr v <-> In raw cs /\ v = OVChoice raw) /\
  (forall d, blank_free d ->
     parse_key_line (to_key_line (opt_text key d)) =
       Some {| kl_name := key; kl_key_type := lit "string"; kl_domain := Some (lit "*");
               kl_default := d; kl_minor := false; kl_description := [] |}).
Proof.
  intros key K. split; [|split; [|split; [|split]]].
  - intros a b d. split; [apply (C37_key_line_round_trip (opt_integer key a b d)); exact K|].
    intros raw v. rewrite parse_value_iff. cbn [opt_integer denotes].
    split; intros (n & H1 & H2 & H3); exists n; split; auto; split; auto.
    intros x y X Y. inversion X; inversion Y; subst; auto.
  - intros d. split; [apply (C37_key_line_round_trip (opt_integer_unbounded key d)); exact K|].
    intros raw v. rewrite parse_value_iff. cbn [opt_integer_unbounded denotes].
    split; [intros (n & H1 & H2 & H3)|intros (n & H1 & H2)]; exists n; split; auto.
    split; auto. discriminate.
  - intros d. apply (C37_key_line_round_trip (opt_boolean key d)); exact K.
  - intros cs d C D. split; [apply (C37_key_line_round_trip (opt_choice key cs d)); cbn [wordy opt_choice]; auto|].
    intros raw v. rewrite parse_value_iff. reflexivity.
  - intros d D. apply (C37_key_line_round_trip (opt_text key d)); cbn [wordy opt_text]; auto.
Qed.
(** [minor()] sets the minor flag and nothing else. *)
Theorem C37_minor : forall o, 
  spec_key (opt_minor o) = spec_key o /\ default_value (opt_minor o) = default_value o /\
  (forall raw, parse_value (opt_minor o) raw = parse_value o raw) /\
  (wordy o -> exists l l', parse_key_line (to_key_line o) = Some l /\ parse_key_line (to_key_line (opt_minor o)) = Some l' /\
     kl_minor l' = true /\ kl_name l' = kl_name l /\ kl_key_type l' = kl_key_type l /\ kl_domain l' = kl_domain l /\
     kl_default l' = kl_default l /\ kl_description l' = kl_description l).
Proof.
  intros o. split; [destruct o; reflexivity|]. split; [destruct o; reflexivity|]. split; [destruct o; reflexivity|].
  intros W. exists (described o), (described (opt_minor o)).
  split; [apply C37_key_line_round_trip, W|]. split; [apply C37_key_line_round_trip; destruct o; exact W|].
  destruct o as [? [|] [|] ? ?| | |]; repeat split.
Qed.

Example C37_ex : wordy (opt_minor (opt_choice (lit "engine.mode") [lit "fast"; lit "deep"] (lit "fast"))).
Proof. cbn. unfold blank_free. repeat split; try discriminate; repeat constructor. Qed.

(** ** C38: the session's variant, game and dice *)

(** After any history, with any engine: the session's game is of the session's variant, which is the one
    last set; its position is the one last set up. *)
Theorem C38_in_step : forall E m (A : engine E) e0 h e st, reaches m A e0 h e st ->
  variant_after h (s_variant st) /\ g_variant (s_game st) = s_variant st /\
  vp_variant (g_position (s_game st)) = s_variant st /\ position_after m h (g_position (s_game st)).
Proof. intros E m A e0 h e st R. destruct (reaches_invariant R). auto. Qed.

(** A history has only one such variant, position and dice. *)
Lemma sets_variant_fun h line out a b : sets_variant h line out a -> sets_variant h line out b -> a = b.
Proof.
  intros (_ & t & S & N) (_ & t' & S' & N'). apply set_line_iff in S, S'.
  assert (t' = t) as -> by congruence. apply C34_parse in N, N'. congruence.
Qed.
Lemma variant_after_fun h a b : variant_after h a -> variant_after h b -> a = b.
Proof. intros A B. exact (last_event_fun sets_variant_fun A B). Qed.
Lemma sets_position_fun m h line out a b : sets_position m h line out a -> sets_position m h line out b -> a = b.
Proof.
  intros (_ & A) (_ & B).
  assert (X : forall k t, set_line line (lit "game.variant") t -> names_variant t k -> cmd_of line = CSet (lit "game.variant") t).
  { intros k t S _. apply set_line_iff, S. }
  destruct A as [(k & S & ->)|[(S & k & V & ->)|(id & k & S & V & D)]];
    destruct B as [(k' & S' & ->)|[(S' & k' & V' & ->)|(id' & k' & S' & V' & D')]].
  - f_equal. eapply sets_variant_fun; eauto.
  - destruct S as (_ & t & S & _). apply set_line_iff in S. apply newgame_iff in S'. congruence.
  - destruct S as (_ & t & S & _). apply set_line_iff in S. apply gnubgid_line_iff in S'. congruence.
  - destruct S' as (_ & t & S' & _). apply set_line_iff in S'. apply newgame_iff in S. congruence.
  - f_equal. eapply variant_after_fun; eauto.
  - apply newgame_iff in S. apply gnubgid_line_iff in S'. congruence.
  - destruct S' as (_ & t & S' & _). apply set_line_iff in S'. apply gnubgid_line_iff in S. congruence.
  - apply newgame_iff in S'. apply gnubgid_line_iff in S. congruence.
  - apply gnubgid_line_iff in S, S'. assert (id' = id) as -> by congruence.
    rewrite (variant_after_fun V' V) in D'. congruence.
Qed.
Lemma sets_dice_fun h line out a b : sets_dice h line out a -> sets_dice h line out b -> a = b.
Proof.
  intros [(S & ->)|(r & x & y & d & S & T & Sh & ->)] [(S' & ->)|(r' & x' & y' & d' & S' & T' & Sh' & ->)]; auto.
  - apply newgame_iff in S. apply dice_line_iff in S'. congruence.
  - apply newgame_iff in S'. apply dice_line_iff in S. congruence.
  - apply dice_line_iff in S, S'. assert (r' = r) as -> by congruence.
    destruct (two_dice_fun T T') as (-> & ->). f_equal. eapply shows_fun; eauto.
Qed.
Theorem C38_unique : forall m h,
  (forall a b, variant_after h a -> variant_after h b -> a = b) /\
  (forall a b, position_after m h a -> position_after m h b -> a = b) /\
  (forall a b, dice_after h a -> dice_after h b -> a = b).
Proof.
  intros m h. split; [|split]; intros a b A B.
  - exact (variant_after_fun A B).
  - exact (last_event_fun (@sets_position_fun m) A B).
  - exact (last_event_fun sets_dice_fun A B).
Qed.

Lemma error_to_line p : is_error (to_line p).
Proof. destruct p; cbn [to_line]; [exists (lit "bad_command " ++ detail)|exists (lit "bad_value " ++ detail)|exists (lit "bad_state " ++ detail)|exists (lit "unsupported " ++ detail)]; reflexivity. Qed.
Lemma not_error s : (forall t, s <> 101 :: t) -> ~ is_error s.
Proof. intros H (t & E). exact (H _ E). Qed.
(** A line answered with an error leaves variant, game, dice and option values as they were. *)
Theorem C38_error_keeps_session : forall E m (A : engine E) e st line e' st' out q,
  session_step m A e st line = Ret (e', st', out, q) -> (exists r, In r out /\ is_error r) -> st' = st.
Proof.
  intros E m A e st line e' st' out q S (r & I & Er). apply step_inv in S. destruct S as [(_ & _ & -> & _)|(_ & H & _)]; auto.
  destruct (cmd_of line) as [| | | |key|key value|id| | |rest| | | | |]; cbn [handle_command] in H.
  all: try (inversion H; subst; reflexivity).
  all: try (inversion H; subst; destruct I; fail).
  - apply bind_inv in H. destruct H as ((e1, [er|u]) & _ & H); inversion H; reflexivity.
  - apply bind_inv in H. destruct H as (o & _ & H). inversion H; reflexivity.
  - unfold handle_set in H. destruct (_ || _); [inversion H; reflexivity|].
    destruct (str_eqb key (lit "game.variant")).
    { destruct (variant_from_str value); inversion H; subst; [destruct I|reflexivity]. }
    destruct (find _ _) as [o|]; [|inversion H; reflexivity].
    destruct (parse_value o value) as [er|v]; [inversion H; reflexivity|].
    apply bind_inv in H. destruct H as ((e1, [er|u]) & _ & H); inversion H; subst; [reflexivity|destruct I].
  - apply bind_inv in H. destruct H as ([er|p] & _ & H); [inversion H; reflexivity|].
    destruct (set_position (s_game st) p). inversion H; subst. destruct I.
  - destruct (handle_dice_iff m st rest) as [(a & b & d & _ & _ & _ & Hd)|(_ & Hd)]; rewrite Hd in H; cbn in H; inversion H; subst; [destruct I|reflexivity].
  - apply bind_inv in H. destruct H as ((e1, o) & _ & H). inversion H; reflexivity.
Qed.
(** Only "set", "newgame", "position gnubgid" and "dice" lines change the session. *)
Theorem C38_who_changes : forall E m (A : engine E) e st line e' st' out q,
  session_step m A e st line = Ret (e', st', out, q) ->
  (forall k v, ~ set_line line k v) -> ~ is_line (lit "newgame") line -> (forall id, ~ gnubgid_line line id) ->
  (forall r, ~ dice_line line r) -> st' = st.
Proof.
  intros E m A e st line e' st' out q S NS NN NG ND. apply step_inv in S. destruct S as [(_ & _ & -> & _)|(_ & H & _)]; auto.
  destruct (cmd_of line) as [| | | |key|key value|id| | |rest| | | | |] eqn:C; cbn [handle_command] in H.
  all: try (inversion H; subst; reflexivity).
  - apply bind_inv in H. destruct H as ((e1, [er|u]) & _ & H); inversion H; reflexivity.
  - exfalso. apply NN, newgame_iff, C.
  - apply bind_inv in H. destruct H as (o & _ & H). inversion H; reflexivity.
  - exfalso. eapply NS, set_line_iff, C.
  - exfalso. eapply NG, gnubgid_line_iff, C.
  - exfalso. eapply ND, dice_line_iff, C.
  - apply bind_inv in H. destruct H as ((e1, o) & _ & H). inversion H; reflexivity.
Qed.

(** ** C39: get and set *)

(** [get] of a declared option answers the value last set, or the default. *)
Theorem C39_get_declared : forall E m (A : engine E) e0 h e st line key o, reaches m A e0 h e st ->
  key <> lit "game.variant" -> default_of (eng_options A e0) key o -> get_line line key ->
  exists v, value_after (eng_options A e0) key o h v /\
  session_step m A e st line = Ret (e, st, [lit "value " ++ key ++ lit " " ++ to_wire v], false).
Proof.
  intros E m A e0 h e st line key o R N D G. apply get_line_iff in G.
  destruct (reaches_invariant R) as [_ _ _ _ _ _ _ _ IV]. specialize (IV key N).
  rewrite step_cmd by (apply cmd_nonblank; rewrite G; discriminate). rewrite G. cbn [handle_command]. unfold handle_get.
  destruct (str_eqb key (lit "game.variant")) eqn:Q; [apply str_eqb_eq in Q; congruence|].
  destruct (values_get key (s_option_values st)) as [v|]; [|exfalso; exact (IV o D)].
  destruct IV as (o' & D' & L). apply find_default in D, D'. assert (o' = o) as -> by congruence.
  exists v. split; auto.
Qed.
(** That value is unique. *)
Theorem C39_value_unique : forall os key o h v w, value_after os key o h v -> value_after os key o h w -> v = w.
Proof.
  intros os key o h v w A B. refine (last_event_fun _ A B).
  intros h' line out a b (_ & o1 & t & S & D & V) (_ & o2 & t' & S' & D' & V'). apply set_line_iff in S, S'.
  assert (t' = t) as -> by congruence. rewrite (declared_fun D' D) in V'. eapply denotes_fun; eauto.
Qed.
(** [get game.variant] answers the variant. *)
Theorem C39_get_variant : forall E m (A : engine E) e0 h e st line, reaches m A e0 h e st -> get_line line (lit "game.variant") ->
  exists k, variant_after h k /\
  session_step m A e st line = Ret (e, st, [lit "value game.variant " ++ variant_display k], false).
Proof.
  intros E m A e0 h e st line R G. apply get_line_iff in G. destruct (reaches_invariant R) as [_ _ IV _ _ _ _ _ _].
  exists (s_variant st). split; auto. rewrite step_cmd by (apply cmd_nonblank; rewrite G; discriminate). rewrite G. reflexivity.
Qed.
(** Other keys are asked of the engine. *)
Theorem C39_get_other : forall E m (A : engine E) e0 h e st line key r, reaches m A e0 h e st ->
  key <> lit "game.variant" -> (forall o, In o (eng_options A e0) -> spec_key o <> key) -> get_line line key ->
  eng_get A e key = Ret r ->
  session_step m A e st line = Ret (e, st, [match r with Some v => lit "value " ++ key ++ lit " " ++ to_wire v
                                                        | None => lit "error unsupported key" end], false).
Proof.
  intros E m A e0 h e st line key r R N ND G Eg. apply get_line_iff in G.
  destruct (reaches_invariant R) as [_ _ _ _ _ _ _ _ IV]. specialize (IV key N).
  rewrite step_cmd by (apply cmd_nonblank; rewrite G; discriminate). rewrite G. cbn [handle_command]. unfold handle_get.
  destruct (str_eqb key (lit "game.variant")) eqn:Q; [apply str_eqb_eq in Q; congruence|].
  destruct (values_get key (s_option_values st)) as [v|].
  - exfalso. destruct IV as (o & (a & b & Eo & K & _) & _). apply (ND o); auto. rewrite Eo. apply in_or_app. right. left. auto.
  - rewrite Eg. destruct r; reflexivity.
Qed.
(** [set]: silent exactly when the option is declared, the text denotes a value of it and the engine
    accepts the value; all other options keep their values (see [value_after]). *)
Theorem C39_set : forall E m (A : engine E) e0 h e st line key t, reaches m A e0 h e st ->
  key <> lit "game.variant" -> set_line line key t ->
  (key = [] \/ t = [] -> session_step m A e st line = Ret (e, st, [lit "error bad_command expected: set <key> <value>"], false)) /\
  (key <> [] -> t <> [] ->
   (forall o, ~ declared (eng_options A e0) key o) -> session_step m A e st line = Ret (e, st, [lit "error unsupported key"], false)) /\
  (forall o, key <> [] -> t <> [] -> declared (eng_options A e0) key o ->
   ((forall v, ~ denotes o t v) -> session_step m A e st line = Ret (e, st, [lit "error bad_value " ++ key], false)) /\
   (forall v, denotes o t v ->
    (forall e', eng_set A e key v = Ret (e', inr tt) -> exists st', session_step m A e st line = Ret (e', st', [], false)) /\
    (forall e' er, eng_set A e key v = Ret (e', inl er) -> session_step m A e st line = Ret (e', st, [refused key er], false)))).
Proof.
  intros E m A e0 h e st line key t R N S. apply set_line_iff in S.
  destruct (reaches_invariant R) as [I1 _ _ _ _ _ _ _ _].
  assert (Ng : str_eqb key (lit "game.variant") = false) by (apply str_eqb_neq, N).
  rewrite step_cmd by (apply cmd_nonblank; rewrite S; discriminate). rewrite S. cbn [handle_command]. unfold handle_set. rewrite Ng, I1.
  assert (NE : key <> [] -> t <> [] -> negb (nonempty key) || negb (nonempty t) = false) by (intros; destruct key; destruct t; try congruence; reflexivity).
  split; [|split].
  - intros X. assert (Q : negb (nonempty key) || negb (nonempty t) = true) by (destruct X as [->| ->]; [reflexivity|destruct (nonempty key); reflexivity]).
    rewrite Q. reflexivity.
  - intros Nk Nt ND. rewrite (NE Nk Nt). destruct (find _ (eng_options A e0)) as [o|] eqn:F; [|reflexivity].
    exfalso. eapply ND, find_declared, F.
  - intros o Nk Nt D. rewrite (NE Nk Nt). apply find_declared in D. rewrite D. split.
    + intros ND. destruct (parse_value o t) as [er|v] eqn:P; [reflexivity|]. exfalso. eapply ND, parse_value_iff, P.
    + intros v V. apply parse_value_iff in V. rewrite V. split.
      * intros e' Es. rewrite Es. eexists. reflexivity.
      * intros e' er Es. rewrite Es. cbn [bind]. destruct er as [d|d|d]; try reflexivity. destruct d; reflexivity.
Qed.

(** ** C40: go *)

(** Without dice (none accepted since the start or the last "newgame") [go] is an error; otherwise the
    engine is asked with the current game and the dice last given. *)
Theorem C40_go : forall E m (A : engine E) e0 h e st line, reaches m A e0 h e st -> go_line line ->
  exists od k p, dice_after h od /\ variant_after h k /\ position_after m h p /\
  match od with
  | None => session_step m A e st line = Ret (e, st, [lit "error bad_state missing.dice"], false)
  | Some d => valid_dice d /\
      forall e' r, choose_move A e {| g_variant := k; g_position := p |} d = Ret (e', r) ->
      session_step m A e st line =
        Ret (e', st, [match r with inr mv => lit "bestmove " ++ format_move_steps mv
                                 | inl er => lit "error bad_state move.select " ++ ubgi_error_display er end], false)
  end.
Proof.
  intros E m A e0 h e st line R G. apply go_iff in G. destruct (reaches_invariant R) as [_ _ I3 I4 I5 I6 I7 I8 _].
  exists (s_dice st), (s_variant st), (g_position (s_game st)). split; auto. split; auto. split; auto.
  rewrite step_cmd by (apply cmd_nonblank; rewrite G; discriminate). rewrite G. cbn [handle_command]. unfold handle_go.
  destruct (s_dice st) as [d|]; [|reflexivity]. split; [auto|]. intros e' r Ec.
  assert (Eg : s_game st = {| g_variant := s_variant st; g_position := g_position (s_game st) |}) by (rewrite <- I4; destruct (s_game st); reflexivity).
  rewrite Eg, Ec. destruct r; reflexivity.
Qed.
(** [dice]: accepted (silently) exactly for two numbers 1..6. *)
Theorem C40_dice : forall E m (A : engine E) e st line r, dice_line line r ->
  ((exists a b, two_dice r a b) -> exists st', session_step m A e st line = Ret (e, st', [], false)) /\
  ((forall a b, ~ two_dice r a b) -> session_step m A e st line = Ret (e, st, [lit "error bad_value dice"], false)).
Proof.
  intros E m A e st line r D. apply dice_line_iff in D.
  rewrite step_cmd by (apply cmd_nonblank; rewrite D; discriminate). rewrite D. cbn [handle_command].
  destruct (handle_dice_iff m st r) as [(a & b & d & T & _ & _ & Hd)|(N & Hd)]; rewrite Hd; split.
  - intros _. eexists. reflexivity.
  - intros N. exfalso. exact (N _ _ T).
  - intros (a & b & T). exfalso. exact (N _ _ T).
  - reflexivity.
Qed.
(** The dice of a history: given by a [dice] line with no "newgame" and no other accepted [dice] line
    after it, or absent. *)
Theorem C40_dice_after : forall h d, dice_after h (Some d) <->
  exists h1 line out h2 r a b, h = h1 ++ (line, out) :: h2 /\ dice_line line r /\ two_dice r a b /\ SpecDice.shows d a b = true /\
  Forall (fun x => ~ is_line (lit "newgame") (fst x) /\ forall r' a' b', dice_line (fst x) r' -> ~ two_dice r' a' b') h2.
Proof.
  intros h d. split.
  - remember (Some d) as od. unfold dice_after. induction 1 as [|h line out od S|h line out od L IH N]; [discriminate| |].
    + subst od. destruct S as [(_ & X)|(r & a & b & d' & D & T & Sh & X)]; [discriminate|]. inversion X; subst d'.
      exists h, line, out, [], r, a, b. auto 6.
    + destruct (IH Heqod) as (h1 & l & o & h2 & r & a & b & -> & D & T & Sh & F).
      exists h1, l, o, (h2 ++ [(line, out)]), r, a, b. rewrite <- app_assoc. split; [reflexivity|]. split; [auto|]. split; [auto|]. split; [auto|].
      apply Forall_app. split; auto. constructor; [|constructor]. cbn [fst]. split.
      * intros X. apply (N None). left. auto.
      * intros r' a' b' D' T'. destruct (@dice_new_shows Debug a' b') as (d' & _ & Sh' & _).
        { destruct T' as (? & ? & _ & _ & _ & Ra & _). exact Ra. } { destruct T' as (? & ? & _ & _ & _ & _ & Rb). exact Rb. }
        apply (N (Some d')). right. exists r', a', b', d'. auto.
  - intros (h1 & line & out & h2 & r & a & b & -> & D & T & Sh & F). induction h2 as [|(l, o) h2 IH] using rev_ind.
    + apply last_set. right. exists r, a, b, d. auto.
    + apply Forall_app in F. destruct F as (F1 & F2). inversion F2 as [|? ? (Nn & Nd) _]; subst. cbn [fst] in *.
      rewrite app_comm_cons, app_assoc. apply last_keep; [apply IH, F1|].
      intros b' [(X & _)|(r' & a' & b'' & d' & D' & T' & _)]; [auto|]. exact (Nd _ _ _ D' T').
Qed.

(** ** C41: crashes *)

(** The full property is false: see [C41_refuted]. *)
Definition session_never_crashes : Prop := forall E m (A : engine E) e0 input, never_panics A ->
  exists h e st, run_ubgi_stdio m A e0 input = (h, Ret (e, st)).

(** Only a "position gnubgid" line whose ID makes the decoder panic can crash a step. *)
Theorem C41_step_partial : forall E m (A : engine E) e st line, never_panics A ->
  (forall id, gnubgid_line line id -> exists r, gnuid_decode m (s_variant st) id = Ret r) ->
  exists e' st' out q, session_step m A e st line = Ret (e', st', out, q).
Proof.
  intros E m A e st line (P1 & P2 & P3 & P4) G. destruct (trim line) eqn:T; [rewrite step_blank by auto; eauto 6|].
  rewrite step_cmd by congruence.
  assert (H : exists x, handle_command m A e st (cmd_of line) = Ret x).
  { destruct (cmd_of line) as [| | | |key|key value|id| | |rest| | | | |] eqn:C; cbn [handle_command]; try (eexists; reflexivity).
    - destruct (P1 e) as ((e1, [er|u]) & ->); eexists; reflexivity.
    - unfold handle_get. destruct (str_eqb _ _); [eexists; reflexivity|]. destruct (values_get _ _); [eexists; reflexivity|].
      destruct (P2 e key) as ([v|] & ->); eexists; reflexivity.
    - unfold handle_set. destruct (_ || _); [eexists; reflexivity|]. destruct (str_eqb _ _); [destruct (variant_from_str value); eexists; reflexivity|].
      destruct (find _ _) as [o|]; [|eexists; reflexivity]. destruct (parse_value o value) as [er|v]; [eexists; reflexivity|].
      destruct (P3 e key v) as ((e1, [er|u]) & ->); eexists; reflexivity.
    - assert (GL : gnubgid_line line id) by (apply gnubgid_line_iff, C).
      assert (Ti : trim id = id) by (destruct GL as (r & _ & S); apply stripped_iff in S; subst id; apply trim_trim).
      destruct (G id GL) as ([er|p] & D); rewrite Ti, D; cbn [bind]; [eexists; reflexivity|]. destruct (set_position (s_game st) p). eexists; reflexivity.
    - destruct (handle_dice_iff m st rest) as [(a & b & d & _ & _ & _ & ->)|(_ & ->)]; eexists; reflexivity.
    - unfold handle_go. destruct (s_dice st) as [d|]; [|eexists; reflexivity]. destruct (P4 e (s_game st) d) as ((e1, [er|mv]) & ->); eexists; reflexivity. }
  destruct H as (((e', st'), out) & ->). cbn [bind]. eauto 6.
Qed.
(** So a session whose "position gnubgid" lines all carry IDs the decoder survives never crashes. *)
Theorem C41_session_partial : forall E m (A : engine E) e0 input, never_panics A ->
  (forall line id k, In (Some line) input -> gnubgid_line line id -> exists r, gnuid_decode m k id = Ret r) ->
  exists h e st, run_ubgi_stdio m A e0 input = (h, Ret (e, st)).
Proof.
  intros E m A e0 input NP G. unfold run_ubgi_stdio. generalize (session_new A e0) as st. revert e0.
  induction input as [|[line|] input IH]; intros e st; cbn [session_loop]; eauto.
  destruct (@C41_step_partial E m A e st line NP) as (e' & st' & out & q & ->).
  { intros id GL. eapply G; [left; reflexivity|exact GL]. }
  destruct q; [eauto|]. destruct (IH (fun line id k I => G line id k (or_intror I)) e' st') as (h & e2 & st2 & ->). eauto.
Qed.
(** IDs the decoder survives: every text not of the shape of an ID, and every ID that lists at most as
    many checkers as the variant has. *)
Theorem C41_safe_ids_partial : forall m k id,
  (~ id_shape id \/ exists key o x, key_of id key /\ key_lists key o x /\
     (x_total x <= Z.to_nat (checkers k))%nat /\ (o_total o <= Z.to_nat (checkers k))%nat) ->
  exists r, gnuid_decode m k id = Ret r.
Proof.
  intros m k id [N|(key & o & x & F & L & X & O)].
  - destruct (C10_malformed_partial m k N) as (e & ->). eauto.
  - destruct (C10_listed_partial m k F L X O) as (w & -> & _). eauto.
Qed.

(** A small engine. *)
Definition passing_engine : engine unit := {|
  id_name := fun _ => lit "passer"; id_version := fun _ => lit "1";
  on_ready := fun _ => Ret (tt, inr tt);
  eng_options := fun _ => [opt_integer (lit "engine.ply") 1 4 2; opt_text (lit "engine.path") (lit "net")];
  eng_get := fun _ _ => Ret None;
  eng_set := fun _ _ _ => Ret (tt, inr tt);
  choose_move := fun _ _ _ => Ret (tt, inr []) |}.
Lemma passing_never_panics : never_panics passing_engine.
Proof. repeat split; intros; eexists; reflexivity. Qed.
Theorem C41_refuted : ~ session_never_crashes.
Proof.
  intros H. destruct (H unit Release passing_engine tt [Some (lit "position gnubgid /////////////w")] passing_never_panics) as (h & e & st & X).
  vm_compute in X. discriminate X.
Qed.

(** ** C42: replies and termination *)

(** The session reads its input up to the first "quit", read error or crash; [h] lists exactly the lines
    read, with the replies written for each. *)
Lemma loop_reaches {E} m (A : engine E) e0 : forall input h0 e st, reaches m A e0 h0 e st ->
  let '(h, r) := session_loop m A e st input in
  match r with
  | Ret (e', st') => reaches m A e0 (h0 ++ h) e' st' /\ read_lines input (map fst h)
  | Panic k => exists e' st' line ls, reaches m A e0 (h0 ++ h) e' st' /\ session_step m A e' st' line = Panic k /\
      forall ls', read_lines input ls' -> ls' = map fst h ++ line :: ls ls'
  end.
Proof.
  induction input as [|[line|] input IH]; intros h0 e st R; cbn [session_loop].
  - rewrite app_nil_r. split; auto. constructor.
  - destruct (session_step m A e st line) as [(((e1, st1), out), q)|k] eqn:S.
    + pose proof (reaches_more line R S) as R1.
      assert (Qi : q = true <-> is_line (lit "quit") line).
      { rewrite quit_iff. apply step_inv in S. destruct S as [(T & _ & _ & _ & ->)|(_ & _ & Q)]; auto. rewrite (blank_cmd _ T). split; discriminate. }
      destruct q.
      * split; auto. cbn [map fst]. apply read_quit. apply Qi. auto.
      * assert (NQ : ~ is_line (lit "quit") line) by (rewrite <- Qi; discriminate).
        specialize (IH (h0 ++ [(line, out)]) e1 st1 R1). destruct (session_loop m A e1 st1 input) as (h, r).
        rewrite <- app_assoc in IH. cbn [app] in IH. destruct r as [(e2, st2)|k].
        -- destruct IH as (R2 & L). split; auto. cbn [map fst]. apply read_more; auto.
        -- destruct IH as (e2 & st2 & line2 & ls & R2 & S2 & L). exists e2, st2, line2, (fun l => ls (tl l)). split; auto. split; auto.
           intros ls' X. inversion X as [| |? ? Q|? ? l' _ X']; subst; [tauto|]. cbn [map fst app tl]. f_equal. apply L, X'.
    + exists e, st, line, (@tl str). rewrite app_nil_r. split; auto. split; auto.
      intros ls' X. inversion X; subst; reflexivity.
  - rewrite app_nil_r. split; auto. constructor.
Qed.
Theorem C42_reads : forall E m (A : engine E) e0 input h r, run_ubgi_stdio m A e0 input = (h, r) ->
  match r with
  | Ret (e, st) => reaches m A e0 h e st /\ read_lines input (map fst h)
  | Panic k => exists e st line, reaches m A e0 h e st /\ session_step m A e st line = Panic k /\
      forall ls, read_lines input ls -> exists rest, ls = map fst h ++ line :: rest
  end.
Proof.
  intros E m A e0 input h r X. unfold run_ubgi_stdio in X.
  pose proof (@loop_reaches E m A e0 input [] e0 (session_new A e0) (reaches_start m A e0)) as H. rewrite X in H. cbn [app] in H.
  destruct r as [(e, st)|k]; auto. destruct H as (e & st & line & ls & R & S & L). exists e, st, line. split; auto. split; auto.
  intros ls' Y. eexists. apply L, Y.
Qed.
(** The input has one such list of lines, so a session ends after "quit" whatever follows. *)
Theorem C42_reads_once : forall input, exists ls, read_lines input ls /\ forall ls', read_lines input ls' -> ls' = ls.
Proof.
  induction input as [|[line|] input (ls & L & U)].
  - exists []. split; [constructor|]. intros ls' H. inversion H; auto.
  - destruct (list_eq_dec Z.eq_dec (lit "quit") (trim line)) as [Q|Q].
    + assert (IQ : is_line (lit "quit") line) by (apply stripped_iff; auto). exists [line]. split; [apply read_quit, IQ|].
      intros ls' H. inversion H; subst; tauto.
    + assert (NQ : ~ is_line (lit "quit") line) by (unfold is_line; rewrite stripped_iff; auto). exists (line :: ls). split; [apply read_more; auto|].
      intros ls' H. inversion H; subst; [tauto|]. f_equal. auto.
  - exists []. split; [constructor|]. intros ls' H. inversion H; auto.
Qed.

(** The replies to each line. *)
Definition key_lines (os : list option_spec) : list str :=
  lit "key game.variant enum backgammon|nackgammon|longgammon|hypergammon|hypergammon2|hypergammon4|hypergammon5 backgammon"
  :: map to_key_line os.
Theorem C42_replies : forall E m (A : engine E) e0 h e st line e' st' out q, reaches m A e0 h e st ->
  session_step m A e st line = Ret (e', st', out, q) ->
  (only_blanks line -> out = [] /\ e' = e /\ st' = st) /\
  (~ only_blanks line -> ~ known_line line -> out = [lit "error bad_command unknown"] /\ e' = e /\ st' = st) /\
  (is_line (lit "quit") line -> out = [] /\ e' = e /\ st' = st) /\
  (q = true <-> is_line (lit "quit") line) /\
  (is_line (lit "keys") line -> out = key_lines (eng_options A e0)) /\
  (is_line (lit "ubgi") line -> out =
     [lit "id name " ++ id_name A e; lit "id author bkgm"; lit "id version " ++ id_version A e; lit "proto 0.2"] ++
     key_lines (eng_options A e0) ++ [lit "ubgiok"]) /\
  (~ is_line (lit "keys") line -> ~ is_line (lit "ubgi") line -> (List.length out <= 1)%nat).
Proof.
  intros E m A e0 h e st line e' st' out q R S. destruct (reaches_invariant R) as [I1 I2 _ _ _ _ _ _ _].
  assert (KL : render_key_lines st = key_lines (eng_options A e0)).
  { unfold render_key_lines. rewrite I1, I2. reflexivity. }
  rewrite known_iff, quit_iff, keys_iff, ubgi_iff.
  assert (B : only_blanks line <-> trim line = []) by (rewrite blank_trim; reflexivity). rewrite B.
  apply step_inv in S. destruct S as [(T & -> & -> & -> & ->)|(T & H & Q)].
  - rewrite (blank_cmd _ T). split; [auto|]. split; [tauto|]. split; [discriminate|]. split; [split; discriminate|].
    split; [discriminate|]. split; [discriminate|]. cbn. auto.
  - split; [tauto|]. split; [|split; [|split; [exact Q|split; [|split]]]].
    + intros _ N. destruct (cmd_of line); try (exfalso; apply N; discriminate). cbn in H. inversion H; auto.
    + intros C. rewrite C in H. inversion H; auto.
    + intros C. rewrite C in H. cbn in H. inversion H; subst. exact KL.
    + intros C. rewrite C in H. cbn [handle_command] in H. rewrite KL in H. inversion H; subst. reflexivity.
    + intros N1 N2. destruct (cmd_of line) as [| | | |key|key value|id| | |rest| | | | |]; cbn [handle_command] in H; try congruence.
      all: try (inversion H; subst; cbn [List.length]; lia).
      * apply bind_inv in H. destruct H as ((e1, [er|u]) & _ & H); inversion H; subst; cbn [List.length]; lia.
      * apply bind_inv in H. destruct H as (o & H1 & H). inversion H; subst. unfold handle_get in H1.
        destruct (str_eqb _ _); [inversion H1; subst; cbn [List.length]; lia|]. destruct (values_get _ _); [inversion H1; subst; cbn [List.length]; lia|].
        apply bind_inv in H1. destruct H1 as ([v|] & _ & H1); inversion H1; subst; cbn [List.length]; lia.
      * unfold handle_set in H. destruct (_ || _); [inversion H; subst; cbn [List.length]; lia|].
        destruct (str_eqb _ _); [destruct (variant_from_str value); inversion H; subst; cbn [List.length]; lia|].
        destruct (find _ _) as [o|]; [|inversion H; subst; cbn [List.length]; lia].
        destruct (parse_value o value); [inversion H; subst; cbn [List.length]; lia|].
        apply bind_inv in H. destruct H as ((e1, [er|u]) & _ & H); inversion H; subst; cbn [List.length]; lia.
      * apply bind_inv in H. destruct H as ([er|p] & _ & H); [inversion H; subst; cbn [List.length]; lia|].
        destruct (set_position (s_game st) p). inversion H; subst; cbn [List.length]; lia.
      * destruct (handle_dice_iff m st rest) as [(a & b & d & _ & _ & _ & Hd)|(_ & Hd)]; rewrite Hd in H; cbn in H; inversion H; subst; cbn [List.length]; lia.
      * apply bind_inv in H. destruct H as ((e1, o) & H1 & H). inversion H; subst. unfold handle_go in H1.
        destruct (s_dice _); [|inversion H1; subst; cbn [List.length]; lia].
        apply bind_inv in H1. destruct H1 as ((e2, [er|mv]) & _ & H1); inversion H1; subst; cbn [List.length]; lia.
Qed.

(** A session, to show that the hypotheses above are met. *)
Definition demo : list (option str) := map (fun s => Some (lit s))
  ["ubgi"; "go"; ""; "set engine.ply 3"; "set engine.ply 9"; "get engine.ply"; "set game.variant hypergammon"; "dice 3 1"; " go ";
   "position gnubgid AQAAQAAAAAAAAA"; "hello"; "newgame"; "go chequer"; "quit"; "go"]%string.
Example C42_ex : map snd (fst (run_ubgi_stdio Debug passing_engine tt demo)) =
  [[lit "id name passer"; lit "id author bkgm"; lit "id version 1"; lit "proto 0.2";
    lit "key game.variant enum backgammon|nackgammon|longgammon|hypergammon|hypergammon2|hypergammon4|hypergammon5 backgammon";
    lit "key engine.ply int 1..4 2"; lit "key engine.path string * net"; lit "ubgiok"];
   [lit "error bad_state missing.dice"]; []; []; [lit "error bad_value engine.ply"]; [lit "value engine.ply 3"]; []; [];
   [lit "bestmove pass"]; []; [lit "error bad_command unknown"]; []; [lit "error bad_state missing.dice"]; []].
Proof. vm_compute. reflexivity. Qed.
Example C38_ex : exists h e st, reaches Debug passing_engine tt h e st /\ s_variant st = Hypergammon /\ List.length h = 14%nat.
Proof.
  destruct (run_ubgi_stdio Debug passing_engine tt demo) as (h, r) eqn:X.
  pose proof (C42_reads Debug passing_engine tt demo X) as H. vm_compute in X. inversion X; subst h r. destruct H as (R & _).
  eexists. eexists. eexists. split; [exact R|]. split; reflexivity.
Qed.

(** The hypotheses of C36-C41 together: a session of eight lines that has set an option, the variant and the dice,
    and lines of each kind to go on with. *)
Definition demo_ply : option_spec := opt_integer (lit "engine.ply") 1 4 2.
Example C39_case : exists h e st, reaches Debug passing_engine tt h e st /\ List.length h = 8%nat /\
  variant_after h Hypergammon /\ dice_after h (Some (Mixed 3 1)) /\
  declared (eng_options passing_engine tt) (lit "engine.ply") demo_ply /\
  default_of (eng_options passing_engine tt) (lit "engine.ply") demo_ply /\
  value_after (eng_options passing_engine tt) (lit "engine.ply") demo_ply h (OVInt 3) /\
  get_line (lit "  get  engine.ply ") (lit "engine.ply") /\ get_line (lit "get game.variant") (lit "game.variant") /\
  get_line (lit "get depth") (lit "depth") /\ (forall o, In o (eng_options passing_engine tt) -> spec_key o <> lit "depth") /\
  set_line (lit "set engine.ply  4 ") (lit "engine.ply") (lit "4") /\ denotes demo_ply (lit "4") (OVInt 4) /\
  (forall v, ~ denotes demo_ply (lit "5") v) /\
  go_line (lit "go ") /\ dice_line (lit "dice  6 06") (lit " 6 06") /\ two_dice (lit " 6 06") 6 6 /\
  gnubgid_line (lit "position gnubgid AQAAQAAAAAAAAA") (lit "AQAAQAAAAAAAAA").
Proof.
  destruct (run_ubgi_stdio Debug passing_engine tt (firstn 8 demo)) as (h, r) eqn:X.
  pose proof (C42_reads Debug passing_engine tt (firstn 8 demo) X) as H. vm_compute in X. inversion X; subst h r. destruct H as (R & _).
  pose proof (reaches_invariant R) as Inv.
  eexists. eexists. eexists. split; [exact R|]. split; [reflexivity|]. split; [exact (i_variant Inv)|]. split; [exact (i_dice Inv)|].
  assert (DD : default_of (eng_options passing_engine tt) (lit "engine.ply") demo_ply).
  { exists [], [opt_text (lit "engine.path") (lit "net")]. split; [reflexivity|]. split; [reflexivity|]. repeat constructor. discriminate. }
  split. { exists [], [opt_text (lit "engine.path") (lit "net")]. split; [reflexivity|]. split; [reflexivity|]. constructor. }
  split; [exact DD|].
  split. { pose proof (i_values Inv (key := lit "engine.ply") ltac:(discriminate)) as V. cbv beta iota in V.
    match type of V with match ?x with _ => _ end => replace x with (Some (OVInt 3)) in V by (vm_compute; reflexivity) end.
    destruct V as (o & D & V). assert (o = demo_ply) as <-; [|exact V].
    apply find_default in D. apply find_default in DD. congruence. }
  split; [apply get_line_iff; reflexivity|]. split; [apply get_line_iff; reflexivity|]. split; [apply get_line_iff; reflexivity|].
  split. { intros o [<-|[<-|[]]]; discriminate. }
  split; [apply set_line_iff; reflexivity|]. split; [apply C36_accepts_exactly; reflexivity|].
  split. { intros v V. apply C36_accepts_exactly in V. vm_compute in V. discriminate V. }
  split; [apply go_iff; reflexivity|]. split; [apply dice_line_iff; reflexivity|].
  split. { exists (lit "6"), (lit "06"). split; [apply words_iff; reflexivity|]. split; [apply parse_uint_some; reflexivity|].
    split; [apply parse_uint_some; reflexivity|]. lia. }
  apply gnubgid_line_iff. reflexivity.
Qed.
Example C36_case : 
  let o := opt_choice (lit "engine.mode") [lit "fast"; lit "deep"] (lit "deep") in
  default_allowed o /\ denotes o (lit "deep") (default_value o) /\ signed_text (- 2 ^ 63) (2 ^ 63 - 1) (lit "-7") (-7).
Proof.
  cbn. split; [auto|]. split; [auto|]. apply parse_int_some. reflexivity.
Qed.
Example C41_case : ~ id_shape (lit "nonsense") /\ never_panics passing_engine.
Proof.
  split; [|exact passing_never_panics]. intros (L & _). vm_compute in L. discriminate L.
Qed.
