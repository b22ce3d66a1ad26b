(** Property C57: the replies to the commands not covered by C39, C40 and C42.  Read with SpecUbgi.v. *)
From Coq Require Import Strings.String.
From Verif Require Import UbgiFacts EngineFacts PropIdentity PropUbgi.
Open Scope Z_scope.

Definition xgid_line (line : str) : Prop :=
  is_line (lit "position xgid") line \/ exists r, stripped line (lit "position xgid " ++ r).

Lemma parse_position t r : t = lit "position " ++ r ->
  parse_command t = match strip_prefix (lit "position gnubgid ") t with
                    | Some id => CPositionGnubgid (trim id)
                    | None => if str_eqb t (lit "position xgid") || starts_with (lit "position xgid ") t then CPositionXgid
                              else CPositionUnknown
                    end.
Proof.
  intros ->. unfold parse_command.
  change (strip_prefix (lit "get ") (lit "position " ++ r)) with (@None str).
  change (strip_prefix (lit "set ") (lit "position " ++ r)) with (@None str).
  assert (S : starts_with (lit "position ") (lit "position " ++ r) = true) by apply starts_with_app. rewrite S.
  change (str_eqb (lit "position " ++ r) (lit "ubgi")) with false.
  change (str_eqb (lit "position " ++ r) (lit "isready")) with false.
  change (str_eqb (lit "position " ++ r) (lit "newgame")) with false.
  change (str_eqb (lit "position " ++ r) (lit "keys")) with false. cbv beta iota. reflexivity.
Qed.
Lemma position_other line : position_line line -> (forall id, ~ gnubgid_line line id) ->
  (xgid_line line -> cmd_of line = CPositionXgid) /\ (~ xgid_line line -> cmd_of line = CPositionUnknown).
Proof.
  intros (r & S) N. apply stripped_iff in S. pose proof (@parse_position _ r (eq_sym S)) as P.
  assert (N' : strip_prefix (lit "position gnubgid ") (trim line) = None).
  { destruct (strip_prefix (lit "position gnubgid ") (trim line)) as [id|] eqn:E; auto. exfalso. apply (N (trim id)).
    apply gnubgid_line_iff. unfold cmd_of. exact P. }
  rewrite N' in P. unfold cmd_of. rewrite P. unfold xgid_line, is_line. setoid_rewrite stripped_iff. split.
  - intros [E|(r' & E)]; rewrite <- E; [reflexivity|]. rewrite starts_with_app, orb_true_r. reflexivity.
  - intros X. destruct (_ || _) eqn:O; [|reflexivity]. exfalso. apply X. apply orb_true_iff in O.
    rewrite str_eqb_eq, starts_with_iff in O. destruct O as [O|(q & O)]; eauto.
Qed.

Section Replies.
Context {E : Type} (m : mode) (A : engine E) (e0 : E) (h : history) (e : E) (st : session).
Hypothesis R : reaches m A e0 h e st.

(** [isready] asks the engine. *)
Theorem C57_isready : forall line e' r, is_line (lit "isready") line -> on_ready A e = Ret (e', r) ->
  session_step m A e st line =
    Ret (e', st, [match r with inr _ => lit "readyok" | inl er => lit "error bad_state isready " ++ ubgi_error_display er end], false).
Proof.
  clear R. intros line e' r L O. apply isready_iff in L. rewrite step_cmd by (apply cmd_nonblank; rewrite L; discriminate).
  rewrite L. cbn [handle_command]. rewrite O. cbn [bind]. destruct r; reflexivity.
Qed.
(** [newgame] is always accepted in silence. *)
Theorem C57_newgame : forall line, is_line (lit "newgame") line -> exists st', session_step m A e st line = Ret (e, st', [], false).
Proof.
  clear R. intros line L. apply newgame_iff in L. rewrite step_cmd by (apply cmd_nonblank; rewrite L; discriminate).
  rewrite L. eexists. reflexivity.
Qed.
(** [set game.variant]: silence for the name of a variant, an error for anything else. *)
Theorem C57_set_variant : forall line t, set_line line (lit "game.variant") t -> t <> [] ->
  (forall k, names_variant t k -> exists st', session_step m A e st line = Ret (e, st', [], false)) /\
  ((forall k, ~ names_variant t k) -> session_step m A e st line = Ret (e, st, [lit "error bad_value game.variant"], false)).
Proof.
  clear R. intros line t L T. apply set_line_iff in L. rewrite step_cmd by (apply cmd_nonblank; rewrite L; discriminate).
  rewrite L. cbn [handle_command]. unfold handle_set.
  assert (Q : negb (nonempty (lit "game.variant")) || negb (nonempty t) = false) by (destruct t; [congruence|reflexivity]).
  rewrite Q. change (str_eqb (lit "game.variant") (lit "game.variant")) with true. cbv beta iota. split.
  - intros k N. apply C34_parse in N. rewrite N. eexists. reflexivity.
  - intros N. destruct (variant_from_str t) as [k|] eqn:V; [|reflexivity]. exfalso. apply C34_parse in V. exact (N k V).
Qed.
Theorem C57_set_variant_nothing : forall line, set_line line (lit "game.variant") [] ->
  session_step m A e st line = Ret (e, st, [lit "error bad_command expected: set <key> <value>"], false).
Proof.
  clear R. intros line L. apply set_line_iff in L. rewrite step_cmd by (apply cmd_nonblank; rewrite L; discriminate).
  rewrite L. reflexivity.
Qed.
(** [position gnubgid]: silence for an ID of the variant in use, an error for anything else. *)
Theorem C57_gnubgid : forall line id k r, gnubgid_line line id -> variant_after h k -> gnuid_decode m k id = Ret r ->
  match r with
  | inr _ => exists st', session_step m A e st line = Ret (e, st', [], false)
  | inl _ => session_step m A e st line = Ret (e, st, [lit "error bad_value position"], false)
  end.
Proof.
  intros line id k r L V D. pose proof L as (raw & _ & S). apply gnubgid_line_iff in L. destruct (reaches_invariant R) as [_ _ IV _ _ _ _ _ _].
  assert (k = s_variant st) as -> by (eapply variant_after_fun; eauto).
  rewrite step_cmd by (apply cmd_nonblank; rewrite L; discriminate). rewrite L. cbn [handle_command].
  assert (T : trim id = id) by (apply stripped_iff in S; subst id; apply trim_trim). rewrite T, D. cbn [bind].
  destruct r as [er|p]; [reflexivity|]. destruct (set_position (s_game st) p). eexists. reflexivity.
Qed.
(** Other ways to give a position are refused. *)
Theorem C57_position_other : forall line, position_line line -> (forall id, ~ gnubgid_line line id) ->
  (xgid_line line -> session_step m A e st line = Ret (e, st, [lit "error unsupported position.xgid"], false)) /\
  (~ xgid_line line -> session_step m A e st line =
     Ret (e, st, [lit "error bad_command expected: position gnubgid <GNU_POSITION_ID>"], false)).
Proof.
  clear R. intros line P N. destruct (position_other P N) as (X & Y). split; intros H; [apply X in H|apply Y in H];
    rewrite step_cmd by (apply cmd_nonblank; rewrite H; discriminate); rewrite H; reflexivity.
Qed.
(** The cube is not supported. *)
Theorem C57_cube : forall line,
  (is_line (lit "go cube") line -> session_step m A e st line = Ret (e, st, [lit "error unsupported go cube"], false)) /\
  (is_line (lit "go turn") line -> session_step m A e st line = Ret (e, st, [lit "error unsupported go turn"], false)).
Proof.
  clear R. intros line. split; intros L; apply stripped_iff in L;
    (rewrite step_cmd by (rewrite <- L; discriminate)); unfold cmd_of; rewrite <- L; reflexivity.
Qed.
End Replies.

Example C57_ex :
  map snd (fst (run_ubgi_stdio Debug passing_engine tt (map (fun s => Some (lit s))
    ["isready"; "newgame"; "set game.variant Nackgammon"; "set game.variant chess"; "set game.variant";
     "position gnubgid nonsense"; "position xgid abc"; "position start"; "go cube"; "go turn"]%string))) =
  [[lit "readyok"]; []; []; [lit "error bad_value game.variant"]; [lit "error bad_command expected: set <key> <value>"];
   [lit "error bad_value position"]; [lit "error unsupported position.xgid"];
   [lit "error bad_command expected: position gnubgid <GNU_POSITION_ID>"]; [lit "error unsupported go cube"];
   [lit "error unsupported go turn"]].
Proof. vm_compute. reflexivity. Qed.
