(** Property C72: engines that keep the provided methods of the engine trait.  Read with SpecUbgi.v. *)
From Coq Require Import Strings.String.
From Verif Require Import SpecUbgi EngineDefaults StrFacts UbgiFacts PropUbgi PropReplies.
Unset Implicit Arguments.
Open Scope Z_scope.

(** The whole conversation with an engine that writes only the required methods: it is always ready, it
    has no options of its own, and every other key is unsupported, whatever happened before. *)
Theorem C72_minimal : forall E name version choose m (e0 : E) h e st line,
  let A := minimal_engine name version choose in
  reaches m A e0 h e st ->
  (is_line (lit "ubgi") line -> session_step m A e st line = Ret (e, st,
     [lit "id name " ++ name e; lit "id author bkgm"; lit "id version " ++ version e; lit "proto 0.2";
      lit "key game.variant enum backgammon|nackgammon|longgammon|hypergammon|hypergammon2|hypergammon4|hypergammon5 backgammon";
      lit "ubgiok"], false)) /\
  (is_line (lit "keys") line -> session_step m A e st line = Ret (e, st,
     [lit "key game.variant enum backgammon|nackgammon|longgammon|hypergammon|hypergammon2|hypergammon4|hypergammon5 backgammon"], false)) /\
  (is_line (lit "isready") line -> session_step m A e st line = Ret (e, st, [lit "readyok"], false)) /\
  (forall key, get_line line key -> key <> lit "game.variant" ->
     session_step m A e st line = Ret (e, st, [lit "error unsupported key"], false)) /\
  (forall key value, set_line line key value -> key <> lit "game.variant" -> key <> [] -> value <> [] ->
     session_step m A e st line = Ret (e, st, [lit "error unsupported key"], false)).
Proof.
  intros E name version choose m e0 h e st line A R. split; [|split; [|split; [|split]]].
  - intros L. assert (X : exists x, session_step m A e st line = Ret x /\ fst (fst x) = (e, st)).
    { apply ubgi_iff in L. rewrite step_cmd by (apply cmd_nonblank; rewrite L; discriminate). rewrite L. eexists; split; reflexivity. }
    destruct X as ((((e' & st') & out) & q) & X & Y). cbn in Y. injection Y as -> ->.
    destruct (@C42_replies _ _ _ _ _ _ _ _ _ _ _ _ R X) as (_ & _ & _ & Q & _ & U & _). rewrite (U L) in X. rewrite X.
    destruct q; [|reflexivity]. exfalso. assert (L' : is_line (lit "quit") line) by (apply Q; auto).
    apply quit_iff in L'. apply ubgi_iff in L. congruence.
  - intros L. assert (X : exists x, session_step m A e st line = Ret x /\ fst (fst x) = (e, st)).
    { apply keys_iff in L. rewrite step_cmd by (apply cmd_nonblank; rewrite L; discriminate). rewrite L. eexists; split; reflexivity. }
    destruct X as ((((e' & st') & out) & q) & X & Y). cbn in Y. injection Y as -> ->.
    destruct (@C42_replies _ _ _ _ _ _ _ _ _ _ _ _ R X) as (_ & _ & _ & Q & K & _ & _). rewrite (K L) in X. rewrite X.
    destruct q; [|reflexivity]. exfalso. assert (L' : is_line (lit "quit") line) by (apply Q; auto).
    apply quit_iff in L'. apply keys_iff in L. congruence.
  - intros L. exact (@C57_isready _ m A e st line e (inr tt) L eq_refl).
  - intros key G N. refine (@C39_get_other _ _ _ _ _ _ _ _ _ None R N _ G _); [|reflexivity]. intros o [].
  - intros key value S N K V. destruct (@C39_set _ _ _ _ _ _ _ _ _ _ R N S) as (_ & X & _). apply X; auto.
    intros o (a & b & Z & _). destruct a; discriminate Z.
Qed.

(** An engine may declare options and keep the provided [set]: then no [set] of them is ever accepted,
    and they keep their defaults for ever. *)
Lemma provided_set_keeps {E} m (A : engine E) e0 h e st : eng_set A = provided_set -> reaches m A e0 h e st ->
  s_option_values st = s_option_values (session_new A e0).
Proof.
  intros P. induction 1 as [|h e st line e' st' out q R IH S]; [reflexivity|]. rewrite <- IH. clear IH.
  apply step_inv in S. destruct S as [(_ & _ & -> & _)|(_ & H & _)]; auto.
  destruct (cmd_of line) as [| | | |key|key value|id| | |rest| | | | |]; cbn [handle_command] in H.
  all: try (inversion H; subst; reflexivity).
  - apply bind_inv in H. destruct H as ((e1, [er|u]) & _ & H); inversion H; reflexivity.
  - apply bind_inv in H. destruct H as (o & _ & H). inversion H; reflexivity.
  - unfold handle_set in H. destruct (_ || _); [inversion H; reflexivity|].
    destruct (str_eqb _ _); [destruct (variant_from_str value); inversion H; reflexivity|].
    destruct (find _ _); [|inversion H; reflexivity]. destruct (parse_value _ _); [inversion H; reflexivity|].
    rewrite P in H. cbn in H. inversion H; reflexivity.
  - apply bind_inv in H. destruct H as ([er|p] & _ & H); [inversion H; reflexivity|].
    destruct (set_position (s_game st) p). inversion H; reflexivity.
  - destruct (handle_dice_iff m st rest) as [(a & b & d & _ & _ & _ & Hd)|(_ & Hd)]; rewrite Hd in H; cbn in H; inversion H; reflexivity.
  - apply bind_inv in H. destruct H as ((e1, o) & H1 & H). inversion H; reflexivity.
Qed.
Theorem C72_provided_set : forall E m (A : engine E) e0 h e st line key, eng_set A = provided_set ->
  reaches m A e0 h e st -> key <> lit "game.variant" ->
  (forall value, set_line line key value -> exists err, is_error err /\ session_step m A e st line = Ret (e, st, [err], false)) /\
  (forall o t v, set_line line key t -> key <> [] -> t <> [] -> declared (eng_options A e0) key o -> denotes o t v ->
     session_step m A e st line = Ret (e, st, [lit "error unsupported key"], false)) /\
  (forall o, default_of (eng_options A e0) key o -> get_line line key ->
     session_step m A e st line = Ret (e, st, [lit "value " ++ key ++ lit " " ++ to_wire (default_value o)], false)).
Proof.
  intros E m A e0 h e st line key P R N. split; [|split].
  - intros value S. destruct (@C39_set _ _ _ _ _ _ _ _ _ _ R N S) as (X & Y & Z).
    destruct key as [|c key]; [rewrite X by auto; eexists; split; [|reflexivity]; eexists; reflexivity|].
    destruct value as [|c' value]; [rewrite X by auto; eexists; split; [|reflexivity]; eexists; reflexivity|].
    specialize (Y ltac:(discriminate) ltac:(discriminate)).
    destruct (find (fun o => str_eqb (spec_key o) (c :: key)) (eng_options A e0)) as [o|] eqn:F.
    + pose proof F as D. apply find_declared in D. destruct (Z o ltac:(discriminate) ltac:(discriminate) D) as (Z1 & Z2).
      destruct (parse_value o (c' :: value)) as [er|v] eqn:V.
      * rewrite Z1; [eexists; split; [|reflexivity]; eexists; reflexivity|]. intros v V'. apply parse_value_iff in V'. congruence.
      * apply parse_value_iff in V. destruct (Z2 v V) as (_ & W). rewrite (W e (Unsupported (lit "key"))) by (rewrite P; reflexivity).
        eexists; split; [|reflexivity]; eexists; reflexivity.
    + rewrite Y; [eexists; split; [|reflexivity]; eexists; reflexivity|]. intros o D. apply find_declared in D. congruence.
  - intros o t v S K T D V. destruct (@C39_set _ _ _ _ _ _ _ _ _ _ R N S) as (_ & _ & Z). destruct (Z o K T D) as (_ & Z2).
    destruct (Z2 v V) as (_ & W). apply (W e (Unsupported (lit "key"))). rewrite P. reflexivity.
  - intros o D G. apply get_line_iff in G. rewrite step_cmd by (apply cmd_nonblank; rewrite G; discriminate). rewrite G.
    cbn [handle_command]. unfold handle_get.
    assert (Ng : str_eqb key (lit "game.variant") = false) by (apply str_eqb_neq, N). rewrite Ng.
    rewrite (provided_set_keeps m A e0 h e st P R). cbn [session_new s_option_values]. rewrite defaults_get.
    apply find_default in D. rewrite D. reflexivity.
Qed.

(** What a host reads when an engine answers with one of the library's error values: a failed choice is reported with the
    text whatever the kind; a refused setting with the kind of error, where a text turned into an error (as [?] does) is a
    bad state and a bad value without text names the key. *)
Theorem C72_engine_errors : forall E m (A : engine E) e0 h e st line text, reaches m A e0 h e st ->
  (forall e' d g err, go_line line -> dice_after h (Some d) -> variant_after h (g_variant g) -> position_after m h (g_position g) ->
     choose_move A e g d = Ret (e', inl err) ->
     In err [err_unsupported text; err_bad_value text; err_bad_state text; err_from_string text] ->
     session_step m A e st line = Ret (e', st, [lit "error bad_state move.select " ++ text], false)) /\
  (forall key t o v e' err, key <> lit "game.variant" -> set_line line key t -> key <> [] -> t <> [] ->
     declared (eng_options A e0) key o -> denotes o t v -> eng_set A e key v = Ret (e', inl err) ->
     let replies r := session_step m A e st line = Ret (e', st, [r], false) in
     (err = err_unsupported text -> replies (lit "error unsupported key")) /\
     (err = err_bad_value text -> replies (lit "error bad_value " ++ (match text with [] => key | _ => text end))) /\
     (err = err_bad_state text \/ err = err_from_string text -> replies (lit "error bad_state set " ++ text))).
Proof.
  intros E m A e0 h e st line text R. split.
  - intros e' d g err G Hd Hv Hp C X.
    destruct (@C40_go E m A e0 h e st line R G) as (od & k & p & D & V & P & Y).
    destruct (C38_unique m h) as (U1 & U2 & U3).
    assert (od = Some d) as -> by (eapply U3; eauto). assert (k = g_variant g) as -> by (eapply U1; eauto).
    assert (p = g_position g) as -> by (eapply U2; eauto). destruct Y as (_ & Y).
    replace {| g_variant := g_variant g; g_position := g_position g |} with g in Y by (destruct g; reflexivity).
    rewrite (Y _ _ C). cbn [In] in X. destruct X as [<-|[<-|[<-|[<-|[]]]]]; reflexivity.
  - intros key t o v e' err N S Nk Nt D V Es. cbv zeta.
    destruct (@C39_set E m A e0 h e st line key t R N S) as (_ & _ & Y). destruct (Y o Nk Nt D) as (_ & Z).
    destruct (Z v V) as (_ & W). specialize (W e' err Es). rewrite W.
    split; [intros ->; reflexivity|]. split; [intros ->; destruct text; reflexivity|]. intros [-> | ->]; reflexivity.
Qed.

(** A session with such an engine. *)
Definition demo_engine : engine unit :=
  minimal_engine (fun _ => lit "mini") (fun _ => lit "0") (fun e _ _ => Ret (e, inr [])).
Example C72_example : map snd (fst (run_ubgi_stdio Debug demo_engine tt (map (fun s => Some (lit s))
    ["ubgi"; "isready"; "keys"; "get engine.ply"; "set engine.ply 3"; "set game.variant nackgammon"; "get game.variant"]%string))) =
  [[lit "id name mini"; lit "id author bkgm"; lit "id version 0"; lit "proto 0.2";
    lit "key game.variant enum backgammon|nackgammon|longgammon|hypergammon|hypergammon2|hypergammon4|hypergammon5 backgammon";
    lit "ubgiok"]; [lit "readyok"];
   [lit "key game.variant enum backgammon|nackgammon|longgammon|hypergammon|hypergammon2|hypergammon4|hypergammon5 backgammon"];
   [lit "error unsupported key"]; [lit "error unsupported key"]; []; [lit "value game.variant nackgammon"]].
Proof. vm_compute. reflexivity. Qed.
Example C72_set_example :
  let A := {| id_name := fun _ => lit "x"; id_version := fun _ => lit "y"; on_ready := provided_on_ready;
              eng_options := fun _ => [opt_boolean (lit "engine.fast") true]; eng_get := provided_get;
              eng_set := provided_set; choose_move := fun (e : unit) _ _ => Ret (e, inr []) |} in
  map snd (fst (run_ubgi_stdio Debug A tt (map (fun s => Some (lit s))
    ["set engine.fast false"; "set engine.fast 2"; "get engine.fast"]%string))) =
  [[lit "error unsupported key"]; [lit "error bad_value engine.fast"]; [lit "value engine.fast true"]].
Proof. vm_compute. reflexivity. Qed.
(** An engine that fails: its option refuses with a text turned into an error, its choice with an unsupported position. *)
Example C72_error_example :
  let A := {| id_name := fun _ => lit "x"; id_version := fun _ => lit "y"; on_ready := provided_on_ready;
              eng_options := fun _ => [opt_boolean (lit "engine.fast") true]; eng_get := provided_get;
              eng_set := fun (e : unit) _ _ => Ret (e, inl (err_from_string (lit "busy")));
              choose_move := fun (e : unit) _ _ => Ret (e, inl (err_unsupported (lit "race"))) |} in
  map snd (fst (run_ubgi_stdio Debug A tt (map (fun s => Some (lit s))
    ["set engine.fast false"; "go"; "dice 3 1"; "go chequer"]%string))) =
  [[lit "error bad_state set busy"]; [lit "error bad_state missing.dice"]; []; [lit "error bad_state move.select race"]].
Proof. vm_compute. reflexivity. Qed.
