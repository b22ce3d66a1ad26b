(** C96: what a debug build computes, a release build computes too. *)
From Coq Require Import Strings.String.
From Verif Require Import SpecBuilds ModeFacts BuildFacts Game Utils PosDebug Gnuid Xgid Fibs MoveText Ubgi Runtime Perft Corpus Conversion Show Dice DiceSource Float32 Bench Printed.
Unset Implicit Arguments.
Open Scope Z_scope.

(** Every question about one position, whatever its 26 numbers are, sensible or not. *)
Theorem C96_positions : forall N p ps,
  build_agnostic (fun m => game_state m N p) /\ build_agnostic (fun m => phase m N p) /\
  build_agnostic (fun m => flip m p) /\ build_agnostic (fun m => try_from m N ps) /\
  build_agnostic (fun m => dbhash m N p) /\ build_agnostic (fun m => debug_fmt m p) /\
  build_agnostic (fun m => show m p).
Proof.
  intros. split; [|split; [|split; [|split; [|split; [|split]]]]].
  - apply mono_state.
  - apply mono_phase.
  - apply mono_flip.
  - apply mono_try_from.
  - apply mono_dbhash.
  - apply mono_debug_fmt.
  - apply mono_show.
Qed.

(** Every way of moving. *)
Theorem C96_moves : forall v w d text,
  build_agnostic (fun m => legal_positions m v d) /\ build_agnostic (fun m => no_hit_rules m v d) /\
  build_agnostic (fun m => legal_moves m v d) /\ build_agnostic (fun m => encode_move m v w d) /\
  build_agnostic (fun m => apply_move m v d text) /\
  build_agnostic (fun m => vp_game_state m v) /\ build_agnostic (fun m => vp_phase m v).
Proof.
  intros. split; [|split; [|split; [|split; [|split; [|split]]]]].
  - apply mono_classic.
  - apply mono_nohit_rules.
  - apply mono_legal_moves.
  - apply mono_encode_move.
  - apply mono_apply_move.
  - apply mono_vstate.
  - apply mono_vphase.
Qed.

(** Every codec, on every text. *)
Theorem C96_texts : forall k v text,
  build_agnostic (fun m => gnuid_encode m v) /\ build_agnostic (fun m => gnuid_decode m k text) /\
  build_agnostic (fun m => xgid_encode m v) /\ build_agnostic (fun m => xgid_decode m k text) /\
  build_agnostic (fun m => fibs_encode m v) /\ build_agnostic (fun m => fibs_decode m k text).
Proof.
  intros. split; [|split; [|split; [|split; [|split]]]].
  - apply mono_gnuid_encode.
  - apply mono_gnuid_decode.
  - apply mono_xgid_encode.
  - apply mono_xgid_decode.
  - apply mono_fibs_encode.
  - apply mono_fibs_decode.
Qed.

(** The dice, whatever the random number generator is. *)
Theorem C96_dice : forall a b,
  build_agnostic (fun m => dice_new m a b) /\ build_agnostic (fun m => dice_try_from m a b) /\
  build_agnostic all_21 /\ build_agnostic all_441 /\
  forall S (R : rng S) (s : S) minus chances,
    build_agnostic (fun m => fr_roll m R s) /\ build_agnostic (fun m => fr_roll_mixed m R s) /\
    build_agnostic (fun m => fr_choose_index m minus R chances s).
Proof.
  intros a b. split; [|split; [|split; [|split]]].
  - apply mono_dice_new.
  - apply mono_try_dice_new.
  - apply mono_21.
  - apply mono_441.
  - intros S R s minus chances. split; [|split].
    + apply mono_roll.
    + apply mono_roll_mixed.
    + apply mono_choose.
Qed.

(** A whole game: the same dice seed and policy give the same episode, to the last state of both. *)
Theorem C96_games : forall S (R : rng S) P (Q : policy P) plies g d i s q,
  build_agnostic (fun m => apply_nth_legal_position m g d i) /\
  build_agnostic (fun m => play_episode m (fastrand_gen m R) Q plies g s q) /\
  build_agnostic (fun m => play_episode_with m (no_hit_rules m) (fastrand_gen m R) Q plies g s q).
Proof.
  intros. split; [|split].
  - apply mono_nth. intros v e. apply mono_rules.
  - apply mono_episode; intros; [apply mono_rules|apply mono_roll_mixed|apply mono_roll].
  - apply mono_episode; intros; [apply mono_nohit_rules|apply mono_roll_mixed|apply mono_roll].
Qed.

(** A whole UBGI session: what the debug build has written until it stopped, the release build writes too; and a
    session that the debug build sees through to its end goes the same way in release. *)
Theorem C96_session : forall E (A B : engine E) e input, engine_agrees A B ->
  first_part (fst (run_ubgi_stdio Debug A e input)) (fst (run_ubgi_stdio Release B e input)) /\
  forall x, snd (run_ubgi_stdio Debug A e input) = Ret x ->
    run_ubgi_stdio Release B e input = run_ubgi_stdio Debug A e input.
Proof.
  intros E A B e input H. unfold run_ubgi_stdio. rewrite (session_new_same A B (fun x => @ea_options _ _ _ H x)).
  apply mono_session; apply H.
Qed.

(** The two programs, and the benchmark's own search for positions. *)
Theorem C96_programs : forall args files contact race R (draw : R -> nat -> nat * R) target count seed fuel,
  build_agnostic (fun m => perft_main m args) /\
  build_agnostic (fun m => corpus_main m files contact race args) /\
  build_agnostic (fun m => collect_phase_positions m draw target count seed fuel).
Proof.
  intros. split; [|split].
  - apply mono_perft_main.
  - apply mono_corpus_main.
  - apply mono_collect_phase.
Qed.

(** And what they print, to the last byte, when the two runs take the same time. *)
Theorem C96_output : forall args files contact race t t1 t2,
  build_agnostic (fun m => perft_program m args t) /\
  build_agnostic (fun m => corpus_program m files contact race args t1 t2).
Proof.
  intros. split.
  - apply refines_bind; [apply mono_perft_main|]. intros. apply refines_refl.
  - apply refines_bind; [apply mono_corpus_main|]. intros [b1 b2]. apply refines_refl.
Qed.

(** Building a position from two maps or with [pos!]. *)
Theorem C96_builders : forall N x o order xs os,
  build_agnostic (fun m => from_hash_maps m N x o) /\ build_agnostic (fun m => pos_macro m order xs os).
Proof. intros. split; [apply mono_from_maps|apply mono_pos]. Qed.

(** The other direction is false: there are inputs that a release build answers and a debug build does not, so
    the theorems cannot be read the other way round. *)
Theorem C96_not_conversely :
  (exists N ps r, try_from Release N ps = Ret r /\ forall y, try_from Debug N ps <> Ret y) /\
  (exists p r, flip Release p = Ret r /\ forall y, flip Debug p <> Ret y).
Proof.
  split.
  - exists 15, (repeat 100 26). eexists. split; [vm_compute; reflexivity|]. intros y H. vm_compute in H. discriminate.
  - exists {| turn := true; pips := repeat (-128) 26; x_off := 0; o_off := 0 |}. eexists.
    split; [vm_compute; reflexivity|]. intros y H. vm_compute in H. discriminate.
Qed.

(** Not empty: the debug build does answer, for instance here. *)
Example C96_case :
  (exists l, legal_positions Debug (start_position Backgammon) (Mixed 3 1) = Ret l /\ (List.length l = 16)%nat) /\
  gnuid_encode Debug (start_position Backgammon) = Ret (lit "4HPwATDgc/ABMA") /\
  (exists y, flip Debug BACKGAMMON = Ret y /\ turn y = false) /\
  exists d, dice_new Debug 2 5 = Ret d /\ d = Mixed 5 2.
Proof.
  split; [eexists; split; vm_compute; reflexivity|].
  split; [vm_compute; reflexivity|].
  split; eexists; split; vm_compute; reflexivity.
Qed.
