(** What the property theorems rest on.  Not a model of any file of /repo: one tuple of all property
    theorems, so that a single [Print Assumptions] covers them; the build prints its answer. *)
From Verif Require PropApply PropArmies PropBench PropBoard PropBuilds PropConversion PropCorpus PropCount PropCut PropDeadlock PropDefault PropDice PropEnd PropEngine PropEqual PropErrors PropExact PropExact2 PropFibs PropFinish PropFinished PropFloat PropGame PropGnuid PropHash PropHashExact PropHowLong PropIdentity PropLaws PropLength PropListing PropLists PropLuck PropMaps PropMoveText PropMoves PropNoHit PropOutput PropPerft PropPlay PropPosition PropPrinted PropRace PropReformat PropReplay PropReplies PropResults PropResume PropShow PropSource PropSplit PropStream PropTexts PropUbgi PropWritten PropXgid.

Definition closed_property_theorems :=
  ( @PropApply.C63_accepts_exactly
  , @PropApply.C63_otherwise_none
  , @PropApply.C63_only_meaning_counts
  , @PropArmies.C97_move_texts
  , @PropArmies.C97_apply
  , @PropArmies.C97_encode
  , @PropArmies.C97_state
  , @PropArmies.C97_phase
  , @PropArmies.C97_same_ids
  , @PropArmies.C97_ids_carry_over
  , @PropArmies.C97_games
  , @PropBench.C77_samples
  , @PropBench.C77_release_no_panic
  , @PropBench.C77_contact_is_first_play
  , @PropBench.C77_count
  , @PropBench.C77_debug_can_panic
  , @PropBoard.C85_same_board
  , @PropBoard.C85_same_panic
  , @PropBoard.C85_variants
  , @PropBoard.C85_no_hit
  , @PropBuilds.C96_positions
  , @PropBuilds.C96_moves
  , @PropBuilds.C96_texts
  , @PropBuilds.C96_games
  , @PropBuilds.C96_session
  , @PropBuilds.C96_programs
  , @PropBuilds.C96_builders
  , @PropBuilds.C96_not_conversely
  , @PropConversion.C51_order_irrelevant
  , @PropConversion.C51_from_hash_maps
  , @PropConversion.C51_shared_point_debug
  , @PropCorpus.C58_lines_unique
  , @PropCorpus.C58_reports
  , @PropCorpus.C58_invalid_id
  , @PropCount.C94_positions
  , @PropCount.C94_variants
  , @PropCount.C94_without_hitting
  , @PropCount.C94_move_texts
  , @PropCount.C94_met
  , @PropCount.C94_lines
  , @PropCount.C94_perft_exact
  , @PropCount.C94_safe_depths
  , @PropCount.C94_single_roll
  , @PropCount.C94_corpus
  , @PropCut.C99_cut
  , @PropCut.C99_watching
  , @PropCut.C99_dice
  , @PropCut.C99_row_unique
  , @PropCut.C99_same_dice
  , @PropDeadlock.C76_deadlock_exact
  , @PropDeadlock.C76_deadlock_lasts
  , @PropDeadlock.C76_never_closed_out
  , @PropDeadlock.C76_never_stuck
  , @PropDefault.C72_minimal
  , @PropDefault.C72_provided_set
  , @PropDefault.C72_engine_errors
  , @PropDice.C27_new
  , @PropDice.C27_new_any
  , @PropDice.C27_shows_values
  , @PropDice.C27_try_from
  , @PropDice.C28_all_21
  , @PropDice.C28_weights
  , @PropDice.C28_all_441
  , @PropDice.C28_singles
  , @PropDice.C28_doubles
  , @PropDice.C29_roll_uniform
  , @PropDice.C29_roll_mixed_uniform
  , @PropDice.C30_choose_index
  , @PropDice.C30_choose_first
  , @PropDice.C30_empty
  , @PropDice.C44_mock
  , @PropDice.C44_mock_rolls
  , @PropEnd.C88_exact
  , @PropEnd.C88_chance
  , @PropEnd.C88_rate
  , @PropEnd.C88_from_start
  , @PropEnd.C88_small
  , @PropEngine.C47_parse_exact
  , @PropEngine.C47_get_last
  , @PropEngine.C35_round_trip_iff_partial
  , @PropEngine.C35_alias_version
  , @PropEngine.C35_refuted
  , @PropEqual.C33_text_behaviour
  , @PropEqual.C33_board_behaviour
  , @PropEqual.C33_no_hit
  , @PropEqual.C33_episode
  , @PropEqual.C33_same_rules
  , @PropErrors.C84_xgid
  , @PropErrors.C84_xgid_board
  , @PropErrors.C84_gnuid
  , @PropErrors.C84_fibs
  , @PropErrors.C84_fibs_debug
  , @PropErrors.C84_engine
  , @PropErrors.C84_option_value
  , @PropErrors.C84_xgid_message
  , @PropErrors.C84_fibs_message
  , @PropErrors.C84_gnuid_message
  , @PropErrors.C84_engine_message
  , @PropErrors.C84_other_messages
  , @PropExact.C59_release
  , @PropExact.C59_debug_panics
  , @PropExact.C60_exact
  , @PropExact.C60_lists_unique
  , @PropExact.C61_decoder
  , @PropExact.C61_step
  , @PropExact.C61_session
  , @PropExact.C61_crashes
  , @PropExact.C62_exact
  , @PropExact2.C67_no_hit_exact
  , @PropExact2.C68_reread
  , @PropExact2.C68_key_function
  , @PropExact2.C68_round_trip_iff
  , @PropExact2.C69_release
  , @PropExact2.C69_debug
  , @PropExact2.C69_malformed
  , @PropExact2.C70_read_back
  , @PropExact2.C70_round_trip_iff
  , @PropFibs.C14_encode_says
  , @PropFibs.C14_x_to_move_partial
  , @PropFibs.C14_o_to_move_partial
  , @PropFibs.C14_refuted
  , @PropFibs.C14_injective
  , @PropFibs.C15_refuted
  , @PropFibs.C15_release_refuted
  , @PropFibs.C15_panics_partial
  , @PropFibs.C15_off_counts
  , @PropFibs.C15_malformed_partial
  , @PropFibs.C15_validates_partial
  , @PropFibs.C15_debug_partial
  , @PropFinish.C86_few_checkers
  , @PropFinish.C86_hypergammon
  , @PropFinish.C86_bound_needed
  , @PropFinished.C49_release_variants
  , @PropFinished.C49_stays_finished
  , @PropFinished.C49_apply_nth
  , @PropFinished.C25_finished_release
  , @PropGame.C23_reachable_consistent
  , @PropGame.C23_variant_fixed
  , @PropGame.C24_apply_nth
  , @PropGame.C24_apply_nth_classic
  , @PropGame.C24_set_position
  , @PropGame.C25_episode
  , @PropGame.C25_episode_any_rules
  , @PropGame.C25_episode_no_hit
  , @PropGame.C25_finished_game_panics
  , @PropGame.C26_refuted
  , @PropGame.C26_empty_refuted
  , @PropGame.C26_no_hit_rules_partial
  , @PropGame.C26_keeps_hits_partial
  , @PropGnuid.C09_round_trip
  , @PropGnuid.C09_exact
  , @PropGnuid.C09_injective
  , @PropGnuid.C10_refuted
  , @PropGnuid.C10_overrun_refuted
  , @PropGnuid.C10_shared_point_refuted
  , @PropGnuid.C10_too_many_refuted
  , @PropGnuid.C10_malformed_partial
  , @PropGnuid.C10_shape_partial
  , @PropGnuid.C10_listed_partial
  , @PropGnuid.C10_accepted_partial
  , @PropHash.C31_comb
  , @PropHash.C31_mcomb
  , @PropHash.C31_edges
  , @PropHash.C32_perfect_hash_partial
  , @PropHash.C32_hypergammon_partial
  , @PropHash.C32_collision_refuted
  , @PropHash.C32_start_overflow_refuted
  , @PropHash.C32_refuted
  , @PropHashExact.C66_hash_exact
  , @PropHashExact.C66_numberings
  , @PropHowLong.C90_winner_needs
  , @PropHowLong.C90_lengths
  , @PropHowLong.C90_opened_lengths
  , @PropHowLong.C90_no_longest
  , @PropHowLong.C90_episodes
  , @PropHowLong.C90_cut_short
  , @PropIdentity.C33_eq_iff
  , @PropIdentity.C33_equivalence
  , @PropIdentity.C33_hash
  , @PropIdentity.C33_same_behaviour
  , @PropIdentity.C33_variant_behaviour
  , @PropIdentity.C34_parse
  , @PropIdentity.C34_blanks
  , @PropIdentity.C34_display_roundtrip
  , @PropIdentity.C34_names_distinct
  , @PropIdentity.C34_all_variants
  , @PropIdentity.C34_names
  , @PropIdentity.C34_setup
  , @PropIdentity.C34_start
  , @PropIdentity.C46_debug_text
  , @PropLaws.C82_opponent
  , @PropLaws.C82_forward
  , @PropLaws.C82_bearing_off
  , @PropLaws.C82_bar_first
  , @PropLaws.C82_pass_exact
  , @PropLaws.C82_closed_out
  , @PropLength.C75_pips_left
  , @PropLength.C75_winner_needs
  , @PropLength.C75_shortest_games
  , @PropLength.C75_episode
  , @PropListing.C64_accepts_exactly
  , @PropListing.C64_text
  , @PropListing.C65_positions
  , @PropListing.C65_doubles
  , @PropListing.C65_text_right_iff
  , @PropListing.C65_text_says
  , @PropListing.C65_decidable
  , @PropLists.C04_refuted
  , @PropLists.C52_positions
  , @PropLists.C52_variants
  , @PropLists.C04_nodup_partial
  , @PropLists.C52_number_of_results
  , @PropLuck.C87_probability
  , @PropLuck.C87_exact
  , @PropLuck.C87_few_checkers
  , @PropLuck.C87_hypergammon
  , @PropLuck.C87_closed_out
  , @PropMaps.C51_bad_key
  , @PropMaps.C51_exact_release
  , @PropMaps.C51_exact_debug
  , @PropMaps.C51_macro
  , @PropMaps.C51_macro_order
  , @PropMoveText.C16_round_trip
  , @PropMoveText.C16_pass
  , @PropMoveText.C16_parse_exact
  , @PropMoveText.C16_injective
  , @PropMoveText.C17_normalize_exact
  , @PropMoveText.C17_canonical
  , @PropMoveText.C17_unambiguous
  , @PropMoveText.C17_case
  , @PropMoveText.C17_blanks
  , @PropMoveText.C17_marks
  , @PropMoveText.C17_chain
  , @PropMoveText.C18_children_exact
  , @PropMoveText.C18_texts_apply_partial
  , @PropMoveText.C18_refuted
  , @PropMoveText.C19_encode_legal
  , @PropMoveText.C20_total
  , @PropMoveText.C20_accepted_partial
  , @PropMoveText.C20_legal_partial
  , @PropMoveText.C20_accepts_legal
  , @PropMoveText.C20_refuted
  , @PropMoveText.C21_variant_mismatch
  , @PropMoveText.C21_accepted_exact_partial
  , @PropMoveText.C21_doubles_partial
  , @PropMoveText.C21_refuted
  , @PropMoves.C01_legal_positions_exact
  , @PropMoves.C01_position_rules_exact
  , @PropMoves.C01_game_legal_positions_exact
  , @PropMoves.C02_movegen_total
  , @PropMoves.C02_movegen_position_total
  , @PropMoves.C02_debug_release_agree
  , @PropMoves.C03_conservation
  , @PropMoves.C05_flip_mirror
  , @PropMoves.C05_mirror_unique
  , @PropMoves.C05_any_board
  , @PropMoves.C05_lowest
  , @PropMoves.C22_single_move
  , @PropMoves.C43_single_move_pips
  , @PropMoves.C43_play_pips
  , @PropMoves.C43_held_points_safe
  , @PropNoHit.C91_bar_forced
  , @PropNoHit.C91_all_or_nothing
  , @PropNoHit.C91_off_the_bar
  , @PropNoHit.C91_episode
  , @PropOutput.C83_single_lines
  , @PropOutput.C83_read_back
  , @PropOutput.C83_answers
  , @PropOutput.C83_kinds
  , @PropOutput.C83_engine_case
  , @PropPerft.C49_release_any_position
  , @PropPerft.C49_debug_panics_iff_over
  , @PropPerft.C45_count_unique
  , @PropPerft.C45_release
  , @PropPerft.C45_debug
  , @PropPerft.C45_builds_agree
  , @PropPerft.C45_depth_1
  , @PropPerft.C48_report
  , @PropPerft.C48_help
  , @PropPerft.C50_run_once
  , @PropPlay.C73_turn
  , @PropPlay.C73_game
  , @PropPlay.C73_first_engine
  , @PropPosition.C06_game_state
  , @PropPosition.C06_game_state_variant
  , @PropPosition.C06_flip_reverses
  , @PropPosition.C06_reverse
  , @PropPosition.C06_default_agrees
  , @PropPosition.C06_reachable
  , @PropPosition.C07_phase
  , @PropPosition.C07_phase_agrees
  , @PropPosition.C07_race_irrevocable
  , @PropPosition.C07_race_no_hits
  , @PropPosition.C07_game_answers
  , @PropPosition.C08_refuted
  , @PropPosition.C08_debug_panics_refuted
  , @PropPosition.C08_try_from_partial
  , @PropPosition.C08_try_from_debug_partial
  , @PropPosition.C08_rebuild
  , @PropPrinted.C89_repeat
  , @PropRace.C74_whole_roll
  , @PropRace.C74_race_bounded
  , @PropRace.C74_no_endless_race
  , @PropRace.C74_episode_ends
  , @PropRace.C74_no_hit_agrees
  , @PropReformat.C81_xgid
  , @PropReformat.C81_xgid_debug
  , @PropReformat.C81_gnuid
  , @PropReformat.C81_formats_agree
  , @PropReformat.C81_convert
  , @PropReplay.C79_replay
  , @PropReplay.C79_opening_doubles
  , @PropReplay.C79_runs_out
  , @PropReplay.C79_every_episode
  , @PropReplies.C57_isready
  , @PropReplies.C57_newgame
  , @PropReplies.C57_set_variant
  , @PropReplies.C57_set_variant_nothing
  , @PropReplies.C57_gnubgid
  , @PropReplies.C57_position_other
  , @PropReplies.C57_cube
  , @PropResults.C92_mover_wins
  , @PropResults.C92_who_won
  , @PropResults.C92_episode
  , @PropResults.C92_all_results
  , @PropResume.C98_resume
  , @PropResume.C98_script
  , @PropShow.C53_drawing
  , @PropShow.C53_frame
  , @PropShow.C53_identifies
  , @PropSource.C78_fair
  , @PropSplit.C95_own_checkers_only
  , @PropSplit.C95_two_bear_offs
  , @PropStream.C93_causal
  , @PropStream.C93_left_out
  , @PropStream.C93_dice_replaced
  , @PropStream.C93_position_replaced
  , @PropStream.C93_order
  , @PropTexts.C54_display
  , @PropTexts.C54_identifies
  , @PropTexts.C55_parse_exact
  , @PropTexts.C55_error
  , @PropTexts.C55_bestmove
  , @PropTexts.C56_exact
  , @PropUbgi.C36_accepts_exactly
  , @PropUbgi.C36_wire_round_trip
  , @PropUbgi.C36_default_round_trip
  , @PropUbgi.C36_default
  , @PropUbgi.C36_single_bound_ignored
  , @PropUbgi.C36_wire_injective
  , @PropUbgi.C37_key_line_round_trip
  , @PropUbgi.C37_empty_default
  , @PropUbgi.C37_constructors
  , @PropUbgi.C37_minor
  , @PropUbgi.C38_in_step
  , @PropUbgi.C38_unique
  , @PropUbgi.C38_error_keeps_session
  , @PropUbgi.C38_who_changes
  , @PropUbgi.C39_get_declared
  , @PropUbgi.C39_value_unique
  , @PropUbgi.C39_get_variant
  , @PropUbgi.C39_get_other
  , @PropUbgi.C39_set
  , @PropUbgi.C40_go
  , @PropUbgi.C40_dice
  , @PropUbgi.C40_dice_after
  , @PropUbgi.C41_step_partial
  , @PropUbgi.C41_session_partial
  , @PropUbgi.C41_safe_ids_partial
  , @PropUbgi.C41_refuted
  , @PropUbgi.C42_reads
  , @PropUbgi.C42_reads_once
  , @PropUbgi.C42_replies
  , @PropWritten.C80_xgid
  , @PropWritten.C80_fibs
  , @PropWritten.C80_moves
  , @PropWritten.C80_key_lines
  , @PropWritten.C80_values
  , @PropWritten.C80_engine_spec
  , @PropWritten.C80_engine_spec_parsed
  , @PropXgid.C11_round_trip
  , @PropXgid.C11_injective
  , @PropXgid.C12_refuted
  , @PropXgid.C12_release_refuted
  , @PropXgid.C12_malformed_partial
  , @PropXgid.C12_validates_partial
  , @PropXgid.C12_debug_partial
  , @PropXgid.C13_round_trip
  , @PropXgid.C13_parse_exact
  , @PropXgid.C13_parse_in_range).

(** Answer: Closed under the global context. *)
Print Assumptions closed_property_theorems.

(** The theorems about floating point, proved with Flocq over the standard library's reals. *)
Definition float_property_theorems :=
  ( @PropBuilds.C96_dice
  , @PropBuilds.C96_output
  , @PropFloat.C71_proportional_to_computed_sum
  , @PropFloat.C71_only_real_chances
  , @PropFloat.C71_proportional
  , @PropFloat.C71_otherwise_last
  , @PropPrinted.C89_report
  , @PropPrinted.C89_readable
  , @PropPrinted.C89_average
  , @PropPrinted.C89_usage
  , @PropPrinted.C89_usage_text
  , @PropPrinted.C89_defaults
  , @PropPrinted.C89_corpus
  , @PropSource.C78_calls
  , @PropSource.C78_prefix
  , @PropSource.C78_seed
  , @PropSource.C78_equally_likely).

(** Answer: the axioms of the standard library's real numbers. *)
Print Assumptions float_property_theorems.
