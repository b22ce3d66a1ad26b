{
 "claims": [
  {
   "property": "C01",
   "status": "proved",
   "theorems": [
    "C01_legal_positions_exact",
    "C01_position_rules_exact",
    "C01_game_legal_positions_exact"
   ],
   "note": ""
  },
  {
   "property": "C02",
   "status": "proved",
   "theorems": [
    "C02_movegen_total",
    "C02_movegen_position_total",
    "C02_debug_release_agree"
   ],
   "note": ""
  },
  {
   "property": "C03",
   "status": "proved",
   "theorems": [
    "C03_conservation"
   ],
   "note": ""
  },
  {
   "property": "C04",
   "status": "partial",
   "theorems": [
    "C04_refuted",
    "C04_nodup_partial"
   ],
   "note": "False of the code: when both dice bear off the two rearmost checkers in either order the single result is listed twice (C04_refuted: checkers on points 2 and 1, roll 6-4). C04_nodup_partial proves it for doubles and whenever a checker is on point 6 or further back; C52 proves exactly when it fails."
  },
  {
   "property": "C05",
   "status": "proved",
   "theorems": [
    "C05_flip_mirror",
    "C05_mirror_unique",
    "C05_any_board",
    "C05_lowest"
   ],
   "note": ""
  },
  {
   "property": "C06",
   "status": "proved",
   "theorems": [
    "C06_game_state",
    "C06_game_state_variant",
    "C06_flip_reverses",
    "C06_reverse",
    "C06_default_agrees",
    "C06_reachable"
   ],
   "note": ""
  },
  {
   "property": "C07",
   "status": "proved",
   "theorems": [
    "C07_phase",
    "C07_phase_agrees",
    "C07_race_irrevocable",
    "C07_race_no_hits",
    "C07_game_answers"
   ],
   "note": ""
  },
  {
   "property": "C08",
   "status": "partial",
   "theorems": [
    "C08_refuted",
    "C08_debug_panics_refuted",
    "C08_try_from_partial",
    "C08_try_from_debug_partial",
    "C08_rebuild"
   ],
   "note": "The English claim is refuted for release builds (C08_..._refuted: i8 sums wrap so an overfull board is accepted); the _partial theorems prove it in debug builds and for all boards whose sums fit in i8. C59 proves exactly what the code does instead, for every input."
  },
  {
   "property": "C09",
   "status": "proved",
   "theorems": [
    "C09_round_trip",
    "C09_exact",
    "C09_injective"
   ],
   "note": ""
  },
  {
   "property": "C10",
   "status": "partial",
   "theorems": [
    "C10_refuted",
    "C10_overrun_refuted",
    "C10_shared_point_refuted",
    "C10_too_many_refuted",
    "C10_malformed_partial",
    "C10_shape_partial",
    "C10_listed_partial",
    "C10_accepted_partial"
   ],
   "note": "The English claim is refuted (C10_refuted and three witnesses: over-full key panics in every build; a point claimed by both sides is accepted; too many checkers wrap in release and panic in debug). The _partial theorems say exactly which texts are refused, what every listed key decodes to, and that a debug build accepts nothing else. C60 proves exactly what the code does instead, for every input."
  },
  {
   "property": "C11",
   "status": "proved",
   "theorems": [
    "C11_round_trip",
    "C11_injective"
   ],
   "note": ""
  },
  {
   "property": "C12",
   "status": "partial",
   "theorems": [
    "C12_refuted",
    "C12_release_refuted",
    "C12_malformed_partial",
    "C12_validates_partial",
    "C12_debug_partial"
   ],
   "note": "The English claim is refuted (C12_refuted, C12_release_refuted: 16 points of 16 checkers are 256, which wrap in the i8 sum). The _partial theorems prove it for boards of at most 127 checkers a side and for everything a debug build accepts; texts that show no board are always refused. C62 proves exactly what the code does instead, for every input."
  },
  {
   "property": "C13",
   "status": "proved",
   "theorems": [
    "C13_round_trip",
    "C13_parse_exact",
    "C13_parse_in_range"
   ],
   "note": ""
  },
  {
   "property": "C14",
   "status": "partial",
   "theorems": [
    "C14_encode_says",
    "C14_x_to_move_partial",
    "C14_o_to_move_partial",
    "C14_refuted",
    "C14_injective"
   ],
   "note": "The English claim is refuted for positions with o to move (C14_refuted): encode writes the board from x's side but decode mirrors it. C14_x_to_move_partial proves the exact round trip with x to move; C14_o_to_move_partial says exactly what happens with o to move. C70 proves exactly what the code does instead, for every input."
  },
  {
   "property": "C15",
   "status": "partial",
   "theorems": [
    "C15_refuted",
    "C15_release_refuted",
    "C15_panics_partial",
    "C15_off_counts",
    "C15_malformed_partial",
    "C15_validates_partial",
    "C15_debug_partial"
   ],
   "note": "The English claim is refuted (C15_refuted: 'o-128' panics a debug build; C15_release_refuted: 256 checkers wrap in the i8 sum). The _partial theorems prove it for boards of at most 127 checkers a side and for everything a debug build accepts; the only panic is a debug overflow check. C69 proves exactly what the code does instead, for every input."
  },
  {
   "property": "C16",
   "status": "proved",
   "theorems": [
    "C16_round_trip",
    "C16_pass",
    "C16_parse_exact",
    "C16_injective"
   ],
   "note": ""
  },
  {
   "property": "C17",
   "status": "proved",
   "theorems": [
    "C17_normalize_exact",
    "C17_canonical",
    "C17_unambiguous",
    "C17_case",
    "C17_blanks",
    "C17_marks",
    "C17_chain"
   ],
   "note": ""
  },
  {
   "property": "C18",
   "status": "partial",
   "theorems": [
    "C18_children_exact",
    "C18_texts_apply_partial",
    "C18_refuted"
   ],
   "note": "legal_moves returns exactly one entry per legal position with a canonical text, for every input (C18_children_exact); the text is accepted and leads to its child when the roll is a double, or no checker is hit, or the child can be reached with the big die first (C18_texts_apply_partial). False in general: C18_refuted gives a legal child whose listed text apply_move rejects. C65 proves exactly what the code does instead, for every input."
  },
  {
   "property": "C19",
   "status": "proved",
   "theorems": [
    "C19_encode_legal"
   ],
   "note": ""
  },
  {
   "property": "C20",
   "status": "partial",
   "theorems": [
    "C20_total",
    "C20_accepted_partial",
    "C20_legal_partial",
    "C20_accepts_legal",
    "C20_refuted"
   ],
   "note": "Exact acceptance condition proved for every input (C20_accepted_partial, C20_accepts_legal, C20_total); what is accepted is legal for doubles and for texts not of exactly one step. For one-step texts of a mixed roll the code accepts plays that use one die although both could be played: C20_refuted. C63 proves exactly what the code does instead, for every input."
  },
  {
   "property": "C21",
   "status": "partial",
   "theorems": [
    "C21_variant_mismatch",
    "C21_accepted_exact_partial",
    "C21_doubles_partial",
    "C21_refuted"
   ],
   "note": "Exact acceptance condition for every input (C21_accepted_exact_partial); legal positions only, for doubles. For mixed rolls the code also accepts positions reached by one die although both could be played: C21_refuted. C64 proves exactly what the code does instead, for every input."
  },
  {
   "property": "C22",
   "status": "proved",
   "theorems": [
    "C22_single_move"
   ],
   "note": ""
  },
  {
   "property": "C23",
   "status": "proved",
   "theorems": [
    "C23_reachable_consistent",
    "C23_variant_fixed"
   ],
   "note": ""
  },
  {
   "property": "C24",
   "status": "proved",
   "theorems": [
    "C24_apply_nth",
    "C24_apply_nth_classic",
    "C24_set_position"
   ],
   "note": ""
  },
  {
   "property": "C25",
   "status": "proved",
   "theorems": [
    "C25_finished_release",
    "C25_episode",
    "C25_episode_any_rules",
    "C25_episode_no_hit",
    "C25_finished_game_panics"
   ],
   "note": ""
  },
  {
   "property": "C26",
   "status": "partial",
   "theorems": [
    "C26_refuted",
    "C26_empty_refuted",
    "C26_no_hit_rules_partial",
    "C26_keeps_hits_partial"
   ],
   "note": "The English claim is refuted (C26_refuted, C26_empty_refuted): the rule compares the mover's own bar after the play with the opponent's bar before it. C26_no_hit_rules_partial gives exactly what is kept. C67 proves exactly what the code does instead, for every input."
  },
  {
   "property": "C27",
   "status": "proved",
   "theorems": [
    "C27_new",
    "C27_new_any",
    "C27_shows_values",
    "C27_try_from"
   ],
   "note": ""
  },
  {
   "property": "C28",
   "status": "proved",
   "theorems": [
    "C28_all_21",
    "C28_weights",
    "C28_all_441",
    "C28_singles",
    "C28_doubles"
   ],
   "note": ""
  },
  {
   "property": "C29",
   "status": "proved",
   "theorems": [
    "C29_roll_uniform",
    "C29_roll_mixed_uniform"
   ],
   "note": ""
  },
  {
   "property": "C30",
   "status": "proved",
   "theorems": [
    "C30_choose_index",
    "C30_choose_first",
    "C30_empty"
   ],
   "note": ""
  },
  {
   "property": "C31",
   "status": "proved",
   "theorems": [
    "C31_comb",
    "C31_mcomb",
    "C31_edges"
   ],
   "note": ""
  },
  {
   "property": "C32",
   "status": "partial",
   "theorems": [
    "C32_perfect_hash_partial",
    "C32_hypergammon_partial",
    "C32_collision_refuted",
    "C32_start_overflow_refuted",
    "C32_refuted"
   ],
   "note": "The English claim is refuted for 15 checkers (C32_start_overflow_refuted, C32_collision_refuted): mcomb(26,15)^2 exceeds 2^64, so a debug build panics already on the start position and release builds collide. Proved for every N <= 12, so for all hypergammon variants. C66 proves exactly what the code does instead, for every input."
  },
  {
   "property": "C33",
   "status": "proved",
   "theorems": [
    "C33_text_behaviour",
    "C33_board_behaviour",
    "C33_no_hit",
    "C33_episode",
    "C33_same_rules",
    "C33_eq_iff",
    "C33_equivalence",
    "C33_hash",
    "C33_same_behaviour",
    "C33_variant_behaviour"
   ],
   "note": ""
  },
  {
   "property": "C34",
   "status": "proved",
   "theorems": [
    "C34_parse",
    "C34_blanks",
    "C34_display_roundtrip",
    "C34_names_distinct",
    "C34_all_variants",
    "C34_names",
    "C34_setup",
    "C34_start"
   ],
   "note": ""
  },
  {
   "property": "C35",
   "status": "partial",
   "theorems": [
    "C35_round_trip_iff_partial",
    "C35_alias_version",
    "C35_refuted"
   ],
   "note": "The round trip is false in general: C35_refuted (hawk:engine.engine.x=1). Proved: it holds exactly when every option key is plain (C35_round_trip_iff_partial), and alias and version always survive. C68 proves exactly what the code does instead, for every input."
  },
  {
   "property": "C36",
   "status": "proved",
   "theorems": [
    "C36_accepts_exactly",
    "C36_wire_round_trip",
    "C36_default_round_trip",
    "C36_default",
    "C36_single_bound_ignored",
    "C36_wire_injective"
   ],
   "note": ""
  },
  {
   "property": "C37",
   "status": "proved",
   "theorems": [
    "C37_key_line_round_trip",
    "C37_empty_default",
    "C37_constructors",
    "C37_minor"
   ],
   "note": ""
  },
  {
   "property": "C38",
   "status": "proved",
   "theorems": [
    "C38_in_step",
    "C38_unique",
    "C38_error_keeps_session",
    "C38_who_changes"
   ],
   "note": ""
  },
  {
   "property": "C39",
   "status": "proved",
   "theorems": [
    "C39_get_declared",
    "C39_value_unique",
    "C39_get_variant",
    "C39_get_other",
    "C39_set"
   ],
   "note": ""
  },
  {
   "property": "C40",
   "status": "proved",
   "theorems": [
    "C40_go",
    "C40_dice",
    "C40_dice_after"
   ],
   "note": ""
  },
  {
   "property": "C41",
   "status": "partial",
   "theorems": [
    "C41_step_partial",
    "C41_session_partial",
    "C41_safe_ids_partial",
    "C41_refuted"
   ],
   "note": "False in general: C41_refuted (position gnubgid /////////////w panics in the decoder). Proved: only a position gnubgid line whose ID the decoder panics on can crash a step or a session (C41_step_partial, C41_session_partial); C41_safe_ids_partial gives IDs that are safe. C61 proves exactly what the code does instead, for every input."
  },
  {
   "property": "C42",
   "status": "proved",
   "theorems": [
    "C42_reads",
    "C42_reads_once",
    "C42_replies"
   ],
   "note": ""
  },
  {
   "property": "C43",
   "status": "proved",
   "theorems": [
    "C43_single_move_pips",
    "C43_play_pips",
    "C43_held_points_safe"
   ],
   "note": ""
  },
  {
   "property": "C44",
   "status": "proved",
   "theorems": [
    "C44_mock",
    "C44_mock_rolls"
   ],
   "note": ""
  },
  {
   "property": "C45",
   "status": "proved",
   "theorems": [
    "C45_count_unique",
    "C45_release",
    "C45_debug",
    "C45_builds_agree",
    "C45_depth_1"
   ],
   "note": ""
  },
  {
   "property": "C46",
   "status": "proved",
   "theorems": [
    "C46_debug_text"
   ],
   "note": ""
  },
  {
   "property": "C47",
   "status": "proved",
   "theorems": [
    "C47_parse_exact",
    "C47_get_last"
   ],
   "note": ""
  },
  {
   "property": "C48",
   "status": "proved",
   "theorems": [
    "C48_report",
    "C48_help"
   ],
   "note": ""
  },
  {
   "property": "C49",
   "status": "proved",
   "theorems": [
    "C49_release_variants",
    "C49_stays_finished",
    "C49_apply_nth",
    "C49_release_any_position",
    "C49_debug_panics_iff_over"
   ],
   "note": ""
  },
  {
   "property": "C50",
   "status": "proved",
   "theorems": [
    "C50_run_once"
   ],
   "note": ""
  },
  {
   "property": "C51",
   "status": "proved",
   "theorems": [
    "C51_order_irrelevant",
    "C51_from_hash_maps",
    "C51_shared_point_debug",
    "C51_bad_key",
    "C51_exact_release",
    "C51_exact_debug",
    "C51_macro",
    "C51_macro_order"
   ],
   "note": ""
  },
  {
   "property": "C52",
   "status": "proved",
   "theorems": [
    "C52_positions",
    "C52_variants",
    "C52_number_of_results"
   ],
   "note": ""
  },
  {
   "property": "C53",
   "status": "proved",
   "theorems": [
    "C53_drawing",
    "C53_frame",
    "C53_identifies"
   ],
   "note": ""
  },
  {
   "property": "C54",
   "status": "proved",
   "theorems": [
    "C54_display",
    "C54_identifies"
   ],
   "note": ""
  },
  {
   "property": "C55",
   "status": "proved",
   "theorems": [
    "C55_parse_exact",
    "C55_error",
    "C55_bestmove"
   ],
   "note": ""
  },
  {
   "property": "C56",
   "status": "proved",
   "theorems": [
    "C56_exact"
   ],
   "note": ""
  },
  {
   "property": "C57",
   "status": "proved",
   "theorems": [
    "C57_isready",
    "C57_newgame",
    "C57_set_variant",
    "C57_set_variant_nothing",
    "C57_gnubgid",
    "C57_position_other",
    "C57_cube"
   ],
   "note": ""
  },
  {
   "property": "C58",
   "status": "proved",
   "theorems": [
    "C58_lines_unique",
    "C58_reports",
    "C58_invalid_id"
   ],
   "note": ""
  },
  {
   "property": "C59",
   "status": "proved",
   "theorems": [
    "C59_release",
    "C59_debug_panics"
   ],
   "note": ""
  },
  {
   "property": "C60",
   "status": "proved",
   "theorems": [
    "C60_exact",
    "C60_lists_unique"
   ],
   "note": ""
  },
  {
   "property": "C61",
   "status": "proved",
   "theorems": [
    "C61_decoder",
    "C61_step",
    "C61_session",
    "C61_crashes"
   ],
   "note": ""
  },
  {
   "property": "C62",
   "status": "proved",
   "theorems": [
    "C62_exact"
   ],
   "note": ""
  },
  {
   "property": "C63",
   "status": "proved",
   "theorems": [
    "C63_accepts_exactly",
    "C63_otherwise_none",
    "C63_only_meaning_counts"
   ],
   "note": ""
  },
  {
   "property": "C64",
   "status": "proved",
   "theorems": [
    "C64_accepts_exactly",
    "C64_text"
   ],
   "note": ""
  },
  {
   "property": "C65",
   "status": "proved",
   "theorems": [
    "C65_positions",
    "C65_doubles",
    "C65_text_right_iff",
    "C65_text_says",
    "C65_decidable"
   ],
   "note": ""
  },
  {
   "property": "C66",
   "status": "proved",
   "theorems": [
    "C66_hash_exact",
    "C66_numberings"
   ],
   "note": ""
  },
  {
   "property": "C67",
   "status": "proved",
   "theorems": [
    "C67_no_hit_exact"
   ],
   "note": ""
  },
  {
   "property": "C68",
   "status": "proved",
   "theorems": [
    "C68_reread",
    "C68_key_function",
    "C68_round_trip_iff"
   ],
   "note": ""
  },
  {
   "property": "C69",
   "status": "proved",
   "theorems": [
    "C69_release",
    "C69_debug",
    "C69_malformed"
   ],
   "note": ""
  },
  {
   "property": "C70",
   "status": "proved",
   "theorems": [
    "C70_read_back",
    "C70_round_trip_iff"
   ],
   "note": ""
  },
  {
   "property": "C71",
   "status": "proved",
   "theorems": [
    "C71_proportional_to_computed_sum",
    "C71_only_real_chances",
    "C71_proportional",
    "C71_otherwise_last"
   ],
   "note": ""
  },
  {
   "property": "C72",
   "status": "proved",
   "theorems": [
    "C72_minimal",
    "C72_provided_set",
    "C72_engine_errors"
   ],
   "note": ""
  },
  {
   "property": "C73",
   "status": "proved",
   "theorems": [
    "C73_turn",
    "C73_game",
    "C73_first_engine"
   ],
   "note": ""
  },
  {
   "property": "C74",
   "status": "proved",
   "theorems": [
    "C74_whole_roll",
    "C74_race_bounded",
    "C74_no_endless_race",
    "C74_episode_ends",
    "C74_no_hit_agrees"
   ],
   "note": ""
  },
  {
   "property": "C75",
   "status": "proved",
   "theorems": [
    "C75_pips_left",
    "C75_winner_needs",
    "C75_shortest_games",
    "C75_episode"
   ],
   "note": ""
  },
  {
   "property": "C76",
   "status": "proved",
   "theorems": [
    "C76_deadlock_exact",
    "C76_deadlock_lasts",
    "C76_never_closed_out",
    "C76_never_stuck"
   ],
   "note": ""
  },
  {
   "property": "C77",
   "status": "proved",
   "theorems": [
    "C77_samples",
    "C77_release_no_panic",
    "C77_contact_is_first_play",
    "C77_count",
    "C77_debug_can_panic"
   ],
   "note": ""
  },
  {
   "property": "C78",
   "status": "proved",
   "theorems": [
    "C78_fair",
    "C78_calls",
    "C78_prefix",
    "C78_seed",
    "C78_equally_likely"
   ],
   "note": ""
  },
  {
   "property": "C79",
   "status": "proved",
   "theorems": [
    "C79_replay",
    "C79_opening_doubles",
    "C79_runs_out",
    "C79_every_episode"
   ],
   "note": ""
  },
  {
   "property": "C80",
   "status": "proved",
   "theorems": [
    "C80_xgid",
    "C80_fibs",
    "C80_moves",
    "C80_key_lines",
    "C80_values",
    "C80_engine_spec",
    "C80_engine_spec_parsed"
   ],
   "note": ""
  },
  {
   "property": "C81",
   "status": "proved",
   "theorems": [
    "C81_xgid",
    "C81_xgid_debug",
    "C81_gnuid",
    "C81_formats_agree",
    "C81_convert"
   ],
   "note": ""
  },
  {
   "property": "C82",
   "status": "proved",
   "theorems": [
    "C82_opponent",
    "C82_forward",
    "C82_bearing_off",
    "C82_bar_first",
    "C82_pass_exact",
    "C82_closed_out"
   ],
   "note": ""
  },
  {
   "property": "C83",
   "status": "proved",
   "theorems": [
    "C83_single_lines",
    "C83_read_back",
    "C83_answers",
    "C83_kinds"
   ],
   "note": ""
  },
  {
   "property": "C84",
   "status": "proved",
   "theorems": [
    "C84_xgid",
    "C84_xgid_board",
    "C84_gnuid",
    "C84_fibs",
    "C84_fibs_debug",
    "C84_engine",
    "C84_option_value",
    "C84_xgid_message",
    "C84_fibs_message",
    "C84_gnuid_message",
    "C84_engine_message",
    "C84_other_messages"
   ],
   "note": ""
  },
  {
   "property": "C85",
   "status": "proved",
   "theorems": [
    "C85_same_board",
    "C85_same_panic",
    "C85_variants",
    "C85_no_hit"
   ],
   "note": ""
  },
  {
   "property": "C86",
   "status": "proved",
   "theorems": [
    "C86_few_checkers",
    "C86_hypergammon",
    "C86_bound_needed"
   ],
   "note": ""
  },
  {
   "property": "C87",
   "status": "proved",
   "theorems": [
    "C87_probability",
    "C87_exact",
    "C87_few_checkers",
    "C87_hypergammon",
    "C87_closed_out"
   ],
   "note": ""
  },
  {
   "property": "C88",
   "status": "proved",
   "theorems": [
    "C88_exact",
    "C88_chance",
    "C88_rate",
    "C88_from_start",
    "C88_small"
   ],
   "note": ""
  },
  {
   "property": "C89",
   "status": "proved",
   "theorems": [
    "C89_report",
    "C89_readable",
    "C89_repeat",
    "C89_average",
    "C89_usage",
    "C89_usage_text",
    "C89_defaults",
    "C89_corpus"
   ],
   "note": ""
  },
  {
   "property": "C90",
   "status": "proved",
   "theorems": [
    "C90_winner_needs",
    "C90_lengths",
    "C90_opened_lengths",
    "C90_no_longest",
    "C90_episodes",
    "C90_cut_short"
   ],
   "note": ""
  },
  {
   "property": "C91",
   "status": "proved",
   "theorems": [
    "C91_bar_forced",
    "C91_all_or_nothing",
    "C91_off_the_bar",
    "C91_episode"
   ],
   "note": ""
  },
  {
   "property": "C92",
   "status": "proved",
   "theorems": [
    "C92_mover_wins",
    "C92_who_won",
    "C92_episode",
    "C92_all_results"
   ],
   "note": ""
  },
  {
   "property": "C93",
   "status": "proved",
   "theorems": [
    "C93_causal",
    "C93_left_out",
    "C93_dice_replaced",
    "C93_position_replaced",
    "C93_order"
   ],
   "note": ""
  },
  {
   "property": "C94",
   "status": "proved",
   "theorems": [
    "C94_positions",
    "C94_variants",
    "C94_without_hitting",
    "C94_move_texts",
    "C94_met",
    "C94_lines",
    "C94_perft_exact",
    "C94_safe_depths",
    "C94_single_roll",
    "C94_corpus"
   ],
   "note": ""
  },
  {
   "property": "C95",
   "status": "proved",
   "theorems": [
    "C95_own_checkers_only",
    "C95_two_bear_offs"
   ],
   "note": ""
  },
  {
   "property": "C96",
   "status": "proved",
   "theorems": [
    "C96_positions",
    "C96_moves",
    "C96_texts",
    "C96_dice",
    "C96_games",
    "C96_session",
    "C96_programs",
    "C96_output",
    "C96_builders",
    "C96_not_conversely"
   ],
   "note": ""
  },
  {
   "property": "C97",
   "status": "proved",
   "theorems": [
    "C97_move_texts",
    "C97_apply",
    "C97_encode",
    "C97_state",
    "C97_phase",
    "C97_same_ids",
    "C97_ids_carry_over",
    "C97_games"
   ],
   "note": ""
  },
  {
   "property": "C98",
   "status": "proved",
   "theorems": [
    "C98_resume",
    "C98_script"
   ],
   "note": ""
  },
  {
   "property": "C99",
   "status": "proved",
   "theorems": [
    "C99_cut",
    "C99_watching",
    "C99_dice",
    "C99_row_unique",
    "C99_same_dice"
   ],
   "note": ""
  }
 ]
}