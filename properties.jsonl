{"id": "C01", "title": "Legal move generation is exactly the rules of backgammon", "statement": "For an ongoing well-formed position and a roll, the set of positions returned by legal_positions (ClassicRules / Game::legal_positions) is exactly the set of positions, seen from the opponent's side, that result from a legal play: single-checker moves with the dice in any order, bar first, bear-off only with all checkers home, using as many dice as possible and the larger die if only one can be used.", "quantifier": "every checker count N in 1..127, every well-formed ongoing position, every roll of two dice 1..6", "why_tests_cant": "The position space is astronomically large (about 10^20 for N=15); tests sample about 45 positions and mostly compare counts.", "anchors": ["src/position.rs: generate_legal_positions, generate_legal_positions_in", "src/position/mixed_moves.rs: all_positions_after_mixed_move_into", "src/position/double_moves.rs: all_positions_after_double_move_into", "src/rules.rs: ClassicRules"]}
{"id": "C02", "title": "Move generation never panics and never returns an empty list", "statement": "For an ongoing well-formed position and a valid roll, legal_positions terminates without any panic (no arithmetic overflow, no index error, no failed debug assertion) and returns a non-empty list, with the same result in debug and release builds.", "quantifier": "every N in 1..127, every well-formed ongoing position, every roll, both build profiles", "why_tests_cant": "Overflow/index panics depend on all 26 counters at once; tests cannot enumerate positions.", "anchors": ["src/position.rs: generate_legal_positions_in, move_single_checker", "src/position/double_moves.rs", "src/position/mixed_moves.rs"]}
{"id": "C03", "title": "Checkers are conserved and the turn passes", "statement": "Every position returned by legal_positions is again well-formed: each side still has exactly N checkers (board + bar + off), bars keep their sign, off counts are in range, and the side to move is the other one; the opponent's borne-off count is untouched.", "quantifier": "every N, well-formed position, roll and every element of the returned list", "why_tests_cant": "Must hold for all plays from all positions, by an invariant.", "anchors": ["src/position.rs: move_single_checker, flip", "src/rules.rs: ClassicRules"]}
{"id": "C04", "title": "Move lists contain no repeated position", "statement": "legal_positions lists each distinct resulting position exactly once.", "quantifier": "every well-formed ongoing position and roll", "why_tests_cant": "Distinctness of all pairs of plays needs an algebraic argument; tests compare counts on a few positions.", "anchors": ["src/position/mixed_moves.rs: two_checker_moves_into", "src/position/double_moves.rs: double_moves_after_entering_into"]}
{"id": "C05", "title": "Flipping sides is an involution that mirrors the board", "statement": "flip() maps point i to 25-i with sign changed, swaps the two off counts, negates the turn; flip twice is the identity (as seen by pip/x_off/o_off/turn) and flip preserves well-formedness. On boards that are not positions the same mirror laws hold for entries -127..127; an entry -128 makes a debug build panic and is kept by a release build, where flip twice is still the identity.", "quantifier": "all well-formed positions, all boards of 26 8-bit entries, both builds", "why_tests_cant": "Universal algebraic law over all boards.", "anchors": ["src/position.rs: State::flip for Position"]}
{"id": "C06", "title": "Game result classification", "statement": "game_state reports GameOver exactly when one side has borne off all N checkers: normal if the loser has borne off at least one, backgammon if the loser has none off and has a checker on the bar or in the winner's home board, gammon otherwise; win/lose is from the mover's side; flipping the position yields the reversed result; otherwise it is Ongoing.", "quantifier": "every N and every well-formed position with at most one side finished", "why_tests_cant": "Decision rule over all boards.", "anchors": ["src/position.rs: State::game_state, GameResult::reverse"]}
{"id": "C07", "title": "Phase classification and irrevocability of the race", "statement": "phase() never panics on a well-formed position; it agrees with game_state when over; while ongoing it answers Race exactly when every x checker has already passed every o checker (no further contact), and once a position is Race every later position of the game is Race or over and nobody is ever hit.", "quantifier": "every well-formed position, every sequence of legal plays", "why_tests_cant": "Quantifies over all continuations of a game.", "anchors": ["src/position.rs: State::phase"]}
{"id": "C08", "title": "Building a position from a 26-array validates it", "statement": "Position::<N>::try_from(pips) succeeds exactly when each side has at most N checkers and both bars have the right sign; on success pip(i) is the input, off counts are the missing checkers, and the position is well-formed; otherwise it returns Err.", "quantifier": "every array of 26 i8 values, both build profiles", "why_tests_cant": "256^26 inputs; overflow in the i8 sums shows up only for specific large arrays.", "anchors": ["src/position.rs: TryFrom<[i8; 26]> for Position"]}
{"id": "C09", "title": "GNUbg position ID round trip", "statement": "decode(variant, encode(p)) succeeds and equals p (Position equality, which ignores turn) for every well-formed position; the ID is always 14 base64 characters, so distinct boards have distinct IDs. The ID is exactly the GNU one: RFC 4648 base64 of the 80-bit key that lists the checkers in unary with every unused bit zero.", "quantifier": "every variant and every well-formed position of it", "why_tests_cant": "Variable-length bit packing over all boards; tests use a handful of IDs.", "anchors": ["src/codecs/gnuid.rs: encode, decode, encode_key, decode_key"]}
{"id": "C10", "title": "GNUbg position ID decoding is total and validating", "statement": "gnuid::decode never panics and, whenever it returns Ok, the position is well-formed for the variant.", "quantifier": "all strings", "why_tests_cant": "All inputs; the failing ones are outside what tests feed.", "anchors": ["src/codecs/gnuid.rs: decode_for_position, decode_key"]}
{"id": "C11", "title": "XGID board round trip", "statement": "xgid::decode(variant, xgid::encode(p)) equals p (up to turn) for every well-formed position; the board string always has 26 characters from '-', a..p, A..P.", "quantifier": "every variant and every well-formed position", "why_tests_cant": "All boards.", "anchors": ["src/codecs/xgid.rs: encode_for_position, decode_for_position"]}
{"id": "C12", "title": "XGID board decoding validates", "statement": "xgid::decode never panics and whenever it returns Ok the position is well-formed for the variant.", "quantifier": "all strings, both build profiles", "why_tests_cant": "All inputs; i8 overflow needs 128 or more checkers of one colour.", "anchors": ["src/codecs/xgid.rs: decode_for_position", "src/position.rs: TryFrom"]}
{"id": "C13", "title": "Full XGID string round trip", "statement": "Xgid::parse(x.format()) = Ok(x) for every Xgid whose fields are in the documented ranges, and parse accepts exactly ten ':'-separated fields of the right form.", "quantifier": "all Xgid values with dice digits 0..6 and cube owner -1..1; all strings", "why_tests_cant": "u8/u16 fields times all boards.", "anchors": ["src/codecs/xgid.rs: parse_xgid, format_xgid"]}
{"id": "C14", "title": "FIBS board round trip", "statement": "fibs::decode(variant, fibs::encode(p)) returns p, including whose turn it is, for every well-formed position.", "quantifier": "every variant and every well-formed position with either side to move", "why_tests_cant": "All boards; unit tests only use x-to-move positions.", "anchors": ["src/codecs/fibs.rs: encode_for_position, decode_for_position"]}
{"id": "C15", "title": "FIBS decoding validates", "statement": "fibs::decode never panics; when it returns Ok the position is well-formed and its off counts are those written in the text.", "quantifier": "all strings, both build profiles", "why_tests_cant": "All inputs; negation overflow and i8 sum overflow only at particular values.", "anchors": ["src/codecs/fibs.rs: decode_for_position, parse_two_counts, parse_point_token"]}
{"id": "C16", "title": "Move-step text round trip", "statement": "parse_move_steps(format_move_steps(steps)) = Some(steps) for every list of steps with from in 1..=25 (25 = bar) and to in 0..=24 (0 = off), the empty list being 'pass'.", "quantifier": "all lists of such steps, any length", "why_tests_cant": "Unbounded lists.", "anchors": ["src/codecs/move_text.rs: format_move_steps, parse_move_steps"]}
{"id": "C17", "title": "Move-text normalisation is canonical", "statement": "If normalize_move_text(t) = Some(s) then s parses as steps, all steps are in range, formatting those steps gives s back, and normalising s again gives s; hit marks, commas, case, extra blanks and chained points do not matter.", "quantifier": "all strings t", "why_tests_cant": "All strings.", "anchors": ["src/codecs/move_text.rs: normalize, parse_path_points"]}
{"id": "C18", "title": "legal_moves lists every legal child with a text that plays to it", "statement": "legal_moves(p, dice) is Ok; the positions in it are exactly those of legal_positions; and for every (text, child) in it apply_move(p, dice, text) = Some(child).", "quantifier": "every variant, well-formed ongoing position and roll", "why_tests_cant": "Relates three independent searches over all positions.", "anchors": ["src/codecs/move_text.rs: legal, legal_for_steps, collect_paths, apply_for"]}
{"id": "C19", "title": "encode_move works for every legal child", "statement": "For every child in legal_positions(p, dice), encode_move(p, child, dice) is Ok(text) and apply_move(p, dice, text) = Some(child).", "quantifier": "every variant, well-formed ongoing position, roll and legal child", "why_tests_cant": "All positions; depends on completeness of a backtracking search.", "anchors": ["src/codecs/move_text.rs: encode_for, find_steps_for_target, apply_for"]}
{"id": "C20", "title": "apply_move only accepts legal plays", "statement": "If apply_move(p, dice, text) = Some(next) then next is one of legal_positions(p, dice).", "quantifier": "every well-formed ongoing position, roll and text", "why_tests_cant": "All positions and texts; violations need positions where playing one die blocks the other.", "anchors": ["src/codecs/move_text.rs: apply_for, apply_steps, any_move_for_die"]}
{"id": "C21", "title": "encode_move rejects unreachable targets", "statement": "encode_move(p, next, dice) is Err whenever next is not one of legal_positions(p, dice) or belongs to a different variant.", "quantifier": "all pairs of positions and rolls", "why_tests_cant": "All pairs of positions.", "anchors": ["src/codecs/move_text.rs: encode_for, encode_steps"]}
{"id": "C22", "title": "Single-checker moves follow the rules", "statement": "try_move_single_checker(from, die) is Some exactly when the rules allow moving one checker from that point (bar first, destination not held by two or more opponents, bear-off conditions), and the result moves exactly that checker, sends a hit blot to the opponent's bar, and changes nothing else.", "quantifier": "every well-formed position, from in 0..=25, die in 1..=6", "why_tests_cant": "All boards.", "anchors": ["src/position.rs: can_move, can_move_internally, move_single_checker, try_move_single_checker"]}
{"id": "C23", "title": "Reachable games stay consistent", "statement": "After any sequence of Game operations (new, set_position with a well-formed position, reset, apply_nth_legal_position, play_episode) the game's position belongs to the game's variant and is well-formed.", "quantifier": "all finite sequences of operations, all arguments", "why_tests_cant": "Histories of unbounded length.", "anchors": ["src/game.rs: Game"]}
{"id": "C24", "title": "apply_nth_legal_position is exact and atomic", "statement": "apply_nth_legal_position(dice, k) succeeds exactly when k < legal_positions(dice).len(), then the position becomes the k-th listed one; on error, and on a failed set_position, the game is unchanged.", "quantifier": "all games, rolls and indices", "why_tests_cant": "All states and indices.", "anchors": ["src/game.rs: apply_nth_legal_position_with, set_position"]}
{"id": "C25", "title": "Episodes are legal games", "statement": "play_episode_with(dice, max_plies, policy) returns Ok(n) with n <= max_plies, having moved through exactly n consecutive legal plays chosen by the policy with the rolled dice (first roll not a double); it stops as soon as a side has borne off all checkers, and n < max_plies only in that case under ClassicRules; an out-of-range policy index gives Err. Started on a finished game, a debug build panics and a release build plays exactly one more ply and leaves the game finished.", "quantifier": "all policies, all dice sources, all max_plies, all ongoing games", "why_tests_cant": "Unbounded histories with arbitrary policies.", "anchors": ["src/game.rs: play_episode_with"]}
{"id": "C26", "title": "NoHitRules never hits", "statement": "Every position in legal_positions_with::<NoHitRules> leaves the opponent with no more checkers on the bar than before the play, and every ClassicRules position with that property is kept.", "quantifier": "every well-formed ongoing position and roll", "why_tests_cant": "All positions; the shipped test cannot tell the two sides' bars apart.", "anchors": ["src/rules.rs: NoHitRules"]}
{"id": "C27", "title": "Dice values are order-independent and validated", "statement": "Dice::new(a,b) = Dice::new(b,a); it is a double exactly when a = b, otherwise big > small are the two values; Dice::try_from accepts exactly pairs with both values in 1..=6; on other numbers Dice::new panics in a debug build and makes the same order-independent roll in a release build.", "quantifier": "all pairs of usize", "why_tests_cant": "All pairs of 64-bit integers for try_from.", "anchors": ["src/dice.rs: Dice::new, MixedDice::new, TryFrom<(usize, usize)>"]}
{"id": "C28", "title": "Roll tables are complete and correctly weighted", "statement": "ALL_21 contains every distinct roll once with weight equal to the number of the 36 ordered throws giving it; ALL_441 is its product with itself, weights multiplying and summing to 1296; ALL_SINGLES is exactly the 15 non-doubles.", "quantifier": "all rolls / pairs of rolls", "why_tests_cant": "Completeness is a statement about all rolls, tests only check distinctness and sums.", "anchors": ["src/dice.rs: ALL_21, ALL_441, ALL_SINGLES, all_6_double"]}
{"id": "C29", "title": "Random dice are exactly uniform given a uniform generator", "statement": "FastrandDice::roll maps the 36 generator outcomes so that each roll has exactly its fair multiplicity; roll_mixed never yields a double and gives each of the 15 mixed rolls exactly 2 of 30 outcomes; all results are valid dice.", "quantifier": "all generator outcomes", "why_tests_cant": "Tests are statistical with tolerance.", "anchors": ["src/dice_gen.rs: FastrandDice::roll, roll_mixed"]}
{"id": "C30", "title": "choose_index returns a valid index", "statement": "choose_index(chances) returns an index smaller than chances.len() for every non-empty slice and every generator outcome.", "quantifier": "all non-empty f32 slices (any values including NaN) and all generator outcomes", "why_tests_cant": "All float vectors.", "anchors": ["src/dice_gen.rs: FastrandDice::choose_index"]}
{"id": "C31", "title": "Combinatorial helpers", "statement": "comb(n,k) is the binomial coefficient for all n >= 1 (and mcomb(n,k) the multiset coefficient for n >= 2), i.e. they satisfy n! = k!(n-k)! comb(n,k), whenever the value fits in 64 bits; otherwise a debug build panics and a release build returns it modulo 2^64; for the remaining arguments too, except that comb(0,0) and mcomb(1,0) are 0 and mcomb(0,0) underflows.", "quantifier": "all n, k", "why_tests_cant": "Unbounded arguments.", "anchors": ["src/utils.rs: comb, mcomb"]}
{"id": "C32", "title": "dbhash is a perfect hash", "statement": "dbhash is injective on well-formed positions with the same checker count, and its values lie in 0..mcomb(26,N)^2, without overflow.", "quantifier": "all well-formed positions of each supported variant", "why_tests_cant": "Injectivity over all pairs of positions.", "anchors": ["src/position.rs: State::dbhash"]}
{"id": "C33", "title": "Position equality and hashing agree", "statement": "Two positions are == exactly when their boards and off counts agree (turn is ignored), == is an equivalence relation, equal positions feed the same data to the hasher, and equal positions give equal IDs, game states, move lists and move texts, and accept the same move texts with equal results; they have the same picture, XGID text, continuation counts and no-hit moves, their FIBS texts differ at most in the turn field, and whole games played from them with the same dice and a policy that cannot tell equal positions apart go the same way.", "quantifier": "all pairs of positions", "why_tests_cant": "All pairs.", "anchors": ["src/position.rs: PartialEq, Hash for Position"]}
{"id": "C34", "title": "Variant names and start positions", "statement": "Parsing the displayed name of a variant gives it back, regardless of ASCII case and surrounding blanks, and nothing else parses; the displayed names are the wire names and every variant has its title; every start position has exactly the checkers of the variant's set-up on every point, the same for both sides, and is well-formed with the advertised number of checkers, ongoing, and equal to its own flip.", "quantifier": "all variants, all strings", "why_tests_cant": "All strings.", "anchors": ["src/variants.rs: Display, FromStr, spec, start_position"]}
{"id": "C35", "title": "Engine spec text round trip", "statement": "If parse_engine_spec(s) = Ok(e) then parse_engine_spec(format_engine_spec(e)) = Ok(e): formatting loses nothing.", "quantifier": "all strings s", "why_tests_cant": "All strings.", "anchors": ["src/engine_spec.rs: parse_engine_spec, format_engine_spec"]}
{"id": "C36", "title": "UBGI option values are validated", "statement": "parse_value accepts exactly the values of the option's domain (64-bit integers, in the inclusive range when both bounds are given, true/false, listed choices, any text), and the wire form of an accepted value parses back to the same value.", "quantifier": "all option specs, all strings", "why_tests_cant": "All strings and ranges.", "anchors": ["src/ubgi.rs: OptionSpec::parse_value, OptionValue::to_wire"]}
{"id": "C37", "title": "UBGI key lines describe the option", "statement": "parse_key_line(spec.to_key_line()) returns the option's name, type, domain, default and minor flag.", "quantifier": "all option specs whose strings are non-empty and free of blanks", "why_tests_cant": "All strings.", "anchors": ["src/ubgi.rs: OptionSpec::to_key_line, parse_key_line"]}
{"id": "C38", "title": "UBGI session keeps variant and game in step", "statement": "After any sequence of command lines, with any engine, the session's game is of the session's variant and its position is one of: a start position or a successfully decoded one; commands answered with an error change neither variant, game, dice nor option values.", "quantifier": "all engines, all finite sequences of input lines", "why_tests_cant": "Unbounded histories, arbitrary engines.", "anchors": ["src/ubgi/runtime.rs: handle_command, SessionState"]}
{"id": "C39", "title": "UBGI get returns what was set", "statement": "After any session history, 'get k' for a declared option answers the value given by the last accepted 'set k' (or the default if none); other keys' values are unaffected by a set.", "quantifier": "all engines, all histories", "why_tests_cant": "Unbounded histories.", "anchors": ["src/ubgi/runtime.rs: handle_get, handle_set"]}
{"id": "C40", "title": "UBGI go requires dice and passes the current ones", "statement": "'go' answers 'error bad_state missing.dice' exactly when no valid 'dice' command was accepted since the last 'newgame' or start; otherwise the engine is asked with the current game and the most recently accepted dice, both in 1..6.", "quantifier": "all engines, all histories", "why_tests_cant": "Unbounded histories.", "anchors": ["src/ubgi/runtime.rs: handle_dice, handle_go, NewGame"]}
{"id": "C41", "title": "UBGI session never crashes on input", "statement": "No input line makes the session loop panic.", "quantifier": "all input lines, all histories, engines that do not panic", "why_tests_cant": "All strings.", "anchors": ["src/ubgi/runtime.rs: run_ubgi_stdio, handle_command", "src/codecs/gnuid.rs: decode_key"]}
{"id": "C42", "title": "UBGI replies and termination", "statement": "Blank lines produce no output, an unknown line exactly one 'error bad_command unknown', 'quit' produces no output and nothing after it is processed; every other command produces at most one line except 'ubgi' and 'keys', whose replies end with 'ubgiok' / list every declared key once in order.", "quantifier": "all engines, all input sequences", "why_tests_cant": "Unbounded histories.", "anchors": ["src/ubgi/runtime.rs: run_ubgi_stdio, parse_command, render_key_lines"]}
{"id": "C43", "title": "Pip count accounting", "statement": "In every legal play the mover's pip count drops by the sum of the dice used (less only when bearing off with a larger die), and the opponent's rises exactly by the distance of the hit checkers; the mover's pip count never rises.", "quantifier": "all well-formed positions, rolls and plays", "why_tests_cant": "All positions.", "anchors": ["src/position.rs: move_single_checker"]}
{"id": "C44", "title": "Mock dice are served in order", "statement": "DiceGenMock returns the given dice in order, one per roll, roll_mixed skips doubles, choose_index always takes the first outcome and no dice, it panics exactly when exhausted, and assert_all_dice_were_used passes exactly when all were consumed.", "quantifier": "all dice lists and call sequences", "why_tests_cant": "All histories.", "anchors": ["src/dice_gen.rs: DiceGenMock, DiceGen::roll_mixed"]}
{"id": "C45", "title": "Perft counts plays", "statement": "perft_all_rolls_n(p, depth, weighted) equals the number of length-depth sequences of (roll, listed child), each weighted by the product of the 36-throw multiplicities of its rolls when weighted. A release build counts modulo 2^128 and goes on listing plays after the end of a game; a debug build panics when a game ends before the last turn or the count overflows.", "quantifier": "all positions and depths", "why_tests_cant": "Unbounded depth.", "anchors": ["src/bin/bkgm-perft.rs: perft_all_rolls_n"]}
{"id": "C46", "title": "Debug rendering identifies the position", "statement": "Two well-formed positions have the same Debug text exactly when they are equal (==).", "quantifier": "all pairs of well-formed positions", "why_tests_cant": "All pairs.", "anchors": ["src/position.rs: fmt::Debug for Position"]}
{"id": "C47", "title": "Engine spec texts mean what they say", "statement": "parse_engine_spec accepts exactly the texts alias[@version][:key=value,...] with a non-empty alias (blank overrides ignored, blanks around parts dropped), and returns that alias and version and, for every key (prefixed with 'engine.' if it is not already), the value of the last override for it.", "quantifier": "all strings", "why_tests_cant": "All strings.", "anchors": ["src/engine_spec.rs: parse_engine_spec"]}
{"id": "C48", "title": "bkgm-perft command line", "statement": "bkgm-perft prints the usage when --help or -h is given; otherwise it reports exactly the count asked for by the first occurrence of each flag (variant name or short name, position ID or the variant's start, dice or depth, weighting, iterations), ignoring unknown arguments and unparsable numbers; it panics instead of reporting when the variant is unknown, the ID does not decode or a die is not 1..6.", "quantifier": "all argument lists", "why_tests_cant": "All argument lists.", "anchors": ["src/bin/bkgm-perft.rs: main, parse_usize_flag, parse_variant_flag, run_single_roll, run_perft"]}
{"id": "C49", "title": "Move lists of finished games", "statement": "For a position in which a side has borne off all its checkers the release build still lists the legal plays, and the debug build panics exactly in that case; whatever is played on, the game stays finished, also through apply_nth_legal_position.", "quantifier": "all well-formed positions and rolls", "why_tests_cant": "All positions.", "anchors": ["src/position.rs: generate_legal_positions_in", "src/position/mixed_moves.rs", "src/position/double_moves.rs"]}
{"id": "C50", "title": "Corpus benchmark counts listed positions", "statement": "One corpus run returns the total number of positions listed for every corpus position and each of the 21 rolls.", "quantifier": "all corpora of well-formed ongoing positions", "why_tests_cant": "Unbounded corpora.", "anchors": ["src/bin/corpus-bench.rs: run_once"]}
{"id": "C51", "title": "Positions from maps of checkers", "statement": "from_hash_maps gives the board with exactly the given checkers, the rest borne off and x to move, whatever the iteration order of the maps; it panics when a side gets more than N checkers or a checker on the other side's bar, and in debug builds when a point is given to both. On all maps: a key above 25 panics; otherwise the checkers are taken as 8-bit numbers, o's map wins on shared points in a release build, the answer is that of try_from with errors turned into panics, and a debug build gives the same position except that it panics exactly on a point shared with x checkers, on 128 o checkers, or on an 8-bit overflow of a side's sum. The macro pos! builds the fifteen-checker position with the checkers written (the last number counts for a point written twice), in whatever order the points are written.", "quantifier": "all pairs of maps, all iteration orders", "why_tests_cant": "All maps and orders.", "anchors": ["src/position/conversion.rs: from_hash_maps, pos!"]}
{"id": "C52", "title": "Which move lists repeat a position", "statement": "legal_positions lists every position once except in one case: a roll of two different dice with the rearmost checker alone on a point not beyond the smaller die and the next one on a lower point; then the single result is listed exactly twice.", "quantifier": "all well-formed positions and rolls", "why_tests_cant": "Distinctness of all pairs of plays needs an algebraic argument.", "anchors": ["src/position/mixed_moves.rs: two_checker_moves_into, moves_with_1_checker_on_bar_into", "src/position/double_moves.rs: double_moves_after_entering_into"]}
{"id": "C53", "title": "Board drawing", "statement": "show prints 13 lines of 47 columns in which every point, bar and borne-off tray has its fixed place and shows its owner and exactly its number of checkers (X/O up to five, the number from six on), without panicking, inside a frame with the points' numbers at the edge; two positions are drawn alike exactly when they are equal.", "quantifier": "all well-formed positions with at most 99 checkers a side", "why_tests_cant": "All positions and all pairs of positions.", "anchors": ["src/position.rs: State::show, State::print_point"]}
{"id": "C54", "title": "Printed dice", "statement": "A roll is printed as (a,b) with its smaller number first, whichever die shows which, and two rolls are printed alike exactly when they are the same roll.", "quantifier": "all rolls and pairs of rolls", "why_tests_cant": "All pairs of rolls, both builds.", "anchors": ["src/dice.rs: Display for Dice, Dice::new"]}
{"id": "C55", "title": "Engine moves survive the wire", "statement": "parse_ubgi_move accepts exactly the move texts (pass, or paths of points with bar and off, hit marks and commas ignored, any case) and returns the steps they say; every other text gives the error move.invalid; and the text of a bestmove reply parses back to exactly the steps the engine chose.", "quantifier": "all texts, engines, histories and move lists on the board", "why_tests_cant": "Unbounded texts and step lists.", "anchors": ["src/ubgi.rs: parse_ubgi_move", "src/ubgi/runtime.rs: handle_go", "src/codecs/move_text.rs: normalize, parse_move_steps, format_move_steps"]}
{"id": "C56", "title": "Key line grammar", "statement": "parse_key_line accepts exactly the lines key <name> <type> [<domain>] <default> [!] [<description>] (booleans without domain, integers with one only if it contains .., all other types with one) and returns exactly their parts.", "quantifier": "all lines", "why_tests_cant": "All texts.", "anchors": ["src/ubgi.rs: parse_key_line, looks_like_int_domain"]}
{"id": "C57", "title": "Replies of a UBGI session", "statement": "isready answers readyok or the engine's error; newgame is silent; set game.variant is silent for the name of a variant and an error otherwise; position gnubgid is silent for an ID that decodes and an error for one that is refused; other position commands, go cube and go turn are answered with their fixed errors; refused commands leave the session unchanged.", "quantifier": "all engines, histories and lines", "why_tests_cant": "All histories and lines.", "anchors": ["src/ubgi/runtime.rs: handle_command, handle_set"]}
{"id": "C58", "title": "Corpus benchmark command line and files", "statement": "corpus-bench reads the files given by the first --contact-csv and --race-csv (else the defaults), takes every line that is not blank as a position ID, and reports the number of positions, the iterations (first --iterations, default 20, at least 1) and the moves listed in one run; it panics exactly when a file cannot be read, a line is not an ID or counting panics.", "quantifier": "all argument lists and file contents", "why_tests_cant": "Unbounded files and argument lists.", "anchors": ["src/bin/corpus-bench.rs: main, load_positions, bench, parse_string_flag"]}
{"id": "C59", "title": "What building a position from 26 numbers does on every array", "statement": "In a release build try_from never panics and decides as documented but with the checkers off taken modulo 256 as 8-bit numbers; a debug build panics exactly when x shows more than 127 or o more than 128 checkers and otherwise answers the same.", "quantifier": "all arrays of 26 numbers, all checker counts 1..127, both builds", "why_tests_cant": "All arrays including those on which sums overflow.", "anchors": ["src/position.rs: TryFrom<[i8; 26]>"]}
{"id": "C60", "title": "What decoding a position ID does on every text", "statement": "gnuid::decode refuses exactly the texts that are not 14 base64 characters for ten bytes; if the bytes list checkers it returns the position with them (a debug build panics when a side has too many, a release build takes the missing ones modulo 256); if the unary counts run past the 80 bits it panics in every build.", "quantifier": "all texts, variants and builds", "why_tests_cant": "All texts.", "anchors": ["src/codecs/gnuid.rs: decode, decode_key"]}
{"id": "C61", "title": "Which lines crash a UBGI session", "statement": "With an engine that does not panic, a session crashes exactly when it reads a position gnubgid line whose ID makes the decoder panic: one that lists more than fits 80 bits or, in a debug build, too many checkers for the variant.", "quantifier": "all engines, histories, inputs and builds", "why_tests_cant": "All histories.", "anchors": ["src/ubgi/runtime.rs: run_ubgi_stdio, handle_command", "src/codecs/gnuid.rs: decode_key"]}
{"id": "C62", "title": "What decoding an XGID board does on every text", "statement": "xgid::decode refuses texts that show no board without panicking; for a shown board a debug build panics exactly when a side shows more checkers than an 8-bit sum holds, and otherwise both builds return the shown position or refuse it, deciding by the missing checkers modulo 256.", "quantifier": "all texts, variants and builds", "why_tests_cant": "All texts.", "anchors": ["src/codecs/xgid.rs: decode, decode_position"]}
{"id": "C63", "title": "Exactly which texts apply_move accepts", "statement": "apply_move returns a position exactly for the texts that say a move whose steps play some of the dice rolled, each at most once and one after the other, such that no die left over can still be played; the position is the resulting board handed to the other player. For every other text it returns None and never panics; texts with the same meaning get the same answer.", "quantifier": "all positions, rolls, texts and builds", "why_tests_cant": "All texts and positions.", "anchors": ["src/codecs/move_text.rs: apply_move"]}
{"id": "C64", "title": "Exactly which boards encode_move accepts and what its text says", "statement": "encode_move returns a text exactly for the boards reachable by playing the dice in one of the two orders, passing over a die only when it cannot be played; the text says such a play, and apply_move takes it back to that board unless a die left over could still be played, in which case it returns None.", "quantifier": "all positions, target positions, rolls and builds", "why_tests_cant": "All pairs of positions and rolls.", "anchors": ["src/codecs/move_text.rs: encode_move"]}
{"id": "C65", "title": "Exactly which listed move texts are right", "statement": "legal_moves lists each legal position once; with a double each text plays to its position; with two different dice it does so exactly when the child was not mixed up with a bigger-die-first play of the opponent's checkers leading to the same board, and then the text says a play of the roll.", "quantifier": "all positions, rolls and builds", "why_tests_cant": "All positions and rolls.", "anchors": ["src/codecs/move_text.rs: legal_moves, collect_paths"]}
{"id": "C66", "title": "What the perfect hash is", "statement": "The ways to distribute one side's checkers over off, the 24 points and the bar are numbered 0, 1, ... without gaps, more checkers off first, then more on the first points; dbhash is x's number times the number of ways plus o's number if that fits 64 bits; otherwise a debug build panics and a release build keeps the low 64 bits.", "quantifier": "all positions, 1..15 checkers a side, both builds", "why_tests_cant": "All positions.", "anchors": ["src/position.rs: dbhash", "src/utils.rs: comb, mcomb"]}
{"id": "C67", "title": "What NoHitRules keeps", "statement": "NoHitRules lists the legal positions in the order legal_positions lists them, less exactly those after which the player who moved has more checkers on the bar than the opponent had before.", "quantifier": "all positions, rolls and builds", "why_tests_cant": "All positions and rolls.", "anchors": ["src/rules.rs: NoHitRules"]}
{"id": "C68", "title": "What writing and rereading an engine spec does", "statement": "Formatting a parsed spec and parsing the text again always succeeds and keeps alias and version; the options are those written (engine.ply, engine.top_k, the rest in key order) with all leading 'engine.' of each key reduced to one, the last winning when keys become equal; nothing changes exactly when every key is plain.", "quantifier": "all spec texts", "why_tests_cant": "All texts.", "anchors": ["src/engine_spec.rs: parse_engine_spec, format_engine_spec"]}
{"id": "C69", "title": "What decoding a FIBS text does on every text", "statement": "For a well-formed text the numbers are taken as 8-bit numbers; a debug build panics exactly when o shows 128 on the bar or a point, or a side shows more than 8-bit sums hold, and otherwise both builds give the described position or refuse it for the stated reason; a malformed text is refused, except that a debug build panics when it meets 128 of o before the malformed part.", "quantifier": "all texts, variants and builds", "why_tests_cant": "All texts.", "anchors": ["src/codecs/fibs.rs: decode_for_position, parse_point_token, parse_two_counts"]}
{"id": "C70", "title": "What reading back a FIBS text of a position gives", "statement": "With x to move the position comes back; with o to move the text is refused unless both sides have equally many checkers off, and then the mirror image comes back; so a position comes back exactly when x is to move or its board is its own mirror image.", "quantifier": "all positions, variants and builds", "why_tests_cant": "All positions.", "anchors": ["src/codecs/fibs.rs: encode, decode"]}
{"id": "C71", "title": "Weighted choices are in proportion to the chances", "statement": "For non-negative f32 chances (at most 2^22 of them, with an exact total between 2^-105 and 2^125) choose_index picks index i on one run of consecutive values of its random number, and the number of these values out of a million differs from 1000000 times the share of chance i in the exact total by at most 4/3 plus a sixteenth per chance; whenever the f32 sum is finite and at least 2^-106, an index of chance zero is never picked; when all chances are zero or their f32 sum overflows, the last index is picked always.", "quantifier": "all lists of f32 chances, all values of the random number, both build profiles, either sign of the sum's initial zero", "why_tests_cant": "the statement ranges over all floating point inputs and bounds rounding errors of all of them; a statistical test cannot see a bias of a few draws in a million", "anchors": ["src/dice_gen.rs: FastrandDice::choose_index"]}
{"id": "C72", "title": "An engine that writes only the required methods", "statement": "A session with an engine that keeps the provided methods is always ready, shows only the key game.variant, and answers every other get and set with 'error unsupported key', whatever happened before; an engine that declares options but keeps the provided set never has a set of them accepted, and get of them always answers the declared default.", "quantifier": "all such engines, histories and lines", "why_tests_cant": "All engines and histories.", "anchors": ["src/ubgi.rs: UbgiEngine (provided methods)", "src/ubgi/runtime.rs: run_ubgi_stdio"]}
{"id": "C73", "title": "A game refereed over UBGI is a legal game and never stalls", "statement": "A referee keeps a position and for each roll sends 'position gnubgid <id>', 'dice a b' and 'go' to a session set to the variant, and plays the bestmove text with apply_move. If the engine answers with plays of the roll, then whatever the session did before, position and dice are taken silently, the reply is one bestmove, apply_move accepts it and gives a legal next position; so for every list of rolls the game goes on to the end of the list or of the game, by legal plays only and in one way only. Engines that take a position of legal_positions and have encode_move_steps write it are such engines.", "quantifier": "all variants, positions, lists of rolls, histories, engines that play legally, both builds on either side", "why_tests_cant": "All games of all lengths, positions and engines.", "anchors": ["src/ubgi/runtime.rs: run_ubgi_stdio", "src/codecs/gnuid.rs: encode, decode", "src/codecs/move_text.rs: apply, encode_steps", "src/rules.rs: legal_positions"]}
{"id": "C74", "title": "A race ends", "statement": "Once the sides have passed each other, every play uses the whole roll unless the last checker goes off before; whatever is rolled and played, a race lasts at most half as many plies as there are pips to go (rounded up), so there is no endless race; an episode started in a race with that many plies allowed and a policy that picks listed positions returns with a finished game; NoHitRules lists in a race what ClassicRules lists.", "quantifier": "all race positions, rolls, plays, dice sources and policies", "why_tests_cant": "All infinite and finite continuations.", "anchors": ["src/position.rs: generate_legal_positions, phase", "src/game.rs: play_episode", "src/rules.rs: NoHitRules"]}
{"id": "C75", "title": "How short a game can be", "statement": "A play brings the mover at most 24 pips nearer and the opponent never nearer, so after n plies each side's pip count is at least what it was minus 24 for each of its plies; no game of backgammon ends in fewer than 13 plies (nackgammon 17, longgammon 29, hypergammon with 2, 3, 4, 5 checkers 3, 5, 7, 9), and episodes never report an earlier end.", "quantifier": "all games from any position, all rolls and plays", "why_tests_cant": "All games.", "anchors": ["src/rules.rs: legal_positions", "src/variants.rs: start_position", "src/game.rs: play_episode"]}
{"id": "C76", "title": "Games do not get stuck", "statement": "Nobody can ever move again exactly when both players have a checker on the bar in front of six held points; such a position stays as it is for ever; no game from a start position reaches it, so while a game goes on legal_positions lists a changed board for some roll, or only the passed turn for every roll and then a changed board for some roll of the opponent.", "quantifier": "all well-formed positions; all games from the start positions", "why_tests_cant": "All games and all rolls.", "anchors": ["src/rules.rs: legal_positions", "src/variants.rs: start_position"]}
{"id": "C77", "title": "What the movegen benchmark measures", "statement": "Whatever the random numbers, if sampling ends there are as many samples as asked for, each in play, of the wanted phase and reached from the start by at most 80 legal plays; release builds never panic while sampling; sampling contact positions always ends and every sample is the position after one single play; a debug build can panic while sampling races because it plays on after a finished game; the count is the number of listed positions over the 21 rolls.", "quantifier": "all random generators, counts and builds", "why_tests_cant": "All random sequences.", "anchors": ["benches/movegen_bench.rs: collect_phase_positions, count_all21_moves"]}
{"id": "C78", "title": "The seeded dice: one draw a call, and rolls as likely as with real dice", "statement": "Over any random number generator whose draws are in range, FastrandDice never panics: roll gives valid dice, roll_mixed valid dice that are not a double, choose_index an index of the list, seed a 64-bit number, in any order of calls and from any state; every call makes exactly one draw, so what was answered does not depend on later calls; for any sequence of rolls and opening rolls, of the equally likely sequences of draws exactly as many give the rolls d1, d2, .. as there are throws of two dice showing them one after the other, so rolls are independent.", "quantifier": "all random number generators, states, sequences of calls of any length, both builds", "why_tests_cant": "All call sequences; a statistical test cannot show exact independence.", "anchors": ["src/dice_gen.rs: FastrandDice"]}
{"id": "C79", "title": "Every game can be replayed with prepared dice", "statement": "For any record of legal plays that opens without a double, play_episode with DiceGenMock holding the recorded dice and a policy that points to the recorded position in the list makes exactly the recorded plays, ends in the recorded position and uses up the dice (assert_all_dice_were_used passes) - also with doubles prepared before the opening roll, which are skipped - if as many plies are asked for as recorded, or more and the recorded game is over; asking for more plies of an unfinished record panics because the dice run out; every episode that succeeds, with any dice source and policy, has such a record and is replayed to the same final game in either build.", "quantifier": "all positions, records of any length, dice sources, policies, builds", "why_tests_cant": "All games of all lengths.", "anchors": ["src/game.rs: play_episode", "src/dice_gen.rs: DiceGenMock", "src/rules.rs: legal_positions"]}
{"id": "C80", "title": "The texts that are written, exactly", "statement": "Every formatter writes one fixed layout: format_xgid, the FIBS encoder, format_move_steps, format_engine_spec, OptionSpec::to_key_line and OptionValue::to_wire write exactly the documented characters, with every number in shortest decimal form (no leading zeros or plus sign), options of an engine spec as ply, top_k, then the rest by name.", "quantifier": "every value in the documented ranges, every well-formed position of every variant, every option", "why_tests_cant": "Unbounded strings, numbers and option maps; a stray blank or reordered field breaks other programs that read the texts.", "anchors": ["src/codecs/xgid.rs: format_xgid", "src/codecs/fibs.rs: encode_for_position", "src/codecs/move_text.rs: format_move_steps", "src/engine_spec.rs: format_engine_spec", "src/ubgi.rs: OptionSpec::to_key_line, OptionValue::to_wire"]}
{"id": "C81", "title": "Rewriting and converting position texts", "statement": "An accepted XGID board text is exactly the text encode writes for the decoded position; rewriting an accepted GNU ID gives an ID of the same position, the same ID exactly when the bits after the checkers are zero; the GNU ID and the XGID text of a position decode to the same position, and with x to move the FIBS text too, so texts can be converted between formats without changing the position.", "quantifier": "all texts accepted with a well-formed position, every variant, every combination of builds", "why_tests_cant": "All texts and all positions; tests convert a handful.", "anchors": ["src/codecs/gnuid.rs: encode, decode", "src/codecs/xgid.rs: encode, decode", "src/codecs/fibs.rs: encode, decode"]}
{"id": "C82", "title": "What a turn can and cannot change", "statement": "Compare a position with any position listed as the outcome of a roll. The opponent's points with two or more checkers are untouched, none of his checkers appears anywhere new, and his bar grows by exactly the number of single checkers that are gone, at most 2 (after a double 4); he bears nothing off. The mover's checkers only go forward: on every point and behind it he has at most as many as before and at most 2 (4) fewer. He bears off at most 2 (4), and if any, he has nothing left outside his home board. If he still has a checker on the bar, nothing but entering has happened. The turn is passed exactly when no die of the roll can be played by any checker; a player who is closed out can only pass, whatever is rolled.", "quantifier": "all variants, all well-formed unfinished positions, all rolls, all listed outcomes, both builds", "why_tests_cant": "Holds for every outcome of every roll of every position; tests look at single positions.", "anchors": ["src/position.rs: generate_legal_positions, try_move_single_checker", "src/rules.rs: legal_positions"]}
{"id": "C83", "title": "A host can follow the session's output", "statement": "If the texts an engine hands out (its name, options, values, errors) contain no line feed, then no reply of a UBGI session does, whatever lines are sent to it, so the output can be taken apart into lines in only one way: into the replies. Every line written begins with a word of the protocol (id name/author/version, proto, key, value, bestmove, error, or is readyok or ubgiok). isready, get and go are answered by exactly one line, the answer of the right kind or an error; all other lines but keys and ubgi get silence or one error.", "quantifier": "all engines with any state, all input streams and histories, both builds", "why_tests_cant": "All histories and all engines; a test runs one script.", "anchors": ["src/ubgi/runtime.rs: run_ubgi_stdio, handle_command, handle_get, handle_set, handle_go, reply", "src/ubgi.rs: OptionSpec::to_key_line, OptionValue::to_wire"]}
{"id": "C84", "title": "Errors say what is wrong", "statement": "A text that is refused is answered with the error of the first thing wrong in it, read from left to right: for a full XGID the board, dice, move_flag or cube_owner field by name and InvalidPayload for a bad number, a missing or an extra field; for an XGID board the field board if it does not show checkers and InvalidPosition otherwise; for a GNU ID key_length if it spells some other number of bytes than ten and InvalidPayload otherwise; for a FIBS board InvalidPayload for the fields, count for the bar then the off counts, points or InvalidPayload for the points, and only then InvalidPosition or turn; for an engine spec the missing alias, or the first override without '='; for an option value the expected type, range or choices. The messages name the format and field.", "quantifier": "all texts, all variants, all options, both builds", "why_tests_cant": "All texts; which error wins when several things are wrong is never covered by examples.", "anchors": ["src/codecs/xgid.rs: parse_xgid, decode", "src/codecs/gnuid.rs: decode", "src/codecs/fibs.rs: decode", "src/engine_spec.rs: parse_engine_spec", "src/ubgi.rs: OptionSpec::parse_value", "src/game.rs: GameError", "src/codecs/move_text.rs: MoveTextError"]}
{"id": "C85", "title": "Move lists depend on the board only", "statement": "Two well-formed positions that show the same 26 numbers have, for every roll and build, move lists of the same length which entry by entry show the same boards, in the same order - whatever the number of checkers a side (of any two variants), the checkers borne off, and the turn flags; the entries differ by the same number of borne-off checkers as the positions. The no-hit rules look at the board only, too, and in a debug build either both calls panic or none.", "quantifier": "all pairs of well-formed positions with the same board, all variants, all rolls, both builds", "why_tests_cant": "Relates two runs on unboundedly many pairs of positions, and lists in order; a test compares single lists.", "anchors": ["src/position.rs: generate_legal_positions", "src/rules.rs: ClassicRules, NoHitRules", "src/variants.rs: VariantPosition"]}
{"id": "C86", "title": "Games with few checkers can always be finished", "statement": "As long as the game is not over and one side has at most four checkers left (so at any time in the games with two, three or four checkers a side), there are rolls and entries of the lists legal_positions returns for them, chosen in turn for both players, that lead to a position game_state reports as over. With more checkers this can fail: nothing ends a game both of whose sides are closed out on the bar.", "quantifier": "every variant, every well-formed unfinished position in which a side has at most four checkers left, debug and release builds", "why_tests_cant": "the existence of a finishing line has to be shown from every one of an unbounded set of positions, by an argument that decreases a measure over arbitrarily long games", "anchors": ["src/position/mixed_moves.rs", "src/position/double_moves.rs", "src/variants.rs", "src/game.rs: Game::legal_positions, Game::game_state", "src/rules.rs: VariantRules"]}
{"id": "C87", "title": "Games played by chance end with probability one", "statement": "Play by chance: roll with the generator (its number uniform on 0..35), go to a uniformly chosen entry of the list legal_positions returns, until game_state reports the game as over. From a well-formed unfinished position such a game ends with probability one if and only if no line of play leads to a position from which it can no longer be finished. So it does in the games with two, three and four checkers a side, and whenever one side has at most four checkers left, where the probability of going on for n turns tends to zero at a rate common to all positions and the expected number of turns is bounded; it never ends when both sides are closed out on the bar. No such game crashes.", "quantifier": "every variant, every well-formed unfinished position, every number of turns, debug and release builds", "why_tests_cant": "a statement about the limit of probabilities over all infinitely long games; sampled games can only be finished ones", "anchors": ["src/dice_gen.rs: FastrandDice::roll", "src/rules.rs: legal_positions", "src/variants.rs: VariantPosition::game_state", "src/position.rs: generate_legal_positions"]}
{"id": "C88", "title": "Every game can be finished unless both sides are closed out", "statement": "From every unfinished well-formed position except those in which both players have a checker on the bar against six held points, there are rolls and entries of the lists legal_positions returns for them that lead to a position game_state reports as over; from the exceptions there are none. Played by chance (uniform rolls, uniform entries) the game ends with probability one from exactly the same positions, at a rate and with an expected number of turns bounded for each variant, and from the exceptions it never ends. In particular every game from a starting position can be finished at any time, and ends with probability one.", "quantifier": "every variant, every well-formed unfinished position, every game from the starting positions, debug and release builds", "why_tests_cant": "existence of a finishing line from every position, including blockades in which neither side can move for most rolls; limits of probabilities over all games", "anchors": ["src/position/mixed_moves.rs", "src/position/double_moves.rs", "src/rules.rs: legal_positions", "src/variants.rs: VariantPosition::game_state, start_position", "src/dice_gen.rs: FastrandDice::roll"]}
{"id": "C89", "title": "What the programs print can be relied on", "statement": "For every command line, build and elapsed time, bkgm-perft prints either its usage text (seven fixed lines which name every flag, every variant and the defaults, and these are the defaults) or exactly three lines of space-separated name=value fields: mode, variant, position id, dice or depth and weighting, iterations, the counts, the time, the average and the rate. Whole numbers are exact shortest decimals; time (6 digits), average (3 digits) and rates (2 digits) are always plain decimals, never inf or NaN, correctly rounded up to a relative error of 2^-48, rates counting at least a nanosecond. If fewer than 2^53 moves were generated the printed average is exactly the number of positions listed for the roll. Two runs that print the same text made the same report, and giving the printed variant, position id, dice/depth/weighting and iterations back on the command line reproduces the report. corpus-bench prints its two reports the same way, contact first.", "quantifier": "all command lines, builds, file contents and elapsed times (every Duration)", "why_tests_cant": "Times are arbitrary and counts unbounded (up to 2^128); no finite set of runs shows that no time makes a rate infinite or a field unreadable.", "anchors": ["src/bin/bkgm-perft.rs:usage,run_single_roll,run_perft,main", "src/bin/corpus-bench.rs:bench,main"]}
{"id": "C90", "title": "How long games last", "statement": "From the starting position a game can end after exactly n plies if and only if n is at least 17 in backgammon, 19 in nackgammon, 29 in longgammon and 3, 5, 7, 9 in hypergammon with 2, 3, 4, 5 checkers a side; if, as in play_episode, the first roll is not a double, 17, 19, 30, 4, 6, 8, 10. From any position the winner needs a turn for every four single moves his checkers need, one for every six points begun. So play_episode never reports a finished new game with fewer plies, whatever dice source and policy, and for every larger number there are dice and choices for which it reports exactly that number; and for every limit on the plies there are dice and choices for which the game is still going on when it is reached.", "quantifier": "all variants, all numbers of plies, all rolls and plays, all dice sources and policies, both builds", "why_tests_cant": "A test plays some games; that no game is shorter and that every greater length occurs is a statement about all of them.", "anchors": ["src/game.rs: Game::play_episode", "src/position.rs: legal_positions", "src/variants.rs: Variant::start_position"]}
{"id": "C91", "title": "NoHitRules lists everything or nothing", "statement": "After every listed play the same number of the mover's checkers is on the bar: those that no die of the roll enters. Therefore legal_positions_with::<NoHitRules> lists exactly what legal_positions lists, hits included, unless more checkers of the mover must stay on the bar than the opponent has there, and then it lists nothing, not even the passed turn. An episode under NoHitRules is the episode under ClassicRules with the same dice and policy, or it stops at the first such roll in the middle of the game and returns Ok with the number of plies so far.", "quantifier": "every variant, every well-formed unfinished position, every roll, every dice source and policy, both builds", "why_tests_cant": "The claim relates two complete lists for every position and roll, and whole episodes for every dice source.", "anchors": ["src/rules.rs: NoHitRules", "src/game.rs: Game::play_episode_with"]}
{"id": "C92", "title": "Who wins, and how", "statement": "Right after a play game_state, which speaks for the player to move, never reports a win: the game goes on, or the player to move has lost because the other one has just borne off the last checker. So the number of plies tells who won: if play_episode on a new game returns Ok(n) and the game is over, the player who began has won exactly when n is odd, and the turn flag shows the loser to move. In every variant, for either player, a single win, a gammon and a backgammon each do occur in episodes.", "quantifier": "every variant, every well-formed unfinished position, roll and listed play, all games from the start, all dice sources and policies, both builds", "why_tests_cant": "A test sees single games; the claim is about the end of every game, and about which ends are possible at all.", "anchors": ["src/position.rs: game_state", "src/game.rs: Game::play_episode", "src/position.rs: GameResult"]}
{"id": "C93", "title": "Command streams: what leaves a trace", "statement": "What a UBGI session answers to the lines read so far does not depend on the lines that follow. A line that only asks something (a blank line, ubgi, keys, get, go cube, go turn, an unsupported form of position, an unknown command) or that was refused without consulting the engine can be removed from the stream: every other line gets the same reply and the session ends in the same way. The same holds for dice that are replaced by other dice or by newgame before any go, and for a position that is replaced by another position, a variant or newgame before any go. A dice line may be exchanged with a neighbouring position, set or question line: only their replies change places.", "quantifier": "every engine, every stream of lines, every place in the stream, both builds", "why_tests_cant": "The claim compares the sessions of two streams, for all streams and all engines.", "anchors": ["src/ubgi/runtime.rs: run_ubgi_stdio", "src/ubgi/runtime.rs: handle_command", "src/ubgi/runtime.rs: handle_dice"]}
{"id": "C94", "title": "How many choices a turn offers", "statement": "With N checkers a side, legal_positions lists at least one and at most N(N+1) positions for a roll of two different dice and at most (N+3 choose 4) for a double (240 and 3060 with 15 checkers); the bounds are met with up to four checkers. The lists of NoHitRules and of legal_moves are no longer. So the number of lines of play perft counts is at most the depth-th power of the sum over the rolls, and perft's 128-bit count is exact in release builds, and never overflows in debug builds, up to depth 8 with 15 checkers and 12, 13, 14 and 16 with 5, 4, 3 and 2. The 64-bit totals of bkgm-perft with dice and of corpus-bench are exact up to 6*10^15 iterations and 2^49 positions.", "quantifier": "every well-formed position, roll, variant, depth and build", "why_tests_cant": "The largest list over all positions cannot be found by trying positions, and an overflow appears only at sizes no test reaches.", "anchors": ["src/rules.rs: legal_positions", "src/position/mixed_moves.rs", "src/position/double_moves.rs", "src/bin/bkgm-perft.rs: perft_all_rolls_n", "src/bin/corpus-bench.rs: run_once"]}
{"id": "C95", "title": "A race is two separate bear-offs", "statement": "In a race what legal_positions lists for a roll depends on the checkers of the side to move only: two races - of any two variants - in which the mover's checkers stand the same have, whatever the other side has on the board, lists of the same length and order, in which entry by entry the mover's checkers stand the same, the same number of them has been borne off and the other side's checkers stand where they stood. So with the same rolls and the same choices (places in the lists) a side that starts from the same checkers stands the same after any number of its turns, whatever the other side has, rolls and does in between: a bear-off database or race evaluator may treat each side alone.", "quantifier": "all pairs of race positions with the same mover's checkers, all variants, rolls, choices and turns of the other side, both builds", "why_tests_cant": "Quantifies over pairs of positions and whole games.", "anchors": ["src/rules.rs: legal_positions", "src/position/mixed_moves.rs: all_positions_after_mixed_move_into", "src/position/double_moves.rs: all_positions_after_double_move_into", "src/position.rs: phase"]}
{"id": "C96", "title": "What a debug build computes, a release build computes too", "statement": "For every function of the public API and for every input - positions with any 26 numbers in them, any texts, any dice, any seeds, any policies, any sequence of UBGI lines, any command line - if a debug build gives a value (it was not stopped by a panic), a release build gives the same value. So everything learnt in a debug build (a test that passed, a game that was replayed, an id that was decoded) holds in release; the two builds differ only where the debug build stops. For a UBGI session the release build writes everything the debug build wrote before it stopped, and a session that reaches its end in debug is the same session in release; the two programs print the same bytes for the same measured times. The converse does not hold: some inputs that a release build answers make a debug build panic.", "quantifier": "all inputs of every public function: numbers of checkers, boards, variants, dice, texts, generators and seeds, policies, engines, input lines, files, command lines", "why_tests_cant": "tests run in one build, on inputs that were chosen; that no input makes the two builds answer differently is a statement about all inputs and two programs at once", "anchors": ["src/position.rs", "src/position/*.rs", "src/codecs/*.rs", "src/game.rs", "src/dice.rs", "src/dice_gen.rs", "src/rules.rs", "src/ubgi/runtime.rs", "src/bin/bkgm-perft.rs", "src/bin/corpus-bench.rs", "benches/movegen_bench.rs"]}
{"id": "C97", "title": "All variants are one game, played with different numbers of checkers", "statement": "Take well-formed positions of two variants that show the same board (the checkers borne off may differ). For every roll legal_moves lists the same move texts in the same order, and they lead to the same boards; apply_move accepts exactly the same texts and leads to the same boards; encode_move writes the same text for the same move; and the game is over in both or in neither, in the same phase, won by the same side. If both have the same number of checkers the result is the same; otherwise the win counts once for the side with more checkers, some of the loser's being borne off already. GNUbg ID and XGID board are the same text for both, and one written in one variant can be read in every variant with at least as many checkers, the missing ones being taken as borne off. With the same dice, a policy that goes by the boards plays the same game in both.", "quantifier": "every pair of variants, all well-formed positions of them with the same board, all rolls and texts, both builds, all fair dice sources, all policies that decide by the boards, games of any length", "why_tests_cant": "tests compare single positions in single variants; that the variant never matters but for the number of checkers is a statement about all pairs of positions", "anchors": ["src/variants.rs", "src/codecs/move_text.rs", "src/codecs/gnuid.rs", "src/codecs/xgid.rs", "src/game.rs", "src/position.rs", "src/position/*.rs"]}
{"id": "C98", "title": "A UBGI session can be taken up where it stopped", "statement": "With an engine that is no more than its settings (its answers depend on its settings only, an accepted set changes the setting it names and nothing else, and which values it accepts does not depend on the other settings), a session can be restarted at any point with at most three lines more than the engine has options: one set line for every option that was set, with the value that was last accepted; the variant; the position, by any ID that stands for it, unless it is the start position; and the dice, if there are any. A newly started engine accepts each of these lines without a reply, and from then on every line gets exactly the reply it would have got in the old session, to the same end. Such a list of lines exists after every history.", "quantifier": "every engine that is its settings, every stream of lines and every place in it, every further stream, every choice of lines that describes the state, both builds", "why_tests_cant": "tests replay single sessions; that nothing but settings, variant, position and dice survives a line is a statement about all histories and all continuations", "anchors": ["src/ubgi/runtime.rs", "src/ubgi.rs", "src/codecs/gnuid.rs", "src/game.rs"]}
{"id": "C99", "title": "An episode can be cut anywhere, and its dice do not depend on the play", "statement": "Playing a plies and then b more, from the resulting game, dice and policy and with an opening roll that may be a double, is playing a+b plies; if the first part did not just run out of plies in an ongoing game it already is the whole episode (result, error or panic). An episode takes its rolls from the dice source one after the other, shows each to the policy once, in order, and has rolled at most one more (when the rules list nothing); so two episodes with the same dice source see the same rolls, ply by ply, whatever the games, variants, rules, policies and builds.", "quantifier": "all games, rule functions, policies, dice sources (also ones that panic), numbers of plies, both builds", "why_tests_cant": "Unbounded episodes; arbitrary policies, rules and dice sources.", "anchors": ["src/game.rs: play_episode_with", "src/dice_gen.rs: DiceGen"]}
