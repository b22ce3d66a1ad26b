# Formal model of bungogood/bkgm in Rocq (Coq 8.16.1)

## Approach

* `res A := Ret a | Panic k` (Base.v) makes every panic explicit. `mode := Debug | Release` selects
  the build profile: arithmetic overflow panics in Debug and wraps in Release, `debug_assert!` is
  checked in Debug only, array indexing out of bounds panics in both. Theorems hold for both modes
  unless they name one.
* Machine integers are `Z` (indices: `nat`) with an explicit range check or wrap at each operation
  that can leave the range.
* Strings are lists of Unicode scalar values, so theorems about texts range over all strings,
  not only ASCII.
* `Position<N>` is one record with `N` as a parameter of the functions that use it; the array of
  26 `i8` is a list, and array accesses are checked.
* The model follows the Rust code function by function; each definition cites file and lines, and
  says where it simplifies. (Line citations name the file; `codecs/`, `position/`, `ubgi/`, `bin/` are
  left out when the file name is unambiguous.)
* Properties are stated against separate specifications `Spec*.v`: the rules of backgammon as a
  relation on what the public accessors show, text formats as grammars, histories as inductive
  relations. Property theorems are in `Prop*.v` and are named after the property (`C01_...`); other
  files hold lemmas. Beside the theorems are `Example`s that meet their hypotheses.
* Functions passed in by users (policies, dice sources, UBGI engines, the file system) are
  universally quantified functions with state, so the theorems hold for all of them.

## Trusted base

1. Coq's kernel (8.16.1), and coqchk, which rechecks the compiled files.
2. Assumptions: `Assumptions.v` puts all property theorems in one tuple and prints its assumptions:
   *Closed under the global context*, so no axiom is used by any of them, except for C71 (`PropFloat.v`), C89 except `C89_repeat` (`PropPrinted.v`)
   and `C78_calls`, `C78_prefix`, `C78_equally_likely` (`PropSource.v`), which use Flocq's binary32 and binary64
   floats (`choose_index_f32`) and through them the axioms of the standard library's reals:
   `ClassicalDedekindReals.sig_not_dec`, `ClassicalDedekindReals.sig_forall_dec`,
   `FunctionalExtensionality.functional_extensionality_dep`, `Classical_Prop.classic`. coqchk
   also lists module fields of the standard library that are loaded with it: the seven names
   `Coq.ssr.ssrunder.Under_rel.*` (used by no theorem here) and `Coq.Reals.Rdefinitions.RbaseSymbolsImpl.*`,
   `RinvImpl.*` (fields of sealed modules, which have definitions).
3. That the model is the code: it was written by reading /repo; nothing was extracted or executed.
   Rust's semantics is taken as described above (left-to-right evaluation, checked indexing,
   overflow checks exactly in debug builds, `as` casts wrapping or, from float, not used), on a
   64-bit target (`usize` = 64 bits).
4. That the `Spec*.v` files say what the English says. They are short and meant to be read.

No axioms, functors, module types, plugins or disabled checks.

## What is modelled

| file of /repo/src | model file | notes |
|---|---|---|
| position.rs | Position, MoveGen, Utils (dbhash), PosDebug (Debug), Show (show) | all of the non-test code except `State::board`, which is `todo!()`, and the test-only helpers |
| position/mixed_moves.rs | MixedMoves | generator as the list of pushed positions |
| position/double_moves.rs | DoubleMoves | as above |
| position/conversion.rs | Conversion | hash maps as association lists in arbitrary order |
| dice.rs | Dice, DiceText | |
| dice_gen.rs | Dice, DiceSource, Float32 | the generator `fastrand` is an arbitrary stream of results in the requested ranges (Dice), and for `with_seed`/`seed` an arbitrary deterministic state machine with such results (DiceSource); `new` and `random_seed`, which read the operating system's entropy, are not modelled; f32 see C30/C71 |
| variants.rs | Variants | `panic!`/`expect` kept as panics |
| rules.rs | Rules | |
| game.rs | Game | |
| utils.rs | Utils | |
| codecs/gnuid.rs | Gnuid, Base64 | Base64 models the `base64` crate's STANDARD engine |
| codecs/xgid.rs | Xgid | |
| codecs/fibs.rs | Fibs | |
| codecs/move_text.rs | MoveText | HashMap/HashSet keyed by positions: only lookup is used, modelled by search with the derived equality |
| codecs/mod.rs | - | the trait `VariantCodec` only forwards to the functions above; `assert_roundtrip` is test code |
| engine_spec.rs | EngineSpec | BTreeMap as sorted association list |
| ubgi.rs | Ubgi | |
| ubgi/runtime.rs | Runtime | stdin as a list of lines, stdout as a list of lines; read errors end the session |
| bin/bkgm-perft.rs | Perft, Printed | the clock is an arbitrary `Duration`; everything printed on stdout is modelled |
| bin/corpus-bench.rs | Perft (`run_once`), Corpus, Printed | file system as an arbitrary function, the clock an arbitrary `Duration`; the first report is modelled only when the program also finishes the second |
| benches/movegen_bench.rs | Bench | random generator as an arbitrary function, fuel for the `while`; criterion and printing not modelled |
| Rust std (`str`, integer parsing/printing, `lines`) | Str, Err, Base, Corpus | the functions the code calls |

Not modelled: backgammon.rs, hypergammon.rs, bg_move.rs (not in lib.rs, so never compiled),
bearoff.rs (empty but for a comment), main.rs (`fn main() {}`, the rest is commented out),
`#[cfg(test)]` code, wall-clock times, memory exhaustion, and the derive macros' exact hash values
(C33 is about what is hashed).

Simplifications: an engine's `id_name`, `id_version`, `options` are values, they cannot panic;
byte lengths of strings (only the capacity hints use them); `Vec` capacity; the text of panic
messages (the kind of a panic is kept).

## What the model found

These are behaviours of the code that contradict what a user would expect; each is a theorem.

* A move list can repeat a position: two dice that bear off the last two checkers in either order
  (C04, C52).
* Arrays with more than 127 checkers a side wrap in release builds and pass validation; in debug builds
  they panic (C08, C59); the same through XGID (C12, C62) and FIBS texts (C15, C69).
* A GNU position ID with too many checkers panics in every build, one where both sides claim a point
  is accepted (C10, C60); one such line ends a UBGI session by a panic (C41, C61).
* FIBS texts of positions with o to move do not read back (C14, C70).
* `legal_moves` can list a text that `apply_move` refuses (C18, C65); `apply_move` and `encode_move` accept
  playing one die of a mixed roll although both can be played (C20, C21, C63, C64).
* `NoHitRules` compares the wrong bar: it keeps hits and can return an empty list (C26, C67).
* `dbhash` overflows for 15 checkers: debug builds panic on the starting position, release builds
  collide (C32, C66).
* `engine.engine.x` keys do not survive writing and reading (C35, C68).
* A UBGI integer option with one bound is unbounded (C36); an empty text default writes a key line that
  does not read back (C37).
* `set game.variant` keeps the dice of the former game, `newgame` clears them (C40).
* Move generation on a finished game panics in debug builds only (C49, C25).

## Testing the theorems

`seeded/LOG.jsonl` records edits of the model that imitate bugs, the claim each breaks, and the theorems
that then failed to check. Survivors led to tightened theorems (named in the log) or are explained as
equivalent programs.

## Testing the model

The code cannot be run here, but its authors' tests state what it computes. `RepoTests.v` runs them on the model:
every unit test of the compiled sources (all of position.rs with the 47 move counts of
`number_of_moves_for_various_positions_and_dice`, mixed_moves.rs, double_moves.rs with the order of the
lists, the codecs, dice, game, rules, UBGI, engine specs and utils), in both builds, with the expected values copied
from the Rust text. Only the statistical tests of `fastrand` are left out. The 2000 position IDs of
benches/resources were also decoded and encoded again with the model (not part of the build).

## Property by property

A property that the code violates is kept as it was stated: `_refuted` theorems give witnesses,
`_partial` theorems what holds of it, and a later property says exactly what the code does instead.

- **C01 Legal move generation is exactly the rules of backgammon** (proved). Model: Position, MixedMoves, DoubleMoves, MoveGen, Rules. Spec: SpecRules (single moves and full plays as relations; a play must be as long as possible, and use the larger die if only one can be played). Theorems in `PropMoves.v`: `C01_legal_positions_exact`, `C01_position_rules_exact`, `C01_game_legal_positions_exact`. How: membership in the returned list <-> reached by a legal play. Commutation of single moves, a chain lemma for mixed rolls, and for doubles a potential function that counts the moves that remain.
- **C02 Move generation never panics and never returns an empty list** (proved). Model: MoveGen, Rules. Spec: SpecRules.wf. Theorems in `PropMoves.v`: `C02_movegen_total`, `C02_movegen_position_total`, `C02_debug_release_agree`. How: in both builds the call equals `Ret l` with `l <> []`; follows the same case analysis as C01, carried out in the panic monad.
- **C03 Checkers are conserved and the turn passes** (proved). Model: MoveGen. Spec: SpecRules, SpecVariants. Theorems in `PropMoves.v`: `C03_conservation`. How: invariant `wf` of single moves, lifted through C01.
- **C04 Move lists contain no repeated position** (partial). Model: MoveGen. Spec: SpecLists. Theorems in `PropLists.v`: `C04_refuted`, `C04_nodup_partial`. How: refuted; `_partial` for doubles and positions with a checker on point 6 or further back; C52 is exact.
- **C05 Flipping sides is an involution that mirrors the board** (proved). Model: Position. Spec: SpecRules.mirror. Theorems in `PropPosition.v`: `C05_flip_mirror`, `C05_mirror_unique`, `C05_any_board`, `C05_lowest`. How: direct on the list model of the array.
- **C06 Game result classification** (proved). Model: Position, Variants. Spec: SpecGame. Theorems in `PropPosition.v`: `C06_game_state`, `C06_game_state_variant`, `C06_flip_reverses`, `C06_reverse`, `C06_default_agrees`, `C06_reachable`. How: decision table against a rule stated on the board; also for every reachable position.
- **C07 Phase classification and irrevocability of the race** (proved). Model: Position, Variants, MoveGen. Spec: SpecGame. Theorems in `PropPosition.v`: `C07_phase`, `C07_phase_agrees`, `C07_race_irrevocable`, `C07_race_no_hits`, `C07_game_answers`. How: `no contact` on the board; invariant over arbitrary sequences of legal plays.
- **C08 Building a position from a 26-array validates it** (partial). Model: Position. Spec: SpecGame. Theorems in `PropPosition.v`: `C08_refuted`, `C08_debug_panics_refuted`, `C08_try_from_partial`, `C08_try_from_debug_partial`, `C08_rebuild`. How: i8 sums with overflow; refuted in release builds, `_partial` under the no-overflow guard; C59 is exact.
- **C09 GNUbg position ID round trip** (proved). Model: Gnuid, Base64. Spec: SpecGnuid. Theorems in `PropGnuid.v`: `C09_round_trip`, `C09_exact`, `C09_injective`. How: bit lists; round trip by induction on the board, base64 by groups of bytes; the exact ID against RFC 4648 base64 stated bit by bit (Base64Facts).
- **C10 GNUbg position ID decoding is total and validating** (partial). Model: Gnuid, Base64. Spec: SpecGnuid. Theorems in `PropGnuid.v`: `C10_refuted`, `C10_overrun_refuted`, `C10_shared_point_refuted`, `C10_too_many_refuted`, `C10_malformed_partial`, `C10_shape_partial`, `C10_listed_partial`, `C10_accepted_partial`. How: refuted by three witnesses; `_partial`: refused texts, listed keys, accepted keys; C60 is exact.
- **C11 XGID board round trip** (proved). Model: Xgid. Spec: SpecXgid. Theorems in `PropXgid.v`: `C11_round_trip`, `C11_injective`. How: round trip through the 26-character board.
- **C12 XGID board decoding validates** (partial). Model: Xgid. Spec: SpecXgid. Theorems in `PropXgid.v`: `C12_refuted`, `C12_release_refuted`, `C12_malformed_partial`, `C12_validates_partial`, `C12_debug_partial`. How: refuted (256 checkers wrap); `_partial` under a guard; C62 is exact.
- **C13 Full XGID string round trip** (proved). Model: Xgid, Str. Spec: SpecXgid. Theorems in `PropXgid.v`: `C13_round_trip`, `C13_parse_exact`, `C13_parse_in_range`. How: round trip and exact parser through split/parse/format.
- **C14 FIBS board round trip** (partial). Model: Fibs. Spec: SpecFibs. Theorems in `PropFibs.v`: `C14_encode_says`, `C14_x_to_move_partial`, `C14_o_to_move_partial`, `C14_refuted`, `C14_injective`. How: refuted for o to move; `_partial` for each side; C70 is exact.
- **C15 FIBS decoding validates** (partial). Model: Fibs. Spec: SpecFibs. Theorems in `PropFibs.v`: `C15_refuted`, `C15_release_refuted`, `C15_panics_partial`, `C15_off_counts`, `C15_malformed_partial`, `C15_validates_partial`, `C15_debug_partial`. How: refuted; `_partial` under a guard; C69 is exact.
- **C16 Move-step text round trip** (proved). Model: MoveText. Spec: SpecMoveText. Theorems in `PropMoveText.v`: `C16_round_trip`, `C16_pass`, `C16_parse_exact`, `C16_injective`. How: induction over the step list.
- **C17 Move-text normalisation is canonical** (proved). Model: MoveText. Spec: SpecMoveText. Theorems in `PropMoveText.v`: `C17_normalize_exact`, `C17_canonical`, `C17_unambiguous`, `C17_case`, `C17_blanks`, `C17_marks`, `C17_chain`. How: for all strings: canonical form of what a text says.
- **C18 legal_moves lists every legal child with a text that plays to it** (partial). Model: MoveText. Spec: SpecMoveText, SpecRules. Theorems in `PropMoveText.v`: `C18_children_exact`, `C18_texts_apply_partial`, `C18_refuted`. How: children exact; text right under conditions (`_partial`), refuted in general; C65 is exact.
- **C19 encode_move works for every legal child** (proved). Model: MoveText. Spec: SpecMoveText, SpecRules. Theorems in `PropMoveText.v`: `C19_encode_legal`. How: completeness of the search `find_steps_for_target`.
- **C20 apply_move only accepts legal plays** (partial). Model: MoveText. Spec: SpecMoveText, SpecRules. Theorems in `PropMoveText.v`: `C20_total`, `C20_accepted_partial`, `C20_legal_partial`, `C20_accepts_legal`, `C20_refuted`. How: refuted for one-step texts of a mixed roll; C63 is exact.
- **C21 encode_move rejects unreachable targets** (partial). Model: MoveText. Spec: SpecMoveText, SpecRules. Theorems in `PropMoveText.v`: `C21_variant_mismatch`, `C21_accepted_exact_partial`, `C21_doubles_partial`, `C21_refuted`. How: refuted likewise; C64 is exact.
- **C22 Single-checker moves follow the rules** (proved). Model: Position. Spec: SpecRules.single. Theorems in `PropMoves.v`: `C22_single_move`. How: `try_move_single_checker` against the single-move relation.
- **C23 Reachable games stay consistent** (proved). Model: Game, Variants. Spec: SpecEpisode. Theorems in `PropGame.v`: `C23_reachable_consistent`, `C23_variant_fixed`. How: invariant over arbitrary histories of API calls.
- **C24 apply_nth_legal_position is exact and atomic** (proved). Model: Game. Spec: SpecEpisode. Theorems in `PropGame.v`: `C24_apply_nth`, `C24_apply_nth_classic`, `C24_set_position`. How: direct, for an arbitrary index and rule set.
- **C25 Episodes are legal games** (proved). Model: Game, Rules, Dice. Spec: SpecEpisode. Theorems in `PropGame.v`, `PropFinished.v`: `C25_finished_release`, `C25_episode`, `C25_episode_any_rules`, `C25_episode_no_hit`, `C25_finished_game_panics`. How: induction over plies, for arbitrary policy and dice.
- **C26 NoHitRules never hits** (partial). Model: Rules. Spec: SpecGame. Theorems in `PropGame.v`: `C26_refuted`, `C26_empty_refuted`, `C26_no_hit_rules_partial`, `C26_keeps_hits_partial`. How: refuted; C67 is exact.
- **C27 Dice values are order-independent and validated** (proved). Model: Dice. Spec: SpecDice. Theorems in `PropDice.v`: `C27_new`, `C27_new_any`, `C27_shows_values`, `C27_try_from`. How: direct.
- **C28 Roll tables are complete and correctly weighted** (proved). Model: Dice. Spec: SpecDice. Theorems in `PropDice.v`: `C28_all_21`, `C28_weights`, `C28_all_441`, `C28_singles`, `C28_doubles`. How: the tables are finite constants of the code; the theorems say what every entry is and that every roll occurs with its weight.
- **C29 Random dice are exactly uniform given a uniform generator** (proved). Model: Dice. Spec: SpecDice. Theorems in `PropDice.v`: `C29_roll_uniform`, `C29_roll_mixed_uniform`. How: counts the preimages of every roll under the uniform generator (finite domain, the whole of it).
- **C30 choose_index returns a valid index** (proved). Model: Dice. Spec: -. Theorems in `PropDice.v`: `C30_choose_index`, `C30_choose_first`, `C30_empty`. How: floats are an arbitrary type with arbitrary operations, so the theorem holds for f32 in particular; C71 uses real f32.
- **C31 Combinatorial helpers** (proved). Model: Utils. Spec: SpecComb. Theorems in `PropHash.v`: `C31_comb`, `C31_mcomb`, `C31_edges`. How: induction; usize overflow explicit.
- **C32 dbhash is a perfect hash** (partial). Model: Utils. Spec: SpecComb. Theorems in `PropHash.v`: `C32_perfect_hash_partial`, `C32_hypergammon_partial`, `C32_collision_refuted`, `C32_start_overflow_refuted`, `C32_refuted`. How: refuted for 15 checkers (overflow); proved for N <= 12; C66 is exact.
- **C33 Position equality and hashing agree** (proved). Model: Position, Variants. Spec: -. Theorems in `PropIdentity.v`: `C33_text_behaviour`, `C33_board_behaviour`, `C33_no_hit`, `C33_episode`, `C33_same_rules`, `C33_eq_iff`, `C33_equivalence`, `C33_hash`, `C33_same_behaviour`, `C33_variant_behaviour`. How: direct, plus: equal values behave equally in every modelled function.
- **C34 Variant names and start positions** (proved). Model: Variants, Str. Spec: SpecVariants, SpecText. Theorems in `PropIdentity.v`: `C34_parse`, `C34_blanks`, `C34_display_roundtrip`, `C34_names_distinct`, `C34_all_variants`, `C34_names`, `C34_setup`, `C34_start`. How: string lemmas; start positions are constants.
- **C35 Engine spec text round trip** (partial). Model: EngineSpec. Spec: SpecEngine. Theorems in `PropEngine.v`: `C35_round_trip_iff_partial`, `C35_alias_version`, `C35_refuted`. How: refuted; exact condition in `_partial`; C68 is exact.
- **C36 UBGI option values are validated** (proved). Model: Ubgi. Spec: SpecUbgi. Theorems in `PropUbgi.v`: `C36_accepts_exactly`, `C36_wire_round_trip`, `C36_default_round_trip`, `C36_default`, `C36_single_bound_ignored`, `C36_wire_injective`. How: exact acceptance for all strings and option declarations.
- **C37 UBGI key lines describe the option** (proved). Model: Ubgi. Spec: SpecUbgi. Theorems in `PropUbgi.v`: `C37_key_line_round_trip`, `C37_empty_default`, `C37_constructors`, `C37_minor`. How: round trip under a guard on blanks, with the case that fails stated.
- **C38 UBGI session keeps variant and game in step** (proved). Model: Runtime. Spec: SpecUbgi. Theorems in `PropUbgi.v`: `C38_in_step`, `C38_unique`, `C38_error_keeps_session`, `C38_who_changes`. How: invariant over all command histories with an arbitrary engine.
- **C39 UBGI get returns what was set** (proved). Model: Runtime. Spec: SpecUbgi. Theorems in `PropUbgi.v`: `C39_get_declared`, `C39_value_unique`, `C39_get_variant`, `C39_get_other`, `C39_set`. How: invariant over all command histories with an arbitrary engine.
- **C40 UBGI go requires dice and passes the current ones** (proved). Model: Runtime. Spec: SpecUbgi. Theorems in `PropUbgi.v`: `C40_go`, `C40_dice`, `C40_dice_after`. How: invariant over all command histories with an arbitrary engine.
- **C41 UBGI session never crashes on input** (partial). Model: Runtime. Spec: SpecUbgi. Theorems in `PropUbgi.v`: `C41_step_partial`, `C41_session_partial`, `C41_safe_ids_partial`, `C41_refuted`. How: refuted (a position ID panics the decoder); `_partial`; C61 is exact.
- **C42 UBGI replies and termination** (proved). Model: Runtime. Spec: SpecUbgi. Theorems in `PropUbgi.v`: `C42_reads`, `C42_reads_once`, `C42_replies`. How: induction over the input lines.
- **C43 Pip count accounting** (proved). Model: Position, MoveGen. Spec: SpecRules. Theorems in `PropMoves.v`: `C43_single_move_pips`, `C43_play_pips`, `C43_held_points_safe`. How: pip arithmetic of single moves lifted to plays.
- **C44 Mock dice are served in order** (proved). Model: Dice. Spec: SpecDice. Theorems in `PropDice.v`: `C44_mock`, `C44_mock_rolls`. How: induction over calls.
- **C45 Perft counts plays** (proved). Model: Perft. Spec: SpecPerft. Theorems in `PropPerft.v`: `C45_count_unique`, `C45_release`, `C45_debug`, `C45_builds_agree`, `C45_depth_1`. How: induction over the depth, u128 overflow explicit.
- **C46 Debug rendering identifies the position** (proved). Model: PosDebug. Spec: SpecText. Theorems in `PropIdentity.v`: `C46_debug_text`. How: injectivity of the rendered text.
- **C47 Engine spec texts mean what they say** (proved). Model: EngineSpec. Spec: SpecEngine. Theorems in `PropEngine.v`: `C47_parse_exact`, `C47_get_last`. How: for all strings: what is parsed is what the grammar says.
- **C48 bkgm-perft command line** (proved). Model: Perft. Spec: SpecPerft. Theorems in `PropPerft.v`: `C48_report`, `C48_help`. How: for all argument lists.
- **C49 Move lists of finished games** (proved). Model: MoveGen. Spec: SpecRules, SpecGame. Theorems in `PropPerft.v`, `PropFinished.v`: `C49_release_variants`, `C49_stays_finished`, `C49_apply_nth`, `C49_release_any_position`, `C49_debug_panics_iff_over`. How: generation on finished games, both builds.
- **C50 Corpus benchmark counts listed positions** (proved). Model: Perft (run_once). Spec: SpecPerft. Theorems in `PropPerft.v`: `C50_run_once`. How: induction over the corpus.
- **C51 Positions from maps of checkers** (proved). Model: Conversion. Spec: SpecConversion, SpecMaps. Theorems in `PropConversion.v`, `PropMaps.v`: `C51_order_irrelevant`, `C51_from_hash_maps`, `C51_shared_point_debug`, `C51_bad_key`, `C51_exact_release`, `C51_exact_debug`, `C51_macro`, `C51_macro_order`. How: for all maps and all iteration orders.
- **C52 Which move lists repeat a position** (proved). Model: MoveGen. Spec: SpecLists. Theorems in `PropLists.v`: `C52_positions`, `C52_variants`, `C52_number_of_results`. How: exactly the double bear-off lists repeat, exactly one entry, exactly twice.
- **C53 Board drawing** (proved). Model: Show. Spec: SpecShow. Theorems in `PropShow.v`: `C53_drawing`, `C53_frame`, `C53_identifies`. How: every cell of the drawing; the drawing identifies the board under the stated bound.
- **C54 Printed dice** (proved). Model: DiceText. Spec: SpecDice. Theorems in `PropTexts.v`: `C54_display`, `C54_identifies`. How: direct.
- **C55 Engine moves survive the wire** (proved). Model: Ubgi. Spec: SpecUbgi. Theorems in `PropTexts.v`: `C55_parse_exact`, `C55_error`, `C55_bestmove`. How: parse_ubgi_move exact; bestmove text parses back.
- **C56 Key line grammar** (proved). Model: Ubgi. Spec: SpecKeyLine. Theorems in `PropTexts.v`: `C56_exact`. How: the key line against an independent grammar.
- **C57 Replies of a UBGI session** (proved). Model: Runtime. Spec: SpecUbgi. Theorems in `PropReplies.v`: `C57_isready`, `C57_newgame`, `C57_set_variant`, `C57_set_variant_nothing`, `C57_gnubgid`, `C57_position_other`, `C57_cube`. How: the reply to each command in every state.
- **C58 Corpus benchmark command line and files** (proved). Model: Corpus. Spec: SpecCorpus. Theorems in `PropCorpus.v`: `C58_lines_unique`, `C58_reports`, `C58_invalid_id`. How: for all file systems and argument lists.
- **C59 What building a position from 26 numbers does on every array** (proved). Model: Position. Spec: SpecExact. Theorems in `PropExact.v`: `C59_release`, `C59_debug_panics`. How: every array: release result, debug panic condition (running i8 sums).
- **C60 What decoding a position ID does on every text** (proved). Model: Gnuid, Base64. Spec: SpecExact. Theorems in `PropExact.v`: `C60_exact`, `C60_lists_unique`. How: every text and both builds.
- **C61 Which lines crash a UBGI session** (proved). Model: Runtime. Spec: SpecExact. Theorems in `PropExact.v`: `C61_decoder`, `C61_step`, `C61_session`, `C61_crashes`. How: exactly the IDs that crash a step or a session.
- **C62 What decoding an XGID board does on every text** (proved). Model: Xgid. Spec: SpecExact. Theorems in `PropExact.v`: `C62_exact`. How: every text and both builds.
- **C63 Exactly which texts apply_move accepts** (proved). Model: MoveText. Spec: SpecMoveText, SpecRules. Theorems in `PropApply.v`: `C63_accepts_exactly`, `C63_otherwise_none`, `C63_only_meaning_counts`. How: acceptance as an equivalence with plays under the rules, plus the one extra case the code admits.
- **C64 Exactly which boards encode_move accepts and what its text says** (proved). Model: MoveText. Spec: SpecMoveText, SpecRules. Theorems in `PropListing.v`: `C64_accepts_exactly`, `C64_text`. How: acceptance as an equivalence; the text that is returned.
- **C65 Exactly which listed move texts are right** (proved). Model: MoveText. Spec: SpecMoveText, SpecRules. Theorems in `PropListing.v`: `C65_positions`, `C65_doubles`, `C65_text_right_iff`, `C65_text_says`, `C65_decidable`. How: when the listed text is right, and what it says otherwise.
- **C66 What the perfect hash is** (proved). Model: Utils. Spec: SpecHash. Theorems in `PropHashExact.v`: `C66_hash_exact`, `C66_numberings`. How: the hash as an explicit number, modulo 2^64 in release builds; numberings injective and onto an interval.
- **C67 What NoHitRules keeps** (proved). Model: Rules. Spec: SpecGame. Theorems in `PropExact2.v`: `C67_no_hit_exact`. How: exactly the kept positions.
- **C68 What writing and rereading an engine spec does** (proved). Model: EngineSpec. Spec: SpecExact2. Theorems in `PropExact2.v`: `C68_reread`, `C68_key_function`, `C68_round_trip_iff`. How: exactly what writing and rereading gives.
- **C69 What decoding a FIBS text does on every text** (proved). Model: Fibs. Spec: SpecExact2. Theorems in `PropExact2.v`: `C69_release`, `C69_debug`, `C69_malformed`. How: every text and both builds.
- **C70 What reading back a FIBS text of a position gives** (proved). Model: Fibs. Spec: SpecExact2. Theorems in `PropExact2.v`: `C70_read_back`, `C70_round_trip_iff`. How: exactly what reading back gives.
- **C71 Weighted choices are in proportion to the chances** (proved). Model: Float32, Dice. Spec: SpecChances. Theorems in `PropFloat.v`: `C71_proportional_to_computed_sum`, `C71_only_real_chances`, `C71_proportional`, `C71_otherwise_last`. How: f32 is Flocq's binary32; relative error bounds of quotient, product and sums; the draws are cut at the prefix sums by a monotone threshold. Rests on the standard library's real-number axioms.
- **C72 An engine that writes only the required methods** (proved). Model: EngineDefaults, Runtime. Spec: SpecUbgi. Theorems in `PropDefault.v`: `C72_minimal`, `C72_provided_set`, `C72_engine_errors`. How: an engine built from the provided methods is an instance of the session theorems; with the provided set the stored option values never change, by induction over the history.
- **C73 A game refereed over UBGI is a legal game and never stalls** (proved). Model: Runtime, Gnuid, MoveText, Rules. Spec: SpecPlay. Theorems in `PropPlay.v`: `C73_turn`, `C73_game`, `C73_first_engine`. How: one turn is computed from C09 (ID), the dice text, the engine's play and C63 (apply_move); induction over the rolls; legality does not depend on the turn flag; an engine made from legal_positions and encode_steps is shown to satisfy the hypothesis.
- **C74 A race ends** (proved). Model: MoveGen, Rules, Game. Spec: SpecRace, SpecGame. Theorems in `PropRace.v`: `C74_whole_roll`, `C74_race_bounded`, `C74_no_endless_race`, `C74_episode_ends`, `C74_no_hit_agrees`. How: in a race the rearmost checker can always move, so a maximal play is the whole roll; pips decrease; induction over the plies; C25 for episodes, C67 for NoHitRules.
- **C75 How short a game can be** (proved). Model: MoveGen, Rules, Variants. Spec: SpecRace, SpecGame. Theorems in `PropLength.v`: `C75_pips_left`, `C75_winner_needs`, `C75_shortest_games`, `C75_episode`. How: C43's accounting, induction over the plies; pip counts of the start positions by computation.
- **C76 Games do not get stuck** (proved). Model: MoveGen, Rules, Variants. Spec: SpecDeadlock. Theorems in `PropDeadlock.v`: `C76_deadlock_exact`, `C76_deadlock_lasts`, `C76_never_closed_out`, `C76_never_stuck`. How: case analysis of who is on the bar; invariant of play: if both are on the bar, one of them has a checker in the home board it has to enter.
- **C77 What the movegen benchmark measures** (proved). Model: Bench, Perft. Spec: SpecBench. Theorems in `PropBench.v`: `C77_samples`, `C77_release_no_panic`, `C77_contact_is_first_play`, `C77_count`, `C77_debug_can_panic`. How: invariant of the sampling loop over arbitrary random numbers, finished games stay finished (C49); first plays by computation over the 21 rolls.
- **C78 The seeded dice: one draw a call, and rolls as likely as with real dice** (proved). Model: DiceSource, Dice, Float32. Spec: SpecSource, SpecDice. Theorems in `PropSource.v`: `C78_fair`, `C78_calls`, `C78_prefix`, `C78_seed`, `C78_equally_likely`. How: case analysis per call (C29, C30), induction over the calls; counting of draw sequences by induction with the counts of C29.
- **C79 Every game can be replayed with prepared dice** (proved). Model: DiceSource, Game, Rules. Spec: SpecReplay, SpecGame, SpecEpisode. Theorems in `PropReplay.v`: `C79_replay`, `C79_opening_doubles`, `C79_runs_out`, `C79_every_episode`. How: one loop iteration is computed (C01: the recorded position is listed; equality and turn determine it); induction over the record; C25 gives the record of an episode.
- **C80 The texts that are written, exactly** (proved). Model: Xgid, Fibs, MoveText, EngineSpec, Ubgi. Spec: SpecWritten. Theorems in `PropWritten.v`: `C80_xgid`, `C80_fibs`, `C80_moves`, `C80_key_lines`, `C80_values`, `C80_engine_spec`, `C80_engine_spec_parsed`. How: shortest decimal forms are unique (WrittenFacts); each formatter equals a relational layout, both directions.
- **C81 Rewriting and converting position texts** (proved). Model: Gnuid, Xgid, Fibs. Spec: SpecGnuid, SpecXgid. Theorems in `PropReformat.v`: `C81_xgid`, `C81_xgid_debug`, `C81_gnuid`, `C81_formats_agree`, `C81_convert`. How: from the exact decoders (C60, C62), the exact IDs (C09) and uniqueness of listed checkers.
- **C82 What a turn can and cannot change** (proved). Model: MoveGen, Rules, Variants. Spec: SpecLaws. Theorems in `PropLaws.v`: `C82_opponent`, `C82_forward`, `C82_bearing_off`, `C82_bar_first`, `C82_pass_exact`, `C82_closed_out`. How: C01 gives a sequence of single moves; a bundle of laws (bar, hits, bearing off, checkers behind each point) is an invariant of the sequence, by induction.
- **C83 A host can follow the session's output** (proved). Model: Runtime, Ubgi, MoveText. Spec: SpecOutput. Theorems in `PropOutput.v`: `C83_single_lines`, `C83_read_back`, `C83_answers`, `C83_kinds`. How: invariant over the session: the stored values and options are single lines; case analysis of the commands; written lines are uniquely readable by induction.
- **C84 Errors say what is wrong** (proved). Model: Xgid, Gnuid, Fibs, EngineSpec, Ubgi, ErrorText. Spec: SpecErrors. Theorems in `PropErrors.v`: `C84_xgid`, `C84_xgid_board`, `C84_gnuid`, `C84_fibs`, `C84_fibs_debug`, `C84_engine`, `C84_option_value`, `C84_xgid_message`, `C84_fibs_message`, `C84_gnuid_message`, `C84_engine_message`, `C84_other_messages`. How: the XGID reader is walked field by field against the first-bad-field specification, which is functional; the FIBS reader likewise, with the point loop by induction; base64 shape by strong induction; engine specs from the unique cut of the text.
- **C85 Move lists depend on the board only** (proved). Model: MixedMoves, DoubleMoves, MoveGen, Rules. Spec: SpecBoard. Theorems in `PropBoard.v`: `C85_same_board`, `C85_same_panic`, `C85_variants`, `C85_no_hit`. How: a relational invariant (agreement of two computations as far as pips show) carried through every function of the generator in release mode (BoardFacts); debug = release where C02 holds; off counts from well-formedness.
- **C86 Games with few checkers can always be finished** (proved). Model: MixedMoves, DoubleMoves, MoveGen, Variants, Rules. Spec: SpecFinish. Theorems in `PropFinish.v`: `C86_few_checkers`, `C86_hypergammon`, `C86_bound_needed`. How: pigeonhole lemmas (at most four occupied points leave a quiet roll) and a lexicographic measure: checkers left, pips of the side with few checkers, pips of the other side; C01 turns legal plays into list entries; C76 gives the counterexample with more checkers.
- **C87 Games played by chance end with probability one** (proved). Model: Dice, Variants, Rules, MoveGen. Spec: SpecLuck. Theorems in `PropLuck.v`: `C87_probability`, `C87_exact`, `C87_few_checkers`, `C87_hypergammon`, `C87_closed_out`. How: probabilities as rationals computed by the model itself; finite random walks (LuckFacts): the sets of positions that can be finished within n turns grow and become constant, so one number of turns and one bound below one serve for all positions, and the probabilities decrease geometrically; C86 supplies the finishing lines, C29 the fair roll.
- **C88 Every game can be finished unless both sides are closed out** (proved). Model: MixedMoves, DoubleMoves, MoveGen, Dice, Variants, Rules. Spec: SpecFinish, SpecLuck, SpecDeadlock. Theorems in `PropEnd.v`: `C88_exact`, `C88_chance`, `C88_rate`, `C88_from_start`, `C88_small`. How: strategy proof (EndFacts, EndFacts2, EndFacts3). Even doubles decrease a weighted pip count of both sides (even points of each side weigh 101 times), so play reaches the end or a position in which both sides are on the bar against 2-4-6; a side that can enter then brings its checkers home while the other one passes with 2-2, and bears off; if it is blocked behind a prime it breaks its six point with 4-4 until the other side can be freed and frozen with 6-6 instead. C87's finite random walks turn this into probability one.
- **C89 What the programs print can be relied on** (proved). Model: Printed.v, Perft.v, Corpus.v. Spec: SpecPrinted.v, SpecPerft.v, SpecCorpus.v. Theorems in `PropPrinted.v (PrintedFacts.v).v`: `C89_report`, `C89_readable`, `C89_repeat`, `C89_average`, `C89_usage`, `C89_usage_text`, `C89_defaults`, `C89_corpus`. How: f64 arithmetic is Flocq's binary64 (round to nearest even) and Duration a pair of integers; every operation is bounded by (1+2^-52)^k relative error with no overflow or underflow in the ranges that occur, {:.k} is the exact value rounded half to even; the layout is read back word by word and the printed fields are fed to the command line theorem of C48
- **C90 How long games last** (proved). Model: MoveGen, Variants, Game, DiceSource. Spec: SpecHowLong.v (moves needed, fewest plies, games of n plies). Theorems in `PropHowLong.v`: `C90_winner_needs`, `C90_lengths`, `C90_opened_lengths`, `C90_no_longest`, `C90_episodes`, `C90_cut_short`. How: lower bound: a single move lowers the number of single moves needed by at most one, so a play by at most four (opening roll: two), and hits only raise the opponent's; upper bound: witness games (HowLongData.v) as rolls and list indices, checked by evaluating the model, one of which passes a position that two plies (both sides enter with 5-5 hitting and run to the other's entry point) lead back to, so all greater lengths follow; episodes through C79
- **C91 NoHitRules lists everything or nothing** (proved). Model: Rules.v, MixedMoves.v, DoubleMoves.v, Game.v. Spec: SpecNoHit.v (entering dice, what must stay on the bar). Theorems in `PropNoHit.v`: `C91_bar_forced`, `C91_all_or_nothing`, `C91_off_the_bar`, `C91_episode`. How: a single move takes one checker off the bar if there is one and never changes which entry points are open; by maximality of legal plays as many as possible enter, so the filter of C67 keeps all entries or none; the episode loop by induction
- **C92 Who wins, and how** (proved). Model: Position.v, Game.v, DiceSource.v. Spec: SpecReplay.v, SpecGame.v. Theorems in `PropResults.v`: `C92_mover_wins`, `C92_who_won`, `C92_episode`, `C92_all_results`. How: the side that wins has just moved (induction over plays), outcome of C06; the six kinds of end per variant by witness games (ResultsData.v) checked by evaluating the model and replayed with C79
- **C93 Command streams: what leaves a trace** (proved). Model: Runtime.v. Spec: SpecStream.v (questions, refused lines, replaced dice and positions). Theorems in `PropStream.v`: `C93_causal`, `C93_left_out`, `C93_dice_replaced`, `C93_position_replaced`, `C93_order`. How: a stream is split at the line in question (loop_walk); questions and refusals leave engine and session as they are; for the replaced settings a simulation between sessions that differ in the dice (position) only, kept by every line but go
- **C94 How many choices a turn offers** (proved). Model: MixedMoves.v, DoubleMoves.v, Rules.v, MoveText.v, Perft.v. Spec: SpecCount.v (the bounds, the safe depths). Theorems in `PropCount.v`: `C94_positions`, `C94_variants`, `C94_without_hitting`, `C94_move_texts`, `C94_met`, `C94_lines`, `C94_perft_exact`, `C94_safe_depths`, `C94_single_roll`, `C94_corpus`. How: the loops visit source points from high to low (doubles) or in pairs; a second source is not above the first, and the number of checkers at or below it strictly increases with the point, so each loop is bounded by a sum 1+2+...+N (CountFacts.v); lists without repetition (C52) are bounded by the loops; lines by induction on the depth
- **C95 A race is two separate bear-offs** (proved). Model: MixedMoves.v, DoubleMoves.v, Rules.v. Spec: SpecSplit.v (mine, theirs, turns). Theorems in `PropSplit.v`: `C95_own_checkers_only`, `C95_two_bear_offs`. How: two races with the same mover's checkers are the same array up to the rearmost of them, followed by different arrays without mover's checkers; every generator function reads and writes only the first part, or tests for mover's checkers, so a simulation goes through it (SplitFacts.v); the other side's checkers by induction over plays in a race
- **C96 What a debug build computes, a release build computes too** (proved). Model: BuildFacts.v over all model files. Spec: SpecBuilds.v. Theorems in `PropBuilds.v.v`: `C96_positions`, `C96_moves`, `C96_texts`, `C96_dice`, `C96_games`, `C96_session`, `C96_programs`, `C96_output`, `C96_builders`, `C96_not_conversely`. How: A relation `refines a b` (if a returns y then b returns y) is a congruence for every control construct of the model (bind, ?, loops, folds, searches); the arithmetic and debug_assert leaves satisfy it; the functions follow by structure, the recursive ones by induction, the session by induction on its input. The converse is refuted by two witnesses.
- **C97 All variants are one game, played with different numbers of checkers** (proved). Model: Variants.v, Rules.v, MoveText.v, Gnuid.v, Xgid.v, Game.v. Spec: SpecArmies.v (alike, counts_once, sees_boards). Theorems in `PropArmies.v`: `C97_move_texts`, `C97_apply`, `C97_encode`, `C97_state`, `C97_phase`, `C97_same_ids`, `C97_ids_carry_over`, `C97_games`. How: Two positions with the same array and different totals are related by al N M (ArmyFacts.v); the generator never reads the borne-off counts (C85), so its lists are related pointwise; texts are written from arrays only; game over by the outcome specification of C06; games by induction on the plies.
- **C98 A UBGI session can be taken up where it stopped** (proved). Model: Runtime.v, Ubgi.v, Gnuid.v. Spec: SpecResume.v (engines that are their settings, the lines that describe a state). Theorems in `PropResume.v`: `C98_resume`, `C98_script`. How: Simulation: two sessions that agree in variant, game, dice, specs and option values (up to shadowed bindings), with engines of the same settings, answer every line alike (twin_step). A trace lemma reads settings and option values off the history; the lines of the script are executed one by one and lead to a twin.
- **C99 An episode can be cut anywhere, and its dice do not depend on the play** (proved). Model: Game.v (play_episode_with). Spec: SpecCut.v (rolls_in_a_row, watching, opened, cut_short). Theorems in `PropCut.v`: `C99_cut`, `C99_watching`, `C99_dice`, `C99_row_unique`, `C99_same_dice`. How: The loop with ply > 0 is the loop of an opened source up to the count (induction on the plies left); the loop with a larger bound equals the loop with the smaller one followed by the rest; a policy that records its dice shows that the rolls are a prefix of the unique row of rolls of the source. For arbitrary rules, policies and sources, so no well-formedness is needed.
