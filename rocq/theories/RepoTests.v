(** The unit tests of /repo, run on the model: every expected value the project's own tests state is what the model
    computes, in both builds.  These are examples, not properties: they check that the model is the code.  The tests
    of the randomness of fastrand (dice_gen.rs:138-213) are the only ones left out. *)
From Verif Require Import Base Dice Position MixedMoves DoubleMoves MoveGen Conversion PosDebug Str Gnuid Variants Rules Game Utils Xgid Fibs MoveText EngineSpec Ubgi SpecComb PropHash.
From Coq Require Import Strings.String.
Open Scope string_scope.
Open Scope list_scope.
Open Scope Z_scope.

(** [pos!(x ...; o ...)] as the tests write it. *)
Definition pos (xs os : list (nat * Z)) : position :=
  match pos_macro Debug (fun l => l) xs os with
  | Ret p => p
  | Panic _ => {| turn := true; pips := []; x_off := 0; o_off := 0 |}
  end.
(** [assert_eq!] on positions compares with [PartialEq]. *)
Definition same_list (a b : list position) : bool :=
  (List.length a =? List.length b)%nat && forallb (fun '(p, q) => position_eqb p q) (combine a b).
Definition gives (f : mode -> res (list position)) (want : list position) : bool :=
  forallb (fun m => match f m with Ret l => same_list l want | Panic _ => false end) [Debug; Release].
Definition gives_pos (f : mode -> res position) (want : position) : bool :=
  gives (fun m => p <- f m ;; Ret [p]) [want].
Definition is_val {A} (eqb : A -> A -> bool) (f : mode -> res A) (a : A) : bool :=
  forallb (fun m => match f m with Ret b => eqb b a | Panic _ => false end) [Debug; Release].


(** ** mixed_moves.rs *)

Example cannot_enter_with_two_checkers_on_bar (* mixed_moves.rs:218-226 *) :
  let p := (pos [(25%nat, 2); (10%nat, 2)] [(22%nat, 2); (20%nat, 2)]) in
  gives (fun m => all_positions_after_mixed_move m p 5 3) [p] = true.
Proof. vm_compute. reflexivity. Qed.

Example can_enter_bigger_die_with_two_on_the_bar (* mixed_moves.rs:229-237 *) :
  let p := (pos [(25%nat, 2); (10%nat, 2)] [(22%nat, 2)]) in
  let expected := (pos [(25%nat, 1); (20%nat, 1); (10%nat, 2)] [(22%nat, 2)]) in
  gives (fun m => all_positions_after_mixed_move m p 5 3) [expected] = true.
Proof. vm_compute. reflexivity. Qed.

Example can_enter_smaller_die_with_two_on_the_bar (* mixed_moves.rs:240-248 *) :
  let p := (pos [(25%nat, 2); (10%nat, 2)] [(22%nat, 1); (20%nat, 2)]) in
  let expected := (pos [(25%nat, 1); (22%nat, 1); (10%nat, 2)] [(20%nat, 2); (0%nat, 1)]) in
  gives (fun m => all_positions_after_mixed_move m p 5 3) [expected] = true.
Proof. vm_compute. reflexivity. Qed.

Example can_enter_both_with_three_on_the_bar (* mixed_moves.rs:251-259 *) :
  let p := (pos [(25%nat, 3); (10%nat, 2)] [(20%nat, 1)]) in
  let expected := (pos [(25%nat, 1); (22%nat, 1); (20%nat, 1); (10%nat, 2)] [(0%nat, 1)]) in
  gives (fun m => all_positions_after_mixed_move m p 5 3) [expected] = true.
Proof. vm_compute. reflexivity. Qed.

Example cannot_enter_with_one_checker_on_bar (* mixed_moves.rs:264-271 *) :
  let p := (pos [(25%nat, 1); (10%nat, 2)] [(22%nat, 2); (20%nat, 2)]) in
  gives (fun m => all_positions_after_mixed_move m p 5 3) [p] = true.
Proof. vm_compute. reflexivity. Qed.

Example can_enter_with_bigger_die_but_no_other_movement (* mixed_moves.rs:274-282 *) :
  let p := (pos [(25%nat, 1); (10%nat, 2)] [(22%nat, 2); (20%nat, 1); (17%nat, 2); (7%nat, 3)]) in
  let expected := (pos [(20%nat, 1); (10%nat, 2)] [(22%nat, 2); (17%nat, 2); (7%nat, 3); (0%nat, 1)]) in
  gives (fun m => all_positions_after_mixed_move m p 5 3) [expected] = true.
Proof. vm_compute. reflexivity. Qed.

Example can_enter_with_smaller_die_but_no_other_movement (* mixed_moves.rs:285-293 *) :
  let p := (pos [(25%nat, 1)] [(19%nat, 2); (14%nat, 2)]) in
  let expected := (pos [(20%nat, 1)] [(19%nat, 2); (14%nat, 2)]) in
  gives (fun m => all_positions_after_mixed_move m p 6 5) [expected] = true.
Proof. vm_compute. reflexivity. Qed.

Example could_enter_with_either_die_but_must_use_bigger_one (* mixed_moves.rs:296-304 *) :
  let p := (pos [(25%nat, 1)] [(20%nat, 2)]) in
  let expected := (pos [(22%nat, 1)] [(20%nat, 2)]) in
  gives (fun m => all_positions_after_mixed_move m p 3 2) [expected] = true.
Proof. vm_compute. reflexivity. Qed.

Example only_entering_with_smaller_die_allows_two_checkers_to_move (* mixed_moves.rs:307-315 *) :
  let p := (pos [(25%nat, 1); (12%nat, 1)] [(20%nat, 2); (10%nat, 2)]) in
  let expected := (pos [(23%nat, 1); (9%nat, 1)] [(20%nat, 2); (10%nat, 2)]) in
  gives (fun m => all_positions_after_mixed_move m p 3 2) [expected] = true.
Proof. vm_compute. reflexivity. Qed.

Example only_entering_with_bigger_die_allows_two_checkers_to_move (* mixed_moves.rs:318-326 *) :
  let p := (pos [(25%nat, 1); (12%nat, 1)] [(20%nat, 2); (9%nat, 2)]) in
  let expected := (pos [(22%nat, 1); (10%nat, 1)] [(20%nat, 2); (9%nat, 2)]) in
  gives (fun m => all_positions_after_mixed_move m p 3 2) [expected] = true.
Proof. vm_compute. reflexivity. Qed.

Example entering_with_either_die_allowed_but_only_one_final_position (* mixed_moves.rs:329-337 *) :
  let p := (pos [(25%nat, 1)] [(9%nat, 2)]) in
  let expected := (pos [(20%nat, 1)] [(9%nat, 2)]) in
  gives (fun m => all_positions_after_mixed_move m p 3 2) [expected] = true.
Proof. vm_compute. reflexivity. Qed.

Example final_position_but_different_move_because_die1_hits_opponent (* mixed_moves.rs:340-349 *) :
  let p := (pos [(25%nat, 1)] [(22%nat, 1)]) in
  let expected1 := (pos [(20%nat, 1)] [(0%nat, 1)]) in
  let expected2 := (pos [(20%nat, 1)] [(22%nat, 1)]) in
  gives (fun m => all_positions_after_mixed_move m p 3 2) [expected1; expected2] = true.
Proof. vm_compute. reflexivity. Qed.

Example final_position_but_different_move_because_die2_hits_opponent (* mixed_moves.rs:352-361 *) :
  let p := (pos [(25%nat, 1)] [(23%nat, 1)]) in
  let expected1 := (pos [(20%nat, 1)] [(23%nat, 1)]) in
  let expected2 := (pos [(20%nat, 1)] [(0%nat, 1)]) in
  gives (fun m => all_positions_after_mixed_move m p 3 2) [expected1; expected2] = true.
Proof. vm_compute. reflexivity. Qed.

Example cannot_user_either_die (* mixed_moves.rs:366-373 *) :
  let p := (pos [(10%nat, 2); (2%nat, 3)] [(8%nat, 2); (6%nat, 2)]) in
  gives (fun m => all_positions_after_mixed_move m p 4 2) [p] = true.
Proof. vm_compute. reflexivity. Qed.

Example forced_only_smaller_die (* mixed_moves.rs:376-384 *) :
  let p := (pos [(7%nat, 2)] [(2%nat, 2)]) in
  let expected := (pos [(7%nat, 1); (5%nat, 1)] [(2%nat, 2)]) in
  gives (fun m => all_positions_after_mixed_move m p 5 2) [expected] = true.
Proof. vm_compute. reflexivity. Qed.

Example forced_smaller_die_first_then_bear_off (* mixed_moves.rs:387-395 *) :
  let p := (pos [(8%nat, 1); (4%nat, 3)] [(1%nat, 2)]) in
  let expected := (pos [(5%nat, 1); (4%nat, 2)] [(1%nat, 2)]) in
  gives (fun m => all_positions_after_mixed_move m p 4 3) [expected] = true.
Proof. vm_compute. reflexivity. Qed.

Example bigger_die_cannot_move_initially (* mixed_moves.rs:398-406 *) :
  let p := (pos [(20%nat, 1)] [(16%nat, 3)]) in
  let expected := (pos [(13%nat, 1)] [(16%nat, 3)]) in
  gives (fun m => all_positions_after_mixed_move m p 4 3) [expected] = true.
Proof. vm_compute. reflexivity. Qed.

Example smaller_first_allows_bear_off (* mixed_moves.rs:409-419 *) :
  let p := (pos [(9%nat, 1); (5%nat, 1)] [(20%nat, 2)]) in
  let expected1 := (pos [(4%nat, 1); (2%nat, 1)] [(20%nat, 2)]) in
  let expected2 := (pos [(5%nat, 1); (1%nat, 1)] [(20%nat, 2)]) in
  let expected3 := (pos [(6%nat, 1)] [(20%nat, 2)]) in
  gives (fun m => all_positions_after_mixed_move m p 5 3) [expected2; expected3; expected1] = true.
Proof. vm_compute. reflexivity. Qed.

Example could_bear_off_but_could_do_other_moves_as_well (* mixed_moves.rs:422-438 *) :
  let p := (pos [(5%nat, 2); (4%nat, 3); (3%nat, 1)] [(20%nat, 1)]) in
  let expected1 := (pos [(4%nat, 3); (3%nat, 1); (2%nat, 1); (1%nat, 1)] [(20%nat, 1)]) in
  let expected2 := (pos [(5%nat, 1); (4%nat, 2); (3%nat, 1); (1%nat, 2)] [(20%nat, 1)]) in
  let expected3 := (pos [(5%nat, 1); (4%nat, 3); (1%nat, 1)] [(20%nat, 1)]) in
  let expected4 := (pos [(5%nat, 1); (4%nat, 2); (3%nat, 1); (2%nat, 1)] [(20%nat, 1)]) in
  let expected5 := (pos [(5%nat, 2); (4%nat, 1); (3%nat, 1); (1%nat, 1)] [(20%nat, 1)]) in
  let expected6 := (pos [(5%nat, 2); (4%nat, 2)] [(20%nat, 1)]) in
  gives (fun m => all_positions_after_mixed_move m p 4 3) [expected1; expected4; expected5; expected6; expected3; expected2] = true.
Proof. vm_compute. reflexivity. Qed.

Example only_one_move_if_order_is_not_important (* mixed_moves.rs:441-449 *) :
  let p := (pos [(20%nat, 1)] [(22%nat, 2)]) in
  let expected := (pos [(13%nat, 1)] [(22%nat, 2)]) in
  gives (fun m => all_positions_after_mixed_move m p 4 3) [expected] = true.
Proof. vm_compute. reflexivity. Qed.

Example only_one_move_in_home_board_if_order_is_not_important (* mixed_moves.rs:452-460 *) :
  let p := (pos [(5%nat, 1)] [(22%nat, 2)]) in
  let expected := (pos [(2%nat, 1)] [(22%nat, 2)]) in
  gives (fun m => all_positions_after_mixed_move m p 2 1) [expected] = true.
Proof. vm_compute. reflexivity. Qed.

Example two_moves_if_bigger_die_hits_opponent (* mixed_moves.rs:463-472 *) :
  let p := (pos [(10%nat, 1)] [(6%nat, 1)]) in
  let expected1 := (pos [(4%nat, 1)] [(0%nat, 1)]) in
  let expected2 := (pos [(4%nat, 1)] [(6%nat, 1)]) in
  gives (fun m => all_positions_after_mixed_move m p 4 2) [expected2; expected1] = true.
Proof. vm_compute. reflexivity. Qed.

Example two_moves_if_smaller_die_hits_opponent (* mixed_moves.rs:475-484 *) :
  let p := (pos [(5%nat, 1)] [(4%nat, 1)]) in
  let expected1 := (pos [(1%nat, 1)] [(4%nat, 1)]) in
  let expected2 := (pos [(1%nat, 1)] [(0%nat, 1)]) in
  gives (fun m => all_positions_after_mixed_move m p 3 1) [expected2; expected1] = true.
Proof. vm_compute. reflexivity. Qed.

Example two_bear_offs_from_same_pip (* mixed_moves.rs:487-495 *) :
  let p := (pos [(1%nat, 5)] [(24%nat, 8)]) in
  let expected := (pos [(1%nat, 3)] [(24%nat, 8)]) in
  gives (fun m => all_positions_after_mixed_move m p 6 4) [expected] = true.
Proof. vm_compute. reflexivity. Qed.

Example bear_off_from_same_pip_with_either_big_or_small_die (* mixed_moves.rs:498-507 *) :
  let p := (pos [(2%nat, 1); (1%nat, 5)] []) in
  let expected1 := (pos [(1%nat, 4)] []) in
  let expected2 := (pos [(1%nat, 5)] []) in
  gives (fun m => all_positions_after_mixed_move m p 6 1) [expected2; expected1] = true.
Proof. vm_compute. reflexivity. Qed.

Example use_smaller_die_from_bigger_pip_case_when_bigger_pip_in_last_quarter (* mixed_moves.rs:510-518 *) :
  let p := (pos [(7%nat, 1); (6%nat, 3)] [(2%nat, 2)]) in
  let expected := (pos [(6%nat, 2); (3%nat, 1); (1%nat, 1)] [(2%nat, 2)]) in
  gives (fun m => all_positions_after_mixed_move m p 5 4) [expected] = true.
Proof. vm_compute. reflexivity. Qed.

Example use_smaller_die_from_bigger_pip_case_when_bigger_in_first_quarter (* mixed_moves.rs:521-529 *) :
  let p := (pos [(24%nat, 1); (8%nat, 1); (6%nat, 5)] [(20%nat, 4); (19%nat, 3); (18%nat, 4); (16%nat, 2); (4%nat, 2)]) in
  let expected := (pos [(22%nat, 1); (6%nat, 5); (2%nat, 1)] [(20%nat, 4); (19%nat, 3); (18%nat, 4); (16%nat, 2); (4%nat, 2)]) in
  gives (fun m => all_positions_after_mixed_move m p 6 2) [expected] = true.
Proof. vm_compute. reflexivity. Qed.

Example bearoff_with_same_checker_after_moving_small_first (* mixed_moves.rs:532-540 *) :
  let p := (pos [(9%nat, 1); (5%nat, 3); (3%nat, 2)] [(24%nat, 10); (23%nat, 3); (1%nat, 2)]) in
  let expected := (pos [(5%nat, 3); (3%nat, 2)] [(24%nat, 10); (23%nat, 3); (1%nat, 2)]) in
  gives (fun m => all_positions_after_mixed_move m p 6 4) [expected] = true.
Proof. vm_compute. reflexivity. Qed.


(** ** double_moves.rs *)

Example cannot_enter_from_the_bar (* double_moves.rs:160-167 *) :
  let p := (pos [(25%nat, 4)] [(22%nat, 2)]) in
  gives (fun m => all_positions_after_double_move m p 3) [p] = true.
Proof. vm_compute. reflexivity. Qed.

Example enter_all_four_from_the_bar (* double_moves.rs:170-178 *) :
  let p := (pos [(25%nat, 4)] [(22%nat, 2); (20%nat, 2)]) in
  let expected := (pos [(21%nat, 4)] [(22%nat, 2); (20%nat, 2)]) in
  gives (fun m => all_positions_after_double_move m p 4) [expected] = true.
Proof. vm_compute. reflexivity. Qed.

Example enter_one_and_move_one_more_and_no_bearoff (* double_moves.rs:181-189 *) :
  let p := (pos [(25%nat, 1); (15%nat, 1); (10%nat, 1); (4%nat, 1)] [(22%nat, 2); (20%nat, 2); (17%nat, 3); (11%nat, 2); (6%nat, 1); (2%nat, 2)]) in
  let expected := (pos [(21%nat, 1); (15%nat, 1); (6%nat, 1); (4%nat, 1)] [(22%nat, 2); (20%nat, 2); (17%nat, 3); (11%nat, 2); (2%nat, 2); (0%nat, 1)]) in
  gives (fun m => all_positions_after_double_move m p 4) [expected] = true.
Proof. vm_compute. reflexivity. Qed.

Example enter_two_and_move_two_out_of_many (* double_moves.rs:192-202 *) :
  let p := (pos [(25%nat, 2); (4%nat, 1); (3%nat, 1)] [(24%nat, 2)]) in
  let expected1 := (pos [(19%nat, 2); (4%nat, 1); (3%nat, 1)] [(24%nat, 2)]) in
  let expected2 := (pos [(22%nat, 1); (16%nat, 1); (4%nat, 1); (3%nat, 1)] [(24%nat, 2)]) in
  let expected3 := (pos [(22%nat, 1); (19%nat, 1); (3%nat, 1); (1%nat, 1)] [(24%nat, 2)]) in
  gives (fun m => all_positions_after_double_move m p 3) [expected3; expected2; expected1] = true.
Proof. vm_compute. reflexivity. Qed.

Example bearoff_4_or_bearoff_less (* double_moves.rs:205-219 *) :
  let p := (pos [(4%nat, 1); (3%nat, 1); (2%nat, 4)] [(22%nat, 2)]) in
  let expected1 := (pos [(2%nat, 3); (1%nat, 1)] [(22%nat, 2)]) in
  let expected2 := (pos [(3%nat, 1); (2%nat, 2)] [(22%nat, 2)]) in
  let expected3 := (pos [(4%nat, 1); (2%nat, 1); (1%nat, 1)] [(22%nat, 2)]) in
  let expected4 := (pos [(4%nat, 1); (3%nat, 1)] [(22%nat, 2)]) in
  gives (fun m => all_positions_after_double_move m p 2) [expected4; expected3; expected2; expected1] = true.
Proof. vm_compute. reflexivity. Qed.

Example no_checkers_on_the_bar_but_would_hit_opponent_if_entering (* double_moves.rs:222-230 *) :
  let p := (pos [(10%nat, 4)] [(22%nat, 1); (4%nat, 2)]) in
  let expected := (pos [(7%nat, 4)] [(22%nat, 1); (4%nat, 2)]) in
  gives (fun m => all_positions_after_double_move m p 3) [expected] = true.
Proof. vm_compute. reflexivity. Qed.

Example hits_opponent_when_entering_and_cannot_move_afterwards (* double_moves.rs:233-241 *) :
  let p := (pos [(25%nat, 2)] [(22%nat, 1); (19%nat, 2)]) in
  let expected := (pos [(22%nat, 2)] [(19%nat, 2); (0%nat, 1)]) in
  gives (fun m => all_positions_after_double_move m p 3) [expected] = true.
Proof. vm_compute. reflexivity. Qed.

Example number_of_movable_checkers_when_completely_blocked (* double_moves.rs:249-256 *) :
  is_val Z.eqb (fun m => number_of_movable_checkers m (pos [(20%nat, 2)] [(16%nat, 2)]) 4 0) 0 = true.
Proof. vm_compute. reflexivity. Qed.

Example number_of_movable_checkers_when_many_moves_would_be_possible (* double_moves.rs:259-266 *) :
  is_val Z.eqb (fun m => number_of_movable_checkers m (pos [(20%nat, 2)] [(16%nat, 1)]) 4 0) 4 = true.
Proof. vm_compute. reflexivity. Qed.

Example number_of_movable_checkers_when_one_checker_was_entered_from_bar (* double_moves.rs:269-276 *) :
  is_val Z.eqb (fun m => number_of_movable_checkers m (pos [(20%nat, 2)] []) 4 1) 3 = true.
Proof. vm_compute. reflexivity. Qed.

Example number_of_movable_checkers_when_blocked_after_one_move (* double_moves.rs:279-286 *) :
  is_val Z.eqb (fun m => number_of_movable_checkers m (pos [(20%nat, 2)] [(12%nat, 2)]) 4 0) 2 = true.
Proof. vm_compute. reflexivity. Qed.

(** ** position.rs *)

Example test_x_off (* position.rs:582-587 *) :
  x_off (pos [(3%nat, 15)] [(1%nat, 1)]) = 0 /\
  x_off (pos [(3%nat, 10)] [(1%nat, 1)]) = 5.
Proof. vm_compute. repeat split. Qed.

Example test_o_off (* position.rs:590-595 *) :
  o_off (pos [(1%nat, 1)] [(3%nat, 15)]) = 0 /\
  o_off (pos [(1%nat, 1)] [(3%nat, 10)]) = 5.
Proof. vm_compute. repeat split. Qed.

(** [given.game_state()] and [given.flip().game_state()] (also the trait's default [game_state]). *)
Definition states (p : position) (a b : game_state_t) : Prop :=
  forall m, game_state m 15 p = Ret a /\ game_state_default m 15 p = Ret a /\
    (q <- flip m p ;; game_state m 15 q) = Ret b /\ (q <- flip m p ;; game_state_default m 15 q) = Ret b.
Definition phases (p : position) (a b : game_phase) : Prop :=
  forall m, phase m 15 p = Ret a /\ (q <- flip m p ;; phase m 15 q) = Ret b.

Example game_state_bg_when_on_bar (* position.rs:598-605 *) :
  states (pos [(25%nat, 1); (1%nat, 14)] []) (GameOver LoseBackgammon) (GameOver (reverse LoseBackgammon)).
Proof. intros []; vm_compute; repeat split. Qed.

Example game_state_bg_when_not_on_bar (* position.rs:608-615 *) :
  states (pos [(19%nat, 15)] []) (GameOver LoseBackgammon) (GameOver (reverse LoseBackgammon)).
Proof. intros []; vm_compute; repeat split. Qed.

Example game_state_gammon (* position.rs:618-622 *) :
  states (pos [(18%nat, 15)] []) (GameOver LoseGammon) (GameOver (reverse LoseGammon)).
Proof. intros []; vm_compute; repeat split. Qed.

Example game_state_ongoing (* position.rs:634-638 *) :
  states (pos [(19%nat, 14)] [(1%nat, 4)]) Ongoing Ongoing.
Proof. intros []; vm_compute; repeat split. Qed.

Example game_phase_win_or_lose_normal (* position.rs:641-645 *) :
  phases (pos [(1%nat, 1)] []) (PGameOver LoseNormal) (PGameOver WinNormal).
Proof. intros []; vm_compute; repeat split. Qed.

Example game_phase_win_or_lose_gammon (* position.rs:648-652 *) :
  phases (pos [(12%nat, 15)] []) (PGameOver LoseGammon) (PGameOver WinGammon).
Proof. intros []; vm_compute; repeat split. Qed.

Example game_phase_win_or_lose_bg (* position.rs:655-659 *) :
  phases (pos [(20%nat, 15)] []) (PGameOver LoseBackgammon) (PGameOver WinBackgammon).
Proof. intros []; vm_compute; repeat split. Qed.

Example game_phase_contact (* position.rs:662-665 *) :
  forall m, phase m 15 (pos [(12%nat, 1)] [(2%nat, 1)]) = Ret (POngoing Contact).
Proof. intros []; vm_compute; repeat split. Qed.

Example game_phase_contact_enclosing (* position.rs:668-674 *) :
  forall m, phase m 15 (pos [(12%nat, 1)] [(20%nat, 1); (2%nat, 1)]) = Ret (POngoing Contact) /\ phase m 15 (pos [(20%nat, 1); (2%nat, 1)] [(12%nat, 1)]) = Ret (POngoing Contact).
Proof. intros []; vm_compute; repeat split. Qed.

Example game_phase_contact_when_x_on_bar (* position.rs:677-680 *) :
  forall m, phase m 15 (pos [(25%nat, 1)] [(2%nat, 1)]) = Ret (POngoing Contact).
Proof. intros []; vm_compute; repeat split. Qed.

Example game_phase_contact_when_o_on_bar (* position.rs:683-686 *) :
  forall m, phase m 15 (pos [(1%nat, 1)] [(0%nat, 1)]) = Ret (POngoing Contact).
Proof. intros []; vm_compute; repeat split. Qed.

Example test_game_phase_race (* position.rs:689-692 *) :
  forall m, phase m 15 (pos [(1%nat, 1)] [(2%nat, 1)]) = Ret (POngoing Race).
Proof. intros []; vm_compute; repeat split. Qed.

Example all_positions_after_moving_double (* position.rs:695-705 *) :
  gives (fun m => d <- dice_new m 3 3 ;; generate_legal_positions m 15 (pos [(25%nat, 2); (4%nat, 1); (3%nat, 1)] [(24%nat, 2)]) d)
    [(pos [(1%nat, 2)] [(3%nat, 1); (6%nat, 1); (22%nat, 1); (24%nat, 1)]);
     (pos [(1%nat, 2)] [(3%nat, 1); (9%nat, 1); (21%nat, 1); (22%nat, 1)]);
     (pos [(1%nat, 2)] [(6%nat, 2); (21%nat, 1); (22%nat, 1)])] = true.
Proof. vm_compute. repeat split. Qed.

Example all_positions_after_moving_mixed (* position.rs:708-716 *) :
  gives (fun m => d <- dice_new m 2 3 ;; generate_legal_positions m 15 (pos [(25%nat, 1)] [(22%nat, 1)]) d)
    [(pos [(25%nat, 1)] [(5%nat, 1)]);
     (pos [(3%nat, 1)] [(5%nat, 1)])] = true.
Proof. vm_compute. repeat split. Qed.

(* position.rs:717-744: the two tests of the test-only helpers generate_legal_positions_len_in and
   for_each_legal_position_in compare them with generate_legal_positions, which the model identifies with them. *)

Example switch_sides (* position.rs:745-768 *) :
  forall m, flip m {| turn := true; pips := [2; 2; 1; 1; 1; 1; 1; 1; 1; 1; 1; 1; 1; 0; -2; 0; -2; 0; -2; 0; -2; 0; -2; 0; -2; 0]; x_off := 0; o_off := 3 |}
    = Ret {| turn := false; pips := [0; 2; 0; 2; 0; 2; 0; 2; 0; 2; 0; 2; 0; -1; -1; -1; -1; -1; -1; -1; -1; -1; -1; -1; -2; -2]; x_off := 3; o_off := 0 |}.
Proof. intros []; vm_compute; repeat split. Qed.

Example test_from (* position.rs:771-782 *) :
  (pos [(25%nat, 2); (3%nat, 2); (1%nat, 1)] [(24%nat, 5); (23%nat, 4); (22%nat, 6)]) = {| turn := true; pips := [0; 1; 0; 2; 0; 0; 0; 0; 0; 0; 0; 0; 0; 0; 0; 0; 0; 0; 0; 0; 0; 0; -6; -4; -5; 2]; x_off := 10; o_off := 0 |}.
Proof. vm_compute. repeat split. Qed.

Example try_from_legal (* position.rs:785-802 *) :
  forall m, exists p, try_from m 15 [-3; 0; 0; 0; 0; 0; 0; 0; 0; 0; 10; -11; 0; 0; 0; 0; 0; 0; 0; 0; 0; 0; 0; 0; 0; 2] = Ret (inr p) /\ pip p X_BAR = Ret 2 /\ pip p 10 = Ret 10 /\ x_off p = 3 /\
    pip p 11 = Ret (-11) /\ pip p O_BAR = Ret (-3) /\ o_off p = 1.
Proof. intros []; eexists; vm_compute; repeat split. Qed.

Example try_from_fails_too_many_x_checkers (* position.rs:805-818 *) :
  forall m, try_from m 15 [0; 0; 0; 0; 0; 0; 0; 0; 0; 0; 10; -10; 0; 0; 0; 0; 0; 0; 0; 0; 0; 0; 0; 0; 0; 10] = Ret (inl XTooMany).
Proof. intros []; vm_compute; repeat split. Qed.

Example try_from_fails_too_many_o_checkers (* position.rs:821-834 *) :
  forall m, try_from m 15 [-10; 0; 0; 0; 0; 0; 0; 0; 0; 0; 10; -10; 0; 0; 0; 0; 0; 0; 0; 0; 0; 0; 0; 0; 0; 0] = Ret (inl OTooMany).
Proof. intros []; vm_compute; repeat split. Qed.

Example try_from_fails_o_checker_on_x_bar (* position.rs:837-850 *) :
  forall m, try_from m 15 [0; 0; 0; 0; 0; 0; 0; 0; 0; 0; 1; -1; 0; 0; 0; 0; 0; 0; 0; 0; 0; 0; 0; 0; 0; -10] = Ret (inl XBarNegative).
Proof. intros []; vm_compute; repeat split. Qed.

Example try_from_fails_x_checker_on_o_bar (* position.rs:853-866 *) :
  forall m, try_from m 15 [10; 0; 0; 0; 0; 0; 0; 0; 0; 0; 1; -1; 0; 0; 0; 0; 0; 0; 0; 0; 0; 0; 0; 0; 0; 0] = Ret (inl OBarPositive).
Proof. intros []; vm_compute; repeat split. Qed.

Example test_debug (* position.rs:869-873 *) :
  forall m, debug_fmt m (pos [(25%nat, 2); (3%nat, 5); (1%nat, 1)] [(24%nat, 7); (23%nat, 4); (0%nat, 3)])
    = Ret (lit "Position:" ++ [10] ++ lit "x: {bar:2, 3:5, 1:1, off:7}" ++ [10] ++ lit "o: {off:1, 24:7, 23:4, bar:3}").
Proof. intros []; vm_compute; repeat split. Qed.

(** position.rs: [number_of_moves] of the test below. *)
Definition number_of_moves (m : mode) (p : position) (d : dice) : res nat :=
  all <- generate_legal_positions m 15 p d ;;
  match all with
  | [q] => q' <- flip m q ;; Ret (if position_eqb q' p then O else 1%nat)
  | _ => Ret (List.length all)
  end.
Definition moves_of (m : mode) (id : str) (a b : nat) : res nat :=
  d <- dice_new m a b ;;
  r <- gnuid_decode_position m 15 id ;;
  match r with inl _ => Panic Unwrapped | inr p => number_of_moves m p d end.
(** Twelve thousand plays are generated for the densest of these positions. *)
Example number_of_moves_for_various_positions_and_dice (* position.rs:876-948 *) :
  forallb (fun '(id, a, b, n) => is_val Nat.eqb (fun m => moves_of m id a b) n)
    [(lit "4HPwATDgc/ABMA", 4, 4, 52)%nat;
     (lit "4HPwATDgc/ABMA", 3, 1, 16)%nat;
     (lit "4HPwATDgc/ABMA", 1, 3, 16)%nat;
     (lit "0HPwATDgc/ABMA", 6, 4, 15)%nat;
     (lit "0HPwATDgc/ABMA", 4, 6, 15)%nat;
     (lit "4DnyATDgc/ABMA", 6, 4, 14)%nat;
     (lit "4DnyATDgc/ABMA", 4, 6, 14)%nat;
     (lit "4HPwATDgc/ABUA", 6, 6, 0)%nat;
     (lit "4HPwATDgc/ABUA", 5, 6, 4)%nat;
     (lit "4HPwATDgc/ABUA", 5, 2, 7)%nat;
     (lit "0HPwATDgc/ABUA", 5, 2, 8)%nat;
     (lit "4HPwATDgc/ABYA", 5, 2, 1)%nat;
     (lit "sHPwATDgc/ABYA", 5, 2, 1)%nat;
     (lit "hnPwATDgc/ABYA", 5, 2, 1)%nat;
     (lit "sHPwATDgc/ABYA", 2, 2, 12)%nat;
     (lit "sHPwATDgOfgAcA", 2, 2, 4)%nat;
     (lit "sHPwATDgHHwAeA", 2, 2, 1)%nat;
     (lit "sHPwATDgHDwAfA", 2, 2, 1)%nat;
     (lit "sHPwATDgHDwAfA", 2, 1, 1)%nat;
     (lit "sHPwATDgHDwAfA", 6, 1, 1)%nat;
     (lit "xOfgATDgc/ABUA", 4, 3, 10)%nat;
     (lit "lOfgATDgc/ABUA", 4, 3, 10)%nat;
     (lit "sNvBATBw38ABMA", 6, 6, 1)%nat;
     (lit "YNsWADZsuzsAAA", 6, 5, 1)%nat;
     (lit "YNsWADNm7zkAAA", 6, 5, 1)%nat;
     (lit "4BwcMBvgAYABAA", 4, 3, 1)%nat;
     (lit "4DgcMBvgAYABAA", 4, 3, 1)%nat;
     (lit "wAYAMBsAAAQAAA", 4, 3, 1)%nat;
     (lit "GBsAmA0EACAAAA", 4, 3, 2)%nat;
     (lit "MBsAsA0EACAAAA", 4, 3, 2)%nat;
     (lit "2G4bADDOAgAAAA", 5, 1, 2)%nat;
     (lit "2G4bADDObgAAAA", 4, 2, 7)%nat;
     (lit "AwAACAAAAAAAAA", 4, 2, 1)%nat;
     (lit "AwAAYDsAAAAAAA", 6, 5, 1)%nat;
     (lit "AwAAYDsAAAAAAA", 6, 2, 3)%nat;
     (lit "2+4OAADs3hcAAA", 4, 3, 12)%nat;
     (lit "tN0dAATb3AMAAA", 4, 2, 9)%nat;
     (lit "tN0dAATb3AMAAA", 2, 2, 38)%nat;
     (lit "2L07AAC274YAAA", 6, 5, 3)%nat;
     (lit "2L07AAC23wYBAA", 6, 5, 2)%nat;
     (lit "27ZFAAR7swEAAA", 6, 2, 4)%nat;
     (lit "27ZFAAR7swEAAA", 2, 6, 4)%nat;
     (lit "v0MChgK7HwgAAA", 5, 6, 1)%nat;
     (lit "u20DAAP77hEAAA", 6, 3, 3)%nat;
     (lit "u20DYAD77hEAAA", 6, 3, 3)%nat;
     (lit "ABDAEBIAAAAAAA", 6, 2, 1)%nat] = true /\
  (forall m, moves_of m (lit "AACAkCRJqqoAAA") 1 1 = Ret (Z.to_nat 2220)).
Proof. split; [vm_compute; reflexivity|intros []; vm_compute; reflexivity]. Qed.

Example starting_position_is_correct_and_symmetric (* position.rs:959-964 *) :
  position_eqb BACKGAMMON (pos [(24%nat, 2); (13%nat, 5); (8%nat, 3); (6%nat, 5)] [(19%nat, 5); (17%nat, 3); (12%nat, 5); (1%nat, 2)]) = true /\
  gives_pos (fun m => flip m BACKGAMMON) BACKGAMMON = true.
Proof. vm_compute. repeat split. Qed.

Example move_single_checker_mixed_move (* position.rs:967-972 *) :
  gives_pos (fun m => clone_and_move_single_checker m (pos [(4%nat, 10)] []) 4 2) (pos [(4%nat, 9); (2%nat, 1)] []) = true.
Proof. vm_compute. repeat split. Qed.

Example move_single_checker_hit_opponent (* position.rs:975-980 *) :
  gives_pos (fun m => clone_and_move_single_checker m (pos [(4%nat, 10)] [(2%nat, 1)]) 4 2) (pos [(4%nat, 9); (2%nat, 1)] [(0%nat, 1)]) = true.
Proof. vm_compute. repeat split. Qed.

Example move_single_checker_bearoff_mixed (* position.rs:983-988 *) :
  gives_pos (fun m => clone_and_move_single_checker m (pos [(4%nat, 10)] []) 4 4) (pos [(4%nat, 9)] []) = true.
Proof. vm_compute. repeat split. Qed.

Example move_single_checker_bearoff_from_lower_pip (* position.rs:991-996 *) :
  gives_pos (fun m => clone_and_move_single_checker m (pos [(4%nat, 10)] []) 4 5) (pos [(4%nat, 9)] []) = true.
Proof. vm_compute. repeat split. Qed.

Example cannot_move_no_checker (* position.rs:999-1002 *) :
  is_val Bool.eqb (fun m => can_move m (pos [(4%nat, 10)] []) 5 2) false = true.
Proof. vm_compute. repeat split. Qed.

Example cannot_move_opposing_checker (* position.rs:1005-1008 *) :
  is_val Bool.eqb (fun m => can_move m (pos [] [(4%nat, 10)]) 4 2) false = true.
Proof. vm_compute. repeat split. Qed.

Example cannot_move_would_land_on_two_opposing_checkers (* position.rs:1011-1014 *) :
  is_val Bool.eqb (fun m => can_move m (pos [(4%nat, 10)] [(2%nat, 2)]) 4 2) false = true.
Proof. vm_compute. repeat split. Qed.

Example can_move_will_land_on_one_opposing_checker (* position.rs:1017-1020 *) :
  is_val Bool.eqb (fun m => can_move m (pos [(4%nat, 10)] [(2%nat, 1)]) 4 2) true = true.
Proof. vm_compute. repeat split. Qed.

Example can_move_will_land_on_checkers (* position.rs:1023-1026 *) :
  is_val Bool.eqb (fun m => can_move m (pos [(4%nat, 10)] [(2%nat, 1)]) 4 2) true = true.
Proof. vm_compute. repeat split. Qed.

Example cannot_move_bear_off_illegal_because_other_checkers (* position.rs:1029-1032 *) :
  is_val Bool.eqb (fun m => can_move m (pos [(10%nat, 2); (4%nat, 10)] []) 4 4) false = true.
Proof. vm_compute. repeat split. Qed.

Example can_move_will_bear_off_exactly (* position.rs:1035-1038 *) :
  is_val Bool.eqb (fun m => can_move m (pos [(4%nat, 10)] []) 4 4) true = true.
Proof. vm_compute. repeat split. Qed.

Example cannot_move_bear_off_skipping_illegal_because_other_checkers (* position.rs:1041-1044 *) :
  is_val Bool.eqb (fun m => can_move m (pos [(10%nat, 2); (4%nat, 10)] []) 4 6) false = true.
Proof. vm_compute. repeat split. Qed.

Example can_move_will_bear_off_skipping (* position.rs:1047-1050 *) :
  is_val Bool.eqb (fun m => can_move m (pos [(4%nat, 10)] []) 4 6) true = true.
Proof. vm_compute. repeat split. Qed.

(** ** engine_spec.rs, utils.rs, dice.rs, dice_gen.rs *)

Example parse_and_format_roundtrip_basic (* engine_spec.rs:98-104 *) : exists parsed,
  parse_engine_spec (lit "hawk:ply=2") = inr parsed /\ es_alias parsed = lit "hawk" /\ es_version parsed = None /\
  btree_get (lit "engine.ply") (es_options parsed) = Some (lit "2") /\ format_engine_spec parsed = lit "hawk:ply=2".
Proof. eexists. vm_compute. repeat split. Qed.

Example parse_and_format_roundtrip_with_version_and_sort (* engine_spec.rs:107-110 *) : exists parsed,
  parse_engine_spec (lit "hawk@v1.3:top_k=8,ply=2") = inr parsed /\ format_engine_spec parsed = lit "hawk@v1.3:ply=2,top_k=8".
Proof. eexists. vm_compute. repeat split. Qed.

Example format_from_struct (* engine_spec.rs:113-122 *) :
  format_engine_spec {| es_alias := lit "gnubg"; es_version := None; es_options := btree_insert (lit "engine.ply") (lit "1") [] |}
  = lit "gnubg:ply=1".
Proof. vm_compute. reflexivity. Qed.

(** [comb(52, 5)] makes millions of calls, so it is derived from C31. *)
Lemma fact_simpl n : fact (S n) = (S n * fact n)%nat.
Proof. reflexivity. Qed.
Opaque fact.
Example test_comb (* utils.rs:20-23 *) : forall m, comb m 10 4 = Ret 210 /\ comb m 52 5 = Ret 2598960.
Proof.
  intros m. split; [destruct m; vm_compute; reflexivity|].
  destruct (@C31_comb 52%nat 5%nat ltac:(lia)) as (c & (B & _) & Pos & Small & _).
  specialize (B ltac:(lia)). change (52 - 5)%nat with 47%nat in B.
  assert (E : Z.of_nat (fact 52) = 311875200 * Z.of_nat (fact 47)).
  { change 52%nat with (S (S (S (S (S 47))))). rewrite 5 fact_simpl. rewrite 5 Nat2Z.inj_mul. lia. }
  rewrite E in B. replace (Z.of_nat (fact 5)) with 120 in B by (rewrite 5 fact_simpl; reflexivity). pose proof (lt_O_fact 47) as F.
  assert (c = 2598960) as -> by nia. apply Small. vm_compute. reflexivity.
Qed.
Transparent fact.

Example test_mcomb (* utils.rs:26-32 *) : forall m, mcomb m 7 15 = Ret 54264 /\ mcomb m 26 3 = Ret 3276 /\
  mcomb m 25 3 = Ret 2925 /\ mcomb m 24 3 = Ret 2600 /\ mcomb m 23 3 = Ret 2300.
Proof. intros []; vm_compute; repeat split. Qed.

Example all_441_test (* dice.rs:160-172 *) :
  is_val Bool.eqb (fun m => l <- all_441 m ;;
    Ret ((fold_right Z.add 0 (map (fun e => Z.of_nat (snd e)) l) =? 1296) &&
         forallb (fun '(a, b, n) => (n =? match a, b with
           | Mixed _ _, Mixed _ _ => 4 | Double _, Mixed _ _ => 2 | Mixed _ _, Double _ => 2 | Double _, Double _ => 1 end)%nat) l)) true = true.
Proof. vm_compute. reflexivity. Qed.

Definition dice_eqb (d e : dice) : bool :=
  match d, e with
  | Double a, Double b => (a =? b)%nat
  | Mixed a b, Mixed c d => (a =? c)%nat && (b =? d)%nat
  | _, _ => false
  end.
Fixpoint distinct {A} (eqb : A -> A -> bool) (l : list A) : bool :=
  match l with [] => true | a :: l' => negb (existsb (eqb a) l') && distinct eqb l' end.
Example all_441_has_distinct_dice (* dice.rs:175-186 *) :
  is_val Bool.eqb (fun m => l <- all_441 m ;;
    Ret (forallb (fun '(a, _, _) => match a with
           | Mixed big small => (0 <? small) && (big <? 7) | Double die => (0 <? die) && (die <? 7) end%nat) l &&
         (Z.of_nat (List.length l) =? 441) &&
         distinct (fun '(a, b, _) '(c, d, _) => dice_eqb a c && dice_eqb b d) l)) true = true.
Proof. vm_compute. reflexivity. Qed.

Definition d32 : dice := Mixed 3 2.
Definition d61 : dice := Mixed 6 1.
Example roll_returns_given_dice (* dice_gen.rs:220-224 *) : forall m,
  dice_new m 3 2 = Ret d32 /\ dice_new m 1 6 = Ret d61 /\
  ('(a, g) <- mock_roll (mock_new [d32; d61]) ;; '(b, g) <- mock_roll g ;; Ret (a, b)) = Ret (d32, d61).
Proof. intros []; vm_compute; repeat split. Qed.

Example assert_all_dice_were_used (* dice_gen.rs:226-232 *) :
  ('(_, g) <- mock_roll (mock_new [d32; d61]) ;; mock_assert_all_used g) = Panic Unwrapped.
Proof. reflexivity. Qed.

Example panics_when_roll_is_called_too_often (* dice_gen.rs:234-240 *) :
  ('(_, g) <- mock_roll (mock_new [d32]) ;; mock_roll g) = Panic IndexOOB.
Proof. reflexivity. Qed.

(** ** ubgi.rs *)

Example emits_minor_marker (* ubgi.rs:339-344 *) :
  to_key_line (opt_minor (opt_integer (lit "engine.threads") 1 64 8)) = lit "key engine.threads int 1..64 8 !".
Proof. reflexivity. Qed.

Example parses_minor_marker_and_description (* ubgi.rs:347-354 *) : exists parsed,
  parse_key_line (lit "key engine.seed int 0..999999 42 ! rng seed") = Some parsed /\ kl_minor parsed = true /\
  kl_name parsed = lit "engine.seed" /\ kl_default parsed = lit "42" /\ kl_description parsed = lit "rng seed".
Proof. eexists. vm_compute. repeat split. Qed.

Example supports_unbounded_int_emit_and_parse (* ubgi.rs:357-364 *) :
  to_key_line (opt_integer_unbounded (lit "engine.seed") 42) = lit "key engine.seed int 42" /\
  exists parsed, parse_key_line (lit "key engine.seed int 42") = Some parsed /\ kl_key_type parsed = lit "int" /\
  kl_domain parsed = None /\ kl_default parsed = lit "42".
Proof. split; [reflexivity|]. eexists. vm_compute. repeat split. Qed.

Example parses_bool_without_domain (* ubgi.rs:367-374 *) : exists parsed,
  parse_key_line (lit "key engine.debug bool false ! logging toggles") = Some parsed /\ kl_key_type parsed = lit "bool" /\
  kl_domain parsed = None /\ kl_default parsed = lit "false" /\ kl_minor parsed = true.
Proof. eexists. vm_compute. repeat split. Qed.

Example rejects_out_of_range_integer_set_value (* ubgi.rs:377-381 *) : exists err,
  parse_value (opt_integer (lit "engine.ply") 1 4 2) (lit "7") = inl err /\ contains (lit "1..4") err = true.
Proof. eexists. vm_compute. repeat split. Qed.

Example rejects_invalid_boolean_set_value (* ubgi.rs:384-388 *) : exists err,
  parse_value (opt_boolean (lit "engine.debug") false) (lit "yes") = inl err /\ contains (lit "true|false") err = true.
Proof. eexists. vm_compute. repeat split. Qed.

Example parses_valid_boolean_set_value (* ubgi.rs:391-395 *) :
  parse_value (opt_boolean (lit "engine.debug") false) (lit "true") = inr (OVBool true).
Proof. reflexivity. Qed.

(** ** codecs *)

(** codecs/mod.rs:15-25: [assert_roundtrip]. *)
Definition roundtrip {E} (enc : mode -> vpos -> res str) (dec : mode -> variant -> str -> res (E + vpos)) (k : variant) (v : vpos) : bool :=
  is_val Bool.eqb (fun m => s <- enc m v ;; r <- dec m k s ;;
    match r with inl _ => Panic Unwrapped | inr w => Ret (vpos_eqb w v) end) true.
(** [gnuid::encode(decode(encode(v))) == gnuid::encode(v)]. *)
Definition same_id {E} (enc : mode -> vpos -> res str) (dec : mode -> variant -> str -> res (E + vpos)) (k : variant) (v : vpos) : bool :=
  is_val Bool.eqb (fun m => s <- enc m v ;; r <- dec m k s ;;
    match r with inl _ => Panic Unwrapped | inr w => a <- gnuid_encode m w ;; b <- gnuid_encode m v ;; Ret (str_eqb a b) end) true.
Definition bg_start : vpos := start_position Backgammon.
Definition bars_and_off : list Z := [-1; 0; 0; 0; 0; 0; 2; 0; 3; 0; 0; 0; 0; 0; 0; 0; 0; -1; 0; -2; 0; 0; 0; 0; 0; 2].
Definition bars_pos : vpos :=
  match try_from Debug 15 bars_and_off with Ret (inr p) => VBackgammon p | _ => bg_start end.
Example bars_pos_ok : try_from Debug 15 bars_and_off = Ret (inr (match bars_pos with VBackgammon p => p | _ => BACKGAMMON end)) /\
  try_from Release 15 bars_and_off = try_from Debug 15 bars_and_off.
Proof. vm_compute. repeat split. Qed.

Example xgid_board_roundtrip (* xgid.rs:311-317 *) :
  same_id xgid_encode xgid_decode Backgammon bg_start = true /\ roundtrip xgid_encode xgid_decode Backgammon bg_start = true.
Proof. vm_compute. repeat split. Qed.

Example xgid_full_roundtrip (* xgid.rs:320-338 *) : exists board b,
  xgid_encode Debug bg_start = Ret board /\ parse_board board = inr b /\
  let full := {| xg_board := b; xg_max_cube := 0; xg_match_length := 0; xg_rules := 1; xg_score_x := 0; xg_score_o := 0;
                 xg_dice := XRolled 6 1; xg_move_flag := true; xg_cube_owner := 0; xg_cube_power := 0 |} in
  parse_xgid (format_xgid full) = inr full.
Proof. eexists. eexists. split; [vm_compute; reflexivity|]. split; vm_compute; reflexivity. Qed.

Example xgid_board_roundtrip_with_bars_and_off (* xgid.rs:341-355 *) : same_id xgid_encode xgid_decode Backgammon bars_pos = true.
Proof. vm_compute. reflexivity. Qed.

Example gnuid_string_roundtrip (* gnuid.rs:163-175; also the commented-out tests of conversion.rs:52-71 *) :
  forallb (fun id => is_val str_eqb (fun m => r <- gnuid_decode m Backgammon id ;;
    match r with inl _ => Panic Unwrapped | inr w => gnuid_encode m w end) id)
    [lit "4HPwATDgc/ABMA"; lit "jGfkASjg8wcBMA"; lit "zGbiIQgxH/AAWA"; lit "zGbiIYCYD3gALA"] = true /\
  is_val str_eqb (fun m => gnuid_encode m bg_start) (lit "4HPwATDgc/ABMA") = true.
Proof. vm_compute. repeat split. Qed.

Example gnuid_roundtrip_with_bars_and_off (* gnuid.rs:178-193 *) :
  same_id gnuid_encode gnuid_decode Backgammon bars_pos = true /\ roundtrip gnuid_encode gnuid_decode Backgammon bars_pos = true.
Proof. vm_compute. repeat split. Qed.

Example fibs_board_roundtrip_start_position (* fibs.rs:201-207 *) :
  same_id fibs_encode fibs_decode Backgammon bg_start = true /\ roundtrip fibs_encode fibs_decode Backgammon bg_start = true.
Proof. vm_compute. repeat split. Qed.

Example fibs_board_roundtrip_with_bars_and_off (* fibs.rs:210-224 *) : same_id fibs_encode fibs_decode Backgammon bars_pos = true.
Proof. vm_compute. reflexivity. Qed.

(** ** codecs/move_text.rs *)

Definition no_err {E A} (r : res (E + A)) : res A := x <- r ;; match x with inl _ => Panic Unwrapped | inr a => Ret a end.
Definition unwrap_opt {A} (r : res (option A)) : res A := x <- r ;; match x with None => Panic Unwrapped | Some a => Ret a end.
Fixpoint mall {A} (f : A -> res bool) (l : list A) : res bool :=
  match l with [] => Ret true | a :: l' => b <- f a ;; c <- mall f l' ;; Ret (b && c) end.
Definition nonempty {A} (l : list A) : bool := match l with [] => false | _ => true end.

Example move_texts_exist_for_start_position (* move_text.rs:476-482 *) :
  is_val Bool.eqb (fun m => l <- no_err (legal_moves m bg_start d61) ;;
    Ret (nonempty l && forallb (fun '(mv, _) => nonempty mv) l)) true = true.
Proof. vm_compute. reflexivity. Qed.

Example normalize_supports_bar_off_and_chains (* move_text.rs:485-488 *) :
  normalize (lit "bar/22 6/off 13/8/5") = Some (lit "bar/22 6/off 13/8 8/5").
Proof. vm_compute. reflexivity. Qed.

Example normalize_rejects_numeric_bar_off_aliases (* move_text.rs:491-494 *) :
  normalize (lit "25/22") = None /\ normalize (lit "6/0") = None.
Proof. vm_compute. repeat split. Qed.

Definition applies_to (m : mode) (v : vpos) (d : dice) (mv : str) (child : vpos) : res bool :=
  applied <- unwrap_opt (apply_move m v d mv) ;; a <- gnuid_encode m applied ;; b <- gnuid_encode m child ;; Ret (str_eqb a b).
Example legal_moves_apply_roundtrip_for_multiple_rolls (* move_text.rs:497-515 *) :
  forallb (fun '(a, b) => is_val Bool.eqb (fun m => d <- dice_new m a b ;; l <- no_err (legal_moves m bg_start d) ;;
    ok <- mall (fun '(mv, child) => applies_to m bg_start d mv child) l ;; Ret (nonempty l && ok)) true)
    [(6, 1); (5, 3); (4, 4); (2, 1)]%nat = true.
Proof. vm_compute. reflexivity. Qed.

Example encode_move_roundtrips_to_same_child (* move_text.rs:518-528 *) :
  is_val Bool.eqb (fun m => l <- game_legal_positions m (game_new Backgammon) d61 ;;
    mall (fun child => mv <- no_err (encode_move m bg_start child d61) ;; applies_to m bg_start d61 mv child) l) true = true.
Proof. vm_compute. reflexivity. Qed.

Example legal_steps_match_legal_text (* move_text.rs:531-544 *) :
  is_val Bool.eqb (fun m => text_moves <- no_err (legal_moves m bg_start d61) ;; step_moves <- no_err (legal_steps m bg_start d61) ;;
    let rendered := map (fun '(steps, pos) => (format_move_steps steps, pos)) step_moves in
    Ret ((List.length text_moves =? List.length rendered)%nat &&
         forallb (fun '(mv, child) => existsb (fun '(t, c) => str_eqb t mv && vpos_eqb c child) rendered) text_moves)) true = true.
Proof. vm_compute. reflexivity. Qed.

Example apply_supports_hitting_move (* move_text.rs:547-561 *) :
  let ps := [0; 0; 0; 0; -2; -1; 0; 0; 1; 0; 0; 0; 0; 0; 0; 0; 0; 0; 0; 0; 0; 0; 0; 0; 0; 0] in
  is_val Bool.eqb (fun m => p <- no_err (try_from m 15 ps) ;; d <- dice_new m 3 1 ;;
    next <- unwrap_opt (apply_move m (VBackgammon p) d (lit "8/5")) ;; l <- no_err (legal_moves m (VBackgammon p) d) ;;
    Ret (existsb (fun '(mv, child) => str_eqb mv (lit "8/5") && vpos_eqb child next) l)) true = true.
Proof. vm_compute. reflexivity. Qed.

(** ** game.rs, rules.rs *)

Definition mock_gen : dice_gen mock :=
  {| gen_roll := mock_roll;
     gen_roll_mixed := fun g => r <- roll_mixed_loop mock_roll 1000 g ;; match r with Some x => Ret x | None => Panic Unwrapped end |}.

Example play_episode_uses_policy_and_advances (* game.rs:141-150 *) : forall m, exists g dg,
  play_episode_with m (classic_rules m) mock_gen (fun (s : unit) _ _ _ => (0%nat, s)) 3 (game_new Backgammon)
    (mock_new [d61; Mixed 5 3; Mixed 4 2]) tt = Ret (GOk 3%nat, g, dg, tt).
Proof. intros []; eexists; eexists; vm_compute; reflexivity. Qed.

Example play_episode_fails_on_out_of_bounds_policy_index (* game.rs:153-162 *) : forall m, exists g dg,
  play_episode_with m (classic_rules m) mock_gen (fun (s : unit) _ _ legal => (List.length legal, s)) 1 (game_new Backgammon)
    (mock_new [d61]) tt = Ret (GErr PolicyIndexOutOfBounds, g, dg, tt).
Proof. intros []; eexists; eexists; vm_compute; reflexivity. Qed.

Example classic_position_rules_match_existing_movegen (* rules.rs:135-140 *) : forall m,
  classic_positions m 15 BACKGAMMON d61 = generate_legal_positions m 15 BACKGAMMON d61.
Proof. intros m. reflexivity. Qed.

Example classic_variant_rules_match_game_legal_positions (* rules.rs:143-149 *) : forall m,
  classic_rules m bg_start d61 = game_legal_positions m (game_new Backgammon) d61.
Proof. intros m. reflexivity. Qed.

Example no_hit_rules_filter_positions_that_put_opponent_on_bar (* rules.rs:152-159 *) :
  is_val Bool.eqb (fun m => l <- no_hit_positions m 15 BACKGAMMON d61 ;; b <- o_bar m BACKGAMMON ;;
    ok <- mall (fun q => c <- o_bar m q ;; Ret (c <=? b)) l ;; Ret (nonempty l && ok)) true = true.
Proof. vm_compute. reflexivity. Qed.
