(** Model of /repo/src/position/mixed_moves.rs.  Functions that push to [moves] return
    the list of pushed positions in order. *)
From Verif Require Export Position.
Open Scope Z_scope.

(** mixed_moves.rs:174-180: [can_enter]. *)
Definition can_enter (m : mode) (p : position) (die : nat) : res bool :=
  b <- index (pips p) X_BAR ;;
  debug_assert m (0 <? b) ;;;
  t <- usub m X_BAR die ;;
  w <- index (pips p) t ;;
  Ret (-2 <? w).

(** mixed_moves.rs:188-206: [enter_single_checker]; 182-186: on a clone. *)
Definition enter_single_checker (m : mode) (p : position) (die : nat) : res position :=
  b <- index (pips p) X_BAR ;;
  debug_assert m (0 <? b) ;;;
  t <- usub m X_BAR die ;;
  w <- index (pips p) t ;;
  debug_assert m (-2 <? w) ;;;
  b1 <- i8 m (b - 1) ;;
  ps <- assign (pips p) X_BAR b1 ;;
  w <- index ps t ;;
  if w =? -1 then
    ps1 <- assign ps t 1 ;;
    o <- index ps1 O_BAR ;;
    o1 <- i8 m (o - 1) ;;
    ps2 <- assign ps1 O_BAR o1 ;;
    Ret {| turn := turn p; pips := ps2; x_off := x_off p; o_off := o_off p |}
  else
    w1 <- i8 m (w + 1) ;;
    ps1 <- assign ps t w1 ;;
    Ret {| turn := turn p; pips := ps1; x_off := x_off p; o_off := o_off p |}.

(** The common loop body of this file and double_moves.rs:
    [if position.can_move_when_bearoff_is_legal(i, die)
     { moves.push(position.clone_and_move_single_checker(i, die)) }]
    (mixed_moves.rs:42-45, 62-65, 106-109, 126-129, 151-154). *)
Definition try_push (m : mode) (p : position) (die i : nat) : res (list position) :=
  c <- can_move_when_bearoff_is_legal m p i die ;;
  if c then q <- clone_and_move_single_checker m p i die ;; Ret [q] else Ret [].

(** mixed_moves.rs:31-78: [moves_with_1_checker_on_bar_into]. *)
Definition moves_with_1_checker_on_bar (m : mode) (p : position) (big small : nat)
  : res (list position) :=
  b <- index (pips p) X_BAR ;;
  debug_assert m (b =? 1) ;;;
  ce_big <- can_enter m p big ;;
  '(enter_big, moves1) <-
     (if ce_big then
        q <- enter_single_checker m p big ;;
        l <- mflat_map (try_push m q small) (range (small + 1) X_BAR) ;;
        Ret (Some q, l)
      else Ret (None, [])) ;;
  tb <- usub m X_BAR big ;;
  wb <- index (pips p) tb ;;
  (* [a < 0 || b < 0] short-circuits; the second index is in range whenever the first
     is, because small < big *)
  ts <- usub m X_BAR small ;;
  ws <- index (pips p) ts ;;
  let different_outcomes := (wb <? 0) || (ws <? 0) in
  ce_small <- can_enter m p small ;;
  '(enter_small, moves2) <-
     (if ce_small then
        q <- enter_single_checker m p small ;;
        let rng := if different_outcomes then range (big + 1) X_BAR ++ range 1 0
                   else range (big + 1) (X_BAR - small)
                        ++ range (X_BAR - small + 1) X_BAR in
        l <- mflat_map (try_push m q big) rng ;;
        Ret (Some q, l)
      else Ret (None, [])) ;;
  match moves1 ++ moves2 with
  | [] => match enter_big with
          | Some q => Ret [q]
          | None => match enter_small with
                    | Some q => Ret [q]
                    | None => Ret [p]
                    end
          end
  | moves => Ret moves
  end.

(** mixed_moves.rs:102-111: [one_checker_moves]. *)
Definition one_checker_moves (m : mode) (p : position) (die : nat) : res (list position) :=
  b <- index (pips p) X_BAR ;;
  debug_assert m (b =? 0) ;;;
  mflat_map (try_push m p die) (range (smallest_pip_to_check p die) X_BAR).

(** mixed_moves.rs:114-158: [two_checker_moves_into]. *)
Definition two_checker_moves (m : mode) (p : position) (big small : nat)
  : res (list position) :=
  b <- index (pips p) X_BAR ;;
  debug_assert m (b =? 0) ;;;
  (* small die first *)
  l1 <- mflat_map (fun i =>
          c <- can_move_when_bearoff_is_legal m p i small ;;
          if c then
            q <- clone_and_move_single_checker m p i small ;;
            mflat_map (try_push m q big) (rev (range (smallest_pip_to_check q big) (i + 1)))
          else Ret []) (rev (range (smallest_pip_to_check p small) X_BAR)) ;;
  (* big die first *)
  l2 <- mflat_map (fun i =>
          c <- can_move_when_bearoff_is_legal m p i big ;;
          if c then
            q <- clone_and_move_single_checker m p i big ;;
            different_outcomes <-
              (if (big <=? i)%nat then
                 t1 <- usub m i big ;;
                 w1 <- index (pips p) t1 ;;
                 if w1 <? 0 then Ret true
                 else t2 <- usub m i small ;;
                      w2 <- index (pips p) t2 ;;
                      Ret (w2 <? 0)
               else Ret false) ;;
            let smallest_pip := smallest_pip_to_check q small in
            let rng := if different_outcomes : bool then range smallest_pip i ++ range 0 0
                       else
                         let omitted_pip := (i - big)%nat (* saturating_sub *) in
                         range smallest_pip omitted_pip
                         ++ range (Nat.max smallest_pip (omitted_pip + 1)) i in
            mflat_map (try_push m q small) rng
          else Ret []) (range (smallest_pip_to_check p big) X_BAR) ;;
  Ret (l1 ++ l2).

(** mixed_moves.rs:81-98: [moves_with_0_checkers_on_bar_into]. *)
Definition moves_with_0_checkers_on_bar (m : mode) (p : position) (big small : nat)
  : res (list position) :=
  b <- index (pips p) X_BAR ;;
  debug_assert m (b =? 0) ;;;
  l <- two_checker_moves m p big small ;;
  match l with
  | [] => l <- one_checker_moves m p big ;;
          match l with
          | [] => l <- one_checker_moves m p small ;;
                  match l with
                  | [] => Ret [p]
                  | _ => Ret l
                  end
          | _ => Ret l
          end
  | _ => Ret l
  end.

(** mixed_moves.rs:161-172: [moves_with_2_checkers_on_bar_into]. *)
Definition moves_with_2_checkers_on_bar (m : mode) (p : position) (big small : nat)
  : res (list position) :=
  b <- index (pips p) X_BAR ;;
  debug_assert m (1 <? b) ;;;
  c <- can_enter m p big ;;
  q <- (if c : bool then enter_single_checker m p big else Ret p) ;;
  c <- can_enter m q small ;;
  r <- (if c : bool then enter_single_checker m q small else Ret q) ;;
  Ret [r].

(** mixed_moves.rs:16-29: [all_positions_after_mixed_move_into]. *)
Definition all_positions_after_mixed_move (m : mode) (p : position) (big small : nat)
  : res (list position) :=
  debug_assert m (small <? big)%nat ;;;
  b <- index (pips p) X_BAR ;;
  if b =? 0 then moves_with_0_checkers_on_bar m p big small
  else if b =? 1 then moves_with_1_checker_on_bar m p big small
  else moves_with_2_checkers_on_bar m p big small.
