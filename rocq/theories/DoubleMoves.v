(** Model of /repo/src/position/double_moves.rs. *)
From Verif Require Export MixedMoves.
Open Scope Z_scope.

(** double_moves.rs:34-51: [position_after_entering_checkers].  [pips[X_BAR - die]] is read once here,
    before the assertion and the tests that read it; no difference for a die up to 25. *)
Definition position_after_entering_checkers (m : mode) (p : position) (die : nat)
  : res (position * Z) :=
  b <- index (pips p) X_BAR ;;
  if b =? 0 then Ret (p, 0)
  else
    t <- usub m X_BAR die ;;
    w <- index (pips p) t ;;
    debug_assert m (-2 <? w) ;;;
    let k := Z.min 4 b in
    if 0 <? k then
      b1 <- i8 m (b - k) ;;
      ps <- assign (pips p) X_BAR b1 ;;
      if w =? -1 then
        o <- index ps O_BAR ;;
        o1 <- i8 m (o - 1) ;;
        ps1 <- assign ps O_BAR o1 ;;
        ps2 <- assign ps1 t k ;;
        Ret ({| turn := turn p; pips := ps2; x_off := x_off p; o_off := o_off p |}, k)
      else
        w <- index ps t ;;
        w1 <- i8 m (w + k) ;;
        ps1 <- assign ps t w1 ;;
        Ret ({| turn := turn p; pips := ps1; x_off := x_off p; o_off := o_off p |}, k)
    else
      (* a negative bar: [number_of_checkers_to_enter as u32] wraps *)
      Ret (p, k mod 2 ^ 32).

(** double_moves.rs:112-126: the [while] loop of [number_of_movable_checkers], by
    recursion on [pip]; [maxv] is [max_return_value]. The u32 counter is below
    24 * 128, so its additions cannot overflow. *)
Fixpoint movable_loop (m : mode) (die : nat) (maxv : Z) (pip : nat) (cnt : Z) (p : position)
  : res (Z * position) :=
  match pip with
  | O => Ret (cnt, p)
  | S pip' =>
      if (cnt <? maxv) && (die <? pip)%nat then
        c <- can_move_when_bearoff_is_legal m p pip die ;;
        if c then
          number_to_move <- index (pips p) pip ;;
          ps <- assign (pips p) pip 0 ;;
          t <- usub m pip die ;;
          w <- index ps t ;;
          ps1 <- (if w =? -1 then assign ps t number_to_move
                  else w1 <- i8 m (w + number_to_move) ;; assign ps t w1) ;;
          movable_loop m die maxv pip' (cnt + number_to_move)
            {| turn := turn p; pips := ps1; x_off := x_off p; o_off := o_off p |}
        else movable_loop m die maxv pip' cnt p
      else Ret (cnt, p)
  end.

(** double_moves.rs:106-151: [number_of_movable_checkers].  [4 - entered] is a u32
    subtraction; the only call has entered <= 3. *)
Definition number_of_movable_checkers (m : mode) (p : position) (die : nat) (entered : Z)
  : res Z :=
  maxv <- (if entered <=? 4 then Ret (4 - entered)
           else match m with Debug => Panic Overflow | Release => Ret ((4 - entered) mod 2 ^ 32) end) ;;
  '(cnt, q) <- movable_loop m die maxv 24 0 p ;;
  if maxv <=? cnt then Ret maxv
  else
    match rposition_of (fun v => 0 <? v) (pips q) with
    | None => Ret cnt
    | Some biggest_pip =>
        bearoff_checkers <-
          (if (6 <? biggest_pip)%nat then Ret 0
           else if (die <? biggest_pip)%nat then
             v <- index (pips q) die ;; Ret (Z.max 0 v)
           else sum_i8 m (filter (fun v => 0 <? v) (slice (pips q) 1 (die + 1)))) ;;
        Ret (Z.min (cnt + bearoff_checkers) maxv)
    end.

(** double_moves.rs:55-100: [double_moves_after_entering_into]. *)
Definition double_moves_after_entering (m : mode) (p : position) (die : nat) (entered : Z)
  : res (list position) :=
  nr <- number_of_movable_checkers m p die entered ;;
  if nr =? 0 then Ret [p]
  else
    mflat_map (fun i1 =>
      c <- can_move_when_bearoff_is_legal m p i1 die ;;
      if c then
        pos <- clone_and_move_single_checker m p i1 die ;;
        if nr =? 1 then Ret [pos]
        else
          mflat_map (fun i2 =>
            c <- can_move_when_bearoff_is_legal m pos i2 die ;;
            if c then
              pos <- clone_and_move_single_checker m pos i2 die ;;
              if nr =? 2 then Ret [pos]
              else
                mflat_map (fun i3 =>
                  c <- can_move_when_bearoff_is_legal m pos i3 die ;;
                  if c then
                    pos <- clone_and_move_single_checker m pos i3 die ;;
                    if nr =? 3 then Ret [pos]
                    else
                      mflat_map (fun i4 =>
                        c <- can_move_when_bearoff_is_legal m pos i4 die ;;
                        if c then
                          pos <- clone_and_move_single_checker m pos i4 die ;;
                          Ret [pos]
                        else Ret [])
                        (range (smallest_pip_to_check pos die) (i3 + 1))
                  else Ret [])
                  (range (smallest_pip_to_check pos die) (i2 + 1))
            else Ret [])
            (range (smallest_pip_to_check pos die) (i1 + 1))
      else Ret [])
      (range (smallest_pip_to_check p die) X_BAR).

(** double_moves.rs:15-31: [all_positions_after_double_move_into].  [pips[X_BAR - die]] is read before the
    test of the bar; the Rust [&&] reads it after it, the same for every die up to 25. *)
Definition all_positions_after_double_move (m : mode) (p : position) (die : nat)
  : res (list position) :=
  b <- index (pips p) X_BAR ;;
  t <- usub m X_BAR die ;;
  w <- index (pips p) t ;;
  if (0 <? b) && (w <? -1) then Ret [p]
  else
    '(q, entered) <- position_after_entering_checkers m p die ;;
    if entered =? 4 then Ret [q]
    else
      l <- double_moves_after_entering m q die entered ;;
      debug_assert m (negb (match l with [] => true | _ => false end)) ;;;
      Ret l.
