(** Model of /repo/src/codecs/move_text.rs.  Mutable vectors that are pushed before a recursive call
    and popped after it (the [steps] arguments) are passed as values. *)
From Coq Require Import Strings.String.
From Verif Require Export Err Str Rules.
Open Scope Z_scope.

(** move_text.rs:6-12: [MoveTextError]. *)
Inductive move_text_error : Type := VariantMismatch | EncodeTargetNotReachable.

(** move_text.rs:16-20: [MoveStep]. *)
Record move_step : Type := { ms_from : nat; ms_to : nat }.
(** move_text.rs:129, 299, 347: a [MoveStep] literal. *)
Definition step (from to : nat) : move_step := {| ms_from := from; ms_to := to |}.

(** move_text.rs:439-445: [point_to_text]. *)
Definition point_to_text (point : nat) : str :=
  if (point =? 25)%nat then lit "bar"
  else if (point =? 0)%nat then lit "off"
  else fmt_uint (Z.of_nat point).

(** [format!("{}/{}", ..)] in move_text.rs:152-156 and 379. *)
Definition pair_text (from to : nat) : str := point_to_text from ++ lit "/" ++ point_to_text to.

(** move_text.rs:373-382: [format_move_steps]. *)
Definition format_move_steps (steps : list move_step) : str :=
  match steps with
  | [] => lit "pass"
  | _ => join (lit " ") (map (fun s => pair_text (ms_from s) (ms_to s)) steps)
  end.

(** move_text.rs:410-418: [parse_mid_point], and the numeric half of the next two. *)
Definition parse_number (lowered : str) : option nat :=
  match parse_usize lowered with
  | Some value => if (1 <=? value) && (value <=? 24) then Some (Z.to_nat value) else None
  | None => None
  end.
(** move_text.rs:410-418: [parse_mid_point]. *)
Definition parse_mid_point (raw : str) : option nat := parse_number (lower (trim raw)).

(** move_text.rs:384-395: [parse_from_point]. *)
Definition parse_from_point (raw : str) : option nat :=
  let lowered := lower (trim raw) in
  if str_eqb lowered (lit "bar") then Some 25%nat else parse_number lowered.

(** move_text.rs:397-408: [parse_to_point]. *)
Definition parse_to_point (raw : str) : option nat :=
  let lowered := lower (trim raw) in
  if str_eqb lowered (lit "off") then Some 0%nat else parse_number lowered.

(** move_text.rs:425-432: the [while let] loop of [parse_path_points]; [peek] sees whether another
    part follows. *)
Fixpoint path_rest (parts : list str) : option (list nat) :=
  match parts with
  | [] => Some []
  | part :: more =>
      match (match more with [] => parse_to_point part | _ => parse_mid_point part end) with
      | None => None
      | Some v => option_map (cons v) (path_rest more)
      end
  end.

(** move_text.rs:420-437: [parse_path_points]. *)
Definition parse_path_points (parts : list str) : option (list nat) :=
  match parts with
  | [] => None
  | first :: more =>
      match parse_from_point first with
      | None => None
      | Some v =>
          match path_rest more with
          | None => None
          | Some vs => match more with [] => None | _ => Some (v :: vs) end
          end
      end
  end.

(** [points.windows(2)] (move_text.rs:152). *)
Fixpoint windows2 (l : list nat) : list (nat * nat) :=
  match l with
  | a :: ((b :: _) as l') => (a, b) :: windows2 l'
  | _ => []
  end.

(** move_text.rs:149-159: the loop of [normalize] over the tokens.  [replace] removes the
    characters '*' (42) and ',' (44); 47 is '/'. *)
Fixpoint normalize_tokens (tokens : list str) : option (list str) :=
  match tokens with
  | [] => Some []
  | token :: more =>
      let cleaned := filter (fun c => negb ((c =? 42) || (c =? 44))) token in
      match parse_path_points (split_on 47 cleaned) with
      | None => None
      | Some points =>
          option_map (app (map (fun w => pair_text (fst w) (snd w)) (windows2 points)))
                     (normalize_tokens more)
      end
  end.

(** move_text.rs:144-165: [normalize]. *)
Definition normalize (text : str) : option str :=
  if eq_ignore_case (trim text) (lit "pass") then Some (lit "pass")
  else match normalize_tokens (split_ws text) with
       | None => None
       | Some [] => None
       | Some steps => Some (join (lit " ") steps)
       end.

(** move_text.rs:294-303: the loop of [parse_move_steps]. *)
Fixpoint parse_step_tokens (tokens : list str) : option (list move_step) :=
  match tokens with
  | [] => Some []
  | token :: more =>
      match split_once 47 token with
      | None => None
      | Some (from, to) =>
          if existsb (Z.eqb 47) to then None
          else match parse_from_point from with
               | None => None
               | Some f => match parse_to_point to with
                           | None => None
                           | Some t => option_map (cons (step f t)) (parse_step_tokens more)
                           end
               end
      end
  end.

(** move_text.rs:289-305: [parse_move_steps]. *)
Definition parse_move_steps (text : str) : option (list move_step) :=
  if eq_ignore_case (trim text) (lit "pass") then Some []
  else parse_step_tokens (split_ws text).

(** move_text.rs:281-287: [step_matches_die]. *)
Definition step_matches_die (s : move_step) (die : nat) : bool :=
  if (ms_to s =? 0)%nat then (ms_from s <=? die)%nat
  else (die <? ms_from s)%nat && (ms_from s - die =? ms_to s)%nat.

(** move_text.rs:447-465: the orders [for_each_die_order] goes through (until the callback says
    stop). *)
Definition die_orders (d : dice) : list (list nat) :=
  match d with
  | Double a => [[a; a; a; a]]
  | Mixed big small => [[big; small]; [small; big]]
  end.

(** The point numbers [1..=25] tried by every search loop (move_text.rs:125, 308, 343). *)
Definition froms : list nat := range 1 26.

(** move_text.rs:125-135: the loop of [find_steps_for_target]: whether a checker could be moved, and
    the first success of the continuation. *)
Fixpoint first_step {A} (try_ : nat -> res (option position)) (k : nat -> position -> res (option A))
         (l : list nat) (moved_any : bool) : res (bool * option A) :=
  match l with
  | [] => Ret (moved_any, None)
  | from :: l' =>
      o <- try_ from ;;
      match o with
      | None => first_step try_ k l' moved_any
      | Some next =>
          r <- k from next ;;
          match r with
          | Some a => Ret (true, Some a)
          | None => first_step try_ k l' true
          end
      end
  end.

(** move_text.rs:112-142: [find_steps_for_target]; the steps found, if any.  [order] is the part of
    the order not yet used. *)
Fixpoint find_steps_for_target (m : mode) (order : list nat) (current target : position)
  : res (option (list move_step)) :=
  match order with
  | [] => Ret (if position_eqb current target then Some [] else None)
  | die :: rest =>
      '(moved_any, found) <-
        first_step (fun from => try_move_single_checker m current from die)
          (fun from next =>
             r <- find_steps_for_target m rest next target ;;
             Ret (option_map (cons (step from (from - die))) r))
          froms false ;;
      match found with
      | Some steps => Ret (Some steps)
      | None => if moved_any then Ret None else find_steps_for_target m rest current target
      end
  end.

(** move_text.rs:96-104: the search over the orders, stopping at the first success. *)
Fixpoint first_order {A} (f : list nat -> res (option A)) (orders : list (list nat)) : res (option A) :=
  match orders with
  | [] => Ret None
  | o :: os => r <- f o ;; match r with Some a => Ret (Some a) | None => first_order f os end
  end.

(** move_text.rs:88-110: [encode_for]. *)
Definition encode_for (m : mode) (start next : position) (d : dice)
  : res (move_text_error + list move_step) :=
  target <- flip m next ;;
  out <- first_order (fun order => find_steps_for_target m order start target) (die_orders d) ;;
  match out with
  | Some found => Ret (inr found)
  | None => Ret (inl EncodeTargetNotReachable)
  end.

(** move_text.rs:57-86: [encode_steps]. *)
Definition encode_steps (m : mode) (v w : vpos) (d : dice) : res (move_text_error + list move_step) :=
  match v, w with
  | VBackgammon p, VBackgammon q => encode_for m p q d
  | VNackgammon p, VNackgammon q => encode_for m p q d
  | VLonggammon p, VLonggammon q => encode_for m p q d
  | VHypergammon p, VHypergammon q => encode_for m p q d
  | VHypergammon2 p, VHypergammon2 q => encode_for m p q d
  | VHypergammon4 p, VHypergammon4 q => encode_for m p q d
  | VHypergammon5 p, VHypergammon5 q => encode_for m p q d
  | _, _ => Ret (inl VariantMismatch)
  end.

(** move_text.rs:48-55: [encode]; variants.rs:190-192: [encode_move]. *)
Definition encode_move (m : mode) (v w : vpos) (d : dice) : res (move_text_error + str) :=
  steps <-? encode_steps m v w d ;; Ret (inr (format_move_steps steps)).

(** move_text.rs:307-309: [any_move_for_die]. *)
Fixpoint any_from (m : mode) (p : position) (die : nat) (l : list nat) : res bool :=
  match l with
  | [] => Ret false
  | from :: l' =>
      o <- try_move_single_checker m p from die ;;
      match o with Some _ => Ret true | None => any_from m p die l' end
  end.
(** move_text.rs:307-309: [any_move_for_die]. *)
Definition any_move_for_die (m : mode) (p : position) (die : nat) : res bool := any_from m p die froms.

(** move_text.rs:244, 263: [used_mask & (1 << idx) != 0] on u8, for idx < 4. *)
Definition bit_set (mask : Z) (idx : nat) : bool := negb (Z.land mask (Z.shiftl 1 (Z.of_nat idx)) =? 0).
(** move_text.rs:272: [used_mask | (1 << idx)] on u8, for idx < 4. *)
Definition set_bit (mask : Z) (idx : nat) : Z := Z.lor mask (Z.shiftl 1 (Z.of_nat idx)).

(** move_text.rs:262-277: the loop over the dice in [apply_steps]. *)
Fixpoint try_dice {A} (f : nat -> nat -> res (option A)) (skip : nat -> bool) (dice_buf : list nat)
         (idxs : list nat) : res (option A) :=
  match idxs with
  | [] => Ret None
  | idx :: more =>
      if skip idx then try_dice f skip dice_buf more
      else
        die <- index dice_buf idx ;;
        r <- f idx die ;;
        match r with Some a => Ret (Some a) | None => try_dice f skip dice_buf more end
  end.

(** move_text.rs:251-279: [apply_steps]. *)
Fixpoint apply_steps (m : mode) (steps : list move_step) (current : position) (dice_buf : list nat)
         (dice_len : nat) (used_mask : Z) : res (option (position * Z)) :=
  match steps with
  | [] => Ret (Some (current, used_mask))
  | s :: more =>
      try_dice
        (fun idx die =>
           if step_matches_die s die then
             o <- try_move_single_checker m current (ms_from s) die ;;
             match o with
             | Some next => apply_steps m more next dice_buf dice_len (set_bit used_mask idx)
             | None => Ret None
             end
           else Ret None)
        (bit_set used_mask) dice_buf (range 0 dice_len)
  end.

(** move_text.rs:243-247: the check that no unused die could still be played. *)
Fixpoint leftover (m : mode) (p : position) (mask : Z) (dice_buf : list nat) (idxs : list nat) : res bool :=
  match idxs with
  | [] => Ret false
  | idx :: more =>
      die <- index dice_buf idx ;;
      if bit_set mask idx then leftover m p mask dice_buf more
      else b <- any_move_for_die m p die ;; if b then Ret true else leftover m p mask dice_buf more
  end.

(** move_text.rs:235-249: [apply_for]. *)
Definition apply_for (m : mode) (p : position) (d : dice) (text : str) : res (option position) :=
  match normalize text with
  | None => Ret None
  | Some normalized =>
      match parse_move_steps normalized with
      | None => Ret None
      | Some steps =>
          let '(dice_buf, dice_len) :=
            match d with
            | Double a => ([a; a; a; a], 4%nat)
            | Mixed big small => ([big; small; 0%nat; 0%nat], 2%nat)
            end in
          r <- apply_steps m steps p dice_buf dice_len 0 ;;
          match r with
          | None => Ret None
          | Some (current, used_mask) =>
              b <- leftover m current used_mask dice_buf (range 0 dice_len) ;;
              if b then Ret None else q <- flip m current ;; Ret (Some q)
          end
      end
  end.

(** move_text.rs:167-185: [apply]; variants.rs:194-196: [apply_move]. *)
Definition option_wrap (wrap : position -> vpos) (r : res (option position)) : res (option vpos) :=
  o <- r ;; Ret (option_map wrap o).
(** move_text.rs:167-185: [apply]; variants.rs:194-196: [apply_move]. *)
Definition apply_move (m : mode) (v : vpos) (d : dice) (text : str) : res (option vpos) :=
  match v with
  | VBackgammon p => option_wrap VBackgammon (apply_for m p d text)
  | VNackgammon p => option_wrap VNackgammon (apply_for m p d text)
  | VLonggammon p => option_wrap VLonggammon (apply_for m p d text)
  | VHypergammon p => option_wrap VHypergammon (apply_for m p d text)
  | VHypergammon2 p => option_wrap VHypergammon2 (apply_for m p d text)
  | VHypergammon4 p => option_wrap VHypergammon4 (apply_for m p d text)
  | VHypergammon5 p => option_wrap VHypergammon5 (apply_for m p d text)
  end.

(** The slots [steps_by_legal_index] (move_text.rs:201-230). *)
Definition slots : Type := list (option (list move_step)).

(** move_text.rs:321-328 and 329-336: a leaf is stored under the (last) index of an equal legal
    child, unless that slot is taken.  [legal_set.contains] and [legal_index_by_child.get] use
    [Position]'s [Eq]/[Hash] (which ignore the turn); later entries of the map replace earlier ones. *)
Definition store (legal : list position) (child : position) (steps : list move_step) (s : slots) : res slots :=
  if existsb (position_eqb child) legal then
    match rposition_of (position_eqb child) legal with
    | Some idx =>
        slot <- index s idx ;;
        match slot with None => assign s idx (Some steps) | Some _ => Ret s end
    | None => Ret s
    end
  else Ret s.

(** move_text.rs:342-358: the loop of [collect_paths]: whether a checker could be moved, and the
    slots. *)
Fixpoint each_step (try_ : nat -> res (option position)) (k : nat -> position -> slots -> res slots)
         (l : list nat) (found_any : bool) (s : slots) : res (bool * slots) :=
  match l with
  | [] => Ret (found_any, s)
  | from :: l' =>
      o <- try_ from ;;
      match o with
      | None => each_step try_ k l' found_any s
      | Some next => s' <- k from next s ;; each_step try_ k l' true s'
      end
  end.

(** move_text.rs:311-371: [collect_paths]. *)
Fixpoint collect_paths (m : mode) (legal : list position) (order : list nat) (current : position)
         (steps : list move_step) (s : slots) : res slots :=
  match order with
  | [] =>
      child <- flip m current ;;
      s <- store legal child steps s ;;
      store legal current steps s
  | die :: rest =>
      '(found_any, s) <-
        each_step (fun from => try_move_single_checker m current from die)
          (fun from next s => collect_paths m legal rest next (steps ++ [step from (from - die)]) s)
          froms false s ;;
      if found_any then Ret s else collect_paths m legal rest current steps s
  end.

(** move_text.rs:226-231: the listed children are those whose slot is filled. *)
Fixpoint filled (wrap : position -> vpos) (legal : list position) (s : slots)
  : list (list move_step * vpos) :=
  match legal, s with
  | child :: legal', Some steps :: s' => (steps, wrap child) :: filled wrap legal' s'
  | _ :: legal', None :: s' => filled wrap legal' s'
  | _, _ => []
  end.

(** move_text.rs:187-233: [legal_for_steps].  [legal_positions_with::<ClassicRules, N>] is
    [classic_positions]. *)
Definition legal_for_steps (m : mode) (N : Z) (start : position) (d : dice) (wrap : position -> vpos)
  : res (move_text_error + list (list move_step * vpos)) :=
  legal <- classic_positions m N start d ;;
  s <- mfold (fun s order =>
         s <- collect_paths m legal order start [] s ;;
         fl <- flip m start ;;
         collect_paths m legal order fl [] s)
       (die_orders d) (repeat None (length legal)) ;;
  Ret (inr (filled wrap legal s)).

(** move_text.rs:22-35: [legal_steps]. *)
Definition legal_steps (m : mode) (v : vpos) (d : dice)
  : res (move_text_error + list (list move_step * vpos)) :=
  match v with
  | VBackgammon p => legal_for_steps m 15 p d VBackgammon
  | VNackgammon p => legal_for_steps m 15 p d VNackgammon
  | VLonggammon p => legal_for_steps m 15 p d VLonggammon
  | VHypergammon p => legal_for_steps m 3 p d VHypergammon
  | VHypergammon2 p => legal_for_steps m 2 p d VHypergammon2
  | VHypergammon4 p => legal_for_steps m 4 p d VHypergammon4
  | VHypergammon5 p => legal_for_steps m 5 p d VHypergammon5
  end.

(** move_text.rs:37-46: [legal]; variants.rs:186-188: [legal_moves]. *)
Definition legal_moves (m : mode) (v : vpos) (d : dice) : res (move_text_error + list (str * vpos)) :=
  with_steps <-? legal_steps m v d ;;
  Ret (inr (map (fun e => (format_move_steps (fst e), snd e)) with_steps)).
