(** Model of /repo/src/game.rs. *)
From Verif Require Export Rules.
Open Scope Z_scope.

(** game.rs:7-15: [GameError]. *)
Inductive game_error : Type := VariantMismatch | LegalMoveIndexOutOfBounds | PolicyIndexOutOfBounds.

(** game.rs:17-21: [Game]. *)
Record game : Type := { g_variant : variant; g_position : vpos }.

(** A [Result<A, GameError>] (game.rs:39, 59, 63, 84). *)
Inductive gres (A : Type) : Type := GOk (a : A) | GErr (e : game_error).
Arguments GOk {A} _.
Arguments GErr {A} _.

(** game.rs:24-29: [Game::new]. *)
Definition game_new (v : variant) : game := {| g_variant := v; g_position := start_position v |}.

(** game.rs:39-45: [set_position]; returns the result and the game afterwards. *)
Definition set_position (g : game) (p : vpos) : gres unit * game :=
  if negb (variant_eqb (vp_variant p) (g_variant g)) then (GErr VariantMismatch, g)
  else (GOk tt, {| g_variant := g_variant g; g_position := p |}).

(** game.rs:47-49: [reset]. *)
Definition reset (g : game) : game :=
  {| g_variant := g_variant g; g_position := start_position (g_variant g) |}.

(** A rule set (the trait [VariantRules], rules.rs:9-11). *)
Definition rules : Type := vpos -> dice -> res (list vpos).

(** game.rs:51-57: [legal_positions], [legal_positions_with]. *)
Definition game_legal_positions_with (R : rules) (g : game) (d : dice) : res (list vpos) :=
  R (g_position g) d.
(** game.rs:51-53: [legal_positions]. *)
Definition game_legal_positions (m : mode) (g : game) (d : dice) : res (list vpos) :=
  game_legal_positions_with (classic_rules m) g d.

(** game.rs:63-74: [apply_nth_legal_position_with]; 59-61 is the classic instance. *)
Definition apply_nth_with (R : rules) (g : game) (d : dice) (index_ : nat)
  : res (gres unit * game) :=
  legal <- game_legal_positions_with R g d ;;
  if (length legal <=? index_)%nat then Ret (GErr LegalMoveIndexOutOfBounds, g)
  else
    p <- index legal index_ ;;
    Ret (GOk tt, {| g_variant := g_variant g; g_position := p |}).
(** game.rs:59-61: [apply_nth_legal_position]. *)
Definition apply_nth_legal_position (m : mode) := apply_nth_with (classic_rules m).

(** game.rs:76-82: [phase], [game_state]. *)
Definition game_phase_of (m : mode) (g : game) : res game_phase := vp_phase m (g_position g).
(** game.rs:80-82: [game_state]. *)
Definition game_state_of (m : mode) (g : game) : res game_state_t := vp_game_state m (g_position g).

(** A dice generator (the trait [DiceGen], dice_gen.rs:5-25): a state with [roll] and
    [roll_mixed]. *)
Record dice_gen (G : Type) : Type := {
  gen_roll : G -> res (dice * G);
  gen_roll_mixed : G -> res (dice * G)
}.
Arguments gen_roll {G} _ _.
Arguments gen_roll_mixed {G} _ _.

(** game.rs:84-92: a policy ([FnMut(VariantPosition, &Dice, &[VariantPosition]) -> usize]): a state
    machine that returns an index. *)
Definition policy (S : Type) : Type := S -> vpos -> dice -> list vpos -> nat * S.

(** game.rs:84-117: [play_episode_with].  [todo] is the number of remaining iterations of
    the [for ply in 0..max_plies] loop, [ply] the loop variable.  Returns the result and
    the game, dice generator and policy state afterwards. *)
Fixpoint episode_loop {G S} (m : mode) (R : rules) (D : dice_gen G) (P : policy S)
         (max_plies : nat) (todo ply : nat) (g : game) (dg : G) (ps : S)
  : res (gres nat * game * G * S) :=
  match todo with
  | O => Ret (GOk max_plies, g, dg, ps)
  | Datatypes.S todo' =>
      '(d, dg) <- (if (ply =? 0)%nat then gen_roll_mixed D dg else gen_roll D dg) ;;
      legal <- game_legal_positions_with R g d ;;
      match legal with
      | [] => Ret (GOk ply, g, dg, ps)
      | _ :: _ =>
          let '(i, ps) := P ps (g_position g) d legal in
          if (length legal <=? i)%nat then Ret (GErr PolicyIndexOutOfBounds, g, dg, ps)
          else
            p <- index legal i ;;
            let g := {| g_variant := g_variant g; g_position := p |} in
            gs <- vp_game_state m (g_position g) ;;
            match gs with
            | GameOver _ => Ret (GOk (ply + 1)%nat, g, dg, ps)
            | Ongoing => episode_loop m R D P max_plies todo' (ply + 1) g dg ps
            end
      end
  end.
(** game.rs:84-117: [play_episode_with]. *)
Definition play_episode_with {G S} (m : mode) (R : rules) (D : dice_gen G) (P : policy S)
           (max_plies : nat) (g : game) (dg : G) (ps : S) :=
  episode_loop m R D P max_plies max_plies 0 g dg ps.

(** game.rs:119-129: [play_episode]. *)
Definition play_episode {G S} (m : mode) (D : dice_gen G) (P : policy S) (max_plies : nat)
           (g : game) (dg : G) (ps : S) :=
  play_episode_with m (classic_rules m) D P max_plies g dg ps.
