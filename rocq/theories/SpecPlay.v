(** Independent specification of a game refereed over UBGI: a referee keeps the position, and for each
    roll sends it to an engine session, asks for a move and plays the answer. *)
From Coq Require Import Strings.String.
From Verif Require Export SpecUbgi SpecGame.
Open Scope Z_scope.

(** The lines the referee sends: the position ID, the dice and the question. *)
Definition position_text (id : str) : str := lit "position gnubgid " ++ id.
Definition roll_text (a b : nat) : str := lit "dice " ++ [48 + Z.of_nat a; 32; 48 + Z.of_nat b].
Definition question : str := lit "go".

(** One turn with the roll [a], [b] at position [v]: the session (engine state and session state before
    and after) takes the position and the dice silently and answers with one move, which the library
    of the referee (in build [mr], the session's in build [m]) turns into the next position. *)
Definition one_turn {E} (m mr : mode) (A : engine E) (s : E * session) (v : vpos) (a b : nat)
    (s' : E * session) (w : vpos) : Prop :=
  exists id s1 s2 t d,
    gnuid_encode mr v = Ret id /\
    session_step m A (fst s) (snd s) (position_text id) = Ret (s1, [], false) /\
    session_step m A (fst s1) (snd s1) (roll_text a b) = Ret (s2, [], false) /\
    session_step m A (fst s2) (snd s2) question = Ret (s', [lit "bestmove " ++ t], false) /\
    dice_new mr a b = Ret d /\ apply_move mr v d t = Ret (Some w).

(** Playing with a list of rolls until they run out or somebody has borne off everything. *)
Inductive refereed {E} (m mr : mode) (A : engine E) : E * session -> vpos -> list (nat * nat) -> E * session -> vpos -> Prop :=
| ref_end s v : refereed m mr A s v [] s v
| ref_over s v rolls : ~ vongoing v -> refereed m mr A s v rolls s v
| ref_turn s v a b rolls s1 w s2 u : vongoing v -> one_turn m mr A s v a b s1 w -> refereed m mr A s1 w rolls s2 u ->
    refereed m mr A s v ((a, b) :: rolls) s2 u.

(** The steps are a play of the roll: they use dice of the roll one after the other, none that is left
    over could still be played, and the result is that of a legal play. *)
Definition plays_roll (d : dice) (p : position) (steps : list move_step) : Prop :=
  exists ds rest r, Permutation.Permutation (ds ++ rest) (pool d) /\ plays_as ds steps p r /\
    (forall x, In x rest -> forall a, ~ may_move r x a) /\ legal_result d p r.

(** An engine that answers every position of the variant that goes on with such steps. *)
Definition plays_legally {E} (A : engine E) (k : variant) : Prop :=
  forall e v d, vwf k v -> vongoing v -> valid_dice d ->
  exists e' steps, choose_move A e {| g_variant := k; g_position := v |} d = Ret (e', inr steps) /\
    plays_roll d (board_of v) steps.
