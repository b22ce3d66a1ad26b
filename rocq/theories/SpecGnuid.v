(** Independent specification of GNU Backgammon position keys: 80 bits, lowest bit of the first
    byte first.  Checker counts are written in unary (k ones and a zero): first the opponent's on
    points 24, 23, .., 1 (seen from the mover) and its bar, then the mover's on points 1, .., 24
    and bar. *)
From Verif Require Export SpecVariants.
Open Scope Z_scope.

Definition key_bit (key : list Z) (i : nat) : bool :=
  Z.testbit (nth (i / 8) key 0) (Z.of_nat (i mod 8)).

(** From position [b] on, the bits [f] are the counts [ks] in unary. *)
Fixpoint unary (f : nat -> bool) (b : nat) (ks : list nat) : Prop :=
  match ks with
  | [] => True
  | k :: ks' => (forall j, (b <= j < b + k)%nat -> f j = true) /\ f (b + k)%nat = false /\
                unary f (b + k + 1) ks'
  end.
Definition total (ks : list nat) : nat := fold_right Nat.add 0%nat ks.

(** [o i], [x i]: number of checkers of each side on point [i] (0 and 25 are the bars). *)
Definition counts (o x : nat -> nat) : list nat :=
  map o (rev (seq 1 24)) ++ [o 0%nat] ++ map x (seq 1 24) ++ [x 25%nat].
Definition key_lists (key : list Z) (o x : nat -> nat) : Prop :=
  length key = 10%nat /\ unary (key_bit key) 0 (counts o x) /\ (total (counts o x) + 50 <= 80)%nat.

Definition o_total (o : nat -> nat) : nat := total (map o (seq 0 25)).
Definition x_total (x : nat -> nat) : nat := total (map x (seq 1 25)).

(** The checkers a position shows. *)
Definition o_on (p : position) (i : nat) : nat := Z.to_nat (- pt p i).
Definition x_on (p : position) (i : nat) : nat := Z.to_nat (pt p i).

(** A base64 character: A-Z, a-z, 0-9, + or /. *)
Definition base64_char (c : Z) : Prop :=
  65 <= c <= 90 \/ 97 <= c <= 122 \/ 48 <= c <= 57 \/ c = 43 \/ c = 47.

(** Shape of a position ID: 14 base64 characters for 10 bytes, so the last character holds only two
    bits and is one of A, Q, g, w. *)
Definition id_shape (id : list Z) : Prop :=
  length id = 14%nat /\ Forall base64_char id /\ In (last id 0) [65; 81; 103; 119].
Definition is_byte (v : Z) : Prop := 0 <= v < 256.

(** Base64 (RFC 4648): each character stands for six bits, highest first, of the bits of the bytes, highest bit of the
    first byte first; bits beyond the last byte are zero. *)
Definition base64_alphabet : list Z :=
  map Z.of_nat (seq 65 26 ++ seq 97 26 ++ seq 48 10 ++ [43%nat; 47%nat]).
Definition stream_bit (bytes : list Z) (n : nat) : bool :=
  Z.testbit (nth (n / 8) bytes 0) (7 - Z.of_nat (n mod 8)).
Definition in_base64 (id bytes : list Z) : Prop :=
  length id = 14%nat /\ forall i, (i < 14)%nat -> exists v, (v < 64)%nat /\ nth i id 0 = nth v base64_alphabet 0 /\
    forall j, (j < 6)%nat -> Z.testbit (Z.of_nat v) (5 - Z.of_nat j) = stream_bit bytes (6 * i + j).

(** The bits after the listed checkers are zero. *)
Definition rest_clear (key : list Z) (o x : nat -> nat) : Prop :=
  forall j, (total (counts o x) + 50 <= j < 80)%nat -> key_bit key j = false.

(** [key] is the ten bytes that the text [id] spells. *)
Definition key_of (id key : list Z) : Prop :=
  length key = 10%nat /\ Forall is_byte key /\ in_base64 id key.
