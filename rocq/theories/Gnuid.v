(** Model of /repo/src/codecs/gnuid.rs. *)
From Coq Require Import Strings.String.
From Verif Require Export Base64 Variants.
Open Scope Z_scope.

(** gnuid.rs:8-14: [GnuidError]. *)
Inductive gnuid_error : Type := GnuidInvalidPayload | GnuidKeyLength.

(** gnuid.rs:85, 91, 98, 104: [key[bit_index / 8] |= 1 << (bit_index % 8)]. *)
Definition set_bit (key : list Z) (bit_index : nat) : res (list Z) :=
  v <- index key (bit_index / 8) ;;
  assign key (bit_index / 8) (Z.lor v (Z.shiftl 1 (Z.of_nat (bit_index mod 8)))).

(** gnuid.rs:84-87 (and 90-93, 97-100, 103-106): [for _ in 0..n { set bit; bit_index += 1 }]. *)
Fixpoint set_bits (n : nat) (key : list Z) (bit_index : nat) : res (list Z * nat) :=
  match n with
  | O => Ret (key, bit_index)
  | S n' => key <- set_bit key bit_index ;; set_bits n' key (bit_index + 1)
  end.

(** gnuid.rs:79-109: [encode_key]. *)
Definition encode_key (m : mode) (p : position) : res (list Z) :=
  let key := repeat 0 10 in
  '(key, bit) <- mfold (fun '(key, bit) point =>
      v <- pip p point ;; n <- i8 m (- v) ;;
      '(key, bit) <- set_bits (Z.to_nat n) key bit ;; Ret (key, (bit + 1)%nat))
    (rev (range (O_BAR + 1) X_BAR)) (key, O) ;;
  ob <- o_bar m p ;;
  '(key, bit) <- set_bits (Z.to_nat ob) key bit ;;
  let bit := (bit + 1)%nat in
  '(key, bit) <- mfold (fun '(key, bit) point =>
      v <- pip p point ;;
      '(key, bit) <- set_bits (Z.to_nat v) key bit ;; Ret (key, (bit + 1)%nat))
    (range (O_BAR + 1) X_BAR) (key, bit) ;;
  xb <- x_bar p ;;
  '(key, _) <- set_bits (Z.to_nat xb) key bit ;;
  Ret key.

(** gnuid.rs:119, 126, 134, 141: [(key[bit_index / 8] >> (bit_index % 8)) & 1 == 1]. *)
Definition get_bit (key : list Z) (bit_index : nat) : res bool :=
  v <- index key (bit_index / 8) ;;
  Ret (Z.land (Z.shiftr v (Z.of_nat (bit_index mod 8))) 1 =? 1).

(** gnuid.rs:119-123 (and 126-130, 134-138, 141-145): the [while] loops; [step] is -1 for o and
    +1 for x.  A 10-byte key is exhausted (index panic) after at most 80 iterations, so the fuel
    81 used below never runs out before that. *)
Fixpoint run_bits (fuel : nat) (m : mode) (step : Z) (key ps : list Z) (point : nat) (pieces : Z)
         (bit_index : nat) : res (list Z * Z * nat) :=
  match fuel with
  | O => Panic IndexOOB
  | S fuel' =>
      b <- get_bit key bit_index ;;
      if b then
        v <- index ps point ;;
        v <- i8 m (v + step) ;;
        ps <- assign ps point v ;;
        pieces <- u8 m (pieces + 1) ;;
        run_bits fuel' m step key ps point pieces (bit_index + 1)
      else Ret (ps, pieces, bit_index)
  end.

(** gnuid.rs:111-153: [decode_key]. *)
Definition decode_key (m : mode) (N : Z) (key : list Z) : res position :=
  let ps := repeat 0 26 in
  '(ps, o_pieces, bit) <- mfold (fun '(ps, pieces, bit) point =>
      '(ps, pieces, bit) <- run_bits 81 m (-1) key ps point pieces bit ;;
      Ret (ps, pieces, (bit + 1)%nat))
    (rev (range (O_BAR + 1) X_BAR)) (ps, 0, O) ;;
  '(ps, o_pieces, bit) <- run_bits 81 m (-1) key ps O_BAR o_pieces bit ;;
  let bit := (bit + 1)%nat in
  '(ps, x_pieces, bit) <- mfold (fun '(ps, pieces, bit) point =>
      '(ps, pieces, bit) <- run_bits 81 m 1 key ps point pieces bit ;;
      Ret (ps, pieces, (bit + 1)%nat))
    (range (O_BAR + 1) X_BAR) (ps, 0, bit) ;;
  '(ps, x_pieces, _) <- run_bits 81 m 1 key ps X_BAR x_pieces bit ;;
  xo <- u8 m (N - x_pieces) ;;
  oo <- u8 m (N - o_pieces) ;;
  Ret {| turn := true; pips := ps; x_off := xo; o_off := oo |}.

(** gnuid.rs:54-62: [encode_for_position], [encode_position].  The base64 text of 10 bytes has 16
    characters, so the slice [..14] is in range. *)
Definition gnuid_encode_position (m : mode) (p : position) : res str :=
  key <- encode_key m p ;; Ret (firstn 14 (b64_encode key)).

(** gnuid.rs:64-77: [decode_for_position], [decode_position]. *)
Definition gnuid_decode_position (m : mode) (N : Z) (id : str) : res (gnuid_error + position) :=
  match b64_decode (id ++ lit "==") with
  | None => Ret (inl GnuidInvalidPayload)
  | Some key =>
      if (length key =? 10)%nat then p <- decode_key m N key ;; Ret (inr p)
      else Ret (inl GnuidKeyLength)
  end.

(** gnuid.rs:30-40: [encode]. *)
Definition gnuid_encode (m : mode) (v : vpos) : res str :=
  match v with
  | VBackgammon p => gnuid_encode_position m p
  | VNackgammon p => gnuid_encode_position m p
  | VLonggammon p => gnuid_encode_position m p
  | VHypergammon p => gnuid_encode_position m p
  | VHypergammon2 p => gnuid_encode_position m p
  | VHypergammon4 p => gnuid_encode_position m p
  | VHypergammon5 p => gnuid_encode_position m p
  end.

(** [.map(f)] on a result that may panic (gnuid.rs:42-52). *)
Definition rmap_ok {E A B} (f : A -> B) (r : res (E + A)) : res (E + B) :=
  x <- r ;; Ret (match x with inl e => inl e | inr a => inr (f a) end).

(** gnuid.rs:42-52: [decode]. *)
Definition gnuid_decode (m : mode) (v : variant) (id : str) : res (gnuid_error + vpos) :=
  match v with
  | Backgammon => rmap_ok VBackgammon (gnuid_decode_position m 15 id)
  | Nackgammon => rmap_ok VNackgammon (gnuid_decode_position m 15 id)
  | Longgammon => rmap_ok VLonggammon (gnuid_decode_position m 15 id)
  | Hypergammon => rmap_ok VHypergammon (gnuid_decode_position m 3 id)
  | Hypergammon2 => rmap_ok VHypergammon2 (gnuid_decode_position m 2 id)
  | Hypergammon4 => rmap_ok VHypergammon4 (gnuid_decode_position m 4 id)
  | Hypergammon5 => rmap_ok VHypergammon5 (gnuid_decode_position m 5 id)
  end.
