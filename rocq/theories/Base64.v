(** Model of the base64 crate's [STANDARD] engine (0.21: standard alphabet, canonical padding
    required, trailing bits must be zero), as used by /repo/src/codecs/gnuid.rs:54-58, 64-68.  This
    models a dependency, not a file of /repo. *)
From Verif Require Export Str.
Open Scope Z_scope.

(** The alphabet A-Z a-z 0-9 + /. *)
Definition b64_char (n : Z) : Z :=
  if n <? 26 then 65 + n
  else if n <? 52 then 71 + n
  else if n <? 62 then n - 4
  else if n =? 62 then 43 else 47.
(** The value of a character of the alphabet (base64 crate, called from gnuid.rs:66-67). *)
Definition b64_value (c : Z) : option Z :=
  if (65 <=? c) && (c <=? 90) then Some (c - 65)
  else if (97 <=? c) && (c <=? 122) then Some (c - 71)
  else if (48 <=? c) && (c <=? 57) then Some (c + 4)
  else if c =? 43 then Some 62
  else if c =? 47 then Some 63
  else None.

(** [STANDARD.encode] (base64 crate, called from gnuid.rs:56). *)
Fixpoint b64_encode (l : list Z) : str :=
  match l with
  | [] => []
  | [a] => [b64_char (a / 4); b64_char (a mod 4 * 16); 61; 61]
  | [a; b] => [b64_char (a / 4); b64_char (a mod 4 * 16 + b / 16); b64_char (b mod 16 * 4); 61]
  | a :: b :: c :: l' =>
      [b64_char (a / 4); b64_char (a mod 4 * 16 + b / 16); b64_char (b mod 16 * 4 + c / 64);
       b64_char (c mod 64)] ++ b64_encode l'
  end.

(** A full group of four characters. *)
Definition b64_group (c0 c1 c2 c3 : Z) : option (list Z) :=
  match b64_value c0, b64_value c1, b64_value c2, b64_value c3 with
  | Some a, Some b, Some c, Some d =>
      Some [a * 4 + b / 16; b mod 16 * 16 + c / 4; c mod 4 * 64 + d]
  | _, _, _, _ => None
  end.
(** The last group: full, or with one or two '=' and zero trailing bits. *)
Definition b64_last (c0 c1 c2 c3 : Z) : option (list Z) :=
  if c3 =? 61 then
    if c2 =? 61 then
      match b64_value c0, b64_value c1 with
      | Some a, Some b => if b mod 16 =? 0 then Some [a * 4 + b / 16] else None
      | _, _ => None
      end
    else
      match b64_value c0, b64_value c1, b64_value c2 with
      | Some a, Some b, Some c =>
          if c mod 4 =? 0 then Some [a * 4 + b / 16; b mod 16 * 16 + c / 4] else None
      | _, _, _ => None
      end
  else b64_group c0 c1 c2 c3.

(** [STANDARD.decode] (base64 crate, called from gnuid.rs:66-67); errors are not distinguished (gnuid.rs:68). *)
Fixpoint b64_decode (s : str) : option (list Z) :=
  match s with
  | [] => Some []
  | [c0; c1; c2; c3] => b64_last c0 c1 c2 c3
  | c0 :: c1 :: c2 :: c3 :: s' =>
      match b64_group c0 c1 c2 c3, b64_decode s' with
      | Some g, Some l => Some (g ++ l)
      | _, _ => None
      end
  | _ => None
  end.
