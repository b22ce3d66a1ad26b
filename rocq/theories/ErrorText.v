(** Model of the texts of the error types ([thiserror]'s derived [Display]). *)
From Coq Require Import Strings.String.
From Verif Require Export EngineSpec Xgid Gnuid Fibs MoveText Game.
Open Scope Z_scope.

(** xgid.rs:7-12. *)
Definition xgid_error_text (e : xgid_error) : str :=
  match e with
  | XgidInvalidPayload => lit "invalid XGID payload"
  | XgidInvalidField name => lit "invalid XGID field '" ++ name ++ lit "'"
  | XgidInvalidPosition => lit "invalid XGID position"
  end.
(** gnuid.rs:10-13; the only field ever named is "key_length" (gnuid.rs:71). *)
Definition gnuid_error_text (e : gnuid_error) : str :=
  match e with
  | GnuidInvalidPayload => lit "invalid GNUID payload"
  | GnuidKeyLength => lit "invalid GNUID field '" ++ lit "key_length" ++ lit "'"
  end.
(** fibs.rs:8-13. *)
Definition fibs_error_text (e : fibs_error) : str :=
  match e with
  | FibsInvalidPayload => lit "invalid FIBS payload"
  | FibsInvalidField name => lit "invalid FIBS field '" ++ name ++ lit "'"
  | FibsInvalidPosition => lit "invalid FIBS position"
  end.
(** engine_spec.rs:5-8. *)
Definition engine_spec_error_text (e : engine_spec_error) : str :=
  match e with
  | InvalidSpec s => lit "invalid engine spec '" ++ s ++ lit "'"
  | InvalidOverride part spec => lit "invalid engine override '" ++ part ++ lit "' in '" ++ spec ++ lit "'"
  end.
(** move_text.rs:8-11. *)
Definition move_text_error_text (e : move_text_error) : str :=
  match e with
  | MoveText.VariantMismatch => lit "variant mismatch while encoding move"
  | EncodeTargetNotReachable => lit "failed to derive move text from legal child"
  end.
(** game.rs:9-14. *)
Definition game_error_text (e : game_error) : str :=
  match e with
  | Game.VariantMismatch => lit "position variant does not match game variant"
  | LegalMoveIndexOutOfBounds => lit "legal move index out of bounds"
  | PolicyIndexOutOfBounds => lit "policy returned out-of-bounds legal move index"
  end.
