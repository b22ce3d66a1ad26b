(** Independent specification of the lines that describe an option:
    key <name> <type> [<domain>] <default> [!] [<description>...]. *)
From Coq Require Import Strings.String.
From Verif Require Export SpecMoveText Ubgi.
Open Scope Z_scope.

(** "a..b" *)
Definition has_dots (w : str) : Prop := exists a b, w = a ++ lit ".." ++ b.

Definition key_line (line : str) (l : key_line_spec) : Prop :=
  exists description,
    words line ([lit "key"; kl_name l; kl_key_type l] ++ (match kl_domain l with Some d => [d] | None => [] end) ++
                [kl_default l] ++ (if kl_minor l then [lit "!"] else []) ++ description) /\
    kl_description l = join (lit " ") description /\
    (* the mark "!" is never taken for the description *)
    (kl_minor l = false -> forall w rest, description = w :: rest -> w <> lit "!") /\
    (* booleans have no domain, integers only one with dots, all others have one *)
    match kl_domain l with
    | Some d => kl_key_type l <> lit "bool" /\ (kl_key_type l = lit "int" -> has_dots d)
    | None => kl_key_type l = lit "bool" \/ (kl_key_type l = lit "int" /\ ~ has_dots (kl_default l))
    end.
