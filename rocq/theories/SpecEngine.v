(** Independent specification of engine specs such as "hawk@v1.3:ply=2,top_k=8". *)
From Coq Require Import Strings.String.
From Verif Require Export SpecFibs EngineSpec.
Open Scope Z_scope.

(** Alias and version: "alias@version", split at the first '@', or an alias alone; an '@' with nothing
    but blanks behind it is part of the alias. *)
Definition head_text (h alias : str) (version : option str) : Prop :=
  match version with
  | Some ver => exists a v, h = a ++ lit "@" ++ v /\ ~ In 64 a /\ stripped a alias /\ stripped v ver /\ ver <> []
  | None => stripped h alias /\ forall a v, h = a ++ lit "@" ++ v -> ~ In 64 a -> only_blanks v
  end.

(** The full name of an option: "engine." in front unless it is there already. *)
Definition full_name (k n : str) : Prop :=
  (exists t, k = lit "engine." ++ t /\ n = k) \/ ((forall t, k <> lit "engine." ++ t) /\ n = lit "engine." ++ k).

(** One override "key=value", split at the first '='; blanks around key and value are dropped. *)
Definition override_text (w : str) (e : str * str) : Prop :=
  exists k v n, w = k ++ lit "=" ++ v /\ ~ In 61 k /\ stripped k n /\ full_name n (fst e) /\ stripped v (snd e).

(** Comma-separated overrides, blank ones ignored. *)
Inductive overrides_text : list str -> list (str * str) -> Prop :=
| overrides_none : overrides_text [] []
| overrides_blank w ws es : only_blanks w -> overrides_text ws es -> overrides_text (w :: ws) es
| overrides_some w ws e es : override_text w e -> overrides_text ws es -> overrides_text (w :: ws) (e :: es).

(** The whole text: alias, version, and the overrides as written. *)
Definition engine_text (s alias : str) (version : option str) (es : list (str * str)) : Prop :=
  exists h ws, ~ In 58 h /\ head_text h alias version /\ alias <> [] /\
    ((s = h /\ ws = []) \/ (s = h ++ lit ":" ++ join (lit ",") ws /\ ws <> [])) /\
    Forall (fun w => ~ In 44 w) ws /\ overrides_text ws es.

(** The options: each key once, in increasing order, with the last value given. *)
Definition comes_before (a b : str) : Prop :=
  exists p, (exists y b', a = p /\ b = p ++ y :: b') \/
            (exists x y a' b', a = p ++ x :: a' /\ b = p ++ y :: b' /\ x < y).
Definition in_key_order (m : list (str * str)) : Prop :=
  forall a b c x y, m = a ++ x :: b ++ y :: c -> comes_before (fst x) (fst y).
Definition options_of (es m : list (str * str)) : Prop :=
  in_key_order m /\ forall k v, In (k, v) m <-> last_value k es v.

(** Keys that survive formatting: "engine." followed by something that does not begin with "engine."
    or a blank, and does not end with one. *)
Definition plain_key (k : str) : Prop :=
  exists t, k = lit "engine." ++ t /\ stripped t t /\ forall u, t <> lit "engine." ++ u.
