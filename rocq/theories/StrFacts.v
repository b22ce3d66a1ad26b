(** Facts about the string model. *)
From Verif Require Export Str.
Open Scope Z_scope.

Lemma str_eqb_eq a b : str_eqb a b = true <-> a = b.
Proof.
  revert b; induction a as [|x a IH]; intros [|y b]; simpl; split; intros H; try discriminate; auto.
  - apply andb_true_iff in H. destruct H as (H1 & H2). apply Z.eqb_eq in H1. apply IH in H2. congruence.
  - inversion H; subst. apply andb_true_iff. split; [apply Z.eqb_refl|apply IH; auto].
Qed.
Lemma str_eqb_refl a : str_eqb a a = true.
Proof. apply str_eqb_eq. reflexivity. Qed.
Lemma str_eqb_neq a b : str_eqb a b = false <-> a <> b.
Proof.
  split; intros H.
  - intros E. apply str_eqb_eq in E. congruence.
  - destruct (str_eqb a b) eqn:E; auto. apply str_eqb_eq in E. congruence.
Qed.

(** Blank and non-blank strings. *)
Definition blank (s : str) : Prop := Forall (fun c => is_ws c = true) s.
Definition no_ws (s : str) : Prop := Forall (fun c => is_ws c = false) s.

Lemma trim_start_spec s : exists a, s = a ++ trim_start s /\ blank a.
Proof.
  induction s as [|c s (a & E & B)]; simpl.
  - exists []. split; auto. constructor.
  - destruct (is_ws c) eqn:W.
    + exists (c :: a). split; [simpl; congruence|constructor; auto].
    + exists []. split; auto. constructor.
Qed.
Lemma trim_start_head s c s' : trim_start s = c :: s' -> is_ws c = false.
Proof.
  induction s as [|x s IH]; simpl; [discriminate|]. destruct (is_ws x) eqn:W; auto.
  intros E; inversion E; subst; auto.
Qed.
Lemma trim_start_blank_app a s : blank a -> trim_start (a ++ s) = trim_start s.
Proof. induction 1 as [|c a H _ IH]; simpl; auto. rewrite H. exact IH. Qed.
Lemma trim_start_id c s : is_ws c = false -> trim_start (c :: s) = c :: s.
Proof. intros H; simpl; rewrite H; reflexivity. Qed.
Lemma blank_rev a : blank a -> blank (rev a).
Proof. apply Forall_rev. Qed.
Lemma blank_app a b : blank (a ++ b) <-> blank a /\ blank b.
Proof. apply Forall_app. Qed.
Lemma trim_start_blank a : blank a -> trim_start a = [].
Proof. intros H. rewrite <- (app_nil_r a), trim_start_blank_app; auto. Qed.

Lemma trim_end_spec s : exists b, s = trim_end s ++ b /\ blank b.
Proof.
  unfold trim_end. destruct (trim_start_spec (rev s)) as (a & E & B). exists (rev a). split.
  - rewrite <- rev_app_distr, <- E. symmetry. apply rev_involutive.
  - apply blank_rev; auto.
Qed.
Lemma trim_end_app_blank s b : blank b -> trim_end (s ++ b) = trim_end s.
Proof. intros H. unfold trim_end. rewrite rev_app_distr, trim_start_blank_app; auto. apply blank_rev; auto. Qed.
Lemma trim_end_id s c : is_ws c = false -> trim_end (s ++ [c]) = s ++ [c].
Proof. intros H. unfold trim_end. rewrite rev_app_distr. simpl. rewrite H. simpl. rewrite rev_involutive. reflexivity. Qed.
Lemma trim_spec s : exists a b, s = a ++ trim s ++ b /\ blank a /\ blank b.
Proof.
  unfold trim. destruct (trim_start_spec s) as (a & E & A).
  destruct (trim_end_spec (trim_start s)) as (b & E' & B).
  exists a, b. split; auto. congruence.
Qed.

(** [s] begins and ends with a non-blank character. *)
Definition trimmed (s : str) : Prop :=
  (exists c t, s = c :: t /\ is_ws c = false) /\ (exists c t, s = t ++ [c] /\ is_ws c = false).
Lemma trim_trimmed a s b : blank a -> blank b -> trimmed s -> trim (a ++ s ++ b) = s.
Proof.
  intros A B ((c & t & E & C) & (d & u & E' & D)). unfold trim.
  rewrite trim_start_blank_app by auto. rewrite E at 1. simpl (_ ++ _). rewrite trim_start_id by auto.
  change (c :: t ++ b) with ((c :: t) ++ b). rewrite <- E. rewrite trim_end_app_blank by auto.
  rewrite E'. apply trim_end_id; auto.
Qed.
Lemma trim_id s : trimmed s -> trim s = s.
Proof.
  intros H. pose proof (trim_trimmed (a := []) (b := []) ltac:(constructor) ltac:(constructor) H) as E.
  simpl in E. rewrite app_nil_r in E. exact E.
Qed.
Lemma trim_blank s : blank s -> trim s = [].
Proof. intros H. unfold trim. rewrite trim_start_blank by auto. reflexivity. Qed.
Lemma trim_result s : trim s = [] \/ trimmed (trim s).
Proof.
  destruct (trim s) as [|c t] eqn:E; auto. right. rewrite <- E.
  unfold trim in *. destruct (trim_start s) as [|d u] eqn:F; [discriminate|].
  assert (D : is_ws d = false) by (eapply trim_start_head; eauto).
  split.
  - exists c, t. split; auto. destruct (trim_end_spec (d :: u)) as (b & G & _). rewrite E in G.
    inversion G; subst; auto.
  - unfold trim_end. destruct (trim_start (rev (d :: u))) as [|e v] eqn:G.
    + unfold trim_end in E. rewrite G in E. discriminate.
    + exists e, (rev v). split; auto. eapply trim_start_head; eauto.
Qed.
Lemma no_ws_trimmed s : s <> [] -> no_ws s -> trimmed s.
Proof.
  intros N W. split.
  - destruct s as [|c t]; [congruence|]. inversion W; subst. eauto.
  - destruct (exists_last N) as (t & c & ->). apply Forall_app in W. destruct W as (_ & W).
    inversion W; subst. eauto.
Qed.
Lemma trim_no_ws s : no_ws s -> trim s = s.
Proof. destruct s; [reflexivity|]. intros H. apply trim_id, no_ws_trimmed; [discriminate|auto]. Qed.
Lemma no_ws_app a b : no_ws (a ++ b) <-> no_ws a /\ no_ws b.
Proof. apply Forall_app. Qed.

(** split and join *)
Definition without (c : Z) (s : str) : Prop := Forall (fun x => x <> c) s.

Lemma split_on_no c s : without c s -> split_on c s = [s].
Proof.
  induction 1 as [|x s H _ IH]; simpl; auto. destruct (Z.eqb_spec x c); [contradiction|].
  rewrite IH. reflexivity.
Qed.
Lemma split_on_app c s t : without c s -> split_on c (s ++ c :: t) = s :: split_on c t.
Proof.
  induction 1 as [|x s H _ IH]; simpl; [rewrite Z.eqb_refl; reflexivity|].
  destruct (Z.eqb_spec x c); [contradiction|]. rewrite IH. reflexivity.
Qed.
Lemma split_on_join c l : l <> [] -> Forall (without c) l -> split_on c (join [c] l) = l.
Proof.
  intros N F. induction F as [|s l H F IH]; [congruence|]. destruct l as [|t l].
  - simpl. apply split_on_no; auto.
  - change (join [c] (s :: t :: l)) with (s ++ c :: join [c] (t :: l)).
    rewrite split_on_app by auto. rewrite IH by discriminate. reflexivity.
Qed.
Lemma split_on_nonempty c s : split_on c s <> [].
Proof. destruct s; simpl; [discriminate|]. destruct (_ =? _); [discriminate|]. destruct (split_on c s); discriminate. Qed.
Lemma join_split_on c s : join [c] (split_on c s) = s.
Proof.
  induction s as [|x s IH]; simpl; auto. destruct (Z.eqb_spec x c).
  - subst. pose proof (split_on_nonempty c s) as NE. destruct (split_on c s) as [|w ws]; [congruence|].
    change (join [c] ([] :: w :: ws)) with (c :: join [c] (w :: ws)). rewrite IH. reflexivity.
  - destruct (split_on c s) as [|w ws]; [simpl in *; congruence|].
    destruct ws; simpl in *; congruence.
Qed.
Lemma split_on_without c s : Forall (without c) (split_on c s).
Proof.
  induction s as [|x s IH]; simpl; [repeat constructor|]. destruct (Z.eqb_spec x c).
  - constructor; auto. constructor.
  - destruct (split_on c s) as [|w ws]; [repeat constructor; auto|]. inversion IH; subst.
    constructor; auto. constructor; auto.
Qed.

Lemma split_once_app c s t : without c s -> split_once c (s ++ c :: t) = Some (s, t).
Proof.
  induction 1 as [|x s H _ IH]; simpl; [rewrite Z.eqb_refl; reflexivity|].
  destruct (Z.eqb_spec x c); [contradiction|]. rewrite IH. reflexivity.
Qed.
Lemma split_once_none c s : without c s -> split_once c s = None.
Proof.
  induction 1 as [|x s H _ IH]; simpl; auto. destruct (Z.eqb_spec x c); [contradiction|].
  rewrite IH. reflexivity.
Qed.
Lemma split_once_some c s a b : split_once c s = Some (a, b) -> s = a ++ c :: b /\ without c a.
Proof.
  revert a; induction s as [|x s IH]; intros a; simpl; [discriminate|]. destruct (Z.eqb_spec x c).
  - intros E; inversion E; subst. split; auto. constructor.
  - destruct (split_once c s) as [(u, v)|]; [|discriminate]. intros E; inversion E; subst.
    destruct (IH u eq_refl) as (-> & W). split; auto. constructor; auto.
Qed.
Lemma split_once_none_inv c s : split_once c s = None -> without c s.
Proof.
  induction s as [|x s IH]; simpl; [constructor|]. destruct (Z.eqb_spec x c); [discriminate|].
  destruct (split_once c s) as [(u, v)|]; [discriminate|]. intros _. constructor; auto. apply IH; auto.
Qed.

(** split_whitespace *)
Lemma split_ws_raw_no s : no_ws s -> split_ws_raw s = [s].
Proof. induction 1 as [|x s H _ IH]; simpl; auto. rewrite H, IH. reflexivity. Qed.
Lemma split_ws_raw_app s c t : no_ws s -> is_ws c = true -> split_ws_raw (s ++ c :: t) = s :: split_ws_raw t.
Proof.
  intros H C. induction H as [|x s H _ IH]; simpl; [rewrite C; reflexivity|]. rewrite H, IH. reflexivity.
Qed.
Definition word (s : str) : Prop := s <> [] /\ no_ws s.
Lemma split_ws_nil : split_ws [] = [].
Proof. reflexivity. Qed.
Lemma split_ws_word s : word s -> split_ws s = [s].
Proof. intros (N & W). unfold split_ws. rewrite split_ws_raw_no by auto. destruct s; [congruence|reflexivity]. Qed.
Lemma split_ws_cons s c t : word s -> is_ws c = true -> split_ws (s ++ c :: t) = s :: split_ws t.
Proof.
  intros (N & W) C. unfold split_ws. rewrite split_ws_raw_app by auto. simpl.
  destruct s; [congruence|reflexivity].
Qed.
Lemma split_ws_blank_app a t : blank a -> split_ws (a ++ t) = split_ws t.
Proof.
  intros H. unfold split_ws. induction H as [|c a H _ IH]; simpl; auto. rewrite H. simpl. exact IH.
Qed.
Lemma split_ws_join l : Forall word l -> split_ws (join [32] l) = l.
Proof.
  induction 1 as [|s l H F IH]; [reflexivity|]. destruct l as [|t l].
  - simpl. apply split_ws_word; auto.
  - change (join [32] (s :: t :: l)) with (s ++ 32 :: join [32] (t :: l)).
    rewrite split_ws_cons by (auto; reflexivity). rewrite IH. reflexivity.
Qed.
Lemma split_ws_words s : Forall word (split_ws s).
Proof.
  unfold split_ws. assert (H : Forall no_ws (split_ws_raw s)).
  { induction s as [|x s IH]; simpl; [repeat constructor|]. destruct (is_ws x) eqn:W.
    - constructor; auto. constructor.
    - destruct (split_ws_raw s) as [|w ws]; [repeat constructor; auto|]. inversion IH; subst.
      constructor; auto. constructor; auto. }
  induction H as [|w ws H _ IH]; simpl; [constructor|]. destruct w; simpl; auto.
  constructor; auto. split; [discriminate|auto].
Qed.

(** Prefixes *)
Lemma strip_prefix_app p s : strip_prefix p (p ++ s) = Some s.
Proof. induction p as [|x p IH]; simpl; auto. rewrite Z.eqb_refl. exact IH. Qed.
Lemma strip_prefix_some p s t : strip_prefix p s = Some t -> s = p ++ t.
Proof.
  revert s; induction p as [|x p IH]; intros s; simpl; [congruence|]. destruct s as [|y s]; [discriminate|].
  destruct (Z.eqb_spec x y); [|discriminate]. intros H. apply IH in H. congruence.
Qed.
Lemma starts_with_app p s : starts_with p (p ++ s) = true.
Proof. unfold starts_with. rewrite strip_prefix_app. reflexivity. Qed.
Lemma starts_with_iff p s : starts_with p s = true <-> exists t, s = p ++ t.
Proof.
  unfold starts_with. split.
  - destruct (strip_prefix p s) as [t|] eqn:E; [|discriminate]. intros _. exists t. apply strip_prefix_some; auto.
  - intros (t & ->). rewrite strip_prefix_app. reflexivity.
Qed.

(** Case *)
Lemma lower_app a b : lower (a ++ b) = lower a ++ lower b.
Proof. apply map_app. Qed.
Lemma lower_char_idem c : lower_char (lower_char c) = lower_char c.
Proof.
  unfold lower_char. destruct ((65 <=? c) && (c <=? 90)) eqn:E; [|rewrite E; auto].
  apply andb_true_iff in E. rewrite !Z.leb_le in E.
  destruct (Z.leb_spec 65 (c + 32)), (Z.leb_spec (c + 32) 90); simpl; lia.
Qed.
Lemma lower_idem s : lower (lower s) = lower s.
Proof. unfold lower. rewrite map_map. apply map_ext. apply lower_char_idem. Qed.
Lemma is_ws_lower c : is_ws (lower_char c) = is_ws c.
Proof.
  unfold lower_char. destruct ((65 <=? c) && (c <=? 90)) eqn:E; auto.
  apply andb_true_iff in E. rewrite !Z.leb_le in E. unfold is_ws.
  repeat match goal with
  | |- context [?a <=? ?b] => destruct (Z.leb_spec a b); try lia
  | |- context [?a =? ?b] => destruct (Z.eqb_spec a b); try lia
  end; reflexivity.
Qed.
Lemma blank_lower a : blank a -> lower a = a.
Proof.
  induction 1 as [|c a H _ IH]; simpl; auto. rewrite IH. f_equal. unfold lower_char.
  destruct ((65 <=? c) && (c <=? 90)) eqn:E; auto. exfalso.
  apply andb_true_iff in E. rewrite !Z.leb_le in E. revert H. unfold is_ws.
  repeat match goal with
  | |- context [?a <=? ?b] => destruct (Z.leb_spec a b); try lia
  | |- context [?a =? ?b] => destruct (Z.eqb_spec a b); try lia
  end; discriminate.
Qed.
Lemma eq_ignore_case_iff a b : eq_ignore_case a b = true <-> lower a = lower b.
Proof. apply str_eqb_eq. Qed.

(** Decimal numbers *)
Definition is_digits (s : str) : Prop := Forall (fun c => 48 <= c <= 57) s.
Lemma digits_app acc s t v : digits acc s = Some v -> digits acc (s ++ t) = digits v t.
Proof.
  revert acc; induction s as [|c s IH]; simpl; intros acc H; [congruence|].
  destruct (digit c); [auto|discriminate].
Qed.
Lemma digit_chr d : 0 <= d < 10 -> digit (48 + d) = Some d.
Proof.
  intros H. unfold digit. destruct (Z.leb_spec 48 (48 + d)); [|lia].
  destruct (Z.leb_spec (48 + d) 57); [|lia]. cbn [andb]. f_equal. lia.
Qed.
Lemma dec_fuel_spec f : forall n, 0 <= n < 2 ^ Z.of_nat f -> (0 < f)%nat ->
  digits 0 (dec_fuel f n) = Some n /\ is_digits (dec_fuel f n) /\ dec_fuel f n <> [].
Proof.
  induction f as [|f IH]; intros n H F; [lia|]. cbn [dec_fuel]. destruct (Z.ltb_spec n 10).
  - cbn [digits]. rewrite digit_chr by lia. split; [f_equal; lia|]. split; [|discriminate].
    constructor; [lia|constructor].
  - assert (F' : (0 < f)%nat) by (destruct f; [simpl in H; lia|lia]).
    assert (B : 0 <= n / 10 < 2 ^ Z.of_nat f).
    { split; [apply Z.div_pos; lia|]. apply Z.div_lt_upper_bound; [lia|].
      rewrite Nat2Z.inj_succ, Z.pow_succ_r in H by lia. lia. }
    destruct (IH _ B F') as (D & I & N). rewrite (digits_app _ _ _ D).
    pose proof (Z.mod_pos_bound n 10 ltac:(lia)).
    cbn [digits]. rewrite digit_chr by lia. split.
    + f_equal. pose proof (Z.div_mod n 10). lia.
    + split; [|destruct (dec_fuel f (n / 10)); discriminate].
      apply Forall_app. split; [exact I|]. constructor; [lia|constructor].
Qed.
Lemma fmt_uint_spec n : 0 <= n ->
  digits 0 (fmt_uint n) = Some n /\ is_digits (fmt_uint n) /\ fmt_uint n <> [].
Proof.
  intros H. unfold fmt_uint. apply dec_fuel_spec; [|lia]. split; auto.
  pose proof (Z.log2_nonneg n). rewrite Nat2Z.inj_succ, Z2Nat.id by lia.
  destruct (Z.eq_dec n 0) as [->|]; [reflexivity|]. apply Z.log2_spec. lia.
Qed.
Lemma digits1_fmt n : 0 <= n -> digits1 (fmt_uint n) = Some n.
Proof.
  intros H. destruct (fmt_uint_spec H) as (A & _ & N). unfold digits1. destruct (fmt_uint n); [congruence|auto].
Qed.
Lemma fmt_uint_head n : 0 <= n -> exists c t, fmt_uint n = c :: t /\ 48 <= c <= 57.
Proof.
  intros H. destruct (fmt_uint_spec H) as (_ & D & N). destruct (fmt_uint n) as [|c t]; [congruence|].
  inversion D; subst. eauto.
Qed.
Lemma parse_uint_digit max c t : 48 <= c <= 57 ->
  parse_uint max (c :: t) = match digits1 (c :: t) with
                            | Some v => if v <=? max then Some v else None | None => None end.
Proof.
  intros H. destruct c as [|p|p]; try lia. do 6 (destruct p as [p|p|]; try reflexivity; try lia).
Qed.
Lemma parse_int_digit min max c t : 48 <= c <= 57 ->
  parse_int min max (c :: t) = match digits1 (c :: t) with
                            | Some v => if (min <=? v) && (v <=? max) then Some v else None | None => None end.
Proof.
  intros H. destruct c as [|p|p]; try lia. do 6 (destruct p as [p|p|]; try reflexivity; try lia).
Qed.
Lemma parse_uint_fmt max n : 0 <= n <= max -> parse_uint max (fmt_uint n) = Some n.
Proof.
  intros H. destruct (fmt_uint_head (n := n) ltac:(lia)) as (c & t & E & C).
  pose proof (digits1_fmt (n := n) ltac:(lia)) as D. rewrite E in *.
  rewrite parse_uint_digit, D by auto. destruct (Z.leb_spec n max); [auto|lia].
Qed.
Lemma parse_int_fmt min max z : min <= z <= max -> parse_int min max (fmt_int z) = Some z.
Proof.
  intros H. unfold fmt_int. destruct (Z.ltb_spec z 0).
  - unfold parse_int. rewrite digits1_fmt by lia. cbv zeta. rewrite Z.opp_involutive.
    destruct (Z.leb_spec min z); [|lia]. destruct (Z.leb_spec z max); [|lia]. reflexivity.
  - destruct (fmt_uint_head (n := z) ltac:(lia)) as (c & t & E & C).
    pose proof (digits1_fmt (n := z) ltac:(lia)) as D. rewrite E in *.
    rewrite parse_int_digit, D by auto.
    destruct (Z.leb_spec min z); [|lia]. destruct (Z.leb_spec z max); [|lia]. reflexivity.
Qed.
Lemma fmt_uint_inj a b : 0 <= a -> 0 <= b -> fmt_uint a = fmt_uint b -> a = b.
Proof. intros A B E. pose proof (digits1_fmt A). pose proof (digits1_fmt B). congruence. Qed.
Lemma fmt_int_inj a b : fmt_int a = fmt_int b -> a = b.
Proof.
  intros E.
  assert (P : forall z, parse_int (Z.min a b) (Z.max a b) (fmt_int z) = Some z \/ z < Z.min a b \/ Z.max a b < z).
  { intros z. destruct (Z_lt_le_dec z (Z.min a b)); auto. destruct (Z_lt_le_dec (Z.max a b) z); auto.
    left. apply parse_int_fmt. lia. }
  destruct (P a) as [A|A]; [|lia]. destruct (P b) as [B|B]; [|lia]. congruence.
Qed.
Lemma is_digits_no_ws s : is_digits s -> no_ws s.
Proof.
  unfold is_digits, no_ws. intros H. eapply Forall_impl; [|exact H]. simpl. intros c C. unfold is_ws.
  repeat match goal with
  | |- context [?a <=? ?b] => destruct (Z.leb_spec a b); try lia
  | |- context [?a =? ?b] => destruct (Z.eqb_spec a b); try lia
  end; reflexivity.
Qed.
Lemma is_digits_without s c : is_digits s -> ~ 48 <= c <= 57 -> without c s.
Proof. unfold is_digits, without. intros H C. eapply Forall_impl; [|exact H]. simpl. intros; lia. Qed.
Lemma fmt_uint_word n : 0 <= n -> word (fmt_uint n).
Proof. intros H. destruct (fmt_uint_spec H) as (_ & D & N). split; auto. apply is_digits_no_ws; auto. Qed.
Lemma fmt_int_word z : word (fmt_int z).
Proof.
  unfold fmt_int. destruct (Z.ltb_spec z 0); [|apply fmt_uint_word; lia].
  split; [discriminate|]. constructor; [reflexivity|apply fmt_uint_word; lia].
Qed.
Lemma fmt_int_without z c : c <> 45 -> ~ 48 <= c <= 57 -> without c (fmt_int z).
Proof.
  intros H C. unfold fmt_int. destruct (Z.ltb_spec z 0).
  - constructor; [congruence|]. apply is_digits_without; auto. apply fmt_uint_spec; lia.
  - apply is_digits_without; auto. apply fmt_uint_spec; lia.
Qed.
Lemma fmt_uint_without z c : 0 <= z -> ~ 48 <= c <= 57 -> without c (fmt_uint z).
Proof. intros H C. apply is_digits_without; auto. apply fmt_uint_spec; lia. Qed.
