(** Decimal numerals. *)
From Verif Require Export SpecText.
From Verif Require Import StrFacts DebugFacts.
Open Scope Z_scope.

Lemma digit_some c d : digit c = Some d <-> 0 <= d <= 9 /\ c = 48 + d.
Proof.
  unfold digit. destruct (Z.leb_spec 48 c), (Z.leb_spec c 57); cbn [andb]; split; intros E; try discriminate E; try lia;
  try (apply Some_inj in E; lia); f_equal; lia.
Qed.
Lemma digits_some s : forall acc v, digits acc s = Some v <-> exists ds, Forall (fun d => 0 <= d <= 9) ds /\
  s = map (Z.add 48) ds /\ v = fold_left (fun a d => 10 * a + d) ds acc.
Proof.
  induction s as [|c s IH]; intros acc v; cbn [digits].
  - split.
    + intros E. apply Some_inj in E. exists []. split; [constructor|]. split; auto.
    + intros (ds & _ & E & V). destruct ds; [|discriminate E]. cbn [fold_left] in V. subst. reflexivity.
  - split.
    + destruct (digit c) as [d|] eqn:D; [|discriminate]. intros E. apply digit_some in D. destruct D as (D & ->).
      apply IH in E. destruct E as (ds & F & -> & ->). exists (d :: ds). split; [constructor; auto|].
      split; [reflexivity|]. cbn [fold_left]. f_equal. lia.
    + intros (ds & F & E & V). destruct ds as [|d ds]; [discriminate E|]. cbn [map] in E. injection E as -> E.
      apply Forall_cons_iff in F. destruct F as (F1 & F2). rewrite (proj2 (digit_some (48 + d) d)) by (split; [lia|auto]).
      apply IH. exists ds. split; auto. split; auto. cbn [fold_left] in V. rewrite V. f_equal. lia.
Qed.
Lemma digits1_some s v : digits1 s = Some v <-> numeral s v.
Proof.
  unfold digits1, numeral. destruct s as [|c s].
  - split; [discriminate|]. intros (ds & N & _ & E & _). destruct ds; [congruence|discriminate E].
  - rewrite digits_some. split.
    + intros (ds & F & E & V). exists ds. split; [intros ->; discriminate E|auto].
    + intros (ds & _ & F & E & V). exists ds. auto.
Qed.
Lemma numeral_nil v : ~ numeral [] v.
Proof. intros (ds & N & _ & E & _). destruct ds; [congruence|discriminate E]. Qed.
Lemma numeral_head c t v : numeral (c :: t) v -> 48 <= c <= 57.
Proof. intros (ds & N & F & E & _). destruct ds; [congruence|]. injection E as -> _. apply Forall_cons_iff in F. lia. Qed.
Lemma numeral_chars s v : numeral s v -> Forall (fun c => 48 <= c <= 57) s.
Proof.
  intros (ds & _ & F & -> & _). apply Forall_map. eapply Forall_impl; [|exact F]. cbv beta. intros; lia.
Qed.
Lemma fold_digits_nonneg ds : forall a, 0 <= a -> Forall (fun d => 0 <= d <= 9) ds -> 0 <= fold_left (fun a d => 10 * a + d) ds a.
Proof. induction ds as [|d ds IH]; intros a A F; cbn [fold_left]; auto. apply Forall_cons_iff in F. apply IH; [lia|tauto]. Qed.
Lemma numeral_nonneg s v : numeral s v -> 0 <= v.
Proof. intros (ds & _ & F & _ & ->). apply fold_digits_nonneg; auto; lia. Qed.

Lemma parse_uint_some max s v : parse_uint max s = Some v <-> unsigned_text max s v.
Proof.
  unfold unsigned_text.
  assert (G : forall t, (match digits1 t with Some v => if v <=? max then Some v else None | None => None end) = Some v <->
    numeral t v /\ v <= max).
  { intros t. destruct (digits1 t) as [w|] eqn:D.
    - apply digits1_some in D. destruct (Z.leb_spec w max); split.
      + intros E. apply Some_inj in E. subst. auto.
      + intros (Nm & L). apply digits1_some in Nm. apply digits1_some in D. congruence.
      + discriminate.
      + intros (Nm & L). apply digits1_some in Nm. apply digits1_some in D. rewrite D in Nm. apply Some_inj in Nm. lia.
    - split; [discriminate|]. intros (Nm & _). apply digits1_some in Nm. congruence. }
  unfold parse_uint. destruct (Z.eq_dec (hd 0 s) 43) as [H|H].
  - destruct s as [|c s]; [discriminate H|]. cbn [hd] in H. subst c. cbv iota beta. rewrite G. split.
    + intros (A & B). split; auto. right. exists s. auto.
    + intros ([A|(t & E & A)] & B); [apply numeral_head in A; lia|]. injection E as ->. auto.
  - replace (match s with 43 :: s' => s' | _ => s end) with s.
    2:{ destruct s as [|c s]; auto. cbn [hd] in H. destruct c as [|c|c]; auto. do 6 (destruct c as [c|c|]; auto). congruence. }
    rewrite G. split.
    + intros (A & B). auto.
    + intros ([A|(t & E & A)] & B); auto. subst s. cbn [hd] in H. congruence.
Qed.
Lemma parse_int_some min max s v : parse_int min max s = Some v <-> signed_text min max s v.
Proof.
  unfold signed_text.
  assert (G : forall (neg : bool) t, (match digits1 t with Some v => let v := if neg then - v else v in
      if (min <=? v) && (v <=? max) then Some v else None | None => None end) = Some v <->
    (exists w, numeral t w /\ v = if neg then - w else w) /\ min <= v <= max).
  { intros neg t. cbv zeta. destruct (digits1 t) as [w|] eqn:D.
    - destruct (Z.leb_spec min (if neg then - w else w)), (Z.leb_spec (if neg then - w else w) max); cbn [andb]; split;
        try discriminate; intros E.
      1:{ apply Some_inj in E. apply digits1_some in D. subst. split; [eauto|lia]. }
      all: destruct E as ((w' & Nm & E) & R); apply digits1_some in Nm; rewrite D in Nm; apply Some_inj in Nm; subst w'.
      1:{ congruence. }
      all: lia.
    - split; [discriminate|]. intros ((w & Nm & _) & _). apply digits1_some in Nm. congruence. }
  unfold parse_int. destruct (Z.eq_dec (hd 0 s) 43) as [H|H]; [|destruct (Z.eq_dec (hd 0 s) 45) as [H'|H']].
  - destruct s as [|c s]; [discriminate H|]. cbn [hd] in H. subst c. cbv iota beta. rewrite (G false). split.
    + intros ((w & A & E) & B). split; auto. right. left. exists s. subst. auto.
    + intros ([A|[(t & E & A)|(t & w & E & _)]] & B); [apply numeral_head in A; lia| |discriminate E]. injection E as ->. eauto.
  - destruct s as [|c s]; [discriminate H'|]. cbn [hd] in H'. subst c. cbv iota beta. rewrite (G true). split.
    + intros ((w & A & E) & B). split; auto. right. right. exists s, w. auto.
    + intros ([A|[(t & E & _)|(t & w & E & A & E')]] & B); [apply numeral_head in A; lia|discriminate E|]. injection E as ->. eauto.
  - replace (match s with 43 :: s' => (false, s') | 45 :: s' => (true, s') | _ => (false, s) end) with (false, s).
    2:{ destruct s as [|c s]; auto. cbn [hd] in H, H'. destruct c as [|c|c]; auto. do 6 (destruct c as [c|c|]; auto); congruence. }
    rewrite (G false). split.
    + intros ((w & A & E) & B). subst. auto.
    + intros ([A|[(t & E & A)|(t & w & E & A & _)]] & B); eauto; subst s; cbn [hd] in *; congruence.
Qed.

Lemma fmt_uint_numeral n : 0 <= n -> numeral (fmt_uint n) n.
Proof. intros H. apply digits1_some, digits1_fmt. auto. Qed.
Lemma unsigned_no_ws max s v : unsigned_text max s v -> word s /\ without 58 s.
Proof.
  intros ([N|(t & -> & N)] & _).
  - pose proof (numeral_chars N) as F. split; [split|].
    + intros ->. apply (numeral_nil N).
    + apply is_digits_no_ws. exact F.
    + apply is_digits_without; [exact F|lia].
  - pose proof (numeral_chars N) as F. split; [split; [discriminate|]|].
    + apply Forall_cons; [reflexivity|]. apply is_digits_no_ws. exact F.
    + apply Forall_cons; [lia|]. apply is_digits_without; [exact F|lia].
Qed.
Lemma signed_no_ws min max s v : signed_text min max s v -> word s /\ without 58 s.
Proof.
  intros ([N|[(t & -> & N)|(t & w & -> & N & _)]] & _).
  - pose proof (numeral_chars N) as F. split; [split|].
    + intros ->. apply (numeral_nil N).
    + apply is_digits_no_ws. exact F.
    + apply is_digits_without; [exact F|lia].
  - pose proof (numeral_chars N) as F. split; [split; [discriminate|]|].
    + apply Forall_cons; [reflexivity|]. apply is_digits_no_ws. exact F.
    + apply Forall_cons; [lia|]. apply is_digits_without; [exact F|lia].
  - pose proof (numeral_chars N) as F. split; [split; [discriminate|]|].
    + apply Forall_cons; [reflexivity|]. apply is_digits_no_ws. exact F.
    + apply Forall_cons; [lia|]. apply is_digits_without; [exact F|lia].
Qed.
