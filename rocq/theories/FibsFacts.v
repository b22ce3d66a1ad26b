(** Facts about the FIBS model. *)
From Coq Require Import Strings.String.
From Verif Require Export Fibs SpecFibs BaseFacts StrFacts NumFacts XgidFacts DebugFacts TryFromFacts FlipFacts.
Open Scope Z_scope.

(** ** stripped = trim *)
Lemma stripped_iff s t : stripped s t <-> t = trim s.
Proof.
  split.
  - intros ((a & b & -> & A & B) & [->|(H & L)]).
    + symmetry. rewrite app_nil_l. apply trim_blank. apply Forall_app. auto.
    + symmetry. destruct t as [|c t].
      * rewrite app_nil_l. apply trim_blank. apply Forall_app. auto.
      * apply trim_trimmed; auto. split; [exists c, t; auto|]. destruct (@exists_last _ (c :: t) ltac:(discriminate)) as (u & d & E).
        rewrite E in L. rewrite last_last in L. exists d, u. auto.
  - intros ->. split.
    + destruct (trim_spec s) as (a & b & E & A & B). exists a, b. auto.
    + destruct (trim_result s) as [E|((c & t & E & C) & (d & u & E' & D))]; [auto|]. right.
      rewrite E at 1. rewrite E', last_last. auto.
Qed.

Lemma Forall2_length {A B} (R : A -> B -> Prop) l l' : Forall2 R l l' -> length l = length l'.
Proof. induction 1; cbn [length]; congruence. Qed.

(** ** last_value as a fold *)
Section LastValue.
  Context {K V : Type} (eqb : K -> K -> bool) (eqb_iff : forall a b, eqb a b = true <-> a = b).
  Definition latest (k : K) (o : option V) (e : K * V) : option V := if eqb (fst e) k then Some (snd e) else o.
  Lemma latest_skip k l o : Forall (fun e => fst e <> k) l -> fold_left (latest k) l o = o.
  Proof.
    intros F. revert o. induction F as [|e l H F IH]; intros o; cbn [fold_left]; auto. rewrite IH. unfold latest.
    destruct (eqb (fst e) k) eqn:E; auto. apply eqb_iff in E. contradiction.
  Qed.
  Lemma latest_cases k l o : (Forall (fun e => fst e <> k) l /\ fold_left (latest k) l o = o) \/
    (exists v, last_value k l v /\ fold_left (latest k) l o = Some v).
  Proof.
    revert o. induction l as [|e l IH] using rev_ind; intros o; [left; auto|]. rewrite fold_left_app. cbn [fold_left].
    destruct (eqb (fst e) k) eqn:E.
    - right. apply eqb_iff in E. exists (snd e). unfold latest at 1. rewrite (proj2 (eqb_iff _ _) E). split; auto.
      exists l, []. destruct e; cbn [fst snd] in *; subst. auto.
    - assert (N : fst e <> k) by (intros H; apply eqb_iff in H; congruence). unfold latest at 1 3. rewrite E.
      destruct (IH o) as [(F & Q)|(v & (a & b & -> & F) & Q)].
      + left. split; auto. apply Forall_app; auto.
      + right. exists v. split; auto. exists a, (b ++ [e]). rewrite <- app_assoc. split; auto. apply Forall_app; auto.
  Qed.
  Lemma latest_iff k l v : fold_left (latest k) l None = Some v <-> last_value k l v.
  Proof.
    split.
    - intros H. destruct (latest_cases k l None) as [(_ & Q)|(w & L & Q)]; congruence.
    - intros (a & b & -> & F). rewrite fold_left_app. cbn [fold_left]. rewrite latest_skip by auto. unfold latest. cbn [fst snd].
      rewrite (proj2 (eqb_iff k k) eq_refl). reflexivity.
  Qed.
End LastValue.

Lemma pfold_iff {E A S C} (f : S -> A -> E + S) (R : A -> C -> Prop) (g : S -> C -> S) :
  (forall s a s', f s a = inr s' <-> exists c, R a c /\ s' = g s c) ->
  forall l s s', pfold f l s = inr s' <-> exists cs, Forall2 R l cs /\ s' = fold_left g cs s.
Proof.
  intros H. induction l as [|a l IH]; intros s s'; cbn [pfold].
  - split.
    + intros E0. injection E0 as <-. exists []. split; [constructor|reflexivity].
    + intros (cs & F & ->). inversion F; subst. reflexivity.
  - split.
    + intros E0. apply pbind_inv in E0. destruct E0 as (s1 & E1 & E2). apply H in E1. destruct E1 as (c & Rc & ->).
      apply IH in E2. destruct E2 as (cs & F & ->). exists (c :: cs). split; [constructor; auto|reflexivity].
    + intros (cs & F & ->). inversion F as [|? c ? cs' Rc F']; subst. rewrite (proj2 (H s a (g s c))) by eauto.
      rewrite pbind_inr. apply IH. exists cs'. auto.
Qed.

(** ** counts *)
Definition bool_eqb_iff := Bool.eqb_true_iff.
Definition count_upd (st : option Z * option Z) (c : bool * Z) : option Z * option Z :=
  (latest Bool.eqb true (fst st) c, latest Bool.eqb false (snd st) c).
Lemma count_upd_fold cs : forall st, fold_left count_upd cs st =
  (fold_left (latest Bool.eqb true) cs (fst st), fold_left (latest Bool.eqb false) cs (snd st)).
Proof. induction cs as [|c cs IH]; intros [a b]; cbn [fold_left]; auto. rewrite IH. reflexivity. Qed.

Lemma strip1 (c : Z) s t : strip_prefix [c] s = Some t <-> s = c :: t.
Proof.
  split.
  - intros H. apply strip_prefix_some in H. exact H.
  - intros ->. cbn [strip_prefix]. rewrite Z.eqb_refl. reflexivity.
Qed.
Lemma count_step_iff st w st' : fibs_count_step st w = inr st' <-> exists c, count_text w c /\ st' = count_upd st c.
Proof.
  destruct st as [x o]. unfold fibs_count_step, count_text. change (lit "x") with [120]. change (lit "o") with [111].
  split.
  - destruct (strip_prefix [120] (trim w)) as [t|] eqn:E.
    + intros H. apply pbind_inv in H. destruct H as (n & P & H). apply ok_or_inv in P. apply parse_uint_some in P.
      apply strip1 in E. exists (true, n). split; [|injection H as <-; reflexivity]. exists t. cbn [fst snd].
      split; auto. apply stripped_iff. symmetry. exact E.
    + destruct (strip_prefix [111] (trim w)) as [t|] eqn:E'; [|intros H; discriminate H].
      intros H. apply pbind_inv in H. destruct H as (n & P & H). apply ok_or_inv in P. apply parse_uint_some in P.
      apply strip1 in E'. exists (false, n). split; [|injection H as <-; reflexivity]. exists t. cbn [fst snd].
      split; auto. apply stripped_iff. symmetry. exact E'.
  - intros ([b n] & (t & S & P) & ->). cbn [fst snd] in *. apply stripped_iff in S. rewrite <- S. apply parse_uint_some in P.
    destruct b.
    + cbn [app]. rewrite (proj2 (strip1 120 _ t) eq_refl). unfold parse_u8. rewrite P. reflexivity.
    + cbn [app]. cbn [strip_prefix]. change (120 =? 111) with false. cbv iota. change (111 =? 111) with true. cbv iota.
      unfold parse_u8. rewrite P. reflexivity.
Qed.

Lemma count_text_without w c : count_text w c -> without 44 w.
Proof.
  intros (t & ((a & b & -> & A & B) & _) & U).
  assert (W : forall l, only_blanks l -> without 44 l).
  { intros l H. eapply Forall_impl; [|exact H]. cbv beta. intros x Hx ->. discriminate Hx. }
  apply Forall_app. split; [apply W; auto|]. apply Forall_app. split; [|apply W; auto].
  apply Forall_app. split.
  { destruct (fst c); [change (lit "x") with [120]|change (lit "o") with [111]]; (constructor; [lia|constructor]). }
  destruct U as ([N|(u & -> & N)] & _); apply numeral_chars in N.
  - eapply Forall_impl; [|exact N]. cbv beta. intros; lia.
  - constructor; [lia|]. eapply Forall_impl; [|exact N]. cbv beta. intros; lia.
Qed.
Lemma two_counts_iff s x o : fibs_two_counts s = inr (x, o) <-> counts_text s x o.
Proof.
  unfold fibs_two_counts, counts_text. change (lit ",") with [44]. split.
  - intros H. apply pbind_inv in H. destruct H as ([x' o'] & H & Q). apply pbind_inv in Q. destruct Q as (x1 & X & Q).
    apply pbind_inv in Q. destruct Q as (o1 & O & Q). apply ok_or_inv in X, O. injection Q as -> ->. subst x' o'.
    apply (pfold_iff _ count_text count_upd count_step_iff) in H. destruct H as (cs & F & E). rewrite count_upd_fold in E. cbn [fst snd] in E.
    injection E as X O. symmetry in X, O. apply (latest_iff _ bool_eqb_iff) in X, O.
    exists (split_on 44 s), cs. rewrite join_split_on. auto.
  - intros (ws & cs & -> & F & X & O).
    assert (N : ws <> []) by (intros ->; inversion F; subst; destruct X as ([|] & b & E & _); discriminate E).
    rewrite split_on_join; auto.
    + rewrite (proj2 (pfold_iff _ count_text count_upd count_step_iff ws _ (Some x, Some o))); [reflexivity|].
      exists cs. split; auto. rewrite count_upd_fold. cbn [fst snd].
      rewrite (proj2 (latest_iff _ bool_eqb_iff true cs x) X), (proj2 (latest_iff _ bool_eqb_iff false cs o) O). reflexivity.
    + clear X O N. induction F; constructor; auto. eapply count_text_without; eauto.
Qed.

(** ** fields *)
Definition field_upd (st : fibs_fields) (e : str * str) : fibs_fields :=
  {| f_turn := latest str_eqb (lit "turn") (f_turn st) e; f_bar := latest str_eqb (lit "bar") (f_bar st) e;
     f_off := latest str_eqb (lit "off") (f_off st) e; f_points := latest str_eqb (lit "points") (f_points st) e |}.
Lemma field_upd_fold es : forall st, fold_left field_upd es st =
  {| f_turn := fold_left (latest str_eqb (lit "turn")) es (f_turn st); f_bar := fold_left (latest str_eqb (lit "bar")) es (f_bar st);
     f_off := fold_left (latest str_eqb (lit "off")) es (f_off st); f_points := fold_left (latest str_eqb (lit "points")) es (f_points st) |}.
Proof. induction es as [|e es IH]; intros [a b c d]; cbn [fold_left]; auto. rewrite IH. reflexivity. Qed.

(** A field text as the loop sees it: a part of the split, so without ';'. *)
Definition part_text (s : str) (e : str * str) : Prop :=
  exists k v, s = k ++ lit "=" ++ v /\ stripped k (fst e) /\ stripped v (snd e) /\
  In (fst e) [lit "turn"; lit "bar"; lit "off"; lit "points"].
Lemma field_step_iff st w st' : fibs_field_step st w = inr st' <-> exists e, part_text w e /\ st' = field_upd st e.
Proof.
  unfold fibs_field_step, part_text. change (lit "=") with [61]. split.
  - intros H. apply pbind_inv in H. destruct H as ([k v] & S & H). apply ok_or_inv in S. apply split_once_some in S.
    destruct S as (-> & W). exists (trim k, trim v). cbn [fst snd].
    destruct (str_eqb (trim k) (lit "turn")) eqn:E1; [|destruct (str_eqb (trim k) (lit "bar")) eqn:E2;
      [|destruct (str_eqb (trim k) (lit "off")) eqn:E3; [|destruct (str_eqb (trim k) (lit "points")) eqn:E4; [|discriminate H]]]];
    injection H as <-;
    (split; [exists k, v; split; [reflexivity|]; split; [apply stripped_iff; auto|]; split; [apply stripped_iff; auto|]|]);
    try (match goal with E : str_eqb _ _ = true |- In _ _ => apply str_eqb_eq in E; rewrite E; cbn [In]; tauto end);
    unfold field_upd, latest; cbn [fst snd];
    match goal with E : str_eqb _ _ = true |- _ => apply str_eqb_eq in E; rewrite E end; reflexivity.
  - intros ([kk vv] & (k & v & -> & K & V & I) & ->). cbn [fst snd] in *. apply stripped_iff in K, V.
    assert (W : without 61 k).
    { destruct (trim_spec k) as (a & b & E & A & B). rewrite E.
      assert (W : forall l, only_blanks l -> without 61 l).
      { intros l H. eapply Forall_impl; [|exact H]. cbv beta. intros x Hx ->. discriminate Hx. }
      apply Forall_app. split; [apply W; auto|]. apply Forall_app. split; [|apply W; auto]. rewrite <- K.
      cbn [In] in I. destruct I as [<-|[<-|[<-|[<-|[]]]]]; vm_compute; repeat constructor; discriminate. }
    cbn [app]. rewrite split_once_app by auto. cbn [ok_or pbind]. rewrite <- K, <- V.
    cbn [In] in I. destruct I as [<-|[<-|[<-|[<-|[]]]]]; reflexivity.
Qed.

Lemma str_eqb_iff a b : str_eqb a b = true <-> a = b.
Proof. apply str_eqb_eq. Qed.
Lemma fields_iff s t bar off pts :
  pfold fibs_field_step (split_on 59 s) fibs_no_fields =
    inr {| f_turn := Some t; f_bar := Some bar; f_off := Some off; f_points := Some pts |} <->
  exists fs es, s = join (lit ";") fs /\ Forall2 field_text fs es /\ last_value (lit "turn") es t /\
    last_value (lit "bar") es bar /\ last_value (lit "off") es off /\ last_value (lit "points") es pts.
Proof.
  change (lit ";") with [59]. split.
  - intros H. apply (pfold_iff _ part_text field_upd field_step_iff) in H. destruct H as (es & F & E).
    rewrite field_upd_fold in E. cbn [f_turn f_bar f_off f_points fibs_no_fields] in E. injection E as A B C D.
    symmetry in A, B, C, D. apply (latest_iff _ str_eqb_iff) in A, B, C, D.
    exists (split_on 59 s), es. rewrite join_split_on. split; auto. split; [|auto].
    pose proof (split_on_without 59 s) as W. clear - F W. induction F as [|w e ws es P F IH]; constructor.
    + apply Forall_cons_iff in W. destruct W as (W & _). destruct P as (k & v & -> & K & V & I). exists k, v.
      repeat split; try apply K; try apply V; auto. intros Q. apply (proj1 (Forall_forall _ _) W) in Q. congruence.
    + apply IH. apply Forall_cons_iff in W. tauto.
  - intros (fs & es & -> & F & A & B & C & D).
    assert (N : fs <> []) by (intros ->; inversion F; subst; destruct A as ([|] & b & E & _); discriminate E).
    rewrite split_on_join; auto.
    + apply (pfold_iff _ part_text field_upd field_step_iff). exists es. split.
      * clear - F. induction F as [|w e ws es P F IH]; constructor; auto. destruct P as (k & v & H & K & V & _ & I). exists k, v; auto.
      * rewrite field_upd_fold. cbn [f_turn f_bar f_off f_points fibs_no_fields].
        apply (latest_iff _ str_eqb_iff) in A, B, C, D. rewrite A, B, C, D. reflexivity.
    + clear - F. induction F as [|w e ws es P F IH]; constructor; auto. destruct P as (k & v & _ & _ & _ & Q & _).
      apply Forall_forall. intros x Hx ->. contradiction.
Qed.

(** ** points *)
Lemma point_token_reads m w n : point_text w n -> fibs_point_token m (trim w) = (v <- i8 m n ;; Ret (inr v)).
Proof.
  unfold fibs_point_token. intros [(S & ->)|[(t & S & R)|(t & S & R)]]; apply stripped_iff in S; rewrite <- S.
  - reflexivity.
  - pose proof R as (_ & B). apply parse_int_some in R. change (lit "x" ++ t) with (120 :: t). change (str_eqb (120 :: t) (lit "-")) with false.
    cbv iota. change (lit "x") with [120]. rewrite (proj2 (strip1 120 _ t) eq_refl). unfold parse_i8. rewrite R.
    rewrite i8_ret by lia. reflexivity.
  - apply parse_int_some in R. change (lit "o" ++ t) with (111 :: t). change (str_eqb (111 :: t) (lit "-")) with false.
    cbv iota. change (strip_prefix (lit "x") (111 :: t)) with (@None str). cbv iota. change (lit "o") with [111].
    rewrite (proj2 (strip1 111 _ t) eq_refl). unfold parse_i8. rewrite R. unfold lift, ebind, ok_or. rewrite bind_ret, Z.opp_involutive. reflexivity.
Qed.
Lemma point_token_inv m w : (exists n, point_text w n) \/ fibs_point_token m (trim w) = Ret (inl (FibsInvalidField (lit "points"))).
Proof.
  unfold fibs_point_token. destruct (str_eqb (trim w) (lit "-")) eqn:E.
  { left. exists 0. left. apply str_eqb_eq in E. rewrite stripped_iff. auto. }
  destruct (strip_prefix (lit "x") (trim w)) as [t|] eqn:E1.
  { destruct (parse_i8 t) as [n|] eqn:P; [|right; reflexivity]. left. exists n. right; left. exists t.
    apply strip_prefix_some in E1. rewrite stripped_iff. split; [auto|]. apply parse_int_some. exact P. }
  destruct (strip_prefix (lit "o") (trim w)) as [t|] eqn:E2; [|right; reflexivity].
  destruct (parse_i8 t) as [n|] eqn:P; [|right; reflexivity]. left. exists (- n). right; right. exists t.
  apply strip_prefix_some in E2. rewrite stripped_iff. split; [auto|]. rewrite Z.opp_involutive. apply parse_int_some. exact P.
Qed.
Lemma point_text_range w n : point_text w n -> -128 <= n <= 128.
Proof. intros [(_ & ->)|[(t & _ & _ & R)|(t & _ & _ & R)]]; lia. Qed.
Lemma point_text_without w n : point_text w n -> without 44 w.
Proof.
  assert (W : forall l, only_blanks l -> without 44 l).
  { intros l H. eapply Forall_impl; [|exact H]. cbv beta. intros x Hx ->. discriminate Hx. }
  assert (G : forall a t b, only_blanks a -> only_blanks b -> without 44 t -> without 44 (a ++ t ++ b)).
  { intros a t b A B T. apply Forall_app. split; [apply W; auto|]. apply Forall_app. split; auto. apply W; auto. }
  assert (S : forall t n, signed_text (-128) 127 t n -> without 44 t).
  { intros t k ([N|[(u & -> & N)|(u & z & -> & N & _)]] & _); apply numeral_chars in N;
      [|constructor; [lia|]|constructor; [lia|]]; eapply Forall_impl; try exact N; cbv beta; intros; lia. }
  intros [(((a & b & -> & A & B) & _) & _)|[(t & ((a & b & -> & A & B) & _) & R)|(t & ((a & b & -> & A & B) & _) & R)]];
    apply G; auto; change (lit "x") with [120]; change (lit "o") with [111]; change (lit "-") with [45]; constructor; try lia; first [exact (S _ _ R)|constructor].
Qed.

Fixpoint ploop (m : mode) (ws : list str) (n : nat) (ps : list Z) {struct n} : res (fibs_error + list Z) :=
  match n with
  | O => Ret (inr ps)
  | S n' => match ws with
            | [] => Ret (inl FibsInvalidPayload)
            | w :: ws' => v <-? fibs_point_token m (trim w) ;; ploop m ws' n' (upd ps (S n') v)
            end
  end.
Lemma point_loop m ws : forall n ps, length ps = 26%nat -> (n <= 24)%nat ->
  efold (fibs_point_step m ws) (seq (24 - n) n) ps = ploop m (skipn (24 - n) ws) n ps.
Proof.
  induction n as [|n IH]; intros ps L H; [reflexivity|]. cbn [seq efold ploop]. unfold fibs_point_step at 1.
  destruct (nth_error ws (24 - S n)) as [w|] eqn:E.
  - assert (SK : skipn (24 - S n) ws = w :: skipn (24 - n) ws).
    { replace (24 - n)%nat with (S (24 - S n)) by lia. clear - E. revert ws E. induction (24 - S n)%nat as [|k IH]; intros [|a ws] E; try discriminate E.
      - injection E as ->. reflexivity.
      - apply (IH ws E). }
    rewrite SK. unfold lift, ok_or, ebind. rewrite bind_ret. destruct (fibs_point_token m (trim w)) as [[e|v]|k]; [reflexivity| |reflexivity].
    rewrite !bind_ret. unfold assign. rewrite L. replace (24 - (24 - S n))%nat with (S n) by lia.
    destruct (Nat.ltb_spec (S n) 26); [|lia]. rewrite !bind_ret. replace (S (24 - S n)) with (24 - n)%nat by lia.
    apply IH; [rewrite upd_length; auto|lia].
  - assert (SK : skipn (24 - S n) ws = []) by (apply skipn_all2, nth_error_None; auto). rewrite SK. reflexivity.
Qed.
(** Board after the loop: the head, the values, the tail. *)
Lemma upd_rev_tail ps n v vs : (S n < length ps)%nat -> length vs = n ->
  nth 0 (upd ps (S n) v) 0 :: rev vs ++ skipn (S n) (upd ps (S n) v) = nth 0 ps 0 :: rev (v :: vs) ++ skipn (S (S n)) ps.
Proof.
  intros L LV. destruct ps as [|a ps]; [cbn [length] in L; lia|]. cbn [upd nth skipn]. f_equal. cbn [rev]. rewrite <- app_assoc. f_equal.
  cbn [length] in L. clear - L. revert n L. induction ps as [|b ps IH]; intros n L; [cbn [length] in L; lia|].
  destruct n; cbn [upd skipn app]; [reflexivity|]. apply IH. cbn [length] in L. lia.
Qed.
Lemma ploop_sound m : forall n ws ps ps', (n < length ps)%nat -> ploop m ws n ps = Ret (inr ps') ->
  (n <= length ws)%nat /\ exists ns vs, Forall2 point_text (firstn n ws) ns /\ Forall2 (fun k v => i8 m k = Ret v) ns vs /\
  ps' = nth 0 ps 0 :: rev vs ++ skipn (S n) ps.
Proof.
  induction n as [|n IH]; intros ws ps ps' L H; cbn [ploop] in H.
  - split; [lia|]. exists [], []. split; [constructor|]. split; [constructor|]. apply Ret_inj in H. injection H as <-.
    destruct ps; [cbn [length] in L; lia|reflexivity].
  - destruct ws as [|w ws]; [discriminate H|]. destruct (point_token_inv m w) as [(k & P)|B].
    + rewrite (point_token_reads m P) in H. destruct (i8 m k) as [v|] eqn:V; [|discriminate H]. unfold ebind in H. rewrite !bind_ret in H.
      apply IH in H; [|rewrite upd_length; lia]. destruct H as (A & ns & vs & F & G & ->). cbn [length firstn]. split; [lia|].
      exists (k :: ns), (v :: vs). split; [constructor; auto|]. split; [constructor; auto|]. apply upd_rev_tail; auto.
      apply Forall2_length in F, G. rewrite firstn_length in F. lia.
    + rewrite B in H. discriminate H.
Qed.
Lemma ploop_complete m : forall n ws ns ps, (n < length ps)%nat -> length ws = n -> Forall2 point_text ws ns ->
  Forall (fun k => k <= 127) ns -> ploop m ws n ps = Ret (inr (nth 0 ps 0 :: rev ns ++ skipn (S n) ps)).
Proof.
  induction n as [|n IH]; intros ws ns ps L LW F B.
  - destruct ws; [|discriminate LW]. inversion F; subst. cbn [ploop rev app]. destruct ps; [cbn [length] in L; lia|reflexivity].
  - destruct ws as [|w ws]; [discriminate LW|]. inversion F as [|? k ? ns' P F']; subst. apply Forall_cons_iff in B.
    cbn [ploop]. rewrite (point_token_reads m P). pose proof (point_text_range P). rewrite i8_ret by lia. unfold ebind. rewrite !bind_ret.
    cbn [length] in LW. rewrite (IH ws ns' (upd ps (S n) k)); try tauto; try lia; [|rewrite upd_length; lia]. f_equal. f_equal.
    apply upd_rev_tail; auto. apply Forall2_length in F'. lia.
Qed.

(** ** No panic except overflow checks *)
Definition fine {A} (m : mode) (r : res A) : Prop := (exists a, r = Ret a) \/ (m = Debug /\ r = Panic Overflow).
Lemma fine_ret {A} m (a : A) : fine m (Ret a).
Proof. left. eauto. Qed.
Lemma fine_bind {A B} m (r : res A) (f : A -> res B) : fine m r -> (forall a, r = Ret a -> fine m (f a)) -> fine m (bind r f).
Proof. intros [(a & ->)|(-> & ->)] H; [apply H; auto|right; auto]. Qed.
Lemma fine_ebind {E A B} m (r : res (E + A)) (f : A -> res (E + B)) : fine m r -> (forall a, r = Ret (inr a) -> fine m (f a)) -> fine m (ebind r f).
Proof. intros H G. apply fine_bind; auto. intros [e|a] Q; [apply fine_ret|auto]. Qed.
Lemma fine_i8 m z : fine m (i8 m z).
Proof. unfold i8. destruct (in_i8 z); [apply fine_ret|]. destruct m; [right; auto|apply fine_ret]. Qed.
Lemma fine_mfold {A S} m (f : S -> A -> res S) l : (forall s a, fine m (f s a)) -> forall s, fine m (mfold f l s).
Proof. intros H. induction l as [|a l IH]; intros s; cbn [mfold]; [apply fine_ret|]. apply fine_bind; auto. Qed.
Lemma fine_mmap {A B} m (f : A -> res B) l : (forall a, fine m (f a)) -> fine m (mmap f l).
Proof. intros H. induction l as [|a l IH]; cbn [mmap]; [apply fine_ret|]. apply fine_bind; auto. intros. apply fine_bind; auto. intros. apply fine_ret. Qed.
Lemma fine_try_from m N ps : length ps = 26%nat -> fine m (try_from m N ps).
Proof.
  intros L. unfold try_from. apply fine_bind; [apply fine_mfold; intros; apply fine_i8|]. intros. apply fine_bind; [apply fine_i8|]. intros.
  apply fine_bind; [apply fine_mfold; intros; apply fine_i8|]. intros. apply fine_bind; [apply fine_i8|]. intros.
  destruct (_ <? 0); [apply fine_ret|]. destruct (_ <? 0); [apply fine_ret|]. unfold index.
  destruct (nth_error ps X_BAR) eqn:E; [|apply nth_error_None in E; unfold X_BAR in E; lia]. rewrite bind_ret.
  destruct (_ <? 0); [apply fine_ret|].
  destruct (nth_error ps O_BAR) eqn:E0; [|apply nth_error_None in E0; unfold O_BAR in E0; lia]. rewrite bind_ret.
  destruct (0 <? _); apply fine_ret.
Qed.
Lemma fine_flip m p : fine m (flip m p).
Proof. unfold flip. apply fine_bind; [apply fine_mmap; intros; apply fine_i8|]. intros. apply fine_ret. Qed.
Lemma fine_ploop m : forall n ws ps, fine m (ploop m ws n ps).
Proof.
  induction n as [|n IH]; intros ws ps; cbn [ploop]; [apply fine_ret|]. destruct ws as [|w ws]; [apply fine_ret|].
  apply fine_ebind; auto. destruct (point_token_inv m w) as [(k & P)|B]; [|rewrite B; apply fine_ret].
  rewrite (point_token_reads m P). apply fine_bind; [apply fine_i8|]. intros. apply fine_ret.
Qed.
Lemma fine_map_ok {E A B} m (f : A -> B) (r : res (E + A)) : fine m r -> fine m (map_ok f r).
Proof. intros H. unfold map_ok. apply fine_bind; auto. intros. apply fine_ret. Qed.

(** ** The decoder *)
Definition fibs_finish (m : mode) (N : Z) (t : str) (x_exp o_exp : Z) (ps : list Z) : res (fibs_error + position) :=
  r <- try_from m N ps ;;
  match r with
  | inl _ => Ret (inl FibsInvalidPosition)
  | inr p =>
      p <-? (if str_eqb t (lit "o") then q <- flip m p ;; Ret (inr q)
             else if negb (str_eqb t (lit "x")) then Ret (inl (FibsInvalidField (lit "turn")))
             else Ret (inr p)) ;;
      if negb (x_off p =? x_exp) || negb (o_off p =? o_exp) then Ret (inl FibsInvalidPosition)
      else Ret (inr p)
  end.
Lemma fibs_decode_unfold m N s : fibs_decode_position m N s =
  (st <-? lift (pfold fibs_field_step (split_on 59 s) fibs_no_fields) ;;
  t <-? lift (ok_or FibsInvalidPayload (f_turn st)) ;;
  bar <-? lift (ok_or FibsInvalidPayload (f_bar st)) ;;
  off <-? lift (ok_or FibsInvalidPayload (f_off st)) ;;
  points <-? lift (ok_or FibsInvalidPayload (f_points st)) ;;
  '(xb, ob) <-? lift (fibs_two_counts bar) ;;
  '(x_exp, o_exp) <-? lift (fibs_two_counts off) ;;
  nb <- i8 m (- as_i8 ob) ;;
  ps <-? ploop m (split_on 44 points) 24 (nb :: repeat 0 24 ++ [as_i8 xb]) ;;
  if (24 <? length (split_on 44 points))%nat then Ret (inl FibsInvalidPayload) else fibs_finish m N t x_exp o_exp ps).
Proof.
  unfold fibs_decode_position, ebind, lift.
  destruct (pfold fibs_field_step (split_on 59 s) fibs_no_fields) as [e|st]; [reflexivity|]. rewrite ?bind_ret.
  destruct (f_turn st) as [t|]; [|reflexivity]. cbn [ok_or]; rewrite ?bind_ret.
  destruct (f_bar st) as [bar|]; [|reflexivity]. cbn [ok_or]; rewrite ?bind_ret.
  destruct (f_off st) as [off|]; [|reflexivity]. cbn [ok_or]; rewrite ?bind_ret.
  destruct (f_points st) as [points|]; [|reflexivity]. cbn [ok_or]; rewrite ?bind_ret.
  destruct (fibs_two_counts bar) as [e|[xb ob]]; [reflexivity|]. rewrite ?bind_ret.
  destruct (fibs_two_counts off) as [e|[x_exp o_exp]]; [reflexivity|]. rewrite ?bind_ret.
  change (assign (repeat 0 26) 25 (as_i8 xb)) with (Ret (0 :: repeat 0 24 ++ [as_i8 xb])). rewrite bind_ret.
  destruct (i8 m (- as_i8 ob)) as [nb|k]; [|reflexivity]. rewrite ?bind_ret.
  change (assign (0 :: repeat 0 24 ++ [as_i8 xb]) 0 nb) with (Ret (nb :: repeat 0 24 ++ [as_i8 xb])). rewrite bind_ret.
  cbv zeta. change (range 0 24) with (seq (24 - 24) 24). rewrite point_loop; [reflexivity|reflexivity|lia].
Qed.

Lemma fine_fibs m N s : fine m (fibs_decode_position m N s).
Proof.
  rewrite fibs_decode_unfold. do 5 (apply fine_ebind; [apply fine_ret|]; intros). apply fine_ebind; [apply fine_ret|]. intros [xb ob] _.
  apply fine_ebind; [apply fine_ret|]. intros [x_exp o_exp] _. apply fine_bind; [apply fine_i8|]. intros nb _.
  apply fine_ebind; [apply fine_ploop|]. intros ps P.
  destruct (24 <? _)%nat; [apply fine_ret|]. unfold fibs_finish. apply fine_bind.
  - apply fine_try_from. apply ploop_sound in P; [|cbn [length]; rewrite app_length, repeat_length; cbn [length]; lia].
    destruct P as (L & ns & vs & F & G & ->). apply Forall2_length in F, G. rewrite firstn_length in F. cbn [length]. rewrite app_length, rev_length, skipn_length.
    cbn [length]. rewrite app_length, repeat_length. cbn [length]. lia.
  - intros [e|p] _; [apply fine_ret|]. apply fine_ebind.
    + destruct (str_eqb _ _); [apply fine_bind; [apply fine_flip|intros; apply fine_ret]|]. destruct (negb _); apply fine_ret.
    + intros. destruct (_ || _); apply fine_ret.
Qed.
Lemma fibs_decode_tag m k s : fibs_decode m k s = map_ok (tag k) (fibs_decode_position m (checkers k) s).
Proof. destruct k; reflexivity. Qed.

Lemma counts_range s x o : counts_text s x o -> 0 <= x <= 255 /\ 0 <= o <= 255.
Proof.
  intros (ws & cs & _ & F & (a & b & E1 & _) & (c & d & E2 & _)).
  assert (G : forall e, In e cs -> 0 <= snd e <= 255).
  { clear - F. induction F as [|w c ws cs P F IH]; intros e; [intros []|]. intros [<-|I]; auto.
    destruct P as (t & _ & [N|(u & _ & N)] & R); apply numeral_nonneg in N; lia. }
  split; [apply (G (true, x))|apply (G (false, o))]; [rewrite E1|rewrite E2]; apply in_app_iff; right; left; reflexivity.
Qed.

(** What the decoder read, and what it does with it. *)
Lemma fibs_decode_sound m N s p : fibs_decode_position m N s = Ret (inr p) ->
  exists b nb vs, fibs_text s b /\ i8 m (- as_i8 (fb_o_bar b)) = Ret nb /\ Forall2 (fun k v => i8 m k = Ret v) (fb_points b) vs /\
  fibs_finish m N (fb_turn b) (fb_x_off b) (fb_o_off b) (nb :: rev vs ++ [as_i8 (fb_x_bar b)]) = Ret (inr p).
Proof.
  rewrite fibs_decode_unfold. unfold lift, ebind. intros H.
  destruct (pfold fibs_field_step (split_on 59 s) fibs_no_fields) as [e|st] eqn:E0; [discriminate H|]. rewrite ?bind_ret in H.
  destruct st as [[t|] [bar|] [off|] [pts|]]; cbn [f_turn f_bar f_off f_points ok_or] in H; rewrite ?bind_ret in H; try discriminate H.
  destruct (fibs_two_counts bar) as [e|[xb ob]] eqn:E1; [discriminate H|]. rewrite ?bind_ret in H.
  destruct (fibs_two_counts off) as [e|[x_exp o_exp]] eqn:E2; [discriminate H|]. rewrite ?bind_ret in H.
  destruct (i8 m (- as_i8 ob)) as [nb|k] eqn:E3; [|discriminate H]. rewrite ?bind_ret in H.
  destruct (ploop m (split_on 44 pts) 24 (nb :: repeat 0 24 ++ [as_i8 xb])) as [[e|ps]|k] eqn:E4; [discriminate H| |discriminate H].
  rewrite ?bind_ret in H. destruct (Nat.ltb_spec 24 (length (split_on 44 pts))) as [|LE]; [discriminate H|].
  apply ploop_sound in E4; [|cbn [length]; rewrite app_length, repeat_length; cbn [length]; lia].
  destruct E4 as (L & ns & vs & F & G & ->). rewrite firstn_all2 in F by lia.
  apply fields_iff in E0. destruct E0 as (fs & es & -> & FF & A & B & C & D). apply two_counts_iff in E1, E2.
  exists {| fb_turn := t; fb_x_bar := xb; fb_o_bar := ob; fb_x_off := x_exp; fb_o_off := o_exp; fb_points := ns |}, nb, vs.
  cbn [fb_turn fb_x_bar fb_o_bar fb_x_off fb_o_off fb_points]. split; [|auto].
  exists fs, es, bar, off, (split_on 44 pts). cbn [fb_turn fb_x_bar fb_o_bar fb_x_off fb_o_off fb_points]. change (lit ",") with [44].
  rewrite join_split_on. repeat (split; [solve [auto]|]). split; [lia|exact F].
Qed.
Lemma fibs_decode_complete m N s b : fibs_text s b -> fb_x_bar b <= 127 -> fb_o_bar b <= 127 -> Forall (fun k => k <= 127) (fb_points b) ->
  fibs_decode_position m N s = fibs_finish m N (fb_turn b) (fb_x_off b) (fb_o_off b) (fb_pips b).
Proof.
  destruct b as [t xb ob x_exp o_exp ns]. cbn [fb_turn fb_x_bar fb_o_bar fb_x_off fb_o_off fb_points]. unfold fb_pips.
  cbn [fb_turn fb_x_bar fb_o_bar fb_x_off fb_o_off fb_points].
  intros (fs & es & bar & off & ws & -> & FF & A & B & B' & C & C' & D & L & F) XB OB P. cbn [fb_turn fb_x_bar fb_o_bar fb_x_off fb_o_off fb_points] in *.
  pose proof (counts_range B') as RB. rewrite fibs_decode_unfold.
  rewrite (proj2 (fields_iff (join (lit ";") fs) t bar off (join (lit ",") ws))) by (exists fs, es; repeat (split; [assumption||reflexivity|]); assumption). apply two_counts_iff in B', C'.
  unfold lift, ebind. rewrite ?bind_ret. cbn [f_turn f_bar f_off f_points ok_or]. rewrite ?bind_ret, B', ?bind_ret, C', ?bind_ret.
  assert (AI : forall z, 0 <= z <= 127 -> as_i8 z = z) by (intros z Hz; unfold as_i8, wrap_i8; rewrite Z.mod_small by lia; lia).
  rewrite !AI by lia. rewrite i8_ret by lia. rewrite ?bind_ret.
  assert (W : split_on 44 (join (lit ",") ws) = ws).
  { apply split_on_join; [intros ->; discriminate L|]. clear - F. induction F; constructor; auto. eapply point_text_without; eauto. }
  rewrite W, (ploop_complete m (n := 24) (ws := ws) (ns := ns)); auto; [|cbn [length]; rewrite app_length, repeat_length; cbn [length]; lia].
  rewrite bind_ret, L. reflexivity.
Qed.

(** ** The encoder *)
Definition point_out (n : Z) : str :=
  if 0 <? n then lit "x" ++ fmt_int n else if n <? 0 then lit "o" ++ fmt_int (- n) else lit "-".
Definition counts_out (x o : Z) : str := join (lit ",") [lit "x" ++ fmt_uint x; lit "o" ++ fmt_uint o].
Definition fibs_out (p : position) : str :=
  join (lit ";") [lit "turn=" ++ (if turn p then lit "x" else lit "o"); lit "bar=" ++ counts_out (pt p 25) (- pt p 0);
    lit "off=" ++ counts_out (x_off p) (o_off p); lit "points=" ++ join (lit ",") (map (fun i => point_out (pt p i)) (rev (seq 1 24)))].
Lemma fibs_encode_ret m N p : wf N p -> fibs_encode_position m p = Ret (fibs_out p).
Proof.
  intros W.
  assert (IX : forall i, (i < 26)%nat -> pip p i = Ret (pt p i)).
  { intros i Hi. unfold pip. rewrite (index_ret _ 0) by (rewrite (wf_len W); auto). reflexivity. }
  pose proof (wf_xbar W) as XB. pose proof (wf_obar W) as OB.
  pose proof (wf_pt_bounds 25 W). pose proof (wf_pt_bounds 0 W).
  unfold fibs_encode_position. cbv zeta. unfold x_bar, o_bar.
  change (index (pips p) X_BAR) with (pip p 25). change (index (pips p) O_BAR) with (pip p 0).
  rewrite !IX by lia. rewrite !bind_ret. rewrite i8_ret by lia. rewrite bind_ret, !as_u8_id by lia.
  rewrite (mmap_ret _ (fun i => point_out (pt p i))).
  - rewrite bind_ret. unfold fibs_out, counts_out. change (range 1 25) with (seq 1 24).
    change (lit ";bar=") with (lit ";" ++ lit "bar="). change (lit ";off=") with (lit ";" ++ lit "off=").
    change (lit ";points=") with (lit ";" ++ lit "points="). change (lit ",o") with (lit "," ++ lit "o").
    generalize (map (fun i => point_out (pt p i)) (rev (seq 1 24))). intros l. cbn [join bind]. rewrite !app_assoc. reflexivity.
  - intros i Hi. apply in_rev in Hi. apply in_seq in Hi. rewrite IX by lia. rewrite bind_ret. unfold point_out.
    destruct (0 <? pt p i); auto. destruct (pt p i <? 0); auto. pose proof (wf_pt_bounds i W). rewrite i8_ret by lia. reflexivity.
Qed.

Lemma stripped_no_ws s : no_ws s -> stripped s s.
Proof. intros H. apply stripped_iff. symmetry. apply trim_no_ws. auto. Qed.
Lemma no_ws_lit_app s t : no_ws s -> no_ws t -> no_ws (s ++ t).
Proof. intros. apply no_ws_app. auto. Qed.
Ltac nows := lazymatch goal with |- no_ws (lit _) => vm_compute; repeat constructor end.
Lemma counts_out_text x o : 0 <= x <= 255 -> 0 <= o <= 255 -> counts_text (counts_out x o) x o.
Proof.
  intros X O. exists [lit "x" ++ fmt_uint x; lit "o" ++ fmt_uint o], [(true, x); (false, o)].
  assert (G : forall n, 0 <= n <= 255 -> unsigned_text 255 (fmt_uint n) n) by (intros n Hn; apply parse_uint_some, parse_uint_fmt; auto).
  split; [reflexivity|]. split; [|split].
  - repeat constructor; eexists; cbn [fst snd]; (split; [apply stripped_no_ws, no_ws_lit_app; [nows|apply fmt_uint_word; lia]|apply G; auto]).
  - exists [], [(false, o)]. split; [reflexivity|]. repeat constructor. discriminate.
  - exists [(true, x)], []. split; [reflexivity|]. constructor.
Qed.
Lemma point_out_text n : -127 <= n <= 127 -> point_text (point_out n) n.
Proof.
  intros R. unfold point_out, point_text.
  assert (G : forall z, -127 <= z <= 127 -> signed_text (-128) 127 (fmt_int z) z) by (intros z Hz; apply parse_int_some, parse_int_fmt; lia).
  destruct (Z.ltb_spec 0 n).
  - right; left. exists (fmt_int n). split; [apply stripped_no_ws, no_ws_lit_app; [nows|apply fmt_int_word]|apply G; lia].
  - destruct (Z.ltb_spec n 0).
    + right; right. exists (fmt_int (- n)). split; [apply stripped_no_ws, no_ws_lit_app; [nows|apply fmt_int_word]|apply G; lia].
    + left. split; [apply stripped_no_ws; nows|lia].
Qed.
Definition clean (s : str) : Prop := no_ws s /\ without 59 s.
Lemma clean_app a b : clean a -> clean b -> clean (a ++ b).
Proof. intros (A & A') (B & B'). split; apply Forall_app; auto. Qed.
Lemma clean_join a l : clean a -> Forall clean l -> clean (join a l).
Proof.
  intros A F. induction F as [|x l H F IH]; [split; constructor|]. destruct l as [|y l]; [exact H|].
  change (join a (x :: y :: l)) with (x ++ a ++ join a (y :: l)). repeat apply clean_app; auto.
Qed.
Ltac cln := lazymatch goal with |- clean (lit _) => split; vm_compute; repeat constructor; discriminate end.
Lemma clean_uint n : 0 <= n -> clean (fmt_uint n).
Proof. intros H. split; [apply fmt_uint_word; auto|apply fmt_uint_without; auto; lia]. Qed.
Lemma clean_int n : clean (fmt_int n).
Proof. split; [apply fmt_int_word; auto|apply fmt_int_without; auto; lia]. Qed.
Lemma clean_counts x o : 0 <= x -> 0 <= o -> clean (counts_out x o).
Proof. intros. unfold counts_out. apply clean_join; [cln|]. constructor; [|constructor; [|constructor]]; (apply clean_app; [cln|apply clean_uint; auto]). Qed.
Lemma clean_point n : clean (point_out n).
Proof. unfold point_out. destruct (0 <? n); [apply clean_app; [cln|apply clean_int]|]. destruct (n <? 0); [apply clean_app; [cln|apply clean_int]|cln]. Qed.
Lemma clean_field k v : In k [lit "turn"; lit "bar"; lit "off"; lit "points"] -> clean v -> field_text (k ++ lit "=" ++ v) (k, v).
Proof.
  intros I C. assert (K : clean k) by (cbn [In] in I; destruct I as [<-|[<-|[<-|[<-|[]]]]]; cln).
  exists k, v. cbn [fst snd]. split; auto. split; [apply stripped_no_ws, K|]. split; [apply stripped_no_ws, C|]. split; auto.
  intros Q. assert (W : clean (k ++ lit "=" ++ v)) by (repeat apply clean_app; auto; cln). destruct W as (_ & W).
  apply (proj1 (Forall_forall _ _) W) in Q. congruence.
Qed.
Definition board_fibs (p : position) : fibs_board :=
  {| fb_turn := if turn p then lit "x" else lit "o"; fb_x_bar := pt p 25; fb_o_bar := - pt p 0; fb_x_off := x_off p; fb_o_off := o_off p;
     fb_points := map (pt p) (rev (seq 1 24)) |}.
Lemma fibs_out_text N p : wf N p -> fibs_text (fibs_out p) (board_fibs p).
Proof.
  intros W. pose proof (wf_xbar W) as XB. pose proof (wf_obar W) as OB. pose proof (wf_xoff W). pose proof (wf_ooff W).
  pose proof (wf_pt_bounds 25 W). pose proof (wf_pt_bounds 0 W). pose proof (wf_N W).
  pose proof (wf_x W) as XC. pose proof (wf_o W) as OC. unfold x_checkers in XC. unfold o_checkers in OC.
  assert (NN : forall f, (forall v, 0 <= f v) -> 0 <= sumZ (map f (pips p))).
  { intros f Hf. apply sumZ_nonneg. auto. }
  pose proof (NN (fun v => Z.max 0 v) ltac:(intros; lia)). pose proof (NN (fun v => Z.max 0 (- v)) ltac:(intros; lia)).
  set (ws := map (fun i => point_out (pt p i)) (rev (seq 1 24))).
  exists [lit "turn=" ++ (if turn p then lit "x" else lit "o"); lit "bar=" ++ counts_out (pt p 25) (- pt p 0);
    lit "off=" ++ counts_out (x_off p) (o_off p); lit "points=" ++ join (lit ",") ws],
    [(lit "turn", if turn p then lit "x" else lit "o"); (lit "bar", counts_out (pt p 25) (- pt p 0)); (lit "off", counts_out (x_off p) (o_off p));
     (lit "points", join (lit ",") ws)], (counts_out (pt p 25) (- pt p 0)), (counts_out (x_off p) (o_off p)), ws.
  unfold board_fibs. cbn [fb_turn fb_x_bar fb_o_bar fb_x_off fb_o_off fb_points].
  assert (CW : clean (join (lit ",") ws)).
  { apply clean_join; [cln|]. apply Forall_forall. intros x Hx. apply in_map_iff in Hx. destruct Hx as (i & <- & _). apply clean_point. }
  split; [reflexivity|]. split.
  { constructor; [|constructor; [|constructor; [|constructor; [|constructor]]]].
    - apply (@clean_field (lit "turn")); [left; reflexivity|destruct (turn p); cln].
    - apply (@clean_field (lit "bar")); [right; left; reflexivity|apply clean_counts; lia].
    - apply (@clean_field (lit "off")); [right; right; left; reflexivity|apply clean_counts; lia].
    - apply (@clean_field (lit "points")); [right; right; right; left; reflexivity|exact CW]. }
  assert (LV : forall (a b : list (str * str)) k v, Forall (fun e => fst e <> k) b -> last_value k (a ++ (k, v) :: b) v) by (intros a b k v F; exists a, b; auto).
  split; [apply (LV []); repeat constructor; discriminate|].
  split; [apply (LV [_]); repeat constructor; discriminate|]. split; [apply counts_out_text; lia|].
  split; [apply (LV [_; _]); repeat constructor; discriminate|]. split; [apply counts_out_text; lia|].
  split; [apply (LV [_; _; _]); constructor|]. split; [unfold ws; rewrite map_length, rev_length, seq_length; reflexivity|].
  unfold ws. clear - W. generalize (rev (seq 1 24)). intros l. induction l as [|i l IH]; cbn [map]; constructor; [|exact IH]. apply point_out_text. apply (wf_pt_bounds i W).
Qed.
Lemma fb_pips_board N p : wf N p -> fb_pips (board_fibs p) = pips p.
Proof.
  intros W. unfold fb_pips, board_fibs. cbn [fb_turn fb_x_bar fb_o_bar fb_x_off fb_o_off fb_points].
  pose proof (wf_len W) as L. unfold pt. destruct p as [t ps xo oo]; cbn [pips] in *.
  do 26 (destruct ps as [|? ps]; [discriminate L|]). destruct ps; [|discriminate L].
  rewrite map_rev, rev_involutive. cbn [seq map nth app]. rewrite Z.opp_involutive. reflexivity.
Qed.

Lemma fibs_finish_ok m N t xe oe ps : 1 <= N <= 127 -> length ps = 26%nat -> x_count ps <= 127 -> o_count ps <= 127 ->
  exists r, fibs_finish m N t xe oe ps = Ret r /\
  match r with
  | inr w => acceptable N ps /\ exists p, wf N p /\ pips p = ps /\ turn p = true /\ x_off p = N - x_count ps /\ o_off p = N - o_count ps /\
      ((t = lit "x" /\ w = p) \/ (t = lit "o" /\ w = flipP p)) /\ x_off w = xe /\ o_off w = oe
  | inl _ => ~ acceptable N ps \/ (t <> lit "x" /\ t <> lit "o") \/
      (t = lit "x" /\ (N - x_count ps <> xe \/ N - o_count ps <> oe)) \/
      (t = lit "o" /\ (N - o_count ps <> xe \/ N - x_count ps <> oe))
  end.
Proof.
  intros HN L X O. destruct (@try_from_bounded m N ps HN L X ltac:(lia)) as (r & E & A). unfold fibs_finish. rewrite E, bind_ret.
  destruct r as [e|p]; cbn [try_answer] in A; [eexists; split; [reflexivity|]; cbv iota; left; exact A|].
  destruct A as (A & W & P & T & XO & OO).
  assert (G : forall q, ((t = lit "x" /\ q = p) \/ (t = lit "o" /\ q = flipP p)) -> exists r0,
    (if negb (x_off q =? xe) || negb (o_off q =? oe) then Ret (inl FibsInvalidPosition) else Ret (inr q)) = Ret r0 /\
  match r0 with
  | inr w => acceptable N ps /\ exists p, wf N p /\ pips p = ps /\ turn p = true /\ x_off p = N - x_count ps /\ o_off p = N - o_count ps /\
      ((t = lit "x" /\ w = p) \/ (t = lit "o" /\ w = flipP p)) /\ x_off w = xe /\ o_off w = oe
  | inl _ => ~ acceptable N ps \/ (t <> lit "x" /\ t <> lit "o") \/
      (t = lit "x" /\ (N - x_count ps <> xe \/ N - o_count ps <> oe)) \/
      (t = lit "o" /\ (N - o_count ps <> xe \/ N - x_count ps <> oe))
  end).
  { intros q Q. destruct (Z.eqb_spec (x_off q) xe) as [E1|E1], (Z.eqb_spec (o_off q) oe) as [E2|E2]; cbn [negb orb];
      (eexists; split; [reflexivity|]); cbv iota; try (split; [exact A|exists p; tauto]);
      right; right; (destruct Q as [(-> & ->)|(-> & ->)]; [left|right]); (split; [reflexivity|]); unfold flipP in *; cbn [x_off o_off] in *; lia. }
  destruct (str_eqb t (lit "o")) eqn:TO.
  - apply str_eqb_eq in TO. rewrite (flip_ret m W). rewrite bind_ret. unfold ebind. rewrite bind_ret. apply G. auto.
  - destruct (str_eqb t (lit "x")) eqn:TX; cbn [negb].
    + apply str_eqb_eq in TX. unfold ebind. rewrite bind_ret. apply G. auto.
    + apply str_eqb_neq in TO, TX. eexists. split; [reflexivity|]. tauto.
Qed.
