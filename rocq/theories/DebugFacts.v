(** The [Debug] text determines the position. *)
From Coq Require Import Strings.String.
From Verif Require Export PosDebug StrFacts SpecRules.
From Verif Require Import BaseFacts MoveFacts HashFacts EqFacts.
Open Scope Z_scope.

Definition item (kv : str * Z) : str := fst kv ++ 58 :: fmt_int (snd kv).
Definition render (l : list (str * Z)) : str := concat (map (fun kv => dbg_item (fst kv) (snd kv)) l).

Lemma render_join l : l <> [] -> render l = join [44; 32] (map item l) ++ [44; 32].
Proof.
  unfold render. induction l as [|a l IH]; intros H; [congruence|]. destruct l as [|b l].
  - simpl. unfold dbg_item, item. simpl. rewrite app_nil_r, <- !app_assoc. reflexivity.
  - change (map item (a :: b :: l)) with (item a :: map item (b :: l)).
    change (join [44; 32] (item a :: map item (b :: l))) with (item a ++ [44; 32] ++ join [44; 32] (map item (b :: l))).
    change (concat (map (fun kv => dbg_item (fst kv) (snd kv)) (a :: b :: l)))
      with (dbg_item (fst a) (snd a) ++ concat (map (fun kv => dbg_item (fst kv) (snd kv)) (b :: l))).
    rewrite IH by discriminate. unfold dbg_item. unfold item at 2.
    change (lit ":") with [58]. change (lit ", ") with [44; 32]. rewrite <- !app_assoc. reflexivity.
Qed.
Lemma pop2_app s a b : pop2 (s ++ [a; b]) = s.
Proof.
  unfold pop2. change [a; b] with ([a] ++ [b]). rewrite app_assoc, removelast_last, removelast_last. reflexivity.
Qed.

Definition opt_item (k : str) (v : Z) : list (str * Z) := if 0 <? v then [(k, v)] else [].
Definition num (i : nat) : str := fmt_int (Z.of_nat i).
Definition xitems (p : position) : list (str * Z) :=
  opt_item (lit "bar") (pt p 25) ++ flat_map (fun i => opt_item (num i) (pt p i)) (rev (seq 1 24))
  ++ opt_item (lit "off") (x_off p).
Definition oitems (p : position) : list (str * Z) :=
  opt_item (lit "off") (o_off p) ++ flat_map (fun i => opt_item (num i) (- pt p i)) (rev (seq 1 24))
  ++ opt_item (lit "bar") (- pt p 0).

Lemma render_app a b : render (a ++ b) = render a ++ render b.
Proof. unfold render. rewrite map_app. apply concat_app. Qed.
Lemma render_opt k v : render (opt_item k v) = if 0 <? v then dbg_item k v else [].
Proof. unfold opt_item, render. destruct (0 <? v); simpl; auto. apply app_nil_r. Qed.
Lemma if_app {A} (b : bool) (s t : list A) : (if b then s ++ t else s) = s ++ (if b then t else []).
Proof. destruct b; auto. rewrite app_nil_r. reflexivity. Qed.

Lemma dbg_x_ret N p : wf N p -> dbg_x p = Ret (pop2 (lit "x: {" ++ render (xitems p)) ++ lit "}" ++ [10]).
Proof.
  intros W. unfold dbg_x. rewrite (index_ret _ 0) by (rewrite (wf_len W); unfold X_BAR, O_BAR; lia). rewrite bind_ret.
  fold (pt p 25). cbv zeta. rewrite (if_app (0 <? nth X_BAR (pips p) 0)).
  assert (F : forall l s, (forall i, In i l -> (i < 26)%nat) ->
     mfold (fun s i => v <- index (pips p) i ;;
                Ret (if 0 <? v then s ++ dbg_item (fmt_int (Z.of_nat i)) v else s)) l s =
     Ret (s ++ render (flat_map (fun i => opt_item (num i) (pt p i)) l))).
  { induction l as [|i l IH]; intros s H; simpl mfold.
    - unfold render. simpl. rewrite app_nil_r. reflexivity.
    - rewrite (index_ret _ 0) by (rewrite (wf_len W); apply H; left; auto). rewrite !bind_ret.
      rewrite IH by (intros; apply H; right; auto). cbn [flat_map]. rewrite render_app, render_opt.
      fold (pt p i). rewrite if_app, <- app_assoc. reflexivity. }
  rewrite F by (intros i I; rewrite <- in_rev in I; apply in_range in I; unfold X_BAR in I; lia).
  rewrite bind_ret. rewrite if_app. unfold xitems. rewrite !render_app, !render_opt.
  rewrite <- !app_assoc. reflexivity.
Qed.
Lemma dbg_o_ret m N p : wf N p -> dbg_o m p = Ret (pop2 (lit "o: {" ++ render (oitems p)) ++ lit "}").
Proof.
  intros W. unfold dbg_o. cbv zeta. rewrite if_app.
  assert (F : forall l s, (forall i, In i l -> (i < 26)%nat) ->
     mfold (fun s i => v <- index (pips p) i ;;
                if v <? 0 then n <- i8 m (- v) ;; Ret (s ++ dbg_item (fmt_int (Z.of_nat i)) n)
                else Ret s) l s =
     Ret (s ++ render (flat_map (fun i => opt_item (num i) (- pt p i)) l))).
  { induction l as [|i l IH]; intros s H; simpl mfold.
    - unfold render. simpl. rewrite app_nil_r. reflexivity.
    - rewrite (index_ret _ 0) by (rewrite (wf_len W); apply H; left; auto). rewrite !bind_ret.
      pose proof (@wf_pt_bounds N p i W) as B. unfold pt in B.
      rewrite i8_ret by lia. rewrite bind_ret. cbn [flat_map]. rewrite render_app, render_opt. fold (pt p i).
      replace (0 <? - pt p i) with (pt p i <? 0) by (destruct (Z.ltb_spec (pt p i) 0), (Z.ltb_spec 0 (- pt p i)); auto; lia).
      destruct (pt p i <? 0); rewrite bind_ret, IH by (intros; apply H; right; auto).
      + rewrite <- app_assoc. reflexivity.
      + reflexivity. }
  rewrite F by (intros i I; rewrite <- in_rev in I; apply in_range in I; unfold X_BAR in I; lia).
  rewrite bind_ret. rewrite (index_ret _ 0) by (rewrite (wf_len W); unfold X_BAR, O_BAR; lia). rewrite bind_ret.
  pose proof (@wf_pt_bounds N p 0 W) as B. unfold pt in B. unfold O_BAR.
  rewrite i8_ret by lia. rewrite bind_ret. unfold oitems. rewrite !render_app, !render_opt. fold (pt p 0).
  replace (0 <? - pt p 0) with (pt p 0 <? 0) by (destruct (Z.ltb_spec (pt p 0) 0), (Z.ltb_spec 0 (- pt p 0)); auto; lia).
  destruct (pt p 0 <? 0); rewrite bind_ret.
  - rewrite <- !app_assoc. reflexivity.
  - rewrite app_nil_r, <- !app_assoc. reflexivity.
Qed.

(** Items exist. *)
Lemma flat_map_nil {A B} (f : A -> list B) l : flat_map f l = [] -> forall x, In x l -> f x = [].
Proof.
  induction l as [|a l IH]; simpl; intros H x I; [tauto|]. apply app_eq_nil in H. destruct H, I; subst; auto.
Qed.
Lemma opt_item_nil k v : opt_item k v = [] -> v <= 0.
Proof. unfold opt_item. destruct (Z.ltb_spec 0 v); [discriminate|auto]. Qed.
Lemma sum_zero (f : nat -> Z) l : (forall i, In i l -> f i <= 0) -> sumZ (map (fun i => Z.max 0 (f i)) l) = 0.
Proof. induction l as [|a l IH]; simpl; intros H; auto. rewrite IH by auto. pose proof (H a ltac:(auto)). lia. Qed.
Lemma xitems_nonempty N p : wf N p -> xitems p <> [].
Proof.
  intros W H. unfold xitems in H. apply app_eq_nil in H. destruct H as (A & H).
  apply app_eq_nil in H. destruct H as (B & C). apply opt_item_nil in A. apply opt_item_nil in C.
  pose proof (x_board W) as X. rewrite (sum_zero (pt p)) in X.
  - pose proof (wf_N W). lia.
  - intros i I. pose proof (flat_map_nil _ _ B i) as K. cbv beta in K. rewrite <- in_rev in K.
    eapply opt_item_nil. apply K; auto.
Qed.
Lemma oitems_nonempty N p : wf N p -> oitems p <> [].
Proof.
  intros W H. unfold oitems in H. apply app_eq_nil in H. destruct H as (A & H).
  apply app_eq_nil in H. destruct H as (B & C). apply opt_item_nil in A. apply opt_item_nil in C.
  pose proof (o_board W) as X. rewrite (sum_zero (fun i => - pt p i)) in X.
  - pose proof (wf_N W). lia.
  - intros i I. pose proof (flat_map_nil _ _ B i) as K. cbv beta in K. rewrite <- in_rev in K.
    eapply opt_item_nil. apply K; auto.
Qed.
Lemma debug_fmt_ret m N p : wf N p -> debug_fmt m p = Ret (lit "Position:" ++ [10] ++
  (lit "x: {" ++ join [44; 32] (map item (xitems p)) ++ lit "}") ++ [10] ++
  lit "o: {" ++ join [44; 32] (map item (oitems p)) ++ lit "}").
Proof.
  intros W. unfold debug_fmt. rewrite (dbg_x_ret W), (dbg_o_ret m W), !bind_ret.
  rewrite !render_join by (eapply xitems_nonempty || eapply oitems_nonempty; eauto).
  rewrite !(app_assoc (lit _) (join _ _)). rewrite !pop2_app. f_equal. f_equal. f_equal.
  rewrite <- !app_assoc. reflexivity.
Qed.

(** Characters of items. *)
Definition key (s : str) : Prop := Forall (fun c => 48 <= c <= 57 \/ 97 <= c <= 122) s.
Lemma key_num i : key (num i).
Proof.
  unfold num, fmt_int. destruct (Z.ltb_spec (Z.of_nat i) 0); [lia|].
  destruct (fmt_uint_spec (n := Z.of_nat i) ltac:(lia)) as (_ & D & _).
  eapply Forall_impl; [|exact D]. simpl. lia.
Qed.
Lemma key_without k c : key k -> ~ (48 <= c <= 57 \/ 97 <= c <= 122) -> without c k.
Proof. intros K C. eapply Forall_impl; [|exact K]. simpl. intros; lia. Qed.
Definition good (kv : str * Z) : Prop := key (fst kv) /\ 0 < snd kv.
Lemma good_opt k v : key k -> Forall good (opt_item k v).
Proof. intros K. unfold opt_item. destruct (Z.ltb_spec 0 v); constructor; [split; auto|constructor]. Qed.
Lemma key_bar : key (lit "bar").
Proof. repeat constructor; simpl; lia. Qed.
Lemma key_off : key (lit "off").
Proof. repeat constructor; simpl; lia. Qed.
Lemma good_flat (f : nat -> Z) l : Forall good (flat_map (fun i => opt_item (num i) (f i)) l).
Proof. induction l; simpl; [constructor|]. apply Forall_app. split; auto. apply good_opt, key_num. Qed.
Lemma good_x p : Forall good (xitems p).
Proof.
  unfold xitems. apply Forall_app. split; [apply good_opt, key_bar|]. apply Forall_app.
  split; [apply good_flat|apply good_opt, key_off].
Qed.
Lemma good_o p : Forall good (oitems p).
Proof.
  unfold oitems. apply Forall_app. split; [apply good_opt, key_off|]. apply Forall_app.
  split; [apply (good_flat (fun i => - pt p i))|apply good_opt, key_bar].
Qed.
Lemma item_without c kv : good kv -> ~ (48 <= c <= 58 \/ 97 <= c <= 122 \/ c = 45) -> without c (item kv).
Proof.
  intros (K & V) C. unfold item. apply Forall_app. split; [apply key_without; auto; lia|].
  constructor; [lia|]. apply fmt_int_without; lia.
Qed.
Lemma items_without c l : Forall good l -> ~ (48 <= c <= 58 \/ 97 <= c <= 122 \/ c = 45) ->
  Forall (without c) (map item l).
Proof. intros F C. rewrite Forall_map. eapply Forall_impl; [|exact F]. intros kv G. apply item_without; auto. Qed.
Lemma item_inj a b : good a -> good b -> item a = item b -> a = b.
Proof.
  destruct a as (k, v), b as (k', v'). intros (K & V) (K' & V') E. unfold item in E. simpl in *.
  pose proof (split_once_app (fmt_int v) (key_without (c := 58) K ltac:(lia))) as A.
  pose proof (split_once_app (fmt_int v') (key_without (c := 58) K' ltac:(lia))) as B.
  rewrite E, B in A. inversion A. f_equal. apply fmt_int_inj. auto.
Qed.
Lemma map_item_inj l l' : Forall good l -> Forall good l' -> map item l = map item l' -> l = l'.
Proof.
  intros F. revert l'. induction F as [|a l G F IH]; intros [|b l'] F' E; simpl in E; try discriminate; auto.
  inversion F'; inversion E; subst. f_equal; auto. apply item_inj; auto.
Qed.

(** Joined lists. *)
Lemma split_join2 l : forall a, Forall (without 44) (a :: l) ->
  split_on 44 (join [44; 32] (a :: l)) = a :: map (cons 32) l.
Proof.
  induction l as [|b l IH]; intros a F; inversion F; subst.
  - simpl. apply split_on_no; auto.
  - change (join [44; 32] (a :: b :: l)) with (a ++ 44 :: (32 :: join [44; 32] (b :: l))).
    rewrite split_on_app by auto. f_equal. cbn [split_on]. change (32 =? 44) with false. cbv iota.
    rewrite IH by auto. reflexivity.
Qed.
Lemma join2_inj l l' : Forall (without 44) l -> Forall (without 44) l' -> l <> [] -> l' <> [] ->
  join [44; 32] l = join [44; 32] l' -> l = l'.
Proof.
  destruct l as [|a l], l' as [|b l']; intros F F' N N' E; try congruence.
  pose proof (split_join2 F) as A. pose proof (split_join2 F') as B. rewrite E, B in A. inversion A; subst. f_equal.
  clear - H1. revert l H1. induction l' as [|x l' IH]; intros [|y l] E; simpl in E; try discriminate; auto.
  inversion E; subst. f_equal; auto.
Qed.
Lemma join_without c sep l : without c sep -> Forall (without c) l -> without c (join sep l).
Proof.
  intros S F. induction F as [|a l H F IH]; [constructor|]. destruct l; [exact H|].
  change (join sep (a :: s :: l)) with (a ++ sep ++ join sep (s :: l)).
  apply Forall_app. split; auto. apply Forall_app. auto.
Qed.

Lemma Ret_inj {A} (a b : A) : Ret a = Ret b -> a = b.
Proof. congruence. Qed.
Lemma Some_inj {A} (a b : A) : Some a = Some b -> a = b.
Proof. congruence. Qed.
Lemma pair_inj {A B} (a a' : A) (b b' : B) : (a, b) = (a', b') -> a = a' /\ b = b'.
Proof. intros H; inversion H; auto. Qed.

(** Recovering counts from items. *)
Lemma in_opt k v k' v' : In (k', v') (opt_item k v) <-> k' = k /\ v' = v /\ 0 < v.
Proof.
  unfold opt_item. destruct (Z.ltb_spec 0 v); simpl; split.
  - intros [E|[]]. apply pair_inj in E. destruct E. subst. tauto.
  - intros (E1 & E2 & _). left. congruence.
  - intros [].
  - intros (_ & _ & L). lia.
Qed.
Lemma num_inj i j : num i = num j -> i = j.
Proof. intros E. apply fmt_int_inj in E. lia. Qed.
Lemma num_digits i : is_digits (num i).
Proof. unfold num, fmt_int. destruct (Z.ltb_spec (Z.of_nat i) 0); [lia|]. apply fmt_uint_spec. lia. Qed.
Lemma num_not_bar i : num i <> lit "bar".
Proof. intros E. pose proof (num_digits i) as D. rewrite E in D. inversion D; subst. lia. Qed.
Lemma num_not_off i : num i <> lit "off".
Proof. intros E. pose proof (num_digits i) as D. rewrite E in D. inversion D; subst. lia. Qed.
Lemma in_flat (f : nat -> Z) l i v :
  In (num i, v) (flat_map (fun i => opt_item (num i) (f i)) l) <-> In i l /\ v = f i /\ 0 < f i.
Proof.
  rewrite in_flat_map. split.
  - intros (j & J & I). apply in_opt in I. destruct I as (E & V & P). apply num_inj in E. subst. auto.
  - intros (I & -> & P). exists i. split; auto. apply in_opt. auto.
Qed.
Lemma in_flat_lit (f : nat -> Z) l k v : (forall i, num i <> k) ->
  ~ In (k, v) (flat_map (fun i => opt_item (num i) (f i)) l).
Proof. intros H. rewrite in_flat_map. intros (j & J & I). apply in_opt in I. destruct I as (E & _). apply (H j). auto. Qed.

Lemma xitems_num p i v : In (num i, v) (xitems p) <-> (1 <= i <= 24)%nat /\ v = pt p i /\ 0 < pt p i.
Proof.
  unfold xitems. rewrite !in_app_iff, !in_opt, (in_flat (pt p)), <- in_rev, in_seq.
  pose proof (num_not_bar i). pose proof (num_not_off i). intuition lia.
Qed.
Lemma xitems_bar p v : In (lit "bar", v) (xitems p) <-> v = pt p 25 /\ 0 < pt p 25.
Proof.
  unfold xitems. rewrite !in_app_iff, !in_opt.
  pose proof (@in_flat_lit (pt p) (rev (seq 1 24)) (lit "bar") v (num_not_bar)).
  assert (lit "bar" <> lit "off") by discriminate. intuition.
Qed.
Lemma xitems_off p v : In (lit "off", v) (xitems p) <-> v = x_off p /\ 0 < x_off p.
Proof.
  unfold xitems. rewrite !in_app_iff, !in_opt.
  pose proof (@in_flat_lit (pt p) (rev (seq 1 24)) (lit "off") v (num_not_off)).
  assert (lit "off" <> lit "bar") by discriminate. intuition.
Qed.
Lemma oitems_num p i v : In (num i, v) (oitems p) <-> (1 <= i <= 24)%nat /\ v = - pt p i /\ 0 < - pt p i.
Proof.
  unfold oitems. rewrite !in_app_iff, !in_opt, (in_flat (fun i => - pt p i)), <- in_rev, in_seq.
  pose proof (num_not_bar i). pose proof (num_not_off i). intuition lia.
Qed.
Lemma oitems_bar p v : In (lit "bar", v) (oitems p) <-> v = - pt p 0 /\ 0 < - pt p 0.
Proof.
  unfold oitems. rewrite !in_app_iff, !in_opt.
  pose proof (@in_flat_lit (fun i => - pt p i) (rev (seq 1 24)) (lit "bar") v (num_not_bar)).
  assert (lit "bar" <> lit "off") by discriminate. intuition.
Qed.
Lemma oitems_off p v : In (lit "off", v) (oitems p) <-> v = o_off p /\ 0 < o_off p.
Proof.
  unfold oitems. rewrite !in_app_iff, !in_opt.
  pose proof (@in_flat_lit (fun i => - pt p i) (rev (seq 1 24)) (lit "off") v (num_not_off)).
  assert (lit "off" <> lit "bar") by discriminate. intuition.
Qed.
Lemma max_of (a b : Z) : (forall v, v = a /\ 0 < a <-> v = b /\ 0 < b) -> Z.max 0 a = Z.max 0 b.
Proof. intros H. pose proof (H a). pose proof (H b). lia. Qed.
Lemma items_inj N p q : wf N p -> wf N q -> xitems p = xitems q -> oitems p = oitems q -> position_eqb p q = true.
Proof.
  intros Wp Wq EX EO.
  assert (XO : Z.max 0 (x_off p) = Z.max 0 (x_off q)) by (apply max_of; intros v; rewrite <- !xitems_off, EX; tauto).
  assert (OO : Z.max 0 (o_off p) = Z.max 0 (o_off q)) by (apply max_of; intros v; rewrite <- !oitems_off, EO; tauto).
  assert (XB : Z.max 0 (pt p 25) = Z.max 0 (pt q 25)) by (apply max_of; intros v; rewrite <- !xitems_bar, EX; tauto).
  assert (OB : Z.max 0 (- pt p 0) = Z.max 0 (- pt q 0)) by (apply max_of; intros v; rewrite <- !oitems_bar, EO; tauto).
  pose proof (wf_xoff Wp). pose proof (wf_xoff Wq). pose proof (wf_ooff Wp). pose proof (wf_ooff Wq).
  pose proof (wf_xbar Wp). pose proof (wf_xbar Wq). pose proof (wf_obar Wp). pose proof (wf_obar Wq).
  apply position_eqb_iff. split; [|lia]. apply nth_ext26; [apply Wp|apply Wq|]. intros i Hi.
  fold (pt p i) (pt q i). destruct (Nat.eq_dec i 0) as [->|]; [lia|]. destruct (Nat.eq_dec i 25) as [->|]; [lia|].
  assert (XI : Z.max 0 (pt p i) = Z.max 0 (pt q i)).
  { apply max_of; intros v. pose proof (xitems_num p i v) as A. pose proof (xitems_num q i v) as B.
    rewrite EX in A. assert ((1 <= i <= 24)%nat) by lia. tauto. }
  assert (OI : Z.max 0 (- pt p i) = Z.max 0 (- pt q i)).
  { apply max_of; intros v. pose proof (oitems_num p i v) as A. pose proof (oitems_num q i v) as B.
    rewrite EO in A. assert ((1 <= i <= 24)%nat) by lia. tauto. }
  lia.
Qed.

Lemma debug_fmt_inj m N p q s : wf N p -> wf N q -> debug_fmt m p = Ret s -> debug_fmt m q = Ret s ->
  position_eqb p q = true.
Proof.
  intros Wp Wq Ep Eq. rewrite (debug_fmt_ret m Wp) in Ep. rewrite (debug_fmt_ret m Wq) in Eq.
  rewrite <- Eq in Ep. apply Ret_inj in Ep. rename Ep into E1. clear Eq.
  assert (LX : forall r, without 10 (lit "x: {" ++ join [44; 32] (map item (xitems r)) ++ lit "}")).
  { intros r. apply Forall_app. split; [repeat constructor; simpl; lia|]. apply Forall_app.
    split; [|repeat constructor; simpl; lia]. apply join_without; [repeat constructor; lia|].
    apply items_without; [apply good_x|lia]. }
  apply app_inv_head in E1. apply app_inv_head in E1.
  pose proof (split_once_app (lit "o: {" ++ join [44; 32] (map item (oitems p)) ++ lit "}") (LX p)) as A.
  pose proof (split_once_app (lit "o: {" ++ join [44; 32] (map item (oitems q)) ++ lit "}") (LX q)) as B.
  change ([10] ++ lit "o: {" ++ join [44; 32] (map item (oitems p)) ++ lit "}")
    with (10 :: lit "o: {" ++ join [44; 32] (map item (oitems p)) ++ lit "}") in E1.
  change ([10] ++ lit "o: {" ++ join [44; 32] (map item (oitems q)) ++ lit "}")
    with (10 :: lit "o: {" ++ join [44; 32] (map item (oitems q)) ++ lit "}") in E1.
  rewrite E1, B in A. apply Some_inj in A. apply pair_inj in A. destruct A as (EX & EO). clear B E1.
  apply app_inv_head, app_inv_tail, join2_inj in EX; try (apply items_without; [apply good_x|lia]);
    try (intros F; apply map_eq_nil in F; revert F; eapply xitems_nonempty; eauto).
  apply app_inv_head, app_inv_tail, join2_inj in EO; try (apply items_without; [apply good_o|lia]);
    try (intros F; apply map_eq_nil in F; revert F; eapply oitems_nonempty; eauto).
  apply map_item_inj in EX; try apply good_x. apply map_item_inj in EO; try apply good_o.
  eapply items_inj; eauto.
Qed.
