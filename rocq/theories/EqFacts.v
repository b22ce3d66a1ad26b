(** The [turn] flag does not influence moves or results: changing it before is changing it
    after. *)
From Verif Require Export Rules.
Open Scope Z_scope.

Definition st (b : bool) (p : position) : position :=
  {| turn := b; pips := pips p; x_off := x_off p; o_off := o_off p |}.

Definition rmap {A B} (h : A -> B) (a : res A) : res B :=
  match a with Ret x => Ret (h x) | Panic k => Panic k end.
Definition rrel {A B} (h : A -> B) (a : res A) (b : res B) : Prop := b = rmap h a.

Lemma rb_eq {A B C} (h : B -> C) (a : res A) f f' :
  (forall x, rrel h (f x) (f' x)) -> rrel h (bind a f) (bind a f').
Proof. unfold rrel. intros H. destruct a; simpl; auto. Qed.
Lemma rb_h {A A' B C} (g : A -> A') (h : B -> C) a a' f f' : rrel g a a' ->
  (forall x, rrel h (f x) (f' (g x))) -> rrel h (bind a f) (bind a' f').
Proof. unfold rrel. intros E H. subst a'. destruct a; simpl; auto. Qed.
Lemma rr_ret {A B} (h : A -> B) x y : y = h x -> rrel h (Ret x) (Ret y).
Proof. unfold rrel. simpl. congruence. Qed.
Lemma rr_panic {A B} (h : A -> B) k : rrel h (Panic k) (Panic k).
Proof. reflexivity. Qed.
Lemma rr_mflat {A B C} (h : B -> C) (f : A -> res (list B)) f' l :
  (forall x, rrel (map h) (f x) (f' x)) -> rrel (map h) (mflat_map f l) (mflat_map f' l).
Proof.
  intros H. induction l as [|a l IH]; simpl; [reflexivity|].
  apply (rb_h (g := map h)); auto. intros x. apply (rb_h (g := map h)); auto. intros y.
  apply rr_ret. rewrite map_app. reflexivity.
Qed.
Lemma rr_mmap {A A' B C} (g : A -> A') (h : B -> C) (f : A -> res B) f' l :
  (forall x, rrel h (f x) (f' (g x))) -> rrel (map h) (mmap f l) (mmap f' (map g l)).
Proof.
  intros H. induction l as [|a l IH]; simpl; [reflexivity|].
  apply (rb_h (g := h)); auto. intros x. apply (rb_h (g := map h)); auto. intros y.
  apply rr_ret. reflexivity.
Qed.
Lemma rr_id {A} (a b : res A) : rrel (fun x => x) a b <-> b = a.
Proof. unfold rrel. destruct a; simpl; tauto. Qed.

Create HintDb teq.
#[global] Hint Resolve rr_mflat : teq.
Ltac teq := repeat (cbn [st turn pips x_off o_off map fst snd option_map app negb] in *; match goal with
  | |- rrel _ (bind ?a _) (bind ?a _) => apply rb_eq; intros
  | |- rrel _ (bind _ _) (bind _ _) => eapply rb_h; [solve [eauto with teq] | intros]
  | |- rrel _ (mflat_map _ _) _ => apply rr_mflat; intros
  | |- rrel _ (Ret _) (Ret _) => apply rr_ret; reflexivity
  | |- rrel _ (Panic _) _ => apply rr_panic
  | |- rrel _ (if ?b then _ else _) _ => destruct b
  | |- rrel _ (match ?b with _ => _ end) _ => destruct b
  | |- rrel _ (let x := _ in _) _ => cbv zeta
  | |- _ => solve [eauto with teq]
  end).

Section Turn.
Variables (b : bool) (m : mode).
Lemma st_move p f d : rrel (st b) (move_single_checker m p f d) (move_single_checker m (st b p) f d).
Proof. unfold move_single_checker. teq. Qed.
Lemma st_flip p : rrel (st (negb b)) (flip m p) (flip m (st b p)).
Proof. unfold flip. teq. Qed.
Hint Resolve st_move st_flip : teq.
Lemma st_clone p f d : rrel (st b) (clone_and_move_single_checker m p f d) (clone_and_move_single_checker m (st b p) f d).
Proof. apply st_move. Qed.
Hint Resolve st_clone : teq.
Lemma st_cmb p f d : can_move_when_bearoff_is_legal m (st b p) f d = can_move_when_bearoff_is_legal m p f d.
Proof. reflexivity. Qed.
Lemma st_spc p d : smallest_pip_to_check (st b p) d = smallest_pip_to_check p d.
Proof. reflexivity. Qed.
Lemma st_can_enter p d : can_enter m (st b p) d = can_enter m p d.
Proof. reflexivity. Qed.
Lemma st_nmc p d e : number_of_movable_checkers m (st b p) d e = number_of_movable_checkers m p d e.
Proof.
  assert (L : forall mx n c q, rrel (fun x => (fst x, st b (snd x))) (movable_loop m d mx n c q) (movable_loop m d mx n c (st b q))).
  { induction n as [|n IH]; intros c q; cbn [movable_loop]; [reflexivity|].
    destruct ((c <? mx) && (d <? S n)%nat); [|apply rr_ret; reflexivity].
    rewrite st_cmb. apply rb_eq; intros [|]; [|apply IH].
    cbn [st pips x_off o_off turn].
    do 5 (apply rb_eq; intros).
    match goal with |- rrel _ _ (movable_loop _ _ _ _ ?c ?P) =>
      match goal with |- rrel _ (movable_loop _ _ _ _ _ ?Q) _ => change P with (st b Q) end end. apply IH. }
  unfold number_of_movable_checkers. apply rr_id. apply rb_eq; intros mx.
  eapply rb_h; [apply L|]. intros (c & q). cbn [fst snd st pips]. apply rr_id. reflexivity.
Qed.
Lemma st_try_push p d i : rrel (map (st b)) (try_push m p d i) (try_push m (st b p) d i).
Proof. unfold try_push. rewrite st_cmb. teq. Qed.
Lemma st_enter p d : rrel (st b) (enter_single_checker m p d) (enter_single_checker m (st b p) d).
Proof. unfold enter_single_checker. teq. Qed.
Hint Resolve st_try_push st_enter : teq.
Lemma st_bar1 p big small : rrel (map (st b)) (moves_with_1_checker_on_bar m p big small) (moves_with_1_checker_on_bar m (st b p) big small).
Proof.
  unfold moves_with_1_checker_on_bar. cbn [st pips].
  do 2 (apply rb_eq; intros). rewrite st_can_enter. apply rb_eq; intros ce.
  eapply (rb_h (g := fun x => (option_map (st b) (fst x), map (st b) (snd x)))).
  { teq. }
  intros (eb & m1). cbn [fst snd]. do 4 (apply rb_eq; intros). rewrite st_can_enter. apply rb_eq; intros ce'.
  eapply (rb_h (g := fun x => (option_map (st b) (fst x), map (st b) (snd x)))).
  { teq. }
  intros (es & m2). cbn [fst snd]. rewrite <- map_app. destruct (m1 ++ m2); cbn [map]; teq.
Qed.
Lemma st_one p d : rrel (map (st b)) (one_checker_moves m p d) (one_checker_moves m (st b p) d).
Proof. unfold one_checker_moves. rewrite st_spc. teq. Qed.
Lemma st_two p big small : rrel (map (st b)) (two_checker_moves m p big small) (two_checker_moves m (st b p) big small).
Proof.
  unfold two_checker_moves. cbn [st pips]. do 2 (apply rb_eq; intros). rewrite !st_spc.
  eapply (rb_h (g := map (st b))).
  { apply rr_mflat; intros i. rewrite st_cmb. teq. }
  intros l1. eapply (rb_h (g := map (st b))).
  { apply rr_mflat; intros i. rewrite st_cmb. teq. }
  intros l2. apply rr_ret. rewrite map_app. reflexivity.
Qed.
Hint Resolve st_bar1 st_one st_two : teq.
Lemma st_bar0 p big small : rrel (map (st b)) (moves_with_0_checkers_on_bar m p big small) (moves_with_0_checkers_on_bar m (st b p) big small).
Proof.
  unfold moves_with_0_checkers_on_bar. cbn [st pips]. do 2 (apply rb_eq; intros).
  eapply rb_h; [apply st_two|]. intros l. destruct l; cbn [map]; [|teq].
  eapply rb_h; [apply st_one|]. intros l. destruct l; cbn [map]; [|teq].
  eapply rb_h; [apply st_one|]. intros l. destruct l; cbn [map]; teq.
Qed.
Lemma st_bar2 p big small : rrel (map (st b)) (moves_with_2_checkers_on_bar m p big small) (moves_with_2_checkers_on_bar m (st b p) big small).
Proof.
  unfold moves_with_2_checkers_on_bar. cbn [st pips]. do 2 (apply rb_eq; intros). rewrite st_can_enter.
  apply rb_eq; intros c. eapply (rb_h (g := st b)); [teq|]. intros q. rewrite st_can_enter.
  apply rb_eq; intros c'. eapply (rb_h (g := st b)); [teq|]. intros r. teq.
Qed.
Hint Resolve st_bar0 st_bar2 : teq.
Lemma st_mixed p big small : rrel (map (st b)) (all_positions_after_mixed_move m p big small) (all_positions_after_mixed_move m (st b p) big small).
Proof. unfold all_positions_after_mixed_move. teq. Qed.
Lemma st_entering p d : rrel (fun x => (st b (fst x), snd x)) (position_after_entering_checkers m p d) (position_after_entering_checkers m (st b p) d).
Proof. unfold position_after_entering_checkers. teq. Qed.
Lemma st_after p d e : rrel (map (st b)) (double_moves_after_entering m p d e) (double_moves_after_entering m (st b p) d e).
Proof.
  unfold double_moves_after_entering. rewrite st_nmc. apply rb_eq; intros nr. destruct (nr =? 0); [teq|].
  rewrite st_spc.
  apply rr_mflat; intros i1; rewrite ?st_cmb; apply rb_eq; intros [|]; [|teq].
  eapply rb_h; [apply st_clone|]; intros p1; destruct (nr =? 1); [teq|]; rewrite st_spc.
  apply rr_mflat; intros i2; rewrite ?st_cmb; apply rb_eq; intros [|]; [|teq].
  eapply rb_h; [apply st_clone|]; intros p2; destruct (nr =? 2); [teq|]; rewrite st_spc.
  apply rr_mflat; intros i3; rewrite ?st_cmb; apply rb_eq; intros [|]; [|teq].
  eapply rb_h; [apply st_clone|]; intros p3; destruct (nr =? 3); [teq|]; rewrite st_spc.
  apply rr_mflat; intros i4; rewrite ?st_cmb; apply rb_eq; intros [|]; [|teq].
  eapply rb_h; [apply st_clone|]; intros p4. teq.
Qed.
Lemma st_double p d : rrel (map (st b)) (all_positions_after_double_move m p d) (all_positions_after_double_move m (st b p) d).
Proof.
  unfold all_positions_after_double_move. cbn [st pips]. do 3 (apply rb_eq; intros).
  destruct (_ && _); [teq|]. eapply rb_h; [apply st_entering|]. intros (q & e). cbn [fst snd].
  destruct (e =? 4); [teq|]. eapply rb_h; [apply st_after|]. intros l.
  replace (match map (st b) l with [] => true | _ => false end) with (match l with [] => true | _ => false end)
    by (destruct l; reflexivity).
  apply rb_eq; intros. apply rr_ret. reflexivity.
Qed.
Lemma st_generate N p d : rrel (map (st (negb b))) (generate_legal_positions m N p d) (generate_legal_positions m N (st b p) d).
Proof.
  unfold generate_legal_positions. cbn [st x_off o_off]. apply rb_eq; intros.
  eapply (rb_h (g := map (st b))); [destruct d; [apply st_mixed|apply st_double]|]. intros l.
  eapply rb_h; [apply (rr_mmap (st b)); intros; apply st_flip|]. intros l'.
  replace (match map (st (negb b)) l' with [] => true | _ => false end) with (match l' with [] => true | _ => false end)
    by (destruct l'; reflexivity).
  apply rb_eq; intros. apply rr_ret. reflexivity.
Qed.
Lemma st_game_state N p : game_state m N (st b p) = game_state m N p.
Proof. reflexivity. Qed.
Lemma st_phase N p : phase m N (st b p) = phase m N p.
Proof. reflexivity. Qed.
End Turn.

(** Equality of positions. *)
Lemma position_eqb_iff p q : position_eqb p q = true <-> pips p = pips q /\ x_off p = x_off q /\ o_off p = o_off q.
Proof.
  unfold position_eqb. rewrite !andb_true_iff, !Z.eqb_eq. destruct (list_eq_dec Z.eq_dec (pips p) (pips q)); intuition; discriminate.
Qed.
Lemma position_eqb_st p q : position_eqb p q = true <-> q = st (turn q) p.
Proof.
  rewrite position_eqb_iff. destruct q as [t' ps' x' o']; unfold st; simpl. split.
  - intros (A & B & C). congruence.
  - intros H. inversion H; auto.
Qed.
Lemma position_eqb_of_st b p : position_eqb p (st b p) = true.
Proof. apply position_eqb_iff. auto. Qed.
