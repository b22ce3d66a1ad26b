(** Release-mode move generation looks at the 26 numbers of the board only: neither the checkers off nor
    the turn flag influence which boards are listed, or in which order. *)
From Verif Require Export Rules EqFacts.
Unset Implicit Arguments.
Open Scope Z_scope.

(** Two computations agree as far as [g] shows. *)
Definition agree {A B} (g : A -> B) (a a' : res A) : Prop := rmap g a = rmap g a'.

Lemma ab_eq : forall {A B C} (h : B -> C) (a : res A) f f',
  (forall x, agree h (f x) (f' x)) -> agree h (bind a f) (bind a f').
Proof. unfold agree. intros A B C h a f f' H. destruct a; simpl; auto. Qed.
Lemma ab_h : forall {A A' B C} (g : A -> A') (h : B -> C) a a' f f', agree g a a' ->
  (forall x y, g x = g y -> agree h (f x) (f' y)) -> agree h (bind a f) (bind a' f').
Proof.
  unfold agree. intros A A' B C g h a a' f f' E H.
  destruct a as [x|k], a' as [y|k']; simpl in *; try discriminate; [|congruence].
  apply H. congruence.
Qed.
Lemma ar_ret : forall {A B} (h : A -> B) x y, h x = h y -> agree h (Ret x) (Ret y).
Proof. unfold agree. simpl. congruence. Qed.
Lemma ar_mflat : forall {A B C} (h : B -> C) (f : A -> res (list B)) f' l,
  (forall x, agree (map h) (f x) (f' x)) -> agree (map h) (mflat_map f l) (mflat_map f' l).
Proof.
  intros A B C h f f' l H. induction l as [|a l IH]; simpl; [reflexivity|].
  apply (ab_h (map h) (map h) _ _ _ _ (H a)). intros x y E. apply (ab_h (map h) (map h) _ _ _ _ IH). intros x' y' E'.
  apply ar_ret. rewrite !map_app. congruence.
Qed.
Lemma ar_mmap : forall {A A' B C} (g : A -> A') (h : B -> C) (f : A -> res B),
  (forall x y, g x = g y -> agree h (f x) (f y)) -> forall l l', map g l = map g l' ->
  agree (map h) (mmap f l) (mmap f l').
Proof.
  intros A A' B C g h f H. induction l as [|a l IH]; intros [|a' l'] E; try discriminate; [reflexivity|].
  cbn [map] in E. injection E as E1 E2. cbn [mmap].
  apply (ab_h h (map h) _ _ _ _ (H _ _ E1)). intros x y Ex. apply (ab_h (map h) (map h) _ _ _ _ (IH _ E2)).
  intros x' y' Ex'. apply ar_ret. cbn [map]. congruence.
Qed.
Lemma ar_refl : forall {A B} (h : A -> B) a, agree h a a.
Proof. reflexivity. Qed.
Lemma ar_eq : forall {A} (a a' : res A), agree (fun x => x) a a' -> a = a'.
Proof. unfold agree. intros A [x|k] [y|k']; cbn; congruence. Qed.

Notation pagree := (agree pips).
Notation lagree := (agree (map pips)).
Notation R := Release.

Lemma bd_move p q f d : pips p = pips q -> pagree (move_single_checker R p f d) (move_single_checker R q f d).
Proof.
  intros E. unfold move_single_checker. rewrite E. do 3 (apply ab_eq; intros).
  destruct (d <? f)%nat.
  - do 2 (apply ab_eq; intros). destruct (_ =? _); repeat (apply ab_eq; intros); apply ar_ret; reflexivity.
  - unfold u8. destruct (in_u8 (x_off p + 1)), (in_u8 (x_off q + 1)); reflexivity.
Qed.
Lemma bd_flip p q : pips p = pips q -> pagree (flip R p) (flip R q).
Proof. intros E. unfold flip. rewrite E. apply ab_eq; intros. reflexivity. Qed.
Lemma bd_cmb p q f d : pips p = pips q -> can_move_when_bearoff_is_legal R p f d = can_move_when_bearoff_is_legal R q f d.
Proof. intros E. unfold can_move_when_bearoff_is_legal. rewrite E. reflexivity. Qed.
Lemma bd_spc p q d : pips p = pips q -> smallest_pip_to_check p d = smallest_pip_to_check q d.
Proof. intros E. unfold smallest_pip_to_check. rewrite E. reflexivity. Qed.
Lemma bd_can_enter p q d : pips p = pips q -> can_enter R p d = can_enter R q d.
Proof. intros E. unfold can_enter. rewrite E. reflexivity. Qed.
Lemma bd_nmc p q d e : pips p = pips q -> number_of_movable_checkers R p d e = number_of_movable_checkers R q d e.
Proof.
  assert (L : forall mx n c p q, pips p = pips q ->
    agree (fun x => (fst x, pips (snd x))) (movable_loop R d mx n c p) (movable_loop R d mx n c q)).
  { induction n as [|n IH]; intros c p' q' E; cbn [movable_loop]; [apply ar_ret; cbn; congruence|].
    destruct ((c <? mx) && (d <? S n)%nat); [|apply ar_ret; cbn; congruence].
    rewrite (bd_cmb p' q' _ _ E), E. apply ab_eq; intros [|]; [|apply IH, E].
    do 5 (apply ab_eq; intros). apply IH. reflexivity. }
  intros E. unfold number_of_movable_checkers. apply ar_eq. apply ab_eq; intros mx.
  eapply ab_h; [apply L, E|]. intros (c & p') (c' & q') X. cbn [fst snd] in *. injection X as -> ->. reflexivity.
Qed.
Lemma bd_try_push p q d i : pips p = pips q -> lagree (try_push R p d i) (try_push R q d i).
Proof.
  intros E. unfold try_push. rewrite (bd_cmb p q _ _ E). apply ab_eq; intros [|]; [|reflexivity].
  eapply ab_h; [apply bd_move, E|]. intros x y X. apply ar_ret. cbn [map]. congruence.
Qed.
Lemma bd_enter p q d : pips p = pips q -> pagree (enter_single_checker R p d) (enter_single_checker R q d).
Proof.
  intros E. unfold enter_single_checker. rewrite E. do 8 (apply ab_eq; intros).
  destruct (_ =? _); repeat (apply ab_eq; intros); reflexivity.
Qed.
Lemma bd_bar1 p q big small : pips p = pips q -> lagree (moves_with_1_checker_on_bar R p big small) (moves_with_1_checker_on_bar R q big small).
Proof.
  intros E. unfold moves_with_1_checker_on_bar. rewrite E.
  do 2 (apply ab_eq; intros). rewrite !(bd_can_enter p q _ E). apply ab_eq; intros ce.
  set (g := fun x : option position * list position => (option_map pips (fst x), map pips (snd x))).
  eapply (ab_h g).
  { destruct ce; [|reflexivity]. eapply ab_h; [apply bd_enter, E|]. intros u w X.
    eapply (ab_h (map pips)); [apply ar_mflat; intros; apply bd_try_push, X|]. intros l l' L. apply ar_ret. unfold g. cbn. congruence. }
  intros (eb & m1) (eb' & m1') X. unfold g in X. cbn [fst snd] in X. injection X as X1 X2.
  do 4 (apply ab_eq; intros). apply ab_eq; intros ce'.
  eapply (ab_h g).
  { destruct ce'; [|reflexivity]. eapply ab_h; [apply bd_enter, E|]. intros x' y' X.
    eapply (ab_h (map pips)); [apply ar_mflat; intros; apply bd_try_push, X|]. intros l l' L. apply ar_ret. unfold g. cbn. congruence. }
  intros (es & m2) (es' & m2') X. unfold g in X. cbn [fst snd] in X. injection X as X3 X4.
  assert (M : map pips (m1 ++ m2) = map pips (m1' ++ m2')) by (rewrite !map_app; congruence).
  destruct (m1 ++ m2), (m1' ++ m2'); try discriminate; [|apply ar_ret; exact M].
  destruct eb, eb'; try discriminate; [apply ar_ret; cbn in *; congruence|].
  destruct es, es'; try discriminate; apply ar_ret; cbn in *; congruence.
Qed.
Lemma bd_one p q d : pips p = pips q -> lagree (one_checker_moves R p d) (one_checker_moves R q d).
Proof.
  intros E. unfold one_checker_moves. rewrite E, (bd_spc p q d E). do 2 (apply ab_eq; intros).
  apply ar_mflat; intros. apply bd_try_push, E.
Qed.
Lemma bd_two p q big small : pips p = pips q -> lagree (two_checker_moves R p big small) (two_checker_moves R q big small).
Proof.
  intros E. unfold two_checker_moves. rewrite E, !(bd_spc p q _ E). do 2 (apply ab_eq; intros).
  eapply (ab_h (map pips)).
  { apply ar_mflat; intros i. rewrite (bd_cmb p q _ _ E). apply ab_eq; intros [|]; [|reflexivity].
    eapply ab_h; [apply bd_move, E|]. intros p1 q1 X. rewrite (bd_spc p1 q1 _ X).
    apply ar_mflat; intros. apply bd_try_push, X. }
  intros l1 l1' L1. eapply (ab_h (map pips)).
  { apply ar_mflat; intros i. rewrite (bd_cmb p q _ _ E). apply ab_eq; intros [|]; [|reflexivity].
    eapply ab_h; [apply bd_move, E|]. intros p1 q1 X. rewrite (bd_spc p1 q1 _ X). apply ab_eq; intros.
    apply ar_mflat; intros. apply bd_try_push, X. }
  intros l2 l2' L2. apply ar_ret. rewrite !map_app. congruence.
Qed.
Lemma bd_bar0 p q big small : pips p = pips q -> lagree (moves_with_0_checkers_on_bar R p big small) (moves_with_0_checkers_on_bar R q big small).
Proof.
  intros E. unfold moves_with_0_checkers_on_bar. rewrite E. do 2 (apply ab_eq; intros).
  eapply ab_h; [apply bd_two, E|]. intros [|? ?] [|? ?] X; try discriminate; [|apply ar_ret, X].
  eapply ab_h; [apply bd_one, E|]. intros [|? ?] [|? ?] X1; try discriminate; [|apply ar_ret, X1].
  eapply ab_h; [apply bd_one, E|]. intros [|? ?] [|? ?] X2; try discriminate; [|apply ar_ret, X2].
  apply ar_ret. cbn. congruence.
Qed.
Lemma bd_bar2 p q big small : pips p = pips q -> lagree (moves_with_2_checkers_on_bar R p big small) (moves_with_2_checkers_on_bar R q big small).
Proof.
  intros E. unfold moves_with_2_checkers_on_bar. rewrite E. do 2 (apply ab_eq; intros). rewrite (bd_can_enter p q _ E).
  apply ab_eq; intros c. eapply (ab_h pips); [destruct c; [apply bd_enter, E|apply ar_ret, E]|].
  intros p1 q1 X. rewrite (bd_can_enter p1 q1 _ X).
  apply ab_eq; intros c'. eapply (ab_h pips); [destruct c'; [apply bd_enter, X|apply ar_ret, X]|].
  intros p2 q2 Y. apply ar_ret. cbn. congruence.
Qed.
Lemma bd_mixed p q big small : pips p = pips q -> lagree (all_positions_after_mixed_move R p big small) (all_positions_after_mixed_move R q big small).
Proof.
  intros E. unfold all_positions_after_mixed_move. rewrite E. do 2 (apply ab_eq; intros).
  destruct (_ =? 0); [apply bd_bar0, E|]. destruct (_ =? 1); [apply bd_bar1, E|apply bd_bar2, E].
Qed.
Lemma bd_entering p q d : pips p = pips q ->
  agree (fun x => (pips (fst x), snd x)) (position_after_entering_checkers R p d) (position_after_entering_checkers R q d).
Proof.
  intros E. unfold position_after_entering_checkers. rewrite E. apply ab_eq; intros b.
  destruct (b =? 0); [apply ar_ret; cbn; congruence|]. do 3 (apply ab_eq; intros).
  cbv zeta. destruct (0 <? _); [|apply ar_ret; cbn; congruence]. do 2 (apply ab_eq; intros).
  destruct (_ =? -1); repeat (apply ab_eq; intros); reflexivity.
Qed.
Lemma bd_after p q d e : pips p = pips q -> lagree (double_moves_after_entering R p d e) (double_moves_after_entering R q d e).
Proof.
  intros E. unfold double_moves_after_entering. rewrite (bd_nmc p q _ _ E). apply ab_eq; intros nr.
  destruct (nr =? 0); [apply ar_ret; cbn; congruence|]. rewrite (bd_spc p q _ E).
  apply ar_mflat; intros i1. rewrite (bd_cmb p q _ _ E). apply ab_eq; intros [|]; [|reflexivity].
  eapply ab_h; [apply bd_move, E|]; intros p1 q1 E1. destruct (nr =? 1); [apply ar_ret; cbn; congruence|]. rewrite (bd_spc p1 q1 _ E1).
  apply ar_mflat; intros i2. rewrite (bd_cmb p1 q1 _ _ E1). apply ab_eq; intros [|]; [|reflexivity].
  eapply ab_h; [apply bd_move, E1|]; intros p2 q2 E2. destruct (nr =? 2); [apply ar_ret; cbn; congruence|]. rewrite (bd_spc p2 q2 _ E2).
  apply ar_mflat; intros i3. rewrite (bd_cmb p2 q2 _ _ E2). apply ab_eq; intros [|]; [|reflexivity].
  eapply ab_h; [apply bd_move, E2|]; intros p3 q3 E3. destruct (nr =? 3); [apply ar_ret; cbn; congruence|]. rewrite (bd_spc p3 q3 _ E3).
  apply ar_mflat; intros i4. rewrite (bd_cmb p3 q3 _ _ E3). apply ab_eq; intros [|]; [|reflexivity].
  eapply ab_h; [apply bd_move, E3|]; intros p4 q4 E4. apply ar_ret; cbn; congruence.
Qed.
Lemma bd_double p q d : pips p = pips q -> lagree (all_positions_after_double_move R p d) (all_positions_after_double_move R q d).
Proof.
  intros E. unfold all_positions_after_double_move. rewrite E. do 3 (apply ab_eq; intros).
  destruct (_ && _); [apply ar_ret; cbn; congruence|].
  eapply ab_h; [apply bd_entering, E|]. intros (p1 & e) (q1 & e') X. cbn [fst snd] in X. injection X as X ->.
  destruct (e' =? 4); [apply ar_ret; cbn; congruence|]. eapply ab_h; [apply bd_after, X|]. intros l l' L.
  cbn [debug_assert bind]. apply ar_ret, L.
Qed.
Lemma bd_generate N M p q d : pips p = pips q ->
  lagree (generate_legal_positions R N p d) (generate_legal_positions R M q d).
Proof.
  intros E. unfold generate_legal_positions. cbn [debug_assert bind].
  eapply (ab_h (map pips)); [destruct d; [apply bd_mixed, E|apply bd_double, E]|]. intros l l' L.
  eapply ab_h; [apply (ar_mmap pips pips), L; apply bd_flip|]. intros o o' O.
  cbn [debug_assert bind]. apply ar_ret, O.
Qed.
Lemma ar_mfilter (f g : position -> res bool) : (forall x y, pips x = pips y -> f x = g y) ->
  forall l l', map pips l = map pips l' -> lagree (mfilter f l) (mfilter g l').
Proof.
  intros H. induction l as [|a l IH]; intros [|b l'] E; try discriminate; [reflexivity|].
  cbn [map] in E. injection E as E1 E2. cbn [mfilter]. rewrite (H a b E1). apply ab_eq; intros c.
  apply (ab_h (map pips) (map pips) _ _ _ _ (IH _ E2)). intros x y X. apply ar_ret. destruct c; cbn; congruence.
Qed.
Lemma bd_o_bar m p q : pips p = pips q -> o_bar m p = o_bar m q.
Proof. intros E. unfold o_bar. rewrite E. reflexivity. Qed.
Lemma bd_no_hit N M p q d : pips p = pips q -> lagree (no_hit_positions R N p d) (no_hit_positions R M q d).
Proof.
  intros E. unfold no_hit_positions. apply (ab_h (map pips) (map pips) _ _ _ _ (bd_generate N M p q d E)). intros l l' L.
  apply ar_mfilter, L. intros x y X. rewrite (bd_o_bar R x y X), (bd_o_bar R p q E). reflexivity.
Qed.
