(** A run that does not panic in a debug build gives the same result in release. *)
From Verif Require Export Rules.
Open Scope Z_scope.

Definition refines {A} (a b : res A) : Prop := forall y, a = Ret y -> b = Ret y.

Lemma refines_refl {A} (a : res A) : refines a a.
Proof. intros y H. exact H. Qed.
Lemma refines_bind {A B} (a a' : res A) (f f' : A -> res B) :
  refines a a' -> (forall x, refines (f x) (f' x)) -> refines (bind a f) (bind a' f').
Proof.
  intros H1 H2 y H. destruct a as [x|]; simpl in H; [|discriminate].
  rewrite (H1 x eq_refl). simpl. apply H2. exact H.
Qed.
Lemma refines_panic {A} k (b : res A) : refines (Panic k) b.
Proof. intros y H. discriminate. Qed.
Lemma refines_i8 z : refines (i8 Debug z) (i8 Release z).
Proof. intros y. unfold i8. destruct (in_i8 z); auto; discriminate. Qed.
Lemma refines_u8 z : refines (u8 Debug z) (u8 Release z).
Proof. intros y. unfold u8. destruct (in_u8 z); auto; discriminate. Qed.
Lemma refines_u64 z : refines (u64 Debug z) (u64 Release z).
Proof. intros y. unfold u64. destruct (in_u64 z); auto; discriminate. Qed.
Lemma refines_usub a b : refines (usub Debug a b) (usub Release a b).
Proof. intros y. unfold usub. destruct (b <=? a)%nat; auto; discriminate. Qed.
Lemma refines_debug_assert b : refines (debug_assert Debug b) (debug_assert Release b).
Proof. intros [] H. reflexivity. Qed.
Lemma refines_mflat_map {A B} (f f' : A -> res (list B)) l :
  (forall x, refines (f x) (f' x)) -> refines (mflat_map f l) (mflat_map f' l).
Proof.
  intros H. induction l as [|a l IH]; simpl; [apply refines_refl|].
  repeat (apply refines_bind; auto; intros). apply refines_refl.
Qed.
Lemma refines_mmap {A B} (f f' : A -> res B) l :
  (forall x, refines (f x) (f' x)) -> refines (mmap f l) (mmap f' l).
Proof.
  intros H. induction l as [|a l IH]; simpl; [apply refines_refl|].
  repeat (apply refines_bind; auto; intros). apply refines_refl.
Qed.
Lemma refines_mfilter {A} (f f' : A -> res bool) l :
  (forall x, refines (f x) (f' x)) -> refines (mfilter f l) (mfilter f' l).
Proof.
  intros H. induction l as [|a l IH]; simpl; [apply refines_refl|].
  repeat (apply refines_bind; auto; intros). apply refines_refl.
Qed.
Lemma refines_mfold {A S} (f f' : S -> A -> res S) l s :
  (forall s x, refines (f s x) (f' s x)) -> refines (mfold f l s) (mfold f' l s).
Proof.
  intros H. revert s. induction l as [|a l IH]; intros s; simpl; [apply refines_refl|].
  apply refines_bind; auto.
Qed.

Create HintDb mono.
#[global] Hint Resolve refines_refl refines_panic refines_i8 refines_u8 refines_u64 refines_usub
  refines_debug_assert : mono.

Ltac mono := repeat match goal with
  | |- refines (bind _ _) _ => apply refines_bind; [|intros]
  | |- refines (mflat_map _ _) _ => apply refines_mflat_map; intros
  | |- refines (mmap _ _) _ => apply refines_mmap; intros
  | |- refines (mfilter _ _) _ => apply refines_mfilter; intros
  | |- refines (mfold _ _ _) _ => apply refines_mfold; intros
  | |- refines (Ret _) _ => apply refines_refl
  | |- refines (Panic _) _ => apply refines_panic
  | |- refines (if ?b then _ else _) _ => destruct b
  | |- refines (match ?b with _ => _ end) _ => destruct b
  | |- refines (let x := _ in _) _ => cbv zeta
  | |- _ => solve [eauto with mono]
  end.

Lemma mono_sum l : refines (sum_i8 Debug l) (sum_i8 Release l).
Proof. unfold sum_i8. mono. Qed.
#[global] Hint Resolve mono_sum : mono.
Lemma mono_flip p : refines (flip Debug p) (flip Release p).
Proof. unfold flip. mono. Qed.
Lemma mono_move p a d : refines (move_single_checker Debug p a d) (move_single_checker Release p a d).
Proof. unfold move_single_checker. mono. Qed.
#[global] Hint Resolve mono_flip mono_move : mono.
Lemma mono_clone p a d :
  refines (clone_and_move_single_checker Debug p a d) (clone_and_move_single_checker Release p a d).
Proof. apply mono_move. Qed.
Lemma mono_cmb p a d :
  refines (can_move_when_bearoff_is_legal Debug p a d) (can_move_when_bearoff_is_legal Release p a d).
Proof. unfold can_move_when_bearoff_is_legal. mono. Qed.
Lemma mono_cmi p a d : refines (can_move_internally Debug p a d) (can_move_internally Release p a d).
Proof. unfold can_move_internally. mono. Qed.
#[global] Hint Resolve mono_clone mono_cmb mono_cmi : mono.
Lemma mono_can_move p a d : refines (can_move Debug p a d) (can_move Release p a d).
Proof. unfold can_move. mono. Qed.
#[global] Hint Resolve mono_can_move : mono.
Lemma mono_try_move p a d :
  refines (try_move_single_checker Debug p a d) (try_move_single_checker Release p a d).
Proof. unfold try_move_single_checker. mono. Qed.
Lemma mono_can_enter p d : refines (can_enter Debug p d) (can_enter Release p d).
Proof. unfold can_enter. mono. Qed.
Lemma mono_enter p d : refines (enter_single_checker Debug p d) (enter_single_checker Release p d).
Proof. unfold enter_single_checker. mono. Qed.
Lemma mono_try_push p d i : refines (try_push Debug p d i) (try_push Release p d i).
Proof. unfold try_push. mono. Qed.
#[global] Hint Resolve mono_try_move mono_can_enter mono_enter mono_try_push : mono.
Lemma mono_bar1 p b s :
  refines (moves_with_1_checker_on_bar Debug p b s) (moves_with_1_checker_on_bar Release p b s).
Proof. unfold moves_with_1_checker_on_bar. mono. Qed.
Lemma mono_bar2 p b s :
  refines (moves_with_2_checkers_on_bar Debug p b s) (moves_with_2_checkers_on_bar Release p b s).
Proof. unfold moves_with_2_checkers_on_bar. mono. Qed.
Lemma mono_one p d : refines (one_checker_moves Debug p d) (one_checker_moves Release p d).
Proof. unfold one_checker_moves. mono. Qed.
Lemma mono_two p b s : refines (two_checker_moves Debug p b s) (two_checker_moves Release p b s).
Proof. unfold two_checker_moves. mono. Qed.
#[global] Hint Resolve mono_bar1 mono_bar2 mono_one mono_two : mono.
Lemma mono_bar0 p b s :
  refines (moves_with_0_checkers_on_bar Debug p b s) (moves_with_0_checkers_on_bar Release p b s).
Proof. unfold moves_with_0_checkers_on_bar. mono. Qed.
#[global] Hint Resolve mono_bar0 : mono.
Lemma mono_mixed p b s :
  refines (all_positions_after_mixed_move Debug p b s) (all_positions_after_mixed_move Release p b s).
Proof. unfold all_positions_after_mixed_move. mono. Qed.
Lemma mono_entering p d :
  refines (position_after_entering_checkers Debug p d) (position_after_entering_checkers Release p d).
Proof. unfold position_after_entering_checkers. mono. Qed.
Lemma mono_loop d mx pip : forall c p,
  refines (movable_loop Debug d mx pip c p) (movable_loop Release d mx pip c p).
Proof. induction pip as [|pip IH]; intros c p; cbn [movable_loop]; mono. Qed.
#[global] Hint Resolve mono_mixed mono_entering mono_loop : mono.
Lemma mono_movable p d e :
  refines (number_of_movable_checkers Debug p d e) (number_of_movable_checkers Release p d e).
Proof. unfold number_of_movable_checkers. mono. Qed.
#[global] Hint Resolve mono_movable : mono.
Lemma mono_double_after p d e :
  refines (double_moves_after_entering Debug p d e) (double_moves_after_entering Release p d e).
Proof. unfold double_moves_after_entering. mono. Qed.
#[global] Hint Resolve mono_double_after : mono.
Lemma mono_double p d :
  refines (all_positions_after_double_move Debug p d) (all_positions_after_double_move Release p d).
Proof. unfold all_positions_after_double_move. mono. Qed.
#[global] Hint Resolve mono_double : mono.
Lemma mono_generate N p d :
  refines (generate_legal_positions Debug N p d) (generate_legal_positions Release N p d).
Proof. unfold generate_legal_positions. mono. Qed.
#[global] Hint Resolve mono_generate : mono.
Lemma mono_classic v d : refines (classic_rules Debug v d) (classic_rules Release v d).
Proof. unfold classic_rules, map_variant_positions. mono. Qed.
Lemma mono_obar p : refines (o_bar Debug p) (o_bar Release p).
Proof. unfold o_bar. mono. Qed.
#[global] Hint Resolve mono_classic mono_obar : mono.
Lemma mono_nohit N p d : refines (no_hit_positions Debug N p d) (no_hit_positions Release N p d).
Proof. unfold no_hit_positions. mono. Qed.
#[global] Hint Resolve mono_nohit : mono.
Lemma mono_nohit_rules v d : refines (no_hit_rules Debug v d) (no_hit_rules Release v d).
Proof. unfold no_hit_rules, map_variant_positions. mono. Qed.
