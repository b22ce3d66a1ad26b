(** The [turn] flag does not influence move texts and IDs either. *)
From Verif Require Import EqFacts MoveText Gnuid.
Unset Implicit Arguments.
Open Scope Z_scope.

Section TurnText.
Variables (m : mode).
Lemma st_try b p f d : rrel (option_map (st b)) (try_move_single_checker m p f d) (try_move_single_checker m (st b p) f d).
Proof.
  unfold try_move_single_checker. change (can_move m (st b p) f d) with (can_move m p f d).
  apply rb_eq; intros [|]; [|reflexivity].
  eapply rb_h; [apply st_clone|]. intros x. apply rr_ret. reflexivity.
Qed.
Lemma st_any_from b p d l : any_from m (st b p) d l = any_from m p d l.
Proof.
  induction l as [|f l IH]; cbn [any_from]; auto.
  apply rr_id. eapply rb_h; [apply st_try|]. intros [x|]; cbn [option_map]; apply rr_id; auto.
Qed.
Definition pstM (b : bool) (x : position * Z) : position * Z := (st b (fst x), snd x).
Lemma st_try_dice {A A'} (h : A -> A') f f' skip buf l :
  (forall i d, rrel (option_map h) (f i d) (f' i d)) ->
  rrel (option_map h) (try_dice f skip buf l) (try_dice f' skip buf l).
Proof.
  intros H. induction l as [|i l IH]; cbn [try_dice]; [reflexivity|].
  destruct (skip i); auto. apply rb_eq; intros d. eapply rb_h; [apply H|].
  intros [x|]; cbn [option_map]; auto. reflexivity.
Qed.
Lemma st_apply_steps b steps : forall p buf n mask,
  rrel (option_map (pstM b)) (apply_steps m steps p buf n mask) (apply_steps m steps (st b p) buf n mask).
Proof.
  induction steps as [|s steps IH]; intros; cbn [apply_steps]; [reflexivity|].
  apply st_try_dice. intros i d. destruct (step_matches_die s d); [|reflexivity].
  eapply rb_h; [apply st_try|]. intros [x|]; cbn [option_map]; [apply IH|reflexivity].
Qed.
Lemma st_leftover b p mask buf l : leftover m (st b p) mask buf l = leftover m p mask buf l.
Proof.
  induction l as [|i l IH]; cbn [leftover]; auto.
  apply rr_id. apply rb_eq; intros d. apply rr_id. destruct (bit_set mask i); [exact IH|].
  unfold any_move_for_die. rewrite st_any_from. apply rr_id. apply rb_eq; intros [|]; apply rr_id; [reflexivity|exact IH].
Qed.
Lemma st_apply_for b p d t : rrel (option_map (st (negb b))) (apply_for m p d t) (apply_for m (st b p) d t).
Proof.
  unfold apply_for. destruct (normalize t); [|reflexivity]. destruct (parse_move_steps _); [|reflexivity].
  destruct (match d with Double a => _ | _ => _ end) as (buf & n).
  eapply rb_h; [apply st_apply_steps|]. intros [(q & mask)|]; cbn [option_map pstM fst snd]; [|reflexivity].
  rewrite st_leftover. apply rb_eq; intros [|]; [reflexivity|].
  eapply rb_h; [apply st_flip|]. intros x. apply rr_ret. reflexivity.
Qed.
Lemma st_first_step {A} b (try_ try' : nat -> res (option position)) (k k' : nat -> position -> res (option A)) l :
  (forall a, rrel (option_map (st b)) (try_ a) (try' a)) -> (forall a p, k' a (st b p) = k a p) ->
  forall any, first_step try' k' l any = first_step try_ k l any.
Proof.
  intros T K. induction l as [|a l IH]; intros any; cbn [first_step]; auto.
  apply rr_id. eapply rb_h; [apply T|]. intros [x|]; cbn [option_map]; [|apply rr_id; auto].
  rewrite K. apply rb_eq; intros [y|]; apply rr_id; auto.
Qed.
Lemma st_eqb b b' p q : position_eqb (st b p) (st b' q) = position_eqb p q.
Proof. reflexivity. Qed.
Lemma st_find b b' order : forall p t,
  find_steps_for_target m order (st b p) (st b' t) = find_steps_for_target m order p t.
Proof.
  induction order as [|d order IH]; intros; cbn [find_steps_for_target]; [rewrite st_eqb; reflexivity|].
  rewrite (st_first_step b (fun f => try_move_single_checker m p f d) _
             (fun from next => r <- find_steps_for_target m order next t ;; Ret (option_map (cons (step from (from - d))) r))).
  - apply rr_id. apply rb_eq; intros (any & found). destruct found; [reflexivity|]. destruct any; [reflexivity|].
    apply rr_id. auto.
  - intros a. exact (st_try b p a d).
  - intros a x. rewrite IH. reflexivity.
Qed.
Lemma st_encode_for b b' p q d : encode_for m (st b p) (st b' q) d = encode_for m p q d.
Proof.
  unfold encode_for. apply rr_id. eapply rb_h; [apply st_flip|]. intros t. apply rr_id.
  assert (E : forall os, first_order (fun o => find_steps_for_target m o (st b p) (st (negb b') t)) os =
                         first_order (fun o => find_steps_for_target m o p t) os).
  { induction os as [|o os IH]; cbn [first_order]; auto. rewrite st_find, IH. reflexivity. }
  rewrite E. reflexivity.
Qed.
Lemma st_exists b b' p l : existsb (position_eqb (st b p)) (map (st b') l) = existsb (position_eqb p) l.
Proof. induction l; cbn [existsb map]; auto. rewrite IHl, st_eqb. reflexivity. Qed.
Lemma st_rpos b b' p l : rposition_of (position_eqb (st b p)) (map (st b') l) = rposition_of (position_eqb p) l.
Proof. induction l; cbn [rposition_of map]; auto. rewrite IHl, st_eqb. reflexivity. Qed.
Lemma st_store b b' l p steps s : store (map (st b') l) (st b p) steps s = store l p steps s.
Proof. unfold store. rewrite st_exists, st_rpos. reflexivity. Qed.
Lemma st_each_step b (try_ try' : nat -> res (option position)) (k k' : nat -> position -> slots -> res slots) l :
  (forall a, rrel (option_map (st b)) (try_ a) (try' a)) -> (forall a p s, k' a (st b p) s = k a p s) ->
  forall any s, each_step try' k' l any s = each_step try_ k l any s.
Proof.
  intros T K. induction l as [|a l IH]; intros any s; cbn [each_step]; auto.
  apply rr_id. eapply rb_h; [apply T|]. intros [x|]; cbn [option_map]; [|apply rr_id; auto].
  rewrite K. apply rb_eq; intros y; apply rr_id; auto.
Qed.
Lemma st_collect b b' l order : forall p steps s,
  collect_paths m (map (st b') l) order (st b p) steps s = collect_paths m l order p steps s.
Proof.
  induction order as [|d order IH]; intros; cbn [collect_paths].
  - apply rr_id. eapply rb_h; [apply st_flip|]. intros t. apply rr_id. rewrite st_store.
    apply rr_id. apply rb_eq; intros s'. apply rr_id. apply st_store.
  - rewrite (st_each_step b (fun f => try_move_single_checker m p f d) _
             (fun from next s0 => collect_paths m l order next (steps ++ [step from (from - d)]) s0)).
    + apply rr_id. apply rb_eq; intros (any & s'). apply rr_id. destruct any; auto.
    + intros a. exact (st_try b p a d).
    + intros a x s0. exact (IH _ _ _).
Qed.
Definition gmapE (g : vpos -> vpos) (x : move_text_error + list (list move_step * vpos)) :=
  match x with inl e => inl e | inr l => inr (map (fun e => (fst e, g (snd e))) l) end.
Lemma st_legal_for b N p d (wrap : position -> vpos) g : (forall x, wrap (st (negb b) x) = g (wrap x)) ->
  rrel (gmapE g) (legal_for_steps m N p d wrap) (legal_for_steps m N (st b p) d wrap).
Proof.
  intros W. unfold legal_for_steps, classic_positions. eapply rb_h; [apply st_generate|].
  intros l. rewrite map_length.
  assert (E : forall os s, mfold (fun s order => s <- collect_paths m (map (st (negb b)) l) order (st b p) [] s ;;
                fl <- flip m (st b p) ;; collect_paths m (map (st (negb b)) l) order fl [] s) os s =
              mfold (fun s order => s <- collect_paths m l order p [] s ;;
                fl <- flip m p ;; collect_paths m l order fl [] s) os s).
  { induction os as [|o os IH]; intros s; cbn [mfold]; auto. rewrite st_collect.
    match goal with |- bind ?a _ = bind ?b _ => assert (a = b) as -> end.
    { apply rr_id. apply rb_eq; intros s1. eapply rb_h; [apply st_flip|]. intros fl. apply rr_id. apply st_collect. }
    apply rr_id. apply rb_eq; intros s1. apply rr_id. auto. }
  rewrite E. apply rb_eq; intros s. apply rr_ret. cbn [gmapE]. f_equal.
  clear E. revert s. induction l as [|x l IH]; intros [|[y|] s]; cbn [filled map]; auto.
  rewrite IH, W. reflexivity.
Qed.
Lemma st_gnuid b p : gnuid_encode_position m (st b p) = gnuid_encode_position m p.
Proof. reflexivity. Qed.
End TurnText.
