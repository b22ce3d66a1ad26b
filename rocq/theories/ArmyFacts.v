(** Two well-formed positions with the same board, possibly with different numbers of checkers a side: the
    searches of move_text.rs go the same way on both. *)
From Verif Require Import PipFacts VariantFacts EqFacts FlipFacts LeafFacts MoveText BoardFacts PropBoard ModeFacts Gnuid Xgid PerftFacts.
Unset Implicit Arguments.
Open Scope Z_scope.

Definition al (N M : Z) (p q : position) : Prop := wf N p /\ wf M q /\ pips p = pips q.
Definition al_opt (N M : Z) (o o' : option position) : Prop :=
  match o, o' with Some p, Some q => al N M p q | None, None => True | _, _ => False end.

Lemma al_eqb N M a a' b b' : al N M a a' -> al N M b b' -> position_eqb a b = position_eqb a' b'.
Proof.
  intros (Wa & Wa' & Ea) (Wb & Wb' & Eb). apply Bool.eq_true_iff_eq. rewrite !position_eqb_iff. split.
  - intros (E & _ & _). rewrite Ea, Eb in E. pose proof (same_off _ _ _ _ Wa' Wb' E) as (_ & X & O). split; [exact E|]. lia.
  - intros (E & _ & _). rewrite <- Ea, <- Eb in E. pose proof (same_off _ _ _ _ Wa Wb E) as (_ & X & O). split; [exact E|]. lia.
Qed.
Lemma legalb_pips p q d a : pips p = pips q -> legalb p d a = legalb q d a.
Proof. destruct p, q; cbn. intros ->. reflexivity. Qed.
Lemma mv_pips p q d a : pips p = pips q -> pips (mv p d a) = pips (mv q d a).
Proof. intros E. unfold mv, pt. rewrite E. destruct (d <? a)%nat; [destruct (_ =? -1)|]; reflexivity. Qed.

Lemma al_try m N M p q a d : al N M p q -> valid_die d -> (a <= 25)%nat ->
  exists o o', try_move_single_checker m p a d = Ret o /\ try_move_single_checker m q a d = Ret o' /\ al_opt N M o o'.
Proof.
  intros (W & W' & E) V A. rewrite (@try_ret m N p d a W V A), (@try_ret m M q d a W' V A).
  eexists _, _. split; [reflexivity|]. split; [reflexivity|]. rewrite <- (legalb_pips p q d a E).
  destruct (legalb p d a) eqn:L; cbn; [|exact I]. split; [|split].
  - eapply may_wf; eauto. apply (@legalb_may N p d a W V A). exact L.
  - eapply may_wf; eauto. apply (@legalb_may M q d a W' V A). rewrite <- (legalb_pips p q d a E). exact L.
  - apply mv_pips, E.
Qed.
Lemma al_flip m N M p q : al N M p q -> exists p' q', flip m p = Ret p' /\ flip m q = Ret q' /\ al N M p' q'.
Proof.
  intros (W & W' & E). exists (flipP p), (flipP q). split; [apply (@flip_ret m N p W)|].
  split; [apply (@flip_ret m M q W')|]. split; [apply flipP_wf; exact W|]. split; [apply flipP_wf; exact W'|].
  unfold flipP. cbn. rewrite E. reflexivity.
Qed.

Lemma al_first_step {A} N M (try_ try' : nat -> res (option position)) (k k' : nat -> position -> res (option A)) l :
  (forall a, In a l -> exists o o', try_ a = Ret o /\ try' a = Ret o' /\ al_opt N M o o') ->
  (forall a p q, al N M p q -> k a p = k' a q) ->
  forall any, first_step try_ k l any = first_step try' k' l any.
Proof.
  intros T K. induction l as [|a l IH]; intros any; cbn [first_step]; [reflexivity|].
  destruct (T a (or_introl eq_refl)) as (o & o' & -> & -> & R). cbn [bind].
  assert (IH' := IH (fun x I => T x (or_intror I))).
  destruct o as [p|], o' as [q|]; cbn in R; try contradiction; [|apply IH'].
  rewrite (K a p q R). destruct (k' a q) as [[y|]|]; cbn; auto.
Qed.
Lemma al_find m N M order : Forall valid_die order -> forall p q t t', al N M p q -> al N M t t' ->
  find_steps_for_target m order p t = find_steps_for_target m order q t'.
Proof.
  induction 1 as [|d order V _ IH]; intros p q t t' H Ht; cbn [find_steps_for_target].
  - rewrite (al_eqb N M p q t t' H Ht). reflexivity.
  - rewrite (al_first_step N M _ (fun from => try_move_single_checker m q from d) _
      (fun from next => r <- find_steps_for_target m order next t' ;; Ret (option_map (cons (step from (from - d))) r))).
    + rewrite (IH p q t t' H Ht). reflexivity.
    + intros a I. apply al_try; auto. apply in_froms in I. lia.
    + intros a x y R. rewrite (IH x y t t' R Ht). reflexivity.
Qed.
Lemma orders_valid d : valid_dice d -> Forall (Forall valid_die) (die_orders d).
Proof. destruct d as [b s|a]; intros V; cbn in V |- *; repeat first [apply Forall_cons | apply Forall_nil]; tauto. Qed.
Lemma al_encode_for m N M p q n n' d : al N M p q -> al N M n n' -> valid_dice d ->
  encode_for m p n d = encode_for m q n' d.
Proof.
  intros H Hn V. unfold encode_for. destruct (al_flip m N M n n' Hn) as (t & t' & -> & -> & Ht). cbn [bind].
  pose proof (orders_valid d V) as O.
  assert (E : forall os, Forall (Forall valid_die) os ->
    first_order (fun o => find_steps_for_target m o p t) os = first_order (fun o => find_steps_for_target m o q t') os).
  { induction 1 as [|o os Vo _ IH]; cbn [first_order]; [reflexivity|]. rewrite (al_find m N M o Vo p q t t' H Ht), IH. reflexivity. }
  rewrite (E _ O). reflexivity.
Qed.

Lemma al_exists N M p q l l' : al N M p q -> Forall2 (al N M) l l' ->
  existsb (position_eqb p) l = existsb (position_eqb q) l' /\
  rposition_of (position_eqb p) l = rposition_of (position_eqb q) l'.
Proof.
  intros H. induction 1 as [|a b l l' R F [IH1 IH2]]; [split; reflexivity|].
  cbn [existsb rposition_of]. rewrite (al_eqb N M p q a b H R), IH1, IH2. split; reflexivity.
Qed.
Lemma al_store N M l l' p q st s : al N M p q -> Forall2 (al N M) l l' -> store l p st s = store l' q st s.
Proof. intros H F. unfold store. destruct (al_exists N M p q l l' H F) as (-> & ->). reflexivity. Qed.
Lemma al_each_step N M (try_ try' : nat -> res (option position)) (k k' : nat -> position -> slots -> res slots) l :
  (forall a, In a l -> exists o o', try_ a = Ret o /\ try' a = Ret o' /\ al_opt N M o o') ->
  (forall a p q s, al N M p q -> k a p s = k' a q s) ->
  forall any s, each_step try_ k l any s = each_step try' k' l any s.
Proof.
  intros T K. induction l as [|a l IH]; intros any s; cbn [each_step]; [reflexivity|].
  destruct (T a (or_introl eq_refl)) as (o & o' & -> & -> & R). cbn [bind].
  assert (IH' := IH (fun x I => T x (or_intror I))).
  destruct o as [p|], o' as [q|]; cbn in R; try contradiction; [|apply IH'].
  rewrite (K a p q s R). destruct (k' a q s) as [y|]; cbn; auto.
Qed.
Lemma al_collect m N M l l' order : Forall2 (al N M) l l' -> Forall valid_die order -> forall p q st s, al N M p q ->
  collect_paths m l order p st s = collect_paths m l' order q st s.
Proof.
  intros F. induction 1 as [|d order V _ IH]; intros p q st s H; cbn [collect_paths].
  - destruct (al_flip m N M p q H) as (t & t' & -> & -> & Ht). cbn [bind].
    rewrite (al_store N M l l' t t' st s Ht F). destruct (store l' t' st s); cbn [bind]; [|reflexivity].
    apply (al_store N M); auto.
  - rewrite (al_each_step N M _ (fun from => try_move_single_checker m q from d) _
      (fun from next s0 => collect_paths m l' order next (st ++ [step from (from - d)]) s0)).
    + destruct (each_step _ _ _ _ _) as [[any s']|]; cbn; [|reflexivity]. destruct any; auto.
    + intros a I. apply al_try; auto. apply in_froms in I. lia.
    + intros a x y s0 R. apply IH. exact R.
Qed.
Definition seen (x : move_text_error + list (list move_step * vpos)) : move_text_error + list (list move_step * list Z) :=
  match x with inl e => inl e | inr l => inr (map (fun e => (fst e, pips (board_of (snd e)))) l) end.
Lemma al_filled N M k k' l l' : Forall2 (al N M) l l' -> forall s,
  map (fun e : list move_step * vpos => (fst e, pips (board_of (snd e)))) (filled (tag k) l s) =
  map (fun e : list move_step * vpos => (fst e, pips (board_of (snd e)))) (filled (tag k') l' s).
Proof.
  induction 1 as [|a b l l' (_ & _ & E) _ IH]; intros [|[st|] s]; cbn [filled map]; auto.
  rewrite IH. cbn [fst snd]. rewrite !board_of_tag, E. reflexivity.
Qed.
Lemma al_legal m N M k k' p q d : al N M p q -> valid_dice d -> (m = Debug -> ongoing N p) ->
  rmap seen (legal_for_steps m N p d (tag k)) = rmap seen (legal_for_steps m M q d (tag k')).
Proof.
  intros H V O. pose proof H as (W & W' & E). unfold legal_for_steps.
  destruct (C85_same_board m N M p q d W W') as (l & l' & El & El' & _ & F); auto.
  { intros i _. unfold pt. rewrite E. reflexivity. }
  rewrite El, El'. cbn [bind].
  assert (F2 : Forall2 (al N M) l l').
  { assert (K : Forall (wf N) l). { apply Forall_forall. intros x I. destruct (@kids_any m _ _ _ _ W V El) as (-> & _). eapply kids_wf; eauto. }
    assert (K' : Forall (wf M) l'). { apply Forall_forall. intros x I. destruct (@kids_any m _ _ _ _ W' V El') as (-> & _). eapply kids_wf; eauto. }
    clear El El'. induction F as [|a b l l' ((B & _ & _) & _ & _) F IH]; constructor.
    - inversion K; inversion K'; subst. split; [assumption|]. split; [assumption|]. apply same_board_pips; auto; [eapply wf_len|eapply wf_len]; eauto.
    - inversion K; inversion K'; subst. apply IH; assumption. }
  assert (L : Datatypes.length l = Datatypes.length l') by (clear -F2; induction F2; cbn; congruence).
  rewrite L. pose proof (orders_valid d V) as Os.
  match goal with |- rmap _ (bind ?a _) = rmap _ (bind ?b _) => assert (Em : a = b) end.
  { generalize (repeat (@None (list move_step)) (Datatypes.length l')) as s. induction Os as [|o os Vo _ IH]; intros s; cbn [mfold]; [reflexivity|].
    match goal with |- bind ?a _ = bind ?b _ => assert (Es : a = b) end.
    { rewrite (al_collect m N M l l' o F2 Vo p q [] s H). destruct (collect_paths m l' o q [] s) as [s1|]; cbn [bind]; [|reflexivity].
      destruct (al_flip m N M p q H) as (t & t' & -> & -> & Ht). cbn [bind]. apply (al_collect m N M l l' o F2 Vo t t' [] s1 Ht). }
    rewrite Es. match goal with |- bind ?a _ = _ => destruct a as [x|]; cbn [bind]; [apply IH|reflexivity] end. }
  rewrite Em. clear Em. match goal with |- rmap _ (bind ?a _) = _ => destruct a as [s|] end; cbn [bind rmap]; [|reflexivity].
  cbn [seen]. rewrite (al_filled N M k k' l l' F2 s). reflexivity.
Qed.

(** Playing a written move: no invariant needed. *)
Lemma bd_can_move m p q f d : pips p = pips q -> can_move m p f d = can_move m q f d.
Proof. intros E. unfold can_move, can_move_internally. rewrite E. reflexivity. Qed.
Lemma bd_try p q f d : pips p = pips q -> BoardFacts.agree (option_map pips) (try_move_single_checker Release p f d) (try_move_single_checker Release q f d).
Proof.
  intros E. unfold try_move_single_checker. rewrite (bd_can_move Release p q f d E). apply ab_eq. intros [|]; [|reflexivity].
  apply (ab_h pips _ _ _ _ _ (bd_move p q f d E)). intros x y Exy. apply ar_ret. cbn. congruence.
Qed.
Definition seen_step (x : position * Z) : list Z * Z := (pips (fst x), snd x).
Lemma bd_try_dice {A B} (h : A -> B) f f' skip buf l : (forall i d, BoardFacts.agree (option_map h) (f i d) (f' i d)) ->
  BoardFacts.agree (option_map h) (try_dice f skip buf l) (try_dice f' skip buf l).
Proof.
  intros H. induction l as [|i l IH]; cbn [try_dice]; [reflexivity|]. destruct (skip i); auto.
  apply ab_eq. intros d. apply (ab_h (option_map h) _ _ _ _ _ (H i d)).
  intros [x|] [y|] E; cbn in E; try discriminate; auto. apply ar_ret. cbn. congruence.
Qed.
Lemma bd_steps st : forall p q buf n mask, pips p = pips q ->
  BoardFacts.agree (option_map seen_step) (apply_steps Release st p buf n mask) (apply_steps Release st q buf n mask).
Proof.
  induction st as [|s st IH]; intros p q buf n mask E; cbn [apply_steps].
  - apply ar_ret. unfold seen_step. cbn. rewrite E. reflexivity.
  - apply bd_try_dice. intros i d. destruct (step_matches_die s d); [|reflexivity].
    apply (ab_h (option_map pips) _ _ _ _ _ (bd_try p q _ d E)).
    intros [x|] [y|] Exy; cbn in Exy; try discriminate; [|reflexivity]. apply IH. congruence.
Qed.
Lemma bd_any p q d l : pips p = pips q -> any_from Release p d l = any_from Release q d l.
Proof.
  intros E. induction l as [|f l IH]; cbn [any_from]; [reflexivity|]. pose proof (bd_try p q f d E) as A. unfold BoardFacts.agree in A.
  destruct (try_move_single_checker Release p f d) as [[x|]|], (try_move_single_checker Release q f d) as [[y|]|]; cbn in A |- *; try congruence.
Qed.
Lemma bd_leftover p q mask buf l : pips p = pips q -> leftover Release p mask buf l = leftover Release q mask buf l.
Proof.
  intros E. induction l as [|i l IH]; cbn [leftover]; [reflexivity|]. destruct (index buf i) as [d|]; cbn [bind]; [|reflexivity].
  unfold any_move_for_die. rewrite (bd_any p q d froms E), IH. reflexivity.
Qed.
Lemma bd_apply p q d t : pips p = pips q -> BoardFacts.agree (option_map pips) (apply_for Release p d t) (apply_for Release q d t).
Proof.
  intros E. unfold apply_for. destruct (normalize t); [|reflexivity]. destruct (parse_move_steps _); [|reflexivity].
  destruct (match d with Double a => _ | _ => _ end) as (buf & n).
  apply (ab_h (option_map seen_step) _ _ _ _ _ (bd_steps _ p q buf n 0 E)).
  intros [[x mk]|] [[y mk']|] Exy; cbn in Exy; try discriminate; [|reflexivity]. injection Exy as E1 ->.
  rewrite (bd_leftover x y mk' buf _ E1). apply ab_eq. intros [|]; [reflexivity|].
  apply (ab_h pips _ _ _ _ _ (bd_flip x y E1)). intros x' y' E2. apply ar_ret. cbn. congruence.
Qed.
Lemma gnuid_pips m p q : pips p = pips q -> gnuid_encode_position m p = gnuid_encode_position m q.
Proof. destruct p, q; cbn. intros ->. reflexivity. Qed.
Lemma xgid_pips m p q : pips p = pips q -> xgid_encode_position m p = xgid_encode_position m q.
Proof. destruct p, q; cbn. intros ->. reflexivity. Qed.
