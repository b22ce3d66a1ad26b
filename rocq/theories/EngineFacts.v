(** Facts about the model of engine_spec.rs. *)
From Coq Require Import Strings.String Sorting.Sorted Permutation.
From Verif Require Export SpecEngine FibsFacts TextFacts.
Open Scope Z_scope.

(** ** The order of keys *)
Lemma str_cmp_eq a : forall b, str_cmp a b = Eq <-> a = b.
Proof.
  induction a as [|x a IH]; intros [|y b]; cbn [str_cmp]; try (split; [discriminate|congruence]); [tauto|].
  destruct (Z.compare_spec x y) as [->|L|L].
  - rewrite IH. split; congruence.
  - split; [discriminate|]. intros E. inversion E. lia.
  - split; [discriminate|]. intros E. inversion E. lia.
Qed.
Lemma str_cmp_lt a : forall b, str_cmp a b = Lt <-> comes_before a b.
Proof.
  induction a as [|x a IH]; intros [|y b]; cbn [str_cmp].
  - split; [discriminate|]. intros (p & [(y & b' & <- & E)|(x & y & a' & b' & E & _)]); [discriminate|].
    destruct p; discriminate.
  - split; [|reflexivity]. intros _. exists []. left. exists y, b. auto.
  - split; [discriminate|]. intros (p & [(y & b' & <- & E)|(u & y & a' & b' & E & E' & _)]); [discriminate|].
    destruct p; discriminate.
  - destruct (Z.compare_spec x y) as [->|L|L].
    + rewrite IH. split.
      * intros (p & [(z & b' & -> & ->)|(u & v & a' & b' & -> & -> & L)]); exists (y :: p).
        -- left. exists z, b'. auto.
        -- right. exists u, v, a', b'. auto.
      * intros (p & [(z & b' & <- & E)|(u & v & a' & b' & E & E' & L)]).
        -- inversion E; subst. exists a. left. eauto.
        -- destruct p as [|w p].
           ++ inversion E; inversion E'; subst. lia.
           ++ inversion E; inversion E'; subst. exists p. right. exists u, v, a', b'. auto.
    + split; [|reflexivity]. intros _. exists []. right. exists x, y, a, b. auto.
    + split; [discriminate|]. intros (p & [(z & b' & <- & E)|(u & v & a' & b' & E & E' & L')]).
      * inversion E; subst. lia.
      * destruct p as [|w p]; inversion E; inversion E'; subst; lia.
Qed.
Lemma str_cmp_gt a : forall b, str_cmp a b = Gt <-> str_cmp b a = Lt.
Proof.
  induction a as [|x a IH]; intros [|y b]; cbn [str_cmp]; try (split; congruence).
  rewrite (Z.compare_antisym x y). destruct (x ?= y); cbn [CompOpp]; auto; split; congruence.
Qed.
Lemma str_cmp_trans a : forall b c, str_cmp a b = Lt -> str_cmp b c = Lt -> str_cmp a c = Lt.
Proof.
  induction a as [|x a IH]; intros [|y b] [|z c]; cbn [str_cmp]; try discriminate; auto.
  destruct (Z.compare_spec x y) as [->|L|L]; destruct (Z.compare_spec y z) as [->|L'|L']; try discriminate; intros A B.
  - eauto.
  - auto.
  - apply Z.compare_lt_iff in L. rewrite L. auto.
  - assert (x < z) as X by lia. apply Z.compare_lt_iff in X. rewrite X. auto.
Qed.
Lemma str_cmp_irrefl a : str_cmp a a <> Lt.
Proof. assert (E : str_cmp a a = Eq) by (apply str_cmp_eq; auto). congruence. Qed.

(** ** Maps *)
Definition key_lt (x y : str * str) : Prop := str_cmp (fst x) (fst y) = Lt.
Definition sorted (m : btree) : Prop := StronglySorted key_lt m.

Lemma sorted_order m : sorted m <-> in_key_order m.
Proof.
  unfold in_key_order. induction m as [|x m IH].
  - split; [|constructor]. intros _ a b c y z E. destruct a; discriminate.
  - split.
    + intros S a b c y z E. inversion S as [|? ? S' F]; subst. destruct a as [|w a]; inversion E; subst.
      * apply str_cmp_lt. rewrite Forall_forall in F. apply (F z). apply in_or_app. right. left. auto.
      * exact (proj1 IH S' a b c y z eq_refl).
    + intros H. constructor.
      * apply IH. intros a b c y z E. apply (H (x :: a) b c). rewrite E. reflexivity.
      * apply Forall_forall. intros y I. apply in_split in I. destruct I as (b & c & ->).
        apply str_cmp_lt, (H [] b c). reflexivity.
Qed.
Lemma sorted_nodup m : sorted m -> NoDup (map fst m).
Proof.
  induction 1 as [|x m S IH F]; cbn [map]; constructor; auto. intros I. apply in_map_iff in I. destruct I as (y & E & I).
  rewrite Forall_forall in F. specialize (F y I). unfold key_lt in F. rewrite E in F. exact (str_cmp_irrefl _ F).
Qed.
Lemma sorted_unique m k v w : sorted m -> In (k, v) m -> In (k, w) m -> v = w.
Proof.
  induction 1 as [|x m S IH F]; [intros []|]. rewrite Forall_forall in F.
  intros [->|I] [E|J]; auto; try congruence.
  - specialize (F _ J). exfalso. exact (str_cmp_irrefl _ F).
  - subst x. specialize (F _ I). exfalso. exact (str_cmp_irrefl _ F).
Qed.
Lemma sorted_ext m : forall m', sorted m -> sorted m' -> (forall e, In e m <-> In e m') -> m = m'.
Proof.
  induction m as [|x m IH]; intros [|y m'] S S' H.
  - auto.
  - exfalso. apply (H y). left. auto.
  - exfalso. apply (H x). left. auto.
  - inversion S as [|? ? Sm F]; inversion S' as [|? ? Sm' F']; subst. rewrite Forall_forall in F, F'.
    assert (x = y) as ->.
    { destruct (proj1 (H x) (or_introl eq_refl)) as [E|I]; [auto|].
      destruct (proj2 (H y) (or_introl eq_refl)) as [E|J]; [auto|]. exfalso.
      apply (@str_cmp_irrefl (fst x)). exact (str_cmp_trans _ _ _ (F _ J) (F' _ I)). }
    f_equal. apply IH; auto. intros e. split; intros I.
    + destruct (proj1 (H e) (or_intror I)) as [->|J]; auto. exfalso. exact (str_cmp_irrefl _ (F _ I)).
    + destruct (proj2 (H e) (or_intror I)) as [->|J]; auto. exfalso. exact (str_cmp_irrefl _ (F' _ I)).
Qed.
Lemma insert_in k v m : sorted m -> forall e, In e (btree_insert k v m) <-> e = (k, v) \/ (In e m /\ fst e <> k).
Proof.
  induction 1 as [|(k', v') m S IH F]; intros e; cbn [btree_insert].
  - split; [intros [<-|[]]; auto|intros [->|([] & _)]; left; auto].
  - rewrite Forall_forall in F. destruct (str_cmp k k') eqn:C.
    + apply str_cmp_eq in C. subst k'. split.
      * intros [<-|I]; auto. right. split; [right; auto|]. intros E. specialize (F e I). unfold key_lt in F. cbn [fst] in F. rewrite E in F. exact (str_cmp_irrefl _ F).
      * intros [->|([<-|I] & N)]; [left; auto|cbn in N; congruence|right; auto].
    + split.
      * intros [<-|I]; auto. right. split; auto. intros E. destruct I as [<-|I].
        -- cbn in E. subst. exact (str_cmp_irrefl _ C).
        -- specialize (F e I). unfold key_lt in F. cbn [fst] in F. rewrite E in F. exact (str_cmp_irrefl _ (str_cmp_trans _ _ _ C F)).
      * intros [->|(I & N)]; [left; auto|right; auto].
    + cbn [In]. rewrite IH. assert (k' <> k) by (intros ->; apply str_cmp_gt in C; exact (str_cmp_irrefl _ C)).
      split.
      * intros [<-|[->|(I & N)]]; auto.
      * intros [->|([<-|I] & N)]; auto.
Qed.
Lemma insert_sorted k v m : sorted m -> sorted (btree_insert k v m).
Proof.
  induction 1 as [|(k', v') m S IH F]; cbn [btree_insert].
  - constructor; constructor.
  - destruct (str_cmp k k') eqn:C.
    + apply str_cmp_eq in C. subst k'. constructor; auto.
    + constructor; [constructor; auto|]. constructor; [exact C|]. eapply Forall_impl; [|exact F]. intros y L.
      exact (str_cmp_trans _ _ _ C L).
    + constructor; auto. apply Forall_forall. intros e I. apply (insert_in k v S) in I. destruct I as [->|(I & _)].
      * apply str_cmp_gt. exact C.
      * rewrite Forall_forall in F. auto.
Qed.
Lemma get_in m k v : sorted m -> btree_get k m = Some v <-> In (k, v) m.
Proof.
  induction 1 as [|(k', v') m S IH F]; cbn [btree_get]; [split; [discriminate|intros []]|].
  destruct (str_eqb k k') eqn:E.
  - apply str_eqb_eq in E. subst k'. split; [intros X; left; congruence|]. intros [X|I]; [congruence|].
    rewrite Forall_forall in F. exfalso. exact (str_cmp_irrefl _ (F _ I)).
  - apply str_eqb_neq in E. rewrite IH. split; [intros I; right; auto|]. intros [X|I]; [congruence|auto].
Qed.
Definition insert_all (es : list (str * str)) (m : btree) : btree := fold_left (fun m e => btree_insert (fst e) (snd e) m) es m.
Lemma insert_all_sorted es : forall m, sorted m -> sorted (insert_all es m).
Proof. induction es as [|e es IH]; intros m S; [auto|]. apply IH, insert_sorted, S. Qed.
Lemma last_value_snoc {V} (k : str) (es : list (str * V)) k' v' v :
  last_value k (es ++ [(k', v')]) v <-> (k = k' /\ v = v') \/ (k <> k' /\ last_value k es v).
Proof.
  split.
  - intros (a & b & E & F). destruct b as [|x b _] using rev_ind.
    + apply app_inj_tail in E. destruct E as (-> & E). left. inversion E. auto.
    + rewrite app_comm_cons, app_assoc in E. apply app_inj_tail in E. destruct E as (-> & <-).
      apply Forall_app in F. destruct F as (F & G). inversion G; subst. cbn in *. right. split; [congruence|].
      exists a, b. auto.
  - intros [(-> & ->)|(N & (a & b & -> & F))].
    + exists es, []. auto.
    + exists a, (b ++ [(k', v')]). rewrite <- app_assoc. split; [reflexivity|]. apply Forall_app. split; [exact F|].
      constructor; [cbn; congruence|constructor].
Qed.
Lemma insert_all_in es : forall k v, In (k, v) (insert_all es []) <-> last_value k es v.
Proof.
  induction es as [|(k', v') es IH] using rev_ind; intros k v.
  - split; [intros []|]. intros (a & b & E & _). destruct a; discriminate.
  - unfold insert_all. rewrite fold_left_app. cbn [fold_left fst snd]. fold (insert_all es []).
    rewrite insert_in by (apply insert_all_sorted; constructor). rewrite IH, last_value_snoc. cbn [fst].
    split.
    + intros [E|(I & N)]; [left; split; congruence|right; auto].
    + intros [(-> & ->)|(N & I)]; auto.
Qed.
Lemma options_of_iff es m : options_of es m <-> m = insert_all es [].
Proof.
  assert (S : sorted (insert_all es [])) by (apply insert_all_sorted; constructor).
  unfold options_of. rewrite <- sorted_order. split.
  - intros (S' & H). apply sorted_ext; auto. intros (k, v). rewrite H, insert_all_in. tauto.
  - intros ->. split; auto. apply insert_all_in.
Qed.

(** ** Trimming around separators *)
Lemma trim_pad a s b : blank a -> blank b -> trim (a ++ s ++ b) = trim s.
Proof.
  intros A B. destruct (trim_result s) as [E|T].
  - destruct (trim_spec s) as (a' & b' & E' & A' & B'). rewrite E. rewrite E in E'. cbn in E'.
    apply trim_blank. rewrite E'. repeat (apply Forall_app; split; auto).
  - destruct (trim_spec s) as (a' & b' & E' & A' & B'). rewrite E' at 1.
    replace (a ++ (a' ++ trim s ++ b') ++ b) with ((a ++ a') ++ trim s ++ (b' ++ b)) by (rewrite <- !app_assoc; reflexivity).
    apply trim_trimmed; auto; apply Forall_app; auto.
Qed.
Lemma trim_start_mid k c v : is_ws c = false -> trim_start (k ++ c :: v) = trim_start k ++ c :: v.
Proof.
  intros C. induction k as [|x k IH]; cbn [trim_start app]; [rewrite C; auto|]. destruct (is_ws x); auto.
Qed.
Lemma trim_end_mid k c v : is_ws c = false -> trim_end (k ++ c :: v) = k ++ c :: trim_end v.
Proof.
  intros C. unfold trim_end. rewrite rev_app_distr. cbn [rev]. rewrite <- app_assoc. cbn [app].
  rewrite trim_start_mid by auto. rewrite rev_app_distr. cbn [rev]. rewrite rev_involutive, <- app_assoc. reflexivity.
Qed.
Lemma trim_mid k c v : is_ws c = false -> trim (k ++ c :: v) = trim_start k ++ c :: trim_end v.
Proof. intros C. unfold trim. rewrite trim_start_mid, trim_end_mid by auto. reflexivity. Qed.
Lemma trim_trim_start k : trim (trim_start k) = trim k.
Proof.
  destruct (trim_start_spec k) as (a & E & A). rewrite E at 2.
  pose proof (trim_pad (b := []) (trim_start k) A ltac:(constructor)) as H. rewrite app_nil_r in H. auto.
Qed.
Lemma trim_trim_end k : trim (trim_end k) = trim k.
Proof.
  destruct (trim_end_spec k) as (b & E & B). rewrite E at 2.
  pose proof (trim_pad (a := []) (trim_end k) ltac:(constructor) B) as H. auto.
Qed.
Lemma trim_trim k : trim (trim k) = trim k.
Proof. unfold trim at 2. rewrite trim_trim_end. apply trim_trim_start. Qed.
Lemma without_sub c a s b : without c (a ++ s ++ b) -> without c s.
Proof. intros H. apply Forall_app in H. destruct H as (_ & H). apply Forall_app in H. tauto. Qed.
Lemma trim_without c s : without c s -> without c (trim s).
Proof. intros H. destruct (trim_spec s) as (a & b & E & _). rewrite E in H. eapply without_sub; eauto. Qed.
Lemma trim_start_without c s : without c s -> without c (trim_start s).
Proof. intros H. destruct (trim_start_spec s) as (a & E & _). rewrite E in H. apply Forall_app in H. tauto. Qed.
Lemma not_in_without c s : ~ In c s <-> without c s.
Proof.
  unfold without. rewrite Forall_forall. split.
  - intros H x I ->. auto.
  - intros H I. exact (H c I eq_refl).
Qed.
Lemma blank_trim s : trim s = [] <-> blank s.
Proof.
  split; [|apply trim_blank]. intros E. destruct (trim_spec s) as (a & b & E' & A & B). rewrite E in E'. rewrite E'. apply Forall_app. auto.
Qed.
Lemma nonempty_iff s : nonempty s = true <-> s <> [].
Proof. destruct s; cbn; split; congruence. Qed.
Lemma nonempty_false s : nonempty s = false <-> s = [].
Proof. destruct s; cbn; split; congruence. Qed.

(** ** The head *)
Lemma head_iff h alias version : parse_alias_version (trim h) = (alias, version) <-> head_text h alias version.
Proof.
  unfold parse_alias_version. change (chr "@") with 64. destruct (split_once 64 (trim h)) as [(a, v)|] eqn:E.
  - apply split_once_some in E. destruct E as (E & Wa).
    destruct (trim_spec h) as (p & q & Eh & P & Q). rewrite E in Eh.
    assert (Eh' : h = (p ++ a) ++ 64 :: (v ++ q)) by (rewrite Eh, <- !app_assoc; reflexivity).
    assert (Wpa : without 64 (p ++ a)).
    { apply Forall_app. split; auto. eapply Forall_impl; [|exact P]. intros c Hc ->. discriminate Hc. }
    assert (Tv : trim (v ++ q) = trim v) by exact (trim_pad (a := []) v ltac:(constructor) Q).
    assert (Ta : trim (p ++ a) = trim a).
    { pose proof (trim_pad (b := []) a P ltac:(constructor)) as X. rewrite app_nil_r in X. auto. }
    assert (U : forall a' v', h = a' ++ lit "@" ++ v' -> ~ In 64 a' -> a' = p ++ a /\ v' = v ++ q).
    { intros a' v' Ea Na. apply not_in_without in Na.
      pose proof (split_once_app v' Na) as X. pose proof (split_once_app (v ++ q) Wpa) as Y.
      rewrite <- Eh' in Y. change (lit "@" ++ v') with (64 :: v') in Ea. rewrite <- Ea in X. rewrite X in Y. inversion Y. auto. }
    destruct (nonempty (trim v)) eqn:N.
    + apply nonempty_iff in N. split.
      * intros X. inversion X; subst alias version. cbn. exists (p ++ a), (v ++ q).
        split; [exact Eh'|]. split; [apply not_in_without, Wpa|]. rewrite !stripped_iff. auto.
      * destruct version as [ver|]; cbn.
        -- intros (a' & v' & Ea & Na & Sa & Sv & Nv). destruct (U a' v' Ea Na) as (-> & ->).
           apply stripped_iff in Sa, Sv. congruence.
        -- intros (_ & H). exfalso. apply N. rewrite <- Tv. apply trim_blank. apply (H (p ++ a)); auto. apply not_in_without, Wpa.
    + apply nonempty_false in N. rewrite trim_trim. split.
      * intros X. inversion X; subst alias version. cbn. split; [apply stripped_iff; auto|].
        intros a' v' Ea Na. destruct (U a' v' Ea Na) as (-> & ->). apply blank_trim. congruence.
      * destruct version as [ver|]; cbn.
        -- intros (a' & v' & Ea & Na & Sa & Sv & Nv). destruct (U a' v' Ea Na) as (-> & ->).
           apply stripped_iff in Sv. congruence.
        -- intros (S & _). apply stripped_iff in S. congruence.
  - apply split_once_none_inv in E. rewrite trim_trim.
    assert (Wh : without 64 h).
    { destruct (trim_spec h) as (p & q & -> & P & Q).
      repeat (apply Forall_app; split); auto; (eapply Forall_impl; [|eassumption]; intros c Hc ->; discriminate Hc). }
    split.
    + intros X. inversion X; subst. cbn. split; [apply stripped_iff; auto|]. intros a v -> _.
      apply Forall_app in Wh. destruct Wh as (_ & Wh). inversion Wh. congruence.
    + destruct version as [ver|]; cbn.
      * intros (a & v & -> & _). apply Forall_app in Wh. destruct Wh as (_ & Wh). inversion Wh. congruence.
      * intros (S & _). apply stripped_iff in S. congruence.
Qed.

(** ** Overrides *)
Definition name_of (n : str) : str := if starts_with (lit "engine.") n then n else lit "engine." ++ n.
Lemma name_of_iff k n : full_name k n <-> n = name_of k.
Proof.
  unfold full_name, name_of. destruct (starts_with (lit "engine.") k) eqn:E.
  - apply starts_with_iff in E. destruct E as (t & E). split; [intros [(_ & _ & H)|(H & _)]; auto; exfalso; eapply H; eauto|].
    intros ->. left. eauto.
  - assert (N : forall t, k <> lit "engine." ++ t).
    { intros t Ek. rewrite (proj2 (starts_with_iff _ _) (ex_intro _ t Ek)) in E. discriminate. }
    split; [intros [(t & H & _)|(_ & H)]; auto; exfalso; eapply N; eauto|]. intros ->. right. auto.
Qed.
Lemma override_iff s m w m' : override_step s m w = inr m' <->
  (only_blanks w /\ m' = m) \/ (exists e, override_text w e /\ m' = btree_insert (fst e) (snd e) m).
Proof.
  unfold override_step. change (chr "=") with 61. destruct (nonempty (trim w)) eqn:N.
  - apply nonempty_iff in N. assert (NB : ~ only_blanks w) by (intros B; apply N, trim_blank, B).
    destruct (split_once 61 (trim w)) as [(k, v)|] eqn:E.
    + apply split_once_some in E. destruct E as (E & Wk).
      destruct (trim_spec w) as (p & q & Ew & P & Q). rewrite E in Ew.
      assert (Ew' : w = (p ++ k) ++ 61 :: (v ++ q)) by (rewrite Ew, <- !app_assoc; reflexivity).
      assert (Wpk : without 61 (p ++ k)).
      { apply Forall_app. split; auto. eapply Forall_impl; [|exact P]. intros c Hc ->. discriminate Hc. }
      assert (Tv : trim (v ++ q) = trim v) by exact (trim_pad (a := []) v ltac:(constructor) Q).
      assert (Tk : trim (p ++ k) = trim k).
      { pose proof (trim_pad (b := []) k P ltac:(constructor)) as X. rewrite app_nil_r in X. auto. }
      fold (name_of (trim k)). split.
      * intros X. right. exists (name_of (trim k), trim v). cbn [fst snd]. split; [|congruence].
        exists (p ++ k), (v ++ q), (trim k). rewrite !stripped_iff. split; [exact Ew'|].
        split; [apply not_in_without, Wpk|]. split; [auto|]. split; [apply name_of_iff; auto|]. cbn. auto.
      * intros [(B & _)|((n, u) & (k' & v' & n' & Ek & Nk & Sk & Fn & Sv) & ->)]; [tauto|]. cbn [fst snd] in *.
        apply not_in_without in Nk. apply stripped_iff in Sk, Sv. apply name_of_iff in Fn.
        pose proof (split_once_app v' Nk) as X. pose proof (split_once_app (v ++ q) Wpk) as Y.
        rewrite <- Ew' in Y. change (lit "=" ++ v') with (61 :: v') in Ek. rewrite <- Ek in X. rewrite X in Y. inversion Y; subst. rewrite Tk, Tv. reflexivity.
    + apply split_once_none_inv in E. split; [discriminate|].
      intros [(B & _)|(e & (k' & v' & n' & Ek & _) & _)]; [tauto|]. exfalso.
      destruct (trim_spec w) as (p & q & Ew & P & Q).
      assert (Ww : without 61 w).
      { rewrite Ew. repeat (apply Forall_app; split); auto; (eapply Forall_impl; [|eassumption]; intros c Hc ->; discriminate Hc). }
      rewrite Ek in Ww. apply Forall_app in Ww. destruct Ww as (_ & Ww). inversion Ww. congruence.
  - apply nonempty_false, blank_trim in N. split.
    + intros X. left. split; [exact N|congruence].
    + intros [(_ & ->)|(e & (k' & v' & n' & -> & _) & _)]; [auto|]. exfalso.
      apply Forall_app in N. destruct N as (_ & N). inversion N. discriminate.
Qed.
Lemma override_trim s m w : override_step s m (trim w) = override_step s m w.
Proof. unfold override_step. rewrite trim_trim. reflexivity. Qed.
Lemma pfold_trim s ws : forall m, pfold (override_step s) (map trim ws) m = pfold (override_step s) ws m.
Proof. induction ws as [|w ws IH]; intros m; cbn [pfold map]; [auto|]. rewrite override_trim. destruct (override_step s m w); cbn; auto. Qed.
Lemma overrides_iff s ws : forall m m', pfold (override_step s) ws m = inr m' <->
  exists es, overrides_text ws es /\ m' = insert_all es m.
Proof.
  induction ws as [|w ws IH]; intros m m'; cbn [pfold].
  - split; [intros X; exists []; split; [constructor|cbn; congruence]|]. intros (es & H & ->). inversion H. reflexivity.
  - split.
    + intros X. apply pbind_inv in X. destruct X as (m1 & E & X). apply IH in X. destruct X as (es & H & ->).
      apply override_iff in E. destruct E as [(B & ->)|(e & O & ->)].
      * exists es. split; [apply overrides_blank; auto|auto].
      * exists (e :: es). split; [apply overrides_some; auto|auto].
    + intros (es & H & ->). inversion H as [|? ? ? B H'|? ? e es' O H']; subst.
      * assert (E : override_step s m w = inr m) by (apply override_iff; auto). rewrite E. cbn. apply IH. eauto.
      * assert (E : override_step s m w = inr (btree_insert (fst e) (snd e) m)) by (apply override_iff; eauto).
        rewrite E. cbn. apply IH. eauto.
Qed.

(** Trimming before splitting does not matter. *)
Lemma split_on_pre c a s : without c a -> exists w ws, split_on c s = w :: ws /\ split_on c (a ++ s) = (a ++ w) :: ws.
Proof.
  intros W. destruct (split_on c s) as [|w ws] eqn:E; [destruct (split_on_nonempty c s E)|].
  exists w, ws. split; auto. induction W as [|x a N W IH]; cbn [app split_on]; auto.
  destruct (Z.eqb_spec x c); [congruence|]. rewrite IH. reflexivity.
Qed.
Lemma split_on_post c b s : without c b -> exists ws w, split_on c s = ws ++ [w] /\ split_on c (s ++ b) = ws ++ [w ++ b].
Proof.
  intros W. induction s as [|x s (ws & w & E & F)].
  - exists [], []. cbn [app]. split; auto. rewrite split_on_no; auto.
  - cbn [app split_on]. destruct (x =? c).
    + exists ([] :: ws), w. rewrite E, F. auto.
    + rewrite E, F. destruct ws as [|u ws]; cbn [app].
      * exists [], (x :: w). auto.
      * exists ((x :: u) :: ws), w. auto.
Qed.
Lemma split_on_trim c s : is_ws c = false -> map trim (split_on c (trim s)) = map trim (split_on c s).
Proof.
  intros C. destruct (trim_spec s) as (a & b & E & A & B).
  assert (WA : without c a) by (eapply Forall_impl; [|exact A]; intros x Hx ->; congruence).
  assert (WB : without c b) by (eapply Forall_impl; [|exact B]; intros x Hx ->; congruence).
  rewrite E at 2. destruct (@split_on_pre c a (trim s ++ b) WA) as (w & ws & E1 & E2). rewrite E2.
  assert (X : map trim ((a ++ w) :: ws) = map trim (w :: ws)).
  { cbn [map]. f_equal. pose proof (trim_pad (b := []) w A ltac:(constructor)) as X. rewrite app_nil_r in X. auto. }
  rewrite X, <- E1. destruct (@split_on_post c b (trim s) WB) as (ws' & w' & F1 & F2). rewrite F1, F2, !map_app. cbn [map].
  do 2 f_equal. symmetry. exact (trim_pad (a := []) w' ltac:(constructor) B).
Qed.

(** ** Parsing *)
Lemma parse_engine_iff s e : parse_engine_spec s = inr e <->
  exists es, engine_text s (es_alias e) (es_version e) es /\ options_of es (es_options e).
Proof.
  unfold parse_engine_spec. change (chr ":") with 58. change (chr ",") with 44.
  assert (Body : forall h raw,
    (exists es, head_text h (es_alias e) (es_version e) /\ es_alias e <> [] /\ overrides_text raw es /\ es_options e = insert_all es []) <->
    (let '(alias, version) := parse_alias_version (trim h) in
     if nonempty alias then
       options <-! pfold (override_step s) raw [] ;;
       inr {| es_alias := alias; es_version := version; es_options := options |}
     else inl (InvalidSpec s)) = inr e).
  { intros h raw. destruct (parse_alias_version (trim h)) as (alias, version) eqn:E. split.
    - intros (es & H & N & O & Q). apply head_iff in H. rewrite E in H. inversion H; subst alias version.
      apply nonempty_iff in N. rewrite N. rewrite (proj2 (overrides_iff s raw [] (insert_all es []))) by eauto.
      cbn. rewrite <- Q. destruct e; reflexivity.
    - destruct (nonempty alias) eqn:N; [|discriminate]. intros X. apply pbind_inv in X. destruct X as (o & O & X).
      inversion X; subst e. cbn. apply overrides_iff in O. destruct O as (es & O & ->).
      exists es. split; [apply head_iff; auto|]. split; [apply nonempty_iff; auto|]. auto. }
  assert (Raw : forall b, (if nonempty (trim b) then pfold (override_step s) (split_on 44 (trim b)) [] else inr []) =
     pfold (override_step s) (split_on 44 b) []).
  { intros b. rewrite <- (pfold_trim s (split_on 44 b)), <- (@split_on_trim 44 b eq_refl). rewrite pfold_trim.
    destruct (nonempty (trim b)) eqn:N; auto. apply nonempty_false in N. rewrite N. reflexivity. }
  assert (Join : forall ws, Forall (fun w => ~ In 44 w) ws -> ws <> [] -> split_on 44 (join (lit ",") ws) = ws).
  { intros ws F N. apply split_on_join; auto. eapply Forall_impl; [|exact F]. intros w. apply not_in_without. }
  destruct (split_once 58 s) as [(a, b)|] eqn:E.
  - apply split_once_some in E. destruct E as (-> & Wa). cbv beta iota zeta. rewrite Raw. rewrite <- (Body a (split_on 44 b)).
    setoid_rewrite options_of_iff. split.
    + intros (es & H & N & O & Q). exists es. split; auto. exists a, (split_on 44 b). split; [apply not_in_without, Wa|].
      split; [auto|]. split; [auto|]. split; [|split; [|auto]].
      * right. split; [|apply split_on_nonempty]. change (lit ",") with [44]. rewrite join_split_on. reflexivity.
      * eapply Forall_impl; [|apply split_on_without]. intros w. apply not_in_without.
    + intros (es & (h & ws & Nh & H & N & [(Es & _)|(Es & Nw)] & F & O) & Q).
      * exfalso. apply Nh. rewrite <- Es. apply in_or_app. right. left. auto.
      * apply not_in_without in Nh. pose proof (split_once_app b Wa) as X. pose proof (split_once_app (join (lit ",") ws) Nh) as Y.
        change (lit ":" ++ join (lit ",") ws) with (58 :: join (lit ",") ws) in Es. rewrite <- Es, X in Y. inversion Y; subst a b.
        exists es. rewrite Join by auto. auto.
  - apply split_once_none_inv in E. cbv beta iota zeta. pose proof (Body s []) as B. cbn [pfold] in B. rewrite <- B.
    setoid_rewrite options_of_iff. split.
    + intros (es & H & N & O & Q). exists es. split; auto. exists s, []. split; [apply not_in_without, E|]. auto 6.
    + intros (es & (h & ws & Nh & H & N & [(Es & ->)|(Es & Nw)] & F & O) & Q).
      * subst h. exists es. auto.
      * exfalso. rewrite Es in E. apply Forall_app in E. destruct E as (_ & E). inversion E. congruence.
Qed.
