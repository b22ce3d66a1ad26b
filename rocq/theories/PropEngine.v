(** Properties C35, C47: engine specs.  Read with SpecEngine.v, SpecFibs.v (stripped, last_value) and
    SpecText.v (only_blanks). *)
From Coq Require Import Strings.String Sorting.Sorted Permutation.
From Verif Require Import EngineFacts.
Open Scope Z_scope.

(** ** C47: what a spec text means *)

(** [parse_engine_spec] accepts exactly the texts of SpecEngine.engine_text, with their alias and
    version, and with each option set to the last value written for it. *)
Theorem C47_parse_exact : forall s e, parse_engine_spec s = inr e <->
  exists es, engine_text s (es_alias e) (es_version e) es /\ options_of es (es_options e).
Proof. exact parse_engine_iff. Qed.

(** [options.get]: the last value written. *)
Theorem C47_get_last : forall s e k v, parse_engine_spec s = inr e ->
  exists es, engine_text s (es_alias e) (es_version e) es /\
  (btree_get k (es_options e) = Some v <-> last_value k es v).
Proof.
  intros s e k v E. apply parse_engine_iff in E. destruct E as (es & T & O). exists es. split; auto.
  destruct O as (S & H). apply sorted_order in S. rewrite (get_in k v S). apply H.
Qed.

Example C47_ex : exists e, parse_engine_spec (lit " hawk @ v1.3 : top_k=8, ply = 1,,ply=2") = inr e /\
  es_alias e = lit "hawk" /\ es_version e = Some (lit "v1.3") /\
  es_options e = [(lit "engine.ply", lit "2"); (lit "engine.top_k", lit "8")].
Proof. eexists. split; [vm_compute; reflexivity|]. repeat split. Qed.

(** ** C35 *)

(** Stripping "engine." as often as possible. *)
Fixpoint times (n : nat) (p : str) : str := match n with O => [] | S n' => p ++ times n' p end.
Lemma tsm_fuel p f : p <> [] -> forall s, (List.length s <= f)%nat ->
  exists n, s = times n p ++ trim_start_matches_fuel f p s /\ starts_with p (trim_start_matches_fuel f p s) = false.
Proof.
  intros Np. induction f as [|f IH]; intros s L; cbn [trim_start_matches_fuel].
  - exists 0%nat. split; auto. destruct s; [|cbn in L; lia]. destruct p; [congruence|reflexivity].
  - destruct (strip_prefix p s) as [t|] eqn:E.
    + pose proof (strip_prefix_some _ _ E) as Es. destruct (IH t) as (n & En & F).
      { rewrite Es, app_length in L. destruct p; [congruence|]. cbn in L. lia. }
      exists (S n). split; auto. cbn [times]. rewrite <- app_assoc, <- En. auto.
    + exists 0%nat. split; auto. unfold starts_with. rewrite E. reflexivity.
Qed.
Lemma tsm p s : p <> [] -> exists n, s = times n p ++ trim_start_matches p s /\ starts_with p (trim_start_matches p s) = false.
Proof. intros N. apply tsm_fuel; auto. Qed.

(** What a key becomes when it is written and read back. *)
Definition again (k : str) : str := name_of (trim (trim_start_matches (lit "engine.") k)).
Lemma trim_length s : (List.length (trim s) <= List.length s)%nat /\ (List.length (trim s) = List.length s -> trim s = s).
Proof.
  destruct (trim_spec s) as (a & b & E & _). pose proof (f_equal (@List.length Z) E) as L. rewrite !app_length in L.
  split; [lia|]. intros H. destruct a; [|cbn in L; lia]. destruct b; [|cbn in L; lia]. cbn in E. rewrite app_nil_r in E. auto.
Qed.
Lemma name_of_length n : (List.length (name_of n) <= 7 + List.length n)%nat.
Proof. unfold name_of. destruct (starts_with (lit "engine.") n); [lia|]. rewrite app_length. change (List.length (lit "engine.")) with 7%nat. lia. Qed.
Lemma again_plain t : plain_key (lit "engine." ++ t) -> again (lit "engine." ++ t) = lit "engine." ++ t.
Proof.
  intros (t' & E & S & N). apply app_inv_head in E. subst t'.
  unfold again. destruct (@tsm (lit "engine.") (lit "engine." ++ t) ltac:(discriminate)) as (n & En & F).
  set (r := trim_start_matches (lit "engine.") (lit "engine." ++ t)) in *. clearbody r.
  destruct n as [|n]; [cbn [times app] in En; rewrite <- En, starts_with_app in F; discriminate|].
  cbn [times] in En. rewrite <- app_assoc in En. apply app_inv_head in En.
  destruct n as [|n].
  - cbn in En. subst t. apply stripped_iff in S. rewrite <- S. unfold name_of. rewrite F. reflexivity.
  - exfalso. cbn [times] in En. rewrite <- app_assoc in En. exact (N _ En).
Qed.
Lemma again_length t : let k := lit "engine." ++ t in
  (List.length (again k) <= List.length k)%nat /\ (List.length (again k) = List.length k -> plain_key k).
Proof.
  cbv zeta. unfold again. destruct (@tsm (lit "engine.") (lit "engine." ++ t) ltac:(discriminate)) as (n & En & F).
  set (r := trim_start_matches (lit "engine.") (lit "engine." ++ t)) in *. clearbody r.
  destruct n as [|n]; [cbn [times app] in En; rewrite <- En, starts_with_app in F; discriminate|].
  cbn [times] in En. rewrite <- app_assoc in En. apply app_inv_head in En.
  pose proof (name_of_length (trim r)) as L1. destruct (trim_length r) as (L2 & L3).
  rewrite app_length. change (List.length (lit "engine.")) with 7%nat.
  assert (Lt : List.length t = (List.length (times n (lit "engine.")) + List.length r)%nat) by (rewrite En at 1; apply app_length).
  split; [lia|]. intros L. destruct n as [|n].
  - cbn in En. subst r. exists t. split; auto. split; [apply stripped_iff; symmetry; apply L3; lia|].
    intros u Eu. rewrite (proj2 (starts_with_iff _ _) (ex_intro _ u Eu)) in F. discriminate.
  - exfalso. cbn [times] in Lt. rewrite app_length in Lt. change (List.length (lit "engine.")) with 7%nat in Lt. lia.
Qed.

(** The written options, in the order they are written. *)
Definition picked (k : str) (m : btree) : btree := match btree_get k m with Some v => [(k, v)] | None => [] end.
Definition order (m : btree) : btree :=
  picked (lit "engine.ply") m ++ picked (lit "engine.top_k") m ++
  filter (fun b => negb (str_eqb (fst b) (lit "engine.ply") || str_eqb (fst b) (lit "engine.top_k"))) m.
Lemma in_order m e : sorted m -> In e (order m) <-> In e m.
Proof.
  intros S. unfold order, picked. rewrite !in_app_iff, filter_In. destruct e as (k, v). cbn [fst].
  assert (P : forall q, In (k, v) (match btree_get q m with Some w => [(q, w)] | None => [] end) <-> q = k /\ In (k, v) m).
  { intros q. rewrite <- (get_in k v S). destruct (btree_get q m) as [w|] eqn:G.
    - cbn. split; [intros [E|[]]; inversion E; subst; auto|]. intros (-> & E). left. congruence.
    - split; [intros []|]. intros (-> & E). congruence. }
  rewrite !P. rewrite negb_true_iff, orb_false_iff, !str_eqb_neq.
  destruct (str_eqb k (lit "engine.ply")) eqn:A; [apply str_eqb_eq in A; intuition congruence|apply str_eqb_neq in A].
  destruct (str_eqb k (lit "engine.top_k")) eqn:B; [apply str_eqb_eq in B; intuition congruence|apply str_eqb_neq in B].
  intuition congruence.
Qed.
Lemma order_nodup m : sorted m -> NoDup (map fst (order m)).
Proof.
  intros S. unfold order, picked. rewrite !map_app.
  assert (F : NoDup (map fst (filter (fun b : str * str => negb (str_eqb (fst b) (lit "engine.ply") || str_eqb (fst b) (lit "engine.top_k"))) m))).
  { pose proof (sorted_nodup S) as N. clear S. induction m as [|x m IH]; cbn [filter map] in *; [constructor|].
    inversion N as [|? ? N1 N2]; subst. destruct (negb _); [|auto]. cbn [map]. constructor; auto.
    intros I. apply N1. apply in_map_iff in I. destruct I as (y & E & I). apply filter_In in I. apply in_map_iff. exists y. tauto. }
  assert (NP : forall q, In q [lit "engine.ply"; lit "engine.top_k"] ->
    ~ In q (map fst (filter (fun b : str * str => negb (str_eqb (fst b) (lit "engine.ply") || str_eqb (fst b) (lit "engine.top_k"))) m))).
  { intros q Q I. apply in_map_iff in I. destruct I as (y & <- & I). apply filter_In in I. destruct I as (_ & I).
    apply negb_true_iff, orb_false_iff in I. rewrite !str_eqb_neq in I. destruct Q as [Q|[Q|[]]]; destruct I; congruence. }
  destruct (btree_get (lit "engine.ply") m); destruct (btree_get (lit "engine.top_k") m); cbn [map app fst]; auto.
  - constructor; [|constructor; auto].
    + intros [E|I]; [discriminate E|]. revert I. apply NP. left. auto.
    + apply NP. right. left. auto.
  - constructor; auto. apply NP. left. auto.
  - constructor; auto. apply NP. right. left. auto.
Qed.
Lemma format_order e : format_engine_spec e =
  let base := match es_version e with Some v => es_alias e ++ lit "@" ++ v | None => es_alias e end in
  match order (es_options e) with [] => base | _ => base ++ lit ":" ++ join (lit ",") (map shown_option (order (es_options e))) end.
Proof.
  unfold format_engine_spec, order, picked.
  destruct (btree_get (lit "engine.ply") (es_options e)); destruct (btree_get (lit "engine.top_k") (es_options e)); try reflexivity.
  cbn [app map]. destruct (filter _ (es_options e)); reflexivity.
Qed.

(** Where options come from. *)
Lemma overrides_origin ws es k v : overrides_text ws es -> Forall (fun w => ~ In 44 w) ws -> In (k, v) es ->
  exists n, k = name_of n /\ without 61 n /\ without 44 n /\ trim v = v /\ without 44 v.
Proof.
  induction 1 as [|w ws es B O IH|w ws e es T O IH]; intros F I; [destruct I| |]; inversion F; subst; auto.
  destruct I as [->|I]; auto. destruct T as (k' & v' & n & -> & Nk & Sk & Fn & Sv). cbn [fst snd] in *.
  exists n. apply name_of_iff in Fn. apply stripped_iff in Sk, Sv. subst n v. split; auto.
  match goal with H : ~ In 44 _ |- _ => apply not_in_without, Forall_app in H; destruct H as (Wk & Wv) end.
  apply Forall_app in Wv. destruct Wv as (_ & Wv).
  split; [apply trim_without, not_in_without, Nk|]. split; [apply trim_without, Wk|]. split; [apply trim_trim|apply trim_without, Wv].
Qed.
Lemma name_of_without c n : without c (lit "engine.") -> without c n -> without c (name_of n).
Proof. intros A B. unfold name_of. destruct (starts_with (lit "engine.") n); auto. apply Forall_app. auto. Qed.
Lemma tsm_without c p s : without c s -> p <> [] -> without c (trim_start_matches p s).
Proof. intros W N. destruct (tsm s N) as (n & E & _). rewrite E in W. apply Forall_app in W. tauto. Qed.
Lemma lit_engine c : existsb (Z.eqb c) (lit "engine.") = false -> without c (lit "engine.").
Proof.
  intros H. apply Forall_forall. intros x I ->. rewrite <- not_true_iff_false in H. apply H. apply existsb_exists. exists c. split; auto. apply Z.eqb_refl.
Qed.

(** The text written for a parsed spec, read as a text. *)
Lemma format_text s e : parse_engine_spec s = inr e ->
  engine_text (format_engine_spec e) (es_alias e) (es_version e) (map (fun b => (again (fst b), snd b)) (order (es_options e))).
Proof.
  intros E. apply parse_engine_iff in E. destruct E as (es & (h & ws & Nh & H & Na & Es & F & O) & S & IO).
  apply sorted_order in S.
  set (base := match es_version e with Some v => es_alias e ++ lit "@" ++ v | None => es_alias e end).
  assert (HB : ~ In 58 base /\ head_text base (es_alias e) (es_version e)).
  { apply not_in_without in Nh. unfold base, head_text in *. destruct (es_version e) as [ver|].
    - destruct H as (a & v & -> & Nat & Sa & Sv & Nv). apply stripped_iff in Sa, Sv. apply not_in_without in Nat.
      apply Forall_app in Nh. destruct Nh as (Wa & Wv). apply Forall_app in Wv. destruct Wv as (W1 & Wv).
      rewrite not_in_without. subst ver. rewrite Sa. split.
      + apply Forall_app. split; [apply trim_without, Wa|]. apply Forall_app. split; [exact W1|apply trim_without, Wv].
      + exists (trim a), (trim v). rewrite not_in_without, !stripped_iff, !trim_trim. split; auto. split; [apply trim_without, Nat|auto].
    - destruct H as (Sh & Hv). apply stripped_iff in Sh. rewrite Sh, not_in_without. split; [apply trim_without, Nh|].
      rewrite stripped_iff, trim_trim. split; auto. intros a v Ea Nat.
      destruct (trim_spec h) as (p & q & Eh & P & Q). rewrite Ea in Eh.
      assert (B : only_blanks (v ++ q)).
      { apply (Hv (p ++ a)).
        - rewrite Eh at 1. rewrite <- !app_assoc. reflexivity.
        - apply not_in_without. apply Forall_app. split; [|apply not_in_without, Nat].
          eapply Forall_impl; [|exact P]. intros c Hc ->. discriminate Hc. }
      apply Forall_app in B. tauto. }
  destruct HB as (N58 & HB).
  assert (Each : Forall (fun b => ~ In 44 (shown_option b) /\ override_text (shown_option b) (again (fst b), snd b)) (order (es_options e))).
  { apply Forall_forall. intros (k, v) I. apply (in_order _ S) in I. apply IO in I.
    assert (I' : In (k, v) es) by (destruct I as (a & b & -> & _); apply in_or_app; right; left; auto).
    destruct (overrides_origin k v O F I') as (n & -> & W61 & W44 & Tv & Wv). cbn [fst snd]. unfold shown_option. cbn [fst snd].
    assert (T61 : without 61 (trim_start_matches (lit "engine.") (name_of n))).
    { apply tsm_without; [|discriminate]. apply name_of_without; auto. apply lit_engine. reflexivity. }
    assert (T44 : without 44 (trim_start_matches (lit "engine.") (name_of n))).
    { apply tsm_without; [|discriminate]. apply name_of_without; auto. apply lit_engine. reflexivity. }
    split.
    - apply not_in_without. apply Forall_app. split; auto. constructor; [discriminate|exact Wv].
    - exists (trim_start_matches (lit "engine.") (name_of n)), v, (trim (trim_start_matches (lit "engine.") (name_of n))).
      cbn [fst snd]. rewrite not_in_without, name_of_iff, !stripped_iff. auto. }
  assert (OT : overrides_text (map shown_option (order (es_options e))) (map (fun b => (again (fst b), snd b)) (order (es_options e)))).
  { induction Each as [|b l (_ & X) _ IH]; cbn [map]; [constructor|]. apply overrides_some; auto. }
  rewrite format_order. fold base. cbv zeta.
  exists base, (map shown_option (order (es_options e))). split; [auto|]. split; [auto|]. split; [auto|]. split; [|split; [|exact OT]].
  - destruct (order (es_options e)); [left|right]; split; try reflexivity. discriminate.
  - apply Forall_map. eapply Forall_impl; [|exact Each]. tauto.
Qed.

Lemma last_value_nodup {V} (k : str) (v : V) l : NoDup (map fst l) -> last_value k l v <-> In (k, v) l.
Proof.
  intros N. split.
  - intros (a & b & -> & _). apply in_or_app. right. left. auto.
  - intros I. apply in_split in I. destruct I as (a & b & ->). exists a, b. split; auto.
    rewrite map_app in N. cbn [map fst] in N. apply NoDup_remove_2 in N. apply Forall_forall. intros x I E. apply N.
    apply in_or_app. right. apply in_map_iff. exists x. auto.
Qed.
Lemma keys_prefixed s e k v : parse_engine_spec s = inr e -> In (k, v) (es_options e) -> exists t, k = lit "engine." ++ t.
Proof.
  intros E I. apply parse_engine_iff in E. destruct E as (es & (h & ws & _ & _ & _ & _ & F & O) & _ & IO).
  apply IO in I. assert (I' : In (k, v) es) by (destruct I as (a & b & -> & _); apply in_or_app; right; left; auto).
  destruct (overrides_origin k v O F I') as (n & -> & _). unfold name_of.
  destruct (starts_with (lit "engine.") n) eqn:S; [apply starts_with_iff in S; auto|eauto].
Qed.
Lemma sum_le {A} (f g : A -> nat) l : (forall x, In x l -> (f x <= g x)%nat) ->
  (list_sum (map f l) <= list_sum (map g l))%nat /\ (list_sum (map f l) = list_sum (map g l) -> forall x, In x l -> f x = g x).
Proof.
  induction l as [|a l IH]; intros H; cbn [map list_sum fold_right].
  - split; [lia|intros _ x []].
  - fold (list_sum (map f l)) (list_sum (map g l)). destruct (IH (fun x I => H x (or_intror I))) as (A1 & A2).
    pose proof (H a (or_introl eq_refl)) as A3. change (fold_right Nat.add 0%nat (map f l)) with (list_sum (map f l)).
    change (fold_right Nat.add 0%nat (map g l)) with (list_sum (map g l)). split; [lia|].
    intros E x [<-|I]; [lia|]. apply A2; auto. lia.
Qed.
Lemma list_sum_perm l l' : Permutation l l' -> list_sum l = list_sum l'.
Proof. induction 1; unfold list_sum in *; cbn [fold_right] in *; lia. Qed.

(** The full property is false: see [C35_refuted]. *)
Definition engine_round_trip : Prop := forall s e, parse_engine_spec s = inr e ->
  parse_engine_spec (format_engine_spec e) = inr e.

(** Formatting loses nothing exactly when every option key is plain: "engine." followed by a name that
    does not itself begin with "engine." and has no blanks around it. *)
Theorem C35_round_trip_iff_partial : forall s e, parse_engine_spec s = inr e ->
  parse_engine_spec (format_engine_spec e) = inr e <-> Forall (fun b => plain_key (fst b)) (es_options e).
Proof.
  intros s e E. pose proof (format_text s E) as T. pose proof (proj1 (parse_engine_iff s e) E) as (es0 & _ & S & IO0).
  apply sorted_order in S. pose proof (fun k v => @keys_prefixed s e k v E) as KP. split.
  - intros E'. apply parse_engine_iff in E'.
    (* the text determines the overrides *)
    set (es := map (fun b => (again (fst b), snd b)) (order (es_options e))) in *.
    assert (E2 : parse_engine_spec (format_engine_spec e) = inr {| es_alias := es_alias e; es_version := es_version e; es_options := insert_all es [] |}).
    { apply parse_engine_iff. exists es. split; [exact T|]. apply options_of_iff. reflexivity. }
    apply parse_engine_iff in E'. rewrite E' in E2. assert (Q : es_options e = insert_all es []) by (destruct e; inversion E2; auto).
    set (K := map fst (order (es_options e))).
    assert (NK : NoDup K) by (apply order_nodup, S).
    assert (IK : incl K (map again K)).
    { intros k I. unfold K in I. apply in_map_iff in I. destruct I as ((k', v) & <- & I). cbn [fst]. apply (in_order _ S) in I.
      rewrite Q in I. apply insert_all_in in I. destruct I as (a & b & Eb & _).
      assert (I : In (k', v) es) by (rewrite Eb; apply in_or_app; right; left; auto).
      apply in_map_iff in I. destruct I as (b' & Eb' & I). inversion Eb'; subst. unfold K. rewrite map_map. apply in_map_iff. exists b'. auto. }
    assert (PK : Permutation K (map again K)).
    { apply NoDup_Permutation_bis; auto. rewrite map_length. auto. }
    assert (LK : forall k, In k K -> (List.length (again k) <= List.length k)%nat /\ (List.length (again k) = List.length k -> plain_key k)).
    { intros k I. unfold K in I. apply in_map_iff in I. destruct I as ((k', v) & <- & I). cbn [fst]. apply (in_order _ S) in I.
      destruct (KP k' v I) as (t & ->). apply again_length. }
    destruct (@sum_le str (fun k => List.length (again k)) (fun k => List.length k) K) as (_ & X); [intros k I; apply LK, I|].
    apply Forall_forall. intros (k, v) I. cbn [fst].
    assert (Ik : In k K) by (unfold K; apply in_map_iff; exists (k, v); split; auto; apply (in_order _ S); auto).
    apply LK; auto. apply X; auto.
    apply (Permutation_map (@List.length Z)) in PK. rewrite map_map in PK. apply list_sum_perm in PK. auto.
  - intros P. apply parse_engine_iff. eexists. split; [exact T|].
    assert (Id : map (fun b => (again (fst b), snd b)) (order (es_options e)) = order (es_options e)).
    { rewrite <- (map_id (order (es_options e))) at 2. apply map_ext_in. intros (k, v) I. apply (in_order _ S) in I. cbn [fst snd].
      rewrite Forall_forall in P. specialize (P _ I). cbn [fst] in P. destruct (KP k v I) as (t & ->). rewrite again_plain; auto. }
    rewrite Id. split; [apply sorted_order, S|]. intros k v. rewrite last_value_nodup by (apply order_nodup, S).
    symmetry. apply in_order, S.
Qed.

(** Alias and version always survive, and formatting always gives an accepted text. *)
Theorem C35_alias_version : forall s e, parse_engine_spec s = inr e ->
  exists e', parse_engine_spec (format_engine_spec e) = inr e' /\ es_alias e' = es_alias e /\ es_version e' = es_version e.
Proof.
  intros s e E. pose proof (format_text s E) as T.
  eexists {| es_alias := es_alias e; es_version := es_version e; es_options := _ |}. split; [|auto].
  apply parse_engine_iff. eexists. split; [exact T|]. apply options_of_iff. reflexivity.
Qed.

Theorem C35_refuted : ~ engine_round_trip.
Proof.
  intros H. destruct (parse_engine_spec (lit "hawk:engine.engine.x=1")) as [er|e] eqn:E; [vm_compute in E; discriminate E|].
  pose proof (H _ _ E) as X. vm_compute in E. assert (Q : e = {| es_alias := lit "hawk"; es_version := None; es_options := [(lit "engine.engine.x", lit "1")] |}) by (vm_compute; congruence).
  subst e. vm_compute in X. discriminate X.
Qed.

Example C35_ex : exists e, parse_engine_spec (lit "hawk@v1.3:top_k=8,ply=2,threads = 4") = inr e /\
  Forall (fun b => plain_key (fst b)) (es_options e) /\ es_options e <> [].
Proof.
  eexists. split; [vm_compute; reflexivity|]. cbn [es_options]. split; [|discriminate].
  constructor; [|constructor; [|constructor; [|constructor]]]; cbn [fst].
  - exists (lit "ply"). split; [reflexivity|]. split; [apply stripped_iff; reflexivity|]. intros u X. discriminate X.
  - exists (lit "threads"). split; [reflexivity|]. split; [apply stripped_iff; reflexivity|]. intros u X. discriminate X.
  - exists (lit "top_k"). split; [reflexivity|]. split; [apply stripped_iff; reflexivity|]. intros u X. discriminate X.
Qed.
