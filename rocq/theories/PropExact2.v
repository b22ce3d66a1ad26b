(** Properties C67 - C70: NoHitRules, the rereading of engine specs, and FIBS texts, exactly as the code
    treats them.  Read with SpecExact2.v, SpecExact.v, SpecEngine.v, SpecFibs.v. *)
From Coq Require Import Strings.String Sorting.Sorted Permutation.
From Verif Require Import SpecExact SpecExact2 TryFromFacts ModeFacts VariantFacts FibsFacts GameFacts PropGame PropGnuid PropFibs PropExact EngineFacts PropEngine.
Open Scope Z_scope.

(** ** C67: NoHitRules *)

(** The list is the list of legal positions, in its order, less those after which the player who moved
    has more checkers on the bar than the opponent had there before.  Every build. *)
Theorem C67_no_hit_exact : forall m k v d, vwf k v -> vongoing v -> valid_dice d ->
  exists l keep, legal_positions m v d = Ret l /\ no_hit_rules m v d = Ret (filter keep l) /\
  forall w, In w l -> (keep w = true <-> - pt (board_of w) 0 <= - pt (board_of v) 0).
Proof.
  intros m k v d (p & -> & W) O V. rewrite vongoing_tag in O.
  destruct (no_hit_ret m k d W O V) as (l & E & H & E2).
  exists (map (tag k) l), (fun w => - pt (board_of w) 0 <=? - pt p 0). split; [|split].
  - unfold legal_positions. rewrite classic_rules_tag. rewrite E. reflexivity.
  - rewrite E2. f_equal. clear. induction l as [|q l IH]; cbn [map filter]; [auto|]. rewrite board_of_tag.
    destruct (_ <=? _); cbn [map]; rewrite IH; reflexivity.
  - intros w _. rewrite board_of_tag. apply Z.leb_le.
Qed.
(** On a finished game a debug build panics, as [legal_positions] does. *)
Example C67_ex : exists l, no_hit_rules Debug (start_position Backgammon) (Mixed 3 1) = Ret l /\ l <> [].
Proof. eexists. split; [vm_compute; reflexivity|discriminate]. Qed.

(** ** C68: engine specs, written and read back *)

Lemma again_reread k : reread_key k (again k).
Proof.
  unfold again. destruct (@tsm (lit "engine.") k ltac:(discriminate)) as (n & En & F).
  exists n, (trim_start_matches (lit "engine.") k), (trim (trim_start_matches (lit "engine.") k)).
  split; [|split; [|split; [apply stripped_iff; auto|apply name_of_iff; auto]]].
  - assert (Q : forall j, times j (lit "engine.") = copies j (lit "engine.")) by (induction j; cbn [times copies]; congruence).
    rewrite <- Q. exact En.
  - intros r E. rewrite E, starts_with_app in F. discriminate.
Qed.
Lemma copies_unique w : w <> [] -> forall n n' t t', copies n w ++ t = copies n' w ++ t' ->
  (forall r, t <> w ++ r) -> (forall r, t' <> w ++ r) -> t = t'.
Proof.
  intros Nw. induction n as [|n IH]; intros [|n'] t t' E A B; cbn [copies app] in E; auto.
  - rewrite <- app_assoc in E. destruct (A _ E).
  - rewrite <- app_assoc in E. symmetry in E. destruct (B _ E).
  - rewrite <- !app_assoc in E. apply app_inv_head in E. eauto.
Qed.
Lemma reread_again k k' : reread_key k k' -> k' = again k.
Proof.
  intros (n & t & u & Ek & N & S & F). destruct (again_reread k) as (n' & t' & u' & Ek' & N' & S' & F').
  rewrite Ek in Ek'. apply copies_unique in Ek'; auto; [|discriminate]. subst t'.
  apply stripped_iff in S, S'. subst u u'. apply name_of_iff in F, F'. congruence.
Qed.
Lemma sorted_filter f (m : btree) : sorted m -> sorted (filter f m).
Proof.
  intros S. unfold sorted in *. induction S as [|a m S IH F]; cbn [filter]; [constructor|].
  destruct (f a); auto. constructor; auto. apply Forall_forall. intros x I. apply filter_In in I.
  rewrite Forall_forall in F. apply F, I.
Qed.
Lemma order_written m : sorted m -> writing_order m (order m).
Proof.
  intros S. unfold order. eexists _, _, _. split; [reflexivity|].
  assert (P : forall q e, In e (picked q m) <-> In e m /\ fst e = q).
  { intros q (k, v). unfold picked. cbn [fst]. destruct (btree_get q m) as [w|] eqn:G.
    - apply (get_in q w S) in G. split.
      + intros [Eq|[]]. inversion Eq; subst. auto.
      + intros (I & ->). left. f_equal. exact (@sorted_unique m q w v S G I).
    - split; [intros []|]. intros (I & ->). apply (get_in q v S) in I. congruence. }
  assert (L : forall q, (List.length (picked q m) <= 1)%nat) by (intros q; unfold picked; destruct (btree_get q m); cbn; lia).
  split; [apply P|]. split; [apply L|]. split; [apply P|]. split; [apply L|]. split.
  - intros e. rewrite filter_In, negb_true_iff, orb_false_iff, !str_eqb_neq. tauto.
  - apply sorted_order, sorted_filter, S.
Qed.

(** A parsed spec is written as a text with the same alias and version and, in writing order, its
    options with their keys changed as described; reading it back gives those options, the last one
    winning when two keys have become the same. *)
Theorem C68_reread : forall s e, parse_engine_spec s = inr e ->
  exists es es' e', writing_order (es_options e) es /\
    Forall2 (fun b b' => reread_key (fst b) (fst b') /\ snd b' = snd b) es es' /\
    engine_text (format_engine_spec e) (es_alias e) (es_version e) es' /\
    parse_engine_spec (format_engine_spec e) = inr e' /\
    es_alias e' = es_alias e /\ es_version e' = es_version e /\ options_of es' (es_options e').
Proof.
  intros s e E. pose proof (format_text s E) as T. pose proof (proj1 (parse_engine_iff s e) E) as (es0 & _ & S & _).
  apply sorted_order in S. set (es' := map (fun b => (again (fst b), snd b)) (order (es_options e))) in *.
  exists (order (es_options e)), es', {| es_alias := es_alias e; es_version := es_version e; es_options := insert_all es' [] |}.
  split; [apply order_written, S|]. split.
  { unfold es'. clear. induction (order (es_options e)) as [|b l IH]; cbn [map]; constructor; auto. cbn [fst snd]. split; [apply again_reread|auto]. }
  split; [exact T|]. assert (O : options_of es' (insert_all es' [])) by (apply options_of_iff; reflexivity).
  split; [|auto]. apply parse_engine_iff. exists es'. auto.
Qed.
(** The change of keys is a function. *)
Theorem C68_key_function : forall k, exists k', reread_key k k' /\ forall k'', reread_key k k'' -> k'' = k'.
Proof. intros k. exists (again k). split; [apply again_reread|]. intros k'' H. apply reread_again, H. Qed.
(** Nothing is lost exactly when every key is plain. *)
Theorem C68_round_trip_iff : forall s e, parse_engine_spec s = inr e ->
  (parse_engine_spec (format_engine_spec e) = inr e <-> Forall (fun b => plain_key (fst b)) (es_options e)).
Proof. exact C35_round_trip_iff_partial. Qed.
Example C68_ex : exists e e', parse_engine_spec (lit "hawk:engine.engine.x=1,x=2") = inr e /\
  es_options e = [(lit "engine.engine.x", lit "1"); (lit "engine.x", lit "2")] /\
  parse_engine_spec (format_engine_spec e) = inr e' /\ es_options e' = [(lit "engine.x", lit "2")].
Proof. do 2 eexists. split; [vm_compute; reflexivity|]. split; [reflexivity|]. split; [vm_compute; reflexivity|]. reflexivity. Qed.

(** ** C69: decoding FIBS texts *)

Lemma as_i8_wraps z : wraps_to z (as_i8 z).
Proof. apply wrap_wraps. Qed.
Lemma i8_release_wrap z : i8 Release z = Ret (wrap_i8 z).
Proof. destruct (i8_release z) as (v & E & W). rewrite E. f_equal. exact (wraps_fun W (wrap_wraps z)). Qed.
Lemma mmap_release zs : mmap (i8 Release) zs = Ret (map wrap_i8 zs).
Proof. induction zs as [|z zs IH]; cbn [mmap map]; auto. rewrite i8_release_wrap, bind_ret, IH, bind_ret. reflexivity. Qed.
Lemma mmap_debug zs : Forall (fun z => -128 <= z <= 128) zs ->
  (In 128 zs /\ mmap (i8 Debug) zs = Panic Overflow) \/ (~ In 128 zs /\ mmap (i8 Debug) zs = Ret zs).
Proof.
  induction 1 as [|z zs R _ IH]; cbn [mmap]; [right; auto|].
  destruct (Z.eq_dec z 128) as [->|N].
  - left. split; [left; auto|reflexivity].
  - rewrite i8_ret by lia. rewrite bind_ret. destruct IH as [(I & ->)|(I & ->)]; [left; split; [right; auto|reflexivity]|].
    right. split; [|reflexivity]. intros [E|E]; auto.
Qed.
Lemma ploop_reads m : forall n ws ns ps, (n < List.length ps)%nat -> List.length ws = n -> Forall2 point_text ws ns ->
  ploop m ws n ps = (vs <- mmap (i8 m) ns ;; Ret (inr (nth 0 ps 0 :: rev vs ++ skipn (S n) ps))).
Proof.
  induction n as [|n IH]; intros ws ns ps L LW F.
  - destruct ws; [|discriminate LW]. inversion F; subst. cbn [mmap ploop rev app]. rewrite bind_ret. destruct ps; [cbn [List.length] in L; lia|reflexivity].
  - destruct ws as [|w ws]; [discriminate LW|]. inversion F as [|? k ? ns' P F']; subst.
    cbn [ploop mmap]. rewrite (point_token_reads m P). unfold ebind. destruct (i8 m k) as [v|x]; [|reflexivity]. rewrite !bind_ret.
    cbn [List.length] in LW. rewrite (IH ws ns' (upd ps (S n) v)); try lia; auto; [|rewrite upd_length; lia].
    destruct (mmap (i8 m) ns') as [vs|x] eqn:M; [|reflexivity]. rewrite !bind_ret. f_equal. f_equal.
    apply upd_rev_tail; auto. assert (LV : List.length vs = List.length ns'); [|apply Forall2_length in F'; lia].
    clear - M. revert vs M. induction ns' as [|a l IH]; intros vs M; cbn [mmap] in M; [apply Ret_inj in M; subst; auto|].
    apply bind_inv in M. destruct M as (b & _ & M). apply bind_inv in M. destruct M as (c & Mc & M). apply Ret_inj in M. subst. cbn. f_equal. auto.
Qed.
Lemma fibs_reads m N s b : fibs_text s b -> fibs_decode_position m N s =
  (nb <- i8 m (- as_i8 (fb_o_bar b)) ;; vs <- mmap (i8 m) (fb_points b) ;;
   fibs_finish m N (fb_turn b) (fb_x_off b) (fb_o_off b) (nb :: rev vs ++ [as_i8 (fb_x_bar b)])).
Proof.
  destruct b as [t xb ob x_exp o_exp ns]. cbn [fb_turn fb_x_bar fb_o_bar fb_x_off fb_o_off fb_points].
  intros (fs & es & bar & off & ws & -> & FF & A & B & B' & C & C' & D & L & F). cbn [fb_turn fb_x_bar fb_o_bar fb_x_off fb_o_off fb_points] in *.
  rewrite fibs_decode_unfold.
  rewrite (proj2 (fields_iff (join (lit ";") fs) t bar off (join (lit ",") ws))) by (exists fs, es; repeat (split; [assumption||reflexivity|]); assumption). apply two_counts_iff in B', C'.
  unfold lift, ebind. rewrite ?bind_ret. cbn [f_turn f_bar f_off f_points ok_or]. rewrite ?bind_ret, B', ?bind_ret, C', ?bind_ret.
  assert (W : split_on 44 (join (lit ",") ws) = ws).
  { apply split_on_join; [intros ->; discriminate L|]. clear - F. induction F; constructor; auto. eapply point_text_without; eauto. }
  rewrite W. destruct (i8 m (- as_i8 ob)) as [nb|x]; [|reflexivity]. rewrite ?bind_ret.
  rewrite (@ploop_reads m 24 ws ns) by (auto; cbn [List.length]; rewrite app_length, repeat_length; cbn [List.length]; lia).
  destruct (mmap (i8 m) ns) as [vs|x]; [|reflexivity]. rewrite ?bind_ret. rewrite L. change (24 <? 24)%nat with false. cbv iota. reflexivity.
Qed.
Lemma wrapped_fun zs vs : wrapped zs vs -> vs = map wrap_i8 zs.
Proof. induction 1 as [|z v zs vs W _ IH]; cbn [map]; auto. f_equal; auto. exact (wraps_fun W (wrap_wraps z)). Qed.
Lemma wrapped_map zs : wrapped zs (map wrap_i8 zs).
Proof. induction zs; constructor; auto. apply wrap_wraps. Qed.
Lemma wrapped_pips b : map wrap_i8 (fb_pips b) = wrap_i8 (- as_i8 (fb_o_bar b)) :: rev (map wrap_i8 (fb_points b)) ++ [as_i8 (fb_x_bar b)].
Proof.
  unfold fb_pips. cbn [map]. rewrite map_app, map_rev. cbn [map]. f_equal.
  destruct (as_i8_wraps (fb_o_bar b)) as (_ & j & E). apply (@wraps_fun (- as_i8 (fb_o_bar b))); [|apply wrap_wraps].
  destruct (wrap_wraps (- fb_o_bar b)) as (R & l & F). split; auto. exists (j + l). lia.
Qed.
Lemma fibs_release N s b ps : fibs_text s b -> wrapped (fb_pips b) ps ->
  fibs_decode_position Release N s = fibs_finish Release N (fb_turn b) (fb_x_off b) (fb_o_off b) ps.
Proof.
  intros T W. apply wrapped_fun in W. subst ps. rewrite wrapped_pips, (fibs_reads Release N T), i8_release_wrap, bind_ret, mmap_release, bind_ret. reflexivity.
Qed.

(** Release builds never panic; the numbers are taken modulo 256, then read as described. *)
Theorem C69_release : forall k s b ps, fibs_text s b -> wrapped (fb_pips b) ps ->
  exists r xo oo, fibs_decode Release k s = Ret r /\
    wraps_to (checkers k - x_count ps) xo /\ wraps_to (checkers k - o_count ps) oo /\ fibs_answer k b xo oo ps r.
Proof.
  intros k s b ps T W. pose proof (checkers_bound k) as CB. rewrite fibs_decode_tag, (fibs_release (checkers k) T W).
  assert (L : List.length ps = 26%nat) by (apply Forall2_length in W; rewrite <- W; apply (fb_pips_length T)).
  destruct (@C59_release (checkers k) ps ltac:(lia) L) as (r & xo & oo & E & X & O & A). unfold fibs_finish. rewrite E, bind_ret.
  unfold map_ok. destruct r as [e|p].
  { rewrite bind_ret. eexists _, xo, oo. split; [reflexivity|]. split; [auto|]. split; [auto|]. eapply fibs_bad_board; eauto. }
  assert (EX : x_off p = xo /\ o_off p = oo /\ turn p = true /\ pips p = ps) by (destruct A as (_ & _ & _ & _ & ->); auto).
  destruct EX as (EX & EO & ET & EP). unfold ebind.
  destruct (str_eqb (fb_turn b) (lit "o")) eqn:To.
  - apply str_eqb_eq in To. unfold flip. rewrite <- (map_id (pips p)).
    replace (mmap (fun v => i8 Release (- v)) (map (fun x => x) (pips p))) with (@Ret (list Z) (map wrap_i8 (map Z.opp (pips p)))).
    2:{ rewrite map_id. clear. induction (pips p) as [|z l IH]; cbn [map mmap]; auto. rewrite i8_release_wrap, bind_ret, <- IH, bind_ret. reflexivity. }
    rewrite !bind_ret. cbn [x_off o_off]. rewrite EX, EO.
    destruct (Z.eqb_spec oo (fb_x_off b)) as [E1|E1]; [destruct (Z.eqb_spec xo (fb_o_off b)) as [E2|E2]|]; cbn [negb orb]; rewrite bind_ret;
      eexists _, xo, oo; (split; [reflexivity|]); (split; [auto|]); (split; [auto|]).
    + eapply fibs_o; eauto; cbn [turn x_off o_off pips]; auto.
      * rewrite ET. reflexivity.
      * rewrite EP, <- !map_rev. apply wrapped_map.
    + eapply fibs_o_bad; eauto. intros (? & ?). congruence.
    + eapply fibs_o_bad; eauto. intros (? & ?). congruence.
  - destruct (str_eqb (fb_turn b) (lit "x")) eqn:Tx; cbn [negb].
    + apply str_eqb_eq in Tx. rewrite !bind_ret, EX, EO.
      destruct (Z.eqb_spec xo (fb_x_off b)) as [E1|E1]; [destruct (Z.eqb_spec oo (fb_o_off b)) as [E2|E2]|]; cbn [negb orb]; rewrite bind_ret;
        eexists _, xo, oo; (split; [reflexivity|]); (split; [auto|]); (split; [auto|]).
      * eapply fibs_x; eauto.
      * eapply fibs_x_bad; eauto. intros (? & ?). congruence.
      * eapply fibs_x_bad; eauto. intros (? & ?). congruence.
    + apply str_eqb_neq in To, Tx. rewrite !bind_ret. eexists _, xo, oo. split; [reflexivity|]. split; [auto|]. split; [auto|]. eapply fibs_bad_turn; eauto.
Qed.

Lemma as_i8_128 z : 0 <= z <= 255 -> as_i8 z = -128 <-> z = 128.
Proof.
  intros R. destruct (as_i8_wraps z) as (B & j & E). split; [lia|]. intros ->. reflexivity.
Qed.
Lemma small_wraps zs : Forall (fun z => -128 <= z <= 127) zs -> map wrap_i8 zs = zs.
Proof. induction 1 as [|z zs R _ IH]; cbn [map]; auto. f_equal; auto. apply (@wraps_fun z); [apply wrap_wraps|]. split; [lia|]. exists 0. lia. Qed.

(** A debug build panics exactly in the cases of [fibs_panics], and otherwise answers as a release build. *)
Theorem C69_debug : forall k s b ps, fibs_text s b -> wrapped (fb_pips b) ps ->
  (fibs_panics b ps <-> fibs_decode Debug k s = Panic Overflow) /\
  (~ fibs_panics b ps -> fibs_decode Debug k s = fibs_decode Release k s).
Proof.
  intros k s b ps T W. pose proof (checkers_bound k) as CB.
  assert (L : List.length ps = 26%nat) by (apply Forall2_length in W; rewrite <- W; apply (fb_pips_length T)).
  assert (RB : 0 <= fb_o_bar b <= 255).
  { destruct T as (fs & es & bar & off & ws & _ & _ & _ & _ & B & _). apply counts_range in B. tauto. }
  assert (RP : Forall (fun z => -128 <= z <= 128) (fb_points b)).
  { destruct T as (fs & es & bar & off & ws & _ & _ & _ & _ & _ & _ & _ & _ & _ & F). clear - F. induction F; constructor; auto. eapply point_text_range; eauto. }
  rewrite !fibs_decode_tag, (fibs_release (checkers k) T W), (fibs_reads Debug (checkers k) T).
  unfold fibs_panics. pose proof (as_i8_128 RB) as A128. destruct (as_i8_wraps (fb_o_bar b)) as (BI & _).
  destruct (Z.eq_dec (fb_o_bar b) 128) as [E|NE].
  { split; [split; auto|intros H; destruct H; auto]. intros _. rewrite (proj2 A128 E). reflexivity. }
  assert (NE' : as_i8 (fb_o_bar b) <> -128) by tauto. rewrite i8_ret by lia. rewrite bind_ret.
  destruct (mmap_debug RP) as [(I & ->)|(I & ->)].
  { split; [split; auto|intros H; destruct H; auto]. }
  rewrite bind_ret.
  assert (P : - as_i8 (fb_o_bar b) :: rev (fb_points b) ++ [as_i8 (fb_x_bar b)] = ps).
  { rewrite (wrapped_fun W), wrapped_pips. f_equal; [|f_equal; f_equal].
    - symmetry. apply (@wraps_fun (- as_i8 (fb_o_bar b))); [apply wrap_wraps|]. split; [lia|]. exists 0. lia.
    - symmetry. apply small_wraps. apply Forall_forall. intros z Hz. rewrite Forall_forall in RP. specialize (RP z Hz).
      assert (z <> 128) by (intros ->; auto). lia. }
  rewrite P. destruct (@C59_debug_panics (checkers k) ps ltac:(lia) L) as (Pan & Same).
  assert (Dec : overflows ps \/ ~ overflows ps) by (unfold overflows; lia). destruct Dec as [O|O].
  { split; [|intros H; destruct H; auto]. split; auto. intros _. unfold fibs_finish. rewrite (proj1 Pan O). reflexivity. }
  assert (Main : fibs_finish Debug (checkers k) (fb_turn b) (fb_x_off b) (fb_o_off b) ps = fibs_finish Release (checkers k) (fb_turn b) (fb_x_off b) (fb_o_off b) ps).
  { unfold fibs_finish. rewrite (Same O). destruct (@C59_release (checkers k) ps ltac:(lia) L) as (r & xo & oo & E & X & OO & A). rewrite E, !bind_ret.
    destruct r as [e|p]; [reflexivity|]. destruct (str_eqb (fb_turn b) (lit "o")); [|reflexivity].
    destruct A as (A1 & A2 & A3 & A4 & ->). unfold overflows in O. destruct (count_bounds ps) as (BX & BO).
    assert (Q : flip Debug {| turn := true; pips := ps; x_off := xo; o_off := oo |} = flip Release {| turn := true; pips := ps; x_off := xo; o_off := oo |}); [|rewrite Q; reflexivity].
    assert (Small : Forall (fun v => -127 <= v <= 127) ps).
    { apply Forall_forall. intros v Iv. specialize (BX v Iv). specialize (BO v Iv). destruct OO as (RO & j & EO). lia. }
    unfold flip. cbn [pips]. f_equal. clear - Small. induction Small as [|v l R _ IH]; cbn [mmap]; auto. rewrite !i8_ret by lia. rewrite IH. reflexivity. }
  rewrite Main. split; [|auto]. split; [intros [|[|]]; contradiction|]. intros H. exfalso.
  assert (F : fine Release (map_ok (tag k) (fibs_finish Release (checkers k) (fb_turn b) (fb_x_off b) (fb_o_off b) ps))).
  { rewrite <- (fibs_release (checkers k) T W). apply fine_map_ok, fine_fibs. }
  destruct F as [(a & F)|(F & _)]; congruence.
Qed.

Lemma ploop_panics : forall n ws ps, (n < List.length ps)%nat ->
  ploop Debug ws n ps = Panic Overflow <->
  exists us rest ns, ws = us ++ rest /\ (List.length us <= n)%nat /\ Forall2 point_text us ns /\ In 128 ns.
Proof.
  induction n as [|n IH]; intros ws ps L; cbn [ploop].
  - split; [discriminate|]. intros (us & rest & ns & _ & Lu & F & I). destruct us; [|cbn in Lu; lia]. inversion F; subst. destruct I.
  - destruct ws as [|w ws].
    + split; [discriminate|]. intros (us & rest & ns & E & _ & F & I). destruct us; [|discriminate E]. inversion F; subst. destruct I.
    + destruct (point_token_inv Debug w) as [(z & P)|B].
      * rewrite (point_token_reads Debug P). pose proof (point_text_range P) as R. destruct (Z.eq_dec z 128) as [->|N].
        -- split; [|reflexivity]. intros _. exists [w], ws, [128]. split; auto. split; [cbn; lia|]. split; [constructor; auto|left; auto].
        -- rewrite i8_ret by lia. unfold ebind. rewrite !bind_ret. rewrite IH by (rewrite upd_length; lia). split.
           ++ intros (us & rest & ns & -> & Lu & F & I). exists (w :: us), rest, (z :: ns). split; auto. split; [cbn; lia|]. split; [constructor; auto|right; auto].
           ++ intros (us & rest & ns & E & Lu & F & I). destruct us as [|u us]; [inversion F; subst; destruct I|].
              cbn [app] in E. injection E as <- ->. inversion F as [|? z' ? ns' P' F']; subst. cbn [List.length] in Lu.
              destruct I as [->|I]; [|exists us, rest, ns'; split; [auto|]; split; [lia|auto]]. exfalso.
              pose proof (point_token_reads Release P) as Q1. rewrite (point_token_reads Release P'), !i8_release_wrap, !bind_ret in Q1.
              injection Q1 as Q1. rewrite (@wraps_fun z (wrap_i8 z) z) in Q1; [|apply wrap_wraps|split; [lia|exists 0; lia]].
              change (wrap_i8 128) with (-128) in Q1. subst z.
              pose proof (point_token_reads Debug P) as Q2. rewrite (point_token_reads Debug P') in Q2. discriminate Q2.
      * rewrite B. split; [discriminate|]. intros (us & rest & ns & E & Lu & F & I). destruct us as [|u us]; [inversion F; subst; destruct I|].
        cbn [app] in E. injection E as <- ->. inversion F as [|? z' ? ns' P' F']; subst.
        pose proof (point_token_reads Release P') as Q. rewrite i8_release_wrap, bind_ret in Q.
        assert (X : forall m, fibs_point_token m (trim w) = Ret (inl (FibsInvalidField (lit "points"))) -> False).
        { intros m. rewrite (point_token_reads m P'). unfold i8. destruct (in_i8 z'); [discriminate|]. destruct m; discriminate. }
        destruct (X Debug B).
Qed.
(** Texts that are not FIBS texts are refused, but a debug build panics instead when the fields are in
    order and it meets the 128 of o before anything that is not a point. *)
Theorem C69_malformed : forall k s, (forall b, ~ fibs_text s b) ->
  (exists e, fibs_decode Release k s = Ret (inl e)) /\
  ((exists e, fibs_decode Debug k s = Ret (inl e)) \/ fibs_decode Debug k s = Panic Overflow) /\
  (fibs_decode Debug k s = Panic Overflow <-> exists ob ns, fibs_begins s ob ns /\ (ob = 128 \/ In 128 ns)).
Proof.
  intros k s H. assert (NA : forall m w, fibs_decode m k s <> Ret (inr w)) by (intros m; apply C15_malformed_partial, H).
  split; [|split].
  - destruct (C15_panics_partial Release k s) as [([e|w] & E)|(E & _)]; [eauto|destruct (NA Release w E)|discriminate].
  - destruct (C15_panics_partial Debug k s) as [([e|w] & E)|(_ & E)]; [eauto|destruct (NA Debug w E)|auto].
  - rewrite fibs_decode_tag. unfold map_ok. rewrite fibs_decode_unfold.
    assert (FW : forall ws, Forall (fun w => ~ In 44 w) ws -> ws <> [] -> split_on 44 (join (lit ",") ws) = ws).
    { intros ws F N. apply split_on_join; auto. eapply Forall_impl; [|exact F]. intros w Iw. apply not_in_without, Iw. }
    split.
    + intros E.
      destruct (pfold fibs_field_step (split_on 59 s) fibs_no_fields) as [er|st] eqn:E0; [discriminate E|].
      destruct st as [[t|] [bar|] [off|] [pts|]]; unfold lift, ebind in E; rewrite ?bind_ret in E; cbn [f_turn f_bar f_off f_points ok_or] in E; rewrite ?bind_ret in E; try discriminate E.
      destruct (fibs_two_counts bar) as [er|[xb ob]] eqn:E1; [discriminate E|]. rewrite ?bind_ret in E.
      destruct (fibs_two_counts off) as [er|[x_exp o_exp]] eqn:E2; [discriminate E|]. rewrite ?bind_ret in E.
      apply fields_iff in E0. destruct E0 as (fs & es & -> & FF & A & B & C & D). apply two_counts_iff in E1, E2.
      pose proof (counts_range E1) as RB. exists ob.
      destruct (Z.eq_dec ob 128) as [->|NE].
      { exists []. split; [|auto]. exists fs, es, t, bar, off, [], (split_on 44 pts), xb, x_exp, o_exp. cbn [app]. change (lit ",") with [44]. rewrite join_split_on.
        repeat (split; [solve [auto]|]). split; [cbn; lia|constructor]. }
      pose proof (as_i8_128 (proj2 RB)) as A128. destruct (as_i8_wraps ob) as (BI & _). assert (as_i8 ob <> -128) by tauto.
      rewrite i8_ret in E by lia. rewrite bind_ret in E.
      set (p0 := - as_i8 ob :: repeat 0 24 ++ [as_i8 xb]) in *.
      destruct (ploop Debug (split_on 44 pts) 24 p0) as [[er|ps]|x] eqn:E4; [discriminate E| |].
      * exfalso. rewrite ?bind_ret in E. destruct (Nat.ltb_spec 24 (List.length (split_on 44 pts))) as [|LE]; [discriminate E|].
        apply ploop_sound in E4; [|unfold p0; cbn [List.length]; rewrite app_length, repeat_length; cbn [List.length]; lia].
        destruct E4 as (L & ns & vs & F & G & ->). rewrite firstn_all2 in F by lia.
        apply (H {| fb_turn := t; fb_x_bar := xb; fb_o_bar := ob; fb_x_off := x_exp; fb_o_off := o_exp; fb_points := ns |}).
        exists fs, es, bar, off, (split_on 44 pts). cbn [fb_turn fb_x_bar fb_o_bar fb_x_off fb_o_off fb_points]. change (lit ",") with [44].
        rewrite join_split_on. repeat (split; [solve [auto]|]). split; [lia|exact F].
      * assert (Ex : ploop Debug (split_on 44 pts) 24 p0 = Panic Overflow).
        { destruct (@fine_ploop Debug 24 (split_on 44 pts) p0) as [(a & X)|(_ & X)]; congruence. }
        apply ploop_panics in Ex; [|unfold p0; cbn [List.length]; rewrite app_length, repeat_length; cbn [List.length]; lia].
        destruct Ex as (us & rest & ns & Es & Lu & F & I). exists ns. split; [|auto].
        exists fs, es, t, bar, off, us, rest, xb, x_exp, o_exp. rewrite <- Es. change (lit ",") with [44]. rewrite join_split_on.
        repeat (split; [solve [auto]|]). auto.
    + intros (ob & ns & (fs & es & t & bar & off & ws & rest & xb & xe & oe & -> & FF & A & B & B' & C & C' & D & Lw & F) & Bad).
      rewrite (proj2 (fields_iff (join (lit ";") fs) t bar off (join (lit ",") (ws ++ rest)))) by (exists fs, es; repeat (split; [assumption||reflexivity|]); assumption).
      pose proof (counts_range B') as RB. apply two_counts_iff in B', C'.
      unfold lift, ebind. rewrite ?bind_ret. cbn [f_turn f_bar f_off f_points ok_or]. rewrite ?bind_ret, B', ?bind_ret, C', ?bind_ret.
      destruct (Z.eq_dec ob 128) as [->|NE]; [reflexivity|]. destruct Bad as [Bad|Bad]; [contradiction|].
      pose proof (as_i8_128 (proj2 RB)) as A128. destruct (as_i8_wraps ob) as (BI & _). assert (as_i8 ob <> -128) by tauto.
      rewrite i8_ret by lia. rewrite bind_ret.
      assert (Ex : ploop Debug (split_on 44 (join (lit ",") (ws ++ rest))) 24 (- as_i8 ob :: repeat 0 24 ++ [as_i8 xb]) = Panic Overflow); [|rewrite Ex; reflexivity].
      apply ploop_panics; [cbn [List.length]; rewrite app_length, repeat_length; cbn [List.length]; lia|].
      assert (FWs : Forall (without 44) ws) by (clear - F; induction F; constructor; auto; eapply point_text_without; eauto).
      (* splitting again: the words of [ws] stay, [rest] may be split further *)
      assert (Sp : forall u l, Forall (without 44) u -> u <> [] -> exists l', split_on 44 (join (lit ",") (u ++ l)) = u ++ l').
      { clear. intros u l Fu Nu. destruct l as [|a l].
        - exists []. rewrite app_nil_r. change (lit ",") with [44]. apply split_on_join; auto.
        - exists (split_on 44 (join (lit ",") (a :: l))). revert Fu Nu. induction u as [|x u IH]; intros Fu Nu; [congruence|].
          inversion Fu as [|? ? Fx Fu']; subst. destruct u as [|y u].
          + cbn [app]. change (join (lit ",") (x :: a :: l)) with (x ++ lit "," ++ join (lit ",") (a :: l)).
            change (lit "," ++ join (lit ",") (a :: l)) with (44 :: join (lit ",") (a :: l)). apply split_on_app; auto.
          + cbn [app]. change (join (lit ",") (x :: y :: u ++ a :: l)) with (x ++ lit "," ++ join (lit ",") ((y :: u) ++ a :: l)).
            change (lit "," ++ join (lit ",") ((y :: u) ++ a :: l)) with (44 :: join (lit ",") ((y :: u) ++ a :: l)).
            rewrite split_on_app by auto. rewrite IH; auto. discriminate. }
      assert (Nw : ws <> []) by (intros ->; inversion F; subst; destruct Bad).
      destruct (Sp ws rest FWs Nw) as (l' & El). exists ws, l', ns. auto.
Qed.
Example C69_ex : exists w, fibs_decode Release Backgammon fibs_crowded = Ret (inr w) /\ fibs_decode Debug Backgammon fibs_crowded = Panic Overflow /\
  fibs_decode Debug Backgammon o_minus_128 = Panic Overflow /\
  fibs_decode Debug Backgammon (lit "turn=x;bar=x0,o128;off=x0,o0;points=junk") = Panic Overflow /\
  fibs_decode Release Backgammon (lit "turn=x;bar=x0,o128;off=x0,o0;points=junk") = Ret (inl (FibsInvalidField (lit "points"))).
Proof. eexists. repeat split; vm_compute; reflexivity. Qed.

(** ** C70: FIBS texts of positions, read back *)

(** With x to move the position comes back.  With o to move the decoder mirrors the board again: it
    refuses the text unless both sides have borne off equally many, and then gives the mirror image with
    o to move.  In all builds. *)
Theorem C70_read_back : forall k v m m', vwf k v -> exists s, fibs_encode m v = Ret s /\
  (turn (board_of v) = true -> fibs_decode m' k s = Ret (inr v)) /\
  (turn (board_of v) = false -> x_off (board_of v) <> o_off (board_of v) -> fibs_decode m' k s = Ret (inl FibsInvalidPosition)) /\
  (turn (board_of v) = false -> x_off (board_of v) = o_off (board_of v) -> exists q,
     fibs_decode m' k s = Ret (inr (tag k q)) /\ turn q = false /\ List.length (pips q) = 26%nat /\
     x_off q = x_off (board_of v) /\ o_off q = o_off (board_of v) /\
     forall i, (i <= 25)%nat -> pt q i = - pt (board_of v) (25 - i)).
Proof.
  intros k v m m' Wv. destruct (turn (board_of v)) eqn:Tv.
  - destruct (C14_x_to_move_partial m m' Wv Tv) as (s & E & D). exists s. split; auto. split; auto. split; discriminate.
  - pose proof Wv as (p & -> & W). rewrite board_of_tag in *.
    exists (fibs_out p). split; [destruct k; apply (fibs_encode_ret m W)|]. split; [discriminate|].
    rewrite (fibs_decode_out m' k W), Tv. unfold fibs_finish. rewrite (try_from_wf m' W), bind_ret.
    change (str_eqb (lit "o") (lit "o")) with true. cbv iota.
    set (q := {| turn := true; pips := pips p; x_off := x_off p; o_off := o_off p |}).
    assert (Wq : wf (checkers k) q) by (destruct W; constructor; auto).
    rewrite (flip_ret m' Wq). unfold ebind. rewrite !bind_ret.
    change (x_off (flipP q)) with (o_off p). change (o_off (flipP q)) with (x_off p).
    split; intros _ X.
    + destruct (Z.eqb_spec (o_off p) (x_off p)); [congruence|]. reflexivity.
    + rewrite X, Z.eqb_refl. cbn [negb orb]. unfold map_ok. rewrite bind_ret. exists (flipP q).
      split; [reflexivity|]. split; [reflexivity|]. split; [rewrite flipP_length; apply W|]. split; [cbn; auto|]. split; [cbn; auto|].
      intros i Hi. rewrite pt_flipP by (try apply W; auto). reflexivity.
Qed.
(** So a position comes back exactly when x is to move or the board is its own mirror image. *)
Theorem C70_round_trip_iff : forall k v m m' s, vwf k v -> fibs_encode m v = Ret s ->
  (fibs_decode m' k s = Ret (inr v) <->
   turn (board_of v) = true \/
   (x_off (board_of v) = o_off (board_of v) /\ forall i, (i <= 25)%nat -> pt (board_of v) i = - pt (board_of v) (25 - i))).
Proof.
  intros k v m m' s Wv Es. destruct (C70_read_back m m' Wv) as (s' & E & A & B & C). rewrite Es in E. apply Ret_inj in E. subst s'.
  destruct (turn (board_of v)) eqn:Tv; [split; auto|].
  destruct (Z.eq_dec (x_off (board_of v)) (o_off (board_of v))) as [X|X].
  - destruct (C eq_refl X) as (q & D & Tq & Lq & Xq & Oq & Pq). rewrite D. pose proof Wv as (p & Ev & W). rewrite Ev, board_of_tag in *. split.
    + intros H. right. split; auto. apply Ret_inj in H. injection H as H. apply tag_inj in H. destruct H as (_ & <-). exact Pq.
    + intros [H|(_ & H)]; [discriminate|]. f_equal. f_equal. f_equal.
      assert (pips q = pips p).
      { apply nth_ext26; [auto|apply W|]. intros i Hi. fold (pt q i) (pt p i). rewrite Pq by lia. symmetry. apply H. lia. }
      destruct q as [tq pq xq oq], p as [tp pp xp op]. cbn in *. congruence.
  - rewrite (B eq_refl X). split; [discriminate|]. intros [H|(H & _)]; [discriminate|contradiction].
Qed.
Example C70_ex : exists s, fibs_encode Debug o_start = Ret s /\ exists w, fibs_decode Debug Hypergammon s = Ret (inr w).
Proof. eexists. split; [vm_compute; reflexivity|]. eexists. vm_compute. reflexivity. Qed.
