(** Property C80: the texts that are written, exactly.  Read with SpecWritten.v. *)
From Coq Require Import Strings.String Sorting.Sorted Permutation.
From Verif Require Import SpecWritten WrittenFacts PropEngine PropFibs PropXgid FibsFacts EngineFacts MoveTextFacts VariantFacts UbgiFacts PropIdentity.
Unset Implicit Arguments.
Open Scope Z_scope.

(** [format_xgid]. *)
Theorem C80_xgid : forall x s, xgid_ok x -> (format_xgid x = s <-> xgid_written s x).
Proof.
  intros x s ((LB & FB) & R1 & R2 & R3 & R4 & R5 & RD & R7 & R8). unfold format_xgid, format_board, xgid_written. cbv zeta.
  assert (F7 : fmt_uint (if xg_move_flag x then 1 else 0) = if xg_move_flag x then lit "1" else lit "0") by (destruct (xg_move_flag x); reflexivity).
  rewrite F7. split.
  - intros <-. do 8 eexists. split; [|repeat (split; [apply decimal_iff; [lia|reflexivity]|])].
    2: { split; [|split; [apply integer_iff; reflexivity|apply decimal_iff; [lia|reflexivity]]].
         instantiate (1 := match xg_dice x with XRolled d1 d2 => fmt_uint d1 ++ fmt_uint d2 | XDoubleOffered => lit "D" end).
         destruct (xg_dice x) as [a b|]; [|reflexivity]. destruct (RD a b eq_refl) as (A & B). cbn [dice_written].
         assert (D : forall d, 0 <= d <= 6 -> fmt_uint d = [48 + d]).
         { intros d Hd. symmetry. apply decimal_iff; [lia|]. split; [|intros H; cbn in H; f_equal; lia].
           exists [d]. split; [discriminate|]. split; [repeat constructor; lia|]. split; [reflexivity|cbn; lia]. }
         rewrite !D by auto. reflexivity. }
    cbn [join]. reflexivity.
  - intros (f1 & f2 & f3 & f4 & f5 & f6 & f8 & f9 & -> & D1 & D2 & D3 & D4 & D5 & D6 & D8 & D9).
    apply decimal_iff in D1, D2, D3, D4, D5, D9; try lia. apply integer_iff in D8. subst.
    assert (E6 : f6 = match xg_dice x with XRolled d1 d2 => fmt_uint d1 ++ fmt_uint d2 | XDoubleOffered => lit "D" end).
    { destruct (xg_dice x) as [a b|]; [|exact D6]. destruct (RD a b eq_refl) as (A & B). cbn [dice_written] in D6. rewrite D6.
      assert (D : forall d, 0 <= d <= 6 -> fmt_uint d = [48 + d]).
      { intros d Hd. symmetry. apply decimal_iff; [lia|]. split; [|intros H; cbn in H; f_equal; lia].
        exists [d]. split; [discriminate|]. split; [repeat constructor; lia|]. split; [reflexivity|cbn; lia]. }
      rewrite !D by auto. reflexivity. }
    rewrite E6. cbn [join]. reflexivity.
Qed.

(** FIBS: [encode] for every variant. *)
Lemma point_iff s n : s = point_out n <-> point_written s n.
Proof.
  unfold point_out, point_written. destruct (Z.ltb_spec 0 n) as [P|P]; [|destruct (Z.ltb_spec n 0) as [Q|Q]].
  - split.
    + intros ->. right. left. split; [auto|]. eexists. split; [reflexivity|]. unfold fmt_int. destruct (Z.ltb_spec n 0); [lia|].
      apply decimal_iff; [lia|reflexivity].
    + intros [(H & _)|[(_ & t & -> & D)|(H & _)]]; try lia. apply decimal_iff in D; [|lia]. subst t. unfold fmt_int.
      destruct (Z.ltb_spec n 0); [lia|reflexivity].
  - split.
    + intros ->. right. right. split; [auto|]. eexists. split; [reflexivity|]. unfold fmt_int. destruct (Z.ltb_spec (- n) 0); [lia|].
      apply decimal_iff; [lia|reflexivity].
    + intros [(H & _)|[(H & _)|(_ & t & -> & D)]]; try lia. apply decimal_iff in D; [|lia]. subst t. unfold fmt_int.
      destruct (Z.ltb_spec (- n) 0); [lia|reflexivity].
  - split; [intros ->; left; split; [lia|reflexivity]|]. intros [(_ & ->)|[(H & _)|(H & _)]]; [reflexivity|lia|lia].
Qed.
Theorem C80_fibs : forall k v m s, vwf k v -> (fibs_encode m v = Ret s <-> fibs_written s (board_of v)).
Proof.
  intros k v m s (p & -> & W). rewrite board_of_tag.
  assert (E : fibs_encode m (tag k p) = fibs_encode_position m p) by (destruct k; reflexivity).
  rewrite E, (fibs_encode_ret m W). pose proof (wf_xbar W) as XB. pose proof (wf_obar W) as OB. pose proof (wf_xoff W). pose proof (wf_ooff W).
  assert (L : fibs_out p = lit "turn=" ++ (if turn p then lit "x" else lit "o") ++ lit ";bar=x" ++ fmt_uint (pt p 25) ++ lit ",o" ++ fmt_uint (- pt p 0) ++
      lit ";off=x" ++ fmt_uint (x_off p) ++ lit ",o" ++ fmt_uint (o_off p) ++ lit ";points=" ++ join (lit ",") (map (fun i => point_out (pt p i)) (rev (seq 1 24)))).
  { unfold fibs_out, counts_out. change (lit ";bar=x") with (lit ";" ++ lit "bar=" ++ lit "x"). change (lit ";off=x") with (lit ";" ++ lit "off=" ++ lit "x").
    change (lit ";points=") with (lit ";" ++ lit "points="). change (lit ",o") with (lit "," ++ lit "o").
    generalize (map (fun i => point_out (pt p i)) (rev (seq 1 24))). intros l. cbn [join]. rewrite <- !app_assoc. reflexivity. }
  split.
  - intros H1. apply Ret_inj in H1. subst s. rewrite L. do 5 eexists. split; [reflexivity|].
    repeat (split; [apply decimal_iff; [lia|reflexivity]|]). split; [reflexivity|]. intros i Hi. apply point_iff.
    do 24 (destruct i as [|i]; [reflexivity|]). lia.
  - intros (xb & ob & xo & oo & ws & -> & D1 & D2 & D3 & D4 & LW & PW). apply decimal_iff in D1, D2, D3, D4; try lia. subst.
    rewrite L. enough (map (fun i => point_out (pt p i)) (rev (seq 1 24)) = ws) as -> by reflexivity.
    apply nth_ext with (d := []) (d' := []); [rewrite LW; reflexivity|]. intros i Hi. rewrite map_length in Hi. change (i < 24)%nat in Hi.
    specialize (PW i Hi). apply point_iff in PW. rewrite PW. do 24 (destruct i as [|i]; [reflexivity|]). lia.
Qed.

(** [format_move_steps]. *)
Lemma end_iff s n : (n <= 25)%nat -> (s = point_to_text n <-> end_written s n).
Proof.
  intros Hn. unfold point_to_text, end_written. destruct (Nat.eqb_spec n 25) as [->|A]; [|destruct (Nat.eqb_spec n 0) as [->|B]].
  - split; [auto|]. intros [(_ & ->)|[(H & _)|(H & _)]]; [reflexivity|discriminate|lia].
  - split; [auto|]. intros [(H & _)|[(_ & ->)|(H & _)]]; [discriminate|reflexivity|lia].
  - rewrite decimal_iff by lia. split; [intros D; right; right; split; [lia|exact D]|]. intros [(H & _)|[(H & _)|(_ & D)]]; [lia|lia|exact D].
Qed.
Theorem C80_moves : forall steps s, Forall on_board steps -> (format_move_steps steps = s <-> steps_written s steps).
Proof.
  intros steps s F.
  assert (P : forall w, (w = map (fun st => pair_text (ms_from st) (ms_to st)) steps <-> Forall2 step_written w steps)).
  { clear s. induction F as [|st steps (H1 & H2) F IH]; intros w; cbn [map].
    - split; [intros ->; constructor|]. intros I. inversion I. reflexivity.
    - split.
      + intros ->. constructor; [|apply IH; reflexivity]. unfold pair_text. do 2 eexists. split; [reflexivity|]. split; apply end_iff; auto; lia.
      + intros I. inversion I as [|a ? w' ? (x & y & -> & A & B) I']; subst. apply end_iff in A, B; try lia. subst. apply IH in I'. subst. reflexivity. }
  unfold format_move_steps, steps_written. destruct steps as [|st steps].
  - split; [intros <-; auto|]. intros [(_ & ->)|(H & _)]; congruence.
  - split.
    + intros <-. right. split; [discriminate|]. eexists. split; [reflexivity|]. apply P. reflexivity.
    + intros [(H & _)|(_ & ws & -> & H)]; [discriminate|]. apply P in H. rewrite H. reflexivity.
Qed.

(** Key lines and option values. *)
Theorem C80_key_lines : forall o s, to_key_line o = s <-> key_line_written s o.
Proof.
  intros o s.
  assert (M : forall b mi, with_minor b mi = b ++ minor_mark mi) by (intros b []; cbn; [reflexivity|symmetry; apply app_nil_r]).
  destruct o as [key mn mx d mi|key d mi|key cs d mi|key d mi]; cbn [to_key_line key_line_written]; rewrite M.
  2-4: rewrite <- !app_assoc; split; congruence.
  assert (U : forall a b d' , exists ta tb td, ta = fmt_int a /\ tb = fmt_int b /\ td = fmt_int d') by (intros; repeat eexists).
  destruct mn as [a|], mx as [b|]; rewrite <- !app_assoc.
  - split.
    + intros <-. do 3 eexists. repeat (split; [apply integer_iff; reflexivity|]). reflexivity.
    + intros (ta & tb & td & A & B & D & ->). apply integer_iff in A, B, D. subst. reflexivity.
  - split; [intros <-; eexists; split; [apply integer_iff; reflexivity|reflexivity]|]. intros (td & D & ->). apply integer_iff in D. subst. reflexivity.
  - split; [intros <-; eexists; split; [apply integer_iff; reflexivity|reflexivity]|]. intros (td & D & ->). apply integer_iff in D. subst. reflexivity.
  - split; [intros <-; eexists; split; [apply integer_iff; reflexivity|reflexivity]|]. intros (td & D & ->). apply integer_iff in D. subst. reflexivity.
Qed.
Theorem C80_values : forall v s, to_wire v = s <-> value_written s v.
Proof.
  intros [n|b|t|t] s; cbn [to_wire value_written]; try (split; congruence). rewrite <- integer_iff. split; congruence.
Qed.

(** [format_engine_spec]. *)
Definition ordered {A} (R : A -> A -> Prop) (l : list A) : Prop := forall a x b y c, l = a ++ x :: b ++ y :: c -> R x y.
Lemma ordered_iff {A} (R : A -> A -> Prop) l : ordered R l <-> StronglySorted R l.
Proof.
  split.
  - induction l as [|x l IH]; intros O; constructor.
    + apply IH. intros a u b w c E. apply (O (x :: a) u b w c). cbn. rewrite E. reflexivity.
    + apply Forall_forall. intros y I. apply in_split in I. destruct I as (b & c & ->). apply (O [] x b y c). reflexivity.
  - induction 1 as [|x l S IH F]; intros a u b w c E.
    + destruct a; discriminate.
    + destruct a as [|z a]; cbn in E; inversion E; subst.
      * rewrite Forall_forall in F. apply F. apply in_app_iff. right. left. reflexivity.
      * apply (IH a u b w c). reflexivity.
Qed.
Lemma perm_ordered {A} (R : A -> A -> Prop) : (forall x y, R x y -> R y x -> False) -> forall l l', StronglySorted R l -> StronglySorted R l' ->
  Permutation l l' -> l = l'.
Proof.
  intros As. induction l as [|x l IH]; intros [|y l'] S S' P.
  - reflexivity.
  - apply Permutation_nil in P. discriminate.
  - apply Permutation_sym, Permutation_nil in P. discriminate.
  - inversion S as [|? ? S1 F1]; inversion S' as [|? ? S2 F2]; subst. rewrite Forall_forall in F1, F2.
    assert (x = y) as ->.
    { assert (Ix : In x (y :: l')) by (eapply Permutation_in; [exact P|left; reflexivity]).
      assert (Iy : In y (x :: l)) by (eapply Permutation_in; [apply Permutation_sym, P|left; reflexivity]).
      destruct Ix as [->|Ix]; [reflexivity|]. destruct Iy as [->|Iy]; [reflexivity|]. exfalso. apply (As x y); auto. }
    f_equal. apply IH; auto. eapply Permutation_cons_inv; exact P.
Qed.
Lemma rank_fun a i j : rank a i -> rank a j -> i = j.
Proof.
  assert (lit "engine.ply" <> lit "engine.top_k") by (intros H; discriminate H).
  intros [(H1 & ->)|[(H1 & ->)|(H1 & H2 & ->)]] [(H3 & ->)|[(H3 & ->)|(H3 & H4 & ->)]]; try reflexivity; congruence.
Qed.
Lemma shown_asym a b : shown_before a b -> shown_before b a -> False.
Proof.
  intros (i & j & A & B & H) (j' & i' & B' & A' & H'). rewrite (rank_fun _ _ _ A' A), (rank_fun _ _ _ B' B) in H'.
  destruct H as [H|(-> & H)], H' as [H'|(E & H')]; try lia. apply str_cmp_lt in H, H'.
  exact (str_cmp_irrefl _ (str_cmp_trans _ _ _ H H')).
Qed.
Lemma prefixed_times n t : prefixed n t = times n (lit "engine.") ++ t.
Proof. induction n as [|n IH]; [reflexivity|]. cbn [prefixed times]. rewrite IH, app_assoc. reflexivity. Qed.
Lemma prefixed_fun n t : forall n' t', prefixed n t = prefixed n' t' -> (forall u, t <> lit "engine." ++ u) -> (forall u, t' <> lit "engine." ++ u) -> t = t'.
Proof.
  induction n as [|n IH]; intros [|n'] t' E N N'; cbn [prefixed] in E; [exact E|elim (N _ E)|elim (N' _ (eq_sym E))|].
  apply app_inv_head in E. eauto.
Qed.
Lemma shown_iff s b : s = shown_option b <-> option_written s b.
Proof.
  unfold shown_option, option_written. destruct (@tsm (lit "engine.") (fst b) ltac:(discriminate)) as (n & E & F). split.
  - intros ->. exists n. eexists. rewrite prefixed_times. split; [exact E|]. split; [|reflexivity].
    intros u Eu. rewrite (proj2 (starts_with_iff _ _) (ex_intro _ u Eu)) in F. discriminate.
  - intros (n' & t & E' & N & ->). enough (trim_start_matches (lit "engine.") (fst b) = t) as -> by reflexivity.
    rewrite <- prefixed_times in E. rewrite E' in E at 1. symmetry. eapply prefixed_fun; [exact E|exact N|].
    intros u Eu. rewrite (proj2 (starts_with_iff _ _) (ex_intro _ u Eu)) in F. discriminate.
Qed.
Lemma rank_of k : rank k (if str_eqb k (lit "engine.ply") then 0 else if str_eqb k (lit "engine.top_k") then 1 else 2)%nat.
Proof.
  destruct (str_eqb k (lit "engine.ply")) eqn:A; [left; split; [apply str_eqb_eq, A|reflexivity]|].
  destruct (str_eqb k (lit "engine.top_k")) eqn:B; [right; left; split; [apply str_eqb_eq, B|reflexivity]|].
  right. right. apply str_eqb_neq in A, B. auto.
Qed.
Lemma order_sorted m : sorted m -> StronglySorted (fun x y => shown_before (fst x) (fst y)) (order m).
Proof.
  intros S. unfold order, picked.
  set (rest := filter _ m).
  assert (Hr : forall x, In x rest -> rank (fst x) 2).
  { intros x I. unfold rest in I. apply filter_In in I. destruct I as (_ & I). apply negb_true_iff, orb_false_iff in I. rewrite !str_eqb_neq in I.
    right. right. tauto. }
  assert (SR : StronglySorted (fun x y => shown_before (fst x) (fst y)) rest).
  { assert (SK : StronglySorted key_lt rest).
    { unfold rest. clear -S. induction S as [|x m S IH F]; cbn [filter]; [constructor|]. destruct (negb _); [|exact IH].
      constructor; [exact IH|]. rewrite Forall_forall in *. intros y I. apply filter_In in I. apply F. tauto. }
    clear -SK Hr. induction SK as [|x l SK IH F]; constructor.
    - apply IH. intros y I. apply Hr. right. exact I.
    - rewrite Forall_forall in *. intros y I. exists 2%nat, 2%nat. split; [apply Hr; left; reflexivity|]. split; [apply Hr; right; exact I|].
      right. split; [reflexivity|]. apply str_cmp_lt. apply F. exact I. }
  assert (R0 : rank (lit "engine.ply") 0) by (left; auto). assert (R1 : rank (lit "engine.top_k") 1) by (right; left; auto).
  assert (ST : StronglySorted (fun x y => shown_before (fst x) (fst y)) (match btree_get (lit "engine.top_k") m with Some v => [(lit "engine.top_k", v)] | None => [] end ++ rest)).
  { destruct (btree_get (lit "engine.top_k") m); [|exact SR]. cbn [app]. constructor; [exact SR|]. apply Forall_forall. intros y I.
    exists 1%nat, 2%nat. cbn [fst]. split; [exact R1|]. split; [apply Hr, I|]. left. lia. }
  destruct (btree_get (lit "engine.ply") m) as [v|]; [|exact ST]. cbn [app]. constructor; [exact ST|]. apply Forall_forall. intros y I.
  apply in_app_iff in I. exists 0%nat. destruct I as [I|I].
  - destruct (btree_get (lit "engine.top_k") m); [|destruct I]. destruct I as [<-|[]]. exists 1%nat. cbn [fst]. split; [exact R0|]. split; [exact R1|]. left. lia.
  - exists 2%nat. cbn [fst]. split; [exact R0|]. split; [apply Hr, I|]. left. lia.
Qed.
Theorem C80_engine_spec : forall e s, in_key_order (es_options e) -> (format_engine_spec e = s <-> spec_written s e).
Proof.
  intros e s O. apply sorted_order in O. rewrite format_order. cbv zeta.
  assert (P : Permutation (order (es_options e)) (es_options e)).
  { apply NoDup_Permutation.
    - eapply NoDup_map_inv. apply order_nodup, O.
    - eapply NoDup_map_inv. apply sorted_nodup, O.
    - intros x. apply PropEngine.in_order, O. }
  assert (W : forall l ws, ws = map shown_option l <-> Forall2 option_written ws l).
  { clear. induction l as [|x l IH]; intros ws; cbn [map].
    - split; [intros ->; constructor|]. intros I. inversion I. reflexivity.
    - split; [intros ->; constructor; [apply shown_iff; reflexivity|apply IH; reflexivity]|].
      intros I. inversion I as [|a ? w' ? A I']; subst. apply shown_iff in A. apply IH in I'. subst. reflexivity. }
  assert (B : forall es ws, es = order (es_options e) -> ws = map shown_option es ->
    match order (es_options e) with
    | [] => match es_version e with Some v => es_alias e ++ lit "@" ++ v | None => es_alias e end
    | _ :: _ => match es_version e with Some v => es_alias e ++ lit "@" ++ v | None => es_alias e end ++ lit ":" ++ join (lit ",") (map shown_option (order (es_options e)))
    end = es_alias e ++ (match es_version e with Some v => lit "@" ++ v | None => [] end) ++ (match es with [] => [] | _ => lit ":" ++ join (lit ",") ws end)).
  { intros es ws -> ->. destruct (order (es_options e)) as [|x l]; destruct (es_version e); cbn [app]; rewrite ?app_nil_r; rewrite <- ?app_assoc; reflexivity. }
  split.
  - intros <-. exists (order (es_options e)), (map shown_option (order (es_options e))). split; [exact P|].
    split; [apply (ordered_iff (fun x y => shown_before (fst x) (fst y))), order_sorted, O|]. split; [apply W; reflexivity|]. apply B; reflexivity.
  - intros (es & ws & P' & O' & W' & ->). apply W in W'. apply B; [|exact W'].
    apply (@perm_ordered _ (fun x y => shown_before (fst x) (fst y))).
    + intros x y. apply shown_asym.
    + apply ordered_iff. exact O'.
    + apply order_sorted, O.
    + eapply perm_trans; [exact P'|apply Permutation_sym, P].
Qed.
(** Parsed specs meet the hypothesis. *)
Theorem C80_engine_spec_parsed : forall t e, parse_engine_spec t = inr e -> in_key_order (es_options e).
Proof. intros t e E. apply C47_parse_exact in E. destruct E as (es & _ & O & _). exact O. Qed.

(** Examples. *)
Example C80_decimal_case : decimal (lit "207") 207 /\ ~ decimal (lit "0207") 207 /\ integer (lit "-1") (-1).
Proof.
  split; [apply decimal_iff; [lia|reflexivity]|]. split; [|apply integer_iff; reflexivity].
  intros (_ & H). specialize (H eq_refl). discriminate.
Qed.
Example C80_fibs_case : fibs_written (lit "turn=o;bar=x0,o0;off=x2,o0;points=-,-,-,-,-,-,-,-,-,-,-,-,-,-,-,-,-,o3,-,-,-,x1,-,-") (board_of o_one) /\ vwf Hypergammon o_one.
Proof.
  assert (V : vwf Hypergammon o_one). { eexists. split; [reflexivity|]. constructor; try (vm_compute; congruence); cbv; intuition congruence. }
  split; [|exact V]. apply (C80_fibs Hypergammon o_one Debug _ V). vm_compute. reflexivity.
Qed.
Example C80_xgid_case : xgid_written (lit "XGID=-b----E-C---eE---c-e----B-:10:7:1:3:0:61:1:-1:2") ex_xgid.
Proof. apply C80_xgid; [exact (proj1 C13_example)|]. exact (proj1 (proj2 C13_example)). Qed.
Example C80_moves_case : steps_written (lit "bar/20 13/7 3/off") [step 25 20; step 13 7; step 3 0].
Proof. apply C80_moves; [repeat constructor|reflexivity]. Qed.
Example C80_spec_case : exists e, parse_engine_spec (lit "hawk@v1.3: engine.engine.x=1,threads=4,top_k=8,ply=2") = inr e /\ spec_written (lit "hawk@v1.3:ply=2,top_k=8,x=1,threads=4") e.
Proof.
  eexists. split; [vm_compute; reflexivity|]. apply C80_engine_spec; [|vm_compute; reflexivity].
  eapply (C80_engine_spec_parsed (lit "hawk@v1.3: engine.engine.x=1,threads=4,top_k=8,ply=2")). vm_compute. reflexivity.
Qed.
Example C80_key_line_case : key_line_written (lit "key engine.ply int -1..4 2 !") (OInteger (lit "engine.ply") (Some (-1)) (Some 4) 2 true).
Proof. apply C80_key_lines. reflexivity. Qed.
