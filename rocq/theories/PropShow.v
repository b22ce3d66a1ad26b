(** Property C53: the board drawing.  Read with SpecShow.v. *)
From Coq Require Import Strings.String.
From Verif Require Import SpecShow Show SpecVariants SpecGame BaseFacts MoveFacts GameFacts VariantFacts EqFacts StrFacts PropIdentity.
From Verif Require Import Variants.
Open Scope Z_scope.

(** ** Cells *)
Lemma fmt_small a : 0 <= a < 100 ->
  fmt_int a = if a <? 10 then [48 + a] else [48 + a / 10; 48 + a mod 10].
Proof.
  intros H.
  assert (E : forallb (fun a => str_eqb (fmt_int a) (if a <? 10 then [48 + a] else [48 + a / 10; 48 + a mod 10]))
               (map Z.of_nat (seq 0 100)) = true) by (vm_compute; reflexivity).
  rewrite forallb_forall in E.
  assert (I : In a (map Z.of_nat (seq 0 100))).
  { apply in_map_iff. exists (Z.to_nat a). split; [lia|]. apply in_seq. lia. }
  specialize (E a I). apply str_eqb_eq in E. exact E.
Qed.

Lemma print_point_ret m v h : -99 <= v <= 99 -> (h < 5)%nat -> print_point m v (Z.of_nat h) = Ret (picture v h).
Proof.
  intros V H. unfold print_point, picture.
  assert (R : (Z.of_nat h =? 4) = (h =? 4)%nat).
  { destruct (Nat.eqb_spec h 4); [subst; reflexivity|]. apply Z.eqb_neq. lia. }
  rewrite R. destruct (h =? 4)%nat eqn:E4; cbn [andb].
  - rewrite i8_ret by lia. cbn [bind].
    rewrite (Z.ltb_antisym 10 (Z.abs v)).
    destruct (Z.ltb_spec 9 (Z.abs v)).
    + destruct (Z.ltb_spec 5 (Z.abs v)); [|lia]. rewrite (proj2 (Z.leb_le 10 (Z.abs v))) by lia. cbn [negb].
      rewrite fmt_small by lia. rewrite (proj2 (Z.ltb_ge (Z.abs v) 10)) by lia. reflexivity.
    + destruct (Z.ltb_spec 5 (Z.abs v)).
      * rewrite (proj2 (Z.leb_gt 10 (Z.abs v))) by lia. cbn [negb].
        rewrite fmt_small by lia. rewrite (proj2 (Z.ltb_lt (Z.abs v) 10)) by lia. reflexivity.
      * destruct (Z.of_nat h <? v); auto. destruct (v <? - Z.of_nat h); auto.
  - cbn [bind]. destruct (Z.of_nat h <? v); auto. destruct (v <? - Z.of_nat h); auto.
Qed.

Lemma picture_len v h : List.length (picture v h) = 3%nat.
Proof.
  unfold picture. destruct ((h =? 4)%nat && (5 <? Z.abs v)).
  - destruct (Z.abs v <? 10); reflexivity.
  - destruct (Z.of_nat h <? v); [reflexivity|]. destruct (v <? - Z.of_nat h); reflexivity.
Qed.

(** The five cells of a stack determine the stack. *)
Lemma picture_inj v w : -99 <= v <= 99 -> -99 <= w <= 99 ->
  (forall h, (h < 5)%nat -> picture v h = picture w h) -> v = w.
Proof.
  intros V W H.
  pose proof (H 0%nat ltac:(lia)) as H0. pose proof (H 1%nat ltac:(lia)) as H1.
  pose proof (H 2%nat ltac:(lia)) as H2. pose proof (H 3%nat ltac:(lia)) as H3.
  pose proof (H 4%nat ltac:(lia)) as H4. clear H.
  unfold picture in *. cbn [Nat.eqb andb Z.of_nat] in *.
  change (Z.of_nat 1) with 1 in *. change (Z.of_nat 2) with 2 in *.
  change (Z.of_nat 3) with 3 in *. change (Z.of_nat 4) with 4 in *.
  change (Z.of_nat 0) with 0 in *.
  change (0 =? 4)%nat with false in *. change (1 =? 4)%nat with false in *. change (2 =? 4)%nat with false in *.
  change (3 =? 4)%nat with false in *. change (4 =? 4)%nat with true in *. cbn [andb] in *.
  change (- 0) with 0 in *. change (- (4)) with (-4) in *.
  change (lit " X ") with [32; 88; 32] in *. change (lit " O ") with [32; 79; 32] in *.
  change (lit "   ") with [32; 32; 32] in *.
  assert (S : (0 <? v) = (0 <? w) /\ (v <? 0) = (w <? 0)).
  { destruct (Z.ltb_spec 0 v), (Z.ltb_spec 0 w), (Z.ltb_spec v 0), (Z.ltb_spec w 0); try lia; auto; discriminate H0. }
  destruct S as (S1 & S2).
  destruct (Z.ltb_spec 5 (Z.abs v)) as [Bv|Bv], (Z.ltb_spec 5 (Z.abs w)) as [Bw|Bw].
  - assert (A : Z.abs v = Z.abs w).
    { destruct (Z.ltb_spec (Z.abs v) 10), (Z.ltb_spec (Z.abs w) 10).
      - injection H4. lia.
      - exfalso. injection H4 as A B. pose proof (Z.mod_pos_bound (Z.abs w) 10 ltac:(lia)).
        assert (1 <= Z.abs w / 10) by (apply Z.div_le_lower_bound; lia). lia.
      - exfalso. injection H4 as A B.
        assert (1 <= Z.abs v / 10) by (apply Z.div_le_lower_bound; lia). lia.
      - injection H4. intros A B. rewrite (Z.div_mod (Z.abs v) 10), (Z.div_mod (Z.abs w) 10) by lia. lia. }
    destruct (Z.ltb_spec 0 v), (Z.ltb_spec 0 w), (Z.ltb_spec v 0), (Z.ltb_spec w 0); try discriminate; lia.
  - exfalso. destruct (Z.ltb_spec (Z.abs v) 10).
    + destruct (4 <? w); [injection H4; lia|]. destruct (w <? -4); injection H4; lia.
    + assert (1 <= Z.abs v / 10 <= 9) by (split; [apply Z.div_le_lower_bound|apply Z.lt_succ_r, Z.div_lt_upper_bound]; lia).
      destruct (4 <? w); [injection H4; lia|]. destruct (w <? -4); injection H4; lia.
  - exfalso. destruct (Z.ltb_spec (Z.abs w) 10).
    + destruct (4 <? v); [injection H4; lia|]. destruct (v <? -4); injection H4; lia.
    + assert (1 <= Z.abs w / 10 <= 9) by (split; [apply Z.div_le_lower_bound|apply Z.lt_succ_r, Z.div_lt_upper_bound]; lia).
      destruct (4 <? v); [injection H4; lia|]. destruct (v <? -4); injection H4; lia.
  - clear S1 S2.
    assert (Ev : v = -5 \/ v = -4 \/ v = -3 \/ v = -2 \/ v = -1 \/ v = 0 \/ v = 1 \/ v = 2 \/ v = 3 \/ v = 4 \/ v = 5) by lia.
    assert (Ew : w = -5 \/ w = -4 \/ w = -3 \/ w = -2 \/ w = -1 \/ w = 0 \/ w = 1 \/ w = 2 \/ w = 3 \/ w = 4 \/ w = 5) by lia.
    repeat (destruct Ev as [Ev|Ev]); repeat (destruct Ew as [Ew|Ew]); subst; try reflexivity;
      first [discriminate H0 | discriminate H1 | discriminate H2 | discriminate H3 | discriminate H4].
Qed.

(** ** Lines *)
Definition row_text (c : nat -> str) : str :=
  box "|" ++ c 0%nat ++ c 1%nat ++ c 2%nat ++ c 3%nat ++ c 4%nat ++ c 5%nat ++ box "|" ++ c 6%nat ++ box "|"
  ++ c 7%nat ++ c 8%nat ++ c 9%nat ++ c 10%nat ++ c 11%nat ++ c 12%nat ++ box "|" ++ c 13%nat ++ box "|".
Definition cell_column (j : nat) : nat :=
  nth j [1; 4; 7; 10; 13; 16; 20; 24; 27; 30; 33; 36; 39; 43]%nat O.
Lemma len3 (l : str) : List.length l = 3%nat -> exists a b c, l = [a; b; c].
Proof. destruct l as [|a [|b [|c [|]]]]; try discriminate. eauto. Qed.
Lemma row_text_read c : (forall j, List.length (c j) = 3%nat) ->
  List.length (row_text c) = 47%nat /\
  forall j, (j < 14)%nat -> firstn 3 (skipn (cell_column j) (row_text c)) = c j.
Proof.
  intros H. unfold row_text.
  destruct (len3 _ (H 0%nat)) as (? & ? & ? & E0), (len3 _ (H 1%nat)) as (? & ? & ? & E1),
    (len3 _ (H 2%nat)) as (? & ? & ? & E2), (len3 _ (H 3%nat)) as (? & ? & ? & E3),
    (len3 _ (H 4%nat)) as (? & ? & ? & E4), (len3 _ (H 5%nat)) as (? & ? & ? & E5),
    (len3 _ (H 6%nat)) as (? & ? & ? & E6), (len3 _ (H 7%nat)) as (? & ? & ? & E7),
    (len3 _ (H 8%nat)) as (? & ? & ? & E8), (len3 _ (H 9%nat)) as (? & ? & ? & E9),
    (len3 _ (H 10%nat)) as (? & ? & ? & E10), (len3 _ (H 11%nat)) as (? & ? & ? & E11),
    (len3 _ (H 12%nat)) as (? & ? & ? & E12), (len3 _ (H 13%nat)) as (? & ? & ? & E13).
  rewrite E0, E1, E2, E3, E4, E5, E6, E7, E8, E9, E10, E11, E12, E13.
  split; [reflexivity|]. intros j J.
  destruct j as [|[|[|[|[|[|[|[|[|[|[|[|[|[|]]]]]]]]]]]]]]; try lia; symmetry; assumption.
Qed.

(** The stacks of a row, left to right. *)
Definition up_stack (j : nat) : stack :=
  nth j [OnPoint 13; OnPoint 14; OnPoint 15; OnPoint 16; OnPoint 17; OnPoint 18; BarO;
         OnPoint 19; OnPoint 20; OnPoint 21; OnPoint 22; OnPoint 23; OnPoint 24; OffO] BarX.
Definition low_stack (j : nat) : stack :=
  nth j [OnPoint 12; OnPoint 11; OnPoint 10; OnPoint 9; OnPoint 8; OnPoint 7; BarX;
         OnPoint 6; OnPoint 5; OnPoint 4; OnPoint 3; OnPoint 2; OnPoint 1; OffX] BarX.
Definition up_line (p : position) (h : nat) : str := row_text (fun j => picture (on_stack p (up_stack j)) h).
Definition low_line (p : position) (h : nat) : str := row_text (fun j => picture (on_stack p (low_stack j)) h).

Lemma stack_bounds N p s : wf N p -> N <= 99 -> is_stack s -> -99 <= on_stack p s <= 99.
Proof.
  intros W H S. pose proof (wf_off_bounds W) as B.
  assert (P : forall i, (i < 26)%nat -> -99 <= pt p i <= 99).
  { intros i I. pose proof (wf_pt1_x W I). pose proof (wf_pt1_o W I). lia. }
  destruct s as [i| | | |]; cbn [on_stack is_stack] in *; try apply P; lia.
Qed.

Lemma pip_ret p i : List.length (pips p) = 26%nat -> (i < 26)%nat -> pip p i = Ret (pt p i).
Proof. intros L I. unfold pip, pt. apply index_ret. lia. Qed.
Lemma xbar_ret N p : wf N p -> x_bar p = Ret (pt p 25).
Proof.
  intros W. unfold x_bar. fold (pip p X_BAR). rewrite pip_ret by (try apply W; unfold X_BAR; lia). cbn [bind].
  pose proof (wf_xbar W). pose proof (wf_pt_bounds 25 W). rewrite as_u8_id by (unfold X_BAR; lia). reflexivity.
Qed.

Lemma upper_row_ret m N p h : wf N p -> N <= 99 -> (h < 5)%nat ->
  upper_row m p (Z.of_nat h) = Ret (up_line p h ++ [10]).
Proof.
  intros W H Hh. unfold upper_row.
  rewrite (mflat_map_ret _ (fun i => if (i =? 18)%nat
     then picture (pt p i) h ++ box "|" ++ picture (pt p 0) h ++ box "|" else picture (pt p i) h)).
  - cbn [bind]. pose proof (wf_off_bounds W) as B. pose proof (wf_N W).
    rewrite as_i8_id by lia. rewrite i8_ret by lia. cbn [bind]. rewrite print_point_ret by lia. cbn [bind].
    f_equal. unfold up_line, row_text, up_stack. cbn [nth on_stack].
    change (range 13 25) with [13; 14; 15; 16; 17; 18; 19; 20; 21; 22; 23; 24]%nat.
    cbv beta iota delta [flat_map Nat.eqb]. rewrite <- !app_assoc. cbn [app]. rewrite <- ?app_assoc. reflexivity.
  - intros i I. apply in_range in I. rewrite pip_ret by (try apply W; lia). cbn [bind].
    pose proof (@stack_bounds N p (OnPoint i) W H ltac:(cbn; lia)) as Bi. cbn [on_stack] in Bi.
    rewrite print_point_ret by lia. cbn [bind]. destruct (i =? 18)%nat; [|reflexivity].
    rewrite (obar_ret m W). cbn [bind].
    pose proof (@stack_bounds N p BarO W H Logic.I) as B0. cbn [on_stack] in B0.
    rewrite as_i8_id by lia. rewrite i8_ret by lia. cbn [bind]. rewrite Z.opp_involutive.
    rewrite print_point_ret by lia. reflexivity.
Qed.

Lemma lower_row_ret m N p h : wf N p -> N <= 99 -> (h < 5)%nat ->
  lower_row m p (Z.of_nat h) = Ret (low_line p h ++ [10]).
Proof.
  intros W H Hh. unfold lower_row.
  rewrite (mflat_map_ret _ (fun i => (if (i =? 6)%nat
     then box "|" ++ picture (pt p 25) h ++ box "|" else []) ++ picture (pt p i) h)).
  - cbn [bind]. pose proof (wf_off_bounds W) as B. pose proof (wf_N W).
    rewrite as_i8_id by lia. rewrite print_point_ret by lia. cbn [bind].
    f_equal. unfold low_line, row_text, low_stack. cbn [nth on_stack].
    change (rev (range 1 13)) with [12; 11; 10; 9; 8; 7; 6; 5; 4; 3; 2; 1]%nat.
    cbv beta iota delta [flat_map Nat.eqb]. rewrite <- !app_assoc. cbn [app]. rewrite <- ?app_assoc. reflexivity.
  - intros i I. apply in_rev, in_range in I.
    pose proof (@stack_bounds N p (OnPoint i) W H ltac:(cbn; lia)) as Bi. cbn [on_stack] in Bi.
    pose proof (@stack_bounds N p BarX W H Logic.I) as B0. cbn [on_stack] in B0.
    destruct (i =? 6)%nat.
    + rewrite (xbar_ret W). cbn [bind]. rewrite as_i8_id by lia. rewrite print_point_ret by lia. cbn [bind].
      rewrite pip_ret by (try apply W; lia). cbn [bind]. rewrite print_point_ret by lia. reflexivity.
    + cbn [bind]. rewrite pip_ret by (try apply W; lia). cbn [bind]. rewrite print_point_ret by lia. reflexivity.
Qed.

Definition lines_of (p : position) : list str :=
  box "r13-14-15-16-17-18-T---T19-20-21-22-23-24-T---q" :: up_line p 0 :: up_line p 1 :: up_line p 2 :: up_line p 3 :: up_line p 4 ::
  box "|                  |BAR|                  |OFF|" ::
  low_line p 4 :: low_line p 3 :: low_line p 2 :: low_line p 1 :: low_line p 0 ::
  [box "L12-11-10--9--8--7-Y---Y-6--5--4--3--2--1-Y---J"].

Lemma show_ret m N p : wf N p -> N <= 99 -> show m p = Ret (drawing (lines_of p)).
Proof.
  intros W H. unfold show.
  rewrite (mflat_map_ret _ (fun h => up_line p (Z.to_nat h) ++ [10])).
  2:{ intros h I. replace h with (Z.of_nat (Z.to_nat h)) at 1 by (cbn in I; lia).
      apply (upper_row_ret m (N := N)); auto. cbn in I; lia. }
  cbn [bind]. rewrite (mflat_map_ret _ (fun h => low_line p (Z.to_nat h) ++ [10])).
  2:{ intros h I. replace h with (Z.of_nat (Z.to_nat h)) at 1 by (cbn in I; lia).
      apply (lower_row_ret m (N := N)); auto. cbn in I; lia. }
  cbn [bind]. f_equal. unfold drawing, lines_of. cbn [flat_map].
  change (Z.to_nat 0) with 0%nat. change (Z.to_nat 1) with 1%nat. change (Z.to_nat 2) with 2%nat.
  change (Z.to_nat 3) with 3%nat. change (Z.to_nat 4) with 4%nat.
  rewrite <- !app_assoc. cbn [app]. rewrite <- ?app_assoc. reflexivity.
Qed.

(** The stacks found by their place. *)
Lemma up_line_read p h s : is_stack s -> upper s = true ->
  firstn 3 (skipn (column s) (up_line p h)) = picture (on_stack p s) h.
Proof.
  intros S U. unfold up_line.
  destruct (@row_text_read (fun j => picture (on_stack p (up_stack j)) h)) as (_ & R).
  { intros j. apply picture_len. }
  assert (J : exists j, (j < 14)%nat /\ column s = cell_column j /\ up_stack j = s).
  { destruct s as [i| | | |]; cbn [upper] in U; try discriminate.
    - cbn [is_stack] in S. apply Nat.leb_le in U.
      exists (if (19 <=? i)%nat then i - 12 else i - 13)%nat.
      do 13 (destruct i as [|i]; [lia|]).
      do 12 (destruct i as [|i]; [split; [vm_compute; lia|split; reflexivity]|]). lia.
    - exists 6%nat. split; [lia|split; reflexivity].
    - exists 13%nat. split; [lia|split; reflexivity]. }
  destruct J as (j & J & C & E). rewrite C, R by exact J. rewrite E. reflexivity.
Qed.
Lemma low_line_read p h s : is_stack s -> upper s = false ->
  firstn 3 (skipn (column s) (low_line p h)) = picture (on_stack p s) h.
Proof.
  intros S U. unfold low_line.
  destruct (@row_text_read (fun j => picture (on_stack p (low_stack j)) h)) as (_ & R).
  { intros j. apply picture_len. }
  assert (J : exists j, (j < 14)%nat /\ column s = cell_column j /\ low_stack j = s).
  { destruct s as [i| | | |]; cbn [upper] in U; try discriminate.
    - cbn [is_stack] in S. apply Nat.leb_gt in U.
      exists (if (7 <=? i)%nat then 12 - i else 13 - i)%nat.
      do 1 (destruct i as [|i]; [lia|]).
      do 12 (destruct i as [|i]; [split; [vm_compute; lia|split; reflexivity]|]). lia.
    - exists 6%nat. split; [lia|split; reflexivity].
    - exists 13%nat. split; [lia|split; reflexivity]. }
  destruct J as (j & J & C & E). rewrite C, R by exact J. rewrite E. reflexivity.
Qed.

Lemma lines_read p s h : is_stack s -> (h < 5)%nat -> drawn_at (lines_of p) s h = picture (on_stack p s) h.
Proof.
  intros S H. unfold drawn_at, line_of. destruct (upper s) eqn:U.
  - replace (nth (1 + h) (lines_of p) []) with (up_line p h); [apply up_line_read; auto|].
    do 5 (destruct h as [|h]; [reflexivity|]). lia.
  - replace (nth (11 - h) (lines_of p) []) with (low_line p h); [apply low_line_read; auto|].
    do 5 (destruct h as [|h]; [reflexivity|]). lia.
Qed.

Lemma lines_width p : Forall (fun l => List.length l = 47%nat) (lines_of p).
Proof.
  assert (U : forall h, List.length (up_line p h) = 47%nat).
  { intros h. apply row_text_read. intros j. apply picture_len. }
  assert (L : forall h, List.length (low_line p h) = 47%nat).
  { intros h. apply row_text_read. intros j. apply picture_len. }
  unfold lines_of. repeat (apply Forall_cons; [first [apply U | apply L | reflexivity]|]). apply Forall_nil.
Qed.

Lemma drawing_inj n a b : Forall (fun l => List.length l = n) a -> Forall (fun l => List.length l = n) b ->
  drawing a = drawing b -> a = b.
Proof.
  unfold drawing. revert b. induction a as [|x a IH]; intros [|y b] A B E; cbn [flat_map] in E; auto.
  - destruct y; discriminate.
  - destruct x; discriminate.
  - inversion A; inversion B; subst.
    rewrite <- !app_assoc in E. assert (L : List.length x = List.length y) by congruence.
    apply app_inj_len in E; auto. destruct E as (-> & E). cbn [app] in E. injection E as E. f_equal; auto.
Qed.

(** ** C53 *)

(** [show] prints 13 lines of 47 columns in which every stack is drawn at its place. *)
Theorem C53_drawing : forall m N p, wf N p -> N <= 99 ->
  exists lines, show m p = Ret (drawing lines) /\
    List.length lines = 13%nat /\ Forall (fun l => List.length l = 47%nat) lines /\
    forall s h, is_stack s -> (h < 5)%nat -> drawn_at lines s h = picture (on_stack p s) h.
Proof.
  intros m N p W H. exists (lines_of p). split; [apply (show_ret m W H)|]. split; [reflexivity|].
  split; [apply lines_width|]. intros s h S Hh. apply lines_read; auto.
Qed.

(** The frame around them: the border characters, the numbers of the points at the edge, and the middle line. *)
Lemma row_border c : (forall j, List.length (c j) = 3%nat) -> map (fun k => nth k (row_text c) 0) border_columns = [9474; 9474; 9474; 9474; 9474].
Proof.
  intros H. unfold row_text.
  destruct (len3 _ (H 0%nat)) as (? & ? & ? & E0), (len3 _ (H 1%nat)) as (? & ? & ? & E1),
    (len3 _ (H 2%nat)) as (? & ? & ? & E2), (len3 _ (H 3%nat)) as (? & ? & ? & E3),
    (len3 _ (H 4%nat)) as (? & ? & ? & E4), (len3 _ (H 5%nat)) as (? & ? & ? & E5),
    (len3 _ (H 6%nat)) as (? & ? & ? & E6), (len3 _ (H 7%nat)) as (? & ? & ? & E7),
    (len3 _ (H 8%nat)) as (? & ? & ? & E8), (len3 _ (H 9%nat)) as (? & ? & ? & E9),
    (len3 _ (H 10%nat)) as (? & ? & ? & E10), (len3 _ (H 11%nat)) as (? & ? & ? & E11),
    (len3 _ (H 12%nat)) as (? & ? & ? & E12), (len3 _ (H 13%nat)) as (? & ? & ? & E13).
  rewrite E0, E1, E2, E3, E4, E5, E6, E7, E8, E9, E10, E11, E12, E13. reflexivity.
Qed.
Theorem C53_frame : forall m N p, wf N p -> N <= 99 ->
  exists lines, show m p = Ret (drawing lines) /\
    List.length lines = 13%nat /\ Forall (fun l => List.length l = 47%nat) lines /\
    (forall k, (k < 13)%nat -> map (fun c => nth c (nth k lines []) 0) border_columns = border k) /\
    (forall s, is_stack s -> firstn 3 (skipn (column s) (nth (edge_line s) lines [])) = at_edge s) /\
    (forall s, is_stack s -> firstn 3 (skipn (column s) (nth 6 lines [])) = in_middle s).
Proof.
  intros m N p W H. exists (lines_of p). split; [apply (show_ret m W H)|]. split; [reflexivity|].
  split; [apply lines_width|]. split; [|split].
  - intros k K. do 13 (destruct k as [|k]; [try reflexivity; cbn [lines_of nth]; apply row_border; intros; apply picture_len|]). lia.
  - intros [i| | | |] S; try reflexivity. cbn [is_stack] in S.
    do 25 (destruct i as [|i]; [try lia; reflexivity|]). lia.
  - intros [i| | | |] S; try reflexivity. cbn [is_stack] in S.
    do 25 (destruct i as [|i]; [try lia; reflexivity|]). lia.
Qed.

(** Two positions are drawn alike exactly when they are equal. *)
Theorem C53_identifies : forall m N p q, wf N p -> wf N q -> N <= 99 ->
  exists s t, show m p = Ret s /\ show m q = Ret t /\ (s = t <-> equal_positions p q).
Proof.
  intros m N p q Wp Wq H. exists (drawing (lines_of p)), (drawing (lines_of q)).
  split; [apply (show_ret m Wp H)|]. split; [apply (show_ret m Wq H)|]. split.
  - intros E. apply (@drawing_inj 47) in E; try apply lines_width.
    assert (S : forall s, is_stack s -> on_stack p s = on_stack q s).
    { intros s Hs. apply picture_inj; [apply (stack_bounds s Wp H Hs)|apply (stack_bounds s Wq H Hs)|].
      intros h Hh. rewrite <- (lines_read p s Hs Hh), <- (lines_read q s Hs Hh), E. reflexivity. }
    unfold equal_positions. apply position_eqb_iff. split; [|split].
    + apply nth_ext26; try apply Wp; try apply Wq. intros i I. fold (pt p i) (pt q i).
      destruct (Nat.eq_dec i 0) as [->|]; [exact (S BarO Logic.I)|].
      destruct (Nat.eq_dec i 25) as [->|]; [exact (S BarX Logic.I)|]. apply (S (OnPoint i)). cbn. lia.
    + exact (S OffX Logic.I).
    + pose proof (S OffO Logic.I) as O. cbn [on_stack] in O. lia.
  - intros E. unfold equal_positions in E. apply position_eqb_iff in E. destruct E as (E1 & E2 & E3).
    pose proof (@show_ret m N p Wp H) as A. pose proof (@show_ret m N q Wq H) as B.
    destruct p as [tp pp xp op], q as [tq pq xq oq]. cbn in E1, E2, E3. subst. reflexivity.
Qed.

Example C53_ex : exists lines, show Debug BACKGAMMON = Ret (drawing lines) /\
  nth 1 lines [] = box "| X           O    |   | O              X |   |" /\
  nth 2 lines [] = box "| X           O    |   | O              X |   |" /\
  nth 7 lines [] = box "| O                |   | X                |   |" /\
  nth 11 lines [] = box "| O           X    |   | X              O |   |".
Proof. exists (lines_of BACKGAMMON). vm_compute. auto. Qed.

Print Assumptions C53_drawing.
Print Assumptions C53_identifies.
