(** XGID texts. *)
From Coq Require Import Strings.String.
From Verif Require Export SpecXgid NumFacts.
From Verif Require Import BaseFacts MoveFacts StrFacts EqFacts HashFacts DebugFacts TryFromFacts VariantFacts GnuidFacts.
Open Scope Z_scope.

(** ** Boards *)
Lemma xgid_cell_iff c : xgid_cell c = true <-> board_char c.
Proof.
  unfold xgid_cell, board_char. destruct (Z.eqb_spec c 45), (Z.leb_spec 97 c), (Z.leb_spec c 112), (Z.leb_spec 65 c), (Z.leb_spec c 80);
  cbn [andb orb]; split; intros; try discriminate; try reflexivity; lia.
Qed.
Lemma pmap_cells l : Forall board_char l ->
  pmap (fun c => if xgid_cell c then inr c else inl (XgidInvalidField (lit "board"))) l = inr l.
Proof.
  induction 1 as [|c l H F IH]; cbn [pmap]; auto. apply xgid_cell_iff in H. rewrite H. cbn [pbind]. rewrite IH. reflexivity.
Qed.
Lemma pmap_cells_bad l : ~ Forall board_char l ->
  pmap (fun c => if xgid_cell c then inr c else inl (XgidInvalidField (lit "board"))) l = inl (XgidInvalidField (lit "board")).
Proof.
  induction l as [|c l IH]; intros H; [exfalso; apply H; constructor|]. cbn [pmap].
  destruct (xgid_cell c) eqn:C; cbn [pbind]; auto. rewrite IH; auto.
  intros F. apply H. constructor; auto. apply xgid_cell_iff; auto.
Qed.
Lemma parse_board_ok s : length s = 26%nat -> Forall board_char s -> parse_board s = inr s.
Proof. intros L F. unfold parse_board. rewrite L. cbn [Nat.eqb negb]. apply pmap_cells; auto. Qed.
Lemma parse_board_bad s : ~ (length s = 26%nat /\ Forall board_char s) -> parse_board s = inl (XgidInvalidField (lit "board")).
Proof.
  intros H. unfold parse_board. destruct (Nat.eqb_spec (length s) 26) as [L|]; cbn [negb]; auto.
  apply pmap_cells_bad. tauto.
Qed.
Lemma board_text_dec s : {length s = 26%nat /\ Forall board_char s} + {~ (length s = 26%nat /\ Forall board_char s)}.
Proof.
  destruct (Nat.eq_dec (length s) 26); [|right; tauto].
  destruct (Forall_dec board_char (fun c => match bool_dec (xgid_cell c) true with
    | left H => left (proj1 (xgid_cell_iff c) H) | right H => right (fun G => H (proj2 (xgid_cell_iff c) G)) end) s); [left|right]; tauto.
Qed.
Lemma parse_board_inv s b : parse_board s = inr b -> b = s /\ length s = 26%nat /\ Forall board_char s.
Proof.
  intros E. destruct (board_text_dec s) as [(L & F)|H].
  - rewrite parse_board_ok in E by auto. injection E as <-. auto.
  - rewrite parse_board_bad in E by auto. discriminate E.
Qed.

(** The number a character stands for. *)
Definition cell_val (c : Z) : Z := if c =? 45 then 0 else if 97 <=? c then c - 96 else 64 - c.
Lemma cell_val_char n : -16 <= n <= 16 -> board_char (cell_char n) /\ cell_val (cell_char n) = n.
Proof.
  intros H. unfold cell_char, board_char, cell_val. destruct (Z.ltb_spec 0 n), (Z.ltb_spec n 0); try lia;
  match goal with |- context [?a =? 45] => destruct (Z.eqb_spec a 45) end; try lia;
  match goal with |- context [97 <=? ?a] => destruct (Z.leb_spec 97 a) end; lia.
Qed.
Lemma cell_char_val c : board_char c -> -16 <= cell_val c <= 16 /\ cell_char (cell_val c) = c.
Proof.
  intros H. unfold cell_char, board_char, cell_val in *. 
  destruct (Z.eqb_spec c 45); [subst; simpl; lia|]. destruct (Z.leb_spec 97 c).
  - destruct (Z.ltb_spec 0 (c - 96)); lia.
  - destruct (Z.ltb_spec 0 (64 - c)), (Z.ltb_spec (64 - c) 0); lia.
Qed.

(** x's bar shows no o checkers, o's bar no x checkers. *)
Definition okc (ic : nat * Z) : bool :=
  negb ((fst ic =? 0)%nat && ((65 <=? snd ic) && (snd ic <=? 80)))
  && negb ((fst ic =? 25)%nat && ((97 <=? snd ic) && (snd ic <=? 112))).
Lemma cell_step m ps i ch : board_char ch -> (i < 26)%nat -> length ps = 26%nat -> nth (25 - i) ps 0 = 0 ->
  xgid_cell_step m ps (i, ch) =
  if okc (i, ch) then Ret (inr (upd ps (25 - i) (cell_val ch))) else Ret (inl (XgidInvalidField (lit "board"))).
Proof.
  intros B Hi L Z0. unfold xgid_cell_step, okc, cell_val. cbn [fst snd].
  assert (U0 : upd ps (25 - i) 0 = ps) by (rewrite <- Z0 at 1; apply upd_self).
  destruct (Nat.eqb_spec i 0) as [->|N0]; [|destruct (Nat.eqb_spec i 25) as [->|N25]].
  - cbn [andb negb]. destruct B as [->|[B|B]].
    + cbn. rewrite <- U0 at 1. reflexivity.
    + destruct (Z.eqb_spec ch 45); [lia|]. destruct (Z.leb_spec 97 ch), (Z.leb_spec ch 112), (Z.leb_spec 65 ch), (Z.leb_spec ch 80); try lia.
      cbn [andb negb]. rewrite as_i8_id by lia. rewrite assign_ret by lia. rewrite bind_ret. 
      replace (ch - 97 + 1) with (ch - 96) by lia. reflexivity.
    + destruct (Z.eqb_spec ch 45); [lia|]. destruct (Z.leb_spec 97 ch), (Z.leb_spec ch 112), (Z.leb_spec 65 ch), (Z.leb_spec ch 80); try lia.
      reflexivity.
  - cbn [andb negb Nat.eqb]. destruct B as [->|[B|B]].
    + cbn. rewrite <- U0 at 1. reflexivity.
    + destruct (Z.eqb_spec ch 45); [lia|]. destruct (Z.leb_spec 97 ch), (Z.leb_spec ch 112), (Z.leb_spec 65 ch), (Z.leb_spec ch 80); try lia.
      reflexivity.
    + destruct (Z.eqb_spec ch 45); [lia|]. destruct (Z.leb_spec 97 ch), (Z.leb_spec ch 112), (Z.leb_spec 65 ch), (Z.leb_spec ch 80); try lia.
      cbn [andb negb]. rewrite as_i8_id by lia. rewrite i8_ret by lia. rewrite bind_ret, assign_ret by lia. rewrite bind_ret.
      replace (- (ch - 65 + 1)) with (64 - ch) by lia. reflexivity.
  - cbn [andb negb]. destruct B as [->|[B|B]].
    + change (45 =? 45) with true. cbv iota. unfold ebind. rewrite bind_ret, assign_ret by lia. reflexivity.
    + destruct (Z.eqb_spec ch 45); [lia|]. destruct (Z.leb_spec 97 ch), (Z.leb_spec ch 112), (Z.leb_spec 65 ch), (Z.leb_spec ch 80); try lia.
      cbn [andb negb]. unfold ebind. rewrite as_i8_id by lia. rewrite bind_ret, assign_ret by lia. rewrite bind_ret.
      replace (ch - 97 + 1) with (ch - 96) by lia. reflexivity.
    + destruct (Z.eqb_spec ch 45); [lia|]. destruct (Z.leb_spec 97 ch), (Z.leb_spec ch 112), (Z.leb_spec 65 ch), (Z.leb_spec ch 80); try lia.
      cbn [andb negb]. unfold ebind. rewrite as_i8_id by lia. rewrite i8_ret by lia. rewrite !bind_ret, assign_ret by lia. rewrite bind_ret.
      replace (- (ch - 65 + 1)) with (64 - ch) by lia. reflexivity.
Qed.

Definition rest_points (i : nat) (b : list Z) (ps : list Z) : list Z :=
  map (fun j => if (j + i <=? 25)%nat then cell_val (nth (25 - j - i) b 0) else nth j ps 0) (seq 0 26).
Lemma list26 (l : list Z) : length l = 26%nat -> l = map (fun j => nth j l 0) (seq 0 26).
Proof.
  intros L. apply nth_ext26; auto. intros i Hi. rewrite nth_map_seq by auto. reflexivity.
Qed.
Lemma decode_cells m b : forall i ps, Forall board_char b -> (i + length b = 26)%nat -> length ps = 26%nat ->
  (forall j, (j + i <= 25)%nat -> nth j ps 0 = 0) ->
  efold (xgid_cell_step m) (combine (seq i (length b)) b) ps =
  if forallb okc (combine (seq i (length b)) b)
  then Ret (inr (rest_points i b ps)) else Ret (inl (XgidInvalidField (lit "board"))).
Proof.
  induction b as [|c b IH]; intros i ps F L LP Z0; cbn [length seq combine efold forallb].
  - cbn [length] in L. unfold rest_points. rewrite (list26 ps LP) at 1. do 2 f_equal. apply map_ext_in.
    intros j _. destruct (Nat.leb_spec (j + i) 25); [lia|reflexivity].
  - cbn [length] in L. apply Forall_cons_iff in F. destruct F as (C & F).
    rewrite cell_step; auto; [|lia|apply Z0; lia]. destruct (okc (i, c)); cbn [andb]; [|reflexivity].
    unfold ebind. rewrite bind_ret. rewrite IH; auto; [|lia|rewrite upd_length; auto|].
    2:{ intros j Hj. rewrite nth_upd by lia. destruct (Nat.eqb_spec j (25 - i)); [lia|apply Z0; lia]. }
    destruct (forallb okc (combine (seq (S i) (length b)) b)); [|reflexivity]. do 2 f_equal.
    unfold rest_points. apply map_ext_in. intros j Hj. apply in_seq in Hj. rewrite nth_upd by lia.
    destruct (Nat.leb_spec (j + S i) 25), (Nat.leb_spec (j + i) 25), (Nat.eqb_spec j (25 - i)); try lia.
    + replace (25 - j - i)%nat with (S (25 - j - S i)) by lia. reflexivity.
    + replace (25 - j - i)%nat with 0%nat by lia. reflexivity.
Qed.
(** The array a board text shows. *)
Definition cells (b : list Z) : list Z := map (fun j => cell_val (nth (25 - j) b 0)) (seq 0 26).
Lemma rest_points_all b : rest_points 0 b (repeat 0 26) = cells b.
Proof.
  unfold rest_points, cells. apply map_ext_in. intros j Hj. apply in_seq in Hj.
  destruct (Nat.leb_spec (j + 0) 25); [|lia]. f_equal. f_equal. lia.
Qed.
Lemma xgid_decode_board m N b : length b = 26%nat -> Forall board_char b ->
  xgid_decode_position m N b =
  if forallb okc (combine (seq 0 26) b)
  then r <- try_from m N (cells b) ;; Ret (match r with inl _ => inl XgidInvalidPosition | inr p => inr p end)
  else Ret (inl (XgidInvalidField (lit "board"))).
Proof.
  intros L F. unfold xgid_decode_position, lift. rewrite parse_board_ok by auto. unfold ebind at 1. rewrite bind_ret.
  rewrite decode_cells; auto; [|intros; apply nth_repeat]. rewrite L.
  destruct (forallb okc (combine (seq 0 26) b)); [|reflexivity]. unfold ebind. rewrite bind_ret, rest_points_all. reflexivity.
Qed.
Lemma okc_mid i c : (0 < i < 25)%nat -> okc (i, c) = true.
Proof. intros H. unfold okc. cbn [fst snd]. destruct (Nat.eqb_spec i 0), (Nat.eqb_spec i 25); try lia; reflexivity. Qed.
Lemma okc_bars b : length b = 26%nat -> Forall board_char b ->
  forallb okc (combine (seq 0 26) b) = true <-> 0 <= cell_val (nth 0 b 0) /\ cell_val (nth 25 b 0) <= 0.
Proof.
  intros L F.
  assert (E : forallb okc (combine (seq 0 26) b) = okc (0%nat, nth 0 b 0) && okc (25%nat, nth 25 b 0)).
  { clear F. do 26 (destruct b as [|? b]; [discriminate L|]). destruct b; [|discriminate L]. clear L.
    cbn [seq combine forallb nth]. repeat match goal with |- context [okc (S ?n, ?c)] => rewrite (@okc_mid (S n) c) by lia end. cbn [andb]. rewrite andb_true_r. reflexivity. }
  rewrite E. assert (B0 : board_char (nth 0 b 0)) by (rewrite Forall_forall in F; apply F, nth_In; lia).
  assert (B25 : board_char (nth 25 b 0)) by (rewrite Forall_forall in F; apply F, nth_In; lia).
  unfold okc. cbn [fst snd Nat.eqb andb]. rewrite andb_true_r. cbn [negb andb].
  generalize dependent (nth 0 b 0). generalize dependent (nth 25 b 0). intros c25 B25 c0 B0. 
  unfold board_char in *. unfold cell_val. rewrite andb_true_iff, !negb_true_iff.
  destruct (Z.eqb_spec c0 45), (Z.eqb_spec c25 45), (Z.leb_spec 97 c0), (Z.leb_spec 97 c25), (Z.leb_spec 65 c0), (Z.leb_spec c0 80),
    (Z.leb_spec c25 112); cbn [andb]; split; intros (? & ?); try discriminate; try (split; reflexivity); lia.
Qed.
Lemma cells_shows b : length b = 26%nat -> Forall board_char b -> 0 <= cell_val (nth 0 b 0) -> cell_val (nth 25 b 0) <= 0 ->
  shows b (cells b).
Proof.
  intros L F H0 H25. split; auto. split; [unfold cells; rewrite map_length, seq_length; reflexivity|].
  unfold cells. rewrite !nth_map_seq by lia. split; [exact H0|]. split; [exact H25|].
  intros i Hi. rewrite nth_map_seq by lia. rewrite Forall_forall in F.
  destruct (cell_char_val (F (nth (25 - i) b 0) ltac:(apply nth_In; lia))). auto.
Qed.
Lemma shows_cells b ps : shows b ps -> length b = 26%nat /\ Forall board_char b /\ cells b = ps /\
  0 <= cell_val (nth 0 b 0) /\ cell_val (nth 25 b 0) <= 0.
Proof.
  intros (L & LP & H25 & H0 & H). split; auto.
  assert (F : Forall board_char b).
  { apply Forall_forall. intros c Hc. apply In_nth with (d := 0) in Hc. destruct Hc as (k & K & <-). rewrite L in K.
    replace k with (25 - (25 - k))%nat by lia. destruct (H (25 - k)%nat ltac:(lia)) as (R & ->). apply cell_val_char. auto. }
  split; auto. split.
  - apply nth_ext26; [unfold cells; rewrite map_length, seq_length; reflexivity|exact LP|].
    intros i Hi. unfold cells. rewrite nth_map_seq by lia. destruct (H i ltac:(lia)) as (R & ->). apply cell_val_char; auto.
  - destruct (H 25%nat ltac:(lia)) as (R & E). change (25 - 25)%nat with 0%nat in E. rewrite E.
    rewrite (proj2 (cell_val_char R)). split; auto.
    destruct (H 0%nat ltac:(lia)) as (R' & E'). change (25 - 0)%nat with 25%nat in E'. rewrite E'.
    rewrite (proj2 (cell_val_char R')). auto.
Qed.

(** ** Encoding *)
Definition board_text (p : position) : str := map (fun i => cell_char (pt p (25 - i))) (seq 0 26).
Lemma cell_encode m n : -16 <= n <= 16 ->
  (if 0 <? n then c <- u8 m (as_u8 n - 1) ;; u8 m (97 + c)
   else if n <? 0 then k <- i8 m (- n) ;; c <- u8 m (as_u8 k - 1) ;; u8 m (65 + c)
   else Ret 45) = Ret (cell_char n).
Proof.
  intros H. unfold cell_char. destruct (Z.ltb_spec 0 n); [|destruct (Z.ltb_spec n 0)]; auto.
  - rewrite as_u8_id by lia. rewrite u8_ret, bind_ret, u8_ret by lia. f_equal. lia.
  - rewrite i8_ret, bind_ret by lia. rewrite as_u8_id by lia. rewrite u8_ret, bind_ret, u8_ret by lia. f_equal. lia.
Qed.
Lemma fill_loop (g : nat -> res Z) (h : nat -> Z) l : (forall i, In i l -> g i = Ret (h i)) -> NoDup l ->
  forall cs, Forall (fun i => (i < length cs)%nat) l ->
  exists cs', mfold (fun cs i => ch <- g i ;; assign cs i ch) l cs = Ret cs' /\ length cs' = length cs /\
  forall j, nth j cs' 0 = if in_dec Nat.eq_dec j l then h j else nth j cs 0.
Proof.
  intros G ND. induction ND as [|i l NI ND IH]; intros cs F; cbn [mfold].
  - exists cs. auto.
  - apply Forall_cons_iff in F. destruct F as (Hi & F). rewrite (G i (or_introl eq_refl)), bind_ret, assign_ret, bind_ret by auto.
    destruct (IH (fun j J => G j (or_intror J)) (upd cs i (h i))) as (cs' & E & L & N); [rewrite upd_length; auto|].
    exists cs'. split; auto. split; [rewrite L, upd_length; auto|].
    intros j. rewrite N, nth_upd by auto. destruct (in_dec Nat.eq_dec j (i :: l)) as [I|I], (in_dec Nat.eq_dec j l) as [I'|I'];
      auto.
    + destruct I as [->|]; [|contradiction]. rewrite Nat.eqb_refl. reflexivity.
    + exfalso. apply I. right; auto.
    + destruct (Nat.eqb_spec j i); auto. subst. exfalso. apply I. left; auto.
Qed.
Lemma xgid_encode_ret m N p : wf N p -> N <= 15 -> xgid_encode_position m p = Ret (board_text p).
Proof.
  intros W HN.
  assert (IX : forall i, (i < 26)%nat -> pip p i = Ret (pt p i)).
  { intros i Hi. unfold pip. rewrite (index_ret _ 0) by (rewrite (wf_len W); auto). reflexivity. }
  assert (R : forall i, (i < 26)%nat -> -15 <= pt p i <= 15).
  { intros i Hi. pose proof (wf_pt1_x W Hi). pose proof (wf_pt1_o W Hi). pose proof (wf_xoff W). pose proof (wf_ooff W). lia. }
  pose proof (wf_xbar W) as XB. pose proof (wf_obar W) as OB.
  pose proof (R 25%nat ltac:(lia)). pose proof (R 0%nat ltac:(lia)).
  unfold xgid_encode_position. cbv zeta. unfold x_bar, o_bar.
  change (index (pips p) X_BAR) with (pip p 25). change (index (pips p) O_BAR) with (pip p 0).
  rewrite !IX by lia. rewrite !bind_ret. rewrite as_u8_id by lia.
  assert (E0 : (if 0 <? pt p 25 then c <- u8 m (pt p 25 - 1) ;; c <- u8 m (97 + c) ;; assign (repeat 45 26) 0 c else Ret (repeat 45 26))
    = Ret (upd (repeat 45 26) 0 (cell_char (pt p 25)))).
  { unfold cell_char. destruct (Z.ltb_spec 0 (pt p 25)).
    - rewrite !u8_ret, !bind_ret, u8_ret, bind_ret by lia. rewrite assign_ret by (rewrite repeat_length; lia).
      do 2 f_equal. lia.
    - destruct (Z.ltb_spec (pt p 25) 0); [lia|]. reflexivity. }
  rewrite E0, bind_ret. clear E0. set (c1 := upd _ _ _).
  assert (L1 : length c1 = 26%nat) by reflexivity.
  rewrite i8_ret by lia. rewrite !bind_ret. rewrite as_u8_id by lia.
  assert (E0 : (if 0 <? - pt p 0 then c <- u8 m (- pt p 0 - 1) ;; c <- u8 m (65 + c) ;; assign c1 25 c else Ret c1)
    = Ret (upd c1 25 (cell_char (pt p 0)))).
  { unfold cell_char. destruct (Z.ltb_spec 0 (- pt p 0)).
    - rewrite !u8_ret, !bind_ret, u8_ret, bind_ret by lia. rewrite assign_ret by lia.
      destruct (Z.ltb_spec 0 (pt p 0)); [lia|]. destruct (Z.ltb_spec (pt p 0) 0); [|lia]. do 2 f_equal. lia.
    - destruct (Z.ltb_spec 0 (pt p 0)); [lia|]. destruct (Z.ltb_spec (pt p 0) 0); [lia|].
      rewrite <- (upd_self c1 25 0) at 1. reflexivity. }
  rewrite E0, bind_ret. clear E0. set (c2 := upd c1 _ _).
  assert (L2 : length c2 = 26%nat) by reflexivity.
  erewrite (mfold_ext_in _ (fun cs i => ch <- (n <- pip p (25 - i) ;; if 0 <? n then c <- u8 m (as_u8 n - 1) ;; u8 m (97 + c)
   else if n <? 0 then k <- i8 m (- n) ;; c <- u8 m (as_u8 k - 1) ;; u8 m (65 + c)
   else Ret 45) ;; assign cs i ch)).
  2:{ intros cs i _. destruct (pip p (25 - i)); reflexivity. }
  destruct (@fill_loop (fun i => n <- pip p (25 - i) ;; if 0 <? n then c <- u8 m (as_u8 n - 1) ;; u8 m (97 + c)
   else if n <? 0 then k <- i8 m (- n) ;; c <- u8 m (as_u8 k - 1) ;; u8 m (65 + c)
   else Ret 45) (fun i => cell_char (pt p (25 - i))) (range 1 25)) with (cs := c2) as (c3 & E3 & L3 & N3).
  { intros i Hi. apply in_range in Hi. rewrite IX, bind_ret by lia. apply cell_encode. pose proof (R (25 - i)%nat ltac:(lia)). lia. }
  { apply seq_NoDup. }
  { apply Forall_forall. intros i Hi. apply in_range in Hi. lia. }
  rewrite E3, bind_ret. clear E3.
  assert (E : c3 = board_text p).
  { apply nth_ext26; [lia|unfold board_text; rewrite map_length, seq_length; reflexivity|].
    intros i Hi. rewrite N3. unfold board_text. rewrite nth_map_seq by lia.
    destruct (in_dec Nat.eq_dec i (range 1 25)) as [I|I]; auto. rewrite in_range in I.
    assert (Q : i = 0%nat \/ i = 25%nat) by lia. destruct Q as [-> | ->]; reflexivity. }
  subst c3. unfold expect_ascii.
  replace (forallb (fun c => c <? 128) (board_text p)) with true; auto. symmetry. apply forallb_forall. intros c Hc.
  unfold board_text in Hc. apply in_map_iff in Hc. destruct Hc as (i & <- & Hi). apply in_seq in Hi.
  pose proof (R (25 - i)%nat ltac:(lia)) as Q. apply Z.ltb_lt. unfold cell_char.
  destruct (Z.ltb_spec 0 (pt p (25 - i))); [lia|]. destruct (Z.ltb_spec (pt p (25 - i)) 0); lia.
Qed.
Lemma board_text_shows N p : wf N p -> N <= 15 -> shows (board_text p) (pips p).
Proof.
  intros W HN. unfold board_text. split; [rewrite map_length, seq_length; reflexivity|]. split; [apply W|].
  split; [apply W|]. split; [apply W|]. intros i Hi. rewrite nth_map_seq by lia.
  replace (25 - (25 - i))%nat with i by lia. split; [|reflexivity]. 
  pose proof (@wf_pt1_x _ _ i W ltac:(lia)). pose proof (@wf_pt1_o _ _ i W ltac:(lia)). pose proof (wf_xoff W). pose proof (wf_ooff W).
  unfold pt in *. lia.
Qed.

Lemma xgid_encode_tag m k p : xgid_encode m (tag k p) = xgid_encode_position m p.
Proof. destruct k; reflexivity. Qed.
Lemma xgid_decode_tag m k s : xgid_decode m k s = map_ok (tag k) (xgid_decode_position m (checkers k) s).
Proof. destruct k; reflexivity. Qed.

Lemma xgid_decode_bad m k s : ~ (length s = 26%nat /\ Forall board_char s) -> xgid_decode m k s = Ret (inl (XgidInvalidField (lit "board"))).
Proof.
  intros H. rewrite xgid_decode_tag. unfold xgid_decode_position. rewrite parse_board_bad by auto. reflexivity.
Qed.
Lemma xgid_decode_good m k s : length s = 26%nat -> Forall board_char s -> xgid_decode m k s =
  if forallb okc (combine (seq 0 26) s)
  then r <- try_from m (checkers k) (cells s) ;; Ret (match r with inl _ => inl XgidInvalidPosition | inr p => inr (tag k p) end)
  else Ret (inl (XgidInvalidField (lit "board"))).
Proof.
  intros L F. rewrite xgid_decode_tag, xgid_decode_board by auto. unfold map_ok.
  destruct (forallb okc (combine (seq 0 26) s)); [|reflexivity].
  destruct (try_from m (checkers k) (cells s)) as [[e|p]|]; reflexivity.
Qed.

(** ** Full texts *)
Lemma pbind_inv {E A B} (r : E + A) (f : A -> E + B) b : pbind r f = inr b -> exists a, r = inr a /\ f a = inr b.
Proof. destruct r; cbn [pbind]; intros H; [discriminate H|eauto]. Qed.
Lemma pbind_inr {E A B} (a : A) (f : A -> E + B) : pbind (inr a) f = f a.
Proof. reflexivity. Qed.
Lemma ok_or_inv {E A} (e : E) (o : option A) a : ok_or e o = inr a <-> o = Some a.
Proof. destruct o; cbn [ok_or]; split; intros H; try discriminate H; injection H as ->; reflexivity. Qed.
Lemma xgid_dice_some f d : xgid_parse_dice f = inr d <-> dice_text f d.
Proof.
  unfold xgid_parse_dice. destruct (str_eqb f (lit "D")) eqn:E.
  - apply str_eqb_eq in E. subst f. destruct d; cbn [dice_text].
    + split; [discriminate|]. intros (_ & _ & H). discriminate H.
    + split; auto.
  - apply str_eqb_neq in E. split.
    + destruct f as [|c1 [|c2 [|]]]; try discriminate. intros H.
      apply pbind_inv in H. destruct H as (d1 & H1 & H). apply pbind_inv in H. destruct H as (d2 & H2 & H).
      apply ok_or_inv in H1, H2. apply digit_some in H1, H2.
      destruct (Z.ltb_spec 6 d1), (Z.ltb_spec 6 d2); try discriminate H. injection H as <-. cbn [dice_text].
      destruct H1 as (? & ->), H2 as (? & ->). split; [lia|]. split; [lia|]. reflexivity.
    + destruct d as [d1 d2|]; cbn [dice_text]; [|intros; contradiction]. intros (R1 & R2 & ->).
      rewrite (proj2 (digit_some (48 + d1) d1)) by lia. rewrite (proj2 (digit_some (48 + d2) d2)) by lia.
      cbn [ok_or pbind]. destruct (Z.ltb_spec 6 d1), (Z.ltb_spec 6 d2); try lia. reflexivity.
Qed.
Lemma board_char_ws c : board_char c -> is_ws c = false /\ c <> 58.
Proof.
  intros H. split; [|unfold board_char in H; lia]. destruct (is_ws c) eqn:E; auto.
  unfold is_ws, board_char in *.
  repeat (apply orb_true_iff in E; destruct E as [E|E]); rewrite ?andb_true_iff, ?Z.leb_le, ?Z.eqb_eq in E; lia.
Qed.
Lemma colon : lit ":" = [58].
Proof. reflexivity. Qed.
Lemma without_app c a b : without c (a ++ b) <-> without c a /\ without c b.
Proof. unfold without. apply Forall_app. Qed.

Definition ten_fields {A} (l : list A) : Prop := length l = 10%nat.
Lemma parse_xgid_sound s x : parse_xgid s = inr x -> xgid_text s x.
Proof.
  intros E. unfold parse_xgid in E. cbv zeta in E.
  destruct (trim_spec s) as (pre & post & ES & Bpre & Bpost).
  set (raw := trim s) in *.
  assert (P : exists prefix payload, raw = prefix ++ payload /\ (prefix = [] \/ prefix = lit "XGID=") /\
    (match strip_prefix (lit "XGID=") raw with Some s => s | None => raw end) = payload).
  { destruct (strip_prefix (lit "XGID=") raw) as [t|] eqn:SP.
    - apply strip_prefix_some in SP. exists (lit "XGID="), t. auto.
    - exists [], raw. auto. }
  destruct P as (prefix & payload & ER & EP & EQ). rewrite EQ in E. clear EQ.
  pose proof (join_split_on 58 payload) as J.
  destruct (split_on 58 payload) as [|f0 l]; [discriminate E|]. cbn [next_part] in E. rewrite pbind_inr in E.
  apply pbind_inv in E. destruct E as (board & E0 & E). apply parse_board_inv in E0.
  destruct l as [|f1 l]; [discriminate E|]. cbn [next_part] in E. rewrite pbind_inr in E.
  apply pbind_inv in E. destruct E as (v1 & E1 & E). apply ok_or_inv, parse_uint_some in E1.
  destruct l as [|f2 l]; [discriminate E|]. cbn [next_part] in E. rewrite pbind_inr in E.
  apply pbind_inv in E. destruct E as (v2 & E2 & E). apply ok_or_inv, parse_uint_some in E2.
  destruct l as [|f3 l]; [discriminate E|]. cbn [next_part] in E. rewrite pbind_inr in E.
  apply pbind_inv in E. destruct E as (v3 & E3 & E). apply ok_or_inv, parse_uint_some in E3.
  destruct l as [|f4 l]; [discriminate E|]. cbn [next_part] in E. rewrite pbind_inr in E.
  apply pbind_inv in E. destruct E as (v4 & E4 & E). apply ok_or_inv, parse_uint_some in E4.
  destruct l as [|f5 l]; [discriminate E|]. cbn [next_part] in E. rewrite pbind_inr in E.
  apply pbind_inv in E. destruct E as (v5 & E5 & E). apply ok_or_inv, parse_uint_some in E5.
  destruct l as [|f6 l]; [discriminate E|]. cbn [next_part] in E. rewrite pbind_inr in E.
  apply pbind_inv in E. destruct E as (v6 & E6 & E). apply xgid_dice_some in E6.
  destruct l as [|f7 l]; [discriminate E|]. cbn [next_part] in E. rewrite pbind_inr in E.
  apply pbind_inv in E. destruct E as (v7 & E7 & E).
  assert (E7' : f7 = if v7 then lit "1" else lit "0").
  { destruct (str_eqb f7 (lit "0")) eqn:Q; [apply str_eqb_eq in Q; injection E7 as <-; auto|].
    destruct (str_eqb f7 (lit "1")) eqn:Q'; [apply str_eqb_eq in Q'; injection E7 as <-; auto|discriminate E7]. }
  destruct l as [|f8 l]; [discriminate E|]. cbn [next_part] in E. rewrite pbind_inr in E.
  apply pbind_inv in E. destruct E as (v8 & E8 & E). apply ok_or_inv, parse_int_some in E8.
  destruct (negb ((-1 <=? v8) && (v8 <=? 1))) eqn:R; [discriminate E|].
  apply negb_false_iff, andb_true_iff in R. rewrite !Z.leb_le in R.
  destruct l as [|f9 l]; [discriminate E|]. cbn [next_part] in E. rewrite pbind_inr in E.
  apply pbind_inv in E. destruct E as (v9 & E9 & E). apply ok_or_inv, parse_uint_some in E9.
  destruct l as [|]; [|discriminate E]. injection E as <-.
  exists pre, post, prefix, f0, f1, f2, f3, f4, f5, f6, f7, f8, f9.
  cbn [xg_board xg_max_cube xg_match_length xg_rules xg_score_x xg_score_o xg_dice xg_move_flag xg_cube_owner xg_cube_power].
  rewrite colon, J. split; [rewrite ES, ER, <- app_assoc; reflexivity|].
  split; [exact Bpre|]. split; [exact Bpost|]. split; [exact EP|].
  split; [destruct E0 as (-> & L & F); auto|]. do 6 (split; [assumption|]). split; [exact E7'|].
  split; [|assumption]. destruct E8 as (E8 & _). split; auto.
Qed.
Ltac stp := repeat (cbn [next_part]; rewrite pbind_inr; cbv beta iota).
Lemma parse_xgid_complete s x : xgid_text s x -> parse_xgid s = inr x.
Proof.
  intros (pre & post & prefix & f0 & f1 & f2 & f3 & f4 & f5 & f6 & f7 & f8 & f9 & ES & Bpre & Bpost & EP & (L0 & F0 & E0) &
    E1 & E2 & E3 & E4 & E5 & E6 & E7 & E8 & E9).
  assert (W0 : no_ws f0 /\ without 58 f0).
  { split; eapply Forall_impl; try exact F0; intros c Hc; apply board_char_ws in Hc; tauto. }
  assert (W6 : no_ws f6 /\ without 58 f6).
  { destruct (xg_dice x) as [a b|]; cbn [dice_text] in E6.
    - destruct E6 as (A & B & ->). assert (D : is_digits [48 + a; 48 + b]) by (repeat constructor; lia).
      split; [apply is_digits_no_ws; auto|apply is_digits_without; auto; lia].
    - subst f6. split; repeat constructor; try discriminate. }
  assert (W7 : no_ws f7 /\ without 58 f7) by (subst f7; destruct (xg_move_flag x); split; repeat constructor; discriminate).
  pose proof (unsigned_no_ws E1) as ((_ & W1) & W1'). pose proof (unsigned_no_ws E2) as ((_ & W2) & W2').
  pose proof (unsigned_no_ws E3) as ((_ & W3) & W3'). pose proof (unsigned_no_ws E4) as ((_ & W4) & W4').
  pose proof (unsigned_no_ws E5) as ((_ & W5) & W5'). pose proof (signed_no_ws E8) as ((_ & W8) & W8').
  pose proof (unsigned_no_ws E9) as ((_ & W9) & W9').
  set (fields := [f0; f1; f2; f3; f4; f5; f6; f7; f8; f9]) in *.
  assert (WF : Forall (without 58) fields) by (repeat (constructor; [tauto|]); constructor).
  assert (NW : no_ws (prefix ++ join (lit ":") fields)).
  { apply no_ws_app. split.
    - destruct EP as [->| ->]; repeat constructor.
    - unfold fields. cbn [join]. rewrite colon. repeat (apply no_ws_app; split; [tauto|]).
      all: repeat (apply no_ws_app; split; [first [tauto|repeat constructor]|]). tauto. }
  assert (NE : prefix ++ join (lit ":") fields <> []).
  { intros H. apply app_eq_nil in H. destruct H as (_ & H). unfold fields in H. cbn [join] in H.
    apply app_eq_nil in H. destruct H as (H & _). rewrite H in L0. discriminate L0. }
  assert (T : trim s = prefix ++ join (lit ":") fields).
  { rewrite ES. rewrite (app_assoc prefix). apply trim_trimmed; auto. apply no_ws_trimmed; auto. }
  unfold parse_xgid. cbv zeta. rewrite T.
  assert (SP : match strip_prefix (lit "XGID=") (prefix ++ join (lit ":") fields) with Some s => s
     | None => prefix ++ join (lit ":") fields end = join (lit ":") fields).
  { destruct EP as [->| ->].
    - cbn [app]. destruct (strip_prefix (lit "XGID=") (join (lit ":") fields)) as [t|] eqn:SP; auto. exfalso.
      apply strip_prefix_some in SP. destruct f0 as [|c f0]; [discriminate L0|].
      unfold fields in SP. cbn [join app] in SP. injection SP as SP _. apply Forall_cons_iff in F0. destruct F0 as (F0 & _).
      unfold board_char in F0. lia.
    - rewrite strip_prefix_app. reflexivity. }
  rewrite SP. rewrite colon. rewrite split_on_join; [|discriminate|exact WF].
  unfold fields. cbn [next_part]. stp. rewrite parse_board_ok by auto. stp. unfold xnum.
    rewrite (proj2 (parse_uint_some 255 f1 _) E1 : parse_u8 f1 = _). cbn [ok_or]. stp.
  rewrite (proj2 (parse_uint_some 65535 f2 _) E2 : parse_u16 f2 = _). cbn [ok_or]. stp.
  rewrite (proj2 (parse_uint_some 255 f3 _) E3 : parse_u8 f3 = _). cbn [ok_or]. stp.
  rewrite (proj2 (parse_uint_some 65535 f4 _) E4 : parse_u16 f4 = _). cbn [ok_or]. stp.
  rewrite (proj2 (parse_uint_some 65535 f5 _) E5 : parse_u16 f5 = _). cbn [ok_or]. stp.
  rewrite (proj2 (xgid_dice_some f6 _) E6). stp.
  replace (if str_eqb f7 (lit "0") then inr false else if str_eqb f7 (lit "1") then inr true
    else inl (XgidInvalidField (lit "move_flag"))) with (@inr xgid_error bool (xg_move_flag x)).
  2:{ subst f7. destruct (xg_move_flag x); reflexivity. }
  stp.
  assert (E8' : parse_i8 f8 = Some (xg_cube_owner x)).
  { apply parse_int_some. destruct E8 as (E8 & R). split; auto. lia. }
  rewrite E8'. cbn [ok_or]. stp. destruct E8 as (_ & R).
  destruct (Z.leb_spec (-1) (xg_cube_owner x)), (Z.leb_spec (xg_cube_owner x) 1); try lia. cbn [andb negb].
  stp. rewrite (proj2 (parse_uint_some 255 f9 _) E9 : parse_u8 f9 = _). cbn [ok_or]. stp.
  rewrite <- E0. destruct x; reflexivity.
Qed.
Lemma format_xgid_text x : xgid_ok x -> xgid_text (format_xgid x) x.
Proof.
  intros ((L & F) & R1 & R2 & R3 & R4 & R5 & RD & R8 & R9).
  set (f6 := match xg_dice x with XRolled d1 d2 => fmt_uint d1 ++ fmt_uint d2 | XDoubleOffered => lit "D" end).
  set (f7 := fmt_uint (if xg_move_flag x then 1 else 0)).
  exists [], [], (lit "XGID="), (xg_board x), (fmt_uint (xg_max_cube x)), (fmt_uint (xg_match_length x)), (fmt_uint (xg_rules x)),
    (fmt_uint (xg_score_x x)), (fmt_uint (xg_score_o x)), f6, f7, (fmt_int (xg_cube_owner x)), (fmt_uint (xg_cube_power x)).
  split. { unfold format_xgid, format_board. cbv zeta. fold f6. fold f7. cbn [join app]. rewrite app_nil_r. reflexivity. }
  split; [constructor|]. split; [constructor|]. split; [auto|]. split; [auto|].
  assert (U : forall mx n, 0 <= n <= mx -> unsigned_text mx (fmt_uint n) n).
  { intros mx n H. split; [|lia]. left. apply fmt_uint_numeral. lia. }
  do 5 (split; [apply U; lia|]). split.
  { unfold f6. destruct (xg_dice x) as [a b|]; cbn [dice_text]; auto. destruct (RD a b eq_refl) as (A & B).
    split; auto. split; auto. unfold fmt_uint.
    assert (SM : forall n, 0 <= n <= 6 -> dec_fuel (S (Z.to_nat (Z.log2 n))) n = [48 + n]).
    { intros n Hn. cbn [dec_fuel]. destruct (Z.ltb_spec n 10); [reflexivity|lia]. }
    rewrite !SM by auto. reflexivity. }
  split; [unfold f7; destruct (xg_move_flag x); reflexivity|]. split; [|apply U; lia].
  apply parse_int_some. apply parse_int_fmt. lia.
Qed.
