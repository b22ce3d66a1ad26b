(** Properties C16-C21: move texts.  Read with SpecMoveText.v, SpecText.v, SpecRules.v,
    SpecVariants.v. *)
From Coq Require Import Strings.String.
From Verif Require Import FibsFacts ModeFacts PipFacts VariantFacts EqFacts DoubleProof MixedProof Commute MoveGenProof PropMoves
  SpecMoveText TextFacts MoveTextFacts LeafFacts LeafLegal EncodeFacts LegalMovesFacts LegalTexts.
Open Scope Z_scope.

(** ** C16 *)

(** Formatting and parsing back gives the same steps; the text is "pass" for no steps. *)
Theorem C16_round_trip : forall steps, Forall on_board steps ->
  parse_move_steps (format_move_steps steps) = Some steps.
Proof. intros steps H. apply parse_move_steps_iff. apply format_step_text. exact H. Qed.
Theorem C16_pass : format_move_steps [] = lit "pass" /\ parse_move_steps (lit "pass") = Some [].
Proof. split; reflexivity. Qed.
(** [parse_move_steps] accepts exactly the texts described by [step_text] and returns what they say. *)
Theorem C16_parse_exact : forall t steps, parse_move_steps t = Some steps <-> step_text t steps.
Proof. exact parse_move_steps_iff. Qed.
(** Different step lists have different texts. *)
Theorem C16_injective : forall a b, Forall on_board a -> Forall on_board b ->
  format_move_steps a = format_move_steps b -> a = b.
Proof. exact format_inj. Qed.

Example C16_ex : format_move_steps [step 25 20; step 13 7; step 3 0] = lit "bar/20 13/7 3/off" /\
  parse_move_steps (lit "bar/20 13/7 3/off") = Some [step 25 20; step 13 7; step 3 0].
Proof. vm_compute. auto. Qed.

(** ** C17 *)

(** [normalize] accepts exactly the texts that say something, and writes the steps they say in the
    format of [format_move_steps]. *)
Theorem C17_normalize_exact : forall t s, normalize t = Some s <->
  exists steps, move_text t steps /\ s = format_move_steps steps.
Proof. exact normalize_iff. Qed.

(** A normalised text parses, its steps are in range, formatting them gives it back, and it is its own
    normal form. *)
Theorem C17_canonical : forall t s, normalize t = Some s -> exists steps,
  parse_move_steps s = Some steps /\ Forall on_board steps /\ format_move_steps steps = s /\ normalize s = Some s.
Proof.
  intros t s H. apply normalize_iff in H. destruct H as (steps & M & ->). exists steps.
  pose proof (move_text_on_board M) as OB. split; [apply C16_round_trip; auto|]. split; [auto|]. split; [auto|].
  apply normalize_iff. exists steps. split; auto. apply format_move_text. auto.
Qed.
(** A text says at most one thing. *)
Theorem C17_unambiguous : forall t a b, move_text t a -> move_text t b -> a = b.
Proof. exact move_text_fun. Qed.

Lemma normalize_same t t' : (forall st, move_text t st <-> move_text t' st) -> normalize t = normalize t'.
Proof.
  intros H. destruct (normalize t) as [s|] eqn:E.
  - apply normalize_iff in E. destruct E as (st & M & ->). symmetry. apply normalize_iff. exists st. split; auto. apply H. auto.
  - destruct (normalize t') as [s'|] eqn:E'; auto. apply normalize_iff in E'. destruct E' as (st & M & ->).
    assert (X : normalize t = Some (format_move_steps st)) by (apply normalize_iff; exists st; split; auto; apply H; auto).
    congruence.
Qed.

(** Upper and lower case do not matter. *)
Lemma unsigned_same m w w' v : same_text w w' -> unsigned_text m w v -> unsigned_text m w' v.
Proof. intros S U. apply same_text_iff in S. apply unsigned_lower. rewrite <- S. apply unsigned_lower. exact U. Qed.
Lemma same_sym w w' : same_text w w' -> same_text w' w.
Proof. rewrite !same_text_iff. auto. Qed.
Lemma same_trans a b c : same_text a b -> same_text b c -> same_text a c.
Proof. rewrite !same_text_iff. congruence. Qed.
Lemma same_app_inv a b w : same_text (a ++ b) w -> exists a' b', w = a' ++ b' /\ same_text a a' /\ same_text b b'.
Proof. intros H. apply Forall2_app_inv_l in H. destruct H as (a' & b' & A & B & ->). eauto. Qed.
Lemma same_ws c d : same_letter c d -> is_ws c = is_ws d.
Proof. intros H. apply same_letter_iff in H. rewrite <- (is_ws_lower c), <- (is_ws_lower d). congruence. Qed.
Lemma same_blank b b' : same_text b b' -> only_blanks b -> only_blanks b'.
Proof.
  unfold only_blanks. intros S H. induction S as [|x y l l' L S IH]; [constructor|]. inversion H; subst.
  constructor; auto. rewrite <- (same_ws L). auto.
Qed.
Lemma same_free b b' : same_text b b' -> blank_free b -> blank_free b'.
Proof.
  intros S (N & H). split; [intros ->; inversion S; subst; auto|]. clear N.
  induction S as [|x y l l' L S IH]; [constructor|]. inversion H; subst. constructor; auto. rewrite <- (same_ws L). auto.
Qed.
Lemma same_words t ws : words t ws -> forall t', same_text t t' -> exists ws', words t' ws' /\ Forall2 same_text ws ws'.
Proof.
  induction 1 as [b B|b w B W|b w c t ws B W C H IH]; intros t' S.
  - exists []. split; [apply words_none; eapply same_blank; eauto|constructor].
  - destruct (same_app_inv _ _ S) as (b' & w' & -> & Sb & Sw). exists [w']. split; [|repeat constructor; auto].
    apply words_last; [eapply same_blank; eauto|eapply same_free; eauto].
  - destruct (same_app_inv _ _ S) as (b' & r & -> & Sb & Sr). destruct (same_app_inv _ _ Sr) as (w' & r' & -> & Sw & Sr').
    inversion Sr' as [|? c' ? t1 Lc St]; subst. destruct (IH _ St) as (ws' & W' & F).
    exists (w' :: ws'). split; [|constructor; auto]. apply words_more; auto;
      [eapply same_blank; eauto|eapply same_free; eauto|rewrite <- (same_ws Lc); auto].
Qed.
Lemma same_unmarked w w' : same_text w w' -> same_text (unmarked w) (unmarked w').
Proof.
  induction 1 as [|x y l l' L S IH]; [constructor|]. unfold unmarked in *. cbn [filter].
  assert (E : ((x =? chr "*") || (x =? chr ",")) = ((y =? chr "*") || (y =? chr ","))).
  { change (chr "*") with 42. change (chr ",") with 44. destruct L as [->|[(A & ->)|(A & ->)]]; auto;
    repeat match goal with |- context [?a =? ?b] => destruct (Z.eqb_spec a b) end; try lia; auto. }
  rewrite E. clear E. destruct ((y =? chr "*") || (y =? chr ",")); cbn [negb]; auto. constructor; auto.
Qed.
Lemma same_point w w' n : same_text w w' -> point_word w n -> point_word w' n.
Proof. intros S (R & U). split; auto. eapply unsigned_same; eauto. Qed.
Lemma same_join ps : forall w, same_text (join (lit "/") ps) w -> exists ps', w = join (lit "/") ps' /\ Forall2 same_text ps ps'.
Proof.
  induction ps as [|a ps IH]; intros w S.
  - simpl in S. inversion S; subst. exists []. split; [reflexivity|constructor].
  - destruct ps as [|b ps].
    + exists [w]. split; [reflexivity|constructor; [exact S|constructor]].
    + change (join (lit "/") (a :: b :: ps)) with (a ++ lit "/" ++ join (lit "/") (b :: ps)) in S.
      destruct (same_app_inv _ _ S) as (a' & r & -> & Sa & Sr).
      change (lit "/" ++ join (lit "/") (b :: ps)) with (47 :: join (lit "/") (b :: ps)) in Sr.
      inversion Sr as [|? c ? r' Lc St]; subst. destruct (IH _ St) as (ps' & -> & F).
      exists (a' :: ps'). split; [|constructor; auto]. inversion F; subst.
      assert (c = 47) as -> by (unfold same_letter in Lc; lia). reflexivity.
Qed.
Lemma same_path w w' pts : same_text w w' -> path_word w pts -> path_word w' pts.
Proof.
  intros S (a & f & mids & ms & z & t & E & -> & F & M & T). apply same_unmarked in S. rewrite E in S.
  destruct (same_join _ S) as (ps' & E' & F2). inversion F2 as [|? a' ? r Sa F3]; subst.
  apply Forall2_app_inv_l in F3. destruct F3 as (mids' & zs & Fm & Fz & ->).
  inversion Fz as [|? z' ? ? Sz Fn]; subst. inversion Fn; subst.
  exists a', f, mids', ms, z', t. split; [exact E'|]. split; [reflexivity|]. split; [|split].
  - destruct F as [(F & ->)|F]; [left; split; auto; eapply same_trans; [apply same_sym; eauto|eauto]|right; eapply same_point; eauto].
  - clear - Fm M. revert ms M. induction Fm; intros ms M; inversion M; subst; constructor; eauto. eapply same_point; eauto.
  - destruct T as [(T & ->)|T]; [left; split; auto; eapply same_trans; [apply same_sym; eauto|eauto]|right; eapply same_point; eauto].
Qed.
Theorem C17_case : forall t t', same_text t t' -> normalize t = normalize t'.
Proof.
  assert (G : forall t t' st, same_text t t' -> move_text t st -> move_text t' st).
  { intros t t' st S [(P & ->)|(ws & ps & W & Nw & F & ->)].
    - left. split; auto. destruct P as (a & u & b & -> & A & B & Su).
      destruct (same_app_inv _ _ S) as (a' & r & -> & Sa & Sr). destruct (same_app_inv _ _ Sr) as (u' & b' & -> & Su' & Sb).
      exists a', u', b'. split; auto. split; [eapply same_blank; eauto|]. split; [eapply same_blank; eauto|].
      eapply same_trans; [apply same_sym; eauto|eauto].
    - right. destruct (same_words W S) as (ws' & W' & F'). exists ws', ps. split; auto. split.
      + intros ->. inversion F'; subst; auto.
      + split; auto. clear - F F'. revert ps F. induction F'; intros ps F; inversion F; subst; constructor; eauto. eapply same_path; eauto. }
  intros t t' S. apply normalize_same. intros st. split; apply G; auto. apply same_sym; auto.
Qed.

(** Only the words matter, not the blanks between and around them. *)
Lemma pass_words t : says_pass t <-> exists w, words t [w] /\ same_text w (lit "pass").
Proof.
  split.
  - intros (a & u & b & -> & A & B & S). exists u. split; auto.
    assert (Wu : blank_free u).
    { eapply same_free; [apply same_sym; exact S|]. split; [discriminate|]. change (lit "pass") with [112; 97; 115; 115].
      repeat constructor. }
    destruct b as [|c b].
    + rewrite app_nil_r. apply words_last; auto.
    + inversion B; subst. apply words_more; auto. apply words_none; auto.
  - intros (w & W & S). inversion W as [|b ? B F|b ? c t' ? B F C H]; subst.
    + exists b, w, []. rewrite app_nil_r. split; auto. split; auto. split; auto. constructor.
    + inversion H as [b' B'| |]; subst. exists b, w, (c :: t'). split; auto. split; auto. split; auto. constructor; auto.
Qed.
Lemma words_fun t a b : words t a -> words t b -> a = b.
Proof. rewrite !words_iff. congruence. Qed.
Theorem C17_blanks : forall t t' ws, words t ws -> words t' ws -> normalize t = normalize t'.
Proof.
  assert (G : forall t t' ws st, words t ws -> words t' ws -> move_text t st -> move_text t' st).
  { intros t t' ws st W W' [(P & ->)|(ws1 & ps & W1 & Nw & F & ->)].
    - left. split; auto. apply pass_words in P. destruct P as (w & Ww & S). rewrite (words_fun W Ww) in W'.
      apply pass_words. eauto.
    - right. rewrite (words_fun W1 W) in *. exists ws, ps. auto. }
  intros t t' ws W W'. apply normalize_same. intros st. split; eapply G; eauto.
Qed.
(** Hit marks and commas inside the words of a move (not of "pass") do not matter. *)
Theorem C17_marks : forall t t' ws ws', words t ws -> words t' ws' -> map unmarked ws = map unmarked ws' ->
  ~ says_pass t -> ~ says_pass t' -> normalize t = normalize t'.
Proof.
  assert (G : forall t t' ws ws' st, words t ws -> words t' ws' -> map unmarked ws = map unmarked ws' ->
    ~ says_pass t -> move_text t st -> move_text t' st).
  { intros t t' ws ws' st W W' E NP [(P & ->)|(ws1 & ps & W1 & Nw & F & ->)]; [tauto|]. right.
    rewrite (words_fun W1 W) in *. exists ws', ps. split; auto. split; [intros ->; destruct ws; [auto|discriminate E]|].
    split; auto. clear - E F. revert ws' E. induction F as [|w p ws ps Hw F IH]; intros [|w' ws'] E; try discriminate E; [constructor|].
    cbn [map] in E. assert (E1 : unmarked w = unmarked w') by congruence. assert (E2 : map unmarked ws = map unmarked ws') by congruence.
    constructor; auto. unfold path_word in *. rewrite <- E1. exact Hw. }
  intros t t' ws ws' W W' E NP NP'. apply normalize_same. intros st. split; eapply G; eauto.
Qed.
(** A chain of points can be split at any of them. *)
Lemma legs_split a n b : legs (a ++ n :: b) = legs (a ++ [n]) ++ legs (n :: b).
Proof.
  induction a as [|x a IH]; [reflexivity|]. destruct a as [|y a]; [reflexivity|].
  cbn [app] in *. change (legs (x :: y :: a ++ n :: b)) with (step x y :: legs (y :: a ++ n :: b)). rewrite IH. reflexivity.
Qed.
Theorem C17_chain : forall t t' pre post w w1 w2 pts1 n pts2,
  words t (pre ++ w :: post) -> words t' (pre ++ w1 :: w2 :: post) ->
  path_word w (pts1 ++ n :: pts2) -> path_word w1 (pts1 ++ [n]) -> path_word w2 (n :: pts2) ->
  normalize t = normalize t'.
Proof.
  intros t t' pre post w w1 w2 pts1 n pts2 W W' Pw P1 P2.
  assert (NWs : Forall no_ws (pre ++ w :: post)) by (eapply words_no_ws; eauto).
  assert (NWs' : Forall no_ws (pre ++ w1 :: w2 :: post)) by (eapply words_no_ws; eauto).
  apply Forall_app in NWs. destruct NWs as (_ & NW). inversion NW as [|? ? NWw _]; subst.
  apply Forall_app in NWs'. destruct NWs' as (_ & NW'). inversion NW' as [|? ? NW1 NW'']; subst. inversion NW'' as [|? ? NW2 _]; subst.
  apply normalize_same. intros st. split.
  - intros [(P & ->)|(ws & ps & W0 & Nw & F & ->)].
    + exfalso. apply pass_words in P. destruct P as (u & Wu & S). pose proof (words_fun W Wu) as E.
      destruct pre as [|x pre]; [|destruct pre; discriminate E]. inversion E; subst.
      apply (@pass_no_path t [u] [pts1 ++ n :: pts2]); [apply pass_words; eauto|auto|discriminate|repeat constructor; auto].
    + rewrite (words_fun W0 W) in F. apply Forall2_app_inv_l in F. destruct F as (pa & pb & Fa & Fb & ->).
      inversion Fb as [|? p ? pc Fp Fc]; subst. rewrite (path_word_fun NWw Fp Pw).
      right. exists (pre ++ w1 :: w2 :: post), (pa ++ (pts1 ++ [n]) :: (n :: pts2) :: pc).
      split; auto. split; [destruct pre; discriminate|]. split; [apply Forall2_app; auto; constructor; auto; constructor; auto|].
      rewrite !flat_map_app. cbn [flat_map]. rewrite (legs_split pts1 n pts2), <- app_assoc. reflexivity.
  - intros [(P & ->)|(ws & ps & W0 & Nw & F & ->)].
    + exfalso. apply pass_words in P. destruct P as (u & Wu & S). pose proof (words_fun W' Wu) as E.
      apply (f_equal (@List.length _)) in E. rewrite app_length in E. simpl in E. lia.
    + rewrite (words_fun W0 W') in F. apply Forall2_app_inv_l in F. destruct F as (pa & pb & Fa & Fb & ->).
      inversion Fb as [|? p ? pc Fp Fc]; subst. inversion Fc as [|? p' ? pd Fp' Fd]; subst.
      rewrite (path_word_fun NW1 Fp P1), (path_word_fun NW2 Fp' P2).
      right. exists (pre ++ w :: post), (pa ++ (pts1 ++ n :: pts2) :: pd).
      split; auto. split; [destruct pre; discriminate|]. split; [apply Forall2_app; auto|].
      rewrite !flat_map_app. cbn [flat_map]. rewrite (legs_split pts1 n pts2), <- app_assoc. reflexivity.
Qed.
(** Cases of the four: case, blanks, marks and chains. *)
Example C17_same_ex : let n := Some (lit "bar/20 13/8 8/5") in
  normalize (lit "bar/20 13/8 8/5") = n /\ normalize (lit "BaR/20 13/8 8/5") = n /\
  normalize (lit "  bar/20   13/8 8/5 ") = n /\ normalize (lit "bar/20*, 13/8*, 8/5") = n /\
  normalize (lit "bar/20 13/8/5") = n /\ normalize (lit "bar/20 13/8/5/off") <> n.
Proof. vm_compute. intuition discriminate. Qed.

Example C17_ex : normalize (lit " BAR/22*,  6/off 13/8/5*") = Some (lit "bar/22 6/off 13/8 8/5") /\
  normalize (lit "25/22") = None /\ normalize (lit "") = None /\ normalize (lit "Pass ") = Some (lit "pass").
Proof. vm_compute. auto. Qed.

(** ** C18 *)

Lemma apply_tag m k p d t : apply_move m (tag k p) d t = option_wrap (tag k) (apply_for m p d t).
Proof. destruct k; reflexivity. Qed.
Lemma legal_steps_tag m k p d : legal_steps m (tag k p) d = legal_for_steps m (checkers k) p d (tag k).
Proof. destruct k; reflexivity. Qed.
Lemma encode_tag m k p q d : encode_steps m (tag k p) (tag k q) d = encode_for m p q d.
Proof. destruct k; reflexivity. Qed.
Lemma encode_mismatch m k k' p q d : k <> k' -> encode_steps m (tag k p) (tag k' q) d = Ret (inl VariantMismatch).
Proof. destruct k, k'; intros H; try reflexivity; exfalso; apply H; reflexivity. Qed.
Lemma vlegal_tag d k p w : vlegal d (tag k p) w <-> exists r q, w = tag k q /\ legal_result d p r /\ mirrored r q.
Proof.
  split.
  - intros (k' & p' & q & r & E & -> & R & M). apply tag_inj in E. destruct E; subst. eauto.
  - intros (r & q & -> & R & M). exists k, p, q, r. auto.
Qed.

(** The full property is false: see [C18_refuted]. *)
Definition legal_moves_apply : Prop := forall m k v d l t w,
  vwf k v -> vongoing v -> valid_dice d -> legal_moves m v d = Ret (inr l) -> In (t, w) l ->
  apply_move m v d t = Ret (Some w).

(** [legal_moves] never fails or panics; the positions it lists are exactly the legal ones, each once;
    every text is a well-formed move text in normal form. *)
Theorem C18_children_exact : forall m k v d, vwf k v -> vongoing v -> valid_dice d ->
  exists l, legal_moves m v d = Ret (inr l) /\ NoDup (map snd l) /\
    (forall w, In w (map snd l) <-> vlegal d v w) /\
    (forall t w, In (t, w) l -> normalize t = Some t /\ exists st, move_text t st).
Proof.
  intros m k v d (p & -> & W) O V. apply vongoing_tag in O.
  destruct (@legal_for_steps_ret m (checkers k) p d (tag k) W O V) as (legal & s & _ & HL & E & Len & C).
  exists (map (fun e => (format_move_steps (fst e), snd e)) (filled (tag k) legal s)).
  split; [|split; [|split]].
  - unfold legal_moves. rewrite legal_steps_tag, E. reflexivity.
  - rewrite map_map. cbn [snd]. apply filled_nodup; auto.
    + intros a b H. apply tag_inj in H. tauto.
    + intros i j. eapply slot_unique; eauto.
  - intros w. rewrite map_map. cbn [snd]. rewrite in_map_iff, vlegal_tag. split.
    + intros (e & <- & I). apply in_filled in I; auto. destruct I as (i & x & Nx & Li & ->). cbn [snd].
      pose proof (nth_In legal (mk []) Li) as I. apply HL in I. destruct I as (r & R & E'). exists r, (flipP r).
      rewrite E'. split; auto. split; auto. apply flipP_mirrored. apply (legal_result_wf W V R).
    + intros (r & q & -> & R & M). apply mirrored_iff in M; [|apply (legal_result_wf W V R)]. subst q.
      destruct (@slot_filled (checkers k) p d legal s W V HL C (flipP r)) as (i & x & Nx & Li & En). { apply HL. eauto. }
      exists (x, tag k (flipP r)). split; auto. apply in_filled; auto. exists i, x. rewrite En. auto.
  - intros t w I. apply in_map_iff in I. destruct I as (e & Ee & I). apply in_filled in I; auto.
    destruct I as (i & x & Nx & Li & ->). cbn [fst snd] in Ee. inversion Ee; subst.
    pose proof (@slot_on_board p d legal s V C i x Nx) as OB. pose proof (format_move_text OB) as M.
    split; [apply normalize_iff|]; eauto.
Qed.

(** The text of a listed child plays to that child if the roll is a double, or no opposing checker is
    hit, or the play can be made with the bigger die first. *)
Theorem C18_texts_apply_partial : forall m m' k v d l t w,
  vwf k v -> vongoing v -> valid_dice d -> legal_moves m v d = Ret (inr l) -> In (t, w) l ->
  (match d with
   | Double _ => True
   | Mixed big small =>
       pt (board_of w) 25 = - pt (board_of v) 0 \/
       exists r, in_order [big; small] (board_of v) r /\ mirrored r (board_of w)
   end) ->
  apply_move m' v d t = Ret (Some w).
Proof.
  intros m m' k v d l t w (p & -> & W) O V El I Cond. apply vongoing_tag in O. rewrite board_of_tag in Cond.
  destruct (@legal_for_steps_ret m (checkers k) p d (tag k) W O V) as (legal & s & _ & HL & E & Len & C).
  unfold legal_moves in El. rewrite legal_steps_tag, E in El. cbn in El. inversion El; subst l. clear El.
  apply in_map_iff in I. destruct I as (e & Ee & I). apply in_filled in I; auto.
  destruct I as (i & x & Nx & Li & ->). cbn [fst snd] in Ee. inversion Ee; subst. clear Ee.
  pose proof (nth_In legal (mk []) Li) as I. apply HL in I. destruct I as (r & R & Er).
  pose proof (legal_result_wf W V R) as Wr. rewrite board_of_tag, Er in Cond.
  destruct (@slot_applies m' (checkers k) p d legal s W V HL Len C i x r Nx Li Er R) as (Co & OB).
  { destruct d as [b sm|]; auto. destruct Cond as [NH|(r' & IO & M)].
    - right. rewrite pt_flipP in NH by (try apply Wr; lia). change (25 - 25)%nat with 0%nat in NH. lia.
    - left. assert (r' = r) as ->.
      { assert (L' : List.length (pips r') = 26%nat).
        { destruct V as (Vb & Vs & _). assert (F : Forall valid_die [b; sm]) by (constructor; [auto|constructor; [auto|constructor]]).
          clear - IO W F. revert W F. generalize (checkers k). intros N W F. apply (wf_len (N := N)).
          induction IO as [|d ds a p q r M Mv IO IH|d ds p r No IO IH]; auto; inversion F; subst; auto.
          apply IH; auto. apply moved_iff in Mv; [|apply W|eapply may_move_range; eauto|auto]. subst q.
          eapply may_wf; eauto. match goal with H : valid_die _ |- _ => destruct H; lia end. }
        apply mirrored_iff in M; auto. apply flipP_inj. auto. }
      destruct V as (Vb & Vs & _). assert (F : Forall valid_die [b; sm]) by (constructor; [auto|constructor; [auto|constructor]]).
      clear - IO W F. revert W F. generalize (checkers k). intros N W F.
      induction IO as [|d ds a p q r M Mv IO IH|d ds p r No IO IH]; [exists []; constructor| |]; inversion F as [|? ? Fd Fs]; subst.
      + apply moved_iff in Mv; [|apply W|eapply may_move_range; eauto|destruct Fd; lia]. subst q.
        destruct (IH (may_wf W Fd M) Fs) as (st & L). eexists. apply leaf_move; eauto.
      + destruct (IH W Fs) as (st & L). exists st. apply leaf_skip; auto. }
  rewrite apply_tag, (apply_for_core m' p d (format_move_text OB)), Co. cbn. rewrite Er. reflexivity.
Qed.

(** Witness: x (to move) on 12, 13 and 15, o on 10, 11 and 14, roll 3-1.  The play 15/14*/11* hits
    twice; it is listed under the text of another play, which the position does not allow. *)
Definition w18 : position :=
  {| turn := true;
     pips := [0; 0; 0; 0; 0; 0; 0; 0; 0; 0; -1; -1; 1; 1; -1; 1; 0; 0; 0; 0; 0; 0; 0; 0; 0; 0];
     x_off := 0; o_off := 0 |}.
Definition rejected_text (l : list (str * vpos)) (v : vpos) (d : dice) : option (str * vpos) :=
  find (fun e => match apply_move Debug v d (fst e) with Ret None => true | _ => false end) l.
Theorem C18_refuted : ~ legal_moves_apply.
Proof.
  intros H.
  assert (Wv : vwf Hypergammon (tag Hypergammon w18)) by (eexists; split; [reflexivity|solve_wf]).
  assert (Ov : vongoing (tag Hypergammon w18)) by (apply vongoing_tag; vm_compute; auto).
  assert (Vd : valid_dice (Mixed 3 1)) by (cbn; unfold valid_die; lia).
  destruct (legal_moves Debug (tag Hypergammon w18) (Mixed 3 1)) as [[e|l]|e] eqn:E.
  - vm_compute in E. discriminate.
  - pose proof (fun t w => H Debug Hypergammon (tag Hypergammon w18) (Mixed 3 1) l t w) as H'.
    assert (X : exists t w, In (t, w) l /\ apply_move Debug (tag Hypergammon w18) (Mixed 3 1) t = Ret None).
    { destruct (rejected_text l (tag Hypergammon w18) (Mixed 3 1)) as [(t, w)|] eqn:F.
      - apply find_some in F. destruct F as (I & F). exists t, w. split; auto. cbn [fst] in F.
        destruct (apply_move Debug (tag Hypergammon w18) (Mixed 3 1) t) as [[?|]|]; [discriminate|auto|discriminate].
      - exfalso. assert (E' : match legal_moves Debug (tag Hypergammon w18) (Mixed 3 1) with
           | Ret (inr l) => rejected_text l (tag Hypergammon w18) (Mixed 3 1) <> None | _ => True end) by (vm_compute; discriminate).
        rewrite E in E'. apply E'. exact F. }
    destruct X as (t & w & I & A). rewrite (H' t w Wv Ov Vd E I) in A. discriminate.
  - vm_compute in E. discriminate.
Qed.

(** Non-vacuity: an opening roll; all 16 texts apply (no play hits). *)
Example C18_ex : match legal_moves Debug (start_position Backgammon) (Mixed 3 1) with
  | Ret (inr l) => List.length l = 16%nat /\ rejected_text l (start_position Backgammon) (Mixed 3 1) = None
  | _ => False end.
Proof. vm_compute. auto. Qed.

(** ** C19 *)

(** Every legal child can be encoded, and the text plays to it (in any combination of builds). *)
Theorem C19_encode_legal : forall m m' k v d w, vwf k v -> valid_dice d -> vlegal d v w ->
  exists t, encode_move m v w d = Ret (inr t) /\ apply_move m' v d t = Ret (Some w).
Proof.
  intros m m' k v d w (p & -> & W) V Lg. apply vlegal_tag in Lg. destruct Lg as (r & q & -> & R & M).
  apply mirrored_iff in M; [|apply (legal_result_wf W V R)]. subst q.
  destruct (encode_legal m W V R) as (st & E & OB & Co).
  exists (format_move_steps st). unfold encode_move. rewrite encode_tag, E. cbn. split; auto.
  rewrite apply_tag, (apply_for_core m' p d (format_move_text OB)), Co. reflexivity.
Qed.

Example C19_ex : exists w, vlegal (Mixed 3 1) (start_position Backgammon) w.
Proof.
  destruct (C02_movegen_total Debug (Mixed 3 1) (proj1 (start_wf Backgammon)) (proj2 (start_wf Backgammon))) as (l & E & Nl).
  { cbn. unfold valid_die. lia. }
  destruct (C01_legal_positions_exact Debug (Mixed 3 1) (proj1 (start_wf Backgammon)) (proj2 (start_wf Backgammon))) as (l' & E' & H).
  { cbn. unfold valid_die. lia. }
  destruct l as [|w l]; [congruence|]. exists w. apply H. rewrite E in E'. inversion E'; subst. left. auto.
Qed.

(** ** C20 *)

(** The full property is false: see [C20_refuted]. *)
Definition apply_only_legal : Prop := forall m k v d t w,
  vwf k v -> vongoing v -> valid_dice d -> apply_move m v d t = Ret (Some w) -> vlegal d v w.

(** What holds in a debug build holds in release. *)
Lemma mono_try_dice {A} (f g : nat -> nat -> res (option A)) skip buf l :
  (forall i d, refines (f i d) (g i d)) -> refines (try_dice f skip buf l) (try_dice g skip buf l).
Proof.
  intros H. induction l as [|i l IH]; cbn [try_dice]; [apply refines_refl|]. destruct (skip i); auto.
  apply refines_bind; [apply refines_refl|intros die]. apply refines_bind; auto.
  intros [a|]; auto. apply refines_refl.
Qed.
Lemma mono_apply_steps buf len : forall st p k, refines (apply_steps Debug st p buf len k) (apply_steps Release st p buf len k).
Proof.
  induction st as [|s st IH]; intros p k; cbn [apply_steps]; [apply refines_refl|].
  apply mono_try_dice. intros i d. destruct (step_matches_die s d); [|apply refines_refl].
  apply refines_bind; [apply mono_try_move|]. intros [n|]; auto. apply refines_refl.
Qed.
Lemma mono_any p d l : refines (any_from Debug p d l) (any_from Release p d l).
Proof.
  induction l as [|a l IH]; cbn [any_from]; [apply refines_refl|].
  apply refines_bind; [apply mono_try_move|]. intros [n|]; auto. apply refines_refl.
Qed.
Lemma mono_leftover p k buf l : refines (leftover Debug p k buf l) (leftover Release p k buf l).
Proof.
  induction l as [|i l IH]; cbn [leftover]; [apply refines_refl|].
  apply refines_bind; [apply refines_refl|]. intros die. destruct (bit_set k i); auto.
  apply refines_bind; [apply mono_any|]. intros []; auto. apply refines_refl.
Qed.
Lemma core_mode p d st : refines (core Debug p d st) (core Release p d st).
Proof.
  unfold core. destruct d as [b s|a]; cbv beta zeta iota; (apply refines_bind; [apply mono_apply_steps|]);
    (intros [[c k]|]; [|apply refines_refl]); (apply refines_bind; [apply mono_leftover|]);
    (intros []; [apply refines_refl|]); (apply refines_bind; [apply mono_flip|]); intros; apply refines_refl.
Qed.

(** [apply_move] never panics, and says the same in every build. *)
Theorem C20_total : forall k v d t, vwf k v -> valid_dice d ->
  exists o, forall m, apply_move m v d t = Ret o.
Proof.
  intros k v d t (p & -> & W) V. destruct (move_text_dec t) as [(st & M)|N].
  - destruct (core_ret Debug d W V (move_text_on_board M)) as (o & E & H).
    exists (option_map (tag k) o). intros m. rewrite apply_tag, (apply_for_core m p d M).
    assert (Em : core m p d st = Ret o).
    { destruct m; auto. apply core_mode, E. }
    rewrite Em. reflexivity.
  - exists None. intros m. rewrite apply_tag, (apply_for_none m p d N). reflexivity.
Qed.

(** What is accepted: the text says a move; its steps use some of the dice, one after the other; no
    die left over could be played afterwards. *)
Theorem C20_accepted_partial : forall m k v d t w,
  vwf k v -> valid_dice d -> apply_move m v d t = Ret (Some w) ->
  exists st ds rest r q, move_text t st /\ List.length st = List.length ds /\
    Permutation.Permutation (ds ++ rest) (pool d) /\ plays ds (board_of v) r /\
    mirrored r q /\ w = tag k q /\ (forall x, In x rest -> forall a, ~ may_move r x a).
Proof.
  intros m k v d t w (p & -> & W) V E. rewrite apply_tag in E. rewrite board_of_tag.
  destruct (move_text_dec t) as [(st & M)|N]; [|rewrite (apply_for_none m p d N) in E; discriminate].
  rewrite (apply_for_core m p d M) in E. pose proof (move_text_on_board M) as OB.
  destruct (core_ret m d W V OB) as (o & E' & _). rewrite E' in E. destruct o as [r|]; [|discriminate].
  cbn in E. assert (w = tag k r) as -> by congruence.
  destruct (core_some m d W V OB E') as (q & ds & rest & P & Pm & Ln & Wq & -> & No).
  exists st, ds, rest, q, (flipP q). split; [auto|]. split; [auto|]. split; [auto|]. split; [auto|].
  split; [apply flipP_mirrored, Wq|]. split; auto.
Qed.

Lemma plays_one_exists N p x : wf N p -> valid_die x -> (forall a, ~ may_move p x a) -> forall r, ~ plays [x] p r.
Proof. intros W V No r P. apply (plays_one r W V) in P. destruct P as (a & M & _). exact (No a M). Qed.

(** It is a legal play if the roll is a double or the text does not have exactly one step. *)
Theorem C20_legal_partial : forall m k v d t w,
  vwf k v -> valid_dice d -> apply_move m v d t = Ret (Some w) ->
  (forall b s st, d = Mixed b s -> move_text t st -> List.length st <> 1%nat) -> vlegal d v w.
Proof.
  intros m k v d t w Wv V E Cond. destruct (C20_accepted_partial m d t Wv V E) as (st & ds & rest & r & q & M & Ln & Pm & P & Mr & -> & No).
  destruct Wv as (p & -> & W). rewrite board_of_tag in P. apply vlegal_tag. exists r, q. split; auto. split; auto. clear Mr.
  destruct d as [b s|a].
  - specialize (Cond b s st eq_refl M). destruct V as (Vb & Vs & Lt). apply legal_mixed; auto.
    cbn [pool] in Pm. pose proof (Permutation.Permutation_length Pm) as Lp. rewrite app_length in Lp. simpl in Lp.
    destruct ds as [|x [|y [|z ds]]]; simpl in *; try lia.
    + right. right. right. assert (r = p) as -> by (apply plays_nil_inv; auto).
      assert (Nb : forall a, ~ may_move p b a).
      { apply No. apply (Permutation.Permutation_in _ (Permutation.Permutation_sym Pm)). left. auto. }
      assert (Ns : forall a, ~ may_move p s a).
      { apply No. apply (Permutation.Permutation_in _ (Permutation.Permutation_sym Pm)). right. left. auto. }
      split; [|split; [|split; [|reflexivity]]].
      * intros r' [X|X]; [apply (plays_two _ W Vb Vs) in X|apply (plays_two _ W Vs Vb) in X];
          destruct X as (u & z & M1 & _); [exact (Nb _ M1)|exact (Ns _ M1)].
      * exact (plays_one_exists W Vb Nb).
      * exact (plays_one_exists W Vs Ns).
    + left. destruct rest; [|simpl in Lp; lia].
      apply Permutation.Permutation_sym, Permutation.Permutation_length_2_inv in Pm.
      destruct Pm as [Pm|Pm]; inversion Pm; subst; [left|right]; auto.
  - assert (U : uses (Double a) ds) by (exists rest; exact Pm).
    apply uses_double in U. destruct U as (n & Hn & ->). cbn [valid_dice] in V.
    apply (plays_repeat V n r W) in P. destruct P as (l & Ll & S & ->).
    eapply (leaf_legal_double V W (st := map (fun x => step x (x - a)) l)).
    change [a; a; a; a] with (repeat a 4). apply seq_leaf; auto; [lia|]. intros Lt.
    refine (No a _). destruct rest as [|y rest]; [exfalso; apply Permutation.Permutation_length in Pm; rewrite app_length, repeat_length in Pm; simpl in Pm; lia|].
    assert (y = a) as ->; [|left; auto].
    assert (I : In y (pool (Double a))) by (apply (Permutation.Permutation_in _ Pm); apply in_or_app; right; left; auto).
    simpl in I. intuition.
Qed.

(** Conversely, the text of every legal play is accepted and gives its result. *)
Theorem C20_accepts_legal : forall m k v d ds st r q t,
  vwf k v -> valid_dice d -> legal_play d (board_of v) ds r -> plays_as ds st (board_of v) r ->
  mirrored r q -> move_text t st -> apply_move m v d t = Ret (Some (tag k q)).
Proof.
  intros m k v d ds st r q t (p & -> & W) V LP PA Mr M. rewrite board_of_tag in *.
  destruct (core_complete m W V LP PA) as (Co & OB).
  assert (R : legal_result d p r) by (exists ds; exact LP).
  apply mirrored_iff in Mr; [|apply (legal_result_wf W V R)]. subst q.
  rewrite apply_tag, (apply_for_core m p d M), Co. reflexivity.
Qed.
(** A case: the opening 3-1 played to the 5 point, written in either order. *)
Example C20_ex : exists w,
  apply_move Debug (start_position Backgammon) (Mixed 3 1) (lit "8/5 6/5") = Ret (Some w) /\
  apply_move Debug (start_position Backgammon) (Mixed 3 1) (lit "6/5 8/5") = Ret (Some w) /\
  apply_move Debug (start_position Backgammon) (Mixed 3 1) (lit "8/5") = Ret None /\
  apply_move Debug (start_position Backgammon) (Mixed 3 1) (lit "8/4") = Ret None /\
  vlegal (Mixed 3 1) (start_position Backgammon) w.
Proof.
  assert (E : exists w, apply_move Debug (start_position Backgammon) (Mixed 3 1) (lit "8/5 6/5") = Ret (Some w) /\
    apply_move Debug (start_position Backgammon) (Mixed 3 1) (lit "6/5 8/5") = Ret (Some w) /\
    apply_move Debug (start_position Backgammon) (Mixed 3 1) (lit "8/5") = Ret None /\
    apply_move Debug (start_position Backgammon) (Mixed 3 1) (lit "8/4") = Ret None)
    by (eexists; vm_compute; repeat split; reflexivity).
  destruct E as (w & A & B & C & D). exists w. repeat (split; [assumption|]).
  apply (@C20_legal_partial Debug Backgammon _ _ _ _ (proj1 (start_wf Backgammon))) in A;
    [exact A|cbv; lia|].
  intros b s st _ T. assert (T' : move_text (lit "8/5 6/5") [step 8 5; step 6 5]).
  { refine (@format_move_text [step 8 5; step 6 5] _). repeat constructor; cbn; lia. }
  rewrite (C17_unambiguous T T'). discriminate.
Qed.

(** Witness: x on 20, 14, 14; o on 13, 13, 24; roll 6-1.  The legal plays use both dice (20/19 14/8),
    but "20/14" alone is accepted, after which no 1 can be played. *)
Definition w20 : position :=
  {| turn := true;
     pips := [0; 0; 0; 0; 0; 0; 0; 0; 0; 0; 0; 0; 0; -2; 2; 0; 0; 0; 0; 0; 1; 0; 0; 0; -1; 0];
     x_off := 0; o_off := 0 |}.
Lemma w20_wf : vwf Hypergammon (tag Hypergammon w20) /\ vongoing (tag Hypergammon w20) /\ valid_dice (Mixed 6 1).
Proof.
  split; [eexists; split; [reflexivity|solve_wf]|]. split; [apply vongoing_tag; vm_compute; auto|].
  cbn. unfold valid_die. lia.
Qed.
Definition w20' : vpos := VHypergammon
  {| turn := false;
     pips := [0; 1; 0; 0; 0; 0; 0; 0; 0; 0; 0; -3; 2; 0; 0; 0; 0; 0; 0; 0; 0; 0; 0; 0; 0; 0];
     x_off := 0; o_off := 0 |}.
Lemma w20_illegal w : position_eqb (board_of w) (board_of w20') = true -> ~ vlegal (Mixed 6 1) (tag Hypergammon w20) w.
Proof.
  intros Eq L. destruct w20_wf as (W & O & V).
  destruct (C01_legal_positions_exact Debug (Mixed 6 1) W O V) as (l & E & H). apply H in L.
  assert (X : match legal_positions Debug (tag Hypergammon w20) (Mixed 6 1) with
    | Ret l => existsb (fun w => position_eqb (board_of w) (board_of w20')) l = false | _ => False end) by (vm_compute; reflexivity).
  rewrite E in X. rewrite <- not_true_iff_false in X. apply X. apply existsb_exists. eauto.
Qed.
Theorem C20_refuted : ~ apply_only_legal.
Proof.
  intros H. destruct w20_wf as (W & O & V).
  apply (@w20_illegal w20'); [reflexivity|]. apply (H Debug Hypergammon _ _ (lit "20/14") _ W O V). vm_compute. reflexivity.
Qed.

(** ** C21 *)

(** The full property is false: see [C21_refuted]. *)
Definition encode_only_legal : Prop := forall m k v w d t,
  vwf k v -> vwf k w -> vongoing v -> valid_dice d -> encode_move m v w d = Ret (inr t) ->
  exists w', vlegal d v w' /\ same_board (board_of w) (board_of w').

(** A position of another variant is always rejected. *)
Theorem C21_variant_mismatch : forall m v w d, vp_variant v <> vp_variant w ->
  encode_move m v w d = Ret (inl VariantMismatch).
Proof.
  intros m v w d H. rewrite (tag_surj v), (tag_surj w). unfold encode_move. rewrite encode_mismatch by auto. reflexivity.
Qed.

Lemma leaf_in_order N o : forall p q, wf N p -> Forall valid_die o -> (exists st, leaf o p st q) <-> in_order o p q.
Proof.
  induction o as [|d o IH]; intros p q W V.
  - split.
    + intros (st & L). inversion L; subst. constructor.
    + intros H. inversion H; subst. exists []. constructor.
  - inversion V as [|? ? Vd Vo]; subst. split.
    + intros (st & L). inversion L as [|? ? ? a st' ? M L'|? ? ? ? ? No L']; subst.
      * econstructor; [exact M| |apply (IH (mv p d a) q (may_wf W Vd M) Vo); eauto].
        apply moved_iff; auto; [apply W|eapply may_move_range; eauto|destruct Vd; lia].
      * apply in_order_skip; auto. apply (IH p q W Vo). eauto.
    + intros H. inversion H as [|? ? a ? q' ? M Mv H'|? ? ? ? No H']; subst.
      * apply moved_iff in Mv; [|apply W|eapply may_move_range; eauto|destruct Vd; lia]. subst q'.
        apply (IH (mv p d a) q (may_wf W Vd M) Vo) in H'. destruct H' as (st & L). eexists. apply leaf_move; eauto.
      * apply (IH p q W Vo) in H'. destruct H' as (st & L). exists st. apply leaf_skip; auto.
Qed.

(** What is accepted: exactly the boards that can be reached by playing the dice in one of the two
    orders, passing over a die only when it cannot be played.  Anything else is
    [EncodeTargetNotReachable]. *)
Theorem C21_accepted_exact_partial : forall m k v w d, vwf k v -> vwf k w -> valid_dice d ->
  exists o, encode_move m v w d = Ret o /\
  match o with
  | inr t => exists ord r q, In ord (orders d) /\ in_order ord (board_of v) r /\ mirrored r q /\ same_board (board_of w) q
  | inl e => e = EncodeTargetNotReachable /\
      forall ord r q, In ord (orders d) -> in_order ord (board_of v) r -> mirrored r q -> ~ same_board (board_of w) q
  end.
Proof.
  intros m k v w d (p & -> & W) (n & -> & Wn) V. rewrite !board_of_tag. unfold encode_move. rewrite encode_tag.
  change (orders d) with (die_orders d).
  destruct (encode_ret m d W Wn V) as (o & E & H). rewrite E. destruct o as [e|st]; cbn; eexists; (split; [reflexivity|]); cbv beta iota.
  - destruct H as (-> & H). split; auto. intros ord r q I IO M (S1 & S2 & S3).
    apply (leaf_in_order _ W (order_valid _ _ V I)) in IO. destruct IO as (st & L).
    pose proof (leaf_wf W (order_valid _ _ V I) L) as Wr. apply mirrored_iff in M; [|apply Wr]. subst q.
    specialize (H _ _ _ I L). rewrite <- not_true_iff_false in H. apply H. apply eqb_flip. rewrite flipP_involutive.
    rewrite eqb_sym. apply position_eqb_iff. auto.
  - destruct H as (ord & q & I & L & Q & _). exists ord, q, (flipP q). split; auto.
    pose proof (leaf_wf W (order_valid _ _ V I) L) as Wq.
    split; [apply (leaf_in_order _ W (order_valid _ _ V I)); eauto|]. split; [apply flipP_mirrored, Wq|].
    apply position_eqb_iff. rewrite eqb_sym. apply eqb_flip. rewrite flipP_involutive. exact Q.
Qed.

(** For doubles this is the legal positions exactly. *)
Theorem C21_doubles_partial : forall m k v w a t, vwf k v -> vwf k w -> valid_die a ->
  encode_move m v w (Double a) = Ret (inr t) ->
  exists w', vlegal (Double a) v w' /\ same_board (board_of w) (board_of w').
Proof.
  intros m k v w a t Wv Ww V E.
  destruct (C21_accepted_exact_partial m (Double a) Wv Ww V) as (o & E' & H). rewrite E in E'.
  assert (o = inr t) as -> by congruence. destruct H as (ord & r & q & I & IO & M & S).
  destruct Wv as (p & -> & W). rewrite board_of_tag in *. destruct I as [<-|[]].
  assert (Vo : Forall valid_die [a; a; a; a]) by (repeat (constructor; [exact V|]); constructor).
  apply (leaf_in_order _ W Vo) in IO. destruct IO as (st & L).
  exists (tag k q). rewrite board_of_tag. split; auto. apply vlegal_tag. exists r, q. split; auto. split; auto.
  exact (leaf_legal_double V W L).
Qed.
(** Cases: a legal target, an unreachable one, and one of another variant. *)
Example C21_ex :
  (exists w t, legal_positions Debug (start_position Hypergammon) (Double 1) = Ret (w :: t) /\
     exists s, encode_move Debug (start_position Hypergammon) w (Double 1) = Ret (inr s)) /\
  encode_move Debug (start_position Hypergammon) (start_position Hypergammon) (Double 1)
    = Ret (inl EncodeTargetNotReachable) /\
  encode_move Debug (start_position Hypergammon) (start_position Backgammon) (Double 1) = Ret (inl VariantMismatch).
Proof.
  split; [|split; vm_compute; reflexivity].
  eexists. eexists. split; [vm_compute; reflexivity|]. eexists. vm_compute. reflexivity.
Qed.

(** Witness: the same position as for C20. *)
Theorem C21_refuted : ~ encode_only_legal.
Proof.
  intros H. destruct w20_wf as (W & O & V).
  assert (W' : vwf Hypergammon w20') by (eexists; split; [reflexivity|solve_wf]).
  destruct (H Debug Hypergammon _ w20' (Mixed 6 1) (lit "20/14") W W' O V) as (w & L & (S1 & S2 & S3)); [vm_compute; reflexivity|].
  apply (@w20_illegal w); auto. apply position_eqb_iff. auto.
Qed.

