(** Property C99: an episode can be cut anywhere, and its dice do not depend on how it is played.
    Read with SpecCut.v and SpecEpisode.v. *)
From Verif Require Import SpecCut.
Unset Implicit Arguments.
Open Scope Z_scope.

(** ** Cutting an episode *)
Section Cut.
Context {G S : Type} (m : mode) (R : rules) (D : dice_gen G) (P : policy S).

(** After the opening, the ply number matters only for the count. *)
Lemma loop_opened n mx mx' : forall todo ply ply' g dg ps, (0 < ply)%nat -> (ply = n + ply')%nat -> (mx = n + mx')%nat ->
  episode_loop m R D P mx todo ply g dg ps = plus n (episode_loop m R (opened D) P mx' todo ply' g dg ps).
Proof.
  induction todo as [|todo IH]; intros ply ply' g dg ps H0 H1 H2; cbn [episode_loop].
  { cbn [plus]. rewrite H2. reflexivity. }
  destruct (Nat.eqb_spec ply 0); [lia|].
  replace (if (ply' =? 0)%nat then gen_roll_mixed (opened D) dg else gen_roll (opened D) dg) with (gen_roll D dg)
    by (destruct (ply' =? 0)%nat; reflexivity).
  destruct (gen_roll D dg) as [(d & dg')|k]; [|reflexivity]. cbn [bind].
  destruct (game_legal_positions_with R g d) as [[|w l]|k]; [cbn [bind plus]; rewrite H1; reflexivity| |reflexivity].
  cbn [bind]. destruct (P ps (g_position g) d (w :: l)) as (i & ps').
  destruct (length (w :: l) <=? i)%nat; [reflexivity|].
  destruct (index (w :: l) i) as [p|k]; [|reflexivity]. cbn [bind g_position].
  destruct (vp_game_state m p) as [[|r]|k]; [|cbn [bind plus]; do 5 f_equal; lia|reflexivity]. cbn [bind].
  apply IH; lia.
Qed.

Lemma loop_cut a b : forall todo ply g dg ps, (ply + todo = a)%nat -> (0 < a)%nat -> ((0 < todo)%nat \/ vp_game_state m (g_position g) = Ret Ongoing) ->
  let r := episode_loop m R D P a todo ply g dg ps in
  (cut_short m a r -> exists g1 dg1 ps1, r = Ret (GOk a, g1, dg1, ps1) /\
     episode_loop m R D P (a + b) (todo + b) ply g dg ps = episode_loop m R D P (a + b) b a g1 dg1 ps1) /\
  (~ cut_short m a r -> episode_loop m R D P (a + b) (todo + b) ply g dg ps = r).
Proof.
  induction todo as [|todo IH]; intros ply g dg ps H1 H2 H3 r; subst r.
  { destruct H3 as [H3|H3]; [lia|]. cbn [episode_loop cut_short Nat.add]. replace ply with a by lia. split.
    - intros _. exists g, dg, ps. split; reflexivity.
    - intros X. exfalso. apply X. split; auto. }
  change (Datatypes.S todo + b)%nat with (Datatypes.S (todo + b)). cbn [episode_loop].
  destruct (if (ply =? 0)%nat then gen_roll_mixed D dg else gen_roll D dg) as [(d & dg')|k]; [|split; [intros []|reflexivity]].
  cbn [bind].
  destruct (game_legal_positions_with R g d) as [[|w l]|k]; [|cbn [bind]|split; [intros []|reflexivity]].
  { cbn [bind cut_short]. split; [intros (X & _); lia|reflexivity]. }
  destruct (P ps (g_position g) d (w :: l)) as (i & ps').
  destruct (length (w :: l) <=? i)%nat; [split; [intros []|reflexivity]|].
  destruct (index (w :: l) i) as [p|k]; [|split; [intros []|reflexivity]]. cbn [bind g_position].
  destruct (vp_game_state m p) as [[|res]|k] eqn:E; cbn [bind]; [| |split; [intros []|reflexivity]].
  - apply IH; auto; lia.
  - cbn [cut_short g_position]. split; [intros (_ & X); congruence|reflexivity].
Qed.

(** Playing [a] plies and then [b] more, from a source of dice that may now open with a double, is playing [a + b] plies;
    and if the first part does not just run out of plies in a game that goes on, it is the whole episode.
    All rules, policies, dice sources and games, panics included. *)
Theorem C99_cut : forall a b g dg ps, (0 < a)%nat ->
  let first := play_episode_with m R D P a g dg ps in
  (cut_short m a first -> exists g1 dg1 ps1, first = Ret (GOk a, g1, dg1, ps1) /\
     play_episode_with m R D P (a + b) g dg ps = plus a (play_episode_with m R (opened D) P b g1 dg1 ps1)) /\
  (~ cut_short m a first -> play_episode_with m R D P (a + b) g dg ps = first).
Proof.
  intros a b g dg ps Ha first. destruct (loop_cut a b a 0 g dg ps eq_refl Ha (or_introl Ha)) as (X & Y).
  split; [|exact Y]. intros H. destruct (X H) as (g1 & dg1 & ps1 & E1 & E2). exists g1, dg1, ps1. split; [exact E1|].
  unfold play_episode_with at 1. rewrite E2. apply loop_opened; lia.
Qed.
End Cut.

(** ** The dice *)
Section Dice.
Context {G S : Type} (m : mode) (R : rules) (D : dice_gen G) (P : policy S).

(** Watching changes nothing. *)
Definition unwatched (r : res (gres nat * game * G * (S * list dice))) : res (gres nat * game * G * S) :=
  match r with Ret (x, g, dg, (ps, _)) => Ret (x, g, dg, ps) | Panic k => Panic k end.
Lemma loop_watching mx : forall todo ply g dg ps log,
  unwatched (episode_loop m R D (watching P) mx todo ply g dg (ps, log)) = episode_loop m R D P mx todo ply g dg ps.
Proof.
  induction todo as [|todo IH]; intros ply g dg ps log; [reflexivity|]. cbn [episode_loop].
  destruct (if (ply =? 0)%nat then gen_roll_mixed D dg else gen_roll D dg) as [(d & dg')|k]; [|reflexivity]. cbn [bind].
  destruct (game_legal_positions_with R g d) as [[|w l]|k]; [reflexivity| |reflexivity]. cbn [bind].
  unfold watching at 1. cbn [fst snd]. destruct (P ps (g_position g) d (w :: l)) as (i & ps'). cbn [fst snd].
  destruct (length (w :: l) <=? i)%nat; [reflexivity|].
  destruct (index (w :: l) i) as [p|k]; [|reflexivity]. cbn [bind g_position].
  destruct (vp_game_state m p) as [[|r]|k]; [apply IH|reflexivity|reflexivity].
Qed.
Theorem C99_watching : forall max g dg ps log,
  unwatched (play_episode_with m R D (watching P) max g dg (ps, log)) = play_episode_with m R D P max g dg ps.
Proof. intros. apply loop_watching. Qed.

Inductive row_from : nat -> G -> list dice -> G -> Prop :=
| rf_none ply dg : row_from ply dg [] dg
| rf_one ply dg d dg1 l dg2 : (if (ply =? 0)%nat then gen_roll_mixed D dg else gen_roll D dg) = Ret (d, dg1) ->
    row_from (ply + 1) dg1 l dg2 -> row_from ply dg (d :: l) dg2.
Lemma row_from_later ply dg l dg' : row_from ply dg l dg' -> (0 < ply)%nat -> later_rolls D dg l dg'.
Proof.
  induction 1 as [|ply dg d dg1 l dg2 E _ IH]; intros H; [constructor|].
  destruct (Nat.eqb_spec ply 0); [lia|]. econstructor; [exact E|]. apply IH. lia.
Qed.
Lemma row_from_zero dg l dg' : row_from 0 dg l dg' -> rolls_in_a_row D dg l dg'.
Proof.
  intros H. inversion H as [|? ? d dg1 l' ? E F]; subst; [constructor|]. cbn in E. econstructor; [exact E|].
  eapply row_from_later; [exact F|lia].
Qed.

(** What is rolled: the dice shown to the policy, and one roll more exactly if the rules then list nothing. *)
Definition unanswered (r : gres nat) (max : nat) (g : game) (extra : list dice) : Prop :=
  extra = [] \/ exists d n, extra = [d] /\ r = GOk n /\ (n < max)%nat /\ game_legal_positions_with R g d = Ret [].
Definition answered (r : gres nat) (n : nat) : Prop := match r with GOk k => k = n | GErr _ => True end.

Lemma loop_dice mx : forall todo ply g dg ps log r g' dg' ps' log', (ply + todo = mx)%nat -> length log = ply ->
  episode_loop m R D (watching P) mx todo ply g dg (ps, log) = Ret (r, g', dg', (ps', log')) ->
  exists more extra, log' = log ++ more /\ row_from ply dg (more ++ extra) dg' /\ answered r (length log') /\
    unanswered r mx g' extra /\ (length log' <= mx)%nat.
Proof.
  induction todo as [|todo IH]; intros ply g dg ps log r g' dg' ps' log' Hm Hl; cbn [episode_loop].
  { intros H. inversion H; subst. exists [], []. rewrite app_nil_r. split; [reflexivity|]. split; [constructor|].
    split; [cbn; lia|]. split; [left; reflexivity|lia]. }
  destruct (if (ply =? 0)%nat then gen_roll_mixed D dg else gen_roll D dg) as [(d & dg1)|k] eqn:E; [|discriminate]. cbn [bind].
  destruct (game_legal_positions_with R g d) as [[|w l]|k] eqn:L; [| |discriminate]; cbn [bind].
  { intros H. inversion H; subst. exists [], [d]. rewrite app_nil_r. split; [reflexivity|].
    split; [econstructor; [exact E|constructor]|]. split; [reflexivity|]. split; [|lia].
    right. exists d, (length log'). repeat split; auto. lia. }
  unfold watching at 1. cbn [fst snd]. destruct (P ps (g_position g) d (w :: l)) as (i & ps1). cbn [fst snd].
  destruct (length (w :: l) <=? i)%nat.
  { intros H. inversion H; subst. exists [d], []. split; [reflexivity|].
    split; [econstructor; [exact E|constructor]|]. split; [exact I|]. split; [left; reflexivity|].
    rewrite app_length. cbn. lia. }
  destruct (index (w :: l) i) as [p|k]; [|discriminate]. cbn [bind g_position].
  destruct (vp_game_state m p) as [[|q]|k]; cbn [bind]; [| |discriminate].
  - intros H. apply IH in H; [|lia|rewrite app_length; cbn; lia].
    destruct H as (more & extra & E1 & E2 & E3 & E4 & E5). exists (d :: more), extra. split; [rewrite E1, <- app_assoc; reflexivity|].
    split; [econstructor; [exact E|exact E2]|]. auto.
  - intros H. inversion H; subst. exists [d], []. split; [reflexivity|].
    split; [econstructor; [exact E|constructor]|].
    split; [cbn; rewrite app_length; reflexivity|]. split; [left; reflexivity|]. rewrite app_length. cbn. lia.
Qed.

(** An episode that returns has taken its dice from the source one after the other: each roll shown to the policy once, in
    order, one per ply, plus one that the rules had no answer to if it stopped for that reason. *)
Theorem C99_dice : forall max g dg ps r g' dg' ps' shown,
  play_episode_with m R D (watching P) max g dg (ps, []) = Ret (r, g', dg', (ps', shown)) ->
  exists extra, rolls_in_a_row D dg (shown ++ extra) dg' /\ answered r (length shown) /\ unanswered r max g' extra /\
    (length shown <= max)%nat.
Proof.
  intros mx g dg ps r g' dg' ps' shown H. apply loop_dice in H; [|reflexivity|reflexivity].
  destruct H as (more & extra & E1 & E2 & E3 & E4 & E5). cbn in E1. subst more. exists extra.
  split; [apply row_from_zero; exact E2|]. auto.
Qed.
End Dice.

(** ** The dice do not depend on the play *)
Lemma later_prefix {G} (D : dice_gen G) : forall l1 l2 dg dg1 dg2, later_rolls D dg l1 dg1 -> later_rolls D dg l2 dg2 ->
  (length l1 <= length l2)%nat -> exists rest, l2 = l1 ++ rest /\ later_rolls D dg1 rest dg2.
Proof.
  induction l1 as [|d l1 IH]; intros l2 dg dg1 dg2 H1 H2 L.
  - inversion H1; subst. exists l2. auto.
  - destruct l2 as [|d2 l2]; [cbn in L; lia|]. inversion H1 as [|? ? e1 ? ? A1 B1]; subst. inversion H2 as [|? ? e2 ? ? A2 B2]; subst.
    rewrite A1 in A2. injection A2 as <- <-.
    destruct (IH l2 e1 dg1 dg2 B1 B2) as (rest & -> & X); [cbn in L; lia|]. exists rest. auto.
Qed.
Theorem C99_row_unique : forall G (D : dice_gen G) l1 l2 dg dg1 dg2, rolls_in_a_row D dg l1 dg1 -> rolls_in_a_row D dg l2 dg2 ->
  ((length l1 <= length l2)%nat -> l1 = firstn (length l1) l2) /\ (length l1 = length l2 -> l1 = l2 /\ dg1 = dg2).
Proof.
  intros G D l1 l2 dg dg1 dg2 H1 H2.
  assert (X : (length l1 <= length l2)%nat -> exists rest, l2 = l1 ++ rest /\ (rest = [] -> dg1 = dg2)).
  { intros L. inversion H1 as [|? d1 e1 ? ? A1 B1]; subst.
    - exists l2. split; [reflexivity|]. intros ->. inversion H2; reflexivity.
    - inversion H2 as [|? d2 e2 ? ? A2 B2]; subst; [cbn in L; lia|]. rewrite A1 in A2. injection A2 as <- <-.
      destruct (later_prefix D _ _ _ _ _ B1 B2) as (rest & -> & Y); [cbn in L; lia|]. exists rest. split; [reflexivity|].
      intros ->. inversion Y; reflexivity. }
  split.
  - intros L. destruct (X L) as (rest & -> & _). rewrite firstn_app, Nat.sub_diag, firstn_all. cbn. rewrite app_nil_r. reflexivity.
  - intros L. destruct (X ltac:(lia)) as (rest & -> & Y). destruct rest; [|rewrite app_length in L; cbn in L; lia].
    rewrite app_nil_r. auto.
Qed.
(** Two episodes with the same source of dice - other builds, rules, policies, games, variants - see the same dice, ply by
    ply, for as long as both last. *)
Theorem C99_same_dice : forall G S S' (D : dice_gen G) dg m m' R R' (P : policy S) (P' : policy S') a b g h ps ps'
  r1 g1 dg1 ps1 shown1 r2 g2 dg2 ps2 shown2,
  play_episode_with m R D (watching P) a g dg (ps, []) = Ret (r1, g1, dg1, (ps1, shown1)) ->
  play_episode_with m' R' D (watching P') b h dg (ps', []) = Ret (r2, g2, dg2, (ps2, shown2)) ->
  (length shown1 <= length shown2)%nat -> shown1 = firstn (length shown1) shown2.
Proof.
  intros until shown2. intros H1 H2 L. apply C99_dice in H1. apply C99_dice in H2.
  destruct H1 as (x1 & A1 & _), H2 as (x2 & A2 & _).
  assert (K : forall (s x t y : list dice), s ++ x = firstn (length (s ++ x)) (t ++ y) -> (length s <= length t)%nat ->
     s = firstn (length s) t).
  { intros s x t y E Q. apply (f_equal (firstn (length s))) in E.
    rewrite firstn_app, Nat.sub_diag, firstn_all in E. cbn in E. rewrite app_nil_r in E.
    rewrite firstn_firstn, app_length, Nat.min_l in E by lia. rewrite firstn_app in E.
    replace (length s - length t)%nat with 0%nat in E by lia. cbn in E. rewrite app_nil_r in E. exact E. }
  destruct (Nat.le_gt_cases (length (shown1 ++ x1)) (length (shown2 ++ x2))) as [Q|Q].
  - destruct (C99_row_unique _ _ _ _ _ _ _ A1 A2) as (Y & _). exact (K _ _ _ _ (Y Q) L).
  - destruct (C99_row_unique _ _ _ _ _ _ _ A2 A1) as (Y & _). specialize (Y ltac:(lia)).
    apply (f_equal (firstn (length shown1))) in Y. rewrite firstn_firstn in Y.
    rewrite Nat.min_l in Y by (rewrite app_length; lia).
    rewrite !firstn_app in Y. replace (length shown1 - length shown2)%nat with 0%nat in Y by lia.
    rewrite Nat.sub_diag, firstn_all in Y. cbn in Y. rewrite !app_nil_r in Y. symmetry. exact Y.
Qed.

(** ** A case *)
(** A source that rolls 3-1 to open and always double 1 afterwards; the first listed play is chosen. *)
Definition ones : dice_gen unit := {| gen_roll := fun _ => Ret (Double 1, tt); gen_roll_mixed := fun _ => Ret (Mixed 3 1, tt) |}.
Definition first_listed : policy unit := fun _ _ _ _ => (0%nat, tt).
(** One ply is cut short, so [C99_cut] continues it; three plies show 3-1 and two doubles; and two calls of one ply each are
    not one call of two plies, since the second call opens again. *)
Example C99_case :
  cut_short Debug 1 (play_episode_with Debug (classic_rules Debug) ones first_listed 1 (game_new Hypergammon) tt tt) /\
  (exists g1 ps1, play_episode_with Debug (classic_rules Debug) ones (watching first_listed) 3 (game_new Hypergammon) tt (tt, [])
     = Ret (GOk 3%nat, g1, tt, (ps1, [Mixed 3 1; Double 1; Double 1]))) /\
  (exists g1 g2, play_episode_with Debug (classic_rules Debug) ones first_listed 1 (game_new Hypergammon) tt tt = Ret (GOk 1%nat, g1, tt, tt) /\
     play_episode_with Debug (classic_rules Debug) ones first_listed 2 (game_new Hypergammon) tt tt = Ret (GOk 2%nat, g2, tt, tt) /\
     play_episode_with Debug (classic_rules Debug) ones first_listed 1 g1 tt tt <> Ret (GOk 1%nat, g2, tt, tt)).
Proof.
  split; [vm_compute; auto|]. split; [do 2 eexists; vm_compute; reflexivity|].
  do 2 eexists. split; [vm_compute; reflexivity|]. split; [vm_compute; reflexivity|]. vm_compute. discriminate.
Qed.
