(** Properties C54 (printed dice), C55 (engine moves) and C56 (key lines).  Read with SpecDice.v,
    SpecMoveText.v, SpecKeyLine.v. *)
From Coq Require Import Strings.String.
From Verif Require Import SpecDice DiceText SpecUbgi SpecKeyLine BaseFacts StrFacts TextFacts MoveTextFacts UbgiFacts PropDice PropMoveText PropUbgi.
Open Scope Z_scope.

(** ** C54: the printed form of a roll *)

(** A roll is printed as its two numbers, the smaller first, whichever die shows which. *)
Theorem C54_display : forall m a b, valid_die a -> valid_die b -> exists d, dice_new m a b = Ret d /\
  dice_display d = [40; 48 + Z.of_nat (Nat.min a b); 44; 48 + Z.of_nat (Nat.max a b); 41].
Proof.
  intros m a b A B. apply valid_die_in in A, B. cbn [In seq] in A, B.
  repeat (destruct A as [<-|A]; [|]); try contradiction;
  repeat (destruct B as [<-|B]; [|]); try contradiction; destruct m; eexists; split; vm_compute; reflexivity.
Qed.
(** The text tells which roll it is. *)
Theorem C54_identifies : forall d e, valid_dice d -> valid_dice e -> (dice_display d = dice_display e <-> d = e).
Proof.
  intros d e D E. split; [|intros ->; auto].
  assert (F : forall d, valid_dice d -> exists a b, valid_die a /\ valid_die b /\ dice_new Release a b = Ret d /\ (a <= b)%nat).
  { intros [x y|x] V; cbn in V; unfold valid_die in *.
    - exists y, x. repeat split; try lia. unfold dice_new, mixed_new. cbn [debug_assert bind].
      destruct (Nat.eqb_spec y x); [lia|]. destruct (Nat.ltb_spec x y); [lia|]. reflexivity.
    - exists x, x. repeat split; try lia. unfold dice_new. cbn [debug_assert bind]. rewrite Nat.eqb_refl. reflexivity. }
  destruct (F d D) as (a & b & Va & Vb & Nd & Ld), (F e E) as (a' & b' & Va' & Vb' & Ne & Le).
  destruct (@C54_display Release a b Va Vb) as (d1 & N1 & T1), (@C54_display Release a' b' Va' Vb') as (e1 & N2 & T2).
  assert (d1 = d) as -> by congruence. assert (e1 = e) as -> by congruence.
  rewrite T1, T2. intros H. injection H as M1 M2.
  assert (a = a') as <- by lia. assert (b = b') as <- by lia. congruence.
Qed.
Example C54_ex : exists d, dice_new Debug 5 2 = Ret d /\ dice_display d = lit "(2,5)".
Proof. eexists. split; vm_compute; reflexivity. Qed.

(** ** C55: moves sent by engines *)

(** [parse_ubgi_move] accepts exactly the move texts and returns the steps they say. *)
Theorem C55_parse_exact : forall t steps, parse_ubgi_move t = inr steps <-> move_text t steps.
Proof.
  intros t st. unfold parse_ubgi_move. destruct (normalize t) as [s|] eqn:N; cbn [ok_or pbind].
  - destruct (C17_canonical _ N) as (st' & P & OB & F & _). rewrite P. cbn [ok_or pbind].
    apply C17_normalize_exact in N. destruct N as (st2 & M & Es).
    assert (st2 = st') as ->. { apply format_inj; [eapply move_text_on_board; eauto|auto|congruence]. }
    split; [intros E; injection E as <-; auto|]. intros M'. f_equal. eapply move_text_fun; eauto.
  - split; [discriminate|]. intros M. exfalso.
    assert (X : normalize t = Some (format_move_steps st)) by (apply normalize_iff; eauto). congruence.
Qed.
(** Every other text is answered with the same error. *)
Theorem C55_error : forall t, (forall steps, ~ move_text t steps) -> parse_ubgi_move t = inl (BadValue (lit "move.invalid")).
Proof.
  intros t H. destruct (parse_ubgi_move t) as [e|st] eqn:E.
  - unfold parse_ubgi_move in E. destruct (normalize t) as [s|]; cbn [ok_or pbind] in E; [|congruence].
    destruct (parse_move_steps s); cbn [ok_or pbind] in E; congruence.
  - apply C55_parse_exact in E. exfalso. exact (H _ E).
Qed.
(** The move a session reports for its engine parses back to the engine's move, provided its steps are
    on the board. *)
Theorem C55_bestmove : forall E m (A : engine E) e0 h e st line k p d e' mv, reaches m A e0 h e st -> go_line line ->
  dice_after h (Some d) -> variant_after h k -> position_after m h p ->
  choose_move A e {| g_variant := k; g_position := p |} d = Ret (e', inr mv) -> Forall on_board mv ->
  exists text, session_step m A e st line = Ret (e', st, [lit "bestmove " ++ text], false) /\ parse_ubgi_move text = inr mv.
Proof.
  intros E m A e0 h e st line k p d e' mv R G D V P C OB.
  destruct (C40_go R G) as (od' & k' & p' & D' & V' & P' & X).
  destruct (C38_unique m h) as (U1 & U2 & U3).
  assert (od' = Some d) as -> by (apply U3; auto). assert (k' = k) as -> by (apply U1; auto).
  assert (p' = p) as -> by (apply U2; auto).
  destruct X as (_ & X). exists (format_move_steps mv). split; [exact (X _ _ C)|].
  apply C55_parse_exact, format_move_text, OB.
Qed.
Example C55_ex : parse_ubgi_move (lit " BAR/20*  13/7/5, 6/off") = inr [step 25 20; step 13 7; step 7 5; step 6 0] /\
  parse_ubgi_move (lit "Pass") = inr [] /\ parse_ubgi_move (lit "13/bar") = inl (BadValue (lit "move.invalid")).
Proof. vm_compute. auto. Qed.

(** ** C56: key lines *)
Lemma contains_iff p s : contains p s = true <-> exists a b, s = a ++ p ++ b.
Proof.
  split; [|intros (a & b & ->); apply contains_app].
  induction s as [|c s IH]; cbn [contains]; intros H; apply orb_true_iff in H; destruct H as [H|H].
  - apply starts_with_iff in H. destruct H as (t & E). exists [], t. auto.
  - discriminate.
  - apply starts_with_iff in H. destruct H as (t & E). exists [], t. auto.
  - destruct (IH H) as (a & b & ->). exists (c :: a), b. auto.
Qed.
Lemma dots_iff w : looks_like_int_domain w = true <-> has_dots w.
Proof. apply contains_iff. Qed.

Lemma key_line_fun line l l' : key_line line l -> key_line line l' -> l = l'.
Proof.
  destruct l as [n ty dom def mi de], l' as [n' ty' dom' def' mi' de']. unfold key_line. cbn.
  intros (ds & W & -> & M & D) (ds' & W' & -> & M' & D'). apply words_iff in W, W'. rewrite W in W'.
  injection W' as -> -> W'.
  assert (T : (dom = None <-> dom' = None) -> 
     {| kl_name := n'; kl_key_type := ty'; kl_domain := dom; kl_default := def; kl_minor := mi; kl_description := join (lit " ") ds |} =
     {| kl_name := n'; kl_key_type := ty'; kl_domain := dom'; kl_default := def'; kl_minor := mi'; kl_description := join (lit " ") ds' |}).
  { intros X. assert (Y : dom = dom' /\ def = def' /\ (if mi then [lit "!"] else []) ++ ds = (if mi' then [lit "!"] else []) ++ ds').
    { destruct dom, dom'; cbn [app] in W'; try (exfalso; intuition congruence); injection W'; intros; subst; auto. }
    destruct Y as (-> & -> & Y). assert (mi = mi' /\ ds = ds') as (-> & ->); auto.
    destruct mi, mi'; cbn [app] in Y; auto.
    - injection Y as Y. auto.
    - exfalso. eapply M'; eauto.
    - exfalso. eapply M; eauto. }
  apply T. destruct dom as [d|], dom' as [d'|]; split; intros X; try congruence; exfalso; cbn [app] in W'.
  - injection W' as -> _. destruct D as (D1 & D2), D' as [D'|(D'1 & D'2)]; [congruence|]. auto.
  - injection W' as -> _. destruct D' as (D1 & D2), D as [D|(D'1 & D'2)]; [congruence|]. auto.
Qed.

(** [parse_key_line] accepts exactly the key lines and returns their parts. *)
Theorem C56_exact : forall line l, parse_key_line line = Some l <-> key_line line l.
Proof.
  assert (S : forall line l, parse_key_line line = Some l -> key_line line l).
  { intros line l H. unfold parse_key_line in H. pose proof (split_words line) as W.
    destruct (split_ws line) as [|first parts]; [discriminate|].
    destruct (str_eqb first (lit "key")) eqn:K; cbn [negb] in H; [|discriminate]. apply str_eqb_eq in K. subst first.
    destruct parts as [|name [|ty [|next parts]]]; try discriminate.
    assert (Fin : forall dom def rest, 
      (let '(minor, rest) := match rest with
                  | w :: rest' => if str_eqb w (lit "!") then (true, rest') else (false, rest)
                  | [] => (false, rest) end in
       Some {| kl_name := name; kl_key_type := ty; kl_domain := dom; kl_default := def;
               kl_minor := minor; kl_description := join (lit " ") rest |}) = Some l ->
      words line ([lit "key"; name; ty] ++ (match dom with Some d => [d] | None => [] end) ++ [def] ++ rest) ->
      match dom with
      | Some d => ty <> lit "bool" /\ (ty = lit "int" -> has_dots d)
      | None => ty = lit "bool" \/ (ty = lit "int" /\ ~ has_dots def)
      end -> key_line line l).
    { intros dom def rest E Wd Dm. destruct rest as [|w rest].
      - injection E as <-. exists []. cbn [kl_name kl_key_type kl_domain kl_default kl_minor kl_description]. split; [exact Wd|]. split; [auto|]. split; [discriminate|]. exact Dm.
      - destruct (str_eqb w (lit "!")) eqn:X; injection E as <-; unfold key_line; cbn [kl_name kl_key_type kl_domain kl_default kl_minor kl_description].
        + apply str_eqb_eq in X. subst w. exists rest. split; [exact Wd|]. split; [auto|]. split; [discriminate|]. exact Dm.
        + exists (w :: rest). split; [exact Wd|]. split; [auto|]. split; [|exact Dm]. intros _ w' r' E ->.
          injection E as E _. subst w. vm_compute in X. discriminate. }
    destruct (str_eqb ty (lit "bool")) eqn:B.
    - apply str_eqb_eq in B. apply (Fin None next parts H W). auto.
    - assert (NB : ty <> lit "bool") by (intros ->; vm_compute in B; discriminate).
      destruct (str_eqb ty (lit "int")) eqn:T; cbn [andb] in H.
      + apply str_eqb_eq in T. destruct (looks_like_int_domain next) eqn:L; cbn [negb] in H.
        * destruct parts as [|def parts]; [discriminate|]. apply (Fin (Some next) def parts H W).
          split; auto. intros _. apply dots_iff, L.
        * apply (Fin None next parts H W). right. split; auto. rewrite <- dots_iff. congruence.
      + destruct parts as [|def parts]; [discriminate|]. apply (Fin (Some next) def parts H W).
        split; auto. intros ->. vm_compute in T. discriminate. }
  intros line l. split; [apply S|]. intros K.
  destruct (parse_key_line line) as [l'|] eqn:E.
  - f_equal. eapply key_line_fun; eauto.
  - exfalso. destruct K as (ds & W & _ & _ & D). apply words_iff in W. unfold parse_key_line in E. rewrite W in E.
    cbn [app] in E. change (str_eqb (lit "key") (lit "key")) with true in E. cbn [negb] in E.
    assert (Fin : forall dom def (rest : list str), 
      (let '(minor, rest) := match rest with
                  | w :: rest' => if str_eqb w (lit "!") then (true, rest') else (false, rest)
                  | [] => (false, rest) end in
       Some {| kl_name := kl_name l; kl_key_type := kl_key_type l; kl_domain := dom; kl_default := def;
               kl_minor := minor; kl_description := join (lit " ") rest |}) = None -> False).
    { intros dom def [|w rest]; [discriminate|]. destruct (str_eqb w (lit "!")); discriminate. }
    destruct (kl_domain l) as [d|]; cbn [app] in E.
    + destruct D as (D1 & D2). destruct (str_eqb (kl_key_type l) (lit "bool")) eqn:B; [apply str_eqb_eq in B; congruence|].
      destruct (str_eqb (kl_key_type l) (lit "int")) eqn:T; cbn [andb] in E; [|eapply Fin; eauto].
      apply str_eqb_eq in T. rewrite (proj2 (dots_iff d) (D2 T)) in E. cbn [negb] in E. eapply Fin; eauto.
    + destruct D as [D|(D1 & D2)].
      * rewrite D in E. change (str_eqb (lit "bool") (lit "bool")) with true in E. rewrite <- D in E. eapply Fin; eauto.
      * rewrite <- dots_iff in D2. apply not_true_is_false in D2. rewrite D2, D1 in E.
        change (str_eqb (lit "int") (lit "bool")) with false in E. change (str_eqb (lit "int") (lit "int")) with true in E.
        cbn [andb negb] in E. rewrite <- D1 in E. eapply Fin; eauto.
Qed.
Example C56_ex : parse_key_line (lit "key engine.ply int 1..4 2 ! search  depth") =
  Some {| kl_name := lit "engine.ply"; kl_key_type := lit "int"; kl_domain := Some (lit "1..4"); kl_default := lit "2";
          kl_minor := true; kl_description := lit "search depth" |} /\
  parse_key_line (lit "Key engine.ply int 2") = None.
Proof. vm_compute. auto. Qed.
