(** Property C58: the corpus benchmark.  Read with SpecCorpus.v, SpecPerft.v. *)
From Coq Require Import Strings.String.
From Verif Require Import SpecCorpus BaseFacts StrFacts TextFacts UbgiFacts EngineFacts PropPerft.
Open Scope Z_scope.

(** ** Lines of a file *)
Lemma piece_free l t : ~ In 10 l -> split_inclusive 10 (l ++ 10 :: t) = (l ++ [10]) :: split_inclusive 10 t.
Proof.
  induction l as [|x l IH]; intros N; cbn [app split_inclusive].
  - rewrite Z.eqb_refl. reflexivity.
  - destruct (Z.eqb_spec x 10) as [->|]; [exfalso; apply N; left; auto|].
    rewrite IH by (intros I; apply N; right; auto). reflexivity.
Qed.
Lemma piece_last l : l <> [] -> ~ In 10 l -> split_inclusive 10 l = [l].
Proof.
  induction l as [|x l IH]; intros E N; [congruence|]. cbn [split_inclusive].
  destruct (Z.eqb_spec x 10) as [->|]; [exfalso; apply N; left; auto|].
  destruct l as [|y l]; [reflexivity|]. rewrite IH; [reflexivity|discriminate|]. intros I. apply N. right. auto.
Qed.
Lemma strip_last_app c l : strip_last c (l ++ [c]) = Some l.
Proof. unfold strip_last. rewrite rev_app_distr. cbn [rev app]. rewrite Z.eqb_refl, rev_involutive. reflexivity. Qed.
Lemma strip_last_some c l l' : strip_last c l = Some l' -> l = l' ++ [c].
Proof.
  unfold strip_last. destruct (rev l) as [|x r] eqn:E; [discriminate|]. destruct (Z.eqb_spec x c); [|discriminate].
  intros H. injection H as <-. subst x. rewrite <- (rev_involutive l), E. reflexivity.
Qed.
Lemma str_lines_fun text ls : file_lines text ls -> str_lines text = ls.
Proof.
  induction 1 as [|l N F|l t ls N C F IH|l t ls N F IH].
  - reflexivity.
  - unfold str_lines. rewrite piece_last by auto. cbn [map]. f_equal. unfold line_of_piece.
    destruct (strip_last 10 l) as [l'|] eqn:E; [|reflexivity]. exfalso. apply strip_last_some in E. subst l. apply F.
    apply in_app_iff. right. left. auto.
  - unfold str_lines in *. cbn [app]. rewrite piece_free by auto. cbn [map]. rewrite IH. f_equal. unfold line_of_piece.
    rewrite strip_last_app. destruct (strip_last 13 l) as [l'|] eqn:E; [|reflexivity]. exfalso. apply strip_last_some in E. eapply C; eauto.
  - unfold str_lines in *. replace (l ++ [13; 10] ++ t) with ((l ++ [13]) ++ 10 :: t) by (rewrite <- app_assoc; reflexivity).
    rewrite piece_free by (rewrite in_app_iff; cbn; intuition lia). cbn [map]. rewrite IH. f_equal. unfold line_of_piece.
    rewrite strip_last_app, strip_last_app. reflexivity.
Qed.
Lemma first_lf s : (~ In 10 s) \/ exists l t, s = l ++ 10 :: t /\ ~ In 10 l.
Proof.
  induction s as [|x s [IH|(l & t & -> & N)]].
  - left. auto.
  - destruct (Z.eq_dec x 10) as [->|]; [right; exists [], s; auto|]. left. cbn. intuition.
  - right. destruct (Z.eq_dec x 10) as [->|]; [exists [], (l ++ 10 :: t); auto|]. exists (x :: l), t. cbn. intuition.
Qed.
Lemma file_lines_total text : exists ls, file_lines text ls.
Proof.
  assert (G : forall n text, (List.length text <= n)%nat -> exists ls, file_lines text ls).
  { intros n. induction n as [|n IH]; intros s L.
    - destruct s; [|cbn in L; lia]. exists []. constructor.
    - destruct (first_lf s) as [N|(l & t & -> & N)].
      + destruct s; [exists []; constructor|]. eexists. apply file_last; [discriminate|auto].
      + destruct (IH t) as (ls & F). { rewrite app_length in L. cbn in L. lia. }
        destruct (strip_last 13 l) as [l'|] eqn:E.
        * apply strip_last_some in E. subst l. rewrite <- app_assoc. cbn [app]. eexists. apply (@file_crlf l' t ls); auto.
          intros I. apply N, in_app_iff. auto.
        * eexists. apply (@file_lf l t ls); auto. intros l' ->. rewrite strip_last_app in E. discriminate. }
  exact (G _ _ (Nat.le_refl _)).
Qed.
Lemma file_lines_iff text ls : file_lines text ls <-> ls = str_lines text.
Proof.
  split; [intros H; symmetry; apply str_lines_fun, H|]. intros ->.
  destruct (file_lines_total text) as (ls & F). pose proof (str_lines_fun F) as E. rewrite E. exact F.
Qed.
Lemma nonblank_iff ls ids : nonblank_lines ls ids <-> ids = filter (fun l => nonempty (trim l)) ls.
Proof.
  assert (B : forall l, only_blanks l <-> nonempty (trim l) = false).
  { intros l. unfold only_blanks. fold (blank l). rewrite <- blank_trim. destruct (trim l); cbn; split; congruence. }
  split.
  - induction 1 as [|l ls ids O _ IH|l ls ids O _ IH]; cbn [filter]; auto.
    + apply B in O. rewrite O. exact IH.
    + rewrite B in O. apply not_false_is_true in O. rewrite O, IH. reflexivity.
  - intros ->. induction ls as [|l ls IH]; cbn [filter]; [constructor|]. destruct (nonempty (trim l)) eqn:E.
    + apply nonblank_keep; auto. rewrite B. congruence.
    + apply nonblank_skip; auto. apply B, E.
Qed.

(** Every text has exactly one division into lines. *)
Theorem C58_lines_unique : forall text, exists ls, file_lines text ls /\ forall ls', file_lines text ls' -> ls' = ls.
Proof.
  intros text. exists (str_lines text). split; [apply file_lines_iff; auto|]. intros ls' F. apply file_lines_iff, F.
Qed.

Lemma mmap_iff {A B} (f : A -> res B) l : forall r, mmap f l = Ret r <-> Forall2 (fun a b => f a = Ret b) l r.
Proof.
  induction l as [|a l IH]; intros r; cbn [mmap].
  - split; [intros E; injection E as <-; constructor|]. intros F. inversion F. reflexivity.
  - split.
    + intros E. apply bind_inv in E. destruct E as (b & Fb & E). apply bind_inv in E. destruct E as (bs & Fs & E).
      injection E as <-. constructor; auto. apply IH, Fs.
    + intros F. inversion F as [|? b ? bs Fb Fs]; subst. rewrite Fb. cbn [bind]. apply IH in Fs. rewrite Fs. reflexivity.
Qed.
Lemma load_iff m files path ps : load_positions m files path = Ret ps <-> corpus m files path ps.
Proof.
  unfold load_positions, corpus. split.
  - destruct (files path) as [text|] eqn:F; [|discriminate]. intros E. apply mmap_iff in E.
    exists text, (str_lines text), (filter (fun l => nonempty (trim l)) (str_lines text)).
    split; auto. split; [apply file_lines_iff; auto|]. split; [apply nonblank_iff; auto|].
    clear F. induction E as [|id p ids ps Ep E IH]; constructor; auto. apply bind_inv in Ep. destruct Ep as ([er|q] & D & X); [discriminate|].
    injection X as ->. exact D.
  - intros (text & ls & ids & -> & L & N & F). apply file_lines_iff in L. apply nonblank_iff in N. subst ls ids.
    apply mmap_iff. induction F as [|id p ids ps Ep F IH]; constructor; auto. rewrite Ep. reflexivity.
Qed.
Lemma bench_fold {S} (x : res S) n : forall s0 r, (0 < n)%nat -> forall k, mfold (fun _ (_ : nat) => x) (seq k n) s0 = Ret r <-> x = Ret r.
Proof.
  induction n as [|n IH]; intros s0 r H k; [lia|]. cbn [seq mfold]. destruct n as [|n].
  - cbn [seq mfold]. destruct x; cbn [bind]; split; congruence.
  - destruct x as [s|e] eqn:E; cbn [bind]; [|split; discriminate]. apply IH. lia.
Qed.
Lemma bench_iff m name ps it rep : 1 <= it ->
  bench m name ps it = Ret rep <-> exists t, run_once m ps = Ret t /\
    rep = {| b_name := name; b_positions := List.length ps; b_iterations := it; b_moves_per_run := t |}.
Proof.
  intros H. unfold bench, range. rewrite Nat.sub_0_r. split.
  - intros E. apply bind_inv in E. destruct E as (t & F & E). injection E as <-. exists t. split; auto.
    apply bench_fold in F; [exact F|lia].
  - intros (t & R & ->). assert (F : mfold (fun _ (_ : nat) => run_once m ps) (seq 0 (Z.to_nat it)) 0 = Ret t) by (apply bench_fold; [lia|auto]).
    rewrite F. reflexivity.
Qed.
Lemma one_name n : forall x, str_eqb x n = true <-> In x [n].
Proof. intros x. rewrite str_eqb_eq. cbn. intuition. Qed.
Lemma path_iff args flag d p : unwrap_or (parse_string_flag args flag) d = p <-> path_chosen args flag d p.
Proof.
  unfold path_chosen, parse_string_flag. split.
  - destruct (find_flag _ args) as [v|] eqn:E; cbn [unwrap_or]; intros <-.
    + left. apply (@find_flag_some _ _ args _ (one_name flag)), E.
    + right. split; auto. apply (@find_flag_none _ _ args (one_name flag)), E.
  - intros [F|(N & ->)].
    + apply (@find_flag_some _ _ args _ (one_name flag)) in F. rewrite F. reflexivity.
    + apply (@find_flag_none _ _ args (one_name flag)) in N. rewrite N. reflexivity.
Qed.

(** The program reports exactly the two corpora asked for, and panics in every other case: a file cannot be
    read, a line that is not blank is not a position ID, or counting panics. *)
Theorem C58_reports : forall m files contact race args a b,
  corpus_main m files contact race args = Ret (a, b) <-> corpus_reports m files contact race args a b.
Proof.
  intros m files contact race args a b. unfold corpus_main, corpus_reports.
  assert (I : forall v, (number_flag args (lit "--iterations") v \/ (no_number args (lit "--iterations") /\ v = 20)) <->
                        v = unwrap_or (parse_usize_flag args (lit "--iterations")) 20).
  { intros v. rewrite <- number_some, <- number_none. destruct (parse_usize_flag args (lit "--iterations")); cbn [unwrap_or]; intuition congruence. }
  split.
  - intros E. apply bind_inv in E. destruct E as (cs & Lc & E). apply bind_inv in E. destruct E as (rs & Lr & E).
    apply bind_inv in E. destruct E as (b1 & B1 & E). apply bind_inv in E. destruct E as (b2 & B2 & E). injection E as -> ->.
    apply bench_iff in B1, B2; try lia. destruct B1 as (ct & R1 & ->), B2 as (rt & R2 & ->). apply load_iff in Lc, Lr.
    do 2 eexists. exists cs, rs. eexists. exists ct, rt. split; [apply path_iff; reflexivity|]. split; [apply path_iff; reflexivity|].
    split; [apply I; reflexivity|]. auto 6.
  - intros (cp & rp & cs & rs & it & ct & rt & P1 & P2 & It & C1 & C2 & R1 & R2 & -> & ->).
    apply path_iff in P1, P2. apply I in It. apply load_iff in C1, C2. rewrite P1, P2, C1. cbn [bind]. rewrite C2. cbn [bind]. rewrite <- It.
    rewrite (proj2 (@bench_iff m _ cs (Z.max it 1) _ ltac:(lia)) (ex_intro _ ct (conj R1 eq_refl))). cbn [bind].
    rewrite (proj2 (@bench_iff m _ rs (Z.max it 1) _ ltac:(lia)) (ex_intro _ rt (conj R2 eq_refl))). reflexivity.
Qed.

(** A line that is no position ID stops the program. *)
Theorem C58_invalid_id : forall m files contact race args path text ls id er,
  path_chosen args (lit "--contact-csv") contact path \/ path_chosen args (lit "--race-csv") race path ->
  files path = Some text -> file_lines text ls -> In id ls -> ~ only_blanks id -> gnuid_decode_position m 15 id = Ret (inl er) ->
  forall a b, corpus_main m files contact race args <> Ret (a, b).
Proof.
  intros m files contact race args path text ls id er P F L I NB D a b E. apply C58_reports in E.
  destruct E as (cp & rp & cs & rs & it & ct & rt & P1 & P2 & _ & C1 & C2 & _).
  assert (C : exists ps, corpus m files path ps).
  { destruct P as [P|P]; [exists cs|exists rs].
    - apply path_iff in P, P1. assert (path = cp) as -> by congruence. exact C1.
    - apply path_iff in P, P2. assert (path = rp) as -> by congruence. exact C2. }
  destruct C as (ps & text' & ls' & ids & F' & L' & N & Fa). assert (text' = text) as -> by congruence.
  apply file_lines_iff in L, L'. assert (ls' = ls) as -> by congruence. clear L L'.
  assert (J : In id ids).
  { clear Fa. induction N as [|l ls ids O N IH|l ls ids O N IH]; cbn [In] in *; auto.
    - destruct I as [->|I]; [contradiction|auto].
    - destruct I as [->|I]; auto. }
  clear N I. induction Fa as [|i p ids ps X Fa IH]; [destruct J|]. destruct J as [->|J]; [congruence|auto].
Qed.

Example C58_ex : exists a b,
  corpus_main Release (fun path => if str_eqb path (lit "c") then Some (lit "4HPwATDgc/ABMA" ++ [13; 10; 32; 10] ++ lit "4HPwATDgc/ABMA") else Some [])
    (lit "contact.csv") (lit "race.csv") [lit "corpus-bench"; lit "--contact-csv"; lit "c"; lit "--iterations"; lit "0"] = Ret (a, b) /\
  b_positions a = 2%nat /\ b_iterations a = 1 /\ b_positions b = 0%nat /\ b_moves_per_run b = 0.
Proof. do 2 eexists. split; [vm_compute; reflexivity|]. repeat split. Qed.
