(** Property C89: what the programs bkgm-perft and corpus-bench print.
    Read with SpecPrinted.v (layout, time spans, rounding) and SpecPerft.v ([reports]), SpecCorpus.v ([corpus_reports]). *)
From Coq Require Import Strings.String Reals Lia.
From Verif Require Import SpecPrinted PrintedFacts StrFacts NumFacts WrittenFacts GnuidFacts PropPerft PropCorpus.
Unset Implicit Arguments.
Open Scope Z_scope.

(** ** The numbers are in range *)
Lemma u128_range m z r : u128 m z = Ret r -> 0 <= r < 2 ^ 128.
Proof.
  unfold u128. destruct ((0 <=? z) && (z <? 2 ^ 128)) eqn:E.
  - intros H. injection H as <-. apply andb_true_iff in E as [A B]. apply Z.leb_le in A. apply Z.ltb_lt in B. lia.
  - destruct m; intros H; [discriminate|]. injection H as <-. apply Z.mod_pos_bound. lia.
Qed.
Lemma mfold_inv {A S} (P : S -> Prop) (f : S -> A -> res S) l : (forall s a r, P s -> f s a = Ret r -> P r) ->
  forall s r, P s -> mfold f l s = Ret r -> P r.
Proof.
  intros H. induction l as [|a l IH]; intros s r Hs E; cbn in E; [injection E as <-; auto|].
  destruct (f s a) as [s'|] eqn:F; try discriminate. cbn in E. eauto.
Qed.
Lemma perft_range m N p depth w n : perft m N p depth w = Ret n -> 0 <= n < 2 ^ 128.
Proof.
  destruct depth as [|depth]; cbn [perft]; [intros H; injection H as <-; lia|].
  destruct (all_21 m) as [rolls|]; try discriminate. cbn [bind].
  apply (mfold_inv (fun n => 0 <= n < 2 ^ 128)); [|lia]. intros s [d cnt] r Hs.
  destruct (classic_positions m N p d) as [l|]; try discriminate. cbn [bind].
  apply (mfold_inv (fun n => 0 <= n < 2 ^ 128)); [|lia]. intros s' q r' Hs'.
  destruct (perft m N q depth w) as [x|]; try discriminate. cbn [bind].
  destruct (u128 m _) as [y|]; try discriminate. cbn [bind]. apply u128_range.
Qed.
Lemma u64_range m z r : u64 m z = Ret r -> 0 <= z -> 0 <= r < 2 ^ 64.
Proof.
  intros H Z. destruct m; [apply u64_debug_some in H; auto; lia|]. rewrite u64_release in H. injection H as <-. apply Z.mod_pos_bound. lia.
Qed.
Lemma run_once_range m ps r : run_once m ps = Ret r -> 0 <= r < 2 ^ 64.
Proof.
  apply (mfold_inv (fun n => 0 <= n < 2 ^ 64)); [|lia]. intros s p r' Hs.
  destruct (all_21 m) as [rolls|]; try discriminate. cbn [bind].
  apply (mfold_inv (fun n => 0 <= n < 2 ^ 64)); [|lia]. intros s' [d cnt] r'' Hs'.
  destruct (classic_positions m 15 p d) as [l|]; try discriminate. cbn [bind]. intros H. eapply u64_range; [exact H|lia].
Qed.
Lemma number_flag_range args name v : number_flag args name v -> 0 <= v < 2 ^ 64.
Proof. intros (t & _ & [H | (u & _ & H)] & L); apply numeral_nonneg in H; lia. Qed.
Lemma setting_range args a b d v : 0 <= d < 2 ^ 64 -> setting args a b d v -> 0 <= v < 2 ^ 64.
Proof. intros D [H | [[_ H] | (_ & _ & ->)]]; auto; eapply number_flag_range; eauto. Qed.
Lemma total_range m e t : 0 <= e -> total_is m e t -> 0 <= t < 2 ^ 64.
Proof. destruct m; cbn; intros E; [lia|]. intros ->. apply Z.mod_pos_bound. lia. Qed.

(** What a report contains. *)
Definition in_bounds (r : report) : Prop :=
  match r with
  | Usage => True
  | SingleRoll k id d0 d1 n t => id_shape id /\ 1 <= d0 <= 6 /\ 1 <= d1 <= 6 /\ 1 <= n < 2 ^ 64 /\ 0 <= t < 2 ^ 64
  | PerftRun k id depth w n t => id_shape id /\ 0 <= depth < 2 ^ 64 /\ 1 <= n < 2 ^ 64 /\ 0 <= t < 2 ^ 128
  end.
Lemma decoded_shape m N id p : gnuid_decode_position m N id = Ret (inr p) -> id_shape id.
Proof.
  intros E. unfold gnuid_decode_position in E. destruct (b64_decode (id ++ lit "==")) as [key|] eqn:D; [|discriminate].
  destruct (Nat.eqb_spec (List.length key) 10) as [L | L]; [|discriminate]. exact (proj1 (b64_id_inv _ D L)).
Qed.
Lemma reports_bounds m args r : reports m args r -> in_bounds r.
Proof.
  intros (k & id & p & it & _ & _ & D & I & [C | C]).
  - destruct C as (d0 & d1 & d & l & total & _ & _ & H0 & H1 & _ & _ & T & ->). apply decoded_shape in D.
    apply setting_range in I; [|lia]. cbn. repeat (split; [solve [auto; lia]|]). eapply total_range; [|exact T]. lia.
  - destruct C as (_ & depth & w & nodes & S & _ & P & ->). apply decoded_shape in D.
    apply setting_range in I; [|lia]. apply setting_range in S; [|lia]. cbn. repeat (split; [solve [auto; lia]|]). eapply perft_range, P.
Qed.

(** ** The layout *)
Lemma variant_capital k : variant_debug k = capital (variant_display k).
Proof. destruct k; reflexivity. Qed.
Lemma dec n : 0 <= n -> decimal (fmt_uint n) n.
Proof. intros H. apply decimal_iff; auto. Qed.

Lemma output_text r d : in_bounds r -> r <> Usage -> time_span d -> perft_text r d (perft_output r d).
Proof.
  intros B U T. destruct r as [|k id d0 d1 n t|k id depth w n t]; [congruence| |]; cbn [in_bounds] in B.
  - destruct B as (S & H0 & H1 & N & Ht).
    exists (fmt_uint d0), (fmt_uint d1), (fmt_uint n), (fmt_uint t), (fmt_f64 3 (f64_div (f64_of t) (f64_of n))), (fmt_f64 6 (as_secs_f64 d)),
      (fmt_f64 2 (f64_div (f64_of n) (f64_max (as_secs_f64 d) f64_nano))).
    split; [|split; [|split; [|split; [|split; [|split; [|split]]]]]].
    + cbn [perft_output]. rewrite variant_capital. unfold println, text_of, field. cbn [map join concat].
      repeat rewrite <- app_assoc. reflexivity.
    + apply dec; lia.
    + apply dec; lia.
    + apply dec; lia.
    + apply dec; lia.
    + apply (fmt_f64_rounded 3 3); [lia|lia|]. apply apx_average; lia.
    + apply (fmt_f64_rounded 6 4); [lia|lia|]. apply apx_secs, T.
    + apply (fmt_f64_rounded 2 6); [lia|lia|]. apply apx_rate; auto; lia.
  - destruct B as (S & De & N & Ht).
    exists (fmt_uint depth), (fmt_uint n), (fmt_uint t), (fmt_f64 6 (as_secs_f64 d)),
      (fmt_f64 2 (f64_div (f64_mul (f64_of t) (f64_of n)) (f64_max (as_secs_f64 d) f64_nano))).
    split; [|split; [|split; [|split; [|split]]]].
    + cbn [perft_output]. rewrite variant_capital. unfold println, text_of, field. cbn [map join concat].
      replace (fmt_uint (if w then 1 else 0)) with (if w then lit "1" else lit "0") by (destruct w; reflexivity).
      repeat rewrite <- app_assoc. reflexivity.
    + apply dec; lia.
    + apply dec; lia.
    + apply dec; lia.
    + apply (fmt_f64_rounded 6 4); [lia|lia|]. apply apx_secs, T.
    + apply (fmt_f64_rounded 2 8); [lia|lia|]. apply apx_product_rate; auto; lia.
Qed.

(** Whatever the command line (without a help flag) and however long it takes: the program prints a report exactly when
    there is one (C48), as three lines of fields "name=value"; the whole numbers are exact, the time, the average and the
    rates are plain decimal numbers (never "inf" or "NaN"), correctly rounded up to a relative error of 2^-48. *)
Theorem C89_report : forall m args d, time_span d -> ~ In (lit "--help") args -> ~ In (lit "-h") args ->
  (forall r, reports m args r -> exists t, perft_program m args d = Ret t /\ perft_text r d t) /\
  (forall t, perft_program m args d = Ret t -> exists r, reports m args r /\ perft_text r d t).
Proof.
  intros m args d T H1 H2. pose proof (fun r => C48_report m args r H1 H2) as C.
  assert (U : forall r, reports m args r -> r <> Usage).
  { intros r (k & id & p & it & _ & _ & _ & _ & [X | X]) ->.
    - destruct X as (d0 & d1 & d' & l & total & _ & _ & _ & _ & _ & _ & _ & E). discriminate.
    - destruct X as (_ & depth & w & nodes & _ & _ & _ & E). discriminate. }
  unfold perft_program. split.
  - intros r R. rewrite (proj2 (C r) R). cbn [bind]. eexists. split; [reflexivity|]. apply output_text; auto. eapply reports_bounds, R.
  - intros t E. destruct (perft_main m args) as [r|] eqn:P; [|discriminate]. cbn [bind] in E. injection E as <-.
    pose proof (proj1 (C r) eq_refl) as R. exists r. split; [exact R|]. apply output_text; auto. eapply reports_bounds, R.
Qed.

(** ** Reading a report back *)
Lemma split_ws_line ws t : Forall word ws -> ws <> [] -> split_ws (join [32] ws ++ 10 :: t) = ws ++ split_ws t.
Proof.
  intros W N. revert W N. induction ws as [|w ws IH]; intros W N; [congruence|]. inversion W as [|? ? Ww Ws]; subst.
  destruct ws as [|v ws].
  - cbn [join app]. rewrite split_ws_cons by (auto; reflexivity). reflexivity.
  - change (join [32] (w :: v :: ws)) with (w ++ [32] ++ join [32] (v :: ws)). rewrite <- !app_assoc.
    change ([32] ++ join [32] (v :: ws) ++ 10 :: t) with (32 :: (join [32] (v :: ws) ++ 10 :: t)).
    rewrite split_ws_cons by (auto; reflexivity). rewrite IH by (auto; discriminate). reflexivity.
Qed.
Lemma split_ws_text ls : Forall (fun ws => ws <> [] /\ Forall word ws) ls -> split_ws (text_of ls) = concat ls.
Proof.
  induction ls as [|ws ls IH]; intros H; [reflexivity|]. inversion H as [|? ? [N W] H']; subst.
  unfold text_of. cbn [map concat]. rewrite <- app_assoc. change ([10] ++ concat (map (fun ws => join (lit " ") ws ++ [10]) ls)) with (10 :: text_of ls).
  change (lit " ") with [32]. rewrite split_ws_line, IH by auto. reflexivity.
Qed.
Lemma word_app a b : word a -> no_ws b -> word (a ++ b).
Proof. intros [N W] W'. split; [destruct a; [congruence|discriminate]|]. apply no_ws_app. auto. Qed.
Lemma word_field n v : word n -> no_ws v -> word (field n v).
Proof. intros W V. apply word_app; auto. apply no_ws_app. split; auto. repeat constructor. Qed.
Lemma decimal_no_ws s n : decimal s n -> no_ws s.
Proof. intros [N _]. apply numeral_chars in N. apply is_digits_no_ws. exact N. Qed.
Lemma fixed_no_ws k s n : fixed k s n -> no_ws s.
Proof.
  intros (i & f & -> & _ & D & N). apply no_ws_app. split; [eapply decimal_no_ws; eauto|]. apply no_ws_app. split; [repeat constructor|].
  apply numeral_chars in N. apply is_digits_no_ws, N.
Qed.
Lemma rounded_no_ws k s x : rounded k s x -> no_ws s.
Proof. intros (n & _ & F & _). eapply fixed_no_ws; eauto. Qed.
Lemma id_no_ws id : id_shape id -> no_ws id.
Proof.
  intros (_ & F & _). eapply Forall_impl; [|exact F]. intros a [H | [H | [H | [H | H]]]]; unfold is_ws;
  repeat (apply orb_false_iff; split); try (apply Z.eqb_neq; lia); try (apply andb_false_iff; first [left; apply Z.leb_gt; lia | right; apply Z.leb_gt; lia]).
Qed.
Lemma word_lit (s : str) : s <> [] -> forallb (fun c => negb (is_ws c)) s = true -> word s.
Proof. intros N F. split; [exact N|]. apply Forall_forall. intros x I. apply (proj1 (forallb_forall _ _) F) in I. destruct (is_ws x); [discriminate|reflexivity]. Qed.
Ltac wl := apply word_lit; [discriminate|reflexivity].
Lemma capital_no_ws k : no_ws (capital (variant_display k)).
Proof. destruct k; repeat constructor. Qed.
Lemma lit_no_ws s : forallb (fun c => negb (is_ws c)) s = true -> no_ws s.
Proof. intros F. apply Forall_forall. intros x I. apply (proj1 (forallb_forall _ _) F) in I. destruct (is_ws x); [discriminate|reflexivity]. Qed.

Lemma text_words_single k id d0 d1 n tt d t : id_shape id -> perft_text (SingleRoll k id d0 d1 n tt) d t ->
  exists a b n' tm avg time rate, decimal a d0 /\ decimal b d1 /\ decimal n' n /\ decimal tm tt /\
  split_ws t = [field (lit "mode") (lit "single-roll"); field (lit "variant") (capital (variant_display k));
                    field (lit "position_id") id; field (lit "dice") (a ++ lit "," ++ b); field (lit "iterations") n';
                   field (lit "total_moves") tm; field (lit "avg_moves") avg; field (lit "time_s") time; field (lit "it_per_sec") rate].
Proof.
  intros I (a & b & n' & tm & avg & time & rate & -> & A & B & N & M & W1 & W2 & W3).
  exists a, b, n', tm, avg, time, rate. repeat (split; [assumption|]). rewrite split_ws_text; [reflexivity|].
  pose proof (decimal_no_ws _ _ A). pose proof (decimal_no_ws _ _ B). pose proof (decimal_no_ws _ _ N). pose proof (decimal_no_ws _ _ M).
  apply rounded_no_ws in W1, W2, W3. pose proof (id_no_ws _ I). pose proof (capital_no_ws k).
  repeat (apply Forall_cons; [split; [discriminate|]; repeat (apply Forall_cons; [apply word_field; [wl|]; auto; try (apply lit_no_ws; reflexivity)|]); [..|apply Forall_nil]|]);
  [..|apply Forall_nil].
  apply no_ws_app. split; auto. apply no_ws_app. split; auto. repeat constructor.
Qed.
Lemma text_words_perft k id depth w n tt d t : id_shape id -> perft_text (PerftRun k id depth w n tt) d t ->
  exists de n' no time rate, decimal de depth /\ decimal n' n /\ decimal no tt /\
  split_ws t = [field (lit "mode") (lit "perft"); field (lit "variant") (capital (variant_display k));
                    field (lit "position_id") id; field (lit "depth") de; field (lit "weighted") (if w then lit "1" else lit "0"); field (lit "iterations") n';
                   field (lit "nodes_per_run") no; field (lit "time_s") time; field (lit "nodes_per_sec") rate].
Proof.
  intros I (de & n' & no & time & rate & -> & A & B & N & W1 & W2).
  exists de, n', no, time, rate. repeat (split; [assumption|]). rewrite split_ws_text; [reflexivity|].
  pose proof (decimal_no_ws _ _ A). pose proof (decimal_no_ws _ _ B). pose proof (decimal_no_ws _ _ N).
  apply rounded_no_ws in W1, W2. pose proof (id_no_ws _ I). pose proof (capital_no_ws k).
  repeat (apply Forall_cons; [split; [discriminate|]; repeat (apply Forall_cons; [apply word_field; [wl|]; auto; try (destruct w; apply lit_no_ws; reflexivity); try (apply lit_no_ws; reflexivity)|]); [..|apply Forall_nil]|]);
  [..|apply Forall_nil].
Qed.

Lemma field_inj n v v' : field n v = field n v' -> v = v'.
Proof. unfold field. intros H. apply app_inv_head in H. apply app_inv_head in H. exact H. Qed.
Lemma decimal_inj s n n' : decimal s n -> decimal s n' -> n = n'.
Proof.
  intros A B. pose proof (@numeral_nonneg _ _ (proj1 A)). pose proof (@numeral_nonneg _ _ (proj1 B)).
  apply decimal_iff in A; auto. apply decimal_iff in B; auto. eapply fmt_uint_inj; eauto. congruence.
Qed.
Lemma capital_inj k k' : capital (variant_display k) = capital (variant_display k') -> k = k'.
Proof. destruct k, k'; intros H; try reflexivity; discriminate H. Qed.
Lemma digit_text d s : 1 <= d <= 6 -> decimal s d -> s = [48 + d].
Proof.
  intros H D. apply decimal_iff in D; [|lia]. subst s.
  assert (X : d = 1 \/ d = 2 \/ d = 3 \/ d = 4 \/ d = 5 \/ d = 6) by lia.
  destruct X as [-> | [-> | [-> | [-> | [-> | ->]]]]]; reflexivity.
Qed.
Lemma usage_words : exists ws, split_ws usage = lit "Usage:" :: ws.
Proof. eexists. vm_compute. reflexivity. Qed.

Lemma text_inj r r' d d' t : in_bounds r -> in_bounds r' -> time_span d -> time_span d' -> perft_output r d = t -> perft_output r' d' = t -> r = r'.
Proof.
  intros B B' T T' E E'.
  assert (W : forall r d, in_bounds r -> time_span d -> r <> Usage -> exists v ws, split_ws (perft_output r d) = field (lit "mode") v :: ws).
  { clear. intros r d B T N. pose proof (output_text r d B N T) as P. destruct r; [congruence| |].
    - apply text_words_single in P; [|apply B]. destruct P as (a & b & n' & tm & avg & time & rate & _ & _ & _ & _ & ->). eauto.
    - apply text_words_perft in P; [|apply B]. destruct P as (de & n' & no & time & rate & _ & _ & _ & ->). eauto. }
  destruct usage_words as (us & Us).
  assert (DU : forall r d, in_bounds r -> time_span d -> perft_output r d = usage -> r = Usage).
  { intros q e Bq Te Eq. destruct q; auto; destruct (W _ e Bq Te ltac:(discriminate)) as (vv & ws & X); rewrite Eq, Us in X; discriminate X. }
  destruct r as [|k id d0 d1 n tt|k id depth w n tt].
  - symmetry. apply (DU r' d'); auto. cbn [perft_output] in E. congruence.
  - destruct r' as [|k' id' d0' d1' n0 tt'|k' id' depth' w' n0 tt'].
    + apply (DU _ d); auto. cbn [perft_output] in E'. congruence.
    + pose proof (output_text _ d B ltac:(discriminate) T) as P. pose proof (output_text _ d' B' ltac:(discriminate) T') as P'.
      rewrite E in P. rewrite E' in P'. cbn [in_bounds] in B, B'.
      apply text_words_single in P; [|apply B]. destruct P as (a & b & n1 & tm & avg & time & rate & A1 & A2 & A3 & A4 & P).
      apply text_words_single in P'; [|apply B']. destruct P' as (a' & b' & n1' & tm' & avg' & time' & rate' & A1' & A2' & A3' & A4' & P').
      rewrite P in P'. injection P' as E1 E2 E3 E4 E5 _ _ _.
      apply capital_inj in E1. subst k' id' n1' tm'.
      rewrite (digit_text d0 a), (digit_text d1 b), (digit_text d0' a'), (digit_text d1' b') in E3 by (auto; lia).
      injection E3 as E3 E3'. apply (decimal_inj _ _ _ A3) in A3'. apply (decimal_inj _ _ _ A4) in A4'. f_equal; lia.
    + exfalso. pose proof (output_text _ d B ltac:(discriminate) T) as P. pose proof (output_text _ d' B' ltac:(discriminate) T') as P'.
      rewrite E in P. rewrite E' in P'. apply text_words_single in P; [|apply B]. apply text_words_perft in P'; [|apply B'].
      destruct P as (a & b & n1 & tm & avg & time & rate & _ & _ & _ & _ & P). destruct P' as (de & n1' & no & time' & rate' & _ & _ & _ & P').
      rewrite P in P'. discriminate P'.
  - destruct r' as [|k' id' d0' d1' n0 tt'|k' id' depth' w' n0 tt'].
    + apply (DU _ d); auto. cbn [perft_output] in E'. congruence.
    + exfalso. pose proof (output_text _ d B ltac:(discriminate) T) as P. pose proof (output_text _ d' B' ltac:(discriminate) T') as P'.
      rewrite E in P. rewrite E' in P'. apply text_words_perft in P; [|apply B]. apply text_words_single in P'; [|apply B'].
      destruct P' as (a & b & n1 & tm & avg & time & rate & _ & _ & _ & _ & P'). destruct P as (de & n1' & no & time' & rate' & _ & _ & _ & P).
      rewrite P in P'. discriminate P'.
    + pose proof (output_text _ d B ltac:(discriminate) T) as P. pose proof (output_text _ d' B' ltac:(discriminate) T') as P'.
      rewrite E in P. rewrite E' in P'. cbn [in_bounds] in B, B'.
      apply text_words_perft in P; [|apply B]. destruct P as (de & n1 & no & time & rate & A1 & A2 & A3 & P).
      apply text_words_perft in P'; [|apply B']. destruct P' as (de' & n1' & no' & time' & rate' & A1' & A2' & A3' & P').
      rewrite P in P'. injection P' as E1 E2 E3 E4 E5 E6 _ _.
      apply capital_inj in E1. subst k' id' de' n1' no'. assert (w = w') by (destruct w, w'; auto; discriminate E4). subst w'.
      apply (decimal_inj _ _ _ A1) in A1'. apply (decimal_inj _ _ _ A2) in A2'. apply (decimal_inj _ _ _ A3) in A3'. f_equal; lia.
Qed.

Lemma main_bounds m args r : perft_main m args = Ret r -> in_bounds r.
Proof.
  intros E. destruct (in_dec (list_eq_dec Z.eq_dec) (lit "--help") args) as [H | H].
  { rewrite C48_help in E by auto. injection E as <-. exact Logic.I. }
  destruct (in_dec (list_eq_dec Z.eq_dec) (lit "-h") args) as [H' | H'].
  { rewrite C48_help in E by auto. injection E as <-. exact Logic.I. }
  apply (C48_report m args r H H') in E. eapply reports_bounds, E.
Qed.

(** The printed text determines everything that was measured: two runs (any command lines, builds and times) that print
    the same text made the same report. *)
Theorem C89_readable : forall m m' args args' d d' t, time_span d -> time_span d' ->
  perft_program m args d = Ret t -> perft_program m' args' d' = Ret t ->
  exists r, perft_main m args = Ret r /\ perft_main m' args' = Ret r.
Proof.
  intros m m' args args' d d' t T T' E E'. unfold perft_program in *.
  destruct (perft_main m args) as [r|] eqn:P; [|discriminate]. destruct (perft_main m' args') as [r'|] eqn:P'; [|discriminate].
  cbn [bind] in E, E'. injection E as E. injection E' as E'. exists r. split; auto. f_equal. symmetry.
  eapply text_inj; [..|exact E|exact E']; eauto using main_bounds.
Qed.

(** ** Repeating a run *)
Definition plain (s : str) : Prop := hd 0 s <> 45.
Lemma decimal_plain s n : decimal s n -> plain s.
Proof. intros [N _]. destruct s as [|c s]; [apply numeral_nil in N; contradiction|]. apply numeral_head in N. unfold plain. cbn. lia. Qed.
Lemma id_plain id : id_shape id -> plain id.
Proof. intros (L & F & _). destruct id as [|c id]; [discriminate|]. inversion F as [|? ? H _]; subst. unfold plain. cbn. unfold base64_char in H. lia. Qed.
Lemma capital_plain k : plain (capital (variant_display k)).
Proof. destruct k; discriminate. Qed.
Lemma plain_not s n : plain s -> hd 0 n = 45 -> s <> n.
Proof. intros P H ->. contradiction. Qed.
Lemma no_name_none args name : ~ In name args -> no_number args name.
Proof.
  intros H v (t & (a & n & b & E & I & _) & _). apply H. subst args. destruct I as [<- | []]. apply in_or_app. right. left. reflexivity.
Qed.
Lemma decimal_number s n : decimal s n -> n < 2 ^ 64 -> unsigned_text (2 ^ 64 - 1) s n.
Proof. intros [N _] L. split; [left; exact N|lia]. Qed.
Lemma variant_capital_named k : variant_named (capital (variant_display k)) k.
Proof.
  left. exists [], (capital (variant_display k)), []. rewrite app_nil_r. split; [reflexivity|]. split; [constructor|]. split; [constructor|].
  destruct k; cbv [capital variant_display lit]; cbn; unfold same_text;
  (apply Forall2_cons; [right; left; lia|]); repeat (apply Forall2_cons; [left; reflexivity|]); apply Forall2_nil.
Qed.
Ltac not_in := let I := fresh in intros I; cbn [In app] in I; repeat (destruct I as [I | I]); try contradiction; try discriminate I;
  try (symmetry in I; revert I; apply plain_not; [assumption|reflexivity]); try (revert I; apply plain_not; [assumption|reflexivity]).

(** Every report can be reproduced from what is printed: variant, position, dice or depth and weighting, and iterations as
    printed, given back on a command line, lead to the same report, all counts included. *)
Theorem C89_repeat : forall m args r args', perft_main m args = Ret r -> repeat_args r args' -> perft_main m args' = Ret r.
Proof.
  intros m args r args' E A. pose proof (main_bounds m args r E) as B.
  assert (R : reports m args r).
  { destruct (in_dec (list_eq_dec Z.eq_dec) (lit "--help") args) as [H | H].
    { rewrite C48_help in E by auto. injection E as <-. contradiction. }
    destruct (in_dec (list_eq_dec Z.eq_dec) (lit "-h") args) as [H' | H'].
    { rewrite C48_help in E by auto. injection E as <-. contradiction. }
    apply (C48_report m args r H H'), E. }
  destruct R as (k & id & p & it & _ & _ & D & I & [C | C]).
  - destruct C as (d0 & d1 & dd & l & total & _ & _ & H0 & H1 & S & L & T & ->).
    destruct A as (a & b & n & A0 & A1 & A2 & ->). cbn [in_bounds] in B. destruct B as (Sh & _ & _ & N & Tt).
    pose proof (decimal_plain _ _ A0) as P0. pose proof (decimal_plain _ _ A1) as P1. pose proof (decimal_plain _ _ A2) as P2.
    pose proof (id_plain _ Sh) as P3. pose proof (capital_plain k) as P4.
    apply C48_report; [not_in|not_in|].
    exists k, id, p, (Z.max it 1). split; [|split; [|split; [exact D|split]]].
    + left. eexists. split; [|apply variant_capital_named]. eexists [_], _, _. split; [reflexivity|]. split; [left; reflexivity|].
      apply Forall_cons; [not_in|apply Forall_nil].
    + left. eexists [_; _; _], _, _. split; [reflexivity|]. split; [left; reflexivity|].
      repeat (apply Forall_cons; [not_in|]). apply Forall_nil.
    + left. eexists. split; [|apply decimal_number; [exact A2|lia]]. eexists [_; _; _; _; _; _; _; _; _], _, _. split; [reflexivity|]. split; [left; reflexivity|].
      repeat (apply Forall_cons; [not_in|]). apply Forall_nil.
    + left. exists d0, d1, dd, l, total. split; [|split; [|split; [exact H0|split; [exact H1|split; [exact S|split; [exact L|split]]]]]].
      * eexists. split; [|apply decimal_number; [exact A0|lia]]. eexists [_; _; _; _; _], _, _. split; [reflexivity|]. split; [left; reflexivity|].
        repeat (apply Forall_cons; [not_in|]). apply Forall_nil.
      * eexists. split; [|apply decimal_number; [exact A1|lia]]. eexists [_; _; _; _; _; _; _], _, _. split; [reflexivity|]. split; [left; reflexivity|].
        repeat (apply Forall_cons; [not_in|]). apply Forall_nil.
      * replace (Z.max (Z.max it 1) 1) with (Z.max it 1) by lia. exact T.
      * f_equal. lia.
  - destruct C as (_ & depth & w & nodes & S & _ & P & ->). destruct A as (de & n & A0 & A1 & ->). cbn [in_bounds] in B. destruct B as (Sh & De & N & Tt).
    pose proof (decimal_plain _ _ A0) as P0. pose proof (decimal_plain _ _ A1) as P1.
    pose proof (id_plain _ Sh) as P3. pose proof (capital_plain k) as P4.
    apply C48_report; [destruct w; not_in|destruct w; not_in|].
    exists k, id, p, (Z.max it 1). split; [|split; [|split; [exact D|split]]].
    + left. eexists. split; [|apply variant_capital_named]. eexists [_], _, _. split; [reflexivity|]. split; [left; reflexivity|].
      apply Forall_cons; [not_in|apply Forall_nil].
    + left. eexists [_; _; _], _, _. split; [reflexivity|]. split; [left; reflexivity|].
      repeat (apply Forall_cons; [not_in|]). apply Forall_nil.
    + left. eexists. split; [|apply decimal_number; [exact A1|lia]]. eexists [_; _; _; _; _; _; _], _, _. split; [reflexivity|]. split; [left; reflexivity|].
      repeat (apply Forall_cons; [not_in|]). apply Forall_nil.
    + right. split; [left; apply no_name_none; destruct w; not_in|]. exists depth, w, nodes. split; [|split; [|split; [exact P|]]].
      * left. eexists. split; [|apply decimal_number; [exact A0|lia]]. eexists [_; _; _; _; _], _, _. split; [reflexivity|]. split; [left; reflexivity|].
        repeat (apply Forall_cons; [not_in|]). apply Forall_nil.
      * split.
        -- intros ->. left. apply in_or_app. right. left. reflexivity.
        -- destruct w; auto. intros [X | X]; exfalso; revert X; not_in.
      * f_equal. lia.
Qed.

(** ** The average *)
Lemma Ret_inj {A} (a b : A) : Ret a = Ret b -> a = b.
Proof. congruence. Qed.
(** Unless 2^53 moves were generated, the average printed is exactly the number of positions listed for the roll. *)
Theorem C89_average : forall m args d t k id d0 d1 n total,
  perft_main m args = Ret (SingleRoll k id d0 d1 n total) -> perft_program m args d = Ret t ->
  exists p dd l, gnuid_decode_position m (checkers k) id = Ret (inr p) /\ shows dd (Z.to_nat d0) (Z.to_nat d1) = true /\
    classic_positions m (checkers k) p dd = Ret l /\
    (n * Z.max 1 (Z.of_nat (List.length l)) < 2 ^ 53 -> total = n * Z.of_nat (List.length l) /\
     exists before after number, decimal number (Z.of_nat (List.length l)) /\ t = before ++ lit " avg_moves=" ++ number ++ lit ".000" ++ after).
Proof.
  intros m args d t k id d0 d1 n total E F. unfold perft_program in F. rewrite E in F. unfold bind in F. apply Ret_inj in F. subst t.
  assert (R : reports m args (SingleRoll k id d0 d1 n total)).
  { destruct (in_dec (list_eq_dec Z.eq_dec) (lit "--help") args) as [H | H].
    { rewrite C48_help in E by auto. discriminate. }
    destruct (in_dec (list_eq_dec Z.eq_dec) (lit "-h") args) as [H' | H'].
    { rewrite C48_help in E by auto. discriminate. }
    apply (C48_report m args _ H H'), E. }
  destruct R as (k' & id' & p & it & _ & _ & D & I & [C | C]); [|destruct C as (_ & depth & w & nodes & _ & _ & _ & X); discriminate X].
  destruct C as (e0 & e1 & dd & l & tt & _ & _ & H0 & H1 & S & L & T & X). injection X as <- <- <- <- -> ->.
  exists p, dd, l. repeat (split; [assumption|]). intros Sm. apply setting_range in I; [|lia].
  set (len := Z.of_nat (List.length l)) in *. assert (0 <= len) by lia. assert (N : 1 <= Z.max it 1) by lia. set (n := Z.max it 1) in *. clearbody n len.
  assert (TT : tt = n * len).
  { destruct m; cbn [total_is] in T; [lia|]. rewrite T. apply Z.mod_small. nia. }
  split; [exact TT|]. exists (
      println (lit "mode=single-roll variant=" ++ variant_debug k ++ lit " position_id=" ++ id ++ lit " dice=" ++ fmt_uint d0
               ++ lit "," ++ fmt_uint d1 ++ lit " iterations=" ++ fmt_uint n) ++ lit "total_moves=" ++ fmt_uint tt),
     ([10] ++ println (lit "time_s=" ++ fmt_f64 6 (as_secs_f64 d) ++ lit " it_per_sec=" ++ fmt_f64 2 (f64_div (f64_of n) (f64_max (as_secs_f64 d) f64_nano)))), (fmt_uint len).
  split; [apply dec; lia|]. unfold perft_output; cbv zeta. rewrite TT, average_exact by nia. unfold fmt_fixed.
  change (10 ^ Z.of_nat 3) with 1000. rewrite Z.div_mul by lia.
  assert (Z3 : last_digits 3 (len * 1000) = lit "000").
  { cbn [last_digits app].
    replace (len * 1000) with (len * 100 * 10) by lia. rewrite Z.div_mul, Z.mod_mul by lia.
    replace (len * 100) with (len * 10 * 10) by lia. rewrite Z.div_mul, Z.mod_mul by lia. rewrite Z.mod_mul by lia. reflexivity. }
  rewrite Z3. change (lit ".000") with (lit "." ++ lit "000"). unfold println.
  repeat match goal with |- context [lit ?x] => let H := fresh in generalize (lit x); intros H end. repeat rewrite <- app_assoc. reflexivity.
Qed.

(** ** Help *)
(** With a help flag the program prints the usage text and nothing else: it names every flag that is read (each as a
    word of its own) and, separated by bars, the seven variants by the names that are accepted. *)
Theorem C89_usage : forall m args d, In (lit "--help") args \/ In (lit "-h") args ->
  exists t, perft_program m args d = Ret t /\
  (forall flag, In flag [lit "--position-id"; lit "--variant"; lit "--depth"; lit "--iterations"; lit "--weighted"; lit "--die0"; lit "--die1"] ->
     In flag (split_ws t)) /\
  exists w, In w (split_ws t) /\ w = join (lit "|") (map variant_display [Backgammon; Nackgammon; Longgammon; Hypergammon; Hypergammon2; Hypergammon4; Hypergammon5]) /\
  forall k, variant_named (variant_display k) k.
Proof.
  intros m args d H. unfold perft_program. rewrite C48_help by exact H. cbn [bind perft_output]. exists usage. split; [reflexivity|].
  assert (X : forall w, existsb (str_eqb w) (split_ws usage) = true -> In w (split_ws usage)).
  { intros w Hw. apply existsb_exists in Hw as (x & I & Q). apply StrFacts.str_eqb_eq in Q || apply str_eqb_eq in Q. subst. exact I. }
  split.
  - intros flag I. apply X. repeat (destruct I as [<- | I]; [vm_compute; reflexivity|]). contradiction.
  - eexists. split; [|split; [reflexivity|]]; [apply X; vm_compute; reflexivity|].
    intros k. left. exists [], (variant_display k), []. rewrite app_nil_r. split; [reflexivity|]. split; [constructor|]. split; [constructor|].
    destruct k; cbv [variant_display lit]; cbn; unfold same_text; repeat (apply Forall2_cons; [left; reflexivity|]); apply Forall2_nil.
Qed.

(** ** The corpus benchmark *)
Lemma bench_output_text b d : 1 <= b_iterations b < 2 ^ 64 -> 0 <= b_moves_per_run b < 2 ^ 64 -> time_span d -> bench_text b d (bench_output b d).
Proof.
  intros I M T.
  exists (fmt_uint (Z.of_nat (b_positions b))), (fmt_uint (b_iterations b)), (fmt_uint (b_moves_per_run b)), (fmt_f64 6 (as_secs_f64 d)),
    (fmt_f64 2 (f64_div (f64_of (b_iterations b)) (f64_max (as_secs_f64 d) f64_nano))),
    (fmt_f64 2 (f64_div (f64_mul (f64_of (b_moves_per_run b)) (f64_of (b_iterations b))) (f64_max (as_secs_f64 d) f64_nano))).
  split; [|split; [|split; [|split; [|split; [|split]]]]].
  - unfold bench_output, println, text_of, field. cbn [map join concat]. repeat rewrite <- app_assoc. reflexivity.
  - apply dec; lia.
  - apply dec; lia.
  - apply dec; lia.
  - apply (fmt_f64_rounded 6 4); [lia|lia|]. apply apx_secs, T.
  - apply (fmt_f64_rounded 2 6); [lia|lia|]. apply apx_rate; auto; lia.
  - apply (fmt_f64_rounded 2 8); [lia|lia|]. apply apx_product_rate; auto; lia.
Qed.

(** The usage text, and the defaults it names. *)
Theorem C89_usage_text : forall m args d, In (lit "--help") args \/ In (lit "-h") args ->
  perft_program m args d = Ret (concat (map (fun l => l ++ [10]) usage_lines)).
Proof. intros m args d H. unfold perft_program. rewrite C48_help by exact H. reflexivity. Qed.
Lemma no_flag_value args names v : no_settings args ->
  (forall n, In n names -> In n [lit "--help"; lit "-h"; lit "--position-id"; lit "-p"; lit "--variant"; lit "-v"; lit "--depth"; lit "-d";
                           lit "--iterations"; lit "-n"; lit "--weighted"; lit "-w"; lit "--die0"; lit "--die1"]) -> ~ flag_value names args v.
Proof.
  intros H Sub (a & n & b & -> & I & _). unfold no_settings in H. rewrite Forall_forall in H. apply (H n); [apply in_app_iff; right; left; reflexivity|].
  apply Sub, I.
Qed.
Theorem C89_defaults : forall m args r, no_settings args -> perft_main m args = Ret r ->
  exists id nodes, r = PerftRun Backgammon id 2 false 1 nodes /\ gnuid_encode m (start_position Backgammon) = Ret id.
Proof.
  intros m args r H E.
  assert (NV : forall names v, incl names [lit "--help"; lit "-h"; lit "--position-id"; lit "-p"; lit "--variant"; lit "-v"; lit "--depth"; lit "-d";
                           lit "--iterations"; lit "-n"; lit "--weighted"; lit "-w"; lit "--die0"; lit "--die1"] -> ~ flag_value names args v)
    by (intros; apply no_flag_value; auto).
  assert (NI : forall n, In n [lit "--help"; lit "-h"; lit "--weighted"; lit "-w"] -> ~ In n args).
  { intros n I J. unfold no_settings in H. rewrite Forall_forall in H. apply (H n J). cbn [In] in *. tauto. }
  apply C48_report in E; [|apply NI; cbn [In]; tauto|apply NI; cbn [In]; tauto].
  assert (NN : forall name v, In name [lit "--depth"; lit "-d"; lit "--iterations"; lit "-n"; lit "--die0"; lit "--die1"] -> ~ number_flag args name v).
  { intros name v I (t & F & _). revert F. apply NV. intros x [<-|[]]. cbn [In] in *. tauto. }
  assert (ST : forall long short df v, In long [lit "--depth"; lit "-d"; lit "--iterations"; lit "-n"; lit "--die0"; lit "--die1"] ->
            In short [lit "--depth"; lit "-d"; lit "--iterations"; lit "-n"; lit "--die0"; lit "--die1"] -> setting args long short df v -> v = df).
  { intros l s df v Il Is [X|[(_ & X)|(_ & _ & X)]]; auto; exfalso; [exact (NN l v Il X)|exact (NN s v Is X)]. }
  destruct E as (k & id & p & it & Hk & Hid & _ & Hit & [(a & b & d & l & t & Ha & _)|(_ & depth & w & n & Hd & Hw & _ & ->)]).
  { exfalso. revert Ha. apply NN. cbn [In]. tauto. }
  apply ST in Hit; [|cbn [In]; tauto|cbn [In]; tauto]. apply ST in Hd; [|cbn [In]; tauto|cbn [In]; tauto]. subst it depth.
  destruct Hk as [(t & F & _)|(_ & ->)]; [exfalso; revert F; apply NV; intros x Hx; cbn [In] in *; tauto|].
  destruct Hid as [F|(_ & Hid)]; [exfalso; revert F; apply NV; intros x Hx; cbn [In] in *; tauto|].
  assert (w = false) as ->.
  { destruct w; auto. exfalso. destruct (proj1 Hw eq_refl) as [X|X]; revert X; apply NI; cbn [In]; tauto. }
  exists id, n. split; [reflexivity|exact Hid].
Qed.
Example C89_defaults_case : no_settings [lit "bkgm-perft"; lit "x"] /\ no_settings [].
Proof.
  split; [|constructor]. repeat (apply Forall_cons; [cbn [In]; intros X; repeat (destruct X as [X|X]; [discriminate X|]); exact X|]). apply Forall_nil.
Qed.
(** The corpus benchmark prints its two reports (C58), the contact corpus first, six lines each. *)
Theorem C89_corpus : forall m files contact race args d1 d2, time_span d1 -> time_span d2 ->
  (forall a b, corpus_reports m files contact race args a b ->
     exists t1 t2, corpus_program m files contact race args d1 d2 = Ret (t1 ++ t2) /\ bench_text a d1 t1 /\ bench_text b d2 t2) /\
  (forall t, corpus_program m files contact race args d1 d2 = Ret t ->
     exists a b t1 t2, corpus_reports m files contact race args a b /\ t = t1 ++ t2 /\ bench_text a d1 t1 /\ bench_text b d2 t2).
Proof.
  intros m files contact race args d1 d2 T1 T2.
  assert (B : forall a b, corpus_reports m files contact race args a b -> bench_text a d1 (bench_output a d1) /\ bench_text b d2 (bench_output b d2)).
  { intros a b (cp & rp & cs & rs & it & ct & rt & _ & _ & I & _ & _ & C & R & -> & ->).
    assert (0 <= it < 2 ^ 64) by (destruct I as [I | [_ ->]]; [eapply number_flag_range, I|lia]).
    apply run_once_range in C, R. split; apply bench_output_text; cbn [b_iterations b_moves_per_run]; auto; lia. }
  unfold corpus_program. split.
  - intros a b R. pose proof (B a b R) as [X Y]. apply C58_reports in R. rewrite R. cbn [bind]. eauto.
  - intros t E. destruct (corpus_main m files contact race args) as [[a b]|] eqn:P; [|discriminate]. cbn [bind] in E. injection E as <-.
    apply C58_reports in P. pose proof (B a b P) as [X Y]. exists a, b. eauto 8.
Qed.

(** A concrete run: 12.3456785 seconds (rounded to 12.345678 or 12.345679), 2 iterations of the roll 3-1. *)
Example C89_ex :
  time_span {| d_secs := 12; d_nanos := 345678500 |} /\
  perft_program Debug [lit "bkgm-perft"; lit "-v"; lit "Hyper2"; lit "--die0"; lit "3"; lit "--die1"; lit "1"; lit "-n"; lit "2"]
    {| d_secs := 12; d_nanos := 345678500 |} =
  Ret (lit "mode=single-roll variant=Hypergammon2 position_id=AABAAQAACgAAAA dice=3,1 iterations=2" ++ [10] ++
       lit "total_moves=6 avg_moves=3.000" ++ [10] ++ lit "time_s=12.345678 it_per_sec=0.16" ++ [10]).
Proof. split; [vm_compute; repeat split; discriminate|]. vm_compute. reflexivity. Qed.
(** No time at all: the rate counts one nanosecond. *)
Example C89_no_time_ex :
  perft_program Debug [lit "bkgm-perft"; lit "-v"; lit "Hyper2"; lit "-d"; lit "1"; lit "-w"] {| d_secs := 0; d_nanos := 0 |} =
  Ret (lit "mode=perft variant=Hypergammon2 position_id=AABAAQAACgAAAA depth=1 weighted=1 iterations=1" ++ [10] ++
       lit "nodes_per_run=136" ++ [10] ++ lit "time_s=0.000000 nodes_per_sec=136000000000.00" ++ [10]).
Proof. vm_compute. reflexivity. Qed.
