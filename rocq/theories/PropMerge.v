(** Properties of the warning data: the rest of C36 (test names, the managers of
    the suites) and C37 (merging). *)

From Coq Require Import Ascii String List NArith Bool Arith Lia Permutation Sorting.Sorted.
From Verif Require Import Bytes BytesProofs GoSort Regex RegexProofs RegexFirst Replace PropReplace Warnings WarnParser
  WarnLines SpecReport WarnRoundTrip WarnEffects PropReport.
From Verif Require PropWarnings.
Import ListNotations.

(** ** C36: the tag of a test function *)

Lemma has_prefix_spec p : forall s r, has_prefix p s = Some r <-> s = p ++ r.
Proof.
  induction p as [|c p IH]; intros s r; cbn [has_prefix app].
  - split; congruence.
  - destruct s as [|d s]; [split; discriminate|]. destruct (Ascii.eqb_spec c d) as [->|N].
    + rewrite IH. split; congruence.
    + split; [discriminate|]. congruence.
Qed.

Lemma strip_one_cases s p : (exists r, s = p ++ r /\ strip_one s p = r) \/ ((forall r, s <> p ++ r) /\ strip_one s p = s).
Proof.
  unfold strip_one. destruct (has_prefix p s) as [r|] eqn:E.
  - left. exists r. apply has_prefix_spec in E. auto.
  - right. split; [|reflexivity]. intros r K. apply has_prefix_spec in K. congruence.
Qed.

Definition bare (s : bytes) : Prop := forall p t, In p test_prefixes -> s <> p ++ t.

Lemma round_cases ps : forall s, (forall p, In p ps -> p <> []) ->
  let s' := fold_left strip_one ps s in
  (exists qs, (forall q, In q qs -> In q ps) /\ s = concat qs ++ s') /\ length s' <= length s /\
  (length s' = length s -> s' = s /\ forall p t, In p ps -> s <> p ++ t).
Proof.
  induction ps as [|p ps IH]; intros s H; cbn [fold_left]; cbv zeta.
  - repeat split; auto. exists []. split; [intros q []|reflexivity].
  - assert (H' : forall q, In q ps -> q <> []) by (intros q Hq; apply H; right; exact Hq).
    destruct (strip_one_cases s p) as [(r & -> & E)|(N & E)]; rewrite E.
    + destruct (IH r H') as ((qs & Q1 & Q2) & L & K). cbv zeta in *. rewrite app_length.
      assert (0 < length p). { destruct p; [exfalso; apply (H []); [left|]; reflexivity|cbn; lia]. }
      split; [exists (p :: qs); split|split; lia].
      * intros q [->|Hq]; [left; reflexivity|right; apply Q1, Hq].
      * cbn [concat]. rewrite <- app_assoc. congruence.
    + destruct (IH s H') as ((qs & Q1 & Q2) & L & K). cbv zeta in *. split; [|split; [exact L|]].
      * exists qs. split; [|exact Q2]. intros q Hq. right. apply Q1, Hq.
      * intros Ls. destruct (K Ls) as [K1 K2]. split; [exact K1|]. intros q t [<-|Hq]; [apply N|apply K2, Hq].
Qed.

Lemma prefixes_not_nil p : In p test_prefixes -> p <> [].
Proof. cbn. intuition; subst; discriminate. Qed.

Lemma strip_rounds_ok n : forall s, length s <= n ->
  bare (strip_rounds n s) /\ exists qs, (forall q, In q qs -> In q test_prefixes) /\ s = concat qs ++ strip_rounds n s.
Proof.
  induction n as [|n IH]; intros s L.
  - destruct s; [|cbn in L; lia]. split; [|exists []; split; [intros q []|reflexivity]].
    intros p t Hp E. apply prefixes_not_nil in Hp. destruct p; [auto|discriminate].
  - cbn [strip_rounds]. fold test_prefixes. destruct (round_cases test_prefixes s prefixes_not_nil) as ((qs & Q1 & Q2) & Ll & K).
    cbv zeta in *. set (s' := fold_left strip_one test_prefixes s) in *.
    destruct (beq s' s) eqn:E.
    + apply beq_eq in E. destruct K as [_ K]; [congruence|]. split; [exact K|].
      exists []. split; [intros q []|reflexivity].
    + assert (Lt : length s' <> length s). { intros X. apply K in X. destruct X as [X _]. apply beq_eq in X. congruence. }
      destruct (IH s') as [I1 (qs2 & I2 & I3)]; [lia|]. split; [exact I1|]. exists (qs ++ qs2). split.
      * intros q Hq. apply in_app_or in Hq. destruct Hq; auto.
      * rewrite concat_app, <- app_assoc, <- I3. exact Q2.
Qed.

Lemma strip_bare s : bare s -> strip_prefixes s = s.
Proof.
  intros Bs. unfold strip_prefixes. destruct (strip_rounds_ok (length s) s (le_n _)) as [_ (qs & Q1 & Q2)].
  destruct qs as [|q qs]; [symmetry; exact Q2|]. exfalso. cbn [concat] in Q2. rewrite <- app_assoc in Q2.
  exact (Bs q _ (Q1 q (or_introl eq_refl)) Q2).
Qed.

(** What is removed from the name of a test function consists of prefixes, and
    none is left over; the names Go uses lose just their prefix. *)
Theorem C36_prefixes s :
  (exists ps, (forall p, In p ps -> In p test_prefixes) /\ s = concat ps ++ strip_prefixes s) /\
  (forall p t, In p test_prefixes -> strip_prefixes s <> p ++ t) /\
  ((forall p t, In p test_prefixes -> s <> p ++ t) ->
   strip_prefixes s = s /\ strip_prefixes (B "Benchmark_" ++ s) = s /\ strip_prefixes (B "Test_" ++ s) = s /\
   ((forall t, s <> chr 95 :: t) ->
    strip_prefixes (B "Benchmark" ++ s) = s /\ strip_prefixes (B "Test" ++ s) = s)).
Proof.
  destruct (strip_rounds_ok (length s) s (le_n _)) as [B1 B2]. split; [exact B2|]. split; [exact B1|].
  intros Bs.
  (* one round is enough if it leaves [s] *)
  assert (R : forall p, In p test_prefixes -> fold_left strip_one test_prefixes (p ++ s) = s -> strip_prefixes (p ++ s) = s).
  { intros p Hp E. unfold strip_prefixes. apply prefixes_not_nil in Hp. destruct p as [|c p]; [congruence|].
    cbn [app length strip_rounds]. fold test_prefixes. cbn [app] in E. rewrite E.
    replace (beq s (c :: p ++ s)) with false.
    - assert (X : forall n, length s <= n -> strip_rounds n s = s).
      { intros n L. destruct (strip_rounds_ok n s L) as [_ (qs & Q1 & Q2)]. destruct qs as [|q qs]; [symmetry; exact Q2|].
        exfalso. cbn [concat] in Q2. rewrite <- app_assoc in Q2. exact (Bs q _ (Q1 q (or_introl eq_refl)) Q2). }
      apply X. rewrite app_length. lia.
    - symmetry. destruct (beq s (c :: p ++ s)) eqn:K; [|reflexivity]. apply beq_eq in K.
      apply (f_equal (@length _)) in K. cbn in K. rewrite app_length in K. lia. }
  assert (Keep : forall p, In p test_prefixes -> strip_one s p = s).
  { intros p Hp. destruct (strip_one_cases s p) as [(r & E & _)|[_ E]]; [|exact E]. exfalso. exact (Bs p r Hp E). }
  assert (Take : forall p, strip_one (p ++ s) p = s).
  { intros p. destruct (strip_one_cases (p ++ s) p) as [(r & E & ->)|[N _]]; [apply app_inv_head in E; congruence|].
    exfalso. apply (N s). reflexivity. }
  assert (Skip : forall p q, (forall r, p ++ s <> q ++ r) -> strip_one (p ++ s) q = p ++ s).
  { intros p q N. destruct (strip_one_cases (p ++ s) q) as [(r & E & _)|[_ E]]; [|exact E]. exfalso. exact (N r E). }
  assert (K1 := Keep (B "Benchmark") ltac:(cbn; auto)). assert (K2 := Keep (B "Test_") ltac:(cbn; auto)).
  assert (K3 := Keep (B "Test") ltac:(cbn; auto)).
  split; [apply strip_bare; exact Bs|].
  split; [apply R; [cbn; auto|]; cbn [fold_left test_prefixes]; rewrite Take, K1, K2, K3; reflexivity|].
  split.
  { apply R; [cbn; auto|]. cbn [fold_left test_prefixes]. rewrite Skip by discriminate. rewrite Skip by discriminate.
    rewrite Take, K3. reflexivity. }
  intros U. split; (apply R; [cbn; auto|]); cbn [fold_left test_prefixes].
  - rewrite Skip, Take, K2, K3; [reflexivity|]. intros r E. change (B "Benchmark_") with (B "Benchmark" ++ [chr 95]) in E.
    rewrite <- app_assoc in E. apply app_inv_head in E. exact (U r E).
  - rewrite Skip by discriminate. rewrite Skip by discriminate. rewrite Skip, Take; [reflexivity|].
    intros r E. change (B "Test_") with (B "Test" ++ [chr 95]) in E. rewrite <- app_assoc in E. apply app_inv_head in E. exact (U r E).
Qed.
Print Assumptions C36_prefixes.

(** The loop takes the prefixes in turn, so a doubled one leaves its underscore. *)
Example C36_prefixes_quirk :
  strip_prefixes (B "BenchmarkSimple") = B "Simple" /\ strip_prefixes (B "Test_Simple") = B "Simple" /\
  strip_prefixes (B "Benchmark_Benchmark_Simple") = B "_Simple".
Proof. vm_compute. auto. Qed.

(** ** C36: the reports of managers *)

Lemma reads_single v source lookup name l w w' :
  reads_reports v source lookup [(name, l)] w w' -> reads_report v source (tag_of lookup name) l w w'.
Proof. intros R. inversion R as [|? ? ? ? w1 ? R1 R2]; subst. inversion R2; subst. exact R1. Qed.

Lemma same_settings p0 name p h :
  m_name (PropWarnings.after (new_manager p0 name p) h) = name /\ m_prefix (PropWarnings.after (new_manager p0 name p) h) = p.
Proof.
  induction h as [|c h [I1 I2]]; [split; reflexivity|]. cbn [PropWarnings.after].
  set (m := PropWarnings.after (new_manager p0 name p) h) in *.
  assert (A : forall w fn text log m, m_name (add_warning w fn text log m) = m_name m /\ m_prefix (add_warning w fn text log m) = m_prefix m)
    by (intros; split; reflexivity).
  destruct c; cbn [PropWarnings.do_call].
  all: try (split; [rewrite <- I1|rewrite <- I2]; reflexivity).
  - unfold warn_only. cbv zeta. split; [rewrite <- I1|rewrite <- I2]; destruct (get _ _); reflexivity.
  - unfold skip_test_if. destruct (List.find _ _); cbn [snd]; split; [rewrite <- I1|rewrite <- I2|exact I1|exact I2]; reflexivity.
  - pose proof (PropWarnings.clean_only m) as K. intuition congruence.
Qed.

(** The list of a manager after any calls names each warning once, so the report
    it shows can be read back if the texts are in the line syntax. *)
Theorem C36_manager v source lookup p0 name p h w m' l :
  casing_ok (v_casing v) -> p = [] \/ p = B "# " ->
  get_warnings (PropWarnings.after (new_manager p0 name p) h) m' l ->
  good_handler name -> tag_of lookup name <> [] -> Forall (good_warning (v_casing v)) l ->
  short_lines (show_list name p l) ->
  exists w', parse_warning_data v source lookup (show_warnings (PropWarnings.after (new_manager p0 name p) h)) w = Some (w', false) /\
             reads_report v source (tag_of lookup name) l w w'.
Proof.
  intros ok pok G GH GT GW S. set (m := PropWarnings.after (new_manager p0 name p) h) in *.
  destruct (same_settings p0 name p h) as [M1 M2]. fold m in M1, M2.
  assert (W : wf (m_warnings (clean m))) by (apply PropWarnings.clean_wf, PropWarnings.after_wf).
  assert (Nm : forall n r, get n (m_warnings (clean m)) = Some r -> r_name r = n) by (intros n r; apply PropWarnings.names_after).
  assert (El : l = report m) by (eapply PropWarnings.report_is; eassumption).
  assert (D : NoDup (map r_name l)).
  { rewrite El. eapply Permutation_NoDup; [|exact W]. unfold report. rewrite <- (sort_by_perm report_less).
    unfold keys. rewrite map_map. replace (map (fun x => r_name (snd x)) (m_warnings (clean m))) with (map fst (m_warnings (clean m))); [reflexivity|].
    apply map_ext_in. intros [n r] Hi. cbn. symmetry. apply Nm. apply get_in; assumption. }
  unfold show_warnings. rewrite M1, M2, <- El.
  destruct (C36_round_trip v source lookup p [(name, l)] w ok pok) as (w' & E & R).
  - constructor; [|constructor]. exact (conj GH (conj GT (conj D GW))).
  - unfold reports_text. cbn [map concat fst snd]. rewrite app_nil_r. exact S.
  - exists w'. unfold reports_text in E. cbn [map concat fst snd] in E. rewrite app_nil_r in E. split; [exact E|].
    exact (reads_single _ _ _ _ _ _ _ R).
Qed.
Print Assumptions C36_manager.

(** ** C37: merging *)

(** A line that names a handler, and one that says it has no warnings.  Lines just
    after a summary are looked at untrimmed. *)
Definition names (lookup : gomap bytes) (x line : bytes) : Prop :=
  exists f, find ptn_warnings_for (prepare line) = Some f /\ tag_of lookup (sub 1 f) = x.
Definition says_none (line : bytes) : Prop :=
  matches ptn_none line = true \/ matches ptn_none (prepare line) = true.

(** Nothing about a handler, test or warning is lost. *)
Definition keeps (m m' : gomap table) (x : bytes) : Prop :=
  forall level n,
    (exists new, instances_in m' x level n = instances_in m x level n ++ new) /\
    (summary_in m x level n <> None -> summary_in m' x level n <> None).
Definition keeps_counts (m m' : gomap wcount) : Prop :=
  forall n h, (counted m n h <= counted m' n h)%N.

Lemma keeps_refl m x : keeps m m x.
Proof. intros level n. split; [exists []; symmetry; apply app_nil_r|auto]. Qed.
Lemma keeps_trans a b c x : keeps a b x -> keeps b c x -> keeps a c x.
Proof.
  intros H1 H2 level n. destruct (H1 level n) as [[n1 E1] S1], (H2 level n) as [[n2 E2] S2]. split; [|auto].
  exists (n1 ++ n2). rewrite E2, E1, app_assoc. reflexivity.
Qed.
Lemma keeps_update y k f m x : (forall d, exists new, d_insts (f d) = d_insts d ++ new) -> keeps m (update y k f m) x.
Proof.
  intros H level n. rewrite instances_update, summary_update.
  destruct (beq y x && same_key k (level, n)) eqn:E; [|apply keeps_refl]. split; [|discriminate].
  apply andb_true_iff in E. destruct E as [E1 E2]. apply beq_eq in E1. apply same_key_eq in E2. subst.
  destruct (H (warn_of (level, n) (table_of x m))) as [new Hn]. exists new. rewrite Hn, instances_warn_of. reflexivity.
Qed.
Lemma keeps_get m m' x : get x m' = get x m -> keeps m m' x.
Proof.
  intros E level n. unfold instances_in, summary_in. rewrite E. split; [|auto]. exists []. symmetry. apply app_nil_r.
Qed.

Section Merge.
Variable v : world.
Variable source : bytes.
Variable lookup : gomap bytes.

(** The views that only grow. *)
Definition grows (w w' : wdata) : Prop :=
  (forall t, keeps (by_test w) (by_test w') t) /\ keeps_counts (by_warning w) (by_warning w').

Lemma grows_refl w : grows w w.
Proof. split; [intros t; apply keeps_refl|intros n h; lia]. Qed.
Lemma grows_trans a b c : grows a b -> grows b c -> grows a c.
Proof.
  intros [A1 A2] [B1 B2]. split; [intros t; eapply keeps_trans; [apply A1|apply B1]|].
  intros n h. specialize (A2 n h). specialize (B2 n h). lia.
Qed.

Lemma save_grows s : grows (p_data s) (p_data (save v s)).
Proof.
  unfold save. destruct (p_inst s) as [i|]; [|apply grows_refl]. destruct (p_cur s) as [c|]; [|apply grows_refl].
  split; cbn [by_test by_warning set_by_test set_by_warning p_data with_inst with_data].
  - intros t. assert (E : by_test (if c_live c then set_by_handler
        (update (c_handler c) (c_level c, c_name c) (add_inst i) (by_handler (p_data s))) (p_data s) else p_data s) = by_test (p_data s))
      by (destruct (c_live c); reflexivity).
    rewrite E. apply keeps_update. intros d. eexists. reflexivity.
  - intros n h. rewrite counted_use.
    replace (by_warning (if c_live c then _ else _)) with (by_warning (p_data s)) by (destruct (c_live c); reflexivity). lia.
Qed.

(** The handlers' view: by whom it is changed. *)
Definition only_for (x : bytes) (s : pstate) : Prop :=
  p_handler s <> x /\ forall c, p_cur s = Some c -> c_handler c <> x.

Lemma save_keeps s x : keeps (by_handler (p_data s)) (by_handler (p_data (save v s))) x.
Proof.
  unfold save. destruct (p_inst s) as [i|]; [|apply keeps_refl]. destruct (p_cur s) as [c|]; [|apply keeps_refl].
  cbn [by_handler set_by_test set_by_warning p_data with_inst with_data]. destruct (c_live c); [|apply keeps_refl].
  cbn [by_handler set_by_handler]. apply keeps_update. intros d. eexists. reflexivity.
Qed.
Lemma save_other s x : (forall c, p_cur s = Some c -> c_handler c <> x) ->
  get x (by_handler (p_data (save v s))) = get x (by_handler (p_data s)).
Proof.
  intros H. unfold save. destruct (p_inst s) as [i|]; [|reflexivity]. destruct (p_cur s) as [c|]; [|reflexivity].
  cbn [by_handler set_by_test set_by_warning p_data with_inst with_data]. destruct (c_live c); [|reflexivity].
  cbn [by_handler set_by_handler]. apply get_update_other. apply H. reflexivity.
Qed.

Ltac unfold_rest s line :=
  unfold parse_rest; destruct (p_handler s) as [|hc ht] eqn:Eh;
  [|destruct (matches ptn_none line) eqn:Mn;
    [|destruct (match find ptn_level line with Some f => parse_level (v_casing v) (sub 1 f) | None => None end) as [lv|];
      [|destruct (find ptn_warning line) as [fw|];
        [|destruct (matches ptn_log_line line);
          [destruct (p_inst s) as [pi|] eqn:Ei|
           destruct (find ptn_extra line) as [fe|];
             [destruct (p_inst s) as [pi|] eqn:Ei|destruct (find ptn_instance line) as [fi|]]]]]]].

Lemma none_state s h : exists s1, (match p_cur s with
     | Some c => if beq (c_handler c) h
                 then with_cur (Some {| c_handler := c_handler c; c_level := c_level c; c_name := c_name c;
                                        c_summary := c_summary c; c_live := false |}) s else s
     | None => s end) = s1 /\ p_data s1 = p_data s /\ p_handler s1 = p_handler s /\
     (forall x, (forall c, p_cur s = Some c -> c_handler c <> x) -> forall c, p_cur s1 = Some c -> c_handler c <> x).
Proof.
  eexists. split; [reflexivity|]. destruct (p_cur s) as [c|] eqn:E; [destruct (beq _ _)|]; cbn; repeat split; auto.
  - intros x H c' K. injection K as <-. cbn. apply H. reflexivity.
  - intros x H c' K. apply H. congruence.
  - intros x H c' K. congruence.
Qed.

Lemma rest_grows line s s' : parse_rest v source line s = Some s' -> grows (p_data s) (p_data s').
Proof.
  unfold_rest s line; intros E; try discriminate; injection E as <-; try apply grows_refl.
  - destruct (none_state s (hc :: ht)) as (s1 & -> & D & _ & _). rewrite D. cbn. split; [intros t; apply keeps_refl|intros n h; cbn; lia].
  - cbn. apply save_grows.
  - cbn. eapply grows_trans; [apply save_grows|]. split; [intros t; apply keeps_refl|intros n h; cbn; lia].
  - cbn. eapply grows_trans; [apply save_grows|]. split; [intros t; apply keeps_refl|intros n h; cbn; lia].
Qed.

Lemma rest_keeps line s s' x : parse_rest v source line s = Some s' ->
  (p_handler s = x -> p_handler s <> [] -> matches ptn_none line = false) ->
  keeps (by_handler (p_data s)) (by_handler (p_data s')) x /\ p_handler s' = p_handler s.
Proof.
  unfold_rest s line; intros E H; try discriminate; injection E as <-;
    try (split; [apply keeps_refl|cbn; auto; fail]).
  - destruct (none_state s (hc :: ht)) as (s1 & -> & D & Hs & _). cbn. split; [|congruence]. rewrite D. apply keeps_get.
    rewrite Hs, Eh, get_put_other; [reflexivity|]. intros Ex. specialize (H Ex ltac:(discriminate)). discriminate.
  - cbn. split; [apply save_keeps|rewrite save_handler; exact Eh].
  - cbn. split; [|rewrite save_handler; exact Eh]. eapply keeps_trans; [apply save_keeps|].
    apply keeps_update. intros d. exists []. cbn. symmetry. apply app_nil_r.
  - cbn. split; [apply save_keeps|rewrite save_handler; exact Eh].
Qed.

Lemma rest_other line s s' x : parse_rest v source line s = Some s' -> (p_handler s <> [] -> p_handler s <> x) ->
  (forall c, p_cur s = Some c -> c_handler c <> x) ->
  get x (by_handler (p_data s')) = get x (by_handler (p_data s)) /\ p_handler s' = p_handler s /\
  (forall c, p_cur s' = Some c -> c_handler c <> x).
Proof.
  unfold_rest s line; intros E H Hc; try discriminate; injection E as <-;
    try (split; [reflexivity|split; [exact Eh|exact Hc]]);
    assert (Nx : hc :: ht <> x) by (apply H; discriminate).
  - destruct (none_state s (hc :: ht)) as (s1 & -> & D & Hs & K). cbn. rewrite D, Hs, Eh. split; [apply get_put_other, Nx|].
    split; [reflexivity|apply K, Hc].
  - cbn. split; [apply save_other, Hc|]. split; [rewrite save_handler; exact Eh|discriminate].
  - cbn. rewrite !save_handler. split; [rewrite get_update_other by congruence; apply save_other, Hc|].
    split; [exact Eh|]. intros c K. injection K as <-. cbn. congruence.
  - cbn. split; [apply save_other, Hc|]. split; [rewrite save_handler; exact Eh|]. rewrite save_cur. exact Hc.
Qed.

Lemma name_data h s : exists hd, p_data (name_handler v lookup h s) = set_handler_data hd (p_data (save v s)) /\
  p_handler (name_handler v lookup h s) = tag_of lookup h /\ p_cur (name_handler v lookup h s) = p_cur s.
Proof.
  unfold name_handler, tag_of. destruct (get h lookup); eexists; cbn; rewrite save_cur; auto.
Qed.
Lemma end_data n sums links s : exists hd, p_data (end_summary lookup n sums links s) = set_handler_data hd (p_data s) /\
  p_handler (end_summary lookup n sums links s) = p_handler s /\ p_cur (end_summary lookup n sums links s) = p_cur s.
Proof.
  unfold end_summary. destruct (get n lookup); [eexists; cbn; auto|]. exists (handler_data (p_data s)).
  split; [destruct (p_data s); reflexivity|auto].
Qed.

(** The three facts about the loop. *)
Lemma loop_grows lines : forall m s s', parse_loop v source lookup m lines s = Some s' -> grows (p_data s) (p_data s').
Proof.
  induction lines as [|raw lines IH]; intros m s s' E; cbn [parse_loop] in E.
  - destruct m as [[[[first n] sums] links]|].
    + destruct (parse_rest v source first s) as [s1|] eqn:R; [|discriminate]. injection E as <-.
      eapply grows_trans; [apply (rest_grows _ _ _ R)|apply save_grows].
    + injection E as <-. apply save_grows.
  - destruct m as [[[[first n] sums] links]|].
    + destruct (find ptn_summary_line raw); [eapply IH; exact E|]. destruct (find ptn_summary_link raw); [eapply IH; exact E|].
      destruct (parse_rest v source raw _) as [s1|] eqn:R; [|discriminate].
      apply rest_grows in R. destruct (end_data n sums links s) as (hd & D & _). rewrite D in R.
      eapply grows_trans; [exact R|eapply IH; exact E].
    + destruct (prepare raw) as [|c t]; [eapply IH; exact E|]. destruct (find ptn_warnings_for (c :: t)) as [f|].
      * destruct (name_data (sub 1 f) s) as (hd & D & _). apply IH in E. rewrite D in E.
        eapply grows_trans; [apply save_grows|exact E].
      * destruct (matches ptn_by_warning (c :: t)); [injection E as <-; apply save_grows|].
        destruct (find ptn_summary_start (c :: t)); [eapply IH; exact E|].
        destruct (parse_rest v source (c :: t) s) as [s1|] eqn:R; [|discriminate].
        eapply grows_trans; [apply (rest_grows _ _ _ R)|eapply IH; exact E].
Qed.

Lemma loop_other x lines : forall m s s', parse_loop v source lookup m lines s = Some s' ->
  (p_handler s <> [] -> p_handler s <> x) -> (forall c, p_cur s = Some c -> c_handler c <> x) ->
  (forall l, In l lines -> ~ names lookup x l) ->
  get x (by_handler (p_data s')) = get x (by_handler (p_data s)).
Proof.
  induction lines as [|raw lines IH]; intros m s s' E H Hc N; cbn [parse_loop] in E.
  - destruct m as [[[[first n] sums] links]|].
    + destruct (parse_rest v source first s) as [s1|] eqn:R; [|discriminate]. injection E as <-.
      destruct (rest_other _ _ _ x R H Hc) as (R1 & R2 & R3). rewrite save_other by exact R3. exact R1.
    + injection E as <-. apply save_other, Hc.
  - assert (N' : forall l, In l lines -> ~ names lookup x l) by (intros l Hl; apply N; right; exact Hl).
    destruct m as [[[[first n] sums] links]|].
    + destruct (find ptn_summary_line raw); [eapply IH; eassumption|]. destruct (find ptn_summary_link raw); [eapply IH; eassumption|].
      destruct (parse_rest v source raw _) as [s1|] eqn:R; [|discriminate].
      destruct (end_data n sums links s) as (hd & D & D2 & D3).
      apply (rest_other _ _ _ x) in R; [|rewrite D2; exact H|rewrite D3; exact Hc].
      destruct R as (R1 & R2 & R3). rewrite D in R1. cbn in R1.
      rewrite (IH _ _ _ E); [exact R1|rewrite R2, D2; exact H|exact R3|exact N'].
    + destruct (prepare raw) as [|c t] eqn:Ep; [eapply IH; eassumption|]. destruct (find ptn_warnings_for (c :: t)) as [f|] eqn:Ef.
      * destruct (name_data (sub 1 f) s) as (hd & D & D2 & D3). rewrite (IH _ _ _ E); [| |rewrite D3; exact Hc|exact N'].
        -- rewrite D. cbn. apply save_other, Hc.
        -- intros _ K. rewrite D2 in K. apply (N raw (or_introl eq_refl)). exists f. rewrite Ep. auto.
      * destruct (matches ptn_by_warning (c :: t)); [injection E as <-; apply save_other, Hc|].
        destruct (find ptn_summary_start (c :: t)); [eapply IH; eassumption|].
        destruct (parse_rest v source (c :: t) s) as [s1|] eqn:R; [|discriminate].
        destruct (rest_other _ _ _ x R H Hc) as (R1 & R2 & R3).
        rewrite (IH _ _ _ E); [exact R1|rewrite R2; exact H|exact R3|exact N'].
Qed.

(** No line that says none after one that names the handler. *)
Fixpoint spared (x : bytes) (seen : Prop) (lines : list bytes) : Prop :=
  match lines with
  | [] => True
  | r :: ls => (seen -> ~ says_none r) /\ spared x (seen \/ names lookup x r) ls
  end.

Lemma spared_spec x lines : forall seen : Prop,
  (forall a r b, lines = a ++ r :: b -> says_none r -> ~ (seen \/ exists r1, In r1 a /\ names lookup x r1)) -> spared x seen lines.
Proof.
  induction lines as [|r ls IH]; intros seen H; cbn [spared]; [exact I|]. split.
  - intros S K. apply (H [] r ls eq_refl K). left. exact S.
  - apply IH. intros a r' b -> K [[S|S]|(r1 & S1 & S2)]; apply (H (r :: a) r' b eq_refl K).
    + left. exact S.
    + right. exists r. split; [left; reflexivity|exact S].
    + right. exists r1. split; [right; exact S1|exact S2].
Qed.

Lemma start_not_none line : find ptn_summary_start line <> None -> matches ptn_none line = false.
Proof.
  intros H. destruct line as [|c t]; [reflexivity|]. destruct (Ascii.eqb_spec c (chr 58)) as [->|N].
  - apply none_head; [reflexivity|discriminate].
  - exfalso. apply H. apply (find_best _ _ None). apply (best_lit (B ":[")).
    cbn [B strip_lit list_ascii_of_string]. change ":"%char with (chr 58). rewrite (proj2 (Ascii.eqb_neq _ _)) by congruence. reflexivity.
Qed.

Lemma loop_keeps x lines : forall m s s' (seen : Prop), parse_loop v source lookup m lines s = Some s' ->
  (p_handler s <> [] -> p_handler s = x -> seen) -> spared x seen lines ->
  (forall first n a b, m = Some (first, n, a, b) -> matches ptn_none first = false) ->
  keeps (by_handler (p_data s)) (by_handler (p_data s')) x.
Proof.
  induction lines as [|raw lines IH]; intros m s s' seen E H S Hm; cbn [parse_loop] in E.
  - destruct m as [[[[first n] sums] links]|].
    + destruct (parse_rest v source first s) as [s1|] eqn:R; [|discriminate]. injection E as <-.
      apply (rest_keeps _ _ _ x) in R; [|intros _ _; eapply Hm; reflexivity].
      eapply keeps_trans; [apply R|apply save_keeps].
    + injection E as <-. apply save_keeps.
  - cbn [spared] in S. destruct S as [S1 S2]. destruct m as [[[[first n] sums] links]|].
    + assert (H2 : p_handler s <> [] -> p_handler s = x -> seen \/ names lookup x raw) by (intros A1 A2; left; auto).
      destruct (find ptn_summary_line raw); [eapply IH; [exact E|exact H2|exact S2|intros ? ? ? ? K; injection K as <- _ _ _; eapply Hm; reflexivity]|].
      destruct (find ptn_summary_link raw); [eapply IH; [exact E|exact H2|exact S2|intros ? ? ? ? K; injection K as <- _ _ _; eapply Hm; reflexivity]|].
      destruct (parse_rest v source raw _) as [s1|] eqn:R; [|discriminate].
      destruct (end_data n sums links s) as (hd & D & D2 & D3).
      apply (rest_keeps _ _ _ x) in R.
      * rewrite D in R. cbn in R. destruct R as [R1 R2]. eapply keeps_trans; [exact R1|].
        eapply IH; [exact E| |exact S2|discriminate]. rewrite R2, D2. exact H2.
      * rewrite D2. intros A1 A2. destruct (matches ptn_none raw) eqn:K; [|reflexivity]. exfalso.
        apply S1; [auto|]. left. exact K.
    + assert (H2 : p_handler s <> [] -> p_handler s = x -> seen \/ names lookup x raw) by (intros A1 A2; left; auto).
      destruct (prepare raw) as [|c t] eqn:Ep; [eapply IH; [exact E|exact H2|exact S2|discriminate]|].
      destruct (find ptn_warnings_for (c :: t)) as [f|] eqn:Ef.
      * destruct (name_data (sub 1 f) s) as (hd & D & D2 & D3). eapply keeps_trans; [apply save_keeps|].
        apply (IH _ _ _ (seen \/ names lookup x raw)) in E; [rewrite D in E; exact E| |exact S2|discriminate].
        rewrite D2. intros _ K. right. exists f. rewrite Ep. auto.
      * destruct (matches ptn_by_warning (c :: t)); [injection E as <-; apply save_keeps|].
        destruct (find ptn_summary_start (c :: t)) as [g|] eqn:Eg.
        { eapply IH; [exact E|exact H2|exact S2|]. intros ? ? ? ? K. injection K as <- _ _ _. apply start_not_none. congruence. }
        destruct (parse_rest v source (c :: t) s) as [s1|] eqn:R; [|discriminate].
        apply (rest_keeps _ _ _ x) in R.
        -- destruct R as [R1 R2]. eapply keeps_trans; [exact R1|]. eapply IH; [exact E| |exact S2|discriminate].
           rewrite R2. exact H2.
        -- intros A1 A2. destruct (matches ptn_none (c :: t)) eqn:K; [|reflexivity]. exfalso.
           apply S1; [auto|]. right. rewrite Ep. exact K.
Qed.
End Merge.

(** By test and by warning nothing is ever lost, whatever the text. *)
Theorem C37_grows v source lookup text w w' err :
  parse_warning_data v source lookup text w = Some (w', err) ->
  (forall t, keeps (by_test w) (by_test w') t) /\ keeps_counts (by_warning w) (by_warning w').
Proof.
  unfold parse_warning_data. destruct (scan text) as [lines e]. intros E.
  destruct (parse_loop v source lookup None lines (start w)) as [s'|] eqn:L; [|discriminate]. injection E as <- _.
  apply (loop_grows v source lookup lines None (start w) s' L).
Qed.
Print Assumptions C37_grows.

(** Nor are the warnings of a handler, unless a line names it and a later one says
    "None". *)
Theorem C37_keeps v source lookup text w w' err x :
  parse_warning_data v source lookup text w = Some (w', err) ->
  (forall a r b, fst (scan text) = a ++ r :: b -> says_none r -> forall r1, In r1 a -> ~ names lookup x r1) ->
  keeps (by_handler w) (by_handler w') x.
Proof.
  unfold parse_warning_data. destruct (scan text) as [lines e]. cbn [fst]. intros E H.
  destruct (parse_loop v source lookup None lines (start w)) as [s'|] eqn:L; [|discriminate]. injection E as <- _.
  apply (loop_keeps v source lookup x lines None (start w) s' False L).
  - intros K. exfalso. apply K. reflexivity.
  - apply spared_spec. intros a r b E K [F|(r1 & I & N)]; [exact F|]. exact (H a r b E K r1 I N).
  - discriminate.
Qed.
Print Assumptions C37_keeps.

(** The handlers a text does not name are untouched. *)
Theorem C37_others v source lookup text w w' err x :
  parse_warning_data v source lookup text w = Some (w', err) ->
  (forall l, In l (fst (scan text)) -> ~ names lookup x l) ->
  get x (by_handler w') = get x (by_handler w).
Proof.
  unfold parse_warning_data. destruct (scan text) as [lines e]. cbn [fst]. intros E H.
  destruct (parse_loop v source lookup None lines (start w)) as [s'|] eqn:L; [|discriminate]. injection E as <- _.
  apply (loop_other v source lookup x lines None (start w) s' L).
  - intros K. exfalso. apply K. reflexivity.
  - discriminate.
  - exact H.
Qed.
Print Assumptions C37_others.

(** A report of "None" after one with warnings, from whatever sources: the
    handler's warnings are gone, while the views by test and by warning still have
    every instance of them. *)
Theorem C37_none v s1 s2 lookup p1 p2 name l w :
  casing_ok (v_casing v) -> p1 = [] \/ p1 = B "# " -> p2 = [] \/ p2 = B "# " ->
  readable_report v lookup (name, l) -> l <> [] ->
  short_lines (show_list name p1 l) -> short_lines (show_list name p2 []) ->
  exists w1 w2,
    parse_warning_data v s1 lookup (show_list name p1 l) w = Some (w1, false) /\
    parse_warning_data v s2 lookup (show_list name p2 []) w1 = Some (w2, false) /\
    (forall level n, instances_in (by_handler w2) (tag_of lookup name) level n = [] /\
                     summary_in (by_handler w2) (tag_of lookup name) level n = None) /\
    (forall r i, In r l -> In i (r_data r) ->
       (exists d, In d (instances_in (by_test w2) (test_tag s1 i) (r_level r) (r_name r)) /\ seen_as v (tag_of lookup name) i d) /\
       (0 < counted (by_warning w2) (r_name r) (tag_of lookup name))%N).
Proof.
  intros ok P1 P2 R N S1 S2. assert (R2 : readable_report v lookup (name, [])).
  { destruct R as (A1 & A2 & _). split; [exact A1|]. split; [exact A2|]. split; constructor. }
  destruct (C36_round_trip v s1 lookup p1 [(name, l)] w ok P1) as (w1 & E1 & Q1); [constructor; [exact R|constructor]| |].
  { unfold reports_text. cbn [map concat fst snd]. rewrite app_nil_r. exact S1. }
  destruct (C36_round_trip v s2 lookup p2 [(name, [])] w1 ok P2) as (w2 & E2 & Q2); [constructor; [exact R2|constructor]| |].
  { unfold reports_text. cbn [map concat fst snd]. rewrite app_nil_r. exact S2. }
  unfold reports_text in E1, E2. cbn [map concat fst snd] in E1, E2. rewrite app_nil_r in E1, E2.
  exists w1, w2. split; [exact E1|]. split; [exact E2|].
  apply reads_single in Q1, Q2. rename Q1 into L1, Q2 into F1.
  unfold reads_report in L1, F1. destruct l as [|r0 l0] eqn:El; [congruence|]. rewrite <- El in *. clear El N.
  split; [apply F1|]. rewrite (forgets_test _ _ _ F1), (forgets_count _ _ _ F1).
  intros r i Hr Hi. assert (T : In i (told l (r_level r) (r_name r))).
  { unfold told. apply in_concat. exists (r_data r). split; [|exact Hi]. apply in_map. apply filter_In. split; [exact Hr|].
    rewrite N.eqb_refl, beq_refl'. reflexivity. }
  split.
  - destruct (learns_test _ _ _ _ _ _ L1 (test_tag s1 i) (r_level r) (r_name r)) as (new & Ew & F).
    assert (I : In i (filter (fun i0 => beq (test_tag s1 i0) (test_tag s1 i)) (told l (r_level r) (r_name r)))).
    { apply filter_In. split; [exact T|apply beq_refl']. }
    apply in_split in I. destruct I as (a & b & Eab). rewrite Eab in F.
    apply Forall2_app_inv_l in F. destruct F as (na & nb & _ & F2' & ->). inversion F2' as [|? d ? ? Sd _]; subst.
    exists d. split; [|exact Sd]. rewrite Ew. apply in_or_app. right. apply in_or_app. right. left. reflexivity.
  - rewrite (learns_count _ _ _ _ _ _ L1), beq_refl'. unfold told_count.
    assert (0 < length (concat (map r_data (filter (fun r1 => beq (r_name r1) (r_name r)) l)))); [|lia].
    assert (I : In i (concat (map r_data (filter (fun r1 => beq (r_name r1) (r_name r)) l)))).
    { apply in_concat. exists (r_data r). split; [|exact Hi]. apply in_map, filter_In. split; [exact Hr|apply beq_refl']. }
    destruct (concat _); [destruct I|cbn; lia].
Qed.
Print Assumptions C37_none.

(** ** Examples *)

Definition world0 : world := {|
  v_casing := casing0; v_camel := fun s => [s];
  v_pretty := fun s => match s with [] => None | _ => Some (B "pretty " ++ s) end |}.
Definition lookup0 : gomap bytes := [(B "flash", B "flash_handler")].

(** Two warnings with several instances, extra lines and log records. *)
Definition report0 : list instances := [
  {| r_level := 4; r_name := B "LevelVar"; r_summary := B "LevelVar doesn't change level"; r_count := 1;
     r_data := [{| i_function := B "TestLevelVar"; i_text := []; i_record := [] |}] |};
  {| r_level := 2; r_name := B "Duplicates"; r_summary := B "Duplicate field(s) found"; r_count := 2;
     r_data := [{| i_function := B "Test_Double"; i_text := B "first" ++ newline :: B " second"; i_record := B "{""a"":1}" |};
                {| i_function := B "BenchmarkBig"; i_text := B "x: y"; i_record := [] |}] |}].

Lemma short_text s : (N.of_nat (length s) <= 65535)%N -> short_lines s.
Proof. intros H a l b -> _. rewrite !app_length in H. lia. Qed.

Lemma clean_ends s x : s <> [] -> s = removelast s ++ [x] -> ~ whitespace x -> ends_clean s.
Proof. intros N E W t c K. rewrite K in E. rewrite removelast_last in E. apply app_inj_tail in E. destruct E as [_ ->]. exact W. Qed.

Lemma readable0 : readable_report world0 lookup0 (B "flash", report0).
Proof.
  assert (W : forall c, In c (B "TestLevelVarTest_DoubleBenchmarkBig") -> ~ whitespace c /\ c <> chr 58).
  { intros c Hc. cbn in Hc. repeat (destruct Hc as [<-|Hc]); [| .. |destruct Hc]; (split; [intros K; cbn in K; repeat (destruct K as [K|K]; [discriminate K|]); exact K|discriminate]). }
  assert (SC : forall c t, ~ whitespace c -> starts_clean (c :: t)).
  { intros c t Hc c' t' E. injection E as <- _. exact Hc. }
  assert (NW : forall c, existsb (Ascii.eqb c) [tab; newline; chr 12; creturn; space] = false -> ~ whitespace c).
  { intros c Hc K. assert (X : existsb (Ascii.eqb c) [tab; newline; chr 12; creturn; space] = true).
    { apply existsb_exists. exists c. split; [exact K|apply Ascii.eqb_refl]. } congruence. }
  assert (NL : forall c s, existsb (Ascii.eqb c) s = false -> ~ In c s).
  { intros c s Hc K. assert (X : existsb (Ascii.eqb c) s = true).
    { apply existsb_exists. exists c. split; [exact K|apply Ascii.eqb_refl]. } congruence. }
  assert (GF : forall f, In f [B "TestLevelVar"; B "Test_Double"; B "BenchmarkBig"] -> good_function casing0 f).
  { intros f Hf. cbn [In] in Hf. repeat (destruct Hf as [<-|Hf]); [| .. |destruct Hf];
      (split; [discriminate|split; [intros c Hc; apply W; cbn in Hc |- *; tauto|
        split; [discriminate|split; [discriminate|split; [discriminate|vm_compute; reflexivity]]]]]). }
  unfold readable_report. cbn [fst snd]. split; [|split; [|split]].
  - split; [discriminate|]. split; [apply NL; reflexivity|apply SC, NW; reflexivity].
  - discriminate.
  - cbn [map report0 r_name]. repeat constructor; cbn [In]; intros K; repeat (destruct K as [K|K]; [discriminate K|]); exact K.
  - constructor; [|constructor; [|constructor]].
    + split; [apply NL; reflexivity|]. split; [|split].
      * split; [apply NL; reflexivity|]. split; [apply NL; reflexivity|]. split; [apply SC, NW; reflexivity|].
        eapply clean_ends; [discriminate|reflexivity|apply NW; reflexivity].
      * constructor; [|constructor]. split; [apply GF; cbn; auto|]. split; left; reflexivity.
      * cbn. auto.
    + split; [apply NL; reflexivity|]. split; [|split].
      * split; [apply NL; reflexivity|]. split; [apply NL; reflexivity|]. split; [apply SC, NW; reflexivity|].
        eapply clean_ends; [discriminate|reflexivity|apply NW; reflexivity].
      * constructor; [|constructor; [|constructor]].
        -- split; [apply GF; cbn; auto|]. split.
           ++ right. exists (B "first"), [B " second"]. split; [reflexivity|]. split; [discriminate|].
              split; [apply SC, NW; reflexivity|]. split; [eapply clean_ends; [discriminate|reflexivity|apply NW; reflexivity]|].
              constructor; [|constructor]. eapply clean_ends; [discriminate|reflexivity|apply NW; reflexivity].
           ++ right. split; [eexists; reflexivity|]. split; [apply NL; reflexivity|].
              eapply clean_ends; [discriminate|reflexivity|apply NW; reflexivity].
        -- split; [apply GF; cbn; auto|]. split; [|left; reflexivity].
           right. exists (B "x: y"), []. split; [reflexivity|]. split; [discriminate|].
           split; [apply SC, NW; reflexivity|]. split; [eapply clean_ends; [discriminate|reflexivity|apply NW; reflexivity]|constructor].
      * cbn. auto.
Qed.

(** All hypotheses of C36_round_trip and C37_none hold of it. *)
Example C36_ex : casing_ok (v_casing world0) /\ readable_report world0 lookup0 (B "flash", report0) /\
  short_lines (reports_text (B "# ") [(B "flash", report0); (B "flash", [])]) /\
  exists w', parse_warning_data world0 (B "Bench") lookup0 (reports_text (B "# ") [(B "flash", report0)]) no_data = Some (w', false) /\
    map (fun d => (di_tag d, di_extra d, di_line d)) (instances_in (by_handler w') (B "flash_handler") 2 (B "Duplicates")) =
      [(B "Double", B "first" ++ newline :: B " second", B "{""a"":1}"); (B "Big", B "x: y", [])].
Proof.
  split; [exact casing0_ok|]. split; [exact readable0|]. split; [apply short_text; vm_compute; discriminate|].
  eexists. split; vm_compute; reflexivity.
Qed.

(** The verification suite's "None" erases what the benchmarks reported. *)
Example C37_ex :
  match parse_warning_data world0 (B "Bench") lookup0 (show_list (B "flash") (B "# ") report0) no_data with
  | Some (w1, _) =>
    match parse_warning_data world0 (B "Verify") lookup0 (show_list (B "flash") [] []) w1 with
    | Some (w2, _) =>
        length (instances_in (by_handler w1) (B "flash_handler") 2 (B "Duplicates")) = 2 /\
        length (instances_in (by_handler w2) (B "flash_handler") 2 (B "Duplicates")) = 0 /\
        length (instances_in (by_test w2) (B "Bench.Big") 2 (B "Duplicates")) = 1 /\
        counted (by_warning w2) (B "Duplicates") (B "flash_handler") = 2%N
    | None => False
    end
  | None => False
  end.
Proof. vm_compute. repeat split; reflexivity. Qed.

(** Without it, other reports add to what is known. *)
Example C37_keeps_ex : let text := show_list (B "flash") [] report0 in
  (forall a r b, fst (scan text) = a ++ r :: b -> says_none r -> forall r1, In r1 a -> ~ names lookup0 (B "flash_handler") r1) /\
  exists w', parse_warning_data world0 (B "Verify") lookup0 text no_data = Some (w', false).
Proof.
  cbv zeta. split; [|eexists; vm_compute; reflexivity]. intros a r b E K. exfalso.
  assert (A : forallb (fun l => negb (matches ptn_none l) && negb (matches ptn_none (prepare l))) (fst (scan (show_list (B "flash") [] report0))) = true)
    by (vm_compute; reflexivity).
  rewrite E, forallb_app in A. cbn [forallb] in A. destruct K as [K|K]; rewrite K in A; cbn in A;
    rewrite ?andb_false_r in A; discriminate.
Qed.
