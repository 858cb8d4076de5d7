(** C44: the benchmark scores; C46: the selection of tests.  Exact numbers. *)

From Coq Require Import Ascii String List NArith ZArith QArith Qcanon Qround Bool Lia Lqa Permutation.
From Verif Require PropMerge.
From Verif Require Import Bytes BytesProofs GoSort Warnings WarnParser Bench SpecBench PropBench PropTags
  Num NumProofs Scoring PropRange PropAverage SpecScore ScoreProofs.
Import ListNotations.
Local Open Scope Qc_scope.

(** ** What is known of the data *)

(** strconv.ParseFloat on digits: not negative, not above the largest float64. *)
Definition pf_ok (pf : bytes -> option Q) : Prop := forall s q, pf s = Some q -> (0 <= q)%Q /\ (q <= inject_Z max_float)%Q.

Lemma parse_uint_small s n : parse_uint s = Some n -> (n < 2 ^ 64)%N.
Proof. unfold parse_uint. destruct (N.ltb_spec (digits_value s) (2 ^ 64)); [|discriminate]. intros E. injection E as <-. assumption. Qed.

Lemma measurement_of q : (0 <= q)%Q -> (q <= inject_Z max_float)%Q -> measurement (Q2Qc q).
Proof. intros H1 H2. split; qc_goal; assumption. Qed.

Lemma data_plausible pf l d : pf_ok pf -> read_data pf l = Data d -> plausible (test_record d) /\ plausible (handler_record d).
Proof.
  intros P. unfold read_data. destruct (Regex.find ptn_data_line l) as [f|]; [|discriminate].
  destruct (parse_uint (Regex.sub 3 f)); [|discriminate]. destruct (parse_uint (Regex.sub 4 f)); [|discriminate].
  destruct (pf (Regex.sub 5 f)) as [ns|] eqn:E1; [|discriminate].
  destruct (optional ptn_allocs_op parse_uint 0%N l) as [al|] eqn:E2; [|discriminate].
  destruct (optional ptn_bytes_op parse_uint 0%N l) as [by_|] eqn:E3; [|discriminate].
  destruct (optional ptn_mb_sec pf 0%Q l); [|discriminate]. intros E. injection E as <-.
  assert (O : forall p n, optional p parse_uint 0%N l = Some n -> (n < 2 ^ 64)%N).
  { intros p k. unfold optional. destruct (Regex.find p l); [apply parse_uint_small|]. intros K. injection K as <-. reflexivity. }
  apply P in E1. apply O in E2. apply O in E3.
  split; (split; [apply measurement_of; apply E1|split; assumption]).
Qed.

Definition sane (m : gomap (gomap trec)) : Prop :=
  forall k, wf (inner k m) /\ forall e, In e (inner k m) -> plausible (snd e).

Lemma in_put {V} k (v : V) m e : In e (put k v m) -> e = (k, v) \/ In e m.
Proof.
  induction m as [|[x w] m IH]; cbn [put]; [intros [ <- |[]]; auto|]. destruct (beq x k).
  - intros [ <- |I]; [auto|right; right; exact I].
  - intros [ <- |I]; [right; left; reflexivity|]. destruct (IH I); [auto|right; right; assumption].
Qed.

Lemma sane_put2 k1 k2 x m : sane m -> plausible x -> sane (put2 k1 k2 x m).
Proof.
  intros S P k. unfold put2, inner at 1 3. rewrite !get_put. destruct (beq k1 k).
  - split; [apply wf_put, S|]. intros e I. apply in_put in I. destruct I as [ -> |I]; [exact P|apply (S k1), I].
  - exact (S k).
Qed.

Lemma state_sane v pf b : pf_ok pf -> bench_state v pf b -> sane (b_by_handler b) /\ sane (b_by_test b).
Proof.
  intros P S. revert b S. refine (state_ind v pf (fun b => sane (b_by_handler b) /\ sane (b_by_test b)) _ _ _ _ _).
  - split; intros k; (split; [constructor|intros e []]).
  - intros b d l E [H1 H2]. destruct (data_plausible pf l d P E). split; apply sane_put2; assumption.
  - intros b b' H E1 E2 _ _. rewrite E1, E2. exact H.
  - intros b l H. exact H.
  - intros b l H. exact H.
Qed.

Lemma sorted_keys_nodup {V} name (m : gomap V) l : wf m -> sorted_keys name m l -> NoDup l.
Proof. intros W S. apply (listing_once _ _ _ (sorted_listing name m l W S)). Qed.

Lemma state_nodup v pf b : bench_state v pf b -> NoDup (b_handlers b).
Proof.
  induction 1 as [|b text S IH|b out b' S IH H|b out b' S IH H|b out b' S IH H].
  - constructor.
  - rewrite (proj1 (parse_caches v pf text b)). exact IH.
  - destruct H as [C ->]. cbn [b_handlers set_handlers]. unfold cached_keys in C. destruct (b_handlers b) as [|x l]; [|subst; exact IH].
    eapply sorted_keys_nodup; [|exact C]. apply (state_tidy v pf b S).
  - destruct H as [_ ->]. exact IH.
  - rewrite (proj1 (lookup_caches b out b' H)). exact IH.
Qed.

(** ** Selection *)

Lemma listed_true t l : listed_in t l = true <-> In t l.
Proof.
  unfold listed_in. rewrite existsb_exists. split; [intros (x & I & E); apply beq_eq in E; congruence|].
  intros I. exists t. split; [exact I|apply beq_refl].
Qed.

Lemma put_all {V} (v : V) l : forall m t, get t (fold_left (fun m t => put t v m) l m) = if listed_in t l then Some v else get t m.
Proof.
  induction l as [|x l IH]; intros m t; [reflexivity|]. cbn [fold_left listed_in existsb]. rewrite IH. fold (listed_in t l).
  destruct (listed_in t l); [rewrite orb_true_r; reflexivity|]. rewrite orb_false_r, get_put.
  destruct (beq x t) eqn:E1, (beq t x) eqn:E2; try reflexivity.
  - apply beq_eq in E1. subst. rewrite beq_refl in E2. discriminate.
  - apply beq_eq in E2. subst. rewrite beq_refl in E1. discriminate.
Qed.

Lemma tagged_is o all t : tagged (tag_map o all) t =
  match o_include o with Some l => listed_in t l | None => listed_in t all end && negb (listed_in t (o_exclude o)).
Proof.
  unfold tagged, tag_map. rewrite !put_all. destruct (listed_in t (o_exclude o)); [rewrite andb_false_r; reflexivity|].
  rewrite andb_true_r. cbn [negb]. destruct (o_include o) as [l|].
  - destruct (listed_in t l); reflexivity.
  - destruct (listed_in t all); reflexivity.
Qed.

(** A test is scored when it is included, or nothing is said about including and
    it is a test at all, unless it is excluded. *)
Theorem C46_selection o all t : tagged (tag_map o all) t = true <->
  ((exists l, o_include o = Some l /\ In t l) \/ (o_include o = None /\ In t all)) /\ ~ In t (o_exclude o).
Proof.
  rewrite tagged_is, andb_true_iff, negb_true_iff, <- not_true_iff_false, listed_true. destruct (o_include o) as [l|]; rewrite listed_true.
  - split; intros [H1 H2]; (split; [|exact H2]); [left; eauto|]. destruct H1 as [(x & E & I)|[E _]]; [congruence|discriminate].
  - split; intros [H1 H2]; (split; [|exact H2]); [right; auto|]. destruct H1 as [(x & E & I)|[_ I]]; [discriminate|exact I].
Qed.
Print Assumptions C46_selection.

(** Two axes, one including and one excluding the same tests (the axes Large and
    Small of the Size keeper): every test belongs to exactly one. *)
Theorem C46_partition l all t : In t all ->
  tagged (tag_map (Build_options (Some l) []) all) t = negb (tagged (tag_map (Build_options None l) all) t).
Proof.
  intros I. rewrite !tagged_is. cbn [o_include o_exclude]. apply listed_true in I. rewrite I. cbn.
  rewrite andb_true_r, negb_involutive. reflexivity.
Qed.
Print Assumptions C46_partition.

Example C46_ex : let all := [B "Bench.BigGroup"; B "Bench.Logging"; B "Bench.Simple"] in
  let large := [B "Bench.BigGroup"; B "Bench.Logging"] in
  filter (tagged (tag_map (Build_options (Some large) []) all)) all = large /\
  filter (tagged (tag_map (Build_options None large) all)) all = [B "Bench.Simple"].
Proof. vm_compute. split; reflexivity. Qed.

(** ** Means *)

Lemma add_up_none l : add_up l = None <-> exists n, In (None, n) l.
Proof.
  induction l as [|[[x|] n] l IH]; cbn [add_up].
  - split; [discriminate|intros (n & [])].
  - destruct (add_up l) as [[s m]|].
    + split; [discriminate|]. intros (k & [E|I]); [discriminate|]. exfalso. assert (X : Some (s, m) = None) by (apply IH; eauto). discriminate.
    + split; [|reflexivity]. intros _. destruct (proj1 IH eq_refl) as [k I]. exists k. right. exact I.
  - split; [intros _; exists n; left; reflexivity|reflexivity].
Qed.

Definition weight_sum (l : list (option Qc * N)) : N := fold_right (fun e a => (snd e + a)%N) 0%N l.

Lemma add_up_weight l s m : add_up l = Some (s, m) -> m = weight_sum l.
Proof.
  revert s m. induction l as [|[[x|] n] l IH]; intros s m; cbn [add_up weight_sum fold_right snd].
  - intros E. injection E as <- <-. reflexivity.
  - destruct (add_up l) as [[s' m']|]; [|discriminate]. intros E. injection E as _ <-. f_equal. apply (IH s' m' eq_refl).
  - discriminate.
Qed.

Lemma mean_none l : mean l = None <-> (exists n, In (None, n) l) \/ weight_sum l = 0%N.
Proof.
  unfold mean. rewrite <- add_up_none. destruct (add_up l) as [[s m]|] eqn:E.
  - rewrite <- (add_up_weight l s m E). destruct (N.eqb_spec m 0); split; intros H; try discriminate; auto. destruct H; [discriminate|congruence].
  - tauto.
Qed.

Lemma mean_bounds lo hi l m : (forall x n, In (Some x, n) l -> lo <= x /\ x <= hi) -> mean l = Some m -> lo <= m /\ m <= hi.
Proof.
  intros H. unfold mean. destruct (add_up l) as [[s k]|] eqn:E; [|discriminate]. destruct (N.eqb_spec k 0); [discriminate|].
  intros K. injection K as <-. assert (B : lo * Qc_of_N k <= s /\ s <= hi * Qc_of_N k).
  { clear n. revert s k E. induction l as [|[[x|] n] l IH]; intros s k E; cbn [add_up] in E.
    - injection E as <- <-. rewrite of_N_0. split; qcl.
    - destruct (add_up l) as [[s' k']|]; [|discriminate]. injection E as <- <-.
      destruct (IH (fun x n I => H x n (or_intror I)) s' k' eq_refl) as [I1 I2]. destruct (H x n (or_introl eq_refl)) as [H1 H2].
      rewrite of_N_add. pose proof (of_N_pos n) as P. split; qcn.
    - discriminate. }
  apply div_bounds; [rewrite <- of_N_0; apply of_N_lt; lia| |]; apply B.
Qed.

(** ** Ratings *)

Lemma rating_bounds vs x y : In x vs -> rating vs x = Some y -> 0 <= y /\ y <= Qc_of_N 100.
Proof.
  intros I. unfold rating. destruct (Qc_ltb _ _) eqn:E; [|discriminate]. intros K. injection K as <-. apply Qc_ltb_spec in E.
  assert (N : vs <> []) by (destruct vs; [destruct I|discriminate]).
  pose proof (pct_is_percentage _ _ (fun x => Fin (pct (lowest vs) (highest vs) x)) E (fun _ => eq_refl)) as P.
  apply (pct_bounds _ _ _ P x); [reflexivity|apply (lowest_least vs N), I|apply (highest_greatest vs N), I].
Qed.
Lemma rating_best vs x y : least vs x -> rating vs x = Some y -> y = Qc_of_N 100.
Proof.
  intros [I L]. unfold rating. destruct (Qc_ltb _ _) eqn:E; [|discriminate]. intros K. injection K as <-. apply Qc_ltb_spec in E.
  assert (N : vs <> []) by (destruct vs; [destruct I|discriminate]).
  assert (x = lowest vs) as -> by (apply Qcle_antisym; [apply L, (lowest_least vs N)|apply (lowest_least vs N), I]).
  field. apply diff_nonzero, E.
Qed.
Lemma rating_worst vs x y : greatest vs x -> rating vs x = Some y -> y = 0.
Proof.
  intros [I L]. unfold rating. destruct (Qc_ltb _ _) eqn:E; [|discriminate]. intros K. injection K as <-. apply Qc_ltb_spec in E.
  assert (N : vs <> []) by (destruct vs; [destruct I|discriminate]).
  assert (x = highest vs) as -> by (apply Qcle_antisym; [apply (highest_greatest vs N), I|apply L, (highest_greatest vs N)]).
  field. apply diff_nonzero, E.
Qed.
Lemma rating_none vs x : vs <> [] -> (rating vs x = None <-> forall a b, In a vs -> In b vs -> a = b).
Proof.
  intros N. pose proof (lowest_least vs N) as [L1 L2]. pose proof (highest_greatest vs N) as [G1 G2]. unfold rating.
  destruct (Qc_ltb _ _) eqn:E.
  - split; [discriminate|]. intros H. apply Qc_ltb_spec in E. exfalso. apply (Qclt_not_eq _ _ E), H; assumption.
  - apply Qc_ltb_false in E. split; [|reflexivity]. intros _ a b Ia Ib.
    apply Qcle_antisym; (eapply Qcle_trans; [apply G2; assumption|]); (eapply Qcle_trans; [exact E|]); apply L2; assumption.
Qed.

(** ** The axis *)

(** The handlers that get a score: those of the tag list. *)
Definition scored_handler (b : bench) (h : bytes) : Prop :=
  match b_handlers b with [] => handler_present b h | l => In h l end.
(** The list of tests is not out of date. *)
Definition current (b : bench) : Prop := forall t, test_present b t -> b_tests b = [] \/ In t (b_tests b).

(** The records of a handler in the selected tests. *)
Definition handler_part (o : options) (b : bench) (h : bytes) : list (bytes * trec) :=
  filter (fun e => selected o (fst e)) (test_records_for b h).

Section Axis.
Variables (v : world) (pf : bytes -> option Q).
Hypothesis Hpf : pf_ok pf.
Variable bw : weight -> N.

Definition span (b : bench) (t : bytes) (w : weight) : Qc * Qc :=
  let vs := map (fun e => quantity (snd e) w) (handler_records_for b t) in (lowest vs, highest vs).

Lemma record_in m a c r : (forall k, wf (inner k m)) -> (record_at m a c = Some r <-> In (c, r) (inner a m)).
Proof.
  intros W. specialize (W a). unfold record_at, inner in *. destruct (get a m) as [x|]; [apply get_in, W|]. split; [discriminate|intros []].
Qed.

(** The record of the other view. *)
Lemma other_view b t h r : bench_state v pf b -> In (t, r) (test_records_for b h) ->
  exists x, In (h, x) (handler_records_for b t) /\ forall w, quantity x w = quantity r w.
Proof.
  intros S I. destruct (state_sane v pf b Hpf S) as [S1 S2]. apply record_in in I; [|intros k; apply S1].
  pose proof (C40_views v pf b S t h) as P. unfold paired in P. rewrite I in P.
  destruct (record_at (b_by_test b) t h) as [x|] eqn:E; [|contradiction]. exists x. split; [apply record_in; [intros k; apply S2|exact E]|].
  destruct P as ([_ A2 A3 A4 _] & _). intros w. destruct w; cbn [quantity]; congruence.
Qed.

Lemma handlers_scored b b1 tests handlers b' : bench_state v pf b -> test_tags b tests b1 -> handler_tags b1 handlers b' ->
  NoDup handlers /\ forall h, In h handlers <-> scored_handler b h.
Proof.
  intros S [_ ->] [H _]. cbn [b_handlers set_tests b_by_handler] in H. pose proof (state_nodup v pf b S) as N.
  unfold scored_handler, cached_keys in *. destruct (b_handlers b) as [|x l].
  - destruct (state_tidy v pf b S) as [[W T] _]. pose proof (sorted_listing _ _ _ W H) as [L1 L2 _]. split; [exact L1|].
    intros h. rewrite L2. apply T.
  - subst. split; [exact N|reflexivity].
Qed.

Lemma tests_listed b b1 tests t : bench_state v pf b -> current b -> test_tags b tests b1 -> test_present b t -> In t tests.
Proof.
  intros S C [H _] P. unfold cached_keys in H. destruct (state_tidy v pf b S) as [_ [W T]]. destruct (b_tests b) as [|x l] eqn:E.
  - pose proof (sorted_listing _ _ _ W H) as [_ L2 _]. apply L2, T, P.
  - subst tests. destruct (C t P) as [K|K]; [congruence|]. rewrite E in K. exact K.
Qed.

Definition rated_weights (b : bench) (t : bytes) (r : trec) : list (option Qc * N) :=
  flat_map (fun w => match rate (handler_records_for b) t r w with Some x => [(Some x, bw w)] | None => [] end) weight_order.

Lemma test_ops_weight f : multiplicity (test_ops bw f) =
  weight_sum (flat_map (fun w => match f w with Some x => [(Some x, bw w)] | None => [] end) weight_order).
Proof.
  unfold test_ops. induction weight_order as [|w ws IH]; [reflexivity|]. cbn [flat_map].
  destruct (f w); cbn [app]; [|exact IH]. cbn [multiplicity fold_right op_times weight_sum snd]. f_equal. exact IH.
Qed.

(** What the setup leaves for a handler. *)
Definition outcome (o : options) (b : bench) (h : bytes) (s : scored exact) : Prop :=
  let recs := handler_part o b h in let rs := handler_records_for b in
  (forall t, avg_average exact (scored_test exact s t) =
       match get t recs with Some r => of_option (test_score bw rs (t, r)) | None => NaN end /\
     a_count exact (scored_test exact s t) =
       match get t recs with Some r => weight_sum (rated_weights b t r) | None => 0%N end) /\
  s_scores exact s ByTest = of_option (score_by_test bw rs recs) /\
  s_scores exact s ByData = of_option (score_by_data bw rs recs) /\
  s_scores exact s Default = of_option (score_default bw rs recs) /\
  exists total, s_scores exact s Original = xdiv (value_round exact total) (Fin (Qc_of_N (N.of_nat (length recs)))) /\
    match add_up (map (fun e => (test_score bw rs e, 1%N)) recs) with Some (x, _) => total = Fin x | None => total = NaN end.

Lemma get_perm {V} k (m m' : gomap V) : wf m -> Permutation m m' -> get k m = get k m'.
Proof.
  intros W P. assert (W' : wf m') by (unfold wf, keys in *; eapply Permutation_NoDup; [apply Permutation_map; exact P|exact W]).
  destruct (get k m) as [x|] eqn:E.
  - symmetry. apply get_in; [exact W'|]. eapply Permutation_in; [exact P|]. apply get_in; assumption.
  - destruct (get k m') as [y|] eqn:E'; [|reflexivity]. apply get_in in E'; [|exact W'].
    apply (Permutation_in _ (Permutation_sym P)) in E'. apply get_in in E'; [congruence|exact W].
Qed.

Lemma handler_outcome o b tests rngs order h : bench_state v pf b ->
  (forall t r, In (t, r) (test_records_for b h) -> In t tests) ->
  (forall t, In t tests -> tagged (tag_map o tests) t = true -> exists t1 t2,
     Permutation (handler_records_for b t) t1 /\ Permutation (handler_records_for b t) t2 /\
     rngs t = Some (ranges_of exact xQ t1, original_ranges exact xQ t2)) ->
  Permutation (test_records_for b h) order ->
  exists s, score_handler exact xQ bw (tagged (tag_map o tests)) rngs order (new_scored exact) = Some s /\ outcome o b h s.
Proof.
  intros S Ht Hr P. destruct (state_sane v pf b Hpf S) as [S1 S2].
  assert (W : wf (test_records_for b h)) by apply S1.
  assert (Wo : NoDup (map fst order)) by (unfold wf, keys in W; eapply Permutation_NoDup; [apply Permutation_map; exact P|exact W]).
  assert (F : Forall (fun e => tagged (tag_map o tests) (fst e) = true -> covered rngs (span b) e) order).
  { apply Forall_forall. intros [t r] I T. apply (Permutation_in _ (Permutation_sym P)) in I. cbn [fst] in T.
    destruct (Hr t (Ht t r I) T) as (t1 & t2 & P1 & P2 & E).
    destruct (other_view b t h r S I) as (x & Ix & Q).
    assert (N : handler_records_for b t <> []) by (intros K; rewrite K in Ix; destruct Ix).
    assert (Pl : Forall (fun e => plausible (snd e)) (handler_records_for b t)) by (apply Forall_forall; intros e K; apply (S2 t), K).
    exists (ranges_of exact xQ t1), (original_ranges exact xQ t2). cbn [fst snd]. split; [exact E|]. split; [|split].
    - intros w. apply ranges_span; assumption.
    - intros w. rewrite original_same. apply ranges_span; assumption.
    - intros w. unfold span. cbn [snd]. rewrite <- Q. apply highest_greatest.
      + destruct (handler_records_for b t); [congruence|discriminate].
      + apply (in_map (fun e : bytes * trec => quantity (snd e) w) _ (h, x)), Ix. }
  destruct (score_handler_is bw (tagged (tag_map o tests)) rngs (span b) order Wo F) as (s & E & H1 & Hn & H2 & H3 & H4 & H5).
  exists s. split; [exact E|]. unfold outcome. set (recs := handler_part o b h). set (rs := handler_records_for b).
  assert (Pc : Permutation (chosen (tagged (tag_map o tests)) order) recs).
  { transitivity (chosen (tagged (tag_map o tests)) (test_records_for b h)); [apply chosen_perm; symmetry; exact P|].
    subst recs. unfold chosen, handler_part. erewrite filter_ext_in; [reflexivity|]. intros [t r] I. cbn [fst].
    rewrite tagged_is. unfold selected. destruct (o_include o); [reflexivity|].
    assert (L : listed_in t tests = true) by (apply listed_true, (Ht t r I)). rewrite L. reflexivity. }
  assert (Wr : wf recs) by (apply wf_filter, W).
  assert (D1 : tests_mean bw (span b) (chosen (tagged (tag_map o tests)) order) = score_by_test bw rs recs).
  { unfold tests_mean, score_by_test. apply mean_perm. apply (Permutation_map (fun e => (test_mean bw (ratings (span b) e), 1%N)) Pc). }
  assert (D2 : data_mean bw (span b) (chosen (tagged (tag_map o tests)) order) = score_by_data bw rs recs).
  { unfold data_mean, score_by_data. f_equal. apply map_ext. intros w. f_equal. unfold quantity_mean, quantity_score, present.
    apply mean_perm. apply Permutation_flat_map, Permutation_map, Pc. }
  split; [|split; [|split; [|split]]].
  - intros t. rewrite H1, Hn. rewrite (get_perm t _ recs); [|  |exact Pc].
    { destruct (get t recs) as [r|]; [|split; reflexivity]. rewrite test_ops_weight. split; reflexivity. }
    unfold wf, keys. apply (Permutation_NoDup (l := map fst recs)); [apply Permutation_map; symmetry; exact Pc|exact Wr].
  - rewrite H2, D1. reflexivity.
  - rewrite H3, D2. reflexivity.
  - rewrite H4, D1, D2. unfold score_default, mean. cbn [add_up].
    destruct (score_by_data bw rs recs) as [x|]; [|reflexivity]. destruct (score_by_test bw rs recs) as [y|]; [|reflexivity].
    cbn [of_option xadd N.add N.eqb]. rewrite xdiv_fin by (apply of_N_nonzero; reflexivity). f_equal. f_equal. rewrite of_N_1. ring.
  - exists (test_total bw (span b) (chosen (tagged (tag_map o tests)) order)). rewrite H5, (Permutation_length Pc). split; [reflexivity|].
    unfold test_total. set (l := chosen _ _) in *.
    assert (T : Forall2 stands (test_means bw (span b) l) (map (fun e => (test_score bw rs e, 1%N)) l)).
    { unfold test_means. clear. induction l as [|e l IH]; constructor; [split; reflexivity|exact IH]. }
    apply stands_sum in T. rewrite (add_up_perm _ _ (Permutation_map (fun e => (test_score bw rs e, 1%N)) Pc)) in T.
    destruct (add_up _) as [[x n]|]; [apply T|exact T].
Qed.

Lemma handlers_outcome o b tests rngs order hs : forall d, NoDup hs -> (forall h, In h hs -> get h d = None) ->
  (forall h, In h hs -> exists s, score_handler exact xQ bw (tagged (tag_map o tests)) rngs (order h) (new_scored exact) = Some s /\ outcome o b h s) ->
  exists d', score_handlers exact xQ bw (tagged (tag_map o tests)) rngs order hs d = Some d' /\
    (forall h, In h hs -> exists s, get h d' = Some s /\ outcome o b h s) /\ (forall h, ~ In h hs -> get h d' = get h d).
Proof.
  induction hs as [|h hs IH]; intros d ND Hd Hs.
  - exists d. split; [reflexivity|]. split; [intros h []|reflexivity].
  - inversion ND as [|? ? N1 N2]; subst. destruct (Hs h (or_introl eq_refl)) as (s & E & O). cbn [score_handlers].
    rewrite (Hd h (or_introl eq_refl)), E. destruct (IH (put h s d)) as (d' & E' & H1 & H2).
    + exact N2.
    + intros h' I. rewrite get_put_other by (intros ->; contradiction). apply Hd. right. exact I.
    + intros h' I. apply Hs. right. exact I.
    + exists d'. split; [exact E'|]. split.
      * intros h' [ <- |I]; [|apply H1, I]. exists s. split; [|exact O]. rewrite H2 by exact N1. apply get_put_same.
      * intros h' I. rewrite H2 by (intros K; apply I; right; exact K). apply get_put_other. intros ->. apply I. left. reflexivity.
Qed.

Lemma setup_outcome o b res b' : bench_state v pf b -> current b -> bench_axis_setup exact xQ bw o b [] res b' ->
  exists d, res = Some d /\ forall h,
    (scored_handler b h -> exists s, get h d = Some s /\ outcome o b h s) /\ (~ scored_handler b h -> get h d = None).
Proof.
  intros S C (tests & b1 & handlers & order & T & H & O & t1 & t2 & O1 & O2 & R). cbn zeta in R.
  destruct (handlers_scored b b1 tests handlers b' S T H) as [ND L].
  set (rngs := fun t => if existsb (beq t) tests && tagged (tag_map o tests) t
                        then Some (ranges_of exact xQ (t1 t), original_ranges exact xQ (t2 t)) else None) in *.
  destruct (handlers_outcome o b tests rngs order handlers []) as (d & E & H1 & H2); [exact ND|reflexivity| |].
  - intros h _. eapply handler_outcome; [exact S| | |apply O].
    + intros t r I. apply (tests_listed b b1 tests t S C T). destruct (other_view b t h r S I) as (x & Ix & _).
      destruct (state_sane v pf b Hpf S) as [_ S2]. apply record_in in Ix; [|intros k; apply S2]. exists h, x. exact Ix.
    + intros t It Tt. exists (t1 t), (t2 t). split; [apply O1|]. split; [apply O2|].
      unfold rngs. apply listed_true in It. unfold listed_in in It. rewrite It, Tt. reflexivity.
  - exists d. split; [rewrite R; exact E|]. intros h. split; intros K; [apply H1, L, K|].
    rewrite H2 by (intros I; apply K, L, I). reflexivity.
Qed.

(** The formula of the scores: percentages of the quantities that differ, their
    weighted mean for a test, the means over the tests and over the quantities,
    and the middle of both.  The loops over maps may run in any order. *)
Theorem C44_scores o b res b' : bench_state v pf b -> current b -> bench_axis_setup exact xQ bw o b [] res b' ->
  exists d, res = Some d /\ forall h,
    let recs := handler_part o b h in let rs := handler_records_for b in
    (scored_handler b h ->
       (forall t, b_score_for_test exact d h t = Some match get t recs with Some r => of_option (test_score bw rs (t, r)) | None => NaN end) /\
       b_score_for_type exact d h ByTest = Some (of_option (score_by_test bw rs recs)) /\
       b_score_for_type exact d h ByData = Some (of_option (score_by_data bw rs recs)) /\
       b_score_for_type exact d h Default = Some (of_option (score_default bw rs recs))) /\
    (~ scored_handler b h -> (forall t, b_score_for_test exact d h t = None) /\ forall ty, b_score_for_type exact d h ty = None).
Proof.
  intros S C A. destruct (setup_outcome o b res b' S C A) as (d & E & H). exists d. split; [exact E|]. intros h. cbn zeta.
  destruct (H h) as [H1 H2]. unfold b_score_for_test, b_score_for_type. split; intros K.
  - destruct (H1 K) as (s & G & O1 & O2 & O3 & O4 & _). rewrite G. cbn [option_map]. rewrite O2, O3, O4.
    split; [|auto]. intros t. rewrite (proj1 (O1 t)). reflexivity.
  - rewrite (H2 K). split; reflexivity.
Qed.

(** *** Consequences *)

Definition total_of (o : options) (b : bench) (h : bytes) := add_up (map (fun e => (test_score bw (handler_records_for b) e, 1%N)) (handler_part o b h)).

Lemma test_score_between rs e lo hi m : (forall w y, rate rs (fst e) (snd e) w = Some y -> lo <= y /\ y <= hi) ->
  test_score bw rs e = Some m -> lo <= m /\ m <= hi.
Proof.
  intros H. apply mean_bounds. intros x n I. apply in_flat_map in I. destruct I as (w & _ & I).
  destruct (rate rs (fst e) (snd e) w) as [y|] eqn:E; [|destruct I]. destruct I as [K|[]]. injection K as <- <-. apply (H w y E).
Qed.

Lemma by_test_between rs recs lo hi m : (forall e w y, In e recs -> rate rs (fst e) (snd e) w = Some y -> lo <= y /\ y <= hi) ->
  score_by_test bw rs recs = Some m -> lo <= m /\ m <= hi.
Proof.
  intros H. apply mean_bounds. intros x n I. apply in_map_iff in I. destruct I as (e & K & I). injection K as K _.
  eapply test_score_between; [|exact K]. intros w y. apply H, I.
Qed.
Lemma by_data_between rs recs lo hi m : (forall e w y, In e recs -> rate rs (fst e) (snd e) w = Some y -> lo <= y /\ y <= hi) ->
  score_by_data bw rs recs = Some m -> lo <= m /\ m <= hi.
Proof.
  intros H. apply mean_bounds. intros x n I. apply in_map_iff in I. destruct I as (w & K & _). injection K as K _. revert K.
  apply mean_bounds. clear x n. intros x n I. apply in_flat_map in I. destruct I as (y & I1 & I2). apply in_map_iff in I1. destruct I1 as (e & <- & I1).
  destruct (rate rs (fst e) (snd e) w) as [y|] eqn:E; [|destruct I2]. destruct I2 as [K|[]]. injection K as <- _. apply (H e w y I1 E).
Qed.
Lemma default_between rs recs lo hi m : (forall e w y, In e recs -> rate rs (fst e) (snd e) w = Some y -> lo <= y /\ y <= hi) ->
  score_default bw rs recs = Some m -> lo <= m /\ m <= hi.
Proof.
  intros H. apply mean_bounds. intros x n [K|[K|[]]]; injection K as K _; [eapply by_data_between|eapply by_test_between]; eassumption.
Qed.

Definition nano : Qc := Qc_of_N 1000000000.

Lemma nano_pos : 0 < nano. Proof. reflexivity. Qed.

Lemma round_near q : 0 <= q -> q - Q2Qc (1 # 2) <= Qc_round q /\ Qc_round q <= q + Q2Qc (1 # 2).
Proof.
  intros P. unfold Qc_round. replace (Qc_ltb q 0) with false by (symmetry; apply Qc_ltb_false, P).
  pose proof (Qfloor_le (this (q + Q2Qc (1 # 2)))) as F1. pose proof (Qlt_floor (this (q + Q2Qc (1 # 2)))) as F2.
  rewrite inject_Z_plus in F2. set (z := Qfloor _) in *. change (inject_Z 1) with 1%Q in F2.
  rewrite this_add, this_Q in F1, F2. split; qcl.
Qed.
Lemma round_between q (lo hi : N) : Qc_of_N lo <= q -> q <= Qc_of_N hi -> Qc_of_N lo <= Qc_round q /\ Qc_round q <= Qc_of_N hi.
Proof.
  intros H1 H2. pose proof (of_N_pos lo) as P0. assert (P : 0 <= q) by (eapply Qcle_trans; eassumption).
  unfold Qc_round. replace (Qc_ltb q 0) with false by (symmetry; apply Qc_ltb_false, P).
  pose proof (Qfloor_le (this (q + Q2Qc (1 # 2)))) as F1. pose proof (Qlt_floor (this (q + Q2Qc (1 # 2)))) as F2.
  rewrite inject_Z_plus in F2. set (z := Qfloor _) in *. change (inject_Z 1) with 1%Q in F2. rewrite this_add, this_Q in F1, F2.
  unfold Qc_of_N in *. qc_hyps. qc_goal. split; rewrite <- Zle_Qle.
  - apply Z.lt_succ_r. rewrite Zlt_Qlt. unfold Z.succ. rewrite inject_Z_plus. change (inject_Z 1) with 1%Q. lra.
  - apply Z.lt_succ_r. rewrite Zlt_Qlt. unfold Z.succ. rewrite inject_Z_plus. change (inject_Z 1) with 1%Q. lra.
Qed.

Lemma value_round_fin x : value_round exact (Fin x) = Fin (Qc_round (x * nano) / nano).
Proof. reflexivity. Qed.

Lemma total_parts rs recs x n : add_up (map (fun e => (test_score bw rs e, 1%N)) recs) = Some (x, n) ->
  n = N.of_nat (length recs).
Proof.
  intros E. apply add_up_weight in E. subst n. clear. induction recs as [|e l IH]; [reflexivity|].
  cbn [map weight_sum fold_right snd length]. change (fold_right _ _ _) with (weight_sum (map (fun e => (test_score bw rs e, 1%N)) l)).
  rewrite IH. lia.
Qed.

Lemma outcome_between o b h s (lo hi : N) : outcome o b h s ->
  (forall e w y, In e (handler_part o b h) -> rate (handler_records_for b) (fst e) (snd e) w = Some y -> Qc_of_N lo <= y /\ y <= Qc_of_N hi) ->
  forall ty, s_scores exact s ty = NaN \/ exists q, s_scores exact s ty = Fin q /\ Qc_of_N lo <= q /\ q <= Qc_of_N hi.
Proof.
  intros (_ & O1 & O2 & O3 & total & O4 & T) H ty. set (recs := handler_part o b h) in *. set (rs := handler_records_for b) in *. destruct ty.
  - rewrite O3. destruct (score_default bw rs recs) as [q|] eqn:E; [right|left; reflexivity]. exists q. split; [reflexivity|]. eapply default_between; eassumption.
  - rewrite O2. destruct (score_by_data bw rs recs) as [q|] eqn:E; [right|left; reflexivity]. exists q. split; [reflexivity|]. eapply by_data_between; eassumption.
  - rewrite O4. destruct (add_up _) as [[x n]|] eqn:E; [|left; subst; reflexivity]. subst total. pose proof (total_parts rs recs x n E) as L.
    rewrite <- L, value_round_fin. destruct (N.eq_dec n 0) as [Z|Z].
    + left. assert (recs = []) as R by (destruct recs; [reflexivity|cbn in L; lia]). rewrite R in E. injection E as <- <-. reflexivity.
    + right. rewrite xdiv_fin by (apply of_N_nonzero; lia). eexists. split; [reflexivity|].
      assert (M : score_by_test bw rs recs = Some (x / Qc_of_N n)).
      { unfold score_by_test, mean. rewrite E. destruct (N.eqb_spec n 0); [contradiction|reflexivity]. }
      assert (Pn : 0 < Qc_of_N n) by (rewrite <- of_N_0; apply of_N_lt; lia).
      destruct (by_test_between rs recs _ _ _ H M) as [M1 M2].
      assert (X : x = x / Qc_of_N n * Qc_of_N n) by (field; apply of_N_nonzero; lia). set (m := x / Qc_of_N n) in *.
      assert (Y1 : Qc_of_N (lo * n * 1000000000) <= x * nano /\ x * nano <= Qc_of_N (hi * n * 1000000000)).
      { rewrite !of_N_mul. fold nano. pose proof nano_pos. split; rewrite X; apply Qcmult_le_compat_r; try (apply Qclt_le_weak; assumption);
          apply Qcmult_le_compat_r; try (apply Qclt_le_weak; assumption); assumption. }
      destruct (round_between _ _ _ (proj1 Y1) (proj2 Y1)) as [R1 R2]. rewrite !of_N_mul in R1, R2. fold nano in R1, R2.
      apply div_bounds; [exact Pn| |]; apply (div_bounds _ nano (Qc_of_N lo * Qc_of_N n) (Qc_of_N hi * Qc_of_N n) nano_pos R1 R2).
  - rewrite O1. destruct (score_by_test bw rs recs) as [q|] eqn:E; [right|left; reflexivity]. exists q. split; [reflexivity|]. eapply by_test_between; eassumption.
Qed.

Lemma part_in o b h t r : In (t, r) (handler_part o b h) -> In (t, r) (test_records_for b h).
Proof. unfold handler_part. intros I. apply filter_In in I. apply I. Qed.

Lemma own_value b t h r w : bench_state v pf b -> In (t, r) (test_records_for b h) ->
  In (quantity r w) (map (fun e => quantity (snd e) w) (handler_records_for b t)).
Proof.
  intros S I. destruct (other_view b t h r S I) as (x & Ix & Q). rewrite <- Q. exact (in_map (fun e => quantity (snd e) w) _ (h, x) Ix).
Qed.

Section Consequences.
Variables (o : options) (b b' : bench) (d : gomap (scored exact)).
Hypothesis S : bench_state v pf b.
Hypothesis C : current b.
Hypothesis A : bench_axis_setup exact xQ bw o b [] (Some d) b'.

Lemma outcome_of h s : get h d = Some s -> scored_handler b h /\ outcome o b h s.
Proof.
  intros G. destruct (setup_outcome o b _ b' S C A) as (d' & E & H). injection E as <-. destruct (H h) as [H1 H2].
  assert (D : scored_handler b h \/ ~ scored_handler b h).
  { unfold scored_handler. destruct (b_handlers b) as [|x l].
    - destruct (state_tidy v pf b S) as [[_ T] _]. specialize (T h). destruct (in_dec (list_eq_dec ascii_dec) h (keys (b_by_handler b))); [left|right]; unfold handler_present; tauto.
    - destruct (in_dec (list_eq_dec ascii_dec) h (x :: l)); [left|right]; assumption. }
  destruct D as [D|D]; [|rewrite (H2 D) in G; discriminate]. destruct (H1 D) as (s' & G' & O). split; [exact D|congruence].
Qed.

Lemma type_between (lo hi : N) h ty x : b_score_for_type exact d h ty = Some x ->
  (forall e w y, In e (handler_part o b h) -> rate (handler_records_for b) (fst e) (snd e) w = Some y -> Qc_of_N lo <= y /\ y <= Qc_of_N hi) ->
  x = NaN \/ exists q, x = Fin q /\ Qc_of_N lo <= q /\ q <= Qc_of_N hi.
Proof.
  unfold b_score_for_type. intros E H. destruct (get h d) as [s|] eqn:G; [|discriminate]. injection E as <-.
  eapply outcome_between; [apply outcome_of, G|exact H].
Qed.

(** Every score that is a number is a percentage. *)
Theorem C44_percent h ty x : b_score_for_type exact d h ty = Some x ->
  x = NaN \/ exists q, x = Fin q /\ 0 <= q /\ q <= Qc_of_N 100.
Proof.
  intros E. rewrite <- of_N_0. eapply type_between; [exact E|]. intros [t r] w y I R. rewrite of_N_0.
  eapply rating_bounds; [|exact R]. apply own_value with (h := h); [exact S|apply (part_in o), I].
Qed.

(** The handler that is the best in everything has 100, the worst has 0. *)
Theorem C44_best h ty x : b_score_for_type exact d h ty = Some x ->
  (forall t r w, In (t, r) (handler_part o b h) -> least (map (fun e => quantity (snd e) w) (handler_records_for b t)) (quantity r w)) ->
  x = NaN \/ x = Fin (Qc_of_N 100).
Proof.
  intros E H. destruct (type_between 100 100 h ty x E) as [K|(q & K & Q1 & Q2)]; [|left; exact K|].
  - intros [t r] w y I R. assert (y = Qc_of_N 100) as -> by (eapply rating_best; [apply H, I|exact R]). split; apply Qcle_refl.
  - right. rewrite K. f_equal. apply Qcle_antisym; assumption.
Qed.
Theorem C44_worst h ty x : b_score_for_type exact d h ty = Some x ->
  (forall t r w, In (t, r) (handler_part o b h) -> greatest (map (fun e => quantity (snd e) w) (handler_records_for b t)) (quantity r w)) ->
  x = NaN \/ x = Fin 0.
Proof.
  intros E H. destruct (type_between 0 0 h ty x E) as [K|(q & K & Q1 & Q2)]; [|left; exact K|].
  - intros [t r] w y I R. assert (y = 0) as -> by (eapply rating_worst; [apply H, I|exact R]). rewrite of_N_0. split; apply Qcle_refl.
  - right. rewrite K. f_equal. rewrite of_N_0 in Q1, Q2. apply Qcle_antisym; assumption.
Qed.

(** The handlers of a test all have the same value of a quantity. *)
Definition alike (t : bytes) (w : weight) : Prop :=
  forall e e', In e (handler_records_for b t) -> In e' (handler_records_for b t) -> quantity (snd e) w = quantity (snd e') w.

Lemma rate_none h t r w : In (t, r) (handler_part o b h) -> (rate (handler_records_for b) t r w = None <-> alike t w).
Proof.
  intros I. apply part_in in I. pose proof (own_value b t h r w S I) as V. unfold rate. rewrite rating_none.
  - unfold alike. split.
    + intros H e e' I1 I2. apply H; apply (in_map (fun e => quantity (snd e) w)); assumption.
    + intros H x y I1 I2. apply in_map_iff in I1, I2. destruct I1 as (e & <- & I1), I2 as (e' & <- & I2). apply H; assumption.
  - intros K. rewrite K in V. destruct V.
Qed.

Lemma alike_dec h t r w : In (t, r) (handler_part o b h) -> alike t w \/ ~ alike t w.
Proof.
  intros I. rewrite <- (rate_none h t r w I). destruct (rate _ t r w); [right; discriminate|left; reflexivity].
Qed.

Lemma weight_sum_0 l : weight_sum l = 0%N <-> forall e, In e l -> snd e = 0%N.
Proof.
  induction l as [|x l IH]; cbn [weight_sum fold_right].
  - split; [intros _ e []|reflexivity].
  - change (fold_right _ _ l) with (weight_sum l). split.
    + intros H e [ <- |I]; [lia|]. apply IH; [lia|exact I].
    + intros H. rewrite (H x (or_introl eq_refl)). apply IH. intros e I. apply H. right. exact I.
Qed.

Lemma all_weights w : In w weight_order.
Proof. destruct w; cbn; auto. Qed.

Lemma test_score_none h t r : In (t, r) (handler_part o b h) ->
  (test_score bw (handler_records_for b) (t, r) = None <-> forall w, bw w = 0%N \/ alike t w).
Proof.
  intros I. unfold test_score. rewrite mean_none, weight_sum_0. split.
  - intros [(n & K)|H] w.
    + apply in_flat_map in K. destruct K as (w' & _ & K). destruct (rate _ _ _ w'); [destruct K as [K|[]]; discriminate|destruct K].
    + destruct (rate (handler_records_for b) t r w) as [y|] eqn:E; [left|right; apply (rate_none h t r w I), E].
      apply (H (Some y, bw w)). apply in_flat_map. exists w. split; [apply all_weights|]. cbn [fst snd]. rewrite E. left. reflexivity.
  - intros H. right. intros e K. apply in_flat_map in K. destruct K as (w & _ & K). cbn [fst snd] in K.
    destruct (rate _ t r w) as [y|] eqn:E; [|destruct K]. destruct K as [ <- |[]]. cbn [snd]. destruct (H w) as [Z|Z]; [exact Z|].
    apply (rate_none h t r w I) in Z. congruence.
Qed.

Lemma by_test_none h : score_by_test bw (handler_records_for b) (handler_part o b h) = None <->
  handler_part o b h = [] \/ exists t r, In (t, r) (handler_part o b h) /\ forall w, bw w = 0%N \/ alike t w.
Proof.
  unfold score_by_test. rewrite mean_none, weight_sum_0. split.
  - intros [(n & K)|H].
    + apply in_map_iff in K. destruct K as ([t r] & K & I). injection K as K _. right. exists t, r. split; [exact I|]. apply (test_score_none h t r I), K.
    + left. destruct (handler_part o b h) as [|e l]; [reflexivity|]. specialize (H _ (or_introl eq_refl)). discriminate.
  - intros [E|(t & r & I & H)]; [right; rewrite E; intros e []|left]. exists 1%N. apply in_map_iff. exists (t, r). split; [|exact I].
    f_equal. apply (test_score_none h t r I), H.
Qed.

Lemma quantity_none h w : quantity_score (handler_records_for b) (handler_part o b h) w = None <->
  forall t r, In (t, r) (handler_part o b h) -> alike t w.
Proof.
  unfold quantity_score. rewrite mean_none, weight_sum_0. split.
  - intros [(n & K)|H] t r I.
    + apply in_flat_map in K. destruct K as ([y|] & _ & K); [destruct K as [K|[]]; discriminate|destruct K].
    + apply (rate_none h t r w I). destruct (rate _ t r w) as [y|] eqn:E; [|reflexivity].
      assert (X : snd (Some y, 1%N) = 0%N); [|discriminate]. apply H. apply in_flat_map. exists (Some y). split; [|left; reflexivity].
      apply in_map_iff. exists (t, r). split; [exact E|exact I].
  - intros H. right. intros e K. apply in_flat_map in K. destruct K as (y & I & K). apply in_map_iff in I. destruct I as ([t r] & <- & I).
    cbn [fst snd] in K. rewrite (proj2 (rate_none h t r w I) (H t r I)) in K. destruct K.
Qed.

Lemma by_data_none h : score_by_data bw (handler_records_for b) (handler_part o b h) = None <->
  (forall w, bw w = 0%N) \/ exists w, forall t r, In (t, r) (handler_part o b h) -> alike t w.
Proof.
  unfold score_by_data. rewrite mean_none, weight_sum_0. split.
  - intros [(n & K)|H].
    + apply in_map_iff in K. destruct K as (w & K & _). injection K as K _. right. exists w. apply quantity_none, K.
    + left. intros w. apply (H (quantity_score (handler_records_for b) (handler_part o b h) w, bw w)). apply in_map_iff. exists w. split; [reflexivity|apply all_weights].
  - intros [H|(w & H)]; [right|left].
    + intros e K. apply in_map_iff in K. destruct K as (w & <- & _). apply H.
    + exists (bw w). apply in_map_iff. exists w. split; [f_equal; apply quantity_none, H|apply all_weights].
Qed.

(** Not a number: by tests, when there is no test or one of the tests has the
    same results for all handlers in every quantity that has a weight; by data,
    when some quantity (whatever its weight) is the same for all handlers in each
    of the tests; the default, in either case. *)
Theorem C44_nan h : scored_handler b h ->
  let no_tests := handler_part o b h = [] in
  let dull_test := exists t r, In (t, r) (handler_part o b h) /\ forall w, bw w = 0%N \/ alike t w in
  let dull_data := (forall w, bw w = 0%N) \/ exists w, forall t r, In (t, r) (handler_part o b h) -> alike t w in
  (b_score_for_type exact d h ByTest = Some NaN <-> no_tests \/ dull_test) /\
  (b_score_for_type exact d h Original = Some NaN <-> no_tests \/ dull_test) /\
  (b_score_for_type exact d h ByData = Some NaN <-> dull_data) /\
  (b_score_for_type exact d h Default = Some NaN <-> no_tests \/ dull_test \/ dull_data).
Proof.
  intros Sh. cbn zeta. destruct (setup_outcome o b _ b' S C A) as (d' & E & H). injection E as <-.
  destruct (proj1 (H h) Sh) as (s & G & (_ & O1 & O2 & O3 & total & O4 & T)). unfold b_score_for_type. rewrite G. cbn [option_map].
  rewrite O1, O2, O3, O4. rewrite <- by_test_none, <- by_data_none, <- or_assoc, <- by_test_none.
  set (recs := handler_part o b h) in *. set (rs := handler_records_for b) in *.
  assert (Z : forall x : option Qc, Some (of_option x) = Some NaN <-> x = None) by (intros [x|]; cbn [of_option]; split; congruence).
  repeat split; intros K.
  - apply Z, K.
  - apply Z, K.
  - unfold score_by_test, mean. destruct (add_up _) as [[x n]|] eqn:Ea; [|reflexivity]. destruct (N.eqb_spec n 0); [reflexivity|].
    exfalso. rewrite <- (total_parts rs recs x n Ea), T, value_round_fin, xdiv_fin in K by (apply of_N_nonzero; lia). discriminate.
  - unfold score_by_test, mean in K. destruct (add_up _) as [[x n]|] eqn:Ea; [|rewrite T; reflexivity].
    destruct (N.eqb_spec n 0) as [Zn|]; [|discriminate]. pose proof (total_parts rs recs x n Ea) as L.
    assert (R : recs = []) by (destruct recs; [reflexivity|cbn in L; lia]). rewrite R in Ea. injection Ea as <- _. rewrite T, R. reflexivity.
  - apply Z, K.
  - apply Z, K.
  - apply Z in K. unfold score_default in K. destruct (score_by_data bw rs recs); [|auto]. destruct (score_by_test bw rs recs); [discriminate|auto].
  - apply Z. unfold score_default. destruct K as [K|K]; rewrite K; [destruct (score_by_data bw rs recs)|]; reflexivity.
Qed.

Lemma scores_wf tests rngs order hs : forall d0 d1, wf d0 ->
  score_handlers exact xQ bw (tagged (tag_map o tests)) rngs order hs d0 = Some d1 -> wf d1.
Proof.
  induction hs as [|h hs IH]; intros d0 d1 W; cbn [score_handlers].
  - intros E. injection E as <-. exact W.
  - destruct (score_handler _ _ _ _ _ _ _) as [s|]; [|discriminate]. apply IH, wf_put, W.
Qed.

(** The axis has a test exactly when the test is selected, some handler that is
    scored has run it, and its results differ in a quantity that has a weight. *)
Theorem C46_has_test t : b_has_test exact d t = true <->
  selected o t = true /\ (exists h r, scored_handler b h /\ In (t, r) (test_records_for b h)) /\ exists w, bw w <> 0%N /\ ~ alike t w.
Proof.
  assert (W : wf d).
  { destruct A as (tests & b1 & handlers & order & _ & _ & _ & t1 & t2 & _ & _ & R). symmetry in R. eapply scores_wf; [|exact R]. constructor. }
  assert (Wp : forall h, wf (handler_part o b h)) by (intros h; apply wf_filter, (state_sane v pf b Hpf S)).
  unfold b_has_test. rewrite existsb_exists. split.
  - intros ([h s] & I & K). cbn [snd] in K. apply get_in in I; [|exact W]. destruct (outcome_of h s I) as [Sh (O & _)].
    rewrite (proj2 (O t)) in K. apply N.ltb_lt in K. destruct (get t (handler_part o b h)) as [r|] eqn:G; [|lia].
    apply get_in in G; [|apply Wp]. split; [unfold handler_part in G; apply filter_In in G; apply G|].
    split; [exists h, r; split; [exact Sh|apply (part_in o), G]|].
    assert (E : exists w, In w weight_order /\ rate (handler_records_for b) t r w <> None /\ bw w <> 0%N).
    { revert K. unfold rated_weights. induction weight_order as [|w ws IH]; [cbn; lia|]. cbn [flat_map].
      destruct (rate _ t r w) as [y|] eqn:Er.
      - cbn [app weight_sum fold_right snd]. change (fold_right _ _ _) with (weight_sum (flat_map (fun w => match rate (handler_records_for b) t r w with Some x => [(Some x, bw w)] | None => [] end) ws)).
        intros K. destruct (N.eq_dec (bw w) 0) as [Z|Z].
        + destruct IH as (w' & I1 & I2); [lia|]. exists w'. split; [right; exact I1|exact I2].
        + exists w. split; [left; reflexivity|]. split; [congruence|exact Z].
      - intros K. destruct (IH K) as (w' & I1 & I2). exists w'. split; [right; exact I1|exact I2]. }
    destruct E as (w & _ & E1 & E2). exists w. split; [exact E2|]. rewrite <- (rate_none h t r w G). exact E1.
  - intros (Se & (h & r & Sh & I) & w & Z & Na). assert (G : In (t, r) (handler_part o b h)) by (apply filter_In; split; [exact I|exact Se]).
    destruct (setup_outcome o b _ b' S C A) as (d' & E & H). injection E as <-. destruct (proj1 (H h) Sh) as (s & Gs & (O & _)).
    exists (h, s). split; [apply get_in; [exact W|exact Gs]|]. cbn [snd]. rewrite (proj2 (O t)). apply N.ltb_lt.
    rewrite (proj2 (get_in t r _ (Wp h)) G). destruct (N.eq_0_gt_0_cases (weight_sum (rated_weights b t r))) as [Z0|Z0]; [|exact Z0].
    exfalso. apply Z. rewrite weight_sum_0 in Z0. destruct (rate (handler_records_for b) t r w) as [y|] eqn:Er; [|exfalso; apply Na, (rate_none h t r w G), Er].
    apply (Z0 (Some y, bw w)). unfold rated_weights. apply in_flat_map. exists w. split; [apply all_weights|]. rewrite Er. left. reflexivity.
Qed.

(** The original score is the score by tests, rounded. *)
Theorem C44_original h q : b_score_for_type exact d h ByTest = Some (Fin q) ->
  exists p, b_score_for_type exact d h Original = Some (Fin p) /\
    q - Q2Qc (1 # 2) / nano / Qc_of_N (N.of_nat (length (handler_part o b h))) <= p /\
    p <= q + Q2Qc (1 # 2) / nano / Qc_of_N (N.of_nat (length (handler_part o b h))).
Proof.
  unfold b_score_for_type. destruct (get h d) as [s|] eqn:G; [|discriminate]. cbn [option_map].
  pose proof (outcome_of h s G) as [_ Out]. pose proof Out as (_ & O1 & _ & _ & total & O4 & T). rewrite O1, O4. intros K. injection K as K.
  set (recs := handler_part o b h) in *. set (rs := handler_records_for b) in *.
  destruct (score_by_test bw rs recs) as [m|] eqn:M; [|discriminate]. injection K as <-. pose proof M as M'.
  unfold score_by_test, mean in M. destruct (add_up _) as [[x n]|] eqn:Ea; [|discriminate]. destruct (N.eqb_spec n 0) as [|Zn]; [discriminate|].
  injection M as <-. rewrite <- (total_parts rs recs x n Ea), T, value_round_fin, xdiv_fin by (apply of_N_nonzero; lia).
  eexists. split; [reflexivity|]. assert (Pn : 0 < Qc_of_N n) by (rewrite <- of_N_0; apply of_N_lt; lia).
  assert (X0 : 0 <= x).
  { destruct (by_test_between rs recs 0 (Qc_of_N 100) (x / Qc_of_N n)) as [X _]; [|exact M'|].
    - intros [t r] w y I R. eapply rating_bounds; [|exact R]. apply own_value with (h := h); [exact S|apply (part_in o), I].
    - replace x with (x / Qc_of_N n * Qc_of_N n) by (field; apply of_N_nonzero; lia).
      replace 0 with (0 * Qc_of_N n) by ring. apply Qcmult_le_compat_r; [exact X|apply Qclt_le_weak, Pn]. }
  assert (Y0 : 0 <= x * nano).
  { replace 0 with (0 * nano) by ring. apply Qcmult_le_compat_r; [exact X0|apply Qclt_le_weak, nano_pos]. }
  destruct (round_near _ Y0) as [R1 R2]. set (y := Qc_round _) in *. pose proof nano_pos as Np.
  assert (Nn : nano <> 0) by (intros Q; rewrite Q in Np; discriminate). assert (Nq : Qc_of_N n <> 0) by (apply of_N_nonzero; lia).
  assert (D1 : x / Qc_of_N n - Q2Qc (1 # 2) / nano / Qc_of_N n = (x * nano - Q2Qc (1 # 2)) / nano / Qc_of_N n) by (field; auto).
  assert (D2 : x / Qc_of_N n + Q2Qc (1 # 2) / nano / Qc_of_N n = (x * nano + Q2Qc (1 # 2)) / nano / Qc_of_N n) by (field; auto).
  rewrite D1, D2. assert (Mo : forall a c k, 0 < k -> a <= c -> a / k <= c / k).
  { intros a c k Pk L. unfold Qcdiv. apply Qcmult_le_compat_r; [exact L|].
    qc_goal. qc_hyps. apply Qinv_le_0_compat. lra. }
  split; apply Mo, Mo; assumption.
Qed.
End Consequences.

(** The order of the loops over maps makes no difference. *)
Theorem C44_order o b d1 b1 d2 b2 : bench_state v pf b -> current b ->
  bench_axis_setup exact xQ bw o b [] (Some d1) b1 -> bench_axis_setup exact xQ bw o b [] (Some d2) b2 ->
  forall h, (forall t, b_score_for_test exact d1 h t = b_score_for_test exact d2 h t) /\
    (forall ty, b_score_for_type exact d1 h ty = b_score_for_type exact d2 h ty).
Proof.
  intros S C A1 A2 h. destruct (setup_outcome o b _ b1 S C A1) as (d & E & H1). injection E as <-.
  destruct (setup_outcome o b _ b2 S C A2) as (d & E & H2). injection E as <-.
  unfold b_score_for_test, b_score_for_type. destruct (get h d1) as [s1|] eqn:G1.
  - destruct (outcome_of o b b1 d1 S C A1 h s1 G1) as [Sh (P0 & P1 & P2 & P3 & x1 & P4 & P5)].
    destruct (proj1 (H2 h) Sh) as (s2 & G2 & (Q0 & Q1 & Q2 & Q3 & x2 & Q4 & Q5)). rewrite G2. cbn [option_map]. split.
    + intros t. rewrite (proj1 (P0 t)), (proj1 (Q0 t)). reflexivity.
    + intros ty. f_equal. destruct ty; [rewrite P3, Q3|rewrite P2, Q2|rewrite P4, Q4|rewrite P1, Q1]; try reflexivity.
      assert (x1 = x2) as ->; [|reflexivity]. destruct (add_up _) as [[x n]|]; congruence.
  - destruct (get h d2) as [s2|] eqn:G2; [|split; reflexivity]. destruct (outcome_of o b b2 d2 S C A2 h s2 G2) as [Sh _].
    destruct (proj1 (H1 h) Sh) as (s & G & _). congruence.
Qed.

(** *** When the setup panics *)

Lemma score_tests_none sel (rngs : bytes -> option ((weight -> range) * (weight -> range))) recs : forall og s,
  score_tests exact xQ bw sel rngs recs og s = None <-> exists t r, In (t, r) recs /\ sel t = true /\ rngs t = None.
Proof.
  induction recs as [|[t r] recs IH]; intros og s; cbn [score_tests].
  - split; [discriminate|intros (t & r & [] & _)].
  - destruct (sel t) eqn:E; [destruct (rngs t) as [[rg og']|] eqn:R|]; rewrite ?IH.
    + split; [intros (t' & r' & I & K); exists t', r'; cbn; tauto|]. intros (t' & r' & [I|I] & K1 & K2); [|eauto]. injection I as <- <-. congruence.
    + split; [|reflexivity]. intros _. exists t, r. cbn. auto.
    + split; [intros (t' & r' & I & K); exists t', r'; cbn; tauto|]. intros (t' & r' & [I|I] & K1 & K2); [|eauto]. injection I as <- <-. congruence.
Qed.
Lemma score_handlers_none sel (rngs : bytes -> option ((weight -> range) * (weight -> range))) order hs : forall d,
  score_handlers exact xQ bw sel rngs order hs d = None <->
  exists h t r, In h hs /\ In (t, r) (order h) /\ sel t = true /\ rngs t = None.
Proof.
  induction hs as [|h hs IH]; intros d; cbn [score_handlers].
  - split; [discriminate|intros (h & t & r & [] & _)].
  - unfold score_handler at 1. destruct (score_tests exact xQ bw sel rngs (order h) _ _) as [[og s]|] eqn:E.
    + rewrite IH. split; [intros (h' & t & r & I & K); exists h', t, r; cbn; tauto|].
      intros (h' & t & r & [ <- |I] & K); [|eauto]. exfalso.
      assert (X : Some (og, s) = None) by (rewrite <- E; apply score_tests_none; eauto). discriminate.
    + split; [|reflexivity]. intros _. apply score_tests_none in E. destruct E as (t & r & K). exists h, t, r. cbn. tauto.
Qed.

(** The setup panics exactly when a handler has a result for an included test
    that an old list of tests does not show. *)
Theorem C44_panic o b d res b' : bench_state v pf b -> bench_axis_setup exact xQ bw o b d res b' ->
  (res = None <-> exists h t r l, scored_handler b h /\ In (t, r) (test_records_for b h) /\
     o_include o = Some l /\ In t l /\ ~ In t (o_exclude o) /\ b_tests b <> [] /\ ~ In t (b_tests b)).
Proof.
  intros S (tests & b1 & handlers & order & T & H & O & t1 & t2 & O1 & O2 & R). cbn zeta in R.
  destruct (handlers_scored b b1 tests handlers b' S T H) as [_ L]. rewrite R, score_handlers_none. split.
  - intros (h & t & r & Ih & It & Ts & Tr). rewrite Ts, andb_true_r in Tr. change (existsb (beq t) tests) with (listed_in t tests) in Tr.
    destruct (listed_in t tests) eqn:Lt; [discriminate|].
    assert (NI : ~ In t tests) by (rewrite <- listed_true; congruence). apply C46_selection in Ts. destruct Ts as [[(l & El & Il)|[_ K]] Ne]; [|contradiction].
    apply (Permutation_in _ (Permutation_sym (O h))) in It. exists h, t, r, l. repeat split; try assumption; [apply L, Ih| |].
    + intros K. apply NI. destruct T as [T _]. rewrite K in T. cbn [cached_keys] in T. destruct (state_tidy v pf b S) as [_ [W Td]].
      pose proof (sorted_listing _ _ _ W T) as [_ L2 _]. apply L2, Td. destruct (other_view b t h r S It) as (x & Ix & _).
      destruct (state_sane v pf b Hpf S) as [_ S2]. apply record_in in Ix; [|intros k; apply S2]. exists h, x. exact Ix.
    + destruct T as [T _]. destruct (b_tests b) as [|x l'] eqn:Eb; [intros []|]. cbn [cached_keys] in T. subst tests. exact NI.
  - intros (h & t & r & l & Sh & It & El & Il & Ne & Nb & Ni). assert (tests = b_tests b) as ->.
    { destruct T as [T _]. destruct (b_tests b); [contradiction|exact T]. }
    exists h, t, r. split; [apply L, Sh|]. split; [eapply Permutation_in; [apply O|exact It]|].
    split; [apply C46_selection; split; [left; eauto|exact Ne]|]. rewrite <- listed_true in Ni. unfold listed_in in Ni. apply not_true_is_false in Ni. rewrite Ni. reflexivity.
Qed.
End Axis.

Print Assumptions C44_panic.
Print Assumptions C46_has_test.
Print Assumptions C44_scores.
Print Assumptions C44_percent.
Print Assumptions C44_best.
Print Assumptions C44_worst.
Print Assumptions C44_nan.
Print Assumptions C44_original.
Print Assumptions C44_order.

(** ** Example: three handlers, two tests *)

Definition pf1 (s : bytes) : option Q :=
  match pf0 s with Some q => if Qle_bool 0 q && Qle_bool q (inject_Z max_float) then Some q else None | None => None end.
Lemma pf1_ok : pf_ok pf1.
Proof.
  intros s q. unfold pf1. destruct (pf0 s) as [q'|]; [|discriminate]. destruct (Qle_bool 0 q') eqn:E1; [|discriminate].
  destruct (Qle_bool q' (inject_Z max_float)) eqn:E2; [|discriminate]. intros K. injection K as <-. split; apply Qle_bool_iff; assumption.
Qed.

Definition line1 (h t ns by_ al : string) : bytes :=
  B "Benchmark" ++ B h ++ B "/Benchmark" ++ B t ++ B "-8   1000   " ++ B ns ++ B " ns/op   " ++ B by_ ++ B " B/op   " ++ B al ++ B " allocs/op" ++ [newline].
Definition text3 : bytes := line1 "alfa" "One" "100" "0" "0" ++ line1 "beta" "One" "150" "64" "1" ++ line1 "gamma" "One" "300" "256" "4"
  ++ line1 "alfa" "Two" "20.5" "0" "0" ++ line1 "beta" "Two" "10.5" "0" "0" ++ line1 "gamma" "Two" "50.5" "0" "0".
Definition bench3 : bench := fst (parse_bench PropMerge.world0 pf1 text3 new_bench).
Definition weights3 (w : weight) : N := match w with Nanoseconds => 3 | AllocBytes => 2 | Allocations => 1 end.
Definition shown (x : option xnum) : option (option Q) :=
  option_map (fun x => match x with Fin q => Some (this q) | _ => None end) x.

Definition setup3 (o : options) (b : bench) : option (gomap (scored exact)) * bench :=
  let tests := sort_by (on (b_test_name b) blt) (keys (b_by_test b)) in
  let handlers := sort_by (on (b_handler_name b) blt) (keys (b_by_handler b)) in
  let sel := tagged (tag_map o tests) in
  (score_handlers exact xQ weights3 sel
     (fun t => if existsb (beq t) tests && sel t then Some (ranges_of exact xQ (handler_records_for b t), original_ranges exact xQ (handler_records_for b t)) else None)
     (test_records_for b) handlers [], set_handlers handlers (set_tests tests b)).
Lemma setup3_ok o b : b_tests b = [] -> b_handlers b = [] -> bench_axis_setup exact xQ weights3 o b [] (fst (setup3 o b)) (snd (setup3 o b)).
Proof.
  intros E1 E2. set (tests := sort_by (on (b_test_name b) blt) (keys (b_by_test b))).
  set (handlers := sort_by (on (b_handler_name b) blt) (keys (b_by_handler b))).
  exists tests, (set_tests tests b), handlers, (test_records_for b).
  split; [split; [rewrite E1; apply sorted_keys_some|reflexivity]|].
  split; [split; [cbn [set_tests b_handlers]; rewrite E2; apply sorted_keys_some|reflexivity]|].
  split; [reflexivity|]. exists (handler_records_for b), (handler_records_for b). split; [reflexivity|]. split; [reflexivity|]. reflexivity.
Qed.

Lemma state3 : bench_state PropMerge.world0 pf1 bench3.
Proof. apply bs_parse. constructor. Qed.
Lemma current3 : current bench3.
Proof. intros t _. left. vm_compute. reflexivity. Qed.

Definition all3 : options := Build_options None [].
Example C44_ex : match setup3 all3 bench3 with
  | (Some d, _) =>
      shown (b_score_for_test exact d (B "beta") (B "Bench.One")) = Some (Some (75 # 1)%Q) /\
      shown (b_score_for_type exact d (B "alfa") ByTest) = Some (Some (175 # 2)%Q) /\
      shown (b_score_for_type exact d (B "alfa") ByData) = Some (Some (375 # 4)%Q) /\
      shown (b_score_for_type exact d (B "alfa") Default) = Some (Some (725 # 8)%Q) /\
      shown (b_score_for_type exact d (B "gamma") Default) = Some (Some 0%Q) /\
      shown (b_score_for_type exact d (B "gamma") Original) = Some (Some 0%Q) /\
      shown (b_score_for_type exact d (B "delta") Default) = None
  | _ => False
  end.
Proof. vm_compute. repeat split; reflexivity. Qed.

(** The theorems speak of it; gamma is the worst everywhere; the bytes are alike
    in the second test: with that test alone the score by data is no number. *)
Example C44_worst_ex : exists d b', bench_axis_setup exact xQ weights3 all3 bench3 [] (Some d) b' /\
  (exists x, b_score_for_type exact d (B "gamma") Default = Some x) /\ scored_handler bench3 (B "gamma") /\
  forall t r w, In (t, r) (handler_part all3 bench3 (B "gamma")) -> greatest (map (fun e => quantity (snd e) w) (handler_records_for bench3 t)) (quantity r w).
Proof.
  assert (E1 : b_tests bench3 = []) by (vm_compute; reflexivity). assert (E2 : b_handlers bench3 = []) by (vm_compute; reflexivity).
  pose proof (setup3_ok all3 bench3 E1 E2) as H.
  destruct (C44_scores PropMerge.world0 pf1 pf1_ok weights3 all3 bench3 _ _ state3 current3 H) as (d & E & K). rewrite E in H.
  exists d. eexists. split; [exact H|].
  assert (Sh : scored_handler bench3 (B "gamma")) by (unfold scored_handler; rewrite E2; exists (B "Bench.One"); eexists; vm_compute; reflexivity).
  split; [eexists; apply (proj1 (K (B "gamma")) Sh)|]. split; [exact Sh|]. intros t r w I.
  assert (Gr : forall vs x, In x vs -> forallb (fun y => negb (Qc_ltb x y)) vs = true -> greatest vs x).
  { intros vs x I' F. split; [exact I'|]. intros y Iy. rewrite forallb_forall in F. specialize (F y Iy). apply negb_true_iff in F. apply Qc_ltb_false, F. }
  apply Gr; [apply own_value with (v := PropMerge.world0) (pf := pf1) (h := B "gamma"); [exact pf1_ok|exact state3|apply (part_in all3), I]|].
  revert t r I w. assert (F : forallb (fun e => forallb (fun w => forallb (fun y => negb (Qc_ltb (quantity (snd e) w) y))
    (map (fun x => quantity (snd x) w) (handler_records_for bench3 (fst e)))) weight_order) (handler_part all3 bench3 (B "gamma")) = true) by (vm_compute; reflexivity).
  rewrite forallb_forall in F. intros t r I w. specialize (F _ I). rewrite forallb_forall in F. exact (F w (all_weights w)).
Qed.

Example C46_has_test_ex : match setup3 (Build_options None [B "Bench.One"]) bench3 with
  | (Some d, _) => b_has_test exact d (B "Bench.One") = false /\ b_has_test exact d (B "Bench.Two") = true
  | _ => False
  end.
Proof. vm_compute. split; reflexivity. Qed.

Example C44_nan_ex : match setup3 (Build_options (Some [B "Bench.Two"]) []) bench3 with
  | (Some d, _) =>
      shown (b_score_for_type exact d (B "beta") ByTest) = Some (Some (100 # 1)%Q) /\
      b_score_for_type exact d (B "beta") ByData = Some NaN /\ b_score_for_type exact d (B "beta") Default = Some NaN
  | _ => False
  end.
Proof. vm_compute. repeat split; reflexivity. Qed.

(** A list of tests from before the second text; that text brings the test which is included. *)
Example C44_panic_ex : let b0 := fst (parse_bench PropMerge.world0 pf1 (line1 "alfa" "One" "100" "0" "0") new_bench) in
  exists b1, test_tags b0 [B "Bench.One"] b1 /\ let b2 := fst (parse_bench PropMerge.world0 pf1 text3 b1) in
    bench_state PropMerge.world0 pf1 b2 /\ scored_handler b2 (B "beta") /\
    (exists r, In (B "Bench.Two", r) (test_records_for b2 (B "beta"))) /\ b_tests b2 <> [] /\ ~ In (B "Bench.Two") (b_tests b2).
Proof.
  cbv zeta. set (b0 := fst (parse_bench PropMerge.world0 pf1 (line1 "alfa" "One" "100" "0" "0") new_bench)).
  assert (T : test_tags b0 [B "Bench.One"] (set_tests [B "Bench.One"] b0)).
  { split; [|reflexivity]. replace (b_tests b0) with (@nil bytes) by (vm_compute; reflexivity). cbn [cached_keys].
    replace [B "Bench.One"] with (sort_by (on (b_test_name b0) blt) (keys (b_by_test b0))) by (vm_compute; reflexivity). apply sorted_keys_some. }
  eexists. split; [exact T|]. split; [apply bs_parse; eapply bs_tests; [|exact T]; apply bs_parse; constructor|].
  split; [unfold scored_handler; match goal with |- match ?l with [] => _ | _ => _ end => replace l with (@nil bytes) by (vm_compute; reflexivity) end;
    exists (B "Bench.One"); eexists; vm_compute; reflexivity|]. split; [eexists; vm_compute; right; left; reflexivity|].
  split; [vm_compute; discriminate|]. vm_compute. intros [I|[]]; discriminate I.
Qed.
