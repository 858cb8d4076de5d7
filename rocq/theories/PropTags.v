(** C41: the tag lists of benchmark and warning data. *)

From Coq Require Import Ascii String List NArith QArith Bool Arith Lia Permutation Sorted.
From Verif Require PropMerge.
From Verif Require Import Bytes BytesProofs GoSort Regex Warnings WarnParser SpecReport Bench SpecBench PropBench.
Import ListNotations.
Local Open Scope list_scope.

(** ** Specification *)

(** A list of tags in the order of their display names. *)
Definition by_name (name : bytes -> bytes) (l : list bytes) : Prop :=
  forall l1 x l2 y l3, l = l1 ++ x :: l2 ++ y :: l3 -> blt (name y) (name x) = false.

(** Each tag once, exactly those present, in order. *)
Record listing (name : bytes -> bytes) (present : bytes -> Prop) (l : list bytes) : Prop := {
  listing_once : NoDup l;
  listing_exact : forall x, In x l <-> present x;
  listing_order : by_name name l
}.

Lemma sorted_by_name name l : StronglySorted (fun a b => on name blt b a = false) l -> by_name name l.
Proof.
  intros S l1. revert l S. induction l1 as [|z l1 IH]; intros l S x l2 y l3 ->.
  - apply StronglySorted_inv in S. destruct S as [_ F]. rewrite Forall_forall in F. apply F. apply in_app_iff. right. left. reflexivity.
  - apply StronglySorted_inv in S. eapply (IH _ (proj1 S)). reflexivity.
Qed.

Lemma sorted_listing {A} name (m : gomap A) l : wf m -> sorted_keys name m l -> listing name (fun x => In x (keys m)) l.
Proof.
  intros W (ks & P & P2 & S). rewrite <- P in P2. split.
  - eapply Permutation_NoDup; [exact P2|exact W].
  - intros x. split; apply Permutation_in; [symmetry|]; exact P2.
  - apply sorted_by_name, S.
Qed.

(** ** Benchmarks *)

(** What may happen to the data, with the lists returned. *)
Inductive event : Type :=
| Parsed (text : bytes) | HandlersListed (l : list bytes) | TestsListed (l : list bytes) | LookedUp (m : gomap bytes).

Inductive history (v : world) (pf : bytes -> option Q) : list event -> bench -> Prop :=
| h_new : history v pf [] new_bench
| h_parse es b text : history v pf es b -> history v pf (es ++ [Parsed text]) (fst (parse_bench v pf text b))
| h_handlers es b out b' : history v pf es b -> handler_tags b out b' -> history v pf (es ++ [HandlersListed out]) b'
| h_tests es b out b' : history v pf es b -> test_tags b out b' -> history v pf (es ++ [TestsListed out]) b'
| h_lookup es b out b' : history v pf es b -> handler_lookup b out b' -> history v pf (es ++ [LookedUp out]) b'.

Lemma history_state v pf es b : history v pf es b -> bench_state v pf b.
Proof. induction 1; [constructor|eapply bs_parse|eapply bs_handlers|eapply bs_tests|eapply bs_lookup]; eassumption. Qed.

(** The maps are maps, without empty inner maps. *)
Definition tidy2 (m : gomap (gomap trec)) : Prop := wf m /\ forall k, In k (keys m) <-> exists k2 x, record_at m k k2 = Some x.

Lemma tidy_put2 k1 k2 x m : tidy2 m -> tidy2 (put2 k1 k2 x m).
Proof.
  intros [W H]. split; [apply wf_put, W|]. intros k. unfold put2 at 1. rewrite keys_put, H. split.
  - intros [ -> |(k' & y & E)].
    + exists k2, x. rewrite record_put2, !beq_refl. reflexivity.
    + exists k'. rewrite record_put2. destruct (beq k1 k && beq k2 k'); eauto.
  - intros (k' & y & E). rewrite record_put2 in E. destruct (beq k1 k) eqn:E1.
    + left. apply beq_eq in E1. congruence.
    + right. cbn in E. eauto.
Qed.

Lemma state_tidy v pf b : bench_state v pf b -> tidy2 (b_by_handler b) /\ tidy2 (b_by_test b).
Proof.
  intros S. revert b S. refine (state_ind v pf (fun b => tidy2 (b_by_handler b) /\ tidy2 (b_by_test b)) _ _ _ _ _).
  - split; (split; [constructor|]); intros k; cbn; (split; [intros []|intros (? & ? & ?); discriminate]).
  - intros b d l _ [H1 H2]. split; apply tidy_put2; assumption.
  - intros b b' H E1 E2 _ _. rewrite E1, E2. exact H.
  - intros b l H. exact H.
  - intros b l H. exact H.
Qed.

(** Tags of which there are results. *)
Definition handler_present (b : bench) (h : bytes) : Prop := exists t x, record_at (b_by_handler b) h t = Some x.
Definition test_present (b : bench) (t : bytes) : Prop := exists h x, record_at (b_by_test b) t h = Some x.

Lemma parse_caches v pf text b : b_handlers (fst (parse_bench v pf text b)) = b_handlers b /\
  b_tests (fst (parse_bench v pf text b)) = b_tests b.
Proof.
  unfold parse_bench. destruct (scan text) as [lines err].
  assert (L : forall b, b_handlers (fst (bench_loop v pf lines b)) = b_handlers b /\
                        b_tests (fst (bench_loop v pf lines b)) = b_tests b).
  { induction lines as [|l ls IH]; intros b0; [split; reflexivity|]. cbn [bench_loop].
    destruct (find ptn_handler_def l) as [f|]; [exact (IH (define_handler (sub 1 f) (sub 2 f) b0))|].
    destruct (find ptn_warn_line l) as [f|]; [exact (IH (add_warning (sub 1 f) b0))|].
    destruct (read_data pf l) as [| |d]; [apply IH|split; reflexivity|exact (IH (store v d b0))]. }
  specialize (L b). destruct (bench_loop v pf lines b). exact L.
Qed.

Lemma lookup_caches b out b' : handler_lookup b out b' -> b_handlers b' = b_handlers b /\ b_tests b' = b_tests b.
Proof. unfold handler_lookup. destruct (b_lookup b); intros [_ ->]; split; reflexivity. Qed.

Lemma in_snoc {A} (x : A) l y : In x (l ++ [y]) <-> In x l \/ x = y.
Proof. rewrite in_app_iff. cbn. intuition. Qed.

(** The cache is the first answer that was not empty. *)
Lemma handlers_cache v pf es b : history v pf es b ->
  (forall l, In (HandlersListed l) es -> l <> [] -> b_handlers b = l) /\
  ((forall l, In (HandlersListed l) es -> l = []) -> b_handlers b = []).
Proof.
  induction 1 as [|es b text H [IH1 IH2]|es b out b' H [IH1 IH2] C|es b out b' H [IH1 IH2] C|es b out b' H [IH1 IH2] C].
  - split; [intros l []|reflexivity].
  - rewrite (proj1 (parse_caches v pf text b)). split; [|intros K; apply IH2; intros l I; apply K, in_snoc; auto].
    intros l I. apply in_snoc in I. destruct I as [I|I]; [auto|discriminate].
  - destruct C as [C ->]. cbn [b_handlers set_handlers]. split.
    + intros l I N. apply in_snoc in I. destruct I as [I|I]; [|congruence]. pose proof (IH1 l I N) as E. unfold cached_keys in C.
      rewrite E in C. destruct l; [congruence|exact C].
    + intros K. apply K, in_snoc. auto.
  - destruct C as [_ ->]. cbn [b_handlers set_tests]. split; [|intros K; apply IH2; intros l I; apply K, in_snoc; auto].
    intros l I. apply in_snoc in I. destruct I as [I|I]; [auto|discriminate].
  - rewrite (proj1 (lookup_caches _ _ _ C)). split; [|intros K; apply IH2; intros l I; apply K, in_snoc; auto].
    intros l I. apply in_snoc in I. destruct I as [I|I]; [auto|discriminate].
Qed.

Lemma tests_cache v pf es b : history v pf es b ->
  (forall l, In (TestsListed l) es -> l <> [] -> b_tests b = l) /\
  ((forall l, In (TestsListed l) es -> l = []) -> b_tests b = []).
Proof.
  induction 1 as [|es b text H [IH1 IH2]|es b out b' H [IH1 IH2] C|es b out b' H [IH1 IH2] C|es b out b' H [IH1 IH2] C].
  - split; [intros l []|reflexivity].
  - rewrite (proj2 (parse_caches v pf text b)). split; [|intros K; apply IH2; intros l I; apply K, in_snoc; auto].
    intros l I. apply in_snoc in I. destruct I as [I|I]; [auto|discriminate].
  - destruct C as [_ ->]. cbn [b_tests set_handlers]. split; [|intros K; apply IH2; intros l I; apply K, in_snoc; auto].
    intros l I. apply in_snoc in I. destruct I as [I|I]; [auto|discriminate].
  - destruct C as [C ->]. cbn [b_tests set_tests]. split.
    + intros l I N. apply in_snoc in I. destruct I as [I|I]; [|congruence]. pose proof (IH1 l I N) as E. unfold cached_keys in C.
      rewrite E in C. destruct l; [congruence|exact C].
    + intros K. apply K, in_snoc. auto.
  - rewrite (proj2 (lookup_caches _ _ _ C)). split; [|intros K; apply IH2; intros l I; apply K, in_snoc; auto].
    intros l I. apply in_snoc in I. destruct I as [I|I]; [auto|discriminate].
Qed.

Lemma listing_ext name p q l : (forall x, p x <-> q x) -> listing name p l -> listing name q l.
Proof. intros E [H1 H2 H3]. split; [exact H1|intros x; rewrite H2; apply E|exact H3]. Qed.

(** The first request that finds something lists exactly the handlers with results,
    once each and by name; every later request gives the same list. *)
Theorem C41_bench_handlers v pf es b out b' : history v pf es b -> handler_tags b out b' ->
  ((forall l, In (HandlersListed l) es -> l = []) -> listing (b_handler_name b) (handler_present b) out) /\
  (forall l, In (HandlersListed l) es -> l <> [] -> out = l).
Proof.
  intros H [C _]. destruct (handlers_cache v pf es b H) as [K1 K2].
  destruct (state_tidy v pf b (history_state _ _ _ _ H)) as [[W T] _]. split.
  - intros E. unfold cached_keys in C. rewrite (K2 E) in C.
    eapply listing_ext; [|exact (sorted_listing _ _ _ W C)]. exact T.
  - intros l I N. unfold cached_keys in C. rewrite (K1 l I N) in C. destruct l; [congruence|exact C].
Qed.
Print Assumptions C41_bench_handlers.

Theorem C41_bench_tests v pf es b out b' : history v pf es b -> test_tags b out b' ->
  ((forall l, In (TestsListed l) es -> l = []) -> listing (b_test_name b) (test_present b) out) /\
  (forall l, In (TestsListed l) es -> l <> [] -> out = l).
Proof.
  intros H [C _]. destruct (tests_cache v pf es b H) as [K1 K2].
  destruct (state_tidy v pf b (history_state _ _ _ _ H)) as [_ [W T]]. split.
  - intros E. unfold cached_keys in C. rewrite (K2 E) in C.
    eapply listing_ext; [|exact (sorted_listing _ _ _ W C)]. exact T.
  - intros l I N. unfold cached_keys in C. rewrite (K1 l I N) in C. destruct l; [congruence|exact C].
Qed.
Print Assumptions C41_bench_tests.

(** ** Warnings *)

Definition tidy_data (w : wdata) : Prop := wf (by_handler w) /\ wf (by_test w).

Section Tidy.
Variable v : world.
Variable source : bytes.
Variable lookup : gomap bytes.

Lemma save_tidy s : tidy_data (p_data s) -> tidy_data (p_data (save v s)).
Proof.
  intros [H1 H2]. unfold save. destruct (p_inst s) as [i|]; [|split; assumption]. destruct (p_cur s) as [c|]; [|split; assumption].
  cbn. destruct (c_live c); cbn; split; try apply wf_put; assumption.
Qed.

Lemma rest_tidy line s s' : parse_rest v source line s = Some s' -> tidy_data (p_data s) -> tidy_data (p_data s').
Proof.
  unfold parse_rest. destruct (p_handler s) as [|hc ht] eqn:Eh; [intros E; injection E as <-; auto|].
  destruct (matches ptn_none line).
  - destruct (PropMerge.none_state s (hc :: ht)) as (s1 & -> & D & _). intros E; injection E as <-. cbn. rewrite D.
    intros [H1 H2]. split; [apply wf_put|]; assumption.
  - destruct (match find ptn_level line with Some f => parse_level (v_casing v) (sub 1 f) | None => None end) as [lv|].
    + intros E; injection E as <-. apply save_tidy.
    + destruct (find ptn_warning line) as [fw|].
      * intros E; injection E as <-. intros H. apply save_tidy in H. destruct H as [H1 H2]. cbn. split; [apply wf_put|]; assumption.
      * destruct (matches ptn_log_line line).
        -- destruct (p_inst s); [|discriminate]. intros E; injection E as <-. auto.
        -- destruct (find ptn_extra line).
           ++ destruct (p_inst s); intros E; injection E as <-; auto.
           ++ destruct (find ptn_instance line); intros E; injection E as <-; [|auto]. apply save_tidy.
Qed.

Lemma loop_tidy lines : forall m s s', parse_loop v source lookup m lines s = Some s' ->
  tidy_data (p_data s) -> tidy_data (p_data s').
Proof.
  induction lines as [|raw lines IH]; intros m s s' E T; cbn [parse_loop] in E.
  - destruct m as [[[[first n] sums] links]|].
    + destruct (parse_rest v source first s) as [s1|] eqn:R; [|discriminate]. injection E as <-.
      apply save_tidy, (rest_tidy _ _ _ R T).
    + injection E as <-. apply save_tidy, T.
  - destruct m as [[[[first n] sums] links]|].
    + destruct (find ptn_summary_line raw); [eapply IH; eassumption|]. destruct (find ptn_summary_link raw); [eapply IH; eassumption|].
      destruct (parse_rest v source raw _) as [s1|] eqn:R; [|discriminate].
      eapply IH; [exact E|]. apply (rest_tidy _ _ _ R). destruct (PropMerge.end_data lookup n sums links s) as (hd & D & _).
      rewrite D. exact T.
    + destruct (prepare raw) as [|c t]; [eapply IH; eassumption|]. destruct (find ptn_warnings_for (c :: t)) as [f|].
      * eapply IH; [exact E|]. destruct (PropMerge.name_data v lookup (sub 1 f) s) as (hd & D & _). rewrite D.
        apply save_tidy in T. exact T.
      * destruct (matches ptn_by_warning (c :: t)); [injection E as <-; apply save_tidy, T|].
        destruct (find ptn_summary_start (c :: t)); [eapply IH; eassumption|].
        destruct (parse_rest v source (c :: t) s) as [s1|] eqn:R; [|discriminate].
        eapply IH; [exact E|apply (rest_tidy _ _ _ R T)].
Qed.
End Tidy.

(** Histories: texts from any sources, requests with their answers. *)
Inductive whistory (v : world) : list event -> wtags -> Prop :=
| wh_new : whistory v [] new_wtags
| wh_parse es w source lookup text w' : whistory v es w -> parse_wtags v source lookup text w w' ->
    whistory v (es ++ [Parsed text]) w'
| wh_handlers es w out w' : whistory v es w -> w_handler_tags w out w' -> whistory v (es ++ [HandlersListed out]) w'
| wh_tests es w out w' : whistory v es w -> w_test_tags w out w' -> whistory v (es ++ [TestsListed out]) w'.

Lemma whistory_tidy v es w : whistory v es w -> tidy_data (wt_data w).
Proof.
  induction 1 as [|es w source lookup text w' H IH P|es w out w' H IH C|es w out w' H IH C].
  - split; constructor.
  - destruct P as (e & P & _). unfold parse_warning_data in P. destruct (scan text) as [lines err].
    destruct (parse_loop v source lookup None lines (start (wt_data w))) as [s|] eqn:L; [|discriminate]. injection P as <- _.
    apply (loop_tidy _ _ _ _ _ _ _ L IH).
  - destruct C as [_ ->]. exact IH.
  - destruct C as [_ ->]. exact IH.
Qed.

Lemma w_caches v es w : whistory v es w ->
  ((forall l, In (HandlersListed l) es -> l <> [] -> wt_handlers w = l) /\
   ((forall l, In (HandlersListed l) es -> l = []) -> wt_handlers w = [])) /\
  ((forall l, In (TestsListed l) es -> l <> [] -> wt_tests w = l) /\
   ((forall l, In (TestsListed l) es -> l = []) -> wt_tests w = [])).
Proof.
  induction 1 as [|es w source lookup text w' H IH P|es w out w' H IH C|es w out w' H IH C].
  - repeat split; intros l [].
  - destruct P as (e & _ & E1 & E2). rewrite E1, E2. destruct IH as [[I1 I2] [I3 I4]].
    repeat split; try (intros l I; apply in_snoc in I; destruct I as [I|I]; [auto|discriminate]);
      intros K; [apply I2|apply I4]; intros l I; apply K, in_snoc; auto.
  - destruct C as [C ->]. cbn [wt_handlers wt_tests]. destruct IH as [[I1 I2] [I3 I4]]. repeat split.
    + intros l I N. apply in_snoc in I. destruct I as [I|I]; [|congruence]. pose proof (I1 l I N) as E. unfold cached_keys in C.
      rewrite E in C. destruct l; [congruence|exact C].
    + intros K. apply K, in_snoc. auto.
    + intros l I; apply in_snoc in I; destruct I as [I|I]; [auto|discriminate].
    + intros K; apply I4; intros l I; apply K, in_snoc; auto.
  - destruct C as [C ->]. cbn [wt_handlers wt_tests]. destruct IH as [[I1 I2] [I3 I4]]. repeat split.
    + intros l I; apply in_snoc in I; destruct I as [I|I]; [auto|discriminate].
    + intros K; apply I2; intros l I; apply K, in_snoc; auto.
    + intros l I N. apply in_snoc in I. destruct I as [I|I]; [|congruence]. pose proof (I3 l I N) as E. unfold cached_keys in C.
      rewrite E in C. destruct l; [congruence|exact C].
    + intros K. apply K, in_snoc. auto.
Qed.

(** Tags that occur in the data. *)
Definition w_handler_present (w : wtags) (h : bytes) : Prop := exists t, get h (by_handler (wt_data w)) = Some t.
Definition w_test_present (w : wtags) (x : bytes) : Prop := exists t, get x (by_test (wt_data w)) = Some t.

Theorem C41_warning_handlers v es w out w' : whistory v es w -> w_handler_tags w out w' ->
  ((forall l, In (HandlersListed l) es -> l = []) -> listing (w_handler_name (wt_data w)) (w_handler_present w) out) /\
  (forall l, In (HandlersListed l) es -> l <> [] -> out = l).
Proof.
  intros H [C _]. destruct (w_caches v es w H) as [[K1 K2] _]. destruct (whistory_tidy v es w H) as [W _]. split.
  - intros E. unfold cached_keys in C. rewrite (K2 E) in C.
    eapply listing_ext; [|exact (sorted_listing _ _ _ W C)]. intros x. symmetry. apply get_keys.
  - intros l I N. unfold cached_keys in C. rewrite (K1 l I N) in C. destruct l; [congruence|exact C].
Qed.
Print Assumptions C41_warning_handlers.

Theorem C41_warning_tests v es w out w' : whistory v es w -> w_test_tags w out w' ->
  ((forall l, In (TestsListed l) es -> l = []) -> listing (w_test_name (wt_data w)) (w_test_present w) out) /\
  (forall l, In (TestsListed l) es -> l <> [] -> out = l).
Proof.
  intros H [C _]. destruct (w_caches v es w H) as [_ [K1 K2]]. destruct (whistory_tidy v es w H) as [_ W]. split.
  - intros E. unfold cached_keys in C. rewrite (K2 E) in C.
    eapply listing_ext; [|exact (sorted_listing _ _ _ W C)]. intros x. symmetry. apply get_keys.
  - intros l I N. unfold cached_keys in C. rewrite (K1 l I N) in C. destruct l; [congruence|exact C].
Qed.
Print Assumptions C41_warning_tests.

(** ** The tests of one source *)

Lemma filter_by_name name f l : by_name name l -> by_name name (filter f l).
Proof.
  induction l as [|a l IH]; intros S; [exact S|].
  assert (S' : by_name name l).
  { intros l1 x l2 y l3 E. apply (S (a :: l1) x l2 y l3). rewrite E. reflexivity. }
  cbn [filter]. destruct (f a); [|apply IH, S']. intros [|z l1] x l2 y l3 E.
  - cbn [app] in E. injection E as -> E. assert (I : In y l).
    { assert (I : In y (filter f l)) by (rewrite E; apply in_app_iff; right; left; reflexivity). apply filter_In in I. apply I. }
    apply in_split in I. destruct I as (u & w & ->). apply (S [] x u y w). reflexivity.
  - cbn [app] in E. injection E as _ E. apply (IH S' l1 x l2 y l3 E).
Qed.

Lemma listing_filter name p q f l : (forall x, f x = true <-> q x) -> listing name p l ->
  listing name (fun x => p x /\ q x) (filter f l).
Proof.
  intros Q [H1 H2 H3]. split; [apply NoDup_filter, H1| |apply filter_by_name, H3].
  intros x. rewrite filter_In, H2, Q. reflexivity.
Qed.

(** The tags that start with the source and a dot; a source that ends with a colon is taken as it is. *)
Definition of_source (source t : bytes) : Prop :=
  (exists s r, source = s ++ B ":" /\ t = source ++ r) \/ ((forall s, source <> s ++ B ":") /\ exists r, t = source ++ B "." ++ r).

Theorem C41_for_source v es w source out w' : whistory v es w -> w_tags_for source w out w' ->
  (forall l, In (TestsListed l) es -> l = []) ->
  listing (w_test_name (wt_data w)) (fun t => w_test_present w t /\ of_source source t) out.
Proof.
  intros H (tests & T & ->) E. pose proof (proj1 (C41_warning_tests v es w tests w' H T) E) as L.
  apply listing_filter; [|exact L]. intros x.
  set (p := match rev source with [] => _ | c :: _ => _ end).
  assert (K : forall b : bool, match has_prefix p x with Some _ => true | None => false end = b -> (b = true <-> exists r, x = p ++ r)).
  { intros b <-. destruct (has_prefix p x) as [r|] eqn:P.
    - apply PropMerge.has_prefix_spec in P. split; [eauto|reflexivity].
    - split; [discriminate|]. intros [r R]. apply PropMerge.has_prefix_spec in R. congruence. }
  rewrite (K _ eq_refl). unfold of_source. clear K.
  destruct (rev source) as [|c rs] eqn:R.
  - assert (X : source = []) by (rewrite <- (rev_involutive source), R; reflexivity). subst p. rewrite X. split.
    + intros [r ->]. right. split; [intros s K; destruct s; discriminate|]. exists r. reflexivity.
    + intros [(s & r & K & _)|(_ & r & ->)]; [destruct s; discriminate|]. exists r. reflexivity.
  - assert (X : source = rev rs ++ [c]) by (rewrite <- (rev_involutive source), R; reflexivity).
    subst p. destruct (Ascii.eqb_spec c (chr 58)) as [->|N].
    + split.
      * intros [r ->]. left. exists (rev rs), r. split; [exact X|reflexivity].
      * intros [(s & r & _ & ->)|(K & _)]; [exists r; reflexivity|]. exfalso. apply (K (rev rs)). exact X.
    + split.
      * intros [r ->]. right. split; [|exists r; apply (eq_sym (app_assoc _ _ _))].
        intros s K. rewrite X in K. apply app_inj_tail in K. destruct K as [_ K]. apply N. exact K.
      * intros [(s & r & K & _)|(_ & r & ->)]; [|exists r; apply app_assoc].
        rewrite X in K. apply app_inj_tail in K. destruct K as [_ K]. contradiction.
Qed.
Print Assumptions C41_for_source.

(** ** Examples *)

Lemma sorted_keys_some {A} name (m : gomap A) : sorted_keys name m (sort_by (on name blt) (keys m)).
Proof. exists (keys m). split; [reflexivity|]. apply sort_by_ok, on_weak, blt_weak. Qed.

(** A later text brings a new handler that the list does not show. *)
Definition text1 : bytes := output_text output0.
Definition text2 : bytes := output_text [Result gap0 (result0 "bare" "Simple" 7 "9" None)].

Example C41_ex : let v := PropMerge.world0 in let b1 := fst (parse_bench v pf0 text1 new_bench) in
  let l := [B "phsym"; B "slog_json"] in
  exists b2 b3, handler_tags b1 l b2 /\ b3 = fst (parse_bench v pf0 text2 b2) /\
    history v pf0 [Parsed text1; HandlersListed l; Parsed text2] b3 /\
    handler_present b3 (B "bare") /\ forall out b4, handler_tags b3 out b4 -> ~ In (B "bare") out.
Proof.
  cbv zeta. set (b1 := fst (parse_bench PropMerge.world0 pf0 text1 new_bench)). set (l := [B "phsym"; B "slog_json"]).
  assert (H : handler_tags b1 l (set_handlers l b1)).
  { split; [|reflexivity]. replace (b_handlers b1) with (@nil bytes) by (vm_compute; reflexivity). cbn [cached_keys].
    replace l with (sort_by (on (b_handler_name b1) blt) (keys (b_by_handler b1))) by (vm_compute; reflexivity).
    apply sorted_keys_some. }
  exists (set_handlers l b1), (fst (parse_bench PropMerge.world0 pf0 text2 (set_handlers l b1))).
  split; [exact H|]. split; [reflexivity|]. split; [|split].
  - change [Parsed text1; HandlersListed l; Parsed text2] with (((([] ++ [Parsed text1]) ++ [HandlersListed l]) ++ [Parsed text2])).
    constructor. eapply h_handlers; [|exact H]. constructor. constructor.
  - exists (B "Bench.Simple"). eexists. vm_compute. reflexivity.
  - intros out b4 [C _]. replace (b_handlers _) with l in C by (vm_compute; reflexivity). cbn [cached_keys l] in C. subst out.
    intros I. vm_compute in I. destruct I as [I|[I|[]]]; discriminate I.
Qed.

(** By name, not by tag: "slog/JSONHandler" after "phsym"; the tags of the warnings. *)
Example C41_warn_ex : let v := PropMerge.world0 in
  match parse_warning_data v (B "Bench") PropMerge.lookup0 (show_list (B "flash") [] PropMerge.report0) no_data with
  | Some (w, _) =>
      w_handler_tags {| wt_data := w; wt_tests := []; wt_handlers := [] |} [B "flash_handler"]
                     {| wt_data := w; wt_tests := []; wt_handlers := [B "flash_handler"] |} /\
      w_test_tags {| wt_data := w; wt_tests := []; wt_handlers := [] |} [B "Bench.Big"; B "Bench.Double"; B "Bench.LevelVar"]
                  {| wt_data := w; wt_tests := [B "Bench.Big"; B "Bench.Double"; B "Bench.LevelVar"]; wt_handlers := [] |}
  | None => False
  end.
Proof.
  cbv zeta. destruct (parse_warning_data _ _ _ _ _) as [[w e]|] eqn:E; [|vm_compute in E; discriminate].
  vm_compute in E. injection E as <- <-. split.
  - split; [|reflexivity]. cbn [cached_keys wt_handlers wt_data].
    match goal with |- sorted_keys ?n ?m ?l => replace l with (sort_by (on n blt) (keys m)) by (vm_compute; reflexivity) end.
    apply sorted_keys_some.
  - split; [|reflexivity]. cbn [cached_keys wt_tests wt_data].
    match goal with |- sorted_keys ?n ?m ?l => replace l with (sort_by (on n blt) (keys m)) by (vm_compute; reflexivity) end.
    apply sorted_keys_some.
Qed.
