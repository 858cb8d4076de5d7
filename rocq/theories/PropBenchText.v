(** C60: what the text of a benchmark run says of names and warnings, and Setup. *)

From Coq Require Import Ascii String List NArith QArith Bool Arith Lia Permutation.
From Verif Require PropMerge.
From Verif Require Import Bytes BytesProofs GoSort Regex RegexProofs RegexFirst Replace PropReplace Warnings WarnParser WarnLines SpecReport
  WarnRoundTrip WarnEffects PropReport Bench BenchLines SpecBench PropBench SpecBenchText.
Import ListNotations.
Local Open Scope list_scope.

(** ** The lines *)

Lemma space_iff c : whitespace c <-> is_space c = true.
Proof.
  unfold whitespace. split.
  - intros H. cbn in H. repeat (destruct H as [<-|H]; [reflexivity|]). destruct H.
  - intros H. destruct c as [[] [] [] [] [] [] [] []]; try discriminate H; cbn; tauto.
Qed.

Lemma word_plain s : one_word s -> s <> [] /\ forallb is_nonspace s = true.
Proof.
  intros [N H]. split; [exact N|]. apply forallb_forall. intros c I. unfold is_nonspace.
  destruct (is_space c) eqn:E; [|reflexivity]. exfalso. apply (H c I). apply space_iff, E.
Qed.

Lemma strip_in (w s r : bytes) c : strip_lit (c :: w) s = Some r -> In c s.
Proof. intros E. apply strip_lit_iff in E. subst s. left. reflexivity. Qed.

(** A definition is read as such. *)
Lemma define_read tag name : one_word tag -> one_word name -> ~ In "]"%char name ->
  exists f, find ptn_handler_def (show_line (Define tag name)) = Some f /\ sub 1 f = tag /\ sub 2 f = name.
Proof.
  intros T N K. apply word_plain in T, N. destruct T as [T1 T2], N as [N1 N2].
  unfold ptn_handler_def. cbn [rcat show_line].
  match goal with |- exists f, find (RSeq RBol ?b) ?s = _ /\ _ =>
    assert (BB : best b [] s (Some ([(2%nat, name); (1%nat, tag)], []))) end.
  { change (B "# Handler[" ++ tag ++ B "]=""" ++ name ++ B """")
      with (B "#" ++ B " Handler[" ++ tag ++ B "]" ++ B "=" ++ quote :: name ++ [quote]).
    apply best_lit_app. apply best_run; [apply (rejects_lit is_space "H"%char); reflexivity|].
    change (skip is_space (B " Handler[" ++ tag ++ B "]" ++ B "=" ++ quote :: name ++ [quote]))
      with (B "Handler[" ++ tag ++ B "]" ++ B "=" ++ quote :: name ++ [quote]).
    apply best_lit_app. apply best_greedy1; [exact T1|exact T2| |].
    - apply best_lit_app. apply best_run; [apply (rejects_lit is_space "="%char); reflexivity|].
      change (skip is_space (B "=" ++ quote :: name ++ [quote])) with (B "=" ++ quote :: name ++ [quote]).
      apply best_lit_app. apply best_run.
      { apply rejects_chr. intros c E. destruct c as [[] [] [] [] [] [] [] []]; try discriminate E; reflexivity. }
      change (skip is_space (quote :: name ++ [quote])) with (quote :: name ++ [quote]).
      intros prev. rewrite ms_chr. cbn [m_rest St]. change (is_char quote quote) with true. cbv iota.
      match goal with |- context [ms ?r (adv _ _ _)] =>
        assert (G : best r [(1%nat, tag)] (name ++ [quote]) (Some ([(2%nat, name); (1%nat, tag)], []))) end.
      { apply best_greedy1; [exact N1|exact N2| |].
        - intros p2. rewrite ms_chr. cbn [m_rest St]. change (is_char quote quote) with true. cbv iota.
          exact (best_tail [(2%nat, name); (1%nat, tag)] [] (Some quote)).
        - intros t1 t2 E Nt _. destruct t1 as [|c t1]; [congruence|]. destruct t1; [|destruct t1; discriminate].
          destruct t2; [|discriminate]. intros p2. rewrite ms_chr. reflexivity. }
      exact (G (Some quote)).
    - intros t1 t2 E Nt F. apply best_lit. destruct (strip_lit (B "]") t2) as [r|] eqn:Es; [|reflexivity].
      exfalso. apply strip_in in Es. destruct t1 as [|c t1]; [congruence|]. 
      assert (E' : [chr 61; quote] ++ name ++ [quote] = t1 ++ t2) by (injection E as E0 E1; assumption).
      assert (I : In "]"%char ([chr 61; quote] ++ name ++ [quote])).
      { rewrite E'. apply in_or_app. right. exact Es. }
      rewrite !in_app_iff in I. destruct I as [[I|[I|[]]]|[I|[I|[]]]]; try discriminate I. exact (K I). }
  eexists. split; [apply (find_best _ _ _ BB)|]. split; reflexivity.
Qed.

(** A comment is read as one. *)
Lemma comment_read s : one_line s -> (forall w t, (forall c, In c w -> whitespace c) -> s <> w ++ B "Handler[" ++ t) ->
  find ptn_handler_def (B "# " ++ s) = None /\
  exists f, find ptn_warn_line (B "# " ++ s) = Some f /\ sub 1 f = s.
Proof.
  intros O H. split.
  - unfold ptn_handler_def. cbn [rcat]. erewrite find_best with (o := None); [reflexivity|].
    change (B "# " ++ s) with (B "#" ++ space :: s). apply best_lit_app.
    apply best_run; [apply (rejects_lit is_space "H"%char); reflexivity|]. apply best_lit.
    change (skip is_space (space :: s)) with (skip is_space s).
    destruct (strip_lit _ (skip is_space s)) as [r|] eqn:E; [|reflexivity]. exfalso. apply strip_lit_iff in E.
    apply (H (span is_space s) r).
    + intros c I. apply space_iff. pose proof (span_all is_space s) as A. rewrite forallb_forall in A. apply A, I.
    + rewrite <- E. symmetry. apply span_skip.
  - unfold ptn_warn_line. cbn [rcat].
    assert (BB : best (RSeq (lit "# ") (RSeq (RGroup 1 dots) REmpty)) [] (B "# " ++ s) (Some ([(1%nat, s)], []))).
    { apply best_lit_app. rewrite <- (app_nil_r s) at 1. apply best_greedy; [apply one_line_dot, O|apply best_done|].
      intros t1 t2 E N _. destruct t1; [congruence|discriminate]. }
    eexists. split; [apply (find_best _ _ _ BB)|reflexivity].
Qed.

(** ** The effect of a line *)

Section Text.
Variable v : world.
Variable pf : bytes -> option Q.

Definition effect (l : text_line) (b : bench) : bench :=
  match l with
  | Run _ r => store v (line_says pf r) b
  | Define t n => define_handler t n b
  | Comment s => add_warning s b
  | Noise _ => b
  end.

Lemma define_last tag name : drop_cr (show_line (Define tag name)) = show_line (Define tag name).
Proof.
  apply drop_cr_none. intros t E. cbn [show_line] in E. rewrite !app_assoc in E. apply app_last_inv in E.
  destruct E as [_ E]. discriminate.
Qed.

Lemma comment_last s : (forall t, s <> t ++ [creturn]) -> drop_cr (B "# " ++ s) = B "# " ++ s.
Proof.
  intros H. apply drop_cr_none. intros t E. destruct s as [|c0 s0] eqn:Es.
  - rewrite app_nil_r in E. change (B "# ") with ([chr 35] ++ [space]) in E. apply app_last_inv in E. destruct E as [_ E]. discriminate.
  - rewrite <- Es in *. assert (N : s <> []) by (rewrite Es; discriminate). destruct (exists_last N) as (y & c & K).
    rewrite K, app_assoc in E. apply app_last_inv in E. destruct E as [_ ->]. apply (H y K).
Qed.

Lemma noise_cr s c : (forall t, s <> c :: t) -> forall t, drop_cr s <> c :: t.
Proof.
  intros H t E. destruct (drop_cr_cases s) as [D|D].
  - apply (H t). congruence.
  - apply (H (t ++ [creturn])). rewrite E in D. exact D.
Qed.

Lemma loop_text l ls b : text_ok pf l ->
  bench_loop v pf (drop_cr (show_line l) :: ls) b = bench_loop v pf ls (effect l b).
Proof.
  intros O. destruct l as [g r|tag name|s|s]; cbn [text_ok effect] in *.
  - exact (loop_line v pf (Result g r) ls b O).
  - destruct O as (O1 & O2 & O3). rewrite define_last. cbn [bench_loop].
    destruct (define_read tag name O1 O2 O3) as (f & E & <- & <-). rewrite E. reflexivity.
  - destruct O as (O1 & O2 & O3). cbn [show_line]. rewrite (comment_last s O2). cbn [bench_loop].
    destruct (comment_read s O1 O3) as (-> & f & -> & ->). reflexivity.
  - destruct O as (O1 & O2 & O3). cbn [show_line bench_loop].
    destruct (hash_only (drop_cr s)) as [-> ->]; [apply noise_cr, O3|].
    rewrite other_no_data; [reflexivity|]. apply drop_cr_other, O2.
Qed.

Lemma loop_texts ls : forall b, Forall (text_ok pf) ls ->
  bench_loop v pf (map (fun l => drop_cr (show_line l)) ls) b = (fold_left (fun b l => effect l b) ls b, false).
Proof.
  induction ls as [|l ls IH]; intros b F; [reflexivity|]. cbn [map fold_left].
  rewrite loop_text by exact (Forall_inv F). apply IH, (Forall_inv_tail F).
Qed.

Lemma word_line s : one_word s -> without newline s = true.
Proof.
  intros [_ H]. apply one_line_without. intros I. apply (H newline I). cbn. tauto.
Qed.

Lemma scan_text ls : Forall (text_ok pf) ls -> short_lines (whole_text ls) ->
  scan (whole_text ls) = (map (fun l => drop_cr (show_line l)) ls, false).
Proof.
  intros F S. unfold scan.
  assert (W : Forall (fun l => without newline l = true) (map show_line ls)).
  { apply Forall_map. eapply Forall_impl; [|exact F]. intros [g r|tag name|s|s] O; cbn [show_line text_ok] in *.
    - eapply result_one_line; apply O.
    - destruct O as (O1 & O2 & _). rewrite !without_app, (word_line tag O1), (word_line name O2). reflexivity.
    - assert (X : without newline s = true) by (apply one_line_without, O). rewrite without_app, X. reflexivity.
    - apply one_line_without, O. }
  assert (E : whole_text ls = concat (map (fun l => l ++ [newline]) (map show_line ls)))
    by (unfold whole_text; rewrite map_map; reflexivity).
  rewrite E, raw_lines_concat by exact W. rewrite until_long_short; [rewrite map_map; reflexivity|].
  apply Forall_forall. intros l I. pose proof (proj1 (Forall_forall _ _) W l I) as Wl. apply in_split in I. destruct I as (l1 & l2 & El).
  apply (S (concat (map (fun l => l ++ [newline]) l1)) l ([newline] ++ concat (map (fun l => l ++ [newline]) l2))).
  - rewrite E, El, map_app, concat_app. cbn [map concat]. rewrite <- !app_assoc. reflexivity.
  - apply one_line_without, Wl.
Qed.

(** ** Folding *)

Lemma joined_more a l cs : lines_joined ((a ++ newline :: l) :: cs) = lines_joined (a :: l :: cs).
Proof.
  cbn [lines_joined]. destruct cs; [reflexivity|]. rewrite <- app_assoc. reflexivity.
Qed.

Lemma text_step before s cs : text_known (add_text s before) cs = text_known before (s :: cs).
Proof.
  unfold add_text, text_known. destruct before as [|c t].
  - destruct s; reflexivity.
  - cbn [app]. change (c :: t ++ newline :: s) with ((c :: t) ++ newline :: s). rewrite joined_more. reflexivity.
Qed.

Lemma effects_text ls : forall b, b_warning_text (fold_left (fun b l => effect l b) ls b) = text_known (b_warning_text b) (comments ls).
Proof.
  induction ls as [|l ls IH]; intros b.
  - cbn. unfold text_known. destruct (b_warning_text b); reflexivity.
  - cbn [fold_left]. rewrite IH. destruct l; try reflexivity.
    change (comments (Comment s :: ls)) with (s :: comments ls). cbn [effect add_warning b_warning_text]. apply text_step.
Qed.

Lemma effects_names ls h : forall b, get h (b_handler_names (fold_left (fun b l => effect l b) ls b)) =
  name_known v (get h (b_handler_names b)) ls h.
Proof.
  unfold name_known. induction ls as [|l ls IH]; intros b.
  - cbn. destruct (get h (b_handler_names b)); reflexivity.
  - cbn [fold_left]. rewrite IH. cbn [defined]. destruct (defined ls h) as [n|]; [reflexivity|].
    destruct l as [g r|t n|s|s]; try reflexivity; cbn [effect].
    + cbn [store b_handler_names line_says dl_handler tested_handler existsb]. fold (tested_handler ls h). unfold has_key.
      destruct (get (rs_handler r) (b_handler_names b)) as [n|] eqn:G.
      * destruct (get h (b_handler_names b)) eqn:Gh; [reflexivity|].
        destruct (beq (rs_handler r) h) eqn:E; [|reflexivity]. apply beq_eq in E. congruence.
      * rewrite get_put. destruct (beq (rs_handler r) h) eqn:E; [|reflexivity]. apply beq_eq in E. subst h. rewrite G. reflexivity.
    + cbn [define_handler b_handler_names]. rewrite get_put. destruct (beq t h); [reflexivity|].
      destruct (get h (b_handler_names b)); reflexivity.
Qed.

Lemma effects_cpus ls test : forall b, get (B "Bench." ++ test) (b_cpus (fold_left (fun b l => effect l b) ls b)) =
  match cpus_known ls test with Some n => Some n | None => get (B "Bench." ++ test) (b_cpus b) end.
Proof.
  induction ls as [|l ls IH]; intros b; [reflexivity|].
  cbn [fold_left]. rewrite IH. cbn [cpus_known]. destruct (cpus_known ls test) as [n|]; [reflexivity|].
  destruct l as [g r|t n|s|s]; try reflexivity; cbn [effect store b_cpus line_says dl_test dl_cpus].
  rewrite get_put. change (B "Bench." ++ test) with (bench_tag test). rewrite same_tag. destruct (beq (rs_test r) test); reflexivity.
Qed.

Lemma effects_tests ls test : forall b, get (B "Bench." ++ test) (b_test_names (fold_left (fun b l => effect l b) ls b)) =
  match cpus_known ls test with
  | Some _ => Some (test_name v (B "Bench." ++ test))
  | None => get (B "Bench." ++ test) (b_test_names b)
  end.
Proof.
  induction ls as [|l ls IH]; intros b; [reflexivity|].
  cbn [fold_left]. rewrite IH. cbn [cpus_known]. destruct (cpus_known ls test) as [n|]; [reflexivity|].
  destruct l as [g r|t n|s|s]; try reflexivity; cbn [effect store b_test_names line_says dl_test].
  rewrite get_put. change (B "Bench." ++ test) with (bench_tag test). rewrite same_tag.
  destruct (beq (rs_test r) test) eqn:E; [|reflexivity]. apply beq_eq in E. subst. reflexivity.
Qed.

Lemma effects_lookup ls : forall b, b_lookup (fold_left (fun b l => effect l b) ls b) = b_lookup b.
Proof. induction ls as [|l ls IH]; intros b; [reflexivity|]. cbn [fold_left]. rewrite IH. destruct l; reflexivity. Qed.

Lemma effects_wf ls : forall b, wf (b_handler_names b) -> wf (b_handler_names (fold_left (fun b l => effect l b) ls b)).
Proof.
  induction ls as [|l ls IH]; intros b W; [exact W|]. cbn [fold_left]. apply IH. destruct l; try exact W; cbn.
  - destruct (has_key _ _); [exact W|apply wf_put, W].
  - apply wf_put, W.
Qed.

Lemma parse_text ls b : Forall (text_ok pf) ls -> short_lines (whole_text ls) ->
  parse_bench v pf (whole_text ls) b = (fold_left (fun b l => effect l b) ls b, false).
Proof. intros F S. unfold parse_bench. rewrite (scan_text ls F S), (loop_texts ls b F). reflexivity. Qed.
End Text.

(** ** C60 *)

(** After reading any output: the text of the warnings consists of the comments,
    every handler has the name defined last, or the one it had, or one made from
    its tag, and every test with a result a name made from its tag and the number
    of CPUs of its last result. *)
Theorem C60_text v pf ls b :
  Forall (text_ok pf) ls -> short_lines (whole_text ls) ->
  exists b', parse_bench v pf (whole_text ls) b = (b', false) /\
    b_warning_text b' = text_known (b_warning_text b) (comments ls) /\
    (forall h, get h (b_handler_names b') = name_known v (get h (b_handler_names b)) ls h) /\
    (forall test, get (B "Bench." ++ test) (b_cpus b') =
       match cpus_known ls test with Some n => Some n | None => get (B "Bench." ++ test) (b_cpus b) end) /\
    (forall test, get (B "Bench." ++ test) (b_test_names b') =
       match cpus_known ls test with
       | Some _ => Some (test_name v (B "Bench." ++ test))
       | None => get (B "Bench." ++ test) (b_test_names b)
       end).
Proof.
  intros F S. eexists. split; [apply parse_text; assumption|].
  split; [apply effects_text|]. split; [intros h; apply effects_names|].
  split; intros t; [apply effects_cpus|apply effects_tests].
Qed.
Print Assumptions C60_text.

(** ** Setup *)

Lemma invert_get l : forall m n,
  (forall t, get n (fold_left (fun m e => put (snd e) (fst e) m) l m) = Some t -> In (t, n) l \/ get n m = Some t) /\
  ((exists t, In (t, n) l) \/ (exists t, get n m = Some t) ->
   exists t, get n (fold_left (fun (m : gomap bytes) e => put (snd e) (fst e) m) l m) = Some t).
Proof.
  induction l as [|[t0 n0] l IH]; intros m n; cbn [fold_left].
  - split; [intros t H; right; exact H|]. intros [[t []]|H]. exact H.
  - destruct (IH (put n0 t0 m) n) as [I1 I2]. cbn [fst snd] in *. split.
    + intros t H. apply I1 in H. destruct H as [H|H]; [left; right; exact H|]. rewrite get_put in H.
      destruct (beq n0 n) eqn:E; [|right; exact H]. apply beq_eq in E. injection H as ->. subst n0. left. left. reflexivity.
    + intros H. apply I2. rewrite get_put. destruct (beq n0 n) eqn:E; [right; eauto|].
      destruct H as [[t [H|H]]|H]; [|left; eauto|right; exact H].
      injection H as -> ->. rewrite (proj2 (beq_eq n n) eq_refl) in E. discriminate.
Qed.

(** The tag for a name: one that bears it, if any. *)
Lemma lookup_tag b out b' : wf (b_handler_names b) -> b_lookup b = None -> handler_lookup b out b' ->
  forall n, ((exists t, get t (b_handler_names b) = Some n) -> get (tag_of out n) (b_handler_names b) = Some n) /\
            ((forall t, get t (b_handler_names b) <> Some n) -> tag_of out n = n).
Proof.
  intros W N. unfold handler_lookup. rewrite N. intros ((l & P & E) & _) n.
  pose proof (invert_get l [] n) as [I1 I2]. fold (invert l) in I1, I2. rewrite <- E in I1, I2.
  assert (IN : forall t, In (t, n) l <-> get t (b_handler_names b) = Some n).
  { intros t. rewrite (get_in t n _ W). split; apply Permutation_in; [symmetry|]; exact P. }
  unfold tag_of. destruct (get n out) as [t|] eqn:G.
  - destruct (I1 t eq_refl) as [I|I]; [|discriminate]. apply IN in I. split; [intros _; exact I|].
    intros F. exfalso. apply (F t I).
  - split; [|reflexivity]. intros (t & Ht). apply IN in Ht. destruct I2 as (t' & K); [left; eauto|discriminate].
Qed.

Lemma raw_joined ls : Forall (fun l => without newline l = true) ls -> (forall a b, ls = a ++ [b] -> b <> []) ->
  raw_lines (lines_joined ls) = ls.
Proof.
  induction 1 as [|l ls H F IH]; intros L; [reflexivity|]. destruct ls as [|l2 ls].
  - cbn [lines_joined]. assert (N : l <> []) by (apply (L [] l); reflexivity).
    clear - H N. induction l as [|c l IH]; [congruence|]. apply andb_true_iff in H. destruct H as [Hc H].
    cbn [raw_lines]. apply negb_true_iff in Hc. rewrite Hc. destruct l as [|d l]; [reflexivity|].
    pose proof H as Hd. apply andb_true_iff in Hd. destruct Hd as [Hd _]. apply negb_true_iff in Hd. rewrite Hd.
    rewrite IH by (assumption || discriminate). reflexivity.
  - change (lines_joined (l :: l2 :: ls)) with (l ++ newline :: lines_joined (l2 :: ls)).
    rewrite raw_lines_app by exact H. rewrite IH; [reflexivity|]. intros a b E. apply (L (l :: a) b). rewrite E. reflexivity.
Qed.

(** All lines of a report but the first have text. *)
Lemma report_full name l : exists x xs, report_lines name l = [] :: x :: xs /\ Forall (fun s => s <> []) (x :: xs).
Proof.
  unfold report_lines. do 2 eexists. split; [reflexivity|]. constructor; [discriminate|].
  destruct l as [|r l]; [repeat constructor; discriminate|]. apply Forall_concat, Forall_map, Forall_forall. intros level _.
  unfold level_lines. destruct (filter _ _); [constructor|]. constructor; [discriminate|].
  apply Forall_concat, Forall_map, Forall_forall. intros w _. constructor; [discriminate|].
  apply Forall_concat, Forall_map, Forall_forall. intros i0 _. apply Forall_app. split.
  - unfold text_lines. destruct (i_text i0); [repeat constructor; discriminate|]. destruct (split_on _ _) as [|s0 ss]; [constructor|].
    constructor; [discriminate|]. apply Forall_map, Forall_forall. intros y _. discriminate.
  - unfold record_lines. destruct (i_record i0); [constructor|]. repeat constructor; discriminate.
Qed.

Lemma last_cons {A} (x : A) xs a b : x :: xs = a ++ [b] -> xs <> [] -> exists a', xs = a' ++ [b].
Proof. intros E N. destruct a as [|y a]; [injection E as _ E; congruence|]. injection E as _ E. eauto. Qed.

Lemma reports_end reports : forall a b,
  concat (map (fun x : bytes * list instances => report_lines (fst x) (snd x)) reports) = a ++ [b] -> b <> [].
Proof.
  induction reports as [|[name l] reports IH]; intros a b E; cbn [map concat fst snd] in E; [destruct a; discriminate|].
  destruct (concat (map _ reports)) as [|y ys] eqn:K.
  - rewrite app_nil_r in E. destruct (report_full name l) as (x & xs & R & F). rewrite R in E.
    apply last_cons in E; [|discriminate]. destruct E as (a' & E). rewrite Forall_forall in F. apply F. rewrite E.
    apply in_or_app. right. left. reflexivity.
  - assert (N : y :: ys <> []) by discriminate. destruct (exists_last N) as (a' & b' & E'). apply (IH a' b).
    rewrite E' in E. rewrite app_assoc in E. apply app_last_inv in E. destruct E as [_ ->]. exact E'.
Qed.

(** A report of a manager: each warning once, in the line syntax. *)
Definition report_ok (v : world) (x : bytes * list instances) : Prop :=
  good_handler (fst x) /\ NoDup (map r_name (snd x)) /\ Forall (good_warning (v_casing v)) (snd x).

Section Setup.
Variable v : world.
Hypothesis ok : casing_ok (v_casing v).
Variable lookup : gomap bytes.

Lemma joined_effects source reports cs w :
  Forall (readable_report v lookup) reports -> (forall s, In s cs -> forall t, s <> t ++ [creturn]) -> Forall short cs ->
  cs = concat (map (fun x => report_lines (fst x) (snd x)) reports) ->
  parse_warning_data v source lookup (text_known [] cs) w
  = Some (fold_left (fun w x => report_effect v source lookup (fst x) (snd x) w) reports w, false).
Proof.
  intros G Cr Sh E.
  destruct (loop_reports v source lookup [] ok (or_introl eq_refl) reports (start w) G) as (s' & L & P).
  rewrite <- E in L.
  assert (D : rd [] cs = cs).
  { unfold rd, full. cbn [app]. rewrite <- (map_id cs) at 2. apply map_ext_in. intros s I. apply drop_cr_none, Cr, I. }
  rewrite D in L.
  assert (W : Forall (fun l => without newline l = true) cs).
  { rewrite E. apply Forall_concat, Forall_map. revert G. apply Forall_impl. intros [name l] (G1 & G2 & G3 & G4).
    apply (report_lines_whole (v_casing v) name l G1 G4). }
  assert (T : parse_loop v source lookup None (from_text cs) (start w) = Some s' /\ from_text cs = match reports with [] => [] | _ => tl cs end).
  { destruct reports as [|[name l] reports]; [rewrite E in *; split; [exact L|reflexivity]|].
    cbn [map concat fst snd] in E. destruct (report_full name l) as (x & xs & R & F). rewrite R in E. cbn [app] in E.
    assert (FT : from_text cs = x :: xs ++ concat (map (fun x => report_lines (fst x) (snd x)) reports)).
    { rewrite E. cbn [from_text]. apply Forall_inv in F. destruct x; [congruence|]. reflexivity. }
    split; [|rewrite FT, E; reflexivity]. rewrite FT. rewrite E in L. exact L. }
  destruct T as [T1 T2]. unfold parse_warning_data, scan, text_known.
  assert (WT : Forall (fun l => without newline l = true) (from_text cs) /\ Forall short (from_text cs) /\
               (forall s, In s (from_text cs) -> In s cs)).
  { rewrite T2. destruct reports; [repeat split; try constructor; intros s []|].
    destruct cs; [repeat split; try constructor; intros s []|]. cbn [tl]. split; [exact (Forall_inv_tail W)|].
    split; [exact (Forall_inv_tail Sh)|]. intros s I. right. exact I. }
  destruct WT as (WT1 & WT2 & WT3).
  rewrite raw_joined; [|exact WT1|].
  + rewrite until_long_short by exact WT2.
    replace (map drop_cr (from_text cs)) with (from_text cs).
    * rewrite T1, P. reflexivity.
    * rewrite <- (map_id (from_text cs)) at 1. apply map_ext_in. intros s I. symmetry. apply drop_cr_none, Cr, WT3, I.
  + intros a b Eab. rewrite T2 in Eab. destruct reports as [|x0 reports]; [destruct a; discriminate|].
    destruct cs as [|c0 cs]; [destruct a; discriminate|]. cbn [tl] in Eab. apply (reports_end (x0 :: reports) (c0 :: a) b).
    rewrite <- E, Eab. reflexivity.
Qed.

Lemma effects_read source reports w : Forall (readable_report v lookup) reports ->
  reads_reports v source lookup reports w (fold_left (fun w x => report_effect v source lookup (fst x) (snd x) w) reports w).
Proof.
  intros G. revert w. induction G as [|[name l] reports (G1 & G2 & G3 & G4) _ IH]; intros w; cbn [fold_left].
  - constructor.
  - econstructor; [|apply IH]. apply report_effect_reads; assumption.
Qed.
End Setup.

Lemma printed_inj a b : Forall (fun l => without newline l = true) a -> Forall (fun l => without newline l = true) b ->
  concat (map (fun s => B "# " ++ s ++ [newline]) a) = printed (B "# ") b -> a = b.
Proof.
  intros Fa Fb E. assert (K : forall l, Forall (fun l => without newline l = true) l ->
    raw_lines (printed (B "# ") l) = map (full (B "# ")) l).
  { intros l F. rewrite printed_full. apply raw_lines_concat, Forall_map. revert F. apply Forall_impl. intros s H. exact H. }
  assert (E2 : map (full (B "# ")) a = map (full (B "# ")) b) by (rewrite <- !K by assumption; f_equal; exact E).
  clear - E2. revert b E2. induction a as [|x a IH]; intros [|y b] E; try discriminate; [reflexivity|].
  cbn [map] in E. injection E as E1 E2. apply IH in E2. congruence.
Qed.

Lemma known_words v pf ls : Forall (text_ok pf) ls -> forall h n, name_known v None ls h = Some n -> h <> [].
Proof.
  intros F h n. unfold name_known. destruct (defined ls h) as [n0|] eqn:D.
  - intros _. clear n. revert n0 D. induction F as [|l ls O F IH]; intros n0 D; cbn [defined] in D; [discriminate|].
    destruct (defined ls h) as [n1|]; [exact (IH n1 eq_refl)|]. destruct l as [g r|t n|s|s]; try discriminate D.
    destruct (beq t h) eqn:E; [|discriminate]. apply beq_eq in E. subst h. apply O.
  - destruct (tested_handler ls h) eqn:T; [|discriminate]. intros _. apply existsb_exists in T. destruct T as (l & I & E).
    rewrite Forall_forall in F. specialize (F l I). destruct l; try discriminate E. apply beq_eq in E. subst h.
    destruct F as [_ (F & _)]. apply F.
Qed.

(** Setup, in terms of the effects of lines and reports. *)
Lemma setup_effects v pf ls breps p vreps res :
  casing_ok (v_casing v) -> Forall (text_ok pf) ls -> short_lines (whole_text ls) ->
  concat (map (fun s => B "# " ++ s ++ [newline]) (comments ls)) = reports_text (B "# ") breps ->
  Forall (report_ok v) breps ->
  p = [] \/ p = B "# " -> Forall (report_ok v) vreps -> short_lines (reports_text p vreps) ->
  setup v pf (whole_text ls) (reports_text p vreps) new_bench no_data res ->
  let known := name_known v None ls in
  let effects source lookup := fold_left (fun w x => report_effect v source lookup (fst x) (snd x) w) in
  exists b lookup,
    handler_lookup (fold_left (fun b l => effect v pf l b) ls new_bench) lookup b /\
    res = Some (b, effects (B "Verify") lookup vreps (effects (B "Bench") lookup breps no_data), false) /\
    (forall h, get h (b_handler_names b) = known h) /\
    (forall n, ((exists t, known t = Some n) -> known (tag_of lookup n) = Some n) /\
               ((forall t, known t <> Some n) -> tag_of lookup n = n)) /\
    Forall (readable_report v lookup) breps /\ Forall (readable_report v lookup) vreps.
Proof.
  intros ok F S C RB P RV SV U known effects. unfold setup in U. rewrite (parse_text v pf ls new_bench F S) in U.
  set (b1 := fold_left (fun b l => effect v pf l b) ls new_bench) in U. destruct U as (lookup & b2 & HL & U).
  assert (NM : forall h, get h (b_handler_names b1) = known h) by (intros h; apply effects_names).
  assert (WF : wf (b_handler_names b1)) by (apply effects_wf; constructor).
  assert (LK : b_lookup b1 = None) by apply effects_lookup.
  pose proof (lookup_tag b1 lookup b2 WF LK HL) as LT.
  assert (E2 : b_handler_names b2 = b_handler_names b1 /\ b_warning_text b2 = b_warning_text b1).
  { unfold handler_lookup in HL. rewrite LK in HL. destruct HL as [_ ->]. split; reflexivity. }
  destruct E2 as [E2 E3].
  assert (TG : forall n, n <> [] -> tag_of lookup n <> []).
  { intros n Nn Z. destruct (LT n) as [L1 L2]. unfold tag_of in *. destruct (get n lookup) as [t|] eqn:Gn; [|exact (Nn Z)]. subst t.
    destruct (get [] (b_handler_names b1)) as [x|] eqn:K.
    - rewrite NM in K. apply (known_words v pf ls F [] x K). reflexivity.
    - unfold handler_lookup in HL. rewrite LK in HL. destruct HL as [(l & Pl & El) _].
      destruct (proj1 (invert_get l [] n) []) as [I|I]; [rewrite <- Gn, El; reflexivity| |discriminate].
      apply (Permutation_in _ (Permutation_sym Pl)) in I. apply (get_in [] n _ WF) in I. pose proof (eq_trans (eq_sym K) I) as X. discriminate X. }
  assert (RD : forall reps, Forall (report_ok v) reps -> Forall (readable_report v lookup) reps).
  { intros reps. apply Forall_impl. intros [n l] (G1 & G2 & G3). repeat split; try assumption; try apply G1. apply TG, G1. }
  assert (CW : Forall (fun l => without newline l = true) (comments ls) /\ (forall s, In s (comments ls) -> forall t, s <> t ++ [creturn])
               /\ Forall short (comments ls)).
  { assert (IC : forall s, In s (comments ls) -> In (Comment s) ls).
    { intros s I. unfold comments in I. apply in_concat in I. destruct I as (x & I1 & I2). apply in_map_iff in I1.
      destruct I1 as (l & <- & I1). destruct l; try destruct I2. destruct H; subst; assumption. destruct H. }
    rewrite Forall_forall in F. split; [|split].
    - apply Forall_forall. intros s I. apply IC, F in I. apply one_line_without, I.
    - intros s I. apply IC, F in I. apply I.
    - apply Forall_forall. intros s I. apply IC in I. pose proof (F _ I) as O. apply in_split in I. destruct I as (l1 & l2 & El).
      apply (S (concat (map (fun l => show_line l ++ [newline]) l1) ++ B "# ") s
               ([newline] ++ concat (map (fun l => show_line l ++ [newline]) l2))); [|apply O].
      unfold whole_text. rewrite El, map_app, concat_app. cbn [map concat show_line]. rewrite <- !app_assoc. reflexivity. }
  destruct CW as (CW & CC & CS).
  assert (CE : comments ls = concat (map (fun x => report_lines (fst x) (snd x)) breps)).
  { apply printed_inj; [exact CW| |].
    - apply Forall_concat, Forall_map. revert RB. apply Forall_impl. intros [n l] (G1 & _ & G3).
      apply (report_lines_whole (v_casing v) n l G1 G3).
    - rewrite C. apply (printed_concat (B "# ") (fun x : bytes * list instances => show_list (fst x) (B "# ") (snd x))).
      intros [n l] I. apply show_list_lines. rewrite Forall_forall in RB. apply RB in I. apply I. }
  assert (TX : b_warning_text b2 = text_known [] (comments ls)) by (rewrite E3; apply effects_text).
  rewrite TX in U.
  rewrite (joined_effects v ok lookup (B "Bench") breps (comments ls) no_data (RD _ RB) CC CS CE) in U.
  rewrite parse_reports in U; [|exact ok|exact P|apply RD, RV|exact SV].
  exists b2, lookup. split; [exact HL|]. split; [exact U|]. split; [intros h; rewrite E2; apply NM|]. split; [|split; apply RD; assumption].
  intros n. destruct (LT n) as [L1 L2]. split.
  - intros (t & Ht). rewrite <- NM. apply L1. exists t. rewrite NM. exact Ht.
  - intros H. apply L2. intros t. rewrite NM. apply H.
Qed.

(** Setup on the text of a benchmark run whose comments are reports, and on the
    text of a verification run: it finishes without error, the names are as
    above, a report for a name goes to a tag that bears it, if there is one, and
    otherwise to the name itself, and the warnings are what the reports say. *)
Theorem C60_setup v pf ls breps p vreps res :
  casing_ok (v_casing v) -> Forall (text_ok pf) ls -> short_lines (whole_text ls) ->
  concat (map (fun s => B "# " ++ s ++ [newline]) (comments ls)) = reports_text (B "# ") breps ->
  Forall (report_ok v) breps ->
  p = [] \/ p = B "# " -> Forall (report_ok v) vreps -> short_lines (reports_text p vreps) ->
  setup v pf (whole_text ls) (reports_text p vreps) new_bench no_data res ->
  let known := name_known v None ls in
  exists b lookup w1 w2,
    res = Some (b, w2, false) /\ (forall h, get h (b_handler_names b) = known h) /\
    (forall n, ((exists t, known t = Some n) -> known (tag_of lookup n) = Some n) /\
               ((forall t, known t <> Some n) -> tag_of lookup n = n)) /\
    reads_reports v (B "Bench") lookup breps no_data w1 /\ reads_reports v (B "Verify") lookup vreps w1 w2.
Proof.
  intros ok F S C RB P RV SV U known.
  destruct (setup_effects v pf ls breps p vreps res ok F S C RB P RV SV U) as (b & lookup & _ & E & N & T & R1 & R2).
  exists b, lookup. do 2 eexists. split; [exact E|]. split; [exact N|]. split; [exact T|]. split; apply effects_read; assumption.
Qed.
Print Assumptions C60_setup.

(** Setup always comes to a result. *)
Theorem C60_setup_total v pf t1 t2 b w : exists res, setup v pf t1 t2 b w res.
Proof.
  unfold setup. destruct (parse_bench v pf t1 b) as [b1 []]; [eexists; reflexivity|].
  assert (H : exists lookup b2, handler_lookup b1 lookup b2).
  { unfold handler_lookup. destruct (b_lookup b1) as [m|]; [eauto|]. do 2 eexists. split; [|reflexivity].
    exists (b_handler_names b1). split; reflexivity. }
  destruct H as (lookup & b2 & H).
  destruct (parse_warning_data v (B "Bench") lookup (b_warning_text b2) w) as [[w1 []]|] eqn:E1.
  - eexists. exists lookup, b2. split; [exact H|]. rewrite E1. reflexivity.
  - destruct (parse_warning_data v (B "Verify") lookup t2 w1) as [[w2 e2]|] eqn:E2;
      eexists; exists lookup, b2; (split; [exact H|]); rewrite E1, E2; reflexivity.
  - eexists. exists lookup, b2. split; [exact H|]. rewrite E1. reflexivity.
Qed.
Print Assumptions C60_setup_total.

(** ** Example: two handlers, one with a defined name; the comments of the two
    reports are among the results *)

Definition flash_report : list bytes := report_lines (B "madkins/flash") PropMerge.report0.
Definition sloggy_report : list bytes := report_lines (B "Slog Gy") [].
Definition text0 : list text_line :=
  [Noise (B "goos: linux"); Define (B "Flash") (B "madkins/flash");
   Run gap0 (result0 "Flash" "Simple" 1000 "1234" (Some (B "12.50")));
   Run gap0 (result0 "Flash" "BigGroup" 500 "5000.5" None)] ++
  map Comment flash_report ++
  [Run gap0 (result0 "Sloggy" "Simple" 2000 "88.25" None)] ++ map Comment sloggy_report ++ [Noise (B "PASS")].

Definition comment_test (s : bytes) : bool :=
  negb (existsb (Ascii.eqb newline) s) && beq (drop_cr s) s &&
  match strip_lit (B "Handler[") (skip is_space s) with Some _ => false | None => true end.

Lemma comment_ok pf s : comment_test s = true -> text_ok pf (Comment s).
Proof.
  unfold comment_test. rewrite !andb_true_iff, negb_true_iff. intros [[H1 H2] H3]. split; [|split].
  - intros I. assert (T : existsb (Ascii.eqb newline) s = true) by (apply existsb_exists; exists newline; split; [exact I|reflexivity]).
    congruence.
  - intros t ->. unfold drop_cr in H2. rewrite rev_app_distr in H2. cbn in H2. rewrite rev_involutive in H2. apply beq_eq in H2.
    assert (L := f_equal (@length _) H2). rewrite app_length, Nat.add_comm in L. cbn [length] in L. clear - L.
    revert L. generalize (length t). intros n L. apply (Nat.neq_succ_diag_r n). exact L.
  - intros w t W ->. rewrite skip_app in H3.
    + change (skip is_space (B "Handler[" ++ t)) with (B "Handler[" ++ t) in H3. rewrite strip_app in H3. discriminate.
    + apply forallb_forall. intros c I. apply space_iff, W, I.
Qed.

Lemma text0_ok : Forall (text_ok pf0) text0 /\ short_lines (whole_text text0).
Proof.
  split; [|apply PropMerge.short_text; vm_compute; discriminate].
  assert (N : forall s, existsb (Ascii.eqb newline) s = false -> strip_lit (B "Benchmark") s = None -> strip_lit (B "#") s = None ->
                        text_ok pf0 (Noise s)).
  { intros s H1 H2 H3. split; [|split].
    - intros I. assert (T : existsb (Ascii.eqb newline) s = true) by (apply existsb_exists; exists newline; split; [exact I|reflexivity]).
      congruence.
    - intros t ->. rewrite strip_app in H2. discriminate.
    - intros t ->. discriminate. }
  assert (W : forall h t runs ns mb, name_ok (chr 47) (B h) -> name_ok (chr 45) (B t) -> small runs ->
    decb (B ns) = true -> (exists q, pf0 (B ns) = Some q) ->
    match mb with Some m => decb m = true /\ exists q, pf0 m = Some q | None => True end ->
    text_ok pf0 (Run gap0 (result0 h t runs ns mb))).
  { intros. split; [apply gap0_ok|apply result0_ok; assumption]. }
  assert (C : forall ls, forallb comment_test ls = true -> Forall (text_ok pf0) (map Comment ls)).
  { intros ls H. apply Forall_map, Forall_forall. intros s I. rewrite forallb_forall in H. apply comment_ok, H, I. }
  unfold text0. repeat (apply Forall_app; split).
  - repeat first [apply Forall_nil | apply Forall_cons]; try (apply N; reflexivity).
    + cbn [text_ok]. assert (O : forall s, s <> [] -> forallb is_nonspace s = true -> one_word s).
      { intros s H1 H2. split; [exact H1|]. intros c I K. apply space_iff in K. rewrite forallb_forall in H2. apply H2 in I.
        unfold is_nonspace in I. rewrite K in I. discriminate. }
      split; [apply O; [discriminate|reflexivity]|]. split; [apply O; [discriminate|reflexivity]|].
      intros I. cbn in I. repeat (destruct I as [I|I]; [discriminate I|]). exact I.
    + apply W; [apply name_ok_test; [discriminate|reflexivity]|apply name_ok_test; [discriminate|reflexivity]|
               vm_compute; reflexivity|reflexivity|eexists; reflexivity|split; [reflexivity|eexists; reflexivity]].
    + apply W; [apply name_ok_test; [discriminate|reflexivity]|apply name_ok_test; [discriminate|reflexivity]|
               vm_compute; reflexivity|reflexivity|eexists; reflexivity|exact Logic.I].
  - apply C. vm_compute. reflexivity.
  - apply Forall_cons; [|apply Forall_nil].
    apply W; [apply name_ok_test; [discriminate|reflexivity]|apply name_ok_test; [discriminate|reflexivity]|
              vm_compute; reflexivity|reflexivity|eexists; reflexivity|exact Logic.I].
  - apply C. vm_compute. reflexivity.
  - apply Forall_cons; [apply N; reflexivity|apply Forall_nil].
Qed.

(** The hypotheses of C60_setup hold of it, with a further report of the
    verification suite; the warnings of "madkins/flash" go to the tag "Flash",
    and those of a name nobody bears to the name. *)
Example C60_ex :
  concat (map (fun s => B "# " ++ s ++ [newline]) (comments text0)) =
    reports_text (B "# ") [(B "madkins/flash", PropMerge.report0); (B "Slog Gy", [])] /\
  Forall (report_ok PropMerge.world0) [(B "madkins/flash", PropMerge.report0); (B "Slog Gy", [])] /\
  short_lines (reports_text [] [(B "madkins/flash", PropMerge.report0)]) /\
  map (name_known PropMerge.world0 None text0) [B "Flash"; B "Sloggy"; B "Other"] =
    [Some (B "madkins/flash"); Some (B "Sloggy"); None] /\
  exists b w, setup PropMerge.world0 pf0 (whole_text text0) (reports_text [] [(B "madkins/flash", PropMerge.report0)]) new_bench no_data
                (Some (b, w, false)) /\
    map (fun d => (di_tag d, di_source d)) (instances_in (by_handler w) (B "Flash") 2 (B "Duplicates")) =
      [(B "Double", B "Bench"); (B "Big", B "Bench"); (B "Double", B "Verify"); (B "Big", B "Verify")].
Proof.
  assert (RO : Forall (report_ok PropMerge.world0) [(B "madkins/flash", PropMerge.report0); (B "Slog Gy", [])]).
  { destruct PropMerge.readable0 as (_ & _ & R3 & R4).
    assert (NW : forall c t, is_space c = false -> starts_clean (c :: t)).
    { intros c t H c' t' E K. injection E as <- _. apply space_iff in K. congruence. }
    assert (NL : forall s, existsb (Ascii.eqb newline) s = false -> one_line s).
    { intros s H I. assert (T : existsb (Ascii.eqb newline) s = true) by (apply existsb_exists; exists newline; split; [exact I|reflexivity]).
      congruence. }
assert (GH : forall c t, is_space c = false -> existsb (Ascii.eqb newline) (c :: t) = false -> good_handler (c :: t)).
    { intros c t H1 H2. split; [discriminate|]. split; [apply NL, H2|apply NW, H1]. }
    apply Forall_cons; [|apply Forall_cons; [|apply Forall_nil]].
    - split; [apply GH; reflexivity|]. split; [exact R3|exact R4].
    - split; [apply GH; reflexivity|]. split; constructor. }
  split; [vm_compute; reflexivity|]. split; [exact RO|]. split; [apply PropMerge.short_text; vm_compute; discriminate|].
  split; [vm_compute; reflexivity|].
  assert (E : exists b w1 w2, parse_bench PropMerge.world0 pf0 (whole_text text0) new_bench = (b, false) /\ b_lookup b = None /\
    parse_warning_data PropMerge.world0 (B "Bench") (invert (b_handler_names b)) (b_warning_text b) no_data = Some (w1, false) /\
    parse_warning_data PropMerge.world0 (B "Verify") (invert (b_handler_names b)) (reports_text [] [(B "madkins/flash", PropMerge.report0)]) w1
      = Some (w2, false) /\
    map (fun d => (di_tag d, di_source d)) (instances_in (by_handler w2) (B "Flash") 2 (B "Duplicates")) =
      [(B "Double", B "Bench"); (B "Big", B "Bench"); (B "Double", B "Verify"); (B "Big", B "Verify")]).
  { do 3 eexists. split; [vm_compute; reflexivity|]. split; [vm_compute; reflexivity|]. split; [vm_compute; reflexivity|].
    split; vm_compute; reflexivity. }
  destruct E as (b & w1 & w2 & E1 & E2 & E3 & E4 & E5). exists (set_lookup (invert (b_handler_names b)) b), w2. split; [|exact E5].
  unfold setup. rewrite E1. exists (invert (b_handler_names b)), (set_lookup (invert (b_handler_names b)) b). split.
  - unfold handler_lookup. rewrite E2. split; [|reflexivity]. exists (b_handler_names b). split; reflexivity.
  - cbn [b_warning_text set_lookup]. rewrite E3, E4. reflexivity.
Qed.
