(** The benchmark axis computes the means of SpecScore.v, in exact numbers. *)

From Coq Require Import Ascii String List NArith ZArith QArith Qcanon Bool Lia Lqa Permutation.
From Verif Require Import Bytes BytesProofs GoSort Bench Num NumProofs Scoring PropRange PropAverage SpecScore.
Import ListNotations.
Local Open Scope Qc_scope.

Lemma get_some_in {V} k (v : V) m : get k m = Some v -> In (k, v) m.
Proof.
  induction m as [|[x w] m IH]; cbn [get]; [discriminate|]. destruct (beq x k) eqn:E.
  - intros H. injection H as <-. apply beq_eq in E. subst x. left. reflexivity.
  - intros H. right. apply IH, H.
Qed.

(** ** Lowest and highest *)

Lemma lowest_least vs : vs <> [] -> least vs (lowest vs).
Proof.
  induction vs as [|v vs IH]; [congruence|]. intros _. destruct vs as [|u vs].
  - split; [left; reflexivity|]. intros x [ <- |[]]. apply Qcle_refl.
  - destruct (IH ltac:(discriminate)) as [I1 I2]. change (lowest (v :: u :: vs)) with (if Qc_ltb v (lowest (u :: vs)) then v else lowest (u :: vs)).
    set (m := lowest (u :: vs)) in *. clearbody m. destruct (Qc_ltb v m) eqn:E.
    + apply Qc_ltb_spec in E. split; [left; reflexivity|]. intros x [ <- |K]; [apply Qcle_refl|].
      apply Qclt_le_weak. eapply Qclt_le_trans; [exact E|apply I2, K].
    + apply Qc_ltb_false in E. split; [right; exact I1|]. intros x [ <- |K]; [exact E|apply I2, K].
Qed.

Lemma highest_greatest vs : vs <> [] -> greatest vs (highest vs).
Proof.
  induction vs as [|v vs IH]; [congruence|]. intros _. destruct vs as [|u vs].
  - split; [left; reflexivity|]. intros x [ <- |[]]. apply Qcle_refl.
  - destruct (IH ltac:(discriminate)) as [I1 I2]. change (highest (v :: u :: vs)) with (if Qc_ltb (highest (u :: vs)) v then v else highest (u :: vs)).
    set (m := highest (u :: vs)) in *. clearbody m. destruct (Qc_ltb m v) eqn:E.
    + apply Qc_ltb_spec in E. split; [left; reflexivity|]. intros x [ <- |K]; [apply Qcle_refl|].
      apply Qclt_le_weak. eapply Qcle_lt_trans; [apply I2, K|exact E].
    + apply Qc_ltb_false in E. split; [right; exact I1|]. intros x [ <- |K]; [exact E|apply I2, K].
Qed.

(** ** Means *)

Lemma add_up_perm l l' : Permutation l l' -> add_up l = add_up l'.
Proof.
  induction 1 as [|[x n] l l' P IH|[x n] [y m] l|l l' l'' P IH P' IH']; cbn [add_up].
  - reflexivity.
  - rewrite IH. reflexivity.
  - destruct x as [x|], y as [y|]; try reflexivity; try (destruct (add_up l) as [[s k]|]; reflexivity).
    destruct (add_up l) as [[s k]|]; [|reflexivity]. do 2 f_equal; [ring|lia].
  - congruence.
Qed.
Lemma mean_perm l l' : Permutation l l' -> mean l = mean l'.
Proof. intros P. unfold mean. rewrite (add_up_perm l l' P). reflexivity. Qed.

(** Operations on an Average that stand for a weighted list. *)
Definition stands (o : op) (e : option Qc * N) : Prop := op_value o = of_option (fst e) /\ op_times o = snd e.

Lemma stands_sum os l : Forall2 stands os l ->
  match add_up l with
  | Some (s, m) => total os = Fin s /\ multiplicity os = m
  | None => total os = NaN
  end.
Proof.
  induction 1 as [|o [x n] os l [E1 E2] H IH]; [split; reflexivity|]. cbn [fst snd] in E1, E2. cbn [add_up].
  assert (C1 : total (o :: os) = xadd (part o) (total os)) by reflexivity.
  assert (C2 : multiplicity (o :: os) = (op_times o + multiplicity os)%N) by reflexivity.
  rewrite C1, C2. destruct x as [x|].
  - assert (P : part o = Fin (x * Qc_of_N n)).
    { destruct o as [v|v k]; cbn in *; subst; [f_equal; rewrite of_N_1; ring|reflexivity]. }
    rewrite P. destruct (add_up l) as [[s m]|].
    + destruct IH as [-> ->]. rewrite E2. split; reflexivity.
    + rewrite IH. reflexivity.
  - assert (P : part o = NaN) by (destruct o; cbn in *; subst; reflexivity). rewrite P. reflexivity.
Qed.

Lemma stands_result os l : Forall2 stands os l -> result os = of_option (mean l).
Proof.
  intros H. apply stands_sum in H. rewrite result_is. unfold mean. destruct (add_up l) as [[s m]|].
  - destruct H as [-> ->]. destruct (N.eqb_spec m 0); [reflexivity|]. cbn [of_option]. apply xdiv_fin, of_N_nonzero. lia.
  - rewrite H. destruct (N.eqb _ 0); reflexivity.
Qed.

(** ** The ranges rate *)

Definition xQ (q : Q) : xnum := Fin (Q2Qc q).
Notation measure := (measure exact xQ).

Lemma measure_is r w : measure r w = Fin (quantity r w).
Proof. destruct w; reflexivity. Qed.

(** Records as they come from a text. *)
Definition plausible (r : trec) : Prop :=
  measurement (Q2Qc (t_nanos r)) /\ (t_bytes r < 2 ^ 64)%N /\ (t_allocs r < 2 ^ 64)%N.

Lemma original_same recs w : original_ranges exact xQ recs w = ranges_of exact xQ recs w.
Proof.
  assert (F : forall (l : list (bytes * trec)) lo hi,
    fold_left (fun r e => higher_float exact (xQ (t_nanos (snd e))) r) l (FloatRange exact lo hi) =
    fold_left (fun r e => add_float exact (xQ (t_nanos (snd e))) r) l (FloatRange exact lo hi)).
  { induction l as [|e l IH]; intros lo hi; [reflexivity|]. cbn [fold_left]. apply IH. }
  assert (U : forall (f : trec -> N) (l : list (bytes * trec)) lo hi,
    fold_left (fun r e => higher_uint exact (f (snd e)) r) l (UintRange exact lo hi) =
    fold_left (fun r e => add_uint exact (f (snd e)) r) l (UintRange exact lo hi)).
  { intros f. induction l as [|e l IH]; intros lo hi; [reflexivity|]. cbn [fold_left]. apply IH. }
  destruct w; [apply F|apply U|apply U].
Qed.

(** The ranges of the records of a test, in any order. *)
Definition low_high (recs : list (bytes * trec)) (w : weight) : Qc * Qc :=
  let vs := map (fun e => quantity (snd e) w) recs in (lowest vs, highest vs).

Lemma fold_map {X Y Z} (f : Z -> Y -> Z) (g : X -> Y) l : forall z, fold_left (fun z x => f z (g x)) l z = fold_left f (map g l) z.
Proof. induction l as [|x l IH]; intros z; [reflexivity|]. apply IH. Qed.

Lemma fold_nanos (recs : list (bytes * trec)) :
  fold_left (fun r e => add_float exact (xQ (t_nanos (snd e))) r) recs (new_float_range exact) =
  float_range (map (fun e => quantity (snd e) Nanoseconds) recs).
Proof.
  unfold float_range. generalize (new_float_range exact). induction recs as [|e recs IH]; intros r; [reflexivity|].
  cbn [fold_left map]. apply IH.
Qed.

Lemma least_N_of vs x : least (map Qc_of_N vs) x -> exists n, x = Qc_of_N n /\ least_N vs n.
Proof.
  intros [I H]. apply in_map_iff in I. destruct I as (n & <- & I). exists n. split; [reflexivity|]. split; [exact I|].
  intros v K. apply of_N_le, H, in_map, K.
Qed.
Lemma greatest_N_of vs x : greatest (map Qc_of_N vs) x -> exists n, x = Qc_of_N n /\ greatest_N vs n.
Proof.
  intros [I H]. apply in_map_iff in I. destruct I as (n & <- & I). exists n. split; [reflexivity|]. split; [exact I|].
  intros v K. apply of_N_le, H, in_map, K.
Qed.

(** A range from the lowest to the highest value. *)
Definition spans (r : range) (w : weight) (lo hi : Qc) : Prop :=
  match w with
  | Nanoseconds => r = FloatRange exact (Fin lo) (Fin hi)
  | _ => exists l h, r = UintRange exact l h /\ lo = Qc_of_N l /\ hi = Qc_of_N h /\ (h < 2 ^ 64)%N
  end /\ lo <= hi.

Lemma ranges_span recs order w : Permutation recs order -> recs <> [] -> Forall (fun e => plausible (snd e)) recs ->
  let vs := map (fun e => quantity (snd e) w) recs in spans (ranges_of exact xQ order w) w (lowest vs) (highest vs).
Proof.
  intros P Ne F vs.
  assert (Nv : vs <> []) by (subst vs; destruct recs; [congruence|discriminate]).
  pose proof (lowest_least vs Nv) as L. pose proof (highest_greatest vs Nv) as G.
  assert (LG : lowest vs <= highest vs) by (apply L, G). split; [|exact LG].
  assert (Fo : Forall (fun e => plausible (snd e)) order).
  { rewrite Forall_forall in *. intros e I. apply F. eapply Permutation_in; [symmetry; exact P|exact I]. }
  set (lo := lowest vs) in *. set (hi := highest vs) in *. clearbody lo hi.
  assert (B1 : forall x, In x (map (fun e => quantity (snd e) w) order) <-> In x vs).
  { intros x. subst vs. split; apply Permutation_in; [symmetry|]; apply Permutation_map; exact P. }
  assert (Uint : forall f : trec -> N, (forall r, plausible r -> (f r < 2 ^ 64)%N) ->
    map (fun e : bytes * trec => quantity (snd e) w) order = map Qc_of_N (map (fun e => f (snd e)) order) ->
    exists l h, fold_left (fun r e => add_uint exact (f (snd e)) r) order (new_uint_range exact) = UintRange exact l h /\
                lo = Qc_of_N l /\ hi = Qc_of_N h /\ (h < 2 ^ 64)%N).
  { intros f Hf M. rewrite (fold_map (fun r v => add_uint exact v r) (fun e : bytes * trec => f (snd e))).
    fold (uint_range (map (fun e : bytes * trec => f (snd e)) order)). rewrite M in B1.
    destruct (least_N_of (map (fun e : bytes * trec => f (snd e)) order) lo) as (l & El & Hl);
      [split; [apply B1, L|intros x I; apply L, B1, I]|].
    destruct (greatest_N_of (map (fun e : bytes * trec => f (snd e)) order) hi) as (h & Eh & Hh);
      [split; [apply B1, G|intros x I; apply G, B1, I]|].
    assert (U : forall v, In v (map (fun e : bytes * trec => f (snd e)) order) -> (v < 2 ^ 64)%N).
    { intros v I. apply in_map_iff in I. destruct I as (e & <- & I). rewrite Forall_forall in Fo. apply Hf, (Fo e I). }
    exists l, h. rewrite (uint_range_is _ l h U Hl Hh). repeat split; auto. apply U, Hh. }
  destruct w; cbn [ranges_of].
  - rewrite fold_nanos. apply float_range_is.
    + rewrite Forall_forall in *. intros x I. apply in_map_iff in I. destruct I as (e & <- & I). apply (Fo e I).
    + split; [apply B1, L|]. intros x I. apply L, B1, I.
    + split; [apply B1, G|]. intros x I. apply G, B1, I.
  - apply Uint; [intros r H; apply H|rewrite map_map; reflexivity].
  - apply Uint; [intros r H; apply H|rewrite map_map; reflexivity].
Qed.

(** What the code asks of a range. *)
Definition rating_in (lo hi x : Qc) : option Qc := if Qc_ltb lo hi then Some (pct lo hi x) else None.

Lemma span_rates r w lo hi x : spans r w lo hi ->
  match rating_in lo hi x with
  | Some y => nlt exact (Fin 0) (range_length exact r) = true /\ ranged_value exact r (Fin x) = Fin y
  | None => nlt exact (Fin 0) (range_length exact r) = false
  end.
Proof.
  intros [S LG]. unfold rating_in.
  assert (Uint : (exists l h, r = UintRange exact l h /\ lo = Qc_of_N l /\ hi = Qc_of_N h /\ (h < 2 ^ 64)%N) ->
    match (if Qc_ltb lo hi then Some (pct lo hi x) else None) with
    | Some y => nlt exact (Fin 0) (range_length exact r) = true /\ ranged_value exact r (Fin x) = Fin y
    | None => nlt exact (Fin 0) (range_length exact r) = false
    end).
  { intros (l & h & -> & -> & -> & HU). cbn [range_length nlt exact of_N].
    assert (LH : (l <= h)%N) by (apply of_N_le, LG). rewrite sub64_le by assumption.
    destruct (Qc_ltb (Qc_of_N l) (Qc_of_N h)) eqn:E.
    - apply Qc_ltb_spec, of_N_lt in E. split; [apply xlt_fin; rewrite <- of_N_0; apply of_N_lt; lia|].
      apply (ranged_uint l h _ E HU).
    - apply Qc_ltb_false, of_N_le in E. replace (h - l)%N with 0%N by lia. rewrite of_N_0. reflexivity. }
  destruct w; [|apply Uint, S|apply Uint, S]. subst r.
  cbn [range_length nsub nlt exact xsub xneg xadd]. change (hi + - lo) with (hi - lo). destruct (Qc_ltb lo hi) eqn:E.
  - apply Qc_ltb_spec in E. split; [apply xlt_fin; qcl|]. apply (ranged_float lo hi _ E).
  - apply Qc_ltb_false in E. apply not_true_iff_false. rewrite xlt_fin. intros K. qcl.
Qed.

(** ** One test *)

Section Step.
Variable bw : weight -> N.
Notation score_test := (score_test exact xQ bw).
Notation scored := (scored exact).
Notation scored_test := (scored_test exact).

(** The ratings of a record. *)
Definition span_of := weight -> Qc * Qc.
Definition rated (sp : span_of) (r : trec) (w : weight) : option Qc := rating_in (fst (sp w)) (snd (sp w)) (quantity r w).

Definition test_ops (f : weight -> option Qc) : list op :=
  flat_map (fun w => match f w with Some x => [Times (Fin x) (bw w)] | None => [] end) weight_order.
Definition test_mean (f : weight -> option Qc) : option Qc :=
  mean (flat_map (fun w => match f w with Some x => [(Some x, bw w)] | None => [] end) weight_order).

Lemma test_ops_mean f : result (test_ops f) = of_option (test_mean f).
Proof.
  apply stands_result. unfold test_ops. induction weight_order as [|w ws IH]; [constructor|]. cbn [flat_map].
  destruct (f w); cbn [app]; [constructor; [split; reflexivity|exact IH]|exact IH].
Qed.

Lemma scored_set t a s t' : scored_test (set_test exact t a s) t' = if beq t t' then a else scored_test s t'.
Proof. unfold Scoring.scored_test, set_test. cbn [s_by_test]. rewrite get_put. destruct (beq t t'); reflexivity. Qed.

Lemma scored_sub w a s t' : scored_test (set_sub exact w a s) t' = scored_test s t'.
Proof. reflexivity. Qed.

Lemma score_weight_is rng sp t r s w : spans (rng w) w (fst (sp w)) (snd (sp w)) ->
  score_weight exact xQ bw rng t r s w =
  match rated sp r w with
  | Some x => set_sub exact w (avg_add exact (Fin x) (s_sub exact s w))
                (set_test exact t (avg_add_multiple exact (Fin x) (bw w) (scored_test s t)) s)
  | None => s
  end.
Proof.
  intros S. unfold score_weight. rewrite measure_is. pose proof (span_rates _ _ _ _ (quantity r w) S) as K. unfold rated.
  change (of_N exact 0) with (Fin (Qc_of_N 0)). rewrite of_N_0.
  destruct (rating_in _ _ _).
  - destruct K as [-> ->]. reflexivity.
  - rewrite K. reflexivity.
Qed.

Lemma score_test_is rng sp t r s : (forall w, spans (rng w) w (fst (sp w)) (snd (sp w))) -> scored_test s t = no_average exact ->
  let s' := score_test rng t r s in let f := rated sp r in
  (forall t', scored_test s' t' = if beq t t' then run (test_ops f) else scored_test s t') /\
  (forall w, s_sub exact s' w = match f w with Some x => avg_add exact (Fin x) (s_sub exact s w) | None => s_sub exact s w end) /\
  s_over_tests exact s' = avg_add exact (of_option (test_mean f)) (s_over_tests exact s) /\
  s_over_data exact s' = s_over_data exact s /\ s_scores exact s' = s_scores exact s.
Proof.
  intros S Z. cbv zeta. set (f := rated sp r).
  set (s1 := fold_left (score_weight exact xQ bw rng t r) weight_order s).
  assert (H : (forall t', scored_test s1 t' = if beq t t' then run (test_ops f) else scored_test s t') /\
    (forall w, s_sub exact s1 w = match f w with Some x => avg_add exact (Fin x) (s_sub exact s w) | None => s_sub exact s w end) /\
    s_over_tests exact s1 = s_over_tests exact s /\ s_over_data exact s1 = s_over_data exact s /\ s_scores exact s1 = s_scores exact s).
  { subst s1. cbn [fold_left weight_order]. rewrite !(score_weight_is rng sp) by apply S. fold f.
    unfold test_ops, weight_order. cbn [flat_map].
    assert (K : forall t', beq t t' = true -> scored_test s t' = no_average exact) by (intros t' E; apply beq_eq in E; congruence).
    destruct (f Nanoseconds) as [x1|] eqn:E1, (f AllocBytes) as [x2|] eqn:E2, (f Allocations) as [x3|] eqn:E3; cbn [app];
      (split; [|split; [|split; [reflexivity|split; reflexivity]]]);
      try (intros w; destruct w; cbn [set_sub set_test s_sub same_weight]; rewrite ?E1, ?E2, ?E3; reflexivity);
      intros t'.
    all: repeat first [rewrite scored_sub | rewrite scored_set]; rewrite ?beq_refl, ?Z.
    all: destruct (beq t t') eqn:Et; [|reflexivity].
    all: try reflexivity. rewrite (K t' Et). reflexivity. }
  destruct H as (H1 & H2 & H3 & H4 & H5). unfold Scoring.score_test. fold s1.
  assert (T : forall t', scored_test (set_over_tests exact (avg_add exact (avg_average exact (scored_test s1 t)) (s_over_tests exact s1)) s1) t'
                         = scored_test s1 t') by reflexivity.
  split; [intros t'; rewrite T; apply H1|]. split; [exact H2|]. cbn [set_over_tests s_over_tests s_over_data s_scores].
  rewrite H1, beq_refl, H3, <- test_ops_mean. split; [reflexivity|]. split; assumption.
Qed.

(** ** The original calculation *)

Lemma original_part_is rng sp r c n w : spans (rng w) w (fst (sp w)) (snd (sp w)) -> quantity r w <= snd (sp w) ->
  original_part exact xQ bw rng r (Fin c, n) w =
  match rated sp r w with Some x => (Fin (c + x * Qc_of_N (bw w)), (n + bw w)%N) | None => (Fin c, n) end.
Proof.
  intros S U. unfold original_part. pose proof (span_rates _ _ _ _ (quantity r w) S) as K. unfold rated.
  change (of_N exact 0) with (Fin (Qc_of_N 0)). rewrite of_N_0. destruct (rating_in _ _ _) as [y|] eqn:R.
  - destruct K as [K1 K2]. rewrite K1. cbn [fst snd]. f_equal.
    assert (D : match rng w, w with
                | UintRange _ _ high, Allocations => of_N exact (sub64 high (t_allocs r))
                | UintRange _ _ high, AllocBytes => of_N exact (sub64 high (t_bytes r))
                | r0, _ => nsub exact (range_high exact r0) (measure r w)
                end = nsub exact (range_high exact (rng w)) (Fin (quantity r w))).
    { destruct S as [S _]. destruct w; [rewrite S; reflexivity| |]; destruct S as (l & h & E & E1 & E2 & E3); rewrite E;
        cbn [range_high of_N nsub exact xsub xneg xadd]; rewrite E2 in U; cbn [quantity] in *; apply of_N_le in U;
        rewrite sub64_le, of_N_sub by assumption; reflexivity. }
    rewrite D. unfold ranged_value in K2. unfold rating_in in R. destruct (Qc_ltb _ _) eqn:L; [|discriminate]. injection R as <-.
    apply Qc_ltb_spec in L. pose proof (diff_nonzero _ _ L) as Z.
    assert (H : exists len hi', range_length exact (rng w) = Fin len /\ range_high exact (rng w) = Fin hi' /\ len = snd (sp w) - fst (sp w) /\ hi' = snd (sp w)).
    { destruct S as [S LG]. destruct w.
      - rewrite S. eexists; eexists. repeat split; reflexivity.
      - destruct S as (l & h & E & E1 & E2 & E3). rewrite E. cbn [range_length range_high exact of_N].
        rewrite sub64_le, of_N_sub by (rewrite ?E1, ?E2 in LG; try apply of_N_le in LG; assumption). rewrite <- E1, <- E2.
        eexists; eexists. repeat split; reflexivity.
      - destruct S as (l & h & E & E1 & E2 & E3). rewrite E. cbn [range_length range_high exact of_N].
        rewrite sub64_le, of_N_sub by (rewrite ?E1, ?E2 in LG; try apply of_N_le in LG; assumption). rewrite <- E1, <- E2.
        eexists; eexists. repeat split; reflexivity. }
    destruct H as (len & hi' & -> & -> & El & Eh). subst len hi'. cbn [nadd nmul nsub of_N exact xsub xneg xadd xmul ndiv].
    rewrite xdiv_fin by exact Z. cbn [xadd]. f_equal. f_equal. unfold pct. field. exact Z.
  - rewrite K. reflexivity.
Qed.

Lemma original_test_is rng sp r o : (forall w, spans (rng w) w (fst (sp w)) (snd (sp w))) -> (forall w, quantity r w <= snd (sp w)) ->
  original_test exact xQ bw rng r o =
  Build_original exact (xadd (og_total exact o) (of_option (test_mean (rated sp r)))) (og_tests exact o + 1).
Proof.
  intros S U. unfold original_test. change (of_N exact 0) with (Fin (Qc_of_N 0)). rewrite of_N_0.
  set (f := rated sp r).
  assert (E : exists c n, fold_left (original_part exact xQ bw rng r) [Allocations; AllocBytes; Nanoseconds] (Fin 0, 0%N) = (Fin c, n) /\
              add_up (flat_map (fun w => match f w with Some x => [(Some x, bw w)] | None => [] end) [Nanoseconds; AllocBytes; Allocations]) = Some (c, n)).
  { cbn [fold_left]. rewrite (original_part_is rng sp) by auto. fold f.
    destruct (f Allocations) as [x1|] eqn:E1; rewrite (original_part_is rng sp) by auto; fold f;
      (destruct (f AllocBytes) as [x2|] eqn:E2; rewrite (original_part_is rng sp) by auto; fold f;
        (destruct (f Nanoseconds) as [x3|] eqn:E3;
         (eexists; eexists; split; [reflexivity|cbn [flat_map app]; rewrite ?E1, ?E2, ?E3; cbn [app add_up]; first [reflexivity|do 2 f_equal; [ring|lia]]]))). }
  destruct E as (c & n & E & M). change (Q2Qc 0) with 0 in E.
  match type of E with ?x = _ => match goal with |- context [fold_left ?g ?l ?z] => change (fold_left g l z) with x end end. rewrite E. f_equal. cbn [nadd exact]. f_equal.
  unfold test_mean, mean, weight_order. rewrite M. cbn [ndiv exact of_N]. destruct (N.eqb_spec n 0) as [ -> |Z].
  - assert (C : c = 0).
    { revert M. generalize (flat_map (fun w => match f w with Some x => [(Some x, bw w)] | None => [] end) [Nanoseconds; AllocBytes; Allocations]).
      clear. intros l. revert c. induction l as [|[[x|] m] l IH]; intros c H; cbn [add_up] in H; [injection H as <-; reflexivity| |discriminate].
      destruct (add_up l) as [[s k]|]; [|discriminate]. injection H as <- H. assert (m = 0%N) by lia. assert (k = 0%N) by lia. subst.
      rewrite (IH s eq_refl), of_N_0. ring. }
    subst c. reflexivity.
  - cbn [of_option]. apply xdiv_fin, of_N_nonzero. lia.
Qed.

(** ** The tests of a handler *)

Section Tests.
Variable sel : bytes -> bool.
Variable rngs : bytes -> option ((weight -> range) * (weight -> range)).
Variable sp : bytes -> span_of.

(** Ranges there are, and they contain the values. *)
Definition covered (e : bytes * trec) : Prop := exists rng org, rngs (fst e) = Some (rng, org) /\
  (forall w, spans (rng w) w (fst (sp (fst e) w)) (snd (sp (fst e) w))) /\
  (forall w, spans (org w) w (fst (sp (fst e) w)) (snd (sp (fst e) w))) /\
  (forall w, quantity (snd e) w <= snd (sp (fst e) w)).

Definition ratings (e : bytes * trec) : weight -> option Qc := rated (sp (fst e)) (snd e).
Definition chosen (recs : list (bytes * trec)) : list (bytes * trec) := filter (fun e => sel (fst e)) recs.

Definition sub_ops (w : weight) (recs : list (bytes * trec)) : list op :=
  flat_map (fun e => match ratings e w with Some x => [Once (Fin x)] | None => [] end) recs.
Definition test_means (recs : list (bytes * trec)) : list op := map (fun e => Once (of_option (test_mean (ratings e)))) recs.

Definition go (os : list op) (a : average exact) : average exact :=
  fold_left (fun a o => match o with Once v => avg_add exact v a | Times v n => avg_add_multiple exact v n a end) os a.

Lemma go_app os os' a : go (os ++ os') a = go os' (go os a).
Proof. apply fold_left_app. Qed.

Lemma score_tests_is recs : NoDup (map fst recs) -> Forall (fun e => sel (fst e) = true -> covered e) recs ->
  forall o s, (forall t, In t (map fst recs) -> scored_test s t = no_average exact) ->
  exists o' s', score_tests exact xQ bw sel rngs recs o s = Some (o', s') /\
    (forall t, scored_test s' t = match get t (chosen recs) with Some r => run (test_ops (ratings (t, r))) | None => scored_test s t end) /\
    (forall w, s_sub exact s' w = go (sub_ops w (chosen recs)) (s_sub exact s w)) /\
    s_over_tests exact s' = go (test_means (chosen recs)) (s_over_tests exact s) /\
    s_over_data exact s' = s_over_data exact s /\ s_scores exact s' = s_scores exact s /\
    og_total exact o' = fold_left xadd (map op_value (test_means (chosen recs))) (og_total exact o) /\
    og_tests exact o' = (og_tests exact o + N.of_nat (length (chosen recs)))%N.
Proof.
  induction recs as [|[t r] recs IH]; intros ND F o s Z.
  - exists o, s. cbn. repeat split; try reflexivity. lia.
  - cbn [map fst] in ND. apply NoDup_cons_iff in ND. destruct ND as [Nt ND]. apply Forall_cons_iff in F. destruct F as [F1 F2].
    cbn [score_tests]. unfold chosen. cbn [filter fst] in *. destruct (sel t) eqn:St.
    + destruct (F1 eq_refl) as (rng & org & E & S1 & S2 & U). cbn [fst snd] in *. rewrite E.
      rewrite (original_test_is org (sp t) r o S2 U).
      destruct (score_test_is rng (sp t) t r s S1 (Z t (or_introl eq_refl))) as (H1 & H2 & H3 & H4 & H5).
      set (s1 := Scoring.score_test exact xQ bw rng t r s) in *.
      destruct (IH ND F2 (Build_original exact (xadd (og_total exact o) (of_option (test_mean (rated (sp t) r)))) (og_tests exact o + 1)) s1)
        as (o' & s' & Eq & I1 & I2 & I3 & I4 & I5 & I6 & I7).
      { intros t' I. rewrite H1. destruct (beq t t') eqn:Et; [apply beq_eq in Et; subst; contradiction|]. apply Z. right. exact I. }
      exists o', s'. split; [exact Eq|]. split; [|split; [|split; [|split; [|split; [|split]]]]].
      * intros t'. rewrite I1. cbn [get]. destruct (beq t t') eqn:Et.
        -- apply beq_eq in Et. subst t'. fold (chosen recs). destruct (get t (chosen recs)) as [x|] eqn:G.
           ++ exfalso. apply Nt. apply get_some_in in G. apply filter_In in G. exact (in_map fst _ _ (proj1 G)).
           ++ rewrite H1, beq_refl. reflexivity.
        -- fold (chosen recs). destruct (get t' (chosen recs)); [reflexivity|]. rewrite H1, Et. reflexivity.
      * intros w. rewrite I2, H2. fold (chosen recs). 
        change (sub_ops w ((t, r) :: chosen recs)) with
          (match rated (sp t) r w with Some x => [Once (Fin x)] | None => [] end ++ sub_ops w (chosen recs)).
        destruct (rated (sp t) r w); reflexivity.
      * rewrite I3, H3. reflexivity.
      * rewrite I4. exact H4.
      * rewrite I5. exact H5.
      * rewrite I6. reflexivity.
      * rewrite I7. cbn [og_tests length]. unfold chosen. lia.
    + destruct (IH ND F2 o s) as (o' & s' & Eq & I1 & I2 & I3 & I4 & I5 & I6 & I7); [intros t' I; apply Z; right; exact I|].
      exists o', s'. split; [exact Eq|]. repeat split; auto.
Qed.

(** ** A handler *)

Lemma chosen_perm recs recs' : Permutation recs recs' -> Permutation (chosen recs) (chosen recs').
Proof.
  unfold chosen. induction 1 as [|x l l' P IH|x y l|l l' l'' P IH P' IH']; cbn [filter].
  - constructor.
  - destruct (sel (fst x)); [constructor|]; exact IH.
  - destruct (sel (fst x)), (sel (fst y)); try reflexivity. constructor.
  - etransitivity; eassumption.
Qed.

Definition quantity_mean (recs : list (bytes * trec)) (w : weight) : option Qc := mean (present (map (fun e => ratings e w) recs)).
Definition data_mean (recs : list (bytes * trec)) : option Qc := mean (map (fun w => (quantity_mean recs w, bw w)) weight_order).
Definition tests_mean (recs : list (bytes * trec)) : option Qc := mean (map (fun e => (test_mean (ratings e), 1%N)) recs).

Lemma sub_ops_mean w recs : result (sub_ops w recs) = of_option (quantity_mean recs w).
Proof.
  apply stands_result. unfold sub_ops, present. induction recs as [|e recs IH]; [constructor|]. cbn [flat_map map].
  destruct (ratings e w); cbn [app]; [constructor; [split; reflexivity|exact IH]|exact IH].
Qed.
Lemma test_means_mean recs : result (test_means recs) = of_option (tests_mean recs).
Proof.
  apply stands_result. unfold test_means. induction recs as [|e recs IH]; constructor; [split; reflexivity|exact IH].
Qed.

(** The sum of the test scores. *)
Definition test_total (recs : list (bytes * trec)) : xnum := total (test_means recs).

Lemma fold_total os : forall a, fold_left xadd (map op_value os) a = xadd a (fold_right xadd (Fin 0) (map op_value os)).
Proof.
  induction os as [|o os IH]; intros a; cbn [map fold_left fold_right]; [rewrite xadd_comm, xadd_0; reflexivity|].
  rewrite IH, xadd_assoc. reflexivity.
Qed.
Lemma total_once recs : fold_right xadd (Fin 0) (map op_value (test_means recs)) = test_total recs.
Proof. unfold test_total. induction recs as [|e recs IH]; [reflexivity|]. cbn [test_means map fold_right op_value total part] in *. f_equal. exact IH. Qed.

Lemma score_handler_is recs : NoDup (map fst recs) -> Forall (fun e => sel (fst e) = true -> covered e) recs ->
  exists s, score_handler exact xQ bw sel rngs recs (new_scored exact) = Some s /\
    (forall t, avg_average exact (scored_test s t) =
       match get t (chosen recs) with Some r => of_option (test_mean (ratings (t, r))) | None => NaN end) /\
    (forall t, a_count exact (scored_test s t) =
       match get t (chosen recs) with Some r => multiplicity (test_ops (ratings (t, r))) | None => 0%N end) /\
    s_scores exact s ByTest = of_option (tests_mean (chosen recs)) /\
    s_scores exact s ByData = of_option (data_mean (chosen recs)) /\
    s_scores exact s Default = xdiv (xadd (of_option (data_mean (chosen recs))) (of_option (tests_mean (chosen recs)))) (Fin (Qc_of_N 2)) /\
    s_scores exact s Original = xdiv (value_round exact (test_total (chosen recs))) (Fin (Qc_of_N (N.of_nat (length (chosen recs))))).
Proof.
  intros ND F. destruct (score_tests_is recs ND F (og_reset exact) (new_scored exact)) as (o & s & E & H1 & H2 & H3 & H4 & H5 & H6 & H7);
    [intros t _; reflexivity|].
  unfold score_handler. rewrite E. clear E. eexists. split; [reflexivity|].
  set (rs := chosen recs) in *.
  assert (A1 : forall t, avg_average exact (scored_test s t) = match get t rs with Some r => of_option (test_mean (ratings (t, r))) | None => NaN end).
  { intros t. rewrite H1. destruct (get t rs) as [r|]; [|reflexivity]. rewrite <- test_ops_mean. reflexivity. }
  assert (A2 : avg_average exact (s_over_tests exact s) = of_option (tests_mean rs)).
  { rewrite H3. cbn [new_scored s_over_tests]. rewrite <- test_means_mean. reflexivity. }
  assert (A3 : forall w, avg_average exact (s_sub exact s w) = of_option (quantity_mean rs w)).
  { intros w. rewrite H2. cbn [new_scored s_sub]. rewrite <- sub_ops_mean. reflexivity. }
  assert (A4 : avg_average exact (fold_left (fun a w => avg_add_multiple exact (avg_average exact (s_sub exact s w)) (bw w) a) weight_order (no_average exact))
               = of_option (data_mean rs)).
  { unfold data_mean. rewrite <- (stands_result (map (fun w => Times (avg_average exact (s_sub exact s w)) (bw w)) weight_order)).
    - unfold weight_order. reflexivity.
    - unfold weight_order. cbn [map]. repeat constructor; try apply A3. }
  cbn [fold_left weight_order set_over_data set_score s_over_data s_sub s_scores same_stype] in *. rewrite H4.
  split; [exact A1|]. split; [|split; [|split; [|split]]].
  - intros t. change (a_count exact (scored_test s t) = match get t rs with Some r => multiplicity (test_ops (ratings (t, r))) | None => 0%N end).
    rewrite H1. destruct (get t rs); [rewrite run_is|]; reflexivity.
  - exact A2.
  - exact A4.
  - cbn [new_scored s_over_data]. rewrite <- A4, <- A2. reflexivity.
  - unfold original_score. rewrite H6, H7. cbn [og_reset og_total og_tests of_N exact]. rewrite fold_total, total_once, of_N_0, xadd_0. reflexivity.
Qed.
End Tests.
End Step.
