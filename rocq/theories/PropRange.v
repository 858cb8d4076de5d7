(** C42: the ranges of common/range.go turn measurements into percentages.
    Exact numbers here; the rounded ones are in PropFloat.v. *)

From Coq Require Import List NArith ZArith QArith Qcanon Bool Lia Lqa Permutation.
From Verif Require Import Num NumProofs Scoring.
Import ListNotations.
Local Open Scope Qc_scope.

(** ** Specification *)

Definition least (vs : list Qc) (x : Qc) : Prop := In x vs /\ forall v, In v vs -> x <= v.
Definition greatest (vs : list Qc) (x : Qc) : Prop := In x vs /\ forall v, In v vs -> v <= x.

(** What a float64 that is not negative may be. *)
Definition measurement (v : Qc) : Prop := 0 <= v /\ v <= Qc_of_Z max_float.

(** A score: a percentage, 100 for the best and 0 for the worst, evenly in between. *)
Record percentage (lo hi : Qc) (f : Qc -> xnum) : Prop := {
  pct_value : forall x, exists s, f x = Fin s;
  pct_bounds : forall x s, f x = Fin s -> lo <= x -> x <= hi -> 0 <= s /\ s <= Qc_of_N 100;
  pct_best : forall x, f x = Fin (Qc_of_N 100) <-> x = lo;
  pct_worst : forall x, f x = Fin 0 <-> x = hi;
  pct_order : forall x y s t, f x = Fin s -> f y = Fin t -> (x < y <-> t < s);
  pct_even : forall x y m s t u, f x = Fin s -> f y = Fin t -> f m = Fin u -> m + m = x + y -> u + u = s + t
}.

(** ** The ranges *)

Notation range := (range exact).
Definition float_range (vs : list Qc) : range := fold_left (fun r v => add_float exact (Fin v) r) vs (new_float_range exact).
Definition uint_range (vs : list N) : range := fold_left (fun r v => add_uint exact v r) vs (new_uint_range exact).

Lemma widen_fin v low high : widen exact (Fin v) (Fin low) (Fin high) =
  FloatRange exact (Fin (if Qc_ltb v low then v else low)) (Fin (if Qc_ltb high v then v else high)).
Proof. unfold widen. cbn. destruct (Qc_ltb v low), (Qc_ltb high v); reflexivity. Qed.

Lemma float_fold vs : forall low high, exists low' high',
  fold_left (fun r v => add_float exact (Fin v) r) vs (FloatRange exact (Fin low) (Fin high)) = FloatRange exact (Fin low') (Fin high') /\
  low' <= low /\ high <= high' /\ (forall v, In v vs -> low' <= v /\ v <= high') /\
  (low' = low \/ In low' vs) /\ (high' = high \/ In high' vs).
Proof.
  induction vs as [|v vs IH]; intros low high; cbn [fold_left].
  - exists low, high. split; [reflexivity|]. split; [apply Qcle_refl|]. split; [apply Qcle_refl|].
    split; [intros v []|]. auto.
  - cbn [add_float]. rewrite widen_fin.
    destruct (IH (if Qc_ltb v low then v else low) (if Qc_ltb high v then v else high)) as (l' & h' & E & H1 & H2 & H3 & H4 & H5).
    exists l', h'. split; [exact E|].
    assert (L : l' <= v /\ l' <= low /\ ((l' = low) \/ In l' (v :: vs))).
    { destruct (Qc_ltb v low) eqn:L; [apply Qc_ltb_spec in L|apply Qc_ltb_false in L].
      - repeat split; [exact H1|apply Qclt_le_weak; eapply Qcle_lt_trans; eassumption|].
        destruct H4 as [ -> |]; right; [left|right; assumption]; reflexivity.
      - repeat split; [eapply Qcle_trans; eassumption|exact H1|]. destruct H4 as [H4|H4]; [auto|right; right; exact H4]. }
    assert (R : v <= h' /\ high <= h' /\ ((h' = high) \/ In h' (v :: vs))).
    { destruct (Qc_ltb high v) eqn:R; [apply Qc_ltb_spec in R|apply Qc_ltb_false in R].
      - repeat split; [exact H2|apply Qclt_le_weak; eapply Qclt_le_trans; eassumption|].
        destruct H5 as [ -> |]; right; [left|right; assumption]; reflexivity.
      - repeat split; [eapply Qcle_trans; eassumption|exact H2|]. destruct H5 as [H5|H5]; [auto|right; right; exact H5]. }
    destruct L as (L1 & L2 & L3), R as (R1 & R2 & R3). split; [exact L2|]. split; [exact R2|]. split; [|split; [exact L3|exact R3]].
    intros x [ <- |I]; [auto|apply H3, I].
Qed.

Lemma float_range_is vs lo hi : Forall measurement vs -> least vs lo -> greatest vs hi ->
  float_range vs = FloatRange exact (Fin lo) (Fin hi).
Proof.
  intros F [L1 L2] [G1 G2]. unfold float_range, new_float_range. cbn [nmax of_N exact]. rewrite of_N_0.
  destruct (float_fold vs (Qc_of_Z max_float) 0) as (l & h & -> & H1 & H2 & H3 & H4 & H5).
  rewrite Forall_forall in F. f_equal; f_equal; apply Qcle_antisym.
  - apply H3, L1.
  - destruct H4 as [ -> |I]; [apply F, L1|apply L2, I].
  - destruct H5 as [ -> |I]; [apply F, G1|apply G2, I].
  - apply H3, G1.
Qed.

Lemma uint_fold vs : forall low high, exists low' high',
  fold_left (fun r v => add_uint exact v r) vs (UintRange exact low high) = UintRange exact low' high' /\
  (low' <= low)%N /\ (high <= high')%N /\ (forall v, In v vs -> (low' <= v /\ v <= high')%N) /\
  (low' = low \/ In low' vs) /\ (high' = high \/ In high' vs).
Proof.
  induction vs as [|v vs IH]; intros low high; cbn [fold_left].
  - exists low, high. split; [reflexivity|]. split; [lia|]. split; [lia|]. split; [intros v []|]. auto.
  - cbn [add_uint].
    destruct (IH (if N.ltb v low then v else low) (if N.ltb high v then v else high)) as (l' & h' & E & H1 & H2 & H3 & H4 & H5).
    exists l', h'. split; [exact E|]. cbn [In].
    destruct (N.ltb_spec v low), (N.ltb_spec high v); (split; [lia|]; split; [lia|]; split;
      [intros x [ <- |I]; [lia|apply H3, I]|]; intuition).
Qed.

Definition least_N (vs : list N) (x : N) : Prop := In x vs /\ forall v, In v vs -> (x <= v)%N.
Definition greatest_N (vs : list N) (x : N) : Prop := In x vs /\ forall v, In v vs -> (v <= x)%N.

Lemma uint_range_is vs lo hi : (forall v, In v vs -> (v < 2 ^ 64)%N) -> least_N vs lo -> greatest_N vs hi ->
  uint_range vs = UintRange exact lo hi.
Proof.
  intros F [L1 L2] [G1 G2]. unfold uint_range, new_uint_range.
  destruct (uint_fold vs max_uint64 0) as (l & h & -> & H1 & H2 & H3 & H4 & H5).
  pose proof (F lo L1) as FL. pose proof (H3 lo L1). pose proof (H3 hi G1).
  assert (M : (lo <= max_uint64)%N) by (unfold max_uint64; lia). f_equal.
  - destruct H4 as [ -> |I]; [lia|specialize (L2 l I); lia].
  - destruct H5 as [ -> |I]; [lia|specialize (G2 h I); lia].
Qed.

Lemma sub64_le a b : (b <= a)%N -> (a < 2 ^ 64)%N -> sub64 a b = (a - b)%N.
Proof.
  intros H1 H2. unfold sub64. rewrite (N.mod_small b) by lia.
  replace (a + (2 ^ 64 - b))%N with ((a - b) + 1 * 2 ^ 64)%N by lia. rewrite N.mod_add by discriminate. apply N.mod_small. lia.
Qed.

(** The value that both kinds of range give. *)
Definition pct (lo hi x : Qc) : Qc := Qc_of_N 100 * (hi - x) / (hi - lo).

Lemma diff_nonzero (lo hi : Qc) : lo < hi -> hi - lo <> 0.
Proof. intros H E. qcl. Qed.

Lemma pct_is_percentage lo hi (f : Qc -> xnum) : lo < hi -> (forall x, f x = Fin (pct lo hi x)) -> percentage lo hi f.
Proof.
  intros H F. pose proof (diff_nonzero lo hi H) as D.
  assert (H100 : (this (Qc_of_N 100) == 100)%Q) by (apply this_Z).
  assert (P : 0 < hi - lo) by (qcl).
  assert (X : forall x s, f x = Fin s -> s * (hi - lo) = Qc_of_N 100 * (hi - x)).
  { intros x s E. rewrite F in E. injection E as <-. unfold pct. field. exact D. }
  assert (U : forall a b, a * (hi - lo) = b * (hi - lo) -> a = b).
  { intros a b E. assert (a * (hi - lo) / (hi - lo) = b * (hi - lo) / (hi - lo)) as K by congruence.
    replace (a * (hi - lo) / (hi - lo)) with a in K by (field; exact D).
    replace (b * (hi - lo) / (hi - lo)) with b in K by (field; exact D). exact K. }
  split.
  - intros x. rewrite F. eauto.
  - intros x s E L R. rewrite F in E. injection E as <-. unfold pct. apply div_bounds; [exact P| |].
    + replace (0 * (hi - lo)) with 0 by ring. qc_hyps. qc_goal. rewrite H100. lra.
    + qc_hyps. qc_goal. rewrite H100.  lra.
  - intros x. split.
    + intros E. apply X in E. qc_in E. rewrite H100 in E. qc_goal. lra.
    + intros ->. rewrite F. f_equal. unfold pct. field. exact D.
  - intros x. split.
    + intros E. apply X in E. qc_in E. rewrite H100 in E. qc_goal. lra.
    + intros ->. rewrite F. f_equal. unfold pct. field. exact D.
  - intros x y s t E1 E2. apply X in E1. apply X in E2. qc_in E1. qc_in E2. rewrite H100 in E1, E2. qc_hyps. split; intros K; qc_hyps; qc_goal.
    + apply Qnot_le_lt. intros L. assert (this s * (this hi - this lo) <= this t * (this hi - this lo))%Q by (apply Qmult_le_compat_r; lra). lra.
    + assert (this t * (this hi - this lo) < this s * (this hi - this lo))%Q by (apply Qmult_lt_compat_r; lra). lra.
  - intros x y m s t u E1 E2 E3 E. apply X in E1. apply X in E2. apply X in E3. apply U.
    replace ((u + u) * (hi - lo)) with (u * (hi - lo) + u * (hi - lo)) by ring. rewrite E3.
    replace ((s + t) * (hi - lo)) with (s * (hi - lo) + t * (hi - lo)) by ring. rewrite E1, E2.
    replace (Qc_of_N 100 * (hi - m) + Qc_of_N 100 * (hi - m)) with (Qc_of_N 100 * (hi + hi - (m + m))) by ring. rewrite E. ring.
Qed.

Lemma ranged_float lo hi x : lo < hi -> ranged_value exact (FloatRange exact (Fin lo) (Fin hi)) (Fin x) = Fin (pct lo hi x).
Proof.
  intros H. pose proof (diff_nonzero lo hi H) as D. unfold ranged_value.
  cbn [range_high range_length exact of_N nmul nsub ndiv xsub xneg xadd xmul].
  change (hi + - lo) with (hi - lo). rewrite xdiv_fin by exact D. reflexivity.
Qed.

Lemma ranged_uint lo hi x : (lo < hi)%N -> (hi < 2 ^ 64)%N ->
  ranged_value exact (UintRange exact lo hi) (Fin x) = Fin (pct (Qc_of_N lo) (Qc_of_N hi) x).
Proof.
  intros H M. unfold ranged_value. cbn [range_high range_length exact of_N nmul nsub ndiv xsub xneg xadd xmul].
  rewrite sub64_le by lia. rewrite of_N_sub by lia. rewrite xdiv_fin by (apply diff_nonzero, of_N_lt, H). reflexivity.
Qed.

(** ** The theorems *)

(** Nanoseconds: after any measurements, added in any order, the range has a
    length exactly when two of them differ, and then it scores as said. *)
Theorem C42_float vs lo hi : Forall measurement vs -> least vs lo -> greatest vs hi ->
  let r := float_range vs in
  (nlt exact (Fin 0) (range_length exact r) = true <-> exists a b, In a vs /\ In b vs /\ a <> b) /\
  ((exists a b, In a vs /\ In b vs /\ a <> b) -> percentage lo hi (fun x => ranged_value exact r (Fin x))) /\
  (lo = hi -> ranged_value exact r (Fin lo) = NaN).
Proof.
  intros F L G. cbv zeta. rewrite (float_range_is vs lo hi F L G).
  assert (S : (exists a b, In a vs /\ In b vs /\ a <> b) <-> lo < hi).
  { destruct L as [L1 L2], G as [G1 G2]. split.
    - intros (a & b & Ia & Ib & N). apply Qcnot_le_lt. intros K. apply N.
      apply Qcle_antisym; (eapply Qcle_trans; [apply G2; assumption|]); (eapply Qcle_trans; [exact K|]); apply L2; assumption.
    - intros K. exists lo, hi. repeat split; auto. apply Qclt_not_eq, K. }
  split; [|split].
  - rewrite S. cbn [range_length exact nsub nlt xsub xneg xadd]. change (hi + - lo) with (hi - lo). rewrite xlt_fin. split; intros H; qcl.
  - intros K. apply S in K. apply pct_is_percentage; [exact K|]. intros x. apply ranged_float, K.
  - intros ->. unfold ranged_value. cbn [range_high range_length exact of_N nmul nsub ndiv xsub xneg xadd xmul].
    replace (hi + - hi) with 0 by ring. rewrite Qcmult_0_r. reflexivity.
Qed.
Print Assumptions C42_float.

(** Bytes and allocations. *)
Theorem C42_uint vs lo hi : (forall v, In v vs -> (v < 2 ^ 64)%N) -> least_N vs lo -> greatest_N vs hi ->
  let r := uint_range vs in
  (nlt exact (Fin 0) (range_length exact r) = true <-> exists a b, In a vs /\ In b vs /\ a <> b) /\
  ((exists a b, In a vs /\ In b vs /\ a <> b) ->
     percentage (Qc_of_N lo) (Qc_of_N hi) (fun x => ranged_value exact r (Fin x))) /\
  (lo = hi -> ranged_value exact r (Fin (Qc_of_N lo)) = NaN).
Proof.
  intros F L G. cbv zeta. rewrite (uint_range_is vs lo hi F L G).
  assert (HL : (lo <= hi)%N) by (apply L, G). assert (HM : (hi < 2 ^ 64)%N) by (apply F, G).
  assert (S : (exists a b, In a vs /\ In b vs /\ a <> b) <-> (lo < hi)%N).
  { destruct L as [L1 L2], G as [G1 G2]. split.
    - intros (a & b & Ia & Ib & N). pose proof (L2 a Ia). pose proof (L2 b Ib). pose proof (G2 a Ia). pose proof (G2 b Ib). lia.
    - intros K. exists lo, hi. repeat split; auto. lia. }
  split; [|split].
  - rewrite S. cbn [range_length exact of_N nlt]. rewrite sub64_le by lia. rewrite xlt_fin, <- of_N_0, of_N_lt. lia.
  - intros K. apply S in K. apply pct_is_percentage; [apply of_N_lt, K|]. intros x. apply ranged_uint; assumption.
  - intros ->. unfold ranged_value. cbn [range_high range_length exact of_N nmul nsub ndiv xsub xneg xadd xmul].
    replace (Qc_of_N hi + - Qc_of_N hi) with 0 by ring. rewrite Qcmult_0_r, sub64_le, N.sub_diag, of_N_0 by lia. reflexivity.
Qed.
Print Assumptions C42_uint.

(** ** Examples *)

Definition q (z : Z) (d : positive) : Qc := Q2Qc (z # d).
Example C42_ex : let vs := [q 25 2; q 10 1; q 20 1] in
  Forall measurement vs /\ least vs (q 10 1) /\ greatest vs (q 20 1) /\
  map (fun v => ranged_value exact (float_range vs) (Fin v)) vs = [Fin (q 75 1); Fin (q 100 1); Fin (q 0 1)].
Proof.
  cbv zeta. split; [|split; [|split]].
  - repeat constructor; (unfold Qcle; vm_compute; discriminate).
  - split; [right; left; reflexivity|]. intros v I. cbn in I. decompose [or] I; subst; try contradiction; unfold Qcle; vm_compute; discriminate.
  - split; [right; right; left; reflexivity|]. intros v I. cbn in I. decompose [or] I; subst; try contradiction; unfold Qcle; vm_compute; discriminate.
  - cbn [map]. repeat f_equal; try (apply Qc_is_canon; vm_compute; reflexivity).
    all: match goal with |- ranged_value _ _ _ = _ => idtac end.
    all: rewrite (float_range_is _ (q 10 1) (q 20 1));
      [rewrite ranged_float by (unfold Qclt; vm_compute; reflexivity); f_equal; apply Qc_is_canon; vm_compute; reflexivity
      |repeat constructor; (unfold Qcle; vm_compute; discriminate)
      |split; [right; left; reflexivity|]; intros v I; cbn in I; decompose [or] I; subst; try contradiction; unfold Qcle; vm_compute; discriminate
      |split; [right; right; left; reflexivity|]; intros v I; cbn in I; decompose [or] I; subst; try contradiction; unfold Qcle; vm_compute; discriminate].
Qed.

Example C42_uint_ex : let vs := [3%N; 1%N; 7%N; 1%N] in
  (forall v, In v vs -> (v < 2 ^ 64)%N) /\ least_N vs 1 /\ greatest_N vs 7 /\
  uint_range vs = UintRange exact 1 7.
Proof.
  cbv zeta. split; [|split; [|split]].
  - intros v I. cbn in I. decompose [or] I; subst; try contradiction; reflexivity.
  - split; [right; left; reflexivity|]. intros v I. cbn in I. lia.
  - split; [right; right; left; reflexivity|]. intros v I. cbn in I. lia.
  - reflexivity.
Qed.
