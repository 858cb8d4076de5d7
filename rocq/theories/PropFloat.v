(** C53: the scores as Go computes them, with float64 rounding at every step. *)

From Coq Require Import ZArith NArith Reals Psatz List Bool.
From Flocq Require Import Core BinarySingleNaN.
From Verif Require Import Num Scoring Float FloatProofs.
Import ListNotations.
Local Open Scope R_scope.

(** [lo] and [hi] have the least and the greatest value of a list. *)
Definition least_val (vs : list f64) (lo : f64) : Prop :=
  (exists v, In v vs /\ val v = val lo) /\ forall v, In v vs -> val lo <= val v.
Definition greatest_val (vs : list f64) (hi : f64) : Prop :=
  (exists v, In v vs /\ val v = val hi) /\ forall v, In v vs -> val v <= val hi.

(** A measurement: not NaN, not infinite, not negative. *)
Definition measured (v : f64) : Prop := fin v /\ 0 <= val v.

Definition float_range (vs : list f64) : range float64 :=
  fold_left (fun r v => add_float float64 v r) vs (new_float_range float64).
Definition uint_range (vs : list N) : range float64 :=
  fold_left (fun r v => add_uint float64 v r) vs (new_uint_range float64).

(** The percentage in exact arithmetic. *)
Definition percent (lo hi x : R) : R := 100 * (hi - x) / (hi - lo).

(** ** Ranges *)

Lemma widened vs : forall lo hi, fin lo -> fin hi -> Forall measured vs ->
  exists lo' hi', fold_left (fun r v => add_float float64 v r) vs (FloatRange float64 lo hi) = FloatRange float64 lo' hi' /\
    fin lo' /\ fin hi' /\
    (val lo' = val lo \/ exists v, In v vs /\ val v = val lo') /\ val lo' <= val lo /\ (forall v, In v vs -> val lo' <= val v) /\
    (val hi' = val hi \/ exists v, In v vs /\ val v = val hi') /\ val hi <= val hi' /\ (forall v, In v vs -> val v <= val hi').
Proof.
  induction vs as [|v vs IH]; intros lo hi L H M.
  - exists lo, hi. cbn [fold_left In]. split; [reflexivity|]. repeat split; auto; try lra; intros ? [].
  - inversion M as [|? ? [V V0] M']; subst. cbn [fold_left add_float]. unfold widen. cbn [nlt float64].
    set (lo1 := if f64_lt v lo then v else lo). set (hi1 := if f64_lt hi v then v else hi).
    assert (L1 : fin lo1) by (subst lo1; destruct (f64_lt v lo); auto).
    assert (H1 : fin hi1) by (subst hi1; destruct (f64_lt hi v); auto).
    assert (A : val lo1 <= val v /\ val lo1 <= val lo /\ (val lo1 = val lo \/ val lo1 = val v)).
    { subst lo1. destruct (f64_lt v lo) eqn:E.
      - apply lt_val in E; auto. repeat split; try lra; auto.
      - assert (~ val v < val lo) by (intros K; apply lt_val in K; auto; congruence). repeat split; try lra; auto. }
    assert (C : val v <= val hi1 /\ val hi <= val hi1 /\ (val hi1 = val hi \/ val hi1 = val v)).
    { subst hi1. destruct (f64_lt hi v) eqn:E.
      - apply lt_val in E; auto. repeat split; try lra; auto.
      - assert (~ val hi < val v) by (intros K; apply lt_val in K; auto; congruence). repeat split; try lra; auto. }
    destruct (IH lo1 hi1 L1 H1 M') as (lo' & hi' & E & FL & FH & W1 & W2 & W3 & W4 & W5 & W6).
    exists lo', hi'. split; [exact E|]. repeat split; auto.
    + destruct W1 as [W1|(x & X & W1)]; [|right; exists x; split; [now right|auto]].
      destruct A as (_ & _ & [A|A]); [left; lra|]. right; exists v. split; [now left|lra].
    + lra.
    + intros x [<-|X]; [lra|auto].
    + destruct W4 as [W4|(x & X & W4)]; [|right; exists x; split; [now right|auto]].
      destruct C as (_ & _ & [C|C]); [left; lra|]. right; exists v. split; [now left|lra].
    + lra.
    + intros x [<-|X]; [lra|auto].
Qed.

Lemma range_found vs : Forall measured vs -> vs <> [] ->
  exists lo hi, float_range vs = FloatRange float64 lo hi /\ measured lo /\ measured hi /\ least_val vs lo /\ greatest_val vs hi.
Proof.
  intros M N0. destruct (of_N_val 0%N) as [F0 V0]; [discriminate|].
  destruct (widened vs f64_max (f64_of_N 0) fin_max F0 M) as (lo & hi & E & FL & FH & W1 & W2 & W3 & W4 & W5 & W6).
  change (IZR (Z.of_N 0)) with 0 in V0.
  destruct vs as [|x vs]; [congruence|].
  rewrite Forall_forall in M.
  assert (X : measured x) by (apply M; now left).
  exists lo, hi. split; [exact E|].
  assert (LL : least_val (x :: vs) lo).
  { split; [|exact W3]. destruct W1 as [W1|W1]; [|exact W1].
    exists x. split; [now left|]. apply Rle_antisym; [|apply W3; now left]. rewrite W1. apply max_val. apply X. }
  assert (GG : greatest_val (x :: vs) hi).
  { split; [|exact W6]. destruct W4 as [W4|W4]; [|exact W4].
    exists x. split; [now left|]. apply Rle_antisym; [apply W6; now left|]. rewrite W4, V0. apply X. }
  split; [|split; [|split; [exact LL|exact GG]]].
  - split; [exact FL|]. destruct LL as [(y & Y & <-) _]. apply M; auto.
  - split; [exact FH|]. lra.
Qed.

(** ** The quotient *)

Section Quotient.
Variables d D : f64.
Hypothesis FD : fin D.
Hypothesis Fd : fin d.
Hypothesis d0 : 0 <= val d.
Hypothesis dD : val d <= val D.
Hypothesis D0 : 0 < val D.
Hypothesis small : 100 * val D <= bpow radix2 1022.

Notation r := (f64_div (f64_mul (f64_of_N 100) d) D).

Lemma big_bpow : 202 <= bpow radix2 1023.
Proof. apply Rle_trans with (bpow radix2 8); [simpl; lra|apply bpow_le; discriminate]. Qed.

Lemma hundred : fin (f64_of_N 100) /\ val (f64_of_N 100) = 100.
Proof. apply (of_N_val 100). discriminate. Qed.

Lemma double_bpow : bpow radix2 1023 = 2 * bpow radix2 1022.
Proof. change 1023%Z with (1 + 1022)%Z. rewrite bpow_plus. reflexivity. Qed.

Lemma times_val : fin (f64_mul (f64_of_N 100) d) /\ val (f64_mul (f64_of_N 100) d) = rnd (100 * val d).
Proof.
  destruct hundred as [F V]. rewrite <- V. apply mul_val; auto.
  rewrite V, Rabs_pos_eq by lra. assert (0 < bpow radix2 1022) by apply bpow_gt_0. rewrite double_bpow. lra.
Qed.

Lemma times_near x : exists e, Rabs e <= u /\ rnd (100 * val x) = 100 * val x * (1 + e).
Proof. apply rnd_grid. apply (grid_times 100). apply grid_val. Qed.

Lemma e_bounds e : Rabs e <= u -> - u <= e <= u.
Proof. unfold Rabs. destruct (Rcase_abs e); lra. Qed.

Lemma quotient_bound : 0 <= rnd (100 * val d) / val D <= 100 + 100 * u.
Proof.
  destruct (times_near D) as (e & E & V). apply e_bounds in E.
  assert (A : 0 <= rnd (100 * val d)) by (apply rnd_pos; lra).
  assert (C : rnd (100 * val d) <= rnd (100 * val D)) by (apply rnd_le; lra).
  rewrite V in C.
  assert (I : 0 < / val D) by now apply Rinv_0_lt_compat.
  assert (Y : val D * / val D = 1) by (apply Rinv_r; lra).
  split; unfold Rdiv; [nra|].
  apply Rle_trans with (100 * val D * (1 + e) * / val D); [apply Rmult_le_compat_r; lra|].
  replace (100 * val D * (1 + e) * / val D) with (100 * (1 + e) * (val D * / val D)) by ring. rewrite Y. lra.
Qed.

Lemma quotient_val : fin r /\ val r = rnd (rnd (100 * val d) / val D).
Proof.
  destruct times_val as [F V]. destruct quotient_bound as [Q0 Q1].
  rewrite <- V. apply div_val; [exact F|lra|]. rewrite V, Rabs_pos_eq by exact Q0.
  assert (W := u_small). assert (G := big_bpow). lra.
Qed.

Lemma ulp_eq : bpow radix2 (-46) = 128 * u.
Proof. unfold u. change (-46)%Z with (7 + -53)%Z. rewrite bpow_plus. reflexivity. Qed.

Lemma hundred_more s : (Z.abs s <= 1)%Z -> rnd (100 + IZR s * bpow radix2 (-46)) = 100 + IZR s * bpow radix2 (-46).
Proof.
  intros S. assert (E : 100 + IZR s * bpow radix2 (-46) = F2R (Float radix2 (100 * 70368744177664 + s) (-46))).
  { unfold F2R; cbn [Fnum Fexp]. rewrite plus_IZR, mult_IZR.
    assert (K : IZR 70368744177664 * bpow radix2 (-46) = 1).
    { change (IZR 70368744177664) with (bpow radix2 46). rewrite <- bpow_plus. reflexivity. }
    rewrite Rmult_plus_distr_r, Rmult_assoc, K. ring. }
  rewrite E. apply rnd_bits; [|discriminate]. change (2 ^ 53)%Z with 9007199254740992%Z. lia.
Qed.

Lemma quotient_range : 0 <= val r <= 100 + bpow radix2 (-46).
Proof.
  destruct quotient_val as [_ V]. destruct quotient_bound as [Q0 Q1]. rewrite V. split; [now apply rnd_pos|].
  replace (100 + bpow radix2 (-46)) with (100 + IZR 1 * bpow radix2 (-46)) by (simpl; ring).
  rewrite <- (hundred_more 1) by discriminate. apply rnd_le.
  rewrite ulp_eq. assert (W := u_pos). lra.
Qed.

Lemma quotient_top : val d = val D -> 100 - bpow radix2 (-46) <= val r.
Proof.
  intros S. destruct quotient_val as [_ V]. rewrite V, S.
  replace (100 - bpow radix2 (-46)) with (100 + IZR (-1) * bpow radix2 (-46)) by (simpl; ring).
  rewrite <- (hundred_more (-1)) by discriminate. apply rnd_le.
  destruct (times_near D) as (e & E & W). apply e_bounds in E. rewrite W.
  replace (100 * val D * (1 + e) / val D) with (100 * (1 + e)) by (field; lra).
  rewrite ulp_eq. assert (P := u_pos). lra.
Qed.

(** Distance from an exact percentage of which d and D are the rounded parts. *)
Lemma quotient_near a A e1 e2 : Rabs e1 <= u -> Rabs e2 <= u -> val d = a * (1 + e1) -> val D = A * (1 + e2) ->
  0 <= a <= A -> Rabs (val r - 100 * a / A) <= bpow radix2 (-44).
Proof.
  intros E1 E2 Va VA [a0 aA]. destruct quotient_val as [_ V].
  destruct (times_near d) as (e3 & E3 & V3).
  destruct (rnd_any (rnd (100 * val d) / val D)) as (e4 & h & E4 & H & V4).
  assert (P := u_pos). assert (S := u_small).
  assert (A0 : 0 < A).
  { destruct (Rle_lt_or_eq_dec 0 A) as [K|K]; [lra|exact K|]. rewrite <- K, Rmult_0_l in VA. lra. }
  assert (B2 := e_bounds _ E2).
  rewrite V, V4, V3, Va, VA.
  set (p := 100 * a / A).
  assert (Pp : 0 <= p <= 100).
  { subst p. split; unfold Rdiv.
    - apply Rmult_le_pos; [lra|]. apply Rlt_le. now apply Rinv_0_lt_compat.
    - apply Rmult_le_reg_r with A; [exact A0|]. rewrite Rmult_assoc, Rinv_l by lra. lra. }
  assert (N1 := near_times u u e1 e3 E1 E3).
  assert (N2 := near_inv u e2 E2 ltac:(lra)).
  set (f1 := (1 + e1) * (1 + e3) - 1) in *. set (f2 := / (1 + e2) - 1) in *.
  assert (U2 : u * u <= u * / 1000) by (apply Rmult_le_compat_l; lra).
  assert (N1' : Rabs f1 <= u * (2001 / 1000)) by lra.
  assert (N2' : Rabs f2 <= u * (1002 / 1000)) by lra.
  assert (N3 := near_times _ _ f1 f2 N1' N2').
  set (f3 := (1 + f1) * (1 + f2) - 1) in *.
  assert (N3' : Rabs f3 <= u * (3006 / 1000)) by lra.
  assert (N4 := near_times _ _ f3 e4 N3' E4).
  set (f4 := (1 + f3) * (1 + e4) - 1) in *.
  assert (N4' : Rabs f4 <= u * (4010 / 1000)) by lra.
  assert (E : 100 * (a * (1 + e1)) * (1 + e3) / (A * (1 + e2)) * (1 + e4) + h - p = p * f4 + h).
  { subst p f4 f3 f2 f1. field. split; lra. }
  rewrite E.
  assert (T : bpow radix2 (-44) = 512 * u).
  { unfold u. change (-44)%Z with (9 + -53)%Z. rewrite bpow_plus. reflexivity. }
  assert (G : bpow radix2 (-1075) <= u) by (apply bpow_le; discriminate).
  eapply Rle_trans; [apply Rabs_triang|]. rewrite Rabs_mult, (Rabs_pos_eq p) by lra.
  assert (0 <= Rabs f4) by apply Rabs_pos.
  assert (p * Rabs f4 <= 100 * (u * (4010 / 1000))) by (apply Rmult_le_compat; lra).
  rewrite T. lra.
Qed.
End Quotient.

Lemma quotient_monotone d d' D : fin D -> fin d -> fin d' -> 0 <= val d <= val d' -> val d' <= val D -> 0 < val D ->
  100 * val D <= bpow radix2 1022 ->
  val (f64_div (f64_mul (f64_of_N 100) d) D) <= val (f64_div (f64_mul (f64_of_N 100) d') D).
Proof.
  intros FD F F' H K P S.
  destruct (quotient_val d D) as [_ ->]; auto; try lra. destruct (quotient_val d' D) as [_ ->]; auto; try lra.
  apply rnd_le. unfold Rdiv. apply Rmult_le_compat_r; [apply Rlt_le; now apply Rinv_0_lt_compat|]. apply rnd_le. lra.
Qed.

Lemma quotient_zero d D : fin D -> fin d -> val d = 0 -> 0 < val D -> 100 * val D <= bpow radix2 1022 ->
  val (f64_div (f64_mul (f64_of_N 100) d) D) = 0.
Proof.
  intros FD F Z P S. destruct (quotient_val d D) as [_ ->]; auto; try lra.
  rewrite Z, Rmult_0_r, rnd_0. unfold Rdiv. rewrite Rmult_0_l. apply rnd_0.
Qed.

(** ** The theorems *)

(** What a rounded percentage scale must satisfy: finite, from 0 at the high
    value to 100 up to one unit in the last place at the low value, never
    increasing, and close to the exact percentage. *)
Definition percentage_scale (lo hi : R) (points : list R) (score : R -> f64 -> Prop) : Prop :=
  (forall x r, In x points -> score x r ->
     fin r /\ 0 <= val r <= 100 + bpow radix2 (-46) /\
     (x = hi -> val r = 0) /\ (x = lo -> 100 - bpow radix2 (-46) <= val r) /\
     Rabs (val r - percent lo hi x) <= bpow radix2 (-44)) /\
  (forall x y r s, In x points -> In y points -> x <= y -> score x r -> score y s -> val s <= val r).

Section Scale.
Variables lo hi : f64.
Hypothesis L : fin lo.
Hypothesis H : fin hi.
Hypothesis lohi : val lo < val hi.
Hypothesis small : 100 * (val hi - val lo) <= bpow radix2 1020.

Lemma small_bounds : bpow radix2 1022 = 4 * bpow radix2 1020 /\ bpow radix2 1023 = 8 * bpow radix2 1020 /\ 0 < bpow radix2 1020.
Proof.
  split; [|split]; [change 1022%Z with (2 + 1020)%Z|change 1023%Z with (3 + 1020)%Z|apply bpow_gt_0]; rewrite bpow_plus; reflexivity.
Qed.

Lemma diff_val x : fin x -> val lo <= val x <= val hi ->
  fin (f64_sub hi x) /\ val (f64_sub hi x) = rnd (val hi - val x) /\ 0 <= val (f64_sub hi x) /\
  exists e, Rabs e <= u /\ val (f64_sub hi x) = (val hi - val x) * (1 + e).
Proof.
  intros F K. destruct small_bounds as (S1 & S2 & S3).
  destruct (sub_val hi x H F) as [G V].
  { rewrite Rabs_pos_eq by lra. rewrite S2. lra. }
  split; [exact G|]. split; [exact V|]. split; [rewrite V; apply rnd_pos; lra|].
  rewrite V. apply rnd_grid. apply grid_minus; apply grid_val.
Qed.

Lemma length_pos : 0 < val (f64_sub hi lo) /\ 100 * val (f64_sub hi lo) <= bpow radix2 1022.
Proof.
  destruct (diff_val lo L) as (_ & _ & _ & e & E & V); [lra|]. apply e_bounds in E. assert (S := u_small). assert (P := u_pos).
  destruct small_bounds as (S1 & S2 & S3). rewrite V, S1. split; nra.
Qed.

Lemma scale (vs : list f64) : (forall v, In v vs -> fin v /\ val lo <= val v <= val hi) ->
  percentage_scale (val lo) (val hi) (map val vs)
    (fun x r => exists v, In v vs /\ val v = x /\ r = ranged_value float64 (FloatRange float64 lo hi) v).
Proof.
  intros M. destruct length_pos as [P S]. destruct (diff_val lo L) as (FD & VD & _ & e2 & E2 & R2); [lra|].
  assert (DD : forall v, In v vs -> fin (f64_sub hi v) /\ 0 <= val (f64_sub hi v) <= val (f64_sub hi lo)).
  { intros v I. destruct (M v I) as [F K]. destruct (diff_val v F K) as (G & V & Z & _). split; [exact G|]. split; [exact Z|].
    rewrite V, VD. apply rnd_le. lra. }
  split.
  - intros x r I (v & Iv & <- & ->). destruct (DD v Iv) as [G [Z K]]. destruct (M v Iv) as [F Kv].
    unfold ranged_value. cbn [range_high range_length ndiv nmul nsub float64 of_N].
    destruct (quotient_val (f64_sub hi v) (f64_sub hi lo)) as [Q _]; auto. split; [exact Q|].
    split; [apply quotient_range; auto|]. split; [|split].
    + intros T. apply quotient_zero; auto. destruct (diff_val v F Kv) as (_ & V & _). rewrite V, T, Rminus_diag_eq by reflexivity. apply rnd_0.
    + intros T. apply quotient_top; auto. destruct (diff_val v F Kv) as (_ & V & _). rewrite V, VD, T. reflexivity.
    + destruct (diff_val v F Kv) as (_ & _ & _ & e1 & E1 & R1). unfold percent.
      apply quotient_near with e1 e2; auto. lra.
  - intros x y r s _ _ K (v & Iv & <- & ->) (w & Iw & <- & ->).
    destruct (DD v Iv) as [G [Z T]]. destruct (DD w Iw) as [G' [Z' T']].
    unfold ranged_value. cbn [range_high range_length ndiv nmul nsub float64 of_N].
    apply quotient_monotone; auto. split; [exact Z'|].
    destruct (M v Iv) as [Fv Kv]. destruct (M w Iw) as [Fw Kw].
    destruct (diff_val v Fv Kv) as (_ & -> & _). destruct (diff_val w Fw Kw) as (_ & -> & _). apply rnd_le. lra.
Qed.
End Scale.

Theorem C53_ranged vs lo hi : Forall measured vs -> least_val vs lo -> greatest_val vs hi ->
  val lo < val hi -> 100 * (val hi - val lo) <= bpow radix2 1020 ->
  percentage_scale (val lo) (val hi) (map val vs)
    (fun x r => exists v, In v vs /\ val v = x /\ r = ranged_value float64 (float_range vs) v).
Proof.
  intros M LL GG K S.
  assert (N0 : vs <> []) by (destruct LL as [(v & I & _) _]; intros ->; destruct I).
  destruct (range_found vs M N0) as (lo' & hi' & E & [F1 P1] & [F2 P2] & LL' & GG'). rewrite E.
  assert (E1 : val lo' = val lo).
  { destruct LL as [(v & I & <-) W], LL' as [(v' & I' & <-) W']. apply Rle_antisym; auto. }
  assert (E2 : val hi' = val hi).
  { destruct GG as [(v & I & <-) W], GG' as [(v' & I' & <-) W']. apply Rle_antisym; auto. }
  rewrite <- E1, <- E2. apply scale; auto; try lra.
  intros v I. rewrite Forall_forall in M. split; [apply M, I|]. split; [apply LL', I|apply GG', I].
Qed.

(** *** Memory counts: uint64 ranges *)

Definition least_N (vs : list N) (x : N) : Prop := In x vs /\ forall v, In v vs -> (x <= v)%N.
Definition greatest_N (vs : list N) (x : N) : Prop := In x vs /\ forall v, In v vs -> (v <= x)%N.

Lemma uint_widened vs : forall lo hi, exists lo' hi',
  fold_left (fun r v => add_uint float64 v r) vs (UintRange float64 lo hi) = UintRange float64 lo' hi' /\
  (lo' = lo \/ In lo' vs) /\ (lo' <= lo)%N /\ (forall v, In v vs -> (lo' <= v)%N) /\
  (hi' = hi \/ In hi' vs) /\ (hi <= hi')%N /\ (forall v, In v vs -> (v <= hi')%N).
Proof.
  induction vs as [|v vs IH]; intros lo hi.
  - exists lo, hi. cbn [fold_left In]. split; [reflexivity|]. repeat split; auto; try lia; intros ? [].
  - cbn [fold_left add_uint].
    set (lo1 := if (v <? lo)%N then v else lo). set (hi1 := if (hi <? v)%N then v else hi).
    assert (A : (lo1 <= v)%N /\ (lo1 <= lo)%N /\ (lo1 = lo \/ lo1 = v)) by (subst lo1; destruct (N.ltb_spec v lo); repeat split; auto; lia).
    assert (C : (v <= hi1)%N /\ (hi <= hi1)%N /\ (hi1 = hi \/ hi1 = v)) by (subst hi1; destruct (N.ltb_spec hi v); repeat split; auto; lia).
    destruct (IH lo1 hi1) as (lo' & hi' & E & W1 & W2 & W3 & W4 & W5 & W6).
    exists lo', hi'. split; [exact E|]. cbn [In]. repeat split; try lia.
    + destruct W1 as [W1|W1]; auto. destruct A as (_ & _ & [A|A]); rewrite A in W1; auto.
    + intros x [<-|X]; [lia|auto].
    + destruct W4 as [W4|W4]; auto. destruct C as (_ & _ & [C|C]); rewrite C in W4; auto.
    + intros x [<-|X]; [lia|auto].
Qed.

Lemma uint_found vs lo hi : (forall v, In v vs -> (v < 2 ^ 64)%N) -> least_N vs lo -> greatest_N vs hi ->
  uint_range vs = UintRange float64 lo hi.
Proof.
  intros M [L1 L2] [G1 G2]. destruct (uint_widened vs max_uint64 0%N) as (lo' & hi' & E & W1 & W2 & W3 & W4 & W5 & W6).
  unfold uint_range, new_uint_range. rewrite E. f_equal.
  - apply N.le_antisymm; [now apply W3|]. destruct W1 as [->|W1]; [|now apply L2]. specialize (M lo L1). unfold max_uint64. lia.
  - apply N.le_antisymm; [|now apply W6]. destruct W4 as [->|W4]; [lia|now apply G2].
Qed.

Lemma length_exact lo hi : (lo < hi)%N -> (hi <= 2 ^ 53)%N -> f64_of_N (sub64 hi lo) = f64_sub (f64_of_N hi) (f64_of_N lo).
Proof.
  intros K S. assert (E : sub64 hi lo = (hi - lo)%N).
  { unfold sub64. assert (B53 : (2 ^ 53 < 2 ^ 64)%N) by reflexivity. rewrite (N.mod_small lo) by lia.
    replace (hi + (2 ^ 64 - lo))%N with (hi - lo + 1 * 2 ^ 64)%N by lia. rewrite N.mod_add by discriminate. apply N.mod_small. lia. }
  rewrite E. destruct (of_N_val hi) as [Fh Vh]; [lia|]. destruct (of_N_val lo) as [Fl Vl]; [lia|].
  destruct (of_N_val (hi - lo)) as [Fd Vd]; [lia|].
  assert (D : IZR (Z.of_N hi) - IZR (Z.of_N lo) = IZR (Z.of_N (hi - lo))) by (rewrite <- minus_IZR; f_equal; lia).
  assert (P : 1 <= IZR (Z.of_N (hi - lo))) by (apply IZR_le; lia).
  assert (T : IZR (Z.of_N (hi - lo)) <= bpow radix2 53) by (change (bpow radix2 53) with (IZR (Z.of_N (2 ^ 53))); apply IZR_le; lia).
  destruct (sub_val _ _ Fh Fl) as [F V].
  { rewrite Vh, Vl, D, Rabs_pos_eq by lra. apply Rle_trans with (1 := T). apply bpow_le. discriminate. }
  rewrite Vh, Vl, D, rnd_Z in V by (rewrite Z.abs_eq by lia; change (2 ^ 53)%Z with (Z.of_N (2 ^ 53)); lia).
  apply B2R_inj; fold (val (f64_of_N (hi - lo))); fold (val (f64_sub (f64_of_N hi) (f64_of_N lo))).
  - apply is_finite_strict_B2R. fold (val (f64_of_N (hi - lo))). lra.
  - apply is_finite_strict_B2R. fold (val (f64_sub (f64_of_N hi) (f64_of_N lo))). lra.
  - congruence.
Qed.

Theorem C53_ranged_uint vs lo hi : (forall v, In v vs -> (v <= 2 ^ 53)%N) -> least_N vs lo -> greatest_N vs hi -> (lo < hi)%N ->
  percentage_scale (IZR (Z.of_N lo)) (IZR (Z.of_N hi)) (map (fun v => IZR (Z.of_N v)) vs)
    (fun x r => exists v, In v vs /\ IZR (Z.of_N v) = x /\ r = ranged_value float64 (uint_range vs) (f64_of_N v)).
Proof.
  intros M LL GG K.
  rewrite (uint_found vs lo hi) by (auto; intros v I; specialize (M v I); assert (B53 : (2 ^ 53 < 2 ^ 64)%N) by reflexivity; lia).
  assert (Shi : (hi <= 2 ^ 53)%N) by (apply M, GG).
  assert (R : forall v, ranged_value float64 (UintRange float64 lo hi) v =
              ranged_value float64 (FloatRange float64 (f64_of_N lo) (f64_of_N hi)) v).
  { intros v. unfold ranged_value. cbn [range_high range_length float64 of_N nsub ndiv nmul]. now rewrite length_exact. }
  destruct (of_N_val lo) as [Fl Vl]; [lia|]. destruct (of_N_val hi) as [Fh Vh]; [lia|].
  assert (VV : forall v, In v vs -> fin (f64_of_N v) /\ val (f64_of_N v) = IZR (Z.of_N v)) by (intros; apply of_N_val; auto).
  destruct (scale (f64_of_N lo) (f64_of_N hi) Fl Fh) with (vs := map f64_of_N vs) as [S1 S2].
  - rewrite Vl, Vh. apply IZR_lt. lia.
  - rewrite Vl, Vh. apply Rle_trans with (bpow radix2 7 * bpow radix2 53).
    + apply Rmult_le_compat; try (simpl; lra); [rewrite <- minus_IZR; apply IZR_le; lia|].
      change (bpow radix2 53) with (IZR (Z.of_N (2 ^ 53))). rewrite <- minus_IZR. apply IZR_le. lia.
    + rewrite <- bpow_plus. apply bpow_le. discriminate.
  - intros v I. apply in_map_iff in I. destruct I as (n & <- & I). destruct (VV n I) as [F V]. split; [exact F|].
    rewrite V, Vl, Vh. split; apply IZR_le; destruct LL as [_ LL], GG as [_ GG]; [specialize (LL n I)|specialize (GG n I)]; lia.
  - rewrite Vl, Vh in S1. split.
    + intros x r Ix (v & Iv & <- & ->). destruct (VV v Iv) as [F V]. apply S1.
      * rewrite map_map. apply in_map_iff. exists v. auto.
      * exists (f64_of_N v). rewrite R. repeat split; auto. now apply in_map.
    + intros x y r s Ix Iy T (v & Iv & <- & ->) (w & Iw & <- & ->).
      destruct (VV v Iv) as [F V]. destruct (VV w Iw) as [F' V'].
      apply S2 with (x := val (f64_of_N v)) (y := val (f64_of_N w)); try (apply in_map; now apply in_map); try lra.
      * exists (f64_of_N v). rewrite R. repeat split; auto. now apply in_map.
      * exists (f64_of_N w). rewrite R. repeat split; auto. now apply in_map.
Qed.

(** *** The average *)

Inductive fop : Type := FOnce (v : f64) | FTimes (v : f64) (n : N).
Definition fop_value (o : fop) : f64 := match o with FOnce v | FTimes v _ => v end.
Definition fop_times (o : fop) : N := match o with FOnce _ => 1%N | FTimes _ n => n end.
Definition fstep (a : average float64) (o : fop) : average float64 :=
  match o with FOnce v => avg_add float64 v a | FTimes v n => avg_add_multiple float64 v n a end.
Definition frun (os : list fop) : average float64 := fold_left fstep os (no_average float64).

Definition fcount (os : list fop) : N := fold_right (fun o n => (fop_times o + n)%N) 0%N os.
Definition ftotal (os : list fop) : R := fold_right (fun o t => val (fop_value o) * IZR (Z.of_N (fop_times o)) + t) 0 os.
(** The weighted mean in exact arithmetic. *)
Definition fmean (os : list fop) : R := ftotal os / IZR (Z.of_N (fcount os)).

Lemma ftotal_app a b : ftotal (a ++ b) = ftotal a + ftotal b.
Proof. unfold ftotal. induction a as [|o a IH]; cbn [app fold_right]; [ring|]. rewrite IH. ring. Qed.
Lemma fcount_app a b : fcount (a ++ b) = (fcount a + fcount b)%N.
Proof. unfold fcount. induction a as [|o a IH]; cbn [app fold_right]; [reflexivity|]. rewrite IH. lia. Qed.

Definition weighted (o : fop) : Prop := measured (fop_value o) /\ (fop_times o <= 2 ^ 53)%N.

Lemma ftotal_pos os : Forall weighted os -> 0 <= ftotal os.
Proof.
  intros M. induction M as [|o os [[_ P] _] M IH]; cbn; [lra|].
  assert (0 <= IZR (Z.of_N (fop_times o))) by (apply IZR_le; lia). unfold ftotal in IH. nra.
Qed.

Lemma bernoulli n : 1 - INR n * u <= (1 - u) ^ n.
Proof.
  assert (P := u_pos). assert (S := u_small). induction n as [|n IH]; [simpl; lra|].
  rewrite S_INR. cbn [pow]. assert (0 <= INR n) by apply pos_INR. assert (0 <= INR n * u) by nra. nra.
Qed.
Lemma growth n : INR n * u <= / 2 -> (1 + u) ^ n <= 1 + 2 * (INR n * u).
Proof.
  intros H. assert (P := u_pos). assert (S := u_small). assert (G := bernoulli n).
  assert (I : (1 + u) ^ n * (1 - u) ^ n <= 1).
  { rewrite <- Rpow_mult_distr. apply Rle_trans with (1 ^ n); [apply pow_incr; split; nra|rewrite pow1; lra]. }
  assert (Q : 1 <= (1 + u) ^ n) by (apply pow_R1_Rle; lra).
  assert (0 <= INR n) by apply pos_INR. assert (0 <= INR n * u) by nra. set (t := INR n * u) in *. nra.
Qed.

Definition steps (os : list fop) : nat := 2 * length os.

Lemma run_near os : Forall weighted os -> ftotal os <= bpow radix2 1000 -> INR (steps os) * u <= / 2 ->
  fin (a_value float64 (frun os)) /\ a_count float64 (frun os) = fcount os /\
  ftotal os * (1 - u) ^ steps os <= val (a_value float64 (frun os)) <= ftotal os * (1 + u) ^ steps os.
Proof.
  assert (P := u_pos). assert (S := u_small).
  induction os as [|o os IH] using rev_ind; intros M T K.
  - destruct (of_N_val 0%N) as [F V]; [discriminate|]. cbn [frun fold_left no_average a_value a_count of_N float64].
    split; [exact F|]. split; [reflexivity|]. rewrite V. cbn. lra.
  - apply Forall_app in M. destruct M as [M M1]. inversion M1 as [|? ? [[Fv V0] Nt] _]; subst.
    rewrite ftotal_app in *. assert (T0 := ftotal_pos os M).
    set (x := ftotal [o]) in *.
    assert (X : x = val (fop_value o) * IZR (Z.of_N (fop_times o))) by (subst x; unfold ftotal; cbn [fold_right]; ring).
    assert (Z0 : 0 <= IZR (Z.of_N (fop_times o))) by (apply IZR_le; lia).
    assert (X0 : 0 <= x) by (rewrite X; nra).
    assert (E : steps (os ++ [o]) = Datatypes.S (Datatypes.S (steps os))) by (unfold steps; rewrite app_length; cbn [length]; lia).
    rewrite E in K |- *. set (k := steps os) in *.
    assert (K' : INR k * u <= / 2) by (rewrite !S_INR in K; nra).
    destruct IH as (F & Ct & L & H); auto; [lra|].
    assert (G : (1 + u) ^ k <= 2) by (eapply Rle_trans; [apply growth; exact K'|lra]).
    assert (G1 : 1 <= (1 + u) ^ k) by (apply pow_R1_Rle; lra).
    assert (B0 : 0 <= (1 - u) ^ k) by (apply pow_le; lra).
    assert (B1 : (1 - u) ^ k <= 1) by (apply Rle_trans with (1 ^ k); [apply pow_incr; lra|rewrite pow1; lra]).
    set (s := a_value float64 (frun os)) in *.
    assert (S0 : 0 <= val s) by nra.
    assert (B1000 : 8 * bpow radix2 1000 = bpow radix2 1003) by (change 1003%Z with (3 + 1000)%Z; rewrite bpow_plus; reflexivity).
    assert (B1023 : bpow radix2 1003 <= bpow radix2 1023) by (apply bpow_le; discriminate).
    (* the addend *)
    assert (A : exists p, fin p /\ x * (1 - u) <= val p <= x * (1 + u) /\ fstep (frun os) o = Build_average float64 (f64_add s p) (a_count float64 (frun os) + fop_times o)%N).
    { destruct o as [v|v n]; cbn [fop_value fop_times] in *.
      - exists v. split; [exact Fv|]. split; [rewrite X; change (IZR (Z.of_N 1)) with 1; nra|reflexivity].
      - destruct (of_N_val n Nt) as [Fn Vn].
        destruct (mul_val v (f64_of_N n) Fv Fn) as [Fp Vp].
        { rewrite Vn, <- X, Rabs_pos_eq by lra. lra. }
        exists (f64_mul v (f64_of_N n)). split; [exact Fp|]. split; [|reflexivity].
        rewrite Vp, Vn, <- X. destruct (rnd_grid x) as (e & Ee & ->).
        { rewrite X, Rmult_comm. apply grid_times, grid_val. }
        apply e_bounds in Ee. split; apply Rmult_le_compat_l; lra. }
    destruct A as (p & Fp & Bp & Ep).
    assert (p0 : 0 <= val p) by nra.
    destruct (add_val s p F Fp) as [Fa Va].
    { rewrite Rabs_pos_eq by lra. nra. }
    unfold frun in *. rewrite fold_left_app. cbn [fold_left]. fold (frun os) in *. rewrite Ep. cbn [a_value a_count].
    split; [exact Fa|]. split; [rewrite Ct, fcount_app; unfold fcount at 3; cbn [fold_right]; lia|].
    rewrite Va. destruct (rnd_grid (val s + val p)) as (e & Ee & ->); [apply grid_plus; apply grid_val|].
    apply e_bounds in Ee.
    set (a := (1 - u) ^ k) in *. set (b := (1 + u) ^ k) in *. set (t := ftotal os) in *. cbn [pow].
    fold a b.
    assert (Ls : (t + x) * ((1 - u) * a) <= val s + val p) by nra.
    assert (Us : val s + val p <= (t + x) * ((1 + u) * b)) by nra.
    split.
    + apply Rle_trans with ((t + x) * ((1 - u) * a) * (1 - u)); [apply Req_le; ring|].
      apply Rmult_le_compat; try lra. apply Rmult_le_pos; [lra|]. apply Rmult_le_pos; lra.
    + apply Rle_trans with ((t + x) * ((1 + u) * b) * (1 + u)); [|apply Req_le; ring].
      apply Rmult_le_compat; lra.
Qed.

(** The rounded average is near the exact mean, relatively to the number of
    values added. *)
Theorem C53_average os : Forall weighted os -> (1 <= fcount os <= 2 ^ 53)%N -> ftotal os <= bpow radix2 1000 ->
  INR (2 * length os) * bpow radix2 (-53) <= / 4 ->
  fin (avg_average float64 (frun os)) /\
  Rabs (val (avg_average float64 (frun os)) - fmean os) <=
    INR (2 * length os + 1) * bpow radix2 (-52) * fmean os + bpow radix2 (-1075).
Proof.
  intros M [C1 C2] T K. fold u in K. assert (P := u_pos). assert (S := u_small).
  assert (U52 : bpow radix2 (-52) = 2 * u).
  { unfold u. change (-52)%Z with (1 + -53)%Z. rewrite bpow_plus. reflexivity. }
  fold (steps os) in K |- *. set (k := steps os) in *.
  assert (K0 : 0 <= INR k) by apply pos_INR.
  destruct (run_near os M T) as (F & Ct & L & H); [fold k; lra|]. fold k in L, H.
  assert (T0 := ftotal_pos os M).
  assert (E1 : INR (k + 1) = INR k + 1) by (rewrite plus_INR; reflexivity).
  assert (K1 : INR (k + 1) * u <= / 2) by (rewrite E1; nra).
  assert (G := growth (k + 1) K1). assert (B := bernoulli (k + 1)).
  rewrite !pow_add, !pow_1 in *.
  set (a := (1 - u) ^ k) in *. set (b := (1 + u) ^ k) in *.
  assert (a0 : 0 <= a) by (apply pow_le; lra). assert (b0 : 1 <= b) by (apply pow_R1_Rle; lra).
  set (c := IZR (Z.of_N (fcount os))). assert (c1 : 1 <= c) by (apply IZR_le; lia).
  assert (ci : 0 < / c) by (apply Rinv_0_lt_compat; lra).
  set (s := a_value float64 (frun os)) in *.
  assert (mean0 : 0 <= fmean os) by (unfold fmean; fold c; unfold Rdiv; nra).
  assert (h0 : 0 <= bpow radix2 (-1075)) by apply bpow_ge_0.
  assert (t0 : 0 <= INR (k + 1) * u) by (rewrite E1; nra).
  set (t := INR (k + 1) * u) in *.
  replace (INR (k + 1) * bpow radix2 (-52)) with (2 * t) by (subst t; rewrite U52; ring).
  unfold avg_average. fold s. rewrite Ct. destruct (N.ltb_spec 1 (fcount os)) as [Q|Q].
  - destruct (of_N_val (fcount os) C2) as [Fc Vc]. fold c in Vc.
    change (ndiv float64) with f64_div. change (of_N float64) with f64_of_N.
    assert (S0 : 0 <= val s) by nra.
    assert (D0 : 0 <= val s / c <= val s).
    { unfold Rdiv. split; [nra|]. rewrite <- (Rmult_1_r (val s)) at 2. apply Rmult_le_compat_l; [exact S0|].
      rewrite <- Rinv_1. apply Rinv_le; lra. }
    destruct (div_val s (f64_of_N (fcount os)) F) as [Fd Vd].
    { rewrite Vc. lra. }
    { rewrite Vc, Rabs_pos_eq by apply D0.
      assert (B1000 : 4 * bpow radix2 1000 = bpow radix2 1002) by (change 1002%Z with (2 + 1000)%Z; rewrite bpow_plus; reflexivity).
      assert (B1023 : bpow radix2 1002 <= bpow radix2 1023) by (apply bpow_le; discriminate).
      assert (b <= 4) by nra. nra. }
    split; [exact Fd|]. rewrite Vd, Vc.
    destruct (rnd_any (val s / c)) as (e & h & Ee & Eh & ->). apply e_bounds in Ee.
    assert (Eh' : - bpow radix2 (-1075) <= h <= bpow radix2 (-1075)) by (revert Eh; unfold Rabs; destruct (Rcase_abs h); lra).
    assert (L' : fmean os * a <= val s / c) by (unfold fmean; fold c; unfold Rdiv; nra).
    assert (H' : val s / c <= fmean os * b) by (unfold fmean; fold c; unfold Rdiv; nra).
    set (m := fmean os) in *. set (q := val s / c) in *.
    assert (q0 : 0 <= q) by apply D0.
    assert (U1 : q * (1 + e) <= m * b * (1 + u)) by (apply Rmult_le_compat; lra).
    assert (U2 : m * a * (1 - u) <= q * (1 + e)) by (apply Rmult_le_compat; try lra; apply Rmult_le_pos; lra).
    assert (U3 : m * (b * (1 + u)) <= m * (1 + 2 * t)) by (apply Rmult_le_compat_l; lra).
    assert (U4 : m * (1 - t) <= m * (a * (1 - u))) by (apply Rmult_le_compat_l; lra).
    assert (mt : 0 <= m * t) by (apply Rmult_le_pos; lra).
    apply Rabs_le. split; lra.
  - assert (Q1 : fcount os = 1%N) by lia. rewrite Q1. cbn [N.eqb Pos.eqb]. split; [exact F|].
    assert (c = 1) by (subst c; rewrite Q1; reflexivity).
    assert (Em : fmean os = ftotal os) by (unfold fmean; fold c; rewrite H0; unfold Rdiv; rewrite Rinv_1; ring).
    rewrite Em in *. set (m := ftotal os) in *.
    assert (mt : 0 <= m * t) by (apply Rmult_le_pos; lra).
    assert (V1 : b <= b * (1 + u)) by nra. assert (V2 : a * (1 - u) <= a) by nra.
    assert (U3 : m * b <= m * (1 + 2 * t)) by (apply Rmult_le_compat_l; lra).
    assert (U4 : m * (1 - t) <= m * a) by (apply Rmult_le_compat_l; lra).
    apply Rabs_le. split; lra.
Qed.

(** ** Beyond the bounds *)

(** The float64 nearest to m * 2^e. *)
Definition lit (m e : Z) : f64 := binary_normalize 53 1024 prec_ok emax_ok mode_NE m e false.

Lemma lit_measured x : fin x -> f64_lt x (f64_of_N 0) = false -> measured x.
Proof.
  intros F E. split; [exact F|]. destruct (of_N_val 0%N) as [F0 V0]; [discriminate|]. change (IZR (Z.of_N 0)) with 0 in V0.
  destruct (Rle_lt_dec 0 (val x)) as [K|K]; [exact K|]. rewrite <- V0 in K. apply lt_val in K; auto. congruence.
Qed.
Lemma less x y : is_finite x && is_finite y && f64_lt x y = true -> val x < val y.
Proof. intros H. apply andb_true_iff in H. destruct H as [H E]. apply andb_true_iff in H. now apply lt_val. Qed.

(** 114 and 463.09 nanoseconds, and 300 between them. *)
Definition ns_low : f64 := f64_of_N 114.
Definition ns_mid : f64 := f64_of_N 300.
Definition ns_high : f64 := lit 8146765435308605 (-44).
Definition ns_all : list f64 := [ns_mid; ns_high; ns_low].

Lemma ns_measured : Forall measured ns_all.
Proof. repeat (apply Forall_cons; [apply lit_measured; vm_compute; reflexivity|]); apply Forall_nil. Qed.
Lemma ns_least : least_val ns_all ns_low.
Proof.
  split; [exists ns_low; unfold ns_all; cbn [In]; auto|].
  intros v [<-|[<-|[<-|[]]]]; [apply Rlt_le, less; vm_compute; reflexivity|apply Rlt_le, less; vm_compute; reflexivity|lra].
Qed.
Lemma ns_greatest : greatest_val ns_all ns_high.
Proof.
  split; [exists ns_high; unfold ns_all; cbn [In]; auto|].
  intros v [<-|[<-|[<-|[]]]]; [apply Rlt_le, less; vm_compute; reflexivity|lra|apply Rlt_le, less; vm_compute; reflexivity].
Qed.
Lemma ns_small : 100 * (val ns_high - val ns_low) <= bpow radix2 1020.
Proof.
  assert (A : val ns_high < val (f64_of_N 464)) by (apply less; vm_compute; reflexivity).
  assert (C : val (f64_of_N 0) < val ns_low) by (apply less; vm_compute; reflexivity).
  destruct (of_N_val 464%N) as [_ V]; [discriminate|]. destruct (of_N_val 0%N) as [_ V0]; [discriminate|].
  rewrite V in A. rewrite V0 in C. change (IZR (Z.of_N 464)) with 464 in A. change (IZR (Z.of_N 0)) with 0 in C.
  apply Rle_trans with (bpow radix2 16); [|apply bpow_le; discriminate]. simpl (bpow radix2 16). lra.
Qed.

Example C53_ranged_ex :
  Forall measured ns_all /\ least_val ns_all ns_low /\ greatest_val ns_all ns_high /\
  val ns_low < val ns_high /\ 100 * (val ns_high - val ns_low) <= bpow radix2 1020.
Proof.
  split; [exact ns_measured|]. split; [exact ns_least|]. split; [exact ns_greatest|]. split; [|exact ns_small].
  apply less. vm_compute. reflexivity.
Qed.

(** The best handler can be rated above 100 ... *)
Theorem C53_exceeds : exists vs lo hi, Forall measured vs /\ least_val vs lo /\ greatest_val vs hi /\
  val lo < val hi /\ 100 * (val hi - val lo) <= bpow radix2 1020 /\
  100 < val (ranged_value float64 (float_range vs) lo).
Proof.
  exists ns_all, ns_low, ns_high.
  split; [exact ns_measured|]. split; [exact ns_least|]. split; [exact ns_greatest|]. split; [|split; [exact ns_small|]].
  - apply less. vm_compute. reflexivity.
  - destruct hundred as [_ <-]. apply less. vm_compute. reflexivity.
Qed.

(** ... or below it. *)
Definition ns_top : f64 := lit 8337178745179687 (-43).
Theorem C53_misses : exists vs lo hi, Forall measured vs /\ least_val vs lo /\ greatest_val vs hi /\
  val lo < val hi /\ 100 * (val hi - val lo) <= bpow radix2 1020 /\
  val (ranged_value float64 (float_range vs) lo) < 100.
Proof.
  assert (Z : val (f64_of_N 0) = 0) by (destruct (of_N_val 0%N) as [_ V]; [discriminate|exact V]).
  assert (K : val (f64_of_N 0) < val ns_top) by (apply less; vm_compute; reflexivity).
  exists [f64_of_N 0; ns_top], (f64_of_N 0), ns_top. split; [repeat (apply Forall_cons; [apply lit_measured; vm_compute; reflexivity|]); apply Forall_nil|].
  split; [split; [exists (f64_of_N 0); cbn [In]; auto|intros v [<-|[<-|[]]]; lra]|].
  split; [split; [exists ns_top; cbn [In]; auto|intros v [<-|[<-|[]]]; lra]|].
  split; [exact K|]. split.
  - assert (A : val ns_top < val (f64_of_N 1000)) by (apply less; vm_compute; reflexivity).
    destruct (of_N_val 1000%N) as [_ V]; [discriminate|]. rewrite V in A. change (IZR (Z.of_N 1000)) with 1000 in A.
    apply Rle_trans with (bpow radix2 17); [|apply bpow_le; discriminate]. simpl (bpow radix2 17). lra.
  - destruct hundred as [_ <-]. apply less. vm_compute. reflexivity.
Qed.

(** Counts above 2^53 are rounded before they are subtracted, but their
    difference is taken first: the score can be 200. *)
Theorem C53_uint_double :
  let vs := [2 ^ 53 + 1; 2 ^ 53 + 3]%N in
  least_N vs (2 ^ 53 + 1)%N /\ greatest_N vs (2 ^ 53 + 3)%N /\
  ranged_value float64 (uint_range vs) (f64_of_N (2 ^ 53 + 1)) = f64_of_N 200.
Proof.
  cbv zeta. split; [|split].
  - split; [now left|]. intros v [<-|[<-|[]]]; vm_compute; discriminate.
  - split; [right; now left|]. intros v [<-|[<-|[]]]; vm_compute; discriminate.
  - apply B2SF_inj. vm_compute. reflexivity.
Qed.

(** Without the bound on the length the product overflows and every other
    handler is rated infinite. *)
Theorem C53_overflow :
  let vs := [f64_of_N 0; f64_max] in
  Forall measured vs /\ least_val vs (f64_of_N 0) /\ greatest_val vs f64_max /\
  ranged_value float64 (float_range vs) (f64_of_N 0) = B754_infinity false.
Proof.
  cbv zeta. assert (K : val (f64_of_N 0) < val f64_max) by (apply less; vm_compute; reflexivity).
  split; [repeat (apply Forall_cons; [apply lit_measured; vm_compute; reflexivity|]); apply Forall_nil|].
  split; [split; [exists (f64_of_N 0); cbn [In]; auto|intros v [<-|[<-|[]]]; lra]|].
  split; [split; [exists f64_max; cbn [In]; auto|intros v [<-|[<-|[]]]; lra]|].
  apply B2SF_inj. vm_compute. reflexivity.
Qed.

Example C53_ranged_uint_ex : let vs := [5; 2; 9; 2]%N in
  (forall v, In v vs -> (v <= 2 ^ 53)%N) /\ least_N vs 2%N /\ greatest_N vs 9%N /\
  ranged_value float64 (uint_range vs) (f64_of_N 2) = f64_of_N 100.
Proof.
  cbv zeta. split; [intros v [<-|[<-|[<-|[<-|[]]]]]; vm_compute; discriminate|]. split; [|split].
  - split; [cbn [In]; auto|]. intros v [<-|[<-|[<-|[<-|[]]]]]; vm_compute; discriminate.
  - split; [cbn [In]; auto|]. intros v [<-|[<-|[<-|[<-|[]]]]]; vm_compute; discriminate.
  - apply B2SF_inj. vm_compute. reflexivity.
Qed.

Definition fops0 : list fop := [FTimes (f64_of_N 60) 3; FOnce ns_high; FTimes (f64_of_N 25) 2].
Example C53_average_ex : Forall weighted fops0 /\ (1 <= fcount fops0 <= 2 ^ 53)%N /\ ftotal fops0 <= bpow radix2 1000 /\
  INR (2 * length fops0) * bpow radix2 (-53) <= / 4.
Proof.
  split; [|split; [|split]].
  - repeat (apply Forall_cons; [split; [apply lit_measured; vm_compute; reflexivity|vm_compute; discriminate]|]); apply Forall_nil.
  - vm_compute. split; discriminate.
  - assert (A : val ns_high < val (f64_of_N 464)) by (apply less; vm_compute; reflexivity).
    destruct (of_N_val 464%N) as [_ V]; [discriminate|]. destruct (of_N_val 60%N) as [_ V1]; [discriminate|]. destruct (of_N_val 25%N) as [_ V2]; [discriminate|].
    rewrite V in A. unfold ftotal, fops0. cbn [fold_right fop_value fop_times]. rewrite V1, V2.
    change (IZR (Z.of_N 464)) with 464 in A. change (IZR (Z.of_N 60)) with 60. change (IZR (Z.of_N 25)) with 25.
    change (IZR (Z.of_N 3)) with 3. change (IZR (Z.of_N 2)) with 2. change (IZR (Z.of_N 1)) with 1.
    apply Rle_trans with (bpow radix2 10); [|apply bpow_le; discriminate]. simpl (bpow radix2 10). lra.
  - fold u. assert (S := u_small). assert (P := u_pos). cbn [length fops0 Nat.mul Nat.add]. simpl INR. lra.
Qed.

Print Assumptions C53_ranged.
Print Assumptions C53_ranged_uint.
Print Assumptions C53_average.
Print Assumptions C53_exceeds.
Print Assumptions C53_misses.
Print Assumptions C53_uint_double.
Print Assumptions C53_overflow.
