(** Facts about float64: when an operation does not overflow its result is the
    rounded exact result, and how far rounding can go. *)

From Coq Require Import ZArith NArith Reals Psatz List Bool.
From Flocq Require Import Core BinarySingleNaN Relative.
From Verif Require Import Num Float.
Local Open Scope R_scope.

Definition val (x : f64) : R := B2R x.
Definition fin (x : f64) : Prop := is_finite x = true.
Definition rnd (x : R) : R := round radix2 (FLT_exp (-1074) 53) ZnearestE x.
Definition u : R := bpow radix2 (-53).
Definition top : R := bpow radix2 1024.

Global Instance exp_ok : Valid_exp (FLT_exp (-1074) 53).
Proof. apply FLT_exp_valid. reflexivity. Qed.

Lemma u_pos : 0 < u. Proof. apply bpow_gt_0. Qed.
Lemma u_eq : u = / 9007199254740992.
Proof. unfold u, bpow. change (Z.pow_pos radix2 53) with 9007199254740992%Z. reflexivity. Qed.
Lemma u_small : u <= / 1000.
Proof. rewrite u_eq. apply Rinv_le; lra. Qed.

Lemma rnd_le x y : x <= y -> rnd x <= rnd y.
Proof. apply round_le; auto with typeclass_instances. Qed.
Lemma rnd_0 : rnd 0 = 0.
Proof. apply round_0. auto with typeclass_instances. Qed.
Lemma rnd_pos x : 0 <= x -> 0 <= rnd x.
Proof. intros H. rewrite <- rnd_0. now apply rnd_le. Qed.
Lemma rnd_format x : generic_format radix2 (FLT_exp (-1074) 53) x -> rnd x = x.
Proof. apply round_generic. auto with typeclass_instances. Qed.
Lemma rnd_val x : rnd (val x) = val x.
Proof. apply rnd_format. apply (generic_format_B2R 53 1024). Qed.

(** Numbers made of few bits are not rounded. *)
Lemma rnd_bits m e : (Z.abs m <= 2 ^ 53)%Z -> (-1074 <= e)%Z -> rnd (F2R (Float radix2 m e)) = F2R (Float radix2 m e).
Proof.
  intros M E. apply rnd_format.
  destruct (Z.eq_dec (Z.abs m) (2 ^ 53)) as [H|H].
  - assert (K : m = (2 ^ 53)%Z \/ m = (- 2 ^ 53)%Z) by lia.
    assert (G : F2R (Float radix2 (2 ^ 53) e) = F2R (Float radix2 1 (e + 53))).
    { unfold F2R. cbn [Fnum Fexp]. rewrite bpow_plus. change (bpow radix2 53) with (IZR 9007199254740992). change (2 ^ 53)%Z with 9007199254740992%Z. ring. }
    destruct K as [-> | ->].
    + rewrite G. apply generic_format_FLT. exists (Float radix2 1 (e + 53)); simpl; auto with zarith.
    + change (- 2 ^ 53)%Z with (Z.opp (2 ^ 53)). rewrite F2R_Zopp, G. apply generic_format_opp.
      apply generic_format_FLT. exists (Float radix2 1 (e + 53)); simpl; auto with zarith.
  - apply generic_format_FLT. exists (Float radix2 m e); simpl; auto. change (Z.pow_pos 2 53) with (2 ^ 53)%Z. lia.
Qed.

Lemma rnd_Z z : (Z.abs z <= 2 ^ 53)%Z -> rnd (IZR z) = IZR z.
Proof.
  intros H. assert (E : IZR z = F2R (Float radix2 z 0)) by (unfold F2R; simpl; ring).
  rewrite E. apply rnd_bits; auto with zarith.
Qed.

Lemma rnd_top x : Rabs x <= bpow radix2 1023 -> Rabs (rnd x) < top.
Proof.
  intros H. apply Rle_lt_trans with (bpow radix2 1023); [|apply bpow_lt; reflexivity].
  apply abs_round_le_generic; auto with typeclass_instances.
  apply generic_format_bpow. unfold FLT_exp. cbn. discriminate.
Qed.

(** Multiples of the least positive float64: rounding is relative. *)
Definition grid (x : R) : Prop := exists m, x = F2R (Float radix2 m (-1074)).

Lemma grid_val x : grid (val x).
Proof.
  assert (H : generic_format radix2 (FIX_exp (-1074)) (val x)).
  { apply generic_format_FIX_FLT with 53%Z. apply (generic_format_B2R 53 1024). }
  apply FIX_format_generic in H. destruct H as [[m e] H E]. simpl in E. subst e. now exists m.
Qed.
Lemma grid_plus x y : grid x -> grid y -> grid (x + y).
Proof. intros [m ->] [n ->]. exists (m + n)%Z. unfold F2R; simpl. rewrite plus_IZR. ring. Qed.
Lemma grid_minus x y : grid x -> grid y -> grid (x - y).
Proof. intros [m ->] [n ->]. exists (m - n)%Z. unfold F2R; simpl. rewrite minus_IZR. ring. Qed.
Lemma grid_times z x : grid x -> grid (IZR z * x).
Proof. intros [m ->]. exists (z * m)%Z. unfold F2R; simpl. rewrite mult_IZR. ring. Qed.

Lemma half_u : / 2 * bpow radix2 (- (53) + 1) = u.
Proof. change (- (53) + 1)%Z with (-52)%Z. unfold u. change (-52)%Z with (-53 + 1)%Z. rewrite bpow_plus. simpl (bpow radix2 1). lra. Qed.

Lemma rnd_grid x : grid x -> exists e, Rabs e <= u /\ rnd x = x * (1 + e).
Proof.
  intros [m ->]. destruct (relative_error_N_FLT_F2R_emin_ex radix2 (-1074) 53 eq_refl (fun t => negb (Z.even t)) m) as (e & H & E).
  rewrite half_u in H. exists e. auto.
Qed.
Lemma rnd_any x : exists e h, Rabs e <= u /\ Rabs h <= bpow radix2 (-1075) /\ rnd x = x * (1 + e) + h.
Proof.
  destruct (error_N_FLT radix2 (-1074) 53 eq_refl (fun t => negb (Z.even t)) x) as (e & h & H & K & _ & E).
  rewrite half_u in H. exists e, h. repeat split; auto.
  change (-1075)%Z with (-1074 + -1)%Z. rewrite bpow_plus. simpl (bpow radix2 (-1)). lra.
Qed.

(** ** The operations *)

Lemma below_top x : Rabs x < top -> Rlt_bool (Rabs x) (bpow radix2 1024) = true.
Proof. intros H. now apply Rlt_bool_true. Qed.

Lemma sub_val x y : fin x -> fin y -> Rabs (val x - val y) <= bpow radix2 1023 ->
  fin (f64_sub x y) /\ val (f64_sub x y) = rnd (val x - val y).
Proof.
  intros X Y H. generalize (Bminus_correct 53 1024 prec_ok emax_ok mode_NE x y X Y).
  rewrite below_top by (apply rnd_top; exact H). intros (E & F & _). split; assumption.
Qed.
Lemma add_val x y : fin x -> fin y -> Rabs (val x + val y) <= bpow radix2 1023 ->
  fin (f64_add x y) /\ val (f64_add x y) = rnd (val x + val y).
Proof.
  intros X Y H. generalize (Bplus_correct 53 1024 prec_ok emax_ok mode_NE x y X Y).
  rewrite below_top by (apply rnd_top; exact H). intros (E & F & _). split; assumption.
Qed.
Lemma mul_val x y : fin x -> fin y -> Rabs (val x * val y) <= bpow radix2 1023 ->
  fin (f64_mul x y) /\ val (f64_mul x y) = rnd (val x * val y).
Proof.
  intros X Y H. generalize (Bmult_correct 53 1024 prec_ok emax_ok mode_NE x y).
  rewrite below_top by (apply rnd_top; exact H). intros (E & F & _). split; [|assumption].
  unfold fin. etransitivity; [exact F|]. now rewrite X, Y.
Qed.
Lemma div_val x y : fin x -> val y <> 0 -> Rabs (val x / val y) <= bpow radix2 1023 ->
  fin (f64_div x y) /\ val (f64_div x y) = rnd (val x / val y).
Proof.
  intros X Y H. generalize (Bdiv_correct 53 1024 prec_ok emax_ok mode_NE x y Y).
  rewrite below_top by (apply rnd_top; exact H). intros (E & F & _). split; [|assumption].
  unfold fin. etransitivity; [exact F|]. exact X.
Qed.
Lemma of_N_val n : (n <= 2 ^ 53)%N -> fin (f64_of_N n) /\ val (f64_of_N n) = IZR (Z.of_N n).
Proof.
  intros H. generalize (binary_normalize_correct 53 1024 prec_ok emax_ok mode_NE (Z.of_N n) 0 false). cbv zeta.
  assert (E : F2R (Float radix2 (Z.of_N n) 0) = IZR (Z.of_N n)) by (unfold F2R; simpl; ring).
  rewrite E.
  assert (S : (Z.abs (Z.of_N n) <= 2 ^ 53)%Z) by (rewrite Z.abs_eq by lia; change (2 ^ 53)%Z with (Z.of_N (2 ^ 53)); lia).
  rewrite below_top.
  - intros (K & F & _). split; [exact F|]. unfold val, f64_of_N. rewrite K. apply rnd_Z. exact S.
  - apply rnd_top. rewrite Rabs_pos_eq by (apply IZR_le; lia).
    apply Rle_trans with (IZR (2 ^ 53)); [apply IZR_le; lia|].
    change (IZR (2 ^ 53)) with (bpow radix2 53). apply bpow_le. discriminate.
Qed.
Lemma lt_val x y : fin x -> fin y -> f64_lt x y = true <-> val x < val y.
Proof.
  intros X Y. unfold f64_lt. rewrite (Bltb_correct 53 1024 x y X Y). unfold val.
  destruct (Rlt_bool_spec (B2R x) (B2R y)); split; intros; try lra; discriminate.
Qed.
Lemma fin_max : fin f64_max. Proof. reflexivity. Qed.
Lemma max_val x : fin x -> val x <= val f64_max.
Proof.
  intros _. assert (E : val f64_max = bpow radix2 1024 - bpow radix2 (1024 - 53)).
  { transitivity (F2R (Float radix2 (9007199254740992 - 1) 971)); [reflexivity|].
    unfold F2R; cbn [Fnum Fexp]. rewrite minus_IZR.
    change (bpow radix2 1024) with (bpow radix2 (53 + 971)). rewrite (bpow_plus radix2 53 971).
    change (bpow radix2 53) with (IZR 9007199254740992). change (1024 - 53)%Z with 971%Z. ring. }
  rewrite E. apply Rle_trans with (Rabs (val x)); [apply Rle_abs|].
  apply (abs_B2R_le_emax_minus_prec 53 1024 prec_ok).
Qed.

(** ** Products of factors near one *)

Lemma near_times a b x y : Rabs x <= a -> Rabs y <= b -> Rabs ((1 + x) * (1 + y) - 1) <= a + b + a * b.
Proof.
  intros X Y. replace ((1 + x) * (1 + y) - 1) with (x + y + x * y) by ring.
  eapply Rle_trans; [apply Rabs_triang|]. eapply Rle_trans; [apply Rplus_le_compat_r, Rabs_triang|].
  rewrite Rabs_mult. assert (0 <= Rabs x) by apply Rabs_pos. assert (0 <= Rabs y) by apply Rabs_pos. nra.
Qed.
Lemma near_inv a x : Rabs x <= a -> a <= / 2 -> Rabs (/ (1 + x) - 1) <= a + 2 * a * a.
Proof.
  intros X A. assert (P : 0 < 1 + x) by (revert X; unfold Rabs; destruct (Rcase_abs x); lra).
  assert (E : / (1 + x) - 1 = - x * / (1 + x)) by (field; lra).
  rewrite E, Rabs_mult, Rabs_Ropp.
  assert (Q : 0 < / (1 + x)) by now apply Rinv_0_lt_compat.
  rewrite (Rabs_pos_eq (/ (1 + x))) by lra.
  assert (S : 1 - a <= 1 + x) by (revert X; unfold Rabs; destruct (Rcase_abs x); lra).
  assert (H : Rabs x <= a) by exact X.
  assert (0 <= Rabs x) by apply Rabs_pos.
  assert (W : / (1 + x) <= 1 + 2 * a).
  { apply Rmult_le_reg_l with (1 + x); [lra|]. rewrite Rinv_r by lra. nra. }
  nra.
Qed.
