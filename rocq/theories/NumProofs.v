(** Facts about the exact numbers of Num.v. *)

From Coq Require Import List NArith ZArith QArith Qcanon Qround Bool Lia Lqa Permutation.
From Verif Require Import Num.
Import ListNotations.
Local Open Scope Qc_scope.

(** ** Qc through Q *)

Lemma this_add (a b : Qc) : (this (a + b) == this a + this b)%Q.
Proof. unfold Qcplus. cbn [this Q2Qc]. apply Qred_correct. Qed.
Lemma this_mul (a b : Qc) : (this (a * b) == this a * this b)%Q.
Proof. unfold Qcmult. cbn [this Q2Qc]. apply Qred_correct. Qed.
Lemma this_opp (a : Qc) : (this (- a) == - this a)%Q.
Proof. unfold Qcopp. cbn [this Q2Qc]. apply Qred_correct. Qed.
Lemma this_sub (a b : Qc) : (this (a - b) == this a - this b)%Q.
Proof. unfold Qcminus. rewrite this_add, this_opp. reflexivity. Qed.
Lemma this_inv (a : Qc) : (this (/ a) == / this a)%Q.
Proof. unfold Qcinv. cbn [this Q2Qc]. apply Qred_correct. Qed.
Lemma this_div (a b : Qc) : (this (a / b) == this a / this b)%Q.
Proof. unfold Qcdiv. rewrite this_mul, this_inv. reflexivity. Qed.
Lemma this_Q (q : Q) : (this (Q2Qc q) == q)%Q.
Proof. cbn [this Q2Qc]. apply Qred_correct. Qed.
Lemma this_Z z : (this (Qc_of_Z z) == inject_Z z)%Q.
Proof. apply this_Q. Qed.
Lemma this_0 : (this 0 == 0)%Q.
Proof. reflexivity. Qed.
Lemma this_1 : (this 1 == 1)%Q.
Proof. reflexivity. Qed.

Lemma Qc_eq_this (a b : Qc) : a = b <-> (this a == this b)%Q.
Proof. split; [intros ->; reflexivity|apply Qc_is_canon]. Qed.
Lemma Qc_neq_this (a b : Qc) : a <> b <-> ~ (this a == this b)%Q.
Proof. rewrite Qc_eq_this. reflexivity. Qed.

Ltac qc_in H :=
  try rewrite Qc_neq_this in H; try rewrite Qc_eq_this in H; unfold Qcle, Qclt in H;
  repeat first [rewrite this_add in H | rewrite this_sub in H | rewrite this_mul in H | rewrite this_opp in H
               | rewrite this_div in H | rewrite this_inv in H | rewrite this_Q in H | rewrite this_Z in H];
  rewrite ?this_0, ?this_1 in H.
Ltac qc_goal :=
  try rewrite Qc_neq_this; try rewrite Qc_eq_this; unfold Qcle, Qclt;
  repeat first [rewrite this_add | rewrite this_sub | rewrite this_mul | rewrite this_opp
               | rewrite this_div | rewrite this_inv | rewrite this_Q | rewrite this_Z];
  rewrite ?this_0, ?this_1.
Ltac qc_hyps := repeat match goal with
  | H : (_ < _)%Qc |- _ => qc_in H
  | H : (_ <= _)%Qc |- _ => qc_in H
  | H : (_ = _ :> Qc) |- _ => qc_in H
  | H : (_ <> _ :> Qc) |- _ => qc_in H
  end.
Ltac qcl := qc_hyps; qc_goal; try lra.
Ltac qcn := qc_hyps; qc_goal; nra.

Lemma Qc_ltb_spec (a b : Qc) : Qc_ltb a b = true <-> a < b.
Proof.
  unfold Qc_ltb, Qccompare, Qclt. rewrite (Qlt_alt (this a) (this b)).
  destruct (this a ?= this b)%Q; split; intros H; congruence || reflexivity.
Qed.
Lemma Qc_ltb_false (a b : Qc) : Qc_ltb a b = false <-> b <= a.
Proof.
  rewrite <- not_true_iff_false, Qc_ltb_spec. split; [apply Qcnot_lt_le|apply Qcle_not_lt].
Qed.

Lemma Qc_eqb_spec (a b : Qc) : Qc_eq_bool a b = true <-> a = b.
Proof.
  unfold Qc_eq_bool. destruct (Qc_eq_dec a b); split; congruence.
Qed.
Lemma Qc_eqb_false (a b : Qc) : Qc_eq_bool a b = false <-> a <> b.
Proof. rewrite <- not_true_iff_false, Qc_eqb_spec. reflexivity. Qed.

(** ** Numbers *)

Lemma of_N_add a b : Qc_of_N (a + b) = Qc_of_N a + Qc_of_N b.
Proof. unfold Qc_of_N. qc_goal. rewrite N2Z.inj_add, inject_Z_plus. reflexivity. Qed.
Lemma of_N_mul a b : Qc_of_N (a * b) = Qc_of_N a * Qc_of_N b.
Proof. unfold Qc_of_N. qc_goal. rewrite N2Z.inj_mul, inject_Z_mult. reflexivity. Qed.
Lemma of_N_0 : Qc_of_N 0 = 0.
Proof. apply Qc_is_canon. reflexivity. Qed.
Lemma of_N_1 : Qc_of_N 1 = 1.
Proof. apply Qc_is_canon. reflexivity. Qed.
Lemma of_N_le a b : Qc_of_N a <= Qc_of_N b <-> (a <= b)%N.
Proof. unfold Qc_of_N. qc_goal. rewrite <- Zle_Qle. lia. Qed.
Lemma of_N_lt a b : Qc_of_N a < Qc_of_N b <-> (a < b)%N.
Proof. unfold Qc_of_N. qc_goal. rewrite <- Zlt_Qlt. lia. Qed.
Lemma of_N_inj a b : Qc_of_N a = Qc_of_N b -> a = b.
Proof. intros H. apply N.le_antisymm; apply of_N_le; rewrite H; apply Qcle_refl. Qed.
Lemma of_N_pos a : 0 <= Qc_of_N a.
Proof. rewrite <- of_N_0. apply of_N_le. lia. Qed.
Lemma of_N_nonzero a : (0 < a)%N -> Qc_of_N a <> 0.
Proof. intros H E. rewrite <- of_N_0 in E. apply of_N_inj in E. lia. Qed.
Lemma of_N_sub a b : (b <= a)%N -> Qc_of_N (a - b) = Qc_of_N a - Qc_of_N b.
Proof.
  intros H. unfold Qc_of_N. qc_goal. rewrite N2Z.inj_sub by exact H. unfold Z.sub. rewrite inject_Z_plus, inject_Z_opp. reflexivity.
Qed.

(** ** Arithmetic with NaN *)

Lemma xdiv_fin p q : q <> 0 -> xdiv (Fin p) (Fin q) = Fin (p / q).
Proof. intros H. cbn. apply Qc_eqb_false in H. rewrite H. reflexivity. Qed.
Lemma xlt_fin p q : xlt (Fin p) (Fin q) = true <-> p < q.
Proof. apply Qc_ltb_spec. Qed.

Lemma div_bounds p q lo hi : 0 < q -> lo * q <= p -> p <= hi * q -> lo <= p / q /\ p / q <= hi.
Proof.
  intros Q H1 H2. assert (X : p = p / q * q) by (field; intros E; rewrite E in Q; apply (Qclt_not_eq 0 0 Q); reflexivity).
  split; qc_hyps; qc_goal; apply Qnot_lt_le; intros K.
  - assert ((this p / this q) * this q < this lo * this q)%Q by (apply Qmult_lt_compat_r; assumption). lra.
  - assert (this hi * this q < (this p / this q) * this q)%Q by (apply Qmult_lt_compat_r; assumption). lra.
Qed.
