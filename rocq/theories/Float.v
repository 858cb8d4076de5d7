(** The numbers Go computes the scores with: float64, which is the binary64 of
    IEEE 754 with rounding to nearest, ties to even.  From Flocq; one NaN.
    A compiler may fuse a multiplication with an addition on some processors;
    here every operation rounds. *)

From Coq Require Import ZArith NArith.
From Flocq Require Import Core BinarySingleNaN.
From Verif Require Import Num.

Definition f64 : Type := binary_float 53 1024.

Definition prec_ok : Prec_gt_0 53 := eq_refl.
Definition emax_ok : Prec_lt_emax 53 1024 := eq_refl.

Definition f64_of_N (n : N) : f64 := binary_normalize 53 1024 prec_ok emax_ok mode_NE (Z.of_N n) 0 false.
Definition f64_add : f64 -> f64 -> f64 := Bplus (prec_gt_0_ := prec_ok) (prec_lt_emax_ := emax_ok) mode_NE.
Definition f64_sub : f64 -> f64 -> f64 := Bminus (prec_gt_0_ := prec_ok) (prec_lt_emax_ := emax_ok) mode_NE.
Definition f64_mul : f64 -> f64 -> f64 := Bmult (prec_gt_0_ := prec_ok) (prec_lt_emax_ := emax_ok) mode_NE.
Definition f64_div : f64 -> f64 -> f64 := Bdiv (prec_gt_0_ := prec_ok) (prec_lt_emax_ := emax_ok) mode_NE.
Definition f64_lt : f64 -> f64 -> bool := Bltb.
(** math.Round: nearest integer, halves away from zero. *)
Definition f64_round : f64 -> f64 := Bnearbyint (prec_lt_emax_ := emax_ok) mode_NA.
Definition f64_max : f64 := Bmax_float (prec_gt_0_ := prec_ok) (prec_lt_emax_ := emax_ok).

Definition float64 : arith := {|
  num := f64; of_N := f64_of_N; nadd := f64_add; nsub := f64_sub; nmul := f64_mul; ndiv := f64_div; nlt := f64_lt;
  nround := f64_round; nnan := B754_nan; nmax := f64_max |}.
