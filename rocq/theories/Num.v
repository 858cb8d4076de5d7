(** The arithmetic of the scores.  The code of internal/scoring computes with
    float64; the model of it (Scoring.v) is written over any arithmetic, so that
    it can be read with exact numbers ([exact], below) and with the rounded
    numbers of IEEE 754 ([float64], Float.v). *)

From Coq Require Import List NArith ZArith QArith Qcanon Qround Bool.

Record arith : Type := {
  num : Type;
  of_N : N -> num;             (* conversion of a uint or uint64 *)
  nadd : num -> num -> num;
  nsub : num -> num -> num;
  nmul : num -> num -> num;
  ndiv : num -> num -> num;
  nlt : num -> num -> bool;    (* < : false when a side is NaN *)
  nround : num -> num;         (* math.Round: to the nearest integer, halves away from zero *)
  nnan : num;                  (* math.NaN() *)
  nmax : num                   (* math.MaxFloat64 *)
}.

(** ** Exact numbers: rationals with the infinities and NaN; one zero. *)

Inductive xnum : Type := Fin (q : Qc) | Inf (negative : bool) | NaN.

Definition Qc_ltb (a b : Qc) : bool := match (a ?= b)%Qc with Lt => true | _ => false end.

Definition xneg (a : xnum) : xnum := match a with Fin q => Fin (- q) | Inf n => Inf (negb n) | NaN => NaN end.
Definition xadd (a b : xnum) : xnum :=
  match a, b with
  | Fin p, Fin q => Fin (p + q)
  | NaN, _ | _, NaN => NaN
  | Inf m, Inf n => if eqb m n then Inf m else NaN
  | Inf m, Fin _ => Inf m
  | Fin _, Inf n => Inf n
  end.
Definition xsub (a b : xnum) : xnum := xadd a (xneg b).

(** The sign of a finite number, as a comparison with zero. *)
Definition xsigned (q : Qc) (negative : bool) : xnum :=
  match (q ?= 0)%Qc with Eq => NaN | Lt => Inf (negb negative) | Gt => Inf negative end.
Definition xmul (a b : xnum) : xnum :=
  match a, b with
  | Fin p, Fin q => Fin (p * q)
  | NaN, _ | _, NaN => NaN
  | Inf m, Inf n => Inf (xorb m n)
  | Inf m, Fin q | Fin q, Inf m => xsigned q m
  end.
Definition xdiv (a b : xnum) : xnum :=
  match a, b with
  | NaN, _ | _, NaN => NaN
  | Fin p, Fin q => if Qc_eq_bool q 0 then xsigned p false else Fin (p / q)
  | Fin _, Inf _ => Fin 0
  | Inf m, Fin q => if Qc_eq_bool q 0 then Inf m else xsigned q m
  | Inf _, Inf _ => NaN
  end.
Definition xlt (a b : xnum) : bool :=
  match a, b with
  | Fin p, Fin q => Qc_ltb p q
  | NaN, _ | _, NaN => false
  | Inf m, Inf n => m && negb n
  | Inf m, Fin _ => m
  | Fin _, Inf n => negb n
  end.

(** Halves away from zero. *)
Definition Qc_of_Z (z : Z) : Qc := Q2Qc (inject_Z z).
Definition Qc_round (q : Qc) : Qc :=
  if Qc_ltb q 0 then (- Qc_of_Z (Qround.Qfloor (this (- q + Q2Qc (1 # 2)))))%Qc
  else Qc_of_Z (Qround.Qfloor (this (q + Q2Qc (1 # 2))%Qc)).
Definition xround (a : xnum) : xnum := match a with Fin q => Fin (Qc_round q) | _ => a end.

Definition Qc_of_N (n : N) : Qc := Qc_of_Z (Z.of_N n).
Definition max_float : Z := (2 ^ 1024 - 2 ^ 971)%Z.

Definition exact : arith := {|
  num := xnum; of_N := fun n => Fin (Qc_of_N n); nadd := xadd; nsub := xsub; nmul := xmul; ndiv := xdiv; nlt := xlt;
  nround := xround; nnan := NaN; nmax := Fin (Qc_of_Z max_float) |}.
