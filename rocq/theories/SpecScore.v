(** What the benchmark scores should be: means of percentages, over the records
    of a map in no particular order. *)

From Coq Require Import Ascii String List NArith ZArith QArith Qcanon Bool.
From Verif Require Import Bytes GoSort Bench Num Scoring.
Import ListNotations.
Local Open Scope Qc_scope.

(** A measured quantity of a record. *)
Definition quantity (r : trec) (w : weight) : Qc :=
  match w with Nanoseconds => Q2Qc (t_nanos r) | AllocBytes => Qc_of_N (t_bytes r) | Allocations => Qc_of_N (t_allocs r) end.

Fixpoint lowest (vs : list Qc) : Qc :=
  match vs with [] => 0 | [v] => v | v :: vs' => if Qc_ltb v (lowest vs') then v else lowest vs' end.
Fixpoint highest (vs : list Qc) : Qc :=
  match vs with [] => 0 | [v] => v | v :: vs' => if Qc_ltb (highest vs') v then v else highest vs' end.

(** How good [x] is among [vs], in percent; nothing if they are all the same. *)
Definition rating (vs : list Qc) (x : Qc) : option Qc :=
  if Qc_ltb (lowest vs) (highest vs) then Some (Qc_of_N 100 * (highest vs - x) / (highest vs - lowest vs)) else None.

(** A weighted mean; nothing if a value is missing or nothing has weight. *)
Fixpoint add_up (l : list (option Qc * N)) : option (Qc * N) :=
  match l with
  | [] => Some (0, 0%N)
  | (None, _) :: _ => None
  | (Some x, n) :: l' =>
      match add_up l' with Some (s, m) => Some (x * Qc_of_N n + s, (n + m)%N) | None => None end
  end.
Definition mean (l : list (option Qc * N)) : option Qc :=
  match add_up l with Some (s, m) => if N.eqb m 0 then None else Some (s / Qc_of_N m) | None => None end.

(** The values that are there, each once. *)
Definition present (l : list (option Qc)) : list (option Qc * N) :=
  flat_map (fun x => match x with Some _ => [(x, 1%N)] | None => [] end) l.

Section Spec.
Variable bw : weight -> N.
(** The records of a test, by handler. *)
Variable records : bytes -> list (bytes * trec).

Definition rate (t : bytes) (r : trec) (w : weight) : option Qc :=
  rating (map (fun e => quantity (snd e) w) (records t)) (quantity r w).

(** A handler's result in one test: the quantities in which the handlers differ, with their weights. *)
Definition test_score (e : bytes * trec) : option Qc :=
  mean (flat_map (fun w => match rate (fst e) (snd e) w with Some x => [(Some x, bw w)] | None => [] end) weight_order).

(** Of a handler with the records [recs], by test. *)
Definition score_by_test (recs : list (bytes * trec)) : option Qc := mean (map (fun e => (test_score e, 1%N)) recs).
Definition quantity_score (recs : list (bytes * trec)) (w : weight) : option Qc :=
  mean (present (map (fun e => rate (fst e) (snd e) w) recs)).
Definition score_by_data (recs : list (bytes * trec)) : option Qc :=
  mean (map (fun w => (quantity_score recs w, bw w)) weight_order).
Definition score_default (recs : list (bytes * trec)) : option Qc :=
  mean [(score_by_data recs, 1%N); (score_by_test recs, 1%N)].
End Spec.

(** Tests that an axis scores: all or those included, without those excluded. *)
Definition listed_in (t : bytes) (l : list bytes) : bool := existsb (beq t) l.
Definition selected (o : options) (t : bytes) : bool :=
  match o_include o with Some l => listed_in t l | None => true end && negb (listed_in t (o_exclude o)).

Definition of_option (x : option Qc) : xnum := match x with Some q => Fin q | None => NaN end.
