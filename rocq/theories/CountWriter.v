(** internal/test/writer.go: the counting writer of the benchmarks, by itself and under
    the concurrent flash and sloggy machines. *)

From Coq Require Import Ascii String List NArith ZArith Bool Arith.
From Verif Require Import Bytes Slices FlashHeap FlashConc SloggyConc.
Import ListNotations.

Definition two64 : N := 18446744073709551616.

(** atomic.Uint64.Add(1). *)
Definition cw_add (count : N) : N := N.modulo (count + 1) two64.

(** The test of Write, writer.go 20. *)
Definition cw_counts (p : bytes) : bool := ends_with newline p.

(** Write, writer.go 19-24, as a whole: the count after it.  It returns len(p) and no
    error. *)
Definition cw_write (count : N) (p : bytes) : N := if cw_counts p then cw_add count else count.

(** ** Goroutines calling Write

    The test of the argument and the atomic addition are separate steps.  A goroutine
    has the arguments of its calls ahead of it; [true]: the first one was found to be
    counted and the addition comes next. *)
Record wstate : Type := { w_count : N; w_thr : nat -> bool * list bytes }.

Inductive wstep : nat -> wstate -> wstate -> Prop :=
| w_found i n th p todo : th i = (false, p :: todo) -> cw_counts p = true ->
    wstep i {| w_count := n; w_thr := th |} {| w_count := n; w_thr := upd th i (true, p :: todo) |}
| w_other i n th p todo : th i = (false, p :: todo) -> cw_counts p = false ->
    wstep i {| w_count := n; w_thr := th |} {| w_count := n; w_thr := upd th i (false, todo) |}
| w_added i n th p todo : th i = (true, p :: todo) ->
    wstep i {| w_count := n; w_thr := th |} {| w_count := cw_add n; w_thr := upd th i (false, todo) |}.

Inductive wreaches (st0 : wstate) : wstate -> Prop :=
| w_start : wreaches st0 st0
| w_more st st' i : wreaches st0 st -> wstep i st st' -> wreaches st0 st'.

Definition wstart (T : nat -> list bytes) : wstate := {| w_count := 0; w_thr := fun i => (false, T i) |}.
Definition wfinished (st : wstate) : Prop := forall i, w_thr st i = (false, []).

(** ** As the writer of a flash handler

    The Write calls a step of the flash machine completes for the writer [q] (which does
    not fail), and the count along an execution. *)
Definition flash_writes (q : nat) (a : option nat) (st st' : state) : list bytes :=
  match a with
  | None => []
  | Some i =>
    match t_phase (s_thr st i), t_phase (s_thr st' i) with
    | Writing c _ _ s _, Wrote _ _ _ => if Nat.eqb (k_sink c) q then [gread (s_heap st) s] else []
    | _, _ => []
    end
  end.

Inductive flash_counts (grow : policy) (q : nat) (st0 : state) : state -> N -> Prop :=
| fc_start : flash_counts grow q st0 st0 0
| fc_more st st' a n : flash_counts grow q st0 st n -> cstep grow false a st st' ->
    flash_counts grow q st0 st' (fold_left cw_write (flash_writes q a st st') n).

(** ** As the writer of a sloggy handler *)
Definition sloggy_writes (i : nat) (st st' : sstate) : list bytes :=
  match st_phase (ss_thr st i), st_phase (ss_thr st' i) with
  | SRun _ (x :: _), SRun _ _ => [x]
  | SLast _ x, SWrote _ => [x]
  | _, _ => []
  end.

Inductive sloggy_counts (st0 : sstate) : sstate -> N -> Prop :=
| sc_start : sloggy_counts st0 st0 0
| sc_more st st' i n : sloggy_counts st0 st n -> scstep false i st st' ->
    sloggy_counts st0 st' (fold_left cw_write (sloggy_writes i st st') n).

(** The check after a benchmark, bench/tests/suite.go 175-178: int(count.Written()) wraps. *)
Definition as_int (n : N) : Z := if N.ltb n 9223372036854775808 then Z.of_N n else Z.of_N n - Z.of_N two64.
Definition bench_passes (dont_count : bool) (b_n : Z) (count : N) : bool := dont_count || Z.eqb b_n (as_int count).
