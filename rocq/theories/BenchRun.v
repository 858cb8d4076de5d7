(** Model of the loop of the benchmark suite: which benchmarks are run, with which
    logger, what is verified, and under which name warnings are filed
    (bench/tests/suite.go, bench/tests/warnings.go, infra/creator.go,
    internal/misc/function.go).

    Left out: the timing itself (testing.B; for the count of lines see CountWriter.v),
    the debug output, panics (recoverAndFailOnPanic), the log messages of the loop
    itself, and methods called Benchmark... that do not return a Benchmark with a
    BenchmarkFn, of which there are none. *)

From Coq Require Import Ascii String List NArith ZArith Bool Arith.
From Verif Require Import Bytes Regex GoSort Slog Warnings BenchChecks BenchSuite.
Import ListNotations.
Local Open Scope list_scope.

(** ** internal/misc/function.go *)

(** strings.HasPrefix and strings.TrimPrefix *)
Fixpoint after_prefix (p s : bytes) : option bytes :=
  match p, s with
  | [], _ => Some s
  | c :: p', d :: s' => if Ascii.eqb c d then after_prefix p' s' else None
  | _, [] => None
  end.
Definition starts_with (p s : bytes) : bool := match after_prefix p s with Some _ => true | None => false end.
Definition trim_prefix (p s : bytes) : bytes := match after_prefix p s with Some r => r | None => s end.

(** The part after the last dot: function.go 20-21. *)
Definition last_part (f : bytes) : bytes := last (split_on (chr 46) f) [].

(** CurrentFunctionName: function.go 12-27.  [stack]: the full names of the functions
    that are being executed, the caller of CurrentFunctionName first.  Without any frame
    the loop still looks at one without a name. *)
Definition current_function_name (prefix : bytes) (stack : list bytes) : bytes :=
  let frames := match firstn 10 stack with [] => [[]] | l => l end in
  match List.find (starts_with prefix) (map last_part frames) with
  | Some f => f
  | None => B "Unknown"
  end.

(** ** infra/creator.go *)

(** A function that makes handlers (or loggers) is given by what a benchmark's calls can
    write through what it makes.  [b_ops] is what HandlerFn does. *)
Definition maker : Type := benchmark -> bytes -> Prop.

(** Creator: creator.go 28-34, without summary and links (see Summary.v). *)
Record creator : Type := { c_name : bytes; c_handler : option maker; c_logger : option maker }.

(** NewCreator: creator.go 42-58; [None] is os.Exit(1). *)
Definition new_creator (name : bytes) (handler_fn logger_fn : option maker) : option creator :=
  match name, handler_fn, logger_fn with
  | [], _, _ | _, None, None => None
  | _, _, _ => Some {| c_name := name; c_handler := handler_fn; c_logger := logger_fn |}
  end.

(** CanMakeHandler: creator.go 81-83. *)
Definition can_make_handler (c : creator) : bool := match c_handler c with Some _ => true | None => false end.

(** Without HandlerFn. *)
Definition no_ops (b : benchmark) : benchmark :=
  {| b_source := b_source b; b_ops := []; b_calls := b_calls b; b_verify := b_verify b |}.

(** NewLogger: creator.go 63-69.  Calling a nil function panics. *)
Definition new_logger (c : creator) : maker := fun b out =>
  match c_logger c with
  | Some f => f (no_ops b) out
  | None => match c_handler c with Some f => f (no_ops b) out | None => False end
  end.

(** benchmark.HandlerFn != nil: all of them derive something (BenchSuite.v). *)
Definition has_handler_fn (b : benchmark) : bool := match b_ops b with [] => false | _ => true end.

(** logger: bench/tests/suite.go 63-72. *)
Definition suite_logger (c : creator) : maker := fun b out =>
  if has_handler_fn b then
    match c_handler c with
    | Some f => f b out
    | None => new_logger c b out
    end
  else new_logger c b out.

(** ** bench/tests/warnings.go and suite.go: the suite *)

(** infra/warning/admin.go 11-14. *)
Definition no_handler_creation : warning :=
  {| w_level := level_admin; w_name := B "NoHandlerCreation"; w_summary := B "Test depends on unavailable handler creation" |}.

(** Administrative: admin.go 40-42, in some order. *)
Definition administrative : list warning :=
  [skip_dedup; no_handler_creation; skipping_test; test_error; undefined; unused].

(** NewSlogBenchmarkSuite: suite.go 39-46, NewWarningManager: warnings.go 8-14; [more] are the
    warnings of the levels Required, Implied and Suggested.  [fn]: what
    CurrentFunctionName gives in WarnOnly. *)
Definition suite_manager (name : bytes) (more : list warning) (fn : bytes) : manager :=
  warn_only no_handler_creation fn (predefine more (new_manager administrative name (B "# "))).

(** ** Run: suite.go 82-183 *)

Definition benchmark_prefix : bytes := B "Benchmark".

(** What Run does that can be seen: it prints, leaves a benchmark out, runs it once into
    a buffer, verifies the buffer, hands the benchmark to testing.B. *)
Inductive event : Type :=
| Printed (text : bytes)
| Skipped (method : bytes)
| Wrote (method out : bytes)
| Verified (method : bytes) (err : option bytes)
| Timed (method : bytes).

(** The methods whose names start with Benchmark, in reflection's order, by name. *)
Definition methods (bs : list (bytes * benchmark)) : list (bytes * benchmark) :=
  sort_by (fun a b => blt (fst a) (fst b)) (map (fun nb => (benchmark_prefix ++ fst nb, snd nb)) bs).

(** The body of the loop: 100-181; [just]: the flag justTests. *)
Inductive run_method (c : creator) (just : bool) (name : bytes) (b : benchmark) (m : manager) : list event -> manager -> Prop :=
| run_skip : has_handler_fn b && negb (can_make_handler c) = true ->
    run_method c just name b m [Skipped name] (add_warning no_handler_creation name [] [] m)
| run_it out lm m' err : has_handler_fn b && negb (can_make_handler c) = false -> suite_logger c b out ->
    b_verify b out None m = (lm, m', err) ->
    run_method c just name b m ([Wrote name out; Verified name err] ++ if just then [] else [Timed name]) m'.

Inductive run_methods (c : creator) (just : bool) : list (bytes * benchmark) -> manager -> list event -> manager -> Prop :=
| run_none m : run_methods c just [] m [] m
| run_next name b ms m evs m1 evs' m2 : run_method c just name b m evs m1 -> run_methods c just ms m1 evs' m2 ->
    run_methods c just ((name, b) :: ms) m (evs ++ evs') m2.

(** 89-91; [stack]: the functions being executed, Run first. *)
Definition handler_line (stack : list bytes) (name : bytes) : bytes :=
  B "# Handler[" ++ trim_prefix benchmark_prefix (current_function_name benchmark_prefix stack) ++ B "]=""" ++ name ++ [quote; newline].

Inductive bench_run (c : creator) (just : bool) (stack : list bytes) (bs : list (bytes * benchmark)) (m : manager) : list event -> manager -> Prop :=
| bench_runs evs m' : run_methods c just (methods bs) m evs m' ->
    bench_run c just stack bs m (Printed (handler_line stack (c_name c)) :: evs) m'.

(** DontCount: benchmarks.go 75, 255. *)
Definition dont_count : list bytes := [B "Disabled"; B "Logging"].

(** 176-179: the run of a benchmark is fatal if [n] executions wrote another number of
    lines, [written], to the counting writer. *)
Definition fatal (name : bytes) (n written : N) : bool := negb (existsb (beq name) dont_count) && negb (N.eqb n written).
