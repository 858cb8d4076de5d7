(** Vocabulary for benchmark output: the result lines written by "go test -bench"
    and what should be known after reading them. *)

From Coq Require Import Ascii String List NArith QArith Bool.
From Verif Require Import Bytes GoSort Regex SpecReport Bench.
Import ListNotations.
Local Open Scope list_scope.

(** ** Result lines

    The names of the handler and of the test, the number of CPUs, the number of
    runs, the time per run as a decimal numeral; then the throughput, the bytes
    and the allocations per run, if they were measured. *)
Record result : Type := {
  rs_handler : bytes; rs_test : bytes; rs_cpus : N; rs_runs : N; rs_nanos : bytes;
  rs_mb : option bytes; rs_bytes : option N; rs_allocs : option N
}.

Definition measured {A} (show : A -> bytes) (unit : bytes) (x : option A) : list bytes :=
  match x with Some a => [show a; unit] | None => [] end.

(** The words of the line after the first. *)
Definition result_words (r : result) : list bytes :=
  [dec_of_N (rs_runs r); rs_nanos r; B "ns/op"]
  ++ measured (fun x => x) (B "MB/s") (rs_mb r)
  ++ measured dec_of_N (B "B/op") (rs_bytes r)
  ++ measured dec_of_N (B "allocs/op") (rs_allocs r).

(** The line, with any gaps between the words. *)
Fixpoint spread (gap : nat -> bytes) (n : nat) (ws : list bytes) : bytes :=
  match ws with [] => [] | w :: ws' => gap n ++ w ++ spread gap (S n) ws' end.
Definition result_line (gap : nat -> bytes) (r : result) : bytes :=
  B "Benchmark" ++ rs_handler r ++ B "/Benchmark" ++ rs_test r ++ B "-" ++ dec_of_N (rs_cpus r)
  ++ spread gap 0 (result_words r).

(** Gaps of blanks and tabs. *)
Definition gap_ok (gap : nat -> bytes) : Prop := forall n, gap n <> [] /\ forall c, In c (gap n) -> c = space \/ c = tab.

(** A name: one word without the separator that follows it. *)
Definition name_ok (sep : ascii) (s : bytes) : Prop := s <> [] /\ forall c, In c s -> ~ whitespace c /\ c <> sep.

(** Decimal numerals. *)
Definition digits (s : bytes) : Prop := s <> [] /\ forall c, In c s -> In c (B "0123456789").
Definition decimal (s : bytes) : Prop := digits s \/ exists a b, s = a ++ B "." ++ b /\ digits a /\ digits b.

Definition small (n : N) : Prop := (n < 2 ^ 64)%N.
Definition small_opt (x : option N) : Prop := match x with Some n => small n | None => True end.

Definition result_ok (pf : bytes -> option Q) (r : result) : Prop :=
  name_ok (chr 47) (rs_handler r) /\ name_ok (chr 45) (rs_test r) /\
  small (rs_cpus r) /\ small (rs_runs r) /\ small_opt (rs_bytes r) /\ small_opt (rs_allocs r) /\
  (decimal (rs_nanos r) /\ exists q, pf (rs_nanos r) = Some q) /\
  match rs_mb r with Some s => decimal s /\ exists q, pf s = Some q | None => True end.

(** The numbers. *)
Definition number_of (pf : bytes -> option Q) (s : bytes) : Q := match pf s with Some q => q | None => 0 end.
Definition nanos_of pf (r : result) : Q := number_of pf (rs_nanos r).
Definition mb_of pf (r : result) : Q := match rs_mb r with Some s => number_of pf s | None => 0 end.
Definition n_of (x : option N) : N := match x with Some n => n | None => 0%N end.

(** ** Texts

    Result lines among others; no other line begins with "Benchmark". *)
Inductive output_line : Type := Result (gap : nat -> bytes) (r : result) | Other (s : bytes).
Definition show_output (l : output_line) : bytes := match l with Result g r => result_line g r | Other s => s end.
Definition output_text (ls : list output_line) : bytes := concat (map (fun l => show_output l ++ [newline]) ls).
Definition output_ok (pf : bytes -> option Q) (l : output_line) : Prop :=
  match l with
  | Result g r => gap_ok g /\ result_ok pf r
  | Other s => one_line s /\ forall t, s <> B "Benchmark" ++ t
  end.

(** The last result for a test and a handler. *)
Definition last_result (ls : list output_line) (test handler : bytes) : option result :=
  fold_left (fun found l => match l with
                            | Result _ r => if beq (rs_test r) test && beq (rs_handler r) handler then Some r else found
                            | Other _ => found
                            end) ls None.

(** ** What is known *)

(** The record kept under two keys. *)
Definition record_at (m : gomap (gomap trec)) (a b : bytes) : option trec :=
  match get a m with Some x => get b x | None => None end.

(** A record that says what a result line said. *)
Record says (pf : bytes -> option Q) (r : result) (x : trec) : Prop := {
  says_runs : t_runs x = rs_runs r;
  says_nanos : t_nanos x = nanos_of pf r;
  says_bytes : t_bytes x = n_of (rs_bytes r);
  says_allocs : t_allocs x = n_of (rs_allocs r);
  says_mb : t_mb x = mb_of pf r
}.

(** Two records that agree in the five measured quantities. *)
Record agree (x y : trec) : Prop := {
  agree_runs : t_runs x = t_runs y;
  agree_nanos : t_nanos x = t_nanos y;
  agree_bytes : t_bytes x = t_bytes y;
  agree_allocs : t_allocs x = t_allocs y;
  agree_mb : t_mb x = t_mb y
}.
