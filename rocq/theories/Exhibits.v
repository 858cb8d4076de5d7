(** Model of the exhibits of the score axes and of the setup of the score keepers:
    internal/scoring/axis/benchmarks.go 126-139, 142-147, 212-218, axis/warnings.go
    98-106, score/axis.go 34-56, score/keeper.go 26-53, internal/scoring/keeper.

    Left out: the documents and summaries (markdown), and how an exhibit is printed as
    HTML (score/exhibit.go, exhibit/table.gohtml and list.gohtml). *)

From Coq Require Import Ascii String List NArith ZArith Bool.
From Verif Require Import Bytes GoSort Warnings WarnParser Bench Scoring Keepers.
Import ListNotations.
Local Open Scope list_scope.

(** strconv.Itoa(int(value)) of a uint; both have 64 bits. *)
Definition itoa (n : N) : bytes :=
  dec_of_Z (if N.ltb n (2 ^ 63) then Z.of_N n else Z.of_N n - 2 ^ 64)%Z.

(** exhibit/table.go 29-34 and 36-43, exhibit/list.go 29-33 and 35-41. *)
Inductive exhibit : Type :=
| Table (caption : bytes) (columns : list bytes) (rows : list (list bytes))
| Listing (caption : bytes) (items : list bytes).

(** Weight: bench/weight.go 7-13. *)
Definition weight_name (w : weight) : bytes :=
  match w with
  | Allocations => B "Allocations"
  | AllocBytes => B "Alloc Bytes"
  | Nanoseconds => B "Nanoseconds"
  end.

(** The weights of an axis are a map; what the scores use is zero for a key that is missing. *)
Definition bench_weights : Type := weight -> option N.
Definition level_weights : Type := N -> option N.
Definition used {K} (m : K -> option N) (k : K) : N := match m k with Some n => n | None => 0%N end.

(** The rows of both tables: benchmarks.go 127-132, warnings.go 99-104. *)
Fixpoint weight_rows {K} (name : K -> bytes) (m : K -> option N) (order : list K) : list (list bytes) :=
  match order with
  | [] => []
  | k :: rest => match m k with Some n => [name k; itoa n] :: weight_rows name m rest | None => weight_rows name m rest end
  end.

(** BenchOptions: benchmarks.go 39-43; nil is None. *)
Record bench_options : Type := { bo_name : bytes; bo_include : option (list bytes); bo_exclude : option (list bytes) }.
Definition no_options : bench_options := {| bo_name := []; bo_include := None; bo_exclude := None |}.
(** As the scores see them (Scoring.v). *)
Definition scoring_options (o : bench_options) : options :=
  {| o_include := bo_include o; o_exclude := match bo_exclude o with Some l => l | None => [] end |}.

(** The exhibits of a benchmark axis after Setup: benchmarks.go 126-139.  Those there were
    before are replaced. *)
Definition bench_exhibits (v : world) (o : bench_options) (m : bench_weights) (before : list exhibit) : list exhibit :=
  [Table [] [B "Data"; B "Weight"] (weight_rows weight_name m weight_order)]
  ++ match bo_include o with Some l => [Listing (B "Included") (map (test_name v) l)] | None => [] end
  ++ match bo_exclude o with Some l => [Listing (B "Excluded") (map (test_name v) l)] | None => [] end.

(** Those of a warning axis: warnings.go 98-106, AddExhibit: axis.go 46-51. *)
Definition warn_exhibits (m : level_weights) (before : list exhibit) : list exhibit :=
  before ++ [Table [] [B "Level"; B "Weight"] (weight_rows level_string m level_order)].

(** ** The keepers *)

(** An axis as NewBenchmarks and NewWarnings make it. *)
Inductive axis : Type := Warns (m : level_weights) | Benches (m : bench_weights) (o : bench_options).

(** Name: benchmarks.go 142-147, warnings.go 110-112. *)
Definition axis_name (a : axis) : bytes :=
  match a with
  | Warns _ => B "Warnings"
  | Benches _ o => match bo_name o with [] => B "Benchmarks" | n => n end
  end.

(** The filters of internal/scoring/filter (Keepers.v). *)
Inductive which_filter : Type := Basic | DedupOnly | ReplAttrOnly.
Definition filter_made (f : which_filter) : filter -> Prop :=
  match f with Basic => basic_filter | DedupOnly => dedup_filter | ReplAttrOnly => replattr_filter end.

Record keeper : Type := { k_x : axis; k_y : axis; k_filter : which_filter; k_caption : bytes; k_title : bytes }.
(** NewKeeper: score/keeper.go 35-53. *)
Definition new_keeper (x y : axis) (f : which_filter) (caption title : bytes) : keeper := {|
  k_x := x; k_y := y; k_filter := f;
  k_caption := match caption with [] => B "No chart caption yet!!!" | c => c end;
  k_title := match title with [] => B "No keeper title yet!!!" | t => t end |}.

(** keeper/default.go 56-68, simple.go 45-55. *)
Definition default_level_weight : level_weights := fun l =>
  if N.eqb l level_required then Some 8%N else if N.eqb l level_implied then Some 4%N
  else if N.eqb l level_suggested then Some 2%N else if N.eqb l level_admin then Some 1%N else None.
Definition default_bench_weight : bench_weights := fun w =>
  match w with Allocations => Some 1%N | AllocBytes => Some 2%N | Nanoseconds => Some 3%N end.
Definition simple_level_weight : level_weights := fun l =>
  if N.eqb l level_required then Some 2%N else if N.eqb l level_implied then Some 1%N else None.
Definition simple_bench_weight : bench_weights := fun w =>
  match w with Allocations => Some 1%N | AllocBytes => None | Nanoseconds => Some 2%N end.
(** keeper/size.go 51-56. *)
Definition large_tests : list bytes := [B "Bench.BigGroup"; B "Bench.Logging"].

Section Setup.
(** The captions: default.go 28-31, size.go 28-30. *)
Variables caption size_caption : bytes.

(** setupDefault: default.go 34-51; setupSimple: simple.go 24-41; setupReplAttr:
    replattr.go 19-33; setupDedup: dedup.go 19-33; setupSize: size.go 33-48. *)
Definition with_defaults (f : which_filter) : keeper :=
  new_keeper (Warns default_level_weight) (Benches default_bench_weight no_options) f caption (B "Speed vs. Functionality").
Definition setups : list (bytes * keeper) := [
  (B "Default", with_defaults Basic);
  (B "Simple", new_keeper (Warns simple_level_weight) (Benches simple_bench_weight no_options) Basic caption (B "Speed vs. Functionality"));
  (B "+ReplAttr", with_defaults ReplAttrOnly);
  (B "+Dedup", with_defaults DedupOnly);
  (B "Size", new_keeper
     (Benches default_bench_weight {| bo_name := B "Large"; bo_include := Some large_tests; bo_exclude := None |})
     (Benches default_bench_weight {| bo_name := B "Small"; bo_include := None; bo_exclude := Some large_tests |})
     Basic size_caption (B "Large vs Small"))].

(** The first part of Setup: keeper/setup.go 11-25.  [true]: an error, and the rest is not
    registered. *)
Fixpoint register (l : list (bytes * keeper)) (r : registry keeper) : bool * registry keeper :=
  match l with
  | [] => (false, r)
  | (tag, k) :: rest => let (failed, r') := add_keeper tag k r in if failed then (true, r') else register rest r'
  end.
Definition keeper_setup : registry keeper -> bool * registry keeper := register setups.
End Setup.
