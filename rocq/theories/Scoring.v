(** Model of the scores of the server: internal/scoring/axis (benchmarks.go,
    warnings.go, common, bench, warn) and internal/scoring/score/average.go,
    axis.go.  Written over an arithmetic (Num.v).  uint counters are natural
    numbers that do not wrap, except where a difference is taken.  The checks that
    only log (Check..., common/stuff.go) and the exhibits are left out. *)

From Coq Require Import Ascii String List NArith QArith Bool Arith Permutation.
From Verif Require Import Bytes GoSort Warnings WarnParser Bench Num.
Import ListNotations.
Local Open Scope list_scope.

(** a - b on uint64 (and uint). *)
Definition sub64 (a b : N) : N := ((a + (2 ^ 64 - b mod 2 ^ 64)) mod 2 ^ 64)%N.
Definition max_uint64 : N := (2 ^ 64 - 1)%N.

(** Weight: bench/weight.go 7-19. *)
Inductive weight : Type := Nanoseconds | AllocBytes | Allocations.
Definition weight_order : list weight := [Nanoseconds; AllocBytes; Allocations].
Definition same_weight (a b : weight) : bool :=
  match a, b with Nanoseconds, Nanoseconds | AllocBytes, AllocBytes | Allocations, Allocations => true | _, _ => false end.

(** Type: score/type.go 8-15. *)
Inductive stype : Type := Default | ByData | Original | ByTest.
Definition same_stype (a b : stype) : bool :=
  match a, b with Default, Default | ByData, ByData | Original, Original | ByTest, ByTest => true | _, _ => false end.

Section Scores.
Variable A : arith.
Notation num := (num A).
Notation "'nat_num' n" := (of_N A n) (at level 9).

(** ** common/range.go *)

(** RangeFloat64 and RangeUint64 behind the interface Range. *)
Inductive range : Type := FloatRange (low high : num) | UintRange (low high : N).

(** NewRangeFloat64: 28-33; NewRangeUint64: 68-73; &RangeUint64{}: warnings.go 66. *)
Definition new_float_range : range := FloatRange (nmax A) (nat_num 0).
Definition new_uint_range : range := UintRange max_uint64 0.
Definition zero_uint_range : range := UintRange 0 0.

(** RangeFloat64.AddValueFloat64: 39-46. *)
Definition widen (val low high : num) : range :=
  FloatRange (if nlt A val low then val else low) (if nlt A high val then val else high).
(** AddValueUint64: 35-37, 79-86. *)
Definition add_uint (val : N) (r : range) : range :=
  match r with
  | FloatRange low high => widen (nat_num val) low high
  | UintRange low high => UintRange (if N.ltb val low then val else low) (if N.ltb high val then val else high)
  end.
(** AddValueFloat64 on a RangeFloat64; that of RangeUint64 (75-77) is never called. *)
Definition add_float (val : num) (r : range) : range :=
  match r with FloatRange low high => widen val low high | UintRange _ _ => r end.

(** Length: 48-50, 88-90. *)
Definition range_length (r : range) : num :=
  match r with FloatRange low high => nsub A high low | UintRange low high => nat_num (sub64 high low) end.
(** RangedValue: 52-54, 92-94. *)
Definition range_high (r : range) : num := match r with FloatRange _ high => high | UintRange _ high => nat_num high end.
Definition ranged_value (r : range) (from : num) : num :=
  ndiv A (nmul A (nat_num 100) (nsub A (range_high r) from)) (range_length r).

(** ** score/average.go *)

Record average : Type := { a_value : num; a_count : N }.
Definition no_average : average := {| a_value := nat_num 0; a_count := 0 |}.
(** Add: 12-16; AddMultiple: 18-22; Average: 24-32. *)
Definition avg_add (v : num) (a : average) : average := {| a_value := nadd A (a_value a) v; a_count := a_count a + 1 |}.
Definition avg_add_multiple (v : num) (n : N) (a : average) : average :=
  {| a_value := nadd A (a_value a) (nmul A v (nat_num n)); a_count := a_count a + n |}.
Definition avg_average (a : average) : num :=
  if N.ltb 1 (a_count a) then ndiv A (a_value a) (nat_num (a_count a))
  else if N.eqb (a_count a) 1 then a_value a else nnan A.

(** Value.Round: score/axis.go 26-29. *)
Definition value_round (v : num) : num :=
  ndiv A (nround A (nmul A v (nat_num 1000000000))) (nat_num 1000000000).

(** ** common/data.go and bench/data.go: HandlerData, with the Averages made on demand *)

Record scored : Type := {
  s_by_test : gomap average; s_sub : weight -> average; s_over_data : average; s_over_tests : average;
  s_scores : stype -> num
}.
Definition new_scored : scored := {|
  s_by_test := []; s_sub := fun _ => no_average; s_over_data := no_average; s_over_tests := no_average;
  s_scores := fun _ => nat_num 0 |}.
Definition scored_test (s : scored) (t : bytes) : average :=
  match get t (s_by_test s) with Some a => a | None => no_average end.

Definition set_test (t : bytes) (a : average) (s : scored) : scored := {|
  s_by_test := put t a (s_by_test s); s_sub := s_sub s; s_over_data := s_over_data s; s_over_tests := s_over_tests s;
  s_scores := s_scores s |}.
Definition set_sub (w : weight) (a : average) (s : scored) : scored := {|
  s_by_test := s_by_test s; s_sub := fun x => if same_weight x w then a else s_sub s x; s_over_data := s_over_data s;
  s_over_tests := s_over_tests s; s_scores := s_scores s |}.
Definition set_over_data (a : average) (s : scored) : scored := {|
  s_by_test := s_by_test s; s_sub := s_sub s; s_over_data := a; s_over_tests := s_over_tests s; s_scores := s_scores s |}.
Definition set_over_tests (a : average) (s : scored) : scored := {|
  s_by_test := s_by_test s; s_sub := s_sub s; s_over_data := s_over_data s; s_over_tests := a; s_scores := s_scores s |}.
Definition set_score (t : stype) (v : num) (s : scored) : scored := {|
  s_by_test := s_by_test s; s_sub := s_sub s; s_over_data := s_over_data s; s_over_tests := s_over_tests s;
  s_scores := fun x => if same_stype x t then v else s_scores s x |}.

(** ** axis/benchmarks.go *)

Section BenchAxis.
(** The float64 of a record: the number that is read from the benchmark text. *)
Variable of_Q : Q -> num.
(** benchWeight; zero for a key that is missing. *)
Variable bw : weight -> N.

(** record.ItemValue(weight.Item()): data/bench.go 36-56, weight.go 21-32. *)
Definition measure (r : trec) (w : weight) : num :=
  match w with
  | Nanoseconds => of_Q (t_nanos r)
  | AllocBytes => nat_num (t_bytes r)
  | Allocations => nat_num (t_allocs r)
  end.

(** BenchOptions: 39-43, the two lists; nil is None. *)
Record options : Type := { o_include : option (list bytes); o_exclude : list bytes }.

(** testTagMap: 191-208, read as testTags[test]. *)
Definition tag_map (o : options) (all : list bytes) : gomap bool :=
  let m := fold_left (fun m t => put t true m) (match o_include o with Some l => l | None => all end) [] in
  fold_left (fun m t => put t false m) (o_exclude o) m.
Definition tagged (m : gomap bool) (t : bytes) : bool := match get t m with Some b => b | None => false end.

(** The three ranges of a test: 66-78; the records in the order of some range loop. *)
Definition ranges_of (recs : list (bytes * trec)) (w : weight) : range :=
  match w with
  | Nanoseconds => fold_left (fun r e => add_float (of_Q (t_nanos (snd e))) r) recs new_float_range
  | AllocBytes => fold_left (fun r e => add_uint (t_bytes (snd e)) r) recs new_uint_range
  | Allocations => fold_left (fun r e => add_uint (t_allocs (snd e)) r) recs new_uint_range
  end.

(** One quantity of one test of a handler: 98-107. *)
Definition score_weight (rng : weight -> range) (test : bytes) (record : trec) (s : scored) (w : weight) : scored :=
  if nlt A (nat_num 0) (range_length (rng w)) then
    let ranged := ranged_value (rng w) (measure record w) in
    let s := set_test test (avg_add_multiple ranged (bw w) (scored_test s test)) s in
    set_sub w (avg_add ranged (s_sub s w)) s
  else s.
(** One test: 97-109. *)
Definition score_test (rng : weight -> range) (test : bytes) (record : trec) (s : scored) : scored :=
  let s := fold_left (score_weight rng test record) weight_order s in
  set_over_tests (avg_add (avg_average (scored_test s test)) (s_over_tests s)) s.

(** bench/original.go: the running values of Original (39-46). *)
Record original : Type := { og_total : num; og_tests : N }.
Definition og_reset : original := {| og_total := nat_num 0; og_tests := 0 |}.

(** MakeRanges: original.go 124-155; testRange holds the same pairs as the ranges
    above, found with the comparisons in the other order. *)
Definition higher_uint (val : N) (r : range) : range :=
  match r with
  | UintRange low high => let high := if N.ltb high val then val else high in UintRange (if N.ltb val low then val else low) high
  | FloatRange _ _ => r
  end.
Definition higher_float (val : num) (r : range) : range :=
  match r with
  | FloatRange low high => let high := if nlt A high val then val else high in FloatRange (if nlt A val low then val else low) high
  | UintRange _ _ => r
  end.
Definition original_ranges (recs : list (bytes * trec)) (w : weight) : range :=
  match w with
  | Nanoseconds => fold_left (fun r e => higher_float (of_Q (t_nanos (snd e))) r) recs new_float_range
  | AllocBytes => fold_left (fun r e => higher_uint (t_bytes (snd e)) r) recs new_uint_range
  | Allocations => fold_left (fun r e => higher_uint (t_allocs (snd e)) r) recs new_uint_range
  end.

(** HandlerTest: original.go 58-76; the three ifs in their order. *)
Definition original_part (rng : weight -> range) (record : trec) (acc : num * N) (w : weight) : num * N :=
  let len := range_length (rng w) in
  if nlt A (nat_num 0) len then
    let distance := match rng w, w with
                    | UintRange _ high, Allocations => nat_num (sub64 high (t_allocs record))
                    | UintRange _ high, AllocBytes => nat_num (sub64 high (t_bytes record))
                    | r, _ => nsub A (range_high r) (measure record w)
                    end in
    (nadd A (fst acc) (ndiv A (nmul A (nmul A (nat_num (bw w)) (nat_num 100)) distance) len), (snd acc + bw w)%N)
  else acc.
Definition original_test (rng : weight -> range) (record : trec) (o : original) : original :=
  let (collect, count) := fold_left (original_part rng record) [Allocations; AllocBytes; Nanoseconds] (nat_num 0, 0%N) in
  {| og_total := nadd A (og_total o) (ndiv A collect (nat_num count)); og_tests := og_tests o + 1 |}.
(** Score: original.go 162-164. *)
Definition original_score (o : original) : num := ndiv A (value_round (og_total o)) (nat_num (og_tests o)).

(** The tests of a handler, in the order of some range loop: 92-112.  None is a
    panic: a test without ranges (a nil map, a nil pointer). *)
Fixpoint score_tests (sel : bytes -> bool) (rngs : bytes -> option ((weight -> range) * (weight -> range)))
    (recs : list (bytes * trec)) (o : original) (s : scored) : option (original * scored) :=
  match recs with
  | [] => Some (o, s)
  | (t, r) :: recs' =>
      if sel t then
        match rngs t with
        | Some (rng, org) => score_tests sel rngs recs' (original_test org r o) (score_test rng t r s)
        | None => None
        end
      else score_tests sel rngs recs' o s
  end.

(** One handler: 84-124. *)
Definition score_handler sel rngs (recs : list (bytes * trec)) (s : scored) : option scored :=
  match score_tests sel rngs recs og_reset s with
  | None => None
  | Some (o, s) =>
      let s := set_score Original (original_score o) s in
      let s := set_score ByTest (avg_average (s_over_tests s)) s in
      let s := fold_left (fun s w => set_over_data (avg_add_multiple (avg_average (s_sub s w)) (bw w) (s_over_data s)) s)
                 weight_order s in
      let s := set_score ByData (avg_average (s_over_data s)) s in
      Some (set_score Default (ndiv A (nadd A (s_scores s ByData) (s_scores s ByTest)) (nat_num 2)) s)
  end.

(** The handlers in their order; [order h] is the order of the range loop over
    the tests of [h]. *)
Fixpoint score_handlers sel rngs (order : bytes -> list (bytes * trec)) (hs : list bytes) (d : gomap scored)
  : option (gomap scored) :=
  match hs with
  | [] => Some d
  | h :: hs' =>
      match score_handler sel rngs (order h) (match get h d with Some s => s | None => new_scored end) with
      | None => None
      | Some s => score_handlers sel rngs order hs' (put h s d)
      end
  end.

(** Setup: 57-125; [d] is handlerData before, [res] after it.  TestTags and
    HandlerTags are called several times and answer the same each time. *)
Definition bench_axis_setup (opt : options) (b : bench) (d : gomap scored) (res : option (gomap scored)) (b' : bench) : Prop :=
  exists tests b1 handlers order,
    test_tags b tests b1 /\ handler_tags b1 handlers b' /\
    (forall h, Permutation (test_records_for b h) (order h)) /\
    exists torder1 torder2 : bytes -> list (bytes * trec),
      (forall t, Permutation (handler_records_for b t) (torder1 t)) /\
      (forall t, Permutation (handler_records_for b t) (torder2 t)) /\
      let sel := tagged (tag_map opt tests) in
      let rngs t := if existsb (beq t) tests && sel t then Some (ranges_of (torder1 t), original_ranges (torder2 t)) else None in
      res = score_handlers sel rngs order handlers d.

(** ScoreForTest: 165-167; ScoreForType: 169-171; None is a panic. *)
Definition b_score_for_test (d : gomap scored) (h t : bytes) : option num :=
  option_map (fun s => avg_average (scored_test s t)) (get h d).
Definition b_score_for_type (d : gomap scored) (h : bytes) (ty : stype) : option num :=
  option_map (fun s => s_scores s ty) (get h d).
(** HasTest: 150-159. *)
Definition b_has_test (d : gomap scored) (t : bytes) : bool :=
  existsb (fun e => N.ltb 0 (a_count (scored_test (snd e) t))) d.
End BenchAxis.

(** ** axis/warnings.go *)

Section WarnAxis.
Variable registered : N -> list bytes.
(** levelWeight; zero for a key that is missing. *)
Variable lw : N -> N.

(** warn.HandlerData: warn/data.go 9-37. *)
Record wscored : Type := { ws_by_level : N -> average; ws_counts : N -> N; ws_scores : stype -> num }.
Definition new_wscored : wscored := {|
  ws_by_level := fun _ => no_average; ws_counts := fun _ => 0%N; ws_scores := fun _ => nat_num 0 |}.

(** The number of registered warnings of a level that some handler has: 58-65,
    original.go 47-54. *)
Definition level_count (m : gomap wcount) (level : N) : N :=
  N.of_nat (length (filter (fun n => match get n m with
                                     | Some c => negb (Nat.eqb (length (wc_count c)) 0)
                                     | None => false
                                     end) (registered level))).
Definition level_range (m : gomap wcount) (level : N) : range := add_uint (level_count m level) zero_uint_range.
Definition max_score (m : gomap wcount) : N :=
  fold_left (fun a l => a + lw l * level_count m l)%N level_order 0%N.

(** The warnings of a handler at a level; DataLevel.Count: warnings.go 330-332. *)
Definition at_level (t : table) (level : N) : list bytes :=
  map (fun e => snd (fst e)) (filter (fun e => N.eqb (fst (fst e)) level) t).

(** One level of one handler: 81-92.  A level without entries has no DataLevel. *)
Definition score_level (m : gomap wcount) (t : table) (st : wscored * average) (level : N) : wscored * average :=
  let (s, by_data) := st in
  let count := N.of_nat (length (at_level t level)) in
  let '(counts, ranged) :=
    match at_level t level with
    | [] => (ws_counts s, nat_num 100)
    | _ => ((fun l => if N.eqb l level then count else ws_counts s l), ranged_value (level_range m level) (nat_num count))
    end in
  let s := {| ws_by_level := fun l => if N.eqb l level then avg_add ranged (ws_by_level s l) else ws_by_level s l;
              ws_counts := counts; ws_scores := ws_scores s |} in
  (s, avg_add_multiple (avg_average (ws_by_level s level)) (lw level) by_data).

(** MakeWarnScores: warn/original.go 59-77; unsigned subtraction. *)
Definition original_warn_score (m : gomap wcount) (t : table) : num :=
  let mx := max_score m in
  if N.eqb mx 0 then nat_num 100
  else let work := fold_left (fun a l => a + lw l * N.of_nat (length (at_level t l)))%N level_order 0%N in
       ndiv A (nmul A (nat_num 100) (nat_num (sub64 mx work))) (nat_num mx).

(** One handler: 73-96. *)
Definition score_warn_handler (m : gomap wcount) (t : table) (s : wscored) : wscored :=
  let (s, by_data) := fold_left (score_level m t) level_order (s, no_average) in
  {| ws_by_level := ws_by_level s; ws_counts := ws_counts s;
     ws_scores := fun ty => match ty with
                            | ByData | Default => avg_average by_data
                            | Original => original_warn_score m t
                            | ByTest => ws_scores s ByTest
                            end |}.

(** Setup: 45-97.  A handler tag that has no data any more cannot occur (None: panic). *)
Fixpoint score_warn_handlers (w : wdata) (hs : list bytes) (d : gomap wscored) : option (gomap wscored) :=
  match hs with
  | [] => Some d
  | h :: hs' =>
      match get h (by_handler w) with
      | None => None
      | Some t => score_warn_handlers w hs'
                    (put h (score_warn_handler (by_warning w) t (match get h d with Some s => s | None => new_wscored end)) d)
      end
  end.
Definition warn_axis_setup (w : wtags) (d : gomap wscored) (res : option (gomap wscored)) (w' : wtags) : Prop :=
  exists tests w1 handlers, w_test_tags w tests w1 /\ w_handler_tags w1 handlers w' /\
    res = score_warn_handlers (wt_data w) handlers d.

(** ScoreForLevel: 126-132; ScoreForType: 142-144; None is a panic. *)
Definition w_score_for_level (d : gomap wscored) (h : bytes) (level : N) : option num :=
  option_map (fun s => let a := ws_by_level s level in if N.ltb 0 (a_count a) then avg_average a else nat_num 100) (get h d).
Definition w_score_for_type (d : gomap wscored) (h : bytes) (ty : stype) : option num :=
  option_map (fun s => ws_scores s ty) (get h d).
End WarnAxis.
End Scores.
