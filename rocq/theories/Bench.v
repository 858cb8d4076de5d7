(** Model of the benchmark data of the server and of its parser:
    internal/data/bench.go, bench_parser.go, bench_items.go and setup.go, and of
    the tag lists of internal/data/warnings.go. *)

From Coq Require Import Ascii String List NArith QArith Bool Arith Permutation.
From Verif Require Import Bytes GoSort Regex Warnings WarnParser.
Import ListNotations.
Local Open Scope list_scope.

(** ** internal/data/bench.go *)

(** TestRecord: bench.go 20-28.  A float64 is the rational it stands for; the
    divisions below are exact here and rounded in Go. *)
Record trec : Type := {
  t_runs : N; t_nanos : Q; t_bytes : N; t_allocs : N; t_mb : Q; t_gb : Q; t_tb : Q
}.

(** BenchItems: bench_items.go 5-15. *)
Inductive item : Type := Runs | Nanos | MemAllocs | MemBytes | MbPerSec | GbPerSec | TbPerSec.

Definition q_of_N (n : N) : Q := inject_Z (Z.of_N n).

(** IsEmpty: bench.go 31-33. *)
Definition is_empty (r : trec) : bool := N.eqb (t_runs r) 0.

(** ItemValue: bench.go 36-56, for the items there are.  Conversion of a uint64 is
    exact here. *)
Definition item_value (r : trec) (i : item) : Q :=
  match i with
  | Runs => q_of_N (t_runs r)
  | Nanos => t_nanos r
  | MemAllocs => q_of_N (t_allocs r)
  | MemBytes => q_of_N (t_bytes r)
  | MbPerSec => t_mb r
  | GbPerSec => t_gb r
  | TbPerSec => t_tb r
  end.

(** Benchmarks: bench.go 61-71.  The slices tests and handlers are nil exactly
    when they are empty. *)
Record bench : Type := {
  b_by_test : gomap (gomap trec);
  b_by_handler : gomap (gomap trec);
  b_tests : list bytes;
  b_handlers : list bytes;
  b_test_names : gomap bytes;
  b_cpus : gomap N;
  b_handler_names : gomap bytes;
  b_warning_text : bytes;
  b_lookup : option (gomap bytes)
}.

(** NewBenchmarks: bench.go 73-81. *)
Definition new_bench : bench := {|
  b_by_test := []; b_by_handler := []; b_tests := []; b_handlers := []; b_test_names := []; b_cpus := [];
  b_handler_names := []; b_warning_text := []; b_lookup := None |}.

Definition has_key {A} (k : bytes) (m : gomap A) : bool := match get k m with Some _ => true | None => false end.
(** HasHandler: bench.go 86-89; HasTest: 92-95. *)
Definition has_handler (b : bench) (tag : bytes) : bool := has_key tag (b_by_handler b).
Definition has_test (b : bench) (tag : bytes) : bool := has_key tag (b_by_test b).

Definition inner {A} (k : bytes) (m : gomap (gomap A)) : gomap A := match get k m with Some x => x | None => [] end.
(** HandlerRecordsFor: bench.go 123-125; TestRecordsFor: 151-153. *)
Definition handler_records_for (b : bench) (test : bytes) : gomap trec := inner test (b_by_test b).
Definition test_records_for (b : bench) (handler : bytes) : gomap trec := inner handler (b_by_handler b).

Definition name_or_tag (tag : bytes) (m : gomap bytes) : bytes := match get tag m with Some n => n | None => tag end.
(** HandlerName: bench.go 114-120; TestName: 142-148. *)
Definition b_handler_name (b : bench) (tag : bytes) : bytes := name_or_tag tag (b_handler_names b).
Definition b_test_name (b : bench) (tag : bytes) : bytes := name_or_tag tag (b_test_names b).

Definition set_tests (x : list bytes) (b : bench) : bench := {|
  b_by_test := b_by_test b; b_by_handler := b_by_handler b; b_tests := x; b_handlers := b_handlers b;
  b_test_names := b_test_names b; b_cpus := b_cpus b; b_handler_names := b_handler_names b;
  b_warning_text := b_warning_text b; b_lookup := b_lookup b |}.
Definition set_handlers (x : list bytes) (b : bench) : bench := {|
  b_by_test := b_by_test b; b_by_handler := b_by_handler b; b_tests := b_tests b; b_handlers := x;
  b_test_names := b_test_names b; b_cpus := b_cpus b; b_handler_names := b_handler_names b;
  b_warning_text := b_warning_text b; b_lookup := b_lookup b |}.
Definition set_lookup (x : gomap bytes) (b : bench) : bench := {|
  b_by_test := b_by_test b; b_by_handler := b_by_handler b; b_tests := b_tests b; b_handlers := b_handlers b;
  b_test_names := b_test_names b; b_cpus := b_cpus b; b_handler_names := b_handler_names b;
  b_warning_text := b_warning_text b; b_lookup := Some x |}.

(** The keys of a map in the order of some range loop, sorted by name with
    sort.Slice: bench.go 130-135, 158-163, warnings.go 107-112, 151-156. *)
Definition sorted_keys {A} (name : bytes -> bytes) (m : gomap A) (l : list bytes) : Prop :=
  exists ks, Permutation (keys m) ks /\ sort_slice (on name blt) ks l.

(** A cached list: returned if not empty, otherwise made. *)
Definition cached_keys {A} (name : bytes -> bytes) (m : gomap A) (cache out : list bytes) : Prop :=
  match cache with [] => sorted_keys name m out | _ => out = cache end.

(** HandlerTags: bench.go 128-138; TestTags: 156-166.  A call [b], the list
    returned, the state after it. *)
Definition handler_tags (b : bench) (out : list bytes) (b' : bench) : Prop :=
  cached_keys (b_handler_name b) (b_by_handler b) (b_handlers b) out /\ b' = set_handlers out b.
Definition test_tags (b : bench) (out : list bytes) (b' : bench) : Prop :=
  cached_keys (b_test_name b) (b_by_test b) (b_tests b) out /\ b' = set_tests out b.

(** HandlerLookup: bench.go 102-110; the range loop takes any order. *)
Definition invert (l : gomap bytes) : gomap bytes := fold_left (fun m e => put (snd e) (fst e) m) l [].
Definition handler_lookup (b : bench) (out : gomap bytes) (b' : bench) : Prop :=
  match b_lookup b with
  | Some m => out = m /\ b' = b
  | None => (exists l, Permutation (b_handler_names b) l /\ out = invert l) /\ b' = set_lookup out b
  end.

(** ** internal/data/bench_parser.go *)

(** The patterns: bench_parser.go 13-18. *)
Definition is_not (c : ascii) : ascii -> bool := fun d => negb (Ascii.eqb d c).
Definition nonspaces : re := rplus (RChr is_nonspace).
Definition number : re := RSeq digits1 (ropt (RSeq (lit ".") digits1)).

Definition ptn_handler_def : re :=
  rcat [RBol; lit "#"; ws; lit "Handler["; RGroup 1 nonspaces; lit "]"; ws; lit "="; ws; RChr (is_char quote);
        RGroup 2 nonspaces; RChr (is_char quote); ws; REol].
Definition ptn_warn_line : re := rcat [RBol; lit "# "; RGroup 1 dots].
Definition ptn_data_line : re :=
  rcat [RBol; lit "Benchmark"; RGroup 1 (rplus (RChr (is_not (chr 47)))); lit "/Benchmark";
        RGroup 2 (rplus (RChr (is_not (chr 45)))); lit "-"; RGroup 3 digits1; ws1; RGroup 4 digits1; ws1;
        RGroup 5 number; ws1; lit "ns/op"; RWord].
Definition ptn_allocs_op : re := rcat [RChr is_space; RGroup 1 digits1; ws1; lit "allocs/op"; RWord].
Definition ptn_bytes_op : re := rcat [RChr is_space; RGroup 1 digits1; ws1; lit "B/op"; RWord].
Definition ptn_mb_sec : re := rcat [RChr is_space; RGroup 1 number; ws1; lit "MB/s"].

(** strconv.ParseUint(s, 10, 64) on digits. *)
Definition digits_value (s : bytes) : N := fold_left (fun a c => (a * 10 + (code c - 48))%N) s 0%N.
Definition parse_uint (s : bytes) : option N :=
  let n := digits_value s in if N.ltb n (2 ^ 64) then Some n else None.

Section Parse.
Variable v : world.
(** strconv.ParseFloat(s, 64) on digits with or without a decimal point; no value
    if it is out of range. *)
Variable pf : bytes -> option Q.

(** What a data line says. *)
Record dline : Type := {
  dl_handler : bytes; dl_test : bytes; dl_cpus : N; dl_runs : N; dl_nanos : Q; dl_allocs : N; dl_bytes : N; dl_mb : Q
}.

(** A number that may be missing: bench_parser.go 74-88. *)
Definition optional {A} (p : re) (parse : bytes -> option A) (zero : A) (line : bytes) : option A :=
  match find p line with Some f => parse (sub 1 f) | None => Some zero end.

(** bench_parser.go 61-90: no match, an error or the data. *)
Inductive reading : Type := NoData | Bad | Data (d : dline).
Definition read_data (line : bytes) : reading :=
  match find ptn_data_line line with
  | None => NoData
  | Some f =>
      match parse_uint (sub 3 f), parse_uint (sub 4 f), pf (sub 5 f),
            optional ptn_allocs_op parse_uint 0%N line, optional ptn_bytes_op parse_uint 0%N line,
            optional ptn_mb_sec pf 0%Q line with
      | Some cpus, Some runs, Some ns, Some allocs, Some byts, Some mb =>
          Data {| dl_handler := sub 1 f; dl_test := sub 2 f; dl_cpus := cpus; dl_runs := runs; dl_nanos := ns;
                  dl_allocs := allocs; dl_bytes := byts; dl_mb := mb |}
      | _, _, _, _, _, _ => Bad
      end
  end.

Definition bench_tag (test : bytes) : bytes := B "Bench." ++ test.
Definition put2 {A} (k1 k2 : bytes) (x : A) (m : gomap (gomap A)) : gomap (gomap A) := put k1 (put k2 x (inner k1 m)) m.

(** The two records made: bench_parser.go 106-114, 119-125. *)
Definition test_record (d : dline) : trec := {|
  t_runs := dl_runs d; t_nanos := dl_nanos d; t_bytes := dl_bytes d; t_allocs := dl_allocs d; t_mb := dl_mb d;
  t_gb := dl_mb d / 1000; t_tb := dl_mb d / 1000000 |}.
Definition handler_record (d : dline) : trec := {|
  t_runs := dl_runs d; t_nanos := dl_nanos d; t_bytes := dl_bytes d; t_allocs := dl_allocs d; t_mb := dl_mb d;
  t_gb := 0; t_tb := 0 |}.

(** bench_parser.go 93-126. *)
Definition store (d : dline) (b : bench) : bench :=
  let test := bench_tag (dl_test d) in
  let h := dl_handler d in
  {| b_by_test := put2 test h (test_record d) (b_by_test b);
     b_by_handler := put2 h test (handler_record d) (b_by_handler b);
     b_tests := b_tests b; b_handlers := b_handlers b;
     b_test_names := put test (test_name v test) (b_test_names b);
     b_cpus := put test (dl_cpus d) (b_cpus b);
     b_handler_names := if has_key h (b_handler_names b) then b_handler_names b
                        else put h (handler_name v h) (b_handler_names b);
     b_warning_text := b_warning_text b; b_lookup := b_lookup b |}.

(** bench_parser.go 53 *)
Definition define_handler (tag name : bytes) (b : bench) : bench := {|
  b_by_test := b_by_test b; b_by_handler := b_by_handler b; b_tests := b_tests b; b_handlers := b_handlers b;
  b_test_names := b_test_names b; b_cpus := b_cpus b; b_handler_names := put tag name (b_handler_names b);
  b_warning_text := b_warning_text b; b_lookup := b_lookup b |}.

(** bench_parser.go 56-59 *)
Definition add_text (t text : bytes) : bytes := match text with [] => t | _ => text ++ newline :: t end.
Definition add_warning (t : bytes) (b : bench) : bench := {|
  b_by_test := b_by_test b; b_by_handler := b_by_handler b; b_tests := b_tests b; b_handlers := b_handlers b;
  b_test_names := b_test_names b; b_cpus := b_cpus b; b_handler_names := b_handler_names b;
  b_warning_text := add_text t (b_warning_text b); b_lookup := b_lookup b |}.

(** The loop: bench_parser.go 39-127; the flag tells of an error returned. *)
Fixpoint bench_loop (lines : list bytes) (b : bench) : bench * bool :=
  match lines with
  | [] => (b, false)
  | l :: ls =>
      match find ptn_handler_def l with
      | Some f => bench_loop ls (define_handler (sub 1 f) (sub 2 f) b)
      | None =>
      match find ptn_warn_line l with
      | Some f => bench_loop ls (add_warning (sub 1 f) b)
      | None =>
      match read_data l with
      | NoData => bench_loop ls b
      | Bad => (b, true)
      | Data d => bench_loop ls (store d b)
      end
      end
      end
  end.

(** ParseBenchmarkData on a text: bench_parser.go 28-132. *)
Definition parse_bench (text : bytes) (b : bench) : bench * bool :=
  let (lines, err) := scan text in
  let (b', e) := bench_loop lines b in
  (b', e || err).

(** Setup: setup.go 13-30, for the two texts; the flag tells of an error, [None]
    is a panic.  The second call of HandlerLookup returns the same map. *)
Definition setup (bench_text verify_text : bytes) (b : bench) (w : wdata) (res : option (bench * wdata * bool)) : Prop :=
  let (b1, e1) := parse_bench bench_text b in
  if e1 then res = Some (b1, w, true)
  else
    exists lookup b2, handler_lookup b1 lookup b2 /\
    match parse_warning_data v (B "Bench") lookup (b_warning_text b2) w with
    | None => res = None
    | Some (w1, true) => res = Some (b2, w1, true)
    | Some (w1, false) =>
        match parse_warning_data v (B "Verify") lookup verify_text w1 with
        | None => res = None
        | Some (w2, e2) => res = Some (b2, w2, e2)
        end
    end.
End Parse.

(** ** The tag lists of internal/data/warnings.go *)

(** Warnings with the cached lists: warnings.go 26-34. *)
Record wtags : Type := { wt_data : wdata; wt_tests : list bytes; wt_handlers : list bytes }.
Definition new_wtags : wtags := {| wt_data := no_data; wt_tests := []; wt_handlers := [] |}.

(** HandlerName: warnings.go 61-67; TestName: 137-143. *)
Definition w_handler_name (w : wdata) (tag : bytes) : bytes :=
  match get tag (handler_data w) with Some d => hd_name d | None => tag end.
Definition w_test_name (w : wdata) (tag : bytes) : bytes := name_or_tag tag (test_names w).

(** HandlerTags: warnings.go 105-115; TestTags: 149-159. *)
Definition w_handler_tags (w : wtags) (out : list bytes) (w' : wtags) : Prop :=
  cached_keys (w_handler_name (wt_data w)) (by_handler (wt_data w)) (wt_handlers w) out /\
  w' = {| wt_data := wt_data w; wt_tests := wt_tests w; wt_handlers := out |}.
Definition w_test_tags (w : wtags) (out : list bytes) (w' : wtags) : Prop :=
  cached_keys (w_test_name (wt_data w)) (by_test (wt_data w)) (wt_tests w) out /\
  w' = {| wt_data := wt_data w; wt_tests := out; wt_handlers := wt_handlers w |}.

(** TestTagsForSource: warnings.go 162-173. *)
Definition w_tags_for (source : bytes) (w : wtags) (out : list bytes) (w' : wtags) : Prop :=
  exists tests, w_test_tags w tests w' /\
    out = filter (fun t => match has_prefix (match rev source with
                                             | c :: _ => if Ascii.eqb c (chr 58) then source else source ++ B "."
                                             | [] => B "."
                                             end) t with Some _ => true | None => false end) tests.

(** ParseWarningData on the whole value: the lists are left alone. *)
Definition parse_wtags (v : world) (source : bytes) (lookup : gomap bytes) (text : bytes) (w : wtags) (w' : wtags) : Prop :=
  exists e, parse_warning_data v source lookup text (wt_data w) = Some (wt_data w', e) /\
            wt_tests w' = wt_tests w /\ wt_handlers w' = wt_handlers w.
