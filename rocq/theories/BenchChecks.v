(** Model of bench/tests: the checks of the benchmark suite on the output of a
    single run (checks.go, utility.go), and the big group (data.go). *)

From Coq Require Import Ascii String List ZArith NArith Bool Arith QArith Qcanon.
From Verif Require Import Bytes GoSort GoQuote Slog Json Replace Warnings Regex.
Import ListNotations.
Local Open Scope nat_scope.

(** ** Decoded JSON

    What json.Unmarshal puts into a map[string]any: a float64 is a rational
    number (there is no NaN or infinity in JSON), a map an association list. *)
Inductive dyn : Type :=
| DNull
| DBool (b : bool)
| DNum (q : Qc)
| DStr (s : bytes)
| DArr (l : list dyn)
| DMap (l : list (bytes * dyn)).

Definition dmap : Type := gomap dyn.

(** A variable of type map[string]any; [None] is nil. *)
Definition log_map : Type := option dmap.

(** m[k] of a possibly nil map. *)
Definition lookup (k : bytes) (m : log_map) : option dyn :=
  match m with None => None | Some m => get k m end.

(** reflect.DeepEqual on such values (the maps inside are never nil). *)
Fixpoint deep_equal (a b : dyn) {struct a} : bool :=
  match a, b with
  | DNull, DNull => true
  | DBool x, DBool y => Bool.eqb x y
  | DNum x, DNum y => Qc_eq_bool x y
  | DStr x, DStr y => beq x y
  | DArr l, DArr m =>
      (fix go (l m : list dyn) : bool :=
         match l, m with
         | [], [] => true
         | x :: l', y :: m' => deep_equal x y && go l' m'
         | _, _ => false
         end) l m
  | DMap l, DMap m =>
      Nat.eqb (length l) (length m) &&
      (fix go (l : list (bytes * dyn)) : bool :=
         match l with
         | [] => true
         | (k, v) :: l' => match get k m with Some w => deep_equal v w | None => false end && go l'
         end) l
  | _, _ => false
  end.

(** ** The surroundings of a check *)

(** The flag useWarnings, what misc.CurrentFunctionName finds on the stack,
    strings.ToUpper, json.Marshal of an expected value, json.Unmarshal into a
    map[string]any (the map, nil or not, and the text of an error), and fmt's %v. *)
Record env : Type := {
  e_use : bool;
  e_fn : bytes;
  e_casing : casing;
  e_marshal : dyn -> option bytes;
  e_unmarshal : bytes -> log_map * option bytes;
  e_show : dyn -> bytes
}.

(** The warnings used: infra/warning/admin.go 8, 19; benchmark.go 8, 11; implied.go
    56, 64; suggested.go 8, 58. *)
Definition skip_dedup : warning := {| w_level := level_admin; w_name := B "SkipDedup"; w_summary := B "Test depends on dedup order" |}.
Definition test_error : warning := {| w_level := level_admin; w_name := B "TestError"; w_summary := B "Test harness error" |}.
Definition mismatch : warning := {| w_level := level_required; w_name := B "Mismatch"; w_summary := B "Logged record does not match expected" |}.
Definition not_disabled : warning := {| w_level := level_required; w_name := B "NotDisabled"; w_summary := B "Logging was not properly disabled" |}.
Definition source_caller : warning :=
  {| w_level := level_implied; w_name := B "SourceCaller"; w_summary := B "Source data logged as 'caller' instead of 'source'" |}.
Definition source_missing : warning :=
  {| w_level := level_implied; w_name := B "SourceKey"; w_summary := B "Source data not logged when AddSource flag set" |}.
Definition duplicated : warning := {| w_level := level_suggested; w_name := B "Duplicates"; w_summary := B "Duplicate field(s) found" |}.
Definition string_any : warning :=
  {| w_level := level_suggested; w_name := B "StringAny"; w_summary := B "map[string]any converted to strings in log records" |}.

(** Warning.Error and warningError.Error: infra/warning/errors.go 8-10, 29-31. *)
Definition warning_error (w : warning) : bytes :=
  level_string (w_level w) ++ B " [" ++ w_name w ++ B "] " ++ w_summary w.
Definition error_extra (w : warning) (extra : bytes) : bytes := warning_error w ++ B ": " ++ extra.

(** strings.Join(l, sep). *)
Fixpoint join_with (sep : bytes) (l : list bytes) : bytes :=
  match l with
  | [] => []
  | [x] => x
  | x :: l' => x ++ sep ++ join_with sep l'
  end.

(** VerifyFn: bench/tests/benchmarks.go 32.  The result has the content of the
    map passed in after the call (a nil map stays nil), the manager, and the text
    of the error. *)
Definition verify_fn : Type := bytes -> log_map -> manager -> log_map * manager * option bytes.

(** ** utility.go *)

(** fixLogMap: bench/tests/utility.go 57-69. *)
Definition fix_map (cs : casing) (m : dmap) : dmap :=
  let m := drop TimeKey m in
  let m := match get LevelKey m with
           | Some (DStr s) => put LevelKey (DStr (map_runes (cs_upper cs) s)) m
           | _ => m
           end in
  match get (B "message") m with
  | Some v => drop (B "message") (put MessageKey v m)
  | None => m
  end.
Definition fix_log_map (cs : casing) (m : log_map) : log_map := option_map (fix_map cs) m.

Section Checks.
Variable E : env.

(** getLogMap: bench/tests/benchmarks.go 263-272, and parseLogMap: utility.go
    73-80. *)
Definition get_log_map (captured : bytes) (lm : log_map) (m : manager) : log_map * manager :=
  match lm with
  | Some _ => (lm, m)
  | None =>
      let (lm', err) := e_unmarshal E captured in
      let m' := match err with
                | Some t => add_warning test_error (e_fn E) (B "unmarshal bytes: " ++ t) captured m
                | None => m
                end in
      (fix_log_map (e_casing E) lm', m')
  end.

(** The map passed in, after the check has worked on [lm']: the same map if there
    was one, else still nil. *)
Definition passed (lm lm' : log_map) : log_map := match lm with None => None | Some _ => lm' end.

(** ** checks.go *)

(** fields: bench/tests/checks.go 45-62. *)
Definition fields_check (test : bytes) (names : list bytes) : verify_fn := fun captured lm m =>
  let (lm', m1) := get_log_map captured lm m in
  let missing := filter (fun f => match lookup f lm' with Some _ => false | None => true end) names in
  match missing with
  | [] => (passed lm lm', m1, None)
  | _ =>
      let text := test ++ B ": " ++ join_with (B ",") missing in
      (passed lm lm', add_warning mismatch (e_fn E) text captured m1, Some (error_extra mismatch text))
  end.

(** One field of finderDeep: bench/tests/checks.go 120-141, [act] being
    actual[field]; and the whole of it on two maps, checks.go 116-146.  The first
    list is badFields, the second strFields; [None]: json.Marshal failed.  The
    order of the list stands for the order of the range loop.  The argument
    prefix, which nothing depends on, is left out. *)
Fixpoint find_field (v : dyn) (field : bytes) (act : option dyn) {struct v} : option (list bytes * list bytes) :=
  match v, act with
  | DMap e, Some (DMap a) =>
      match
        (fix go (l : list (bytes * dyn)) : option (list bytes * list bytes) :=
           match l with
           | [] => Some ([], [])
           | (k, w) :: l' =>
               match find_field w k (get k a) with
               | None => None
               | Some (b1, s1) =>
                   match go l' with
                   | None => None
                   | Some (b2, s2) => Some (b1 ++ b2, s1 ++ s2)
                   end
               end
           end) e
      with
      | None => None
      | Some (b, s) => Some (sort_by blt b, sort_by blt s)
      end
  | _, _ =>
      let actual := match act with Some x => x | None => DNull end in
      if deep_equal v actual then Some ([], [])
      else match actual with
           | DStr s =>
               match e_marshal E v with
               | None => None
               | Some t => if beq s t then Some ([], [field]) else Some ([field], [])
               end
           | _ => Some ([field], [])
           end
  end.

Definition finder_deep (expected actual : dmap) : option (list bytes * list bytes) :=
  find_field (DMap expected) [] (Some (DMap actual)).

(** skipDedupTests: bench/tests/checks.go 64-69. *)
Definition skip_dedup_tests : list bytes :=
  [B "WithAttrsAttributes:All"; B "WithAttrsAttributes:With"; B "WithAttrsKeyValues:All"; B "WithAttrsKeyValues:With"].

(** finder: bench/tests/checks.go 73-111. *)
Definition finder (test : bytes) (expected : dmap) : verify_fn := fun captured lm m =>
  if has_warning (e_use E) skip_dedup m && existsb (beq test) skip_dedup_tests then (lm, m, None)
  else
    let (lm', m1) := get_log_map captured lm m in
    match finder_deep expected (match lm' with Some a => a | None => [] end) with
    | None => (passed lm lm', m1, Some (B "finderDeep: marshal JSON"))
    | Some (bad, strs) =>
        let has_str := has_warning (e_use E) string_any m1 in
        let (m2, bad') :=
          match strs with
          | [] => (if has_str then add_unused string_any (e_fn E) captured m1 else m1, bad)
          | _ =>
              if has_str then (add_warning string_any (test ++ B ": " ++ join_with (B ",") strs) [] captured m1, bad)
              else (m1, bad ++ map (fun f => quote :: f ++ [quote]) strs)
          end in
        let has_mis := has_warning (e_use E) mismatch m2 in
        match bad' with
        | [] => (passed lm lm', if has_mis then add_unused mismatch (e_fn E) captured m2 else m2, None)
        | _ =>
            let text := test ++ B ": " ++ join_with (B ",") bad' in
            if has_mis then (passed lm lm', add_warning mismatch text [] captured m2, None)
            else (passed lm lm', m2, Some (B "mismatch " ++ text ++ B ": %!w(<nil>)"))
        end
    end.

(** matcher: bench/tests/checks.go 150-161.  The arguments of the second Debugf fix
    the map once more. *)
Definition matcher (test : bytes) (expected : dmap) : verify_fn := fun captured lm m =>
  let (lm', m1) := get_log_map captured lm m in
  let fixed := fix_log_map (e_casing E) lm' in
  if match fixed with Some a => deep_equal (DMap expected) (DMap a) | None => false end
  then (passed lm fixed, m1, None)
  else (passed lm (fix_log_map (e_casing E) fixed), add_warning mismatch test [] captured m1, Some (error_extra mismatch test)).

(** noDuplicates: bench/tests/checks.go 164-174.  The counter is new, so
    Duplicates (internal/json/field.go) has nothing to report: C32. *)
Definition no_duplicates (test : bytes) : verify_fn := fun captured lm m =>
  let (lm', m1) := get_log_map captured lm m in
  (passed lm lm', m1, None).

(** sourcerer: bench/tests/checks.go 177-216. *)
Definition sourcerer (test : bytes) : verify_fn := fun captured lm m =>
  let (lm', m1) := get_log_map captured lm m in
  match lookup SourceKey lm' with
  | Some (DMap src) =>
      match filter (fun f => match get f src with Some _ => false | None => true end) [B "file"; B "function"; B "line"] with
      | [] => (passed lm lm', m1, None)
      | missing =>
          let text := B "missing fields: " ++ join_with (B ",") missing in
          (passed lm lm', add_warning source_missing test text captured m1, Some (error_extra source_missing text))
      end
  | Some _ =>
      let text := B "source not map" in
      (passed lm lm', add_warning source_missing test text captured m1, Some (error_extra source_missing text))
  | None =>
      match lookup (B "caller") lm' with
      | Some call =>
          let text := match call with
                      | DStr s => if Nat.eqb (length (split_on (chr 58) s)) 2 then s else B "caller not string"
                      | _ => B "caller not string"
                      end in
          (passed lm lm', add_warning source_caller test text captured m1, Some (error_extra source_caller text))
      | None =>
          let text := B "no 'source' key" in
          (passed lm lm', add_warning source_missing test text captured m1, Some (error_extra source_missing text))
      end
  end.

(** errors.Join. *)
Definition join_errors (errs : list bytes) : option bytes :=
  match errs with [] => None | _ => Some (join_with [newline] errs) end.

(** The loops over the functions: bench/tests/checks.go 222-227, 253-258. *)
Fixpoint run_all (fns : list verify_fn) (captured : bytes) (lm : log_map) (m : manager) : log_map * manager * list bytes :=
  match fns with
  | [] => (lm, m, [])
  | fn :: rest =>
      let '(lm1, m1, err) := fn captured lm m in
      let '(lm2, m2, errs) := run_all rest captured lm1 m1 in
      (lm2, m2, match err with Some e => e :: errs | None => errs end)
  end.

(** verify: bench/tests/checks.go 219-233. *)
Definition verify (fns : list verify_fn) : verify_fn := fun captured lm m =>
  let (lm', m1) := get_log_map captured lm m in
  let '(lm2, m2, errs) := run_all fns captured lm' m1 in
  (passed lm lm2, m2, join_errors errs).

(** The lines bufio.Reader.ReadLine gives, the chunks of long lines put
    together: without newline and a carriage return before it; the last line
    counts only if there is something after the last newline.  (Go loses such an
    unfinished line if its length is a multiple of the buffer size, 4096.) *)
Definition chomp (l : bytes) : bytes := if ends_with (chr 13) l then removelast l else l.
Definition read_lines (s : bytes) : list bytes :=
  let parts := split_on newline s in
  map chomp (removelast parts) ++ match last parts [] with [] => [] | l => [l] end.

(** verifyLines: bench/tests/checks.go 236-266. *)
Fixpoint verify_each (fns : list verify_fn) (lines : list bytes) (m : manager) : manager * option bytes :=
  match lines with
  | [] => (m, None)
  | l :: rest =>
      let (lm, m1) := get_log_map l None m in
      let '(_, m2, errs) := run_all fns l lm m1 in
      match join_errors errs with
      | Some e => (m2, Some e)
      | None => verify_each fns rest m2
      end
  end.
Definition verify_lines (fns : list verify_fn) : verify_fn := fun captured lm m =>
  let (m', err) := verify_each fns (read_lines captured) m in (lm, m', err).

(** The VerifyFn of BenchmarkDisabled: bench/tests/benchmarks.go 68-74. *)
Definition disabled_check : verify_fn := fun captured lm m =>
  match captured with
  | [] => (lm, m, None)
  | _ => (lm, add_warning not_disabled (e_fn E) (B "Disabled") captured m, Some (warning_error not_disabled))
  end.

(** ** data.go *)

(** valGroupName, bigGroupLimit, bigGroupRand: bench/tests/data.go 41, 148, 149. *)
Definition group_name : bytes := B "group".
Definition big_group_limit : N := 5.
Definition big_group_rand : N := 5.

(** nonGroupFields: bench/tests/data.go 168-172. *)
Definition non_group_fields : list bytes := [B "count"; B "depth"; B "limit"].

(** fmt.Sprintf("%s-%d", stem, i): bench/tests/data.go 159. *)
Definition kid_name (stem : bytes) (i : N) : bytes := stem ++ B "-" ++ dec_of_N i.

(** bigGroupBuilder: bench/tests/data.go 152-166, with any results of
    rand.Intn. *)
Inductive built (limit : N) : N -> bytes -> attr -> Prop :=
| built_deep depth stem : (limit < depth)%N -> built limit depth stem empty_attr
| built_group depth stem count kids : (depth <= limit)%N -> (1 <= count <= big_group_rand)%N ->
    built_kids limit depth stem 0 count kids ->
    built limit depth stem
      (stem, VGroup ([(B "count", VInt64 (Z.of_N count)); (B "depth", VUint64 depth); (B "limit", VUint64 limit)] ++ kids))
with built_kids (limit : N) : N -> bytes -> N -> N -> list attr -> Prop :=
| kids_done depth stem count : built_kids limit depth stem count count []
| kids_next depth stem i count other kids : (i < count)%N ->
    built limit (depth + 1) (kid_name stem i) other ->
    built_kids limit depth stem (i + 1) count kids ->
    built_kids limit depth stem i count ((if is_empty other then [] else [other]) ++ kids).

(** strings.HasPrefix(s, p). *)
Fixpoint starts_with (p s : bytes) : bool :=
  match p, s with
  | [], _ => true
  | c :: p', d :: s' => Ascii.eqb c d && starts_with p' s'
  | _ :: _, [] => false
  end.

(** bigGroupCheck: bench/tests/data.go 174-195.  Left: maxDepth, right: the
    error.  The order of the list stands for that of the range loop. *)
Fixpoint big_group_value (v : dyn) (depth : N) (stem : bytes) {struct v} : N + bytes :=
  match v with
  | DMap l =>
      (fix go (l : list (bytes * dyn)) (max : N) : N + bytes :=
         match l with
         | [] => inl max
         | (k, w) :: l' =>
             match w with
             | DMap _ =>
                 if negb (starts_with stem k) then inr (B "bad field '" ++ k ++ B "' prefix '" ++ stem ++ B "'")
                 else match big_group_value w (depth + 1) k with
                      | inr e => inr e
                      | inl d => go l' (if N.ltb max d then d else max)
                      end
             | _ =>
                 if existsb (beq k) non_group_fields then go l' max
                 else inr (B "non-group field " ++ k ++ B ": " ++ e_show E w)
             end
         end) l depth
  | _ => inl depth
  end.
Definition big_group_check (m : dmap) (depth : N) (stem : bytes) : N + bytes := big_group_value (DMap m) depth stem.

(** bigGroupChecker: bench/tests/checks.go 23-43. *)
Definition big_group_checker (test : bytes) : verify_fn := fun captured lm m =>
  let (lm', m1) := get_log_map captured lm m in
  let fail text := (passed lm lm', add_warning mismatch (e_fn E) text [] m1, Some (error_extra mismatch text)) in
  match lookup group_name lm' with
  | None => (passed lm lm', m1, None)
  | Some (DMap group) =>
      match big_group_check group 0 group_name with
      | inr err => fail (test ++ B ": " ++ err)
      | inl d =>
          if negb (N.eqb d big_group_limit)
          then fail (test ++ B ": maxDepth " ++ dec_of_N d ++ B " != " ++ dec_of_N big_group_limit ++ B " limit")
          else (passed lm lm', m1, None)
      end
  | Some _ => fail (test ++ B ": not a group")
  end.

End Checks.
