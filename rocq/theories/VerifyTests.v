(** Model of verify/tests: the tests of the verification suite in slogtest.go,
    documented.go, duplicate.go, other.go and replace.go.  (TestSlogTest, which
    runs testing/slogtest, is in SlogTest.v; the tests of complex.go are in
    Complex.v.)  Loops over maps run in the order in which the source lists the
    entries. *)

From Coq Require Import Ascii String List ZArith NArith Bool Arith QArith Qcanon.
From Verif Require Import Bytes GoSort Slog Replace Warnings FieldCounter BenchChecks Complex VerifyChecks.
Import ListNotations.
Local Open Scope nat_scope.
Local Open Scope list_scope.
Local Open Scope test_scope.

(** ** Data *)

(** math.Pi, E, SqrtPi, SqrtE and Phi as printed by strconv. *)
Definition pi_text : bytes := B "3.141592653589793".
Definition e_text : bytes := B "2.718281828459045".
Definition sqrt_pi_text : bytes := B "1.772453850905516".
Definition sqrt_e_text : bytes := B "1.6487212707001282".
Definition phi_text : bytes := B "1.618033988749895".

(** Arguments of a logger as attributes. *)
Definition a_str (k v : string) : attr := (B k, VString (B v)).
Definition a_int (k : string) (z : Z) : attr := (B k, VInt64 z).
Definition a_float (k : string) (t : bytes) : attr := (B k, VFloat64 (FFin t)).
Definition a_nil (k : string) : attr := (B k, VAny AnyNil).
Definition a_group (k : string) (l : list attr) : attr := (B k, VGroup l).
Definition a_pi : attr := a_float "pi" pi_text.
(** &hiddenValuer{v: v}: valuer.go 8-16; its fields are not exported. *)
Definition a_hidden (v : string) : attr := (B "hidden", VLogValuer (VString (B v)) (plain_obs (MOk (B "{}")))).
(** A value that json.Marshal turns into this text. *)
Definition a_json (k json : string) : attr := (B k, VAny (AnyObj (plain_obs (MOk (B json))))).

(** float64(z) *)
Definition float_of (z : Z) : Qc := Q2Qc (inject_Z z).
Definition d_int (z : Z) : dyn := DNum (float_of z).
Definition d_str (s : string) : dyn := DStr (B s).

(** notNil: slogtest.go 538. *)
Definition not_nil : string := "NOT NIL".

(** logLevels: data.go 12-17. *)
Definition log_levels : list (bytes * Z) :=
  [(B "DEBUG", LevelDebug); (B "INFO", LevelInfo); (B "WARN", LevelWarn); (B "ERROR", LevelError)].

(** EscapeCases: internal/test/data.go 72-79. *)
Definition escape_cases : list (bytes * bytes) :=
  [
   (B "3",
    B "3");
   (B "The quick brown fox jumped over the lazy dog.",
    B "The quick brown fox jumped over the lazy dog.");
   (B "Control characters:  " ++ [chr 8] ++ B ", " ++ [chr 12] ++ B ", " ++ [chr 10] ++ B ", " ++ [chr 13] ++ B ", " ++ [chr 9],
    B "Control characters:  \b, \f, \n, \r, \t");
   (B "Quote and slashes: "", \, /",
    B "Quote and slashes: \"", \\, \/");
   (B "UTF8 Characters: ϢӦֆĒ͖̈́Ͳ  ĦĪǂǼɆψϠѬӜԪ",
    B "UTF8 Characters: ϢӦֆĒ͖̈́Ͳ  ĦĪǂǼɆψϠѬӜԪ");
   (B "Unicode Characters: 😀🐦‍🔥⛓️‍💥🍋‍🟩  ظۇ  ❂✈☯  亳亴亵亶亷亸",
    B "Unicode Characters: 😀🐦‍🔥⛓️‍💥🍋‍🟩  ظۇ  ❂✈☯  亳亴亵亶亷亸")
  ].

(** fmt's %d of a length. *)
Definition show_nat (n : nat) : bytes := dec_of_N (N.of_nat n).

(** strings.Replace(s, old, new, -1) for a non-empty old. *)
Fixpoint replace_n (n : nat) (old new s : bytes) : bytes :=
  match n with
  | O => s
  | S n' =>
      match s with
      | [] => []
      | c :: r => if starts_with old s then new ++ replace_n n' old new (skipn (length old) s)
                  else c :: replace_n n' old new r
      end
  end.
Definition replace_all (old new s : bytes) : bytes := replace_n (length s) old new s.

Section Tests.
Variable W : surroundings.
Variable H : subject.

Local Notation has := (has W).
Local Notation has_any := (has_any W).
Local Notation info := (info W H).
Local Notation log_map := (get_map W).
Local Notation check_field_count := (check_field_count W).
Local Notation check_no_empty_attribute := (check_no_empty_attribute W).
Local Notation check_level_key := (check_level_key W).
Local Notation check_message_key := (check_message_key W).
Local Notation check_level_math := (check_level_math W H).
Local Notation check_resolution := (check_resolution W).
Local Notation field_counter := (field_counter W).
Local Notation enabled := (enabled H).

Definition cs : casing := e_casing (z_env W).
Definition d_float (t : bytes) : dyn := DNum (z_float W t).
Definition d_pi : dyn := d_float pi_text.

(** suite.Assert().Equal(v, logMap[key]) *)
Definition equal_at (v : dyn) (k : string) (lm : BenchChecks.log_map) : test unit :=
  assert (deep_equal v (at_key (B k) lm)).
(** suite.AddUnused(w, suite.String()), suite.AddWarning(w, text, suite.String()) *)
Definition unused_with_log (w : warning) : test unit := b <- buffer; not_used w b.
Definition warn_with_log (w : warning) (text : bytes) : test unit := b <- buffer; warn w text b.

(** group, ok := m[key].(map[string]any), else suite.Fail *)
Definition in_group (k : string) (lm : BenchChecks.log_map) (t : BenchChecks.log_map -> test unit) : test unit :=
  match as_map (at_key (B k) lm) with
  | Some g => t (Some g)
  | None => assert false
  end.

(** ** slogtest.go *)

(** TestAttributes: slogtest.go 54-62. *)
Definition test_attributes : test unit :=
  info simple_options [] [a_str "first" "one"; a_int "second" 2; a_pi];;
  lm <- log_map;
  check_field_count 6 lm;;
  equal_at (d_str "one") "first" lm;;
  equal_at (d_int 2) "second" lm;;
  equal_at d_pi "pi" lm.

(** TestAttributesEmpty: slogtest.go 68-75. *)
Definition test_attributes_empty : test unit :=
  info simple_options [] [a_str "first" "one"; a_nil ""; a_pi];;
  lm <- log_map;
  equal_at (d_str "one") "first" lm;;
  equal_at d_pi "pi" lm;;
  check_no_empty_attribute 5 lm.

(** value, ok := logMap[""].(string); ok && value == notNil, and the like with
    float64: slogtest.go 90-102, 141-153, 554-566, 616-628. *)
Definition empty_name_mark (v : dyn) (lm : BenchChecks.log_map) : test unit :=
  if found [] lm && deep_equal v (at_key [] lm)
  then unused_with_log no_empty_name
  else warn_with_log no_empty_name [].

(** TestAttributesNotEmpty: slogtest.go 80-103. *)
Definition test_attributes_not_empty : test unit :=
  info simple_options [] [a_str "first" "one"; a_str "" not_nil; a_pi];;
  lm <- log_map;
  equal_at (d_str "one") "first" lm;;
  equal_at d_pi "pi" lm;;
  h <- has no_empty_name;
  if negb h then
    assert (found [] lm);;
    equal_at (d_str not_nil) "" lm
  else empty_name_mark (d_str not_nil) lm.

(** TestAttributesWith: slogtest.go 107-115. *)
Definition test_attributes_with : test unit :=
  info simple_options [WithAttrs [a_str "first" "one"; a_int "second" 2]] [a_pi];;
  lm <- log_map;
  check_field_count 6 lm;;
  equal_at (d_str "one") "first" lm;;
  equal_at (d_int 2) "second" lm;;
  equal_at d_pi "pi" lm.

(** TestAttributesWithEmpty: slogtest.go 120-128. *)
Definition test_attributes_with_empty : test unit :=
  info simple_options [WithAttrs [a_str "first" "one"; a_int "second" 2; a_nil ""]] [a_pi];;
  lm <- log_map;
  equal_at (d_str "one") "first" lm;;
  equal_at (d_int 2) "second" lm;;
  equal_at d_pi "pi" lm;;
  check_no_empty_attribute 6 lm.

(** TestAttributesWithNotEmpty: slogtest.go 132-157. *)
Definition test_attributes_with_not_empty : test unit :=
  info simple_options [WithAttrs [a_str "first" "one"; a_int "second" 2; a_str "" not_nil]] [a_pi];;
  lm <- log_map;
  h <- has no_empty_name;
  (if negb h then
     check_field_count 7 lm;;
     assert (found [] lm);;
     equal_at (d_str not_nil) "" lm
   else empty_name_mark (d_str not_nil) lm);;
  equal_at (d_str "one") "first" lm;;
  equal_at (d_int 2) "second" lm;;
  equal_at d_pi "pi" lm.

(** TestGroup: slogtest.go 161-178. *)
Definition test_group : test unit :=
  info simple_options []
    [a_str "first" "one"; a_group "group" [a_int "second" 2; a_str "third" "3"; a_str "fourth" "forth"]; a_pi];;
  lm <- log_map;
  check_field_count 6 lm;;
  equal_at (d_str "one") "first" lm;;
  in_group "group" lm (fun g =>
    assert (Nat.eqb (size g) 3);;
    equal_at (d_int 2) "second" g;;
    equal_at (d_str "3") "third" g;;
    equal_at (d_str "forth") "fourth" g);;
  equal_at d_pi "pi" lm.

(** What is said about an empty group that was logged: slogtest.go 193-209,
    224-240. *)
Definition empty_group_issues (k found_text : bytes) (lm : BenchChecks.log_map) : list bytes :=
  if Nat.ltb 3 (size lm) then
    B "too many fields" ::
    match lookup k lm with
    | Some v =>
        found_text ::
        match as_map v with
        | Some g => [B "value is group"; B "length: " ++ show_nat (length g)]
        | None => []
        end
    | None => []
    end
  else [].
Definition empty_group_mark (w : warning) (issues : list bytes) : test unit :=
  match issues with
  | [] => not_used w []
  | _ => warn_with_log w (join_with (B ", ") issues)
  end.

(** TestGroupEmpty: slogtest.go 184-210. *)
Definition test_group_empty : test unit :=
  info simple_options [] [a_group "group" []];;
  lm <- log_map;
  h <- has group_empty;
  if negb h then
    check_field_count 3 lm;;
    assert (negb (found (B "group") lm))
  else empty_group_mark group_empty (empty_group_issues (B "group") (B "found field") lm).

(** TestWithGroupEmpty: slogtest.go 215-241. *)
Definition test_with_group_empty : test unit :=
  info simple_options [WithGroup (B "group1"); WithGroup (B "group2")] [a_group "subGroup" []];;
  lm <- log_map;
  h <- has with_group_empty;
  if negb h then
    check_field_count 3 lm;;
    assert (negb (found (B "group") lm))
  else empty_group_mark with_group_empty (empty_group_issues (B "group1") (B "found field 'group1'") lm).

(** The common part of the next two: slogtest.go 253-278, 293-318. *)
Definition inline_checks : test unit :=
  lm <- log_map;
  equal_at (d_str "one") "first" lm;;
  equal_at d_pi "pi" lm;;
  h <- has group_inline;
  let fields m :=
    equal_at (d_int 2) "second" m;;
    equal_at (d_str "3") "third" m;;
    equal_at (d_str "forth") "fourth" m in
  if negb h then
    check_field_count 8 lm;;
    fields lm
  else
    c <- field_counter;
    if Nat.eqb (num_fields c) 6 then
      in_group "" lm (fun g => assert (Nat.eqb (size g) 3);; fields g);;
      warn_with_log group_inline []
    else not_used group_inline [].

(** TestGroupInline: slogtest.go 248-279. *)
Definition test_group_inline : test unit :=
  info simple_options []
    [a_str "first" "one"; a_group "" [a_int "second" 2; a_str "third" "3"; a_str "fourth" "forth"]; a_pi];;
  inline_checks.

(** TestWithGroupInline: slogtest.go 285-319.  Logger.WithGroup of log/slog
    returns the logger itself for an empty name. *)
Definition test_with_group_inline : test unit :=
  info simple_options []
    [a_str "first" "one"; a_int "second" 2; a_str "third" "3"; a_str "fourth" "forth"; a_pi];;
  inline_checks.

(** TestGroupWith: slogtest.go 323-335. *)
Definition test_group_with : test unit :=
  info simple_options [WithGroup (B "group")] [a_str "first" "one"; a_pi];;
  lm <- log_map;
  check_field_count 4 lm;;
  in_group "group" lm (fun g =>
    assert (Nat.eqb (size g) 2);;
    equal_at (d_str "one") "first" g;;
    equal_at d_pi "pi" g).

(** slogtest.go 345-357, 379-388, with a subgroup or without. *)
Definition multi_expected (sub : dmap) : dmap :=
  [(B "level", d_str "info"); (B "msg", DStr test_message); (B "first", d_str "one");
   (B "group", DMap ([(B "second", d_int 2); (B "third", d_str "3")] ++ sub))].

(** TestGroupWithMulti: slogtest.go 339-367. *)
Definition test_group_with_multi : test unit :=
  info simple_options
    [WithAttrs [a_str "first" "one"]; WithGroup (B "group"); WithAttrs [a_int "second" 2; a_str "third" "3"];
     WithGroup (B "subGroup")] [a_str "fourth" "forth"; a_pi];;
  lm <- log_map;
  let expected :=
    adjust_expected (multi_expected [(B "subGroup", DMap [(B "fourth", d_str "forth"); (B "pi", d_pi)])]) lm in
  h <- has with_group;
  if negb h then
    check_field_count 5 lm;;
    assert (map_equal (Some expected) lm)
  else if map_equal (Some expected) lm then not_used with_group []
  else warn_with_log with_group [].

(** TestGroupWithMultiSubEmpty: slogtest.go 373-405. *)
Definition test_group_with_multi_sub_empty : test unit :=
  info simple_options
    [WithAttrs [a_str "first" "one"]; WithGroup (B "group"); WithAttrs [a_int "second" 2; a_str "third" "3"];
     WithGroup (B "subGroup")] [];;
  lm <- log_map;
  let expected := adjust_expected (multi_expected []) lm in
  h1 <- has with_group;
  h2 <- has group_empty;
  if negb h1 && negb h2 then
    check_field_count 5 lm;;
    assert (map_equal (Some expected) lm)
  else if map_equal (Some expected) lm then
    not_used with_group [];;
    not_used group_empty []
  else match lookup (B "group") lm with
  | None => warn_with_log with_group (B "no 'group' group")
  | Some (DMap g) =>
      if found (B "subGroup") (Some g) then warn_with_log group_empty (B "found 'subGroup' group")
      else warn_with_log with_group []
  | Some _ => warn_with_log with_group (B "'group' group not map")
  end.

(** The three basic fields are there: slogtest.go 414-416 and others. *)
Definition basic_checks (lm : BenchChecks.log_map) : test unit :=
  check_level_key (B "INFO") lm;;
  check_message_key test_message lm;;
  assert (negb (is_nil (at_key TimeKey lm))).

(** TestKeys: slogtest.go 409-417. *)
Definition test_keys : test unit :=
  info simple_options [] [];;
  lm <- log_map;
  check_field_count 3 lm;;
  basic_checks lm.

(** slogtest.go 426-434, 445-453. *)
Definition resolve_checks : test unit :=
  lm <- log_map;
  check_field_count 4 lm;;
  in_group "group" lm (fun g =>
    assert (Nat.eqb (size g) 2);;
    equal_at d_pi "pi" g;;
    check_resolution (d_str "value") (at_key (B "hidden") g)).

(** TestResolveGroup: slogtest.go 422-435. *)
Definition test_resolve_group : test unit :=
  info simple_options [] [a_group "group" [a_pi; a_hidden "value"]];;
  resolve_checks.

(** TestResolveGroupWith: slogtest.go 440-454. *)
Definition test_resolve_group_with : test unit :=
  info simple_options [WithAttrs [a_group "group" [a_pi; a_hidden "value"]]] [];;
  resolve_checks.

(** TestResolveWith: slogtest.go 459-465. *)
Definition test_resolve_with : test unit :=
  info simple_options [WithAttrs [a_hidden "value"]] [];;
  lm <- log_map;
  check_field_count 4 lm;;
  check_resolution (d_str "value") (at_key (B "hidden") lm).

(** TestResolveValuer: slogtest.go 470-477. *)
Definition test_resolve_valuer : test unit :=
  info simple_options [] [a_hidden "something"];;
  lm <- log_map;
  check_field_count 4 lm;;
  check_resolution (d_str "something") (at_key (B "hidden") lm).

(** A record made by slog.NewRecord. *)
Definition new_record (t : gotime) (src : option source) : record :=
  {| Slog.r_time := t; Slog.r_level := LevelInfo; Slog.r_msg := test_message; Slog.r_source := src; Slog.r_attrs := [] |}.
(** time.Time{}: the zero time.  (Its texts are those of another time.) *)
Definition zero_time_value : gotime :=
  {| t_zero := true; t_format := t_format (z_when W); t_string := t_string (z_when W) |}.

(** TestZeroPC: slogtest.go 482-502. *)
Definition test_zero_pc : test unit :=
  handle H source_options (new_record (z_when W) None);;
  lm <- log_map;
  basic_checks lm;;
  h <- has zero_pc;
  let last := check_field_count 3 lm in
  if (h : bool) then
    match as_map (at_key SourceKey lm) with
    | Some _ => warn_with_log zero_pc []
    | None =>
        if found (B "caller") lm then warn_with_log zero_pc (B "non-standard key 'caller'")
        else not_used zero_pc [];; last
    end
  else last.

(** TestZeroTime: slogtest.go 508-532. *)
Definition test_zero_time : test unit :=
  handle H simple_options (new_record zero_time_value None);;
  lm <- log_map;
  check_level_key (B "INFO") lm;;
  check_message_key test_message lm;;
  h <- has zero_time;
  let last :=
    check_field_count 2 lm;;
    assert (is_nil (at_key TimeKey lm)) in
  if (h : bool) then
    c <- field_counter;
    if Nat.eqb (num_fields c) 3 && found TimeKey lm then
      warn_with_log zero_time
        (match at_key TimeKey lm with DStr t => t | v => B "<bad type> " ++ e_show (z_env W) v end)
    else not_used zero_time [];; last
  else last.

(** slogtest.go 548-568, 610-630. *)
Definition empty_name_checks : test unit :=
  lm <- log_map;
  h <- has no_empty_name;
  (if negb h then
     check_field_count 6 lm;;
     assert (found [] lm);;
     equal_at (d_int 2) "" lm
   else empty_name_mark (d_int 2) lm);;
  equal_at (d_str "one") "first" lm;;
  equal_at d_pi "pi" lm.

(** TestAttributeEmptyName: slogtest.go 545-569. *)
Definition test_attribute_empty_name : test unit :=
  info simple_options [] [a_str "first" "one"; a_int "" 2; a_pi];;
  empty_name_checks.

(** slogtest.go 577-588, 639-650. *)
Definition nil_value_checks : test unit :=
  lm <- log_map;
  h <- has no_nil_value;
  (if negb h then
     check_field_count 6 lm;;
     assert (found (B "second") lm);;
     assert (is_nil (at_key (B "second") lm))
   else
     check_field_count 5 lm;;
     assert (negb (found (B "second") lm)));;
  equal_at (d_str "one") "first" lm;;
  equal_at d_pi "pi" lm.

(** TestAttributeNil: slogtest.go 574-589. *)
Definition test_attribute_nil : test unit :=
  info simple_options [] [a_str "first" "one"; a_nil "second"; a_pi];;
  nil_value_checks.

(** TestAttributeWithEmpty: slogtest.go 595-602. *)
Definition test_attribute_with_empty : test unit :=
  info simple_options [WithAttrs [a_nil ""]] [a_str "first" "one"; a_pi];;
  lm <- log_map;
  equal_at (d_str "one") "first" lm;;
  equal_at d_pi "pi" lm;;
  check_no_empty_attribute 5 lm.

(** TestAttributeWithEmptyName: slogtest.go 607-631. *)
Definition test_attribute_with_empty_name : test unit :=
  info simple_options [WithAttrs [a_int "" 2]] [a_str "first" "one"; a_pi];;
  empty_name_checks.

(** TestAttributeWithNil: slogtest.go 636-651. *)
Definition test_attribute_with_nil : test unit :=
  info simple_options [WithAttrs [a_nil "second"]] [a_str "first" "one"; a_pi];;
  nil_value_checks.

(** ** duplicate.go *)

(** duplicate.go 20-23, 35-38. *)
Definition duplicate_checks : test unit :=
  lm <- log_map;
  s <- skip_test W skip_dedup;
  if negb s then check_field_count 6 lm else ret tt.

(** TestAttributeDuplicate: duplicate.go 15-24. *)
Definition test_attribute_duplicate : test unit :=
  info simple_options []
    [a_str "alpha" "one"; a_int "alpha" 2; a_str "bravo" "hurrah"; a_str "charlie" "brown"; a_int "charlie" 3;
     a_float "charlie" (B "23.79")];;
  duplicate_checks.

(** TestAttributeWithDuplicate: duplicate.go 30-39. *)
Definition test_attribute_with_duplicate : test unit :=
  info simple_options
    [WithAttrs [a_str "alpha" "one"; a_str "bravo" "hurrah"; a_str "charlie" "brown"; a_str "charlie" "jones"]]
    [a_int "alpha" 2; a_float "charlie" (B "23.7")];;
  duplicate_checks.

(** ** documented.go *)

(** TestCanceledContext: documented.go 22-54. *)
Definition test_canceled_context : test unit :=
  let checks :=
    lm <- log_map;
    check_field_count 3 lm;;
    basic_checks lm in
  info simple_options [] [];; checks;; buffer_reset;;
  info simple_options [] [];; checks;; buffer_reset;;
  log_context W H true simple_options [] LevelInfo test_message [];;
  h <- has canceled_context;
  if negb h then checks
  else
    b <- buffer;
    if Nat.ltb 0 (length b) then not_used canceled_context b
    else warn canceled_context b [].

(** documented.go 69-81: the lowest of the four levels that is enabled. *)
Definition lowest_enabled (s : setting) : option Z :=
  fold_left (fun l x => if enabled s (snd x) && Z.ltb (snd x) (match l with Some y => y | None => 100 end)
                        then Some (snd x) else l) log_levels None.

(** The body of the loop of TestDefaultLevel: documented.go 66-100. *)
Definition default_level_checks (add_source : bool) : test unit :=
  let s := {| s_level := None; s_options := {| o_add_source := add_source; o_replace := None |} |} in
  let last :=
    assert (negb (enabled s (LevelDebug - 1)));;
    assert (negb (enabled s LevelDebug));;
    assert (negb (enabled s (LevelInfo - 1)));;
    assert (enabled s LevelInfo);;
    check_level_math s (LevelInfo + 1) true (B "INFO+1 is not enabled when WARN is set");;
    assert (enabled s LevelWarn);;
    assert (enabled s LevelError) in
  h <- has default_level;
  if (h : bool) then
    match lowest_enabled s with
    | Some l =>
        warn default_level
          (B "defaultlevel" ++ (if add_source then B " with AddSource" else []) ++ B " is '" ++ Slog.level_string l ++ B "'") []
    | None => not_used default_level [];; last
    end
  else last.

(** TestDefaultLevel: documented.go 61-101. *)
Definition test_default_level : test unit := default_level_checks false;; default_level_checks true.

(** TestDerivedInvariantWith: documented.go 106-119, and
    TestDerivedInvariantWithGroup: documented.go 124-137, which is the same. *)
Definition test_derived_invariant_with : test unit :=
  info simple_options [] [];;
  orig <- log_map;
  buffer_reset;;
  info simple_options [WithAttrs [a_str "alpha" "omega"]] [];;
  buffer_reset;;
  info simple_options [] [];;
  curr <- log_map;
  assert (map_equal (delete_key TimeKey orig) (delete_key TimeKey curr)).
Definition test_derived_invariant_with_group : test unit := test_derived_invariant_with.

(** TestDisabled: documented.go 141-145. *)
Definition test_disabled : test unit :=
  log W H simple_options [] LevelDebug test_message [];;
  b <- buffer;
  assert (Nat.eqb (length b) 0).

(** TestSourceKey: documented.go 150-161. *)
Definition test_source_key : test unit := fun w =>
  let (t, src) := z_now W (v_records w) in
  (handle H source_options (new_record t (Some src));;
   lm <- log_map;
   basic_checks lm;;
   check_source_key W 4 lm) w.

(** TestKeyCase: documented.go 165-174. *)
Definition test_key_case : test unit :=
  fold_right (fun x rest =>
    log W H (level_options LevelDebug) [] (snd x) test_message [];;
    lm <- log_map;
    check_level_key (fst x) lm;;
    buffer_reset;;
    rest) (ret tt) log_levels.

(** TestLevelVar: documented.go 179-202.  The level is read when it is needed. *)
Definition test_level_var : test unit :=
  let before := level_options LevelInfo in
  let after := level_options LevelWarn in
  assert (negb (enabled before (-1)));;
  assert (enabled before LevelInfo);;
  check_level_math before (LevelInfo + 1) true (B "INFO+1  is not enabled when INFO is set");;
  h <- has level_var;
  (if negb h then assert (negb (enabled after 3))
   else if enabled after 3 then warn level_var (B "level not changed") []
   else not_used level_var []);;
  assert (enabled after LevelWarn);;
  check_level_math after 5 true (B "5  is not enabled when WARN is enabled").

Definition RFC3339Milli : bytes := B "2006-01-02T15:04:05.999Z07:00".
Definition RFC3339 : bytes := B "2006-01-02T15:04:05Z07:00".

(** documented.go 222-242. *)
Definition when_checks (lm : BenchChecks.log_map) : test unit :=
  let v := as_string (at_key (B "when") lm) in
  let shown := match v with Some t => t | None => [] end in
  assert (match v with Some _ => true | None => false end);;
  h1 <- has time_millis;
  h2 <- has time_seconds;
  let marked layout :=
    if beq (t_format (z_when W) layout) shown then warn time_millis shown [] else not_used time_millis [] in
  if (h1 : bool) then marked RFC3339Milli
  else if (h2 : bool) then marked RFC3339
  else assert (beq (t_format (z_when W) RFC3339Nano) shown).

(** documented.go 243-273. *)
Definition how_long_checks (lm : BenchChecks.log_map) : test unit :=
  assert (found (B "howLong") lm);;
  h1 <- has duration_string;
  let v := at_key (B "howLong") lm in
  if (h1 : bool) then
    match v with
    | DStr t => warn_with_log duration_string t
    | _ => unused_with_log duration_string
    end
  else
    let shown := match as_float v with Some q => q | None => float_of 0 end in
    assert (match as_float v with Some _ => true | None => false end);;
    h2 <- has duration_seconds;
    h3 <- has duration_millis;
    let marked w z := if Qc_eq_bool shown (float_of z) then warn w [] [] else not_used w [] in
    if (h2 : bool) then marked duration_seconds 60%Z
    else if (h3 : bool) then marked duration_millis 60000%Z
    else assert (Qc_eq_bool (float_of 60000000000) shown).

(** documented.go 281-289. *)
Definition any_checks (lm : BenchChecks.log_map) : test unit :=
  let v := at_key (B "any") lm in
  let fixed := match v with DArr l => l | _ => [] end in
  assert (match v with DArr _ => true | _ => false end);;
  fold_right (fun x rest => assert (match x with DStr _ => true | _ => false end);; rest) (ret tt) fixed;;
  assert (deep_equal (DArr [d_str "alpha"; d_str "omega"])
            (DArr (map (fun x => match x with DStr s => DStr s | _ => DStr [] end) fixed))).

(** TestLogAttributes: documented.go 207-290. *)
Definition test_log_attributes : test unit :=
  info simple_options []
    [(B "when", VTime (z_when W)); (B "howLong", VDuration 60000000000); a_str "goober" "snoofus"; (B "boolean", VBool true);
     a_pi; a_int "skidoo" 23; a_int "minus" (-64); (B "unsigned", VUint64 79); a_json "any" "[""alpha"",""omega""]"];;
  lm <- log_map;
  check_field_count 12 lm;;
  when_checks lm;;
  how_long_checks lm;;
  equal_at (d_str "snoofus") "goober" lm;;
  equal_at (DBool true) "boolean" lm;;
  equal_at d_pi "pi" lm;;
  equal_at (d_int 23) "skidoo" lm;;
  equal_at (d_int (-64)) "minus" lm;;
  equal_at (d_int 79) "unsigned" lm;;
  any_checks lm.

(** ** other.go *)

(** TestAnyMap: other.go 19-37. *)
Definition test_any_map : test unit :=
  info simple_options [] [a_json "any" "{""John"":""Doe""}"];;
  lm <- log_map;
  let v := at_key (B "any") lm in
  let expect := DMap [(B "John", d_str "Doe")] in
  assert (found (B "any") lm);;
  h <- has string_any;
  if negb h then assert (deep_equal expect v)
  else if deep_equal expect v then unused_with_log string_any
  else warn_with_log string_any
         (match v with DStr _ => B "map represented as string" | _ => B "any map[string]any mismatch" end).

(** TestLevelConfigured: other.go 46-59. *)
Definition level_configured_checks (s : setting) : test unit :=
  assert (negb (enabled s (-1)));;
  assert (enabled s LevelInfo);;
  check_level_math s 1 true (B "1  is not enabled when INFO is set");;
  assert (enabled s LevelWarn);;
  assert (enabled s LevelError).
Definition test_level_configured : test unit :=
  level_configured_checks simple_options;; level_configured_checks source_options.

(** TestLevelDifferent: other.go 65-85. *)
Definition level_different_checks (s : setting) (low : Z) : test unit :=
  assert (negb (enabled s (-1)));;
  assert (negb (enabled s LevelInfo));;
  assert (negb (enabled s low));;
  assert (enabled s LevelWarn);;
  check_level_math s 5 true (B "5  is not enabled when WARN is set");;
  assert (enabled s LevelError).
Definition test_level_different : test unit :=
  level_different_checks (level_options LevelWarn) 3;;
  level_different_checks
    {| s_level := Some LevelWarn; s_options := {| o_add_source := true; o_replace := None |} |} 1.

(** TestGroupDuration: other.go 90-129.  8h3m22s is 29002 seconds. *)
Definition test_group_duration : test unit :=
  let d := VDuration 29002000000000 in
  info simple_options [WithAttrs [(B "outer", d)]; WithGroup (B "group")] [(B "inner", d)];;
  lm <- log_map;
  require (found (B "outer") lm);;
  let out := at_key (B "outer") lm in
  let outer := match as_float out with Some q => q | None => float_of 0 end in
  let out_str := match as_string out with Some s => s | None => [] end in
  h <- has duration_string;
  (if negb h then require (match as_float out with Some _ => true | None => false end)
   else match out with
        | DNum _ => unused_with_log duration_string
        | DStr s => warn_with_log duration_string s
        | _ => ret tt
        end);;
  require (found (B "group") lm);;
  match as_map (at_key (B "group") lm) with
  | None => require false
  | Some g =>
      require (found (B "inner") (Some g));;
      let inn := at_key (B "inner") (Some g) in
      let inner := match as_float inn with Some q => q | None => float_of 0 end in
      if negb h then
        require (match as_float inn with Some _ => true | None => false end);;
        h2 <- has group_duration;
        if negb h2 then assert (Qc_eq_bool outer inner)
        else if Qc_eq_bool outer inner then unused_with_log group_duration
        else warn_with_log group_duration (z_percent_f W outer ++ B " != " ++ z_percent_f W inner)
      else match inn, out with
           | DNum _, _ => assert (Qc_eq_bool outer inner)
           | _, DStr in_str => assert (beq out_str in_str)
           | _, _ => ret tt
           end
  end.

(** TestGroupWithTop: other.go 133-183.  (The texts given with the failure only
    show in the output of the test.) *)
Definition test_group_with_top : test unit :=
  info simple_options [WithGroup (B "group"); WithAttrs [a_str "key" "value"]] [];;
  lm <- log_map;
  h <- has group_with_top;
  if negb h then
    require (found (B "group") lm);;
    match as_map (at_key (B "group") lm) with
    | None => require false
    | Some g =>
        require (found (B "key") (Some g));;
        equal_at (d_str "value") "key" (Some g)
    end
  else if match at_key (B "group") lm with
          | DMap g => deep_equal (d_str "value") (at_key (B "key") (Some g))
          | _ => false
          end then not_used group_with_top []
  else if deep_equal (d_str "value") (at_key (B "key") lm) then warn_with_log group_with_top []
  else assert false.

(** TestTimestampFormat: other.go 187-196. *)
Definition test_timestamp_format : test unit :=
  info simple_options [] [];;
  lm <- log_map;
  check_field_count 3 lm;;
  d <- parse_time W (at_key TimeKey lm);
  let '(y, m, day) := d in
  let '(y', m', day') := z_today W in
  assert (Z.eqb y' y);;
  assert (Z.eqb m' m);;
  assert (Z.eqb day' day).

(** TestStringEscape: other.go 198-208. *)
Definition test_string_escape : test unit :=
  fold_right (fun x rest =>
    info simple_options [] [(B "esc", VString (fst x)); (B "exp", VString (snd x))];;
    lm <- log_map;
    check_field_count 5 lm;;
    equal_at (DStr (fst x)) "esc" lm;;
    equal_at (DStr (snd x)) "exp" lm;;
    buffer_reset;;
    rest) (ret tt) escape_cases.

(** ** replace.go *)

(** replace.go 22-32. *)
Definition replace_simple : attr_fn := fun _ a =>
  if beq (fst a) (B "alpha") then (fst a, VString (B "omega"))
  else if beq (fst a) (B "change") then (B "bravo", VString (cs_string cs (snd a)))
  else if beq (fst a) (B "remove") then empty_attr
  else a.

(** TestReplaceAttr: replace.go 21-66. *)
Definition test_replace_attr : test unit :=
  info (replace_options replace_simple) [] [a_str "alpha" "beta"; a_str "change" "my key"; a_str "remove" "me"];;
  lm <- log_map;
  h <- has no_repl_attr;
  let last :=
    h2 <- has empty_attributes;
    check_field_count (if (h2 : bool) then 6 else 5) lm in
  if negb h then
    equal_at (d_str "omega") "alpha" lm;;
    equal_at (d_str "my key") "bravo" lm;;
    assert (is_nil (at_key (B "remove") lm));;
    last
  else
    match as_string (at_key (B "alpha") lm) with
    | None => require false
    | Some v =>
        let issues :=
          (if Nat.ltb 5 (size lm) then [B "too many attributes: " ++ show_nat (size lm)] else []) ++
          (if beq v (B "omega") then [] else [B "alpha == " ++ v]) ++
          (if is_nil (at_key (B "change") lm) then [] else [B "change still exists"]) ++
          (if is_nil (at_key (B "remove") lm) then [] else [B "remove still exists"]) in
        match issues with
        | [] => unused_with_log no_repl_attr;; last
        | _ => warn no_repl_attr (join_with (B ", ") issues) []
        end
    end.

(** replace.go 75-87. *)
Definition replace_basic : attr_fn := fun _ a =>
  if beq (fst a) TimeKey then empty_attr
  else if beq (fst a) LevelKey then (LevelKey, VString (B "Tilted"))
  else if beq (fst a) MessageKey then (B "Message", VString (cs_string cs (snd a)))
  else if beq (fst a) SourceKey then (SourceKey, VString (B "all knowledge"))
  else a.

(** TestReplaceAttrBasic: replace.go 71-120. *)
Definition test_replace_attr_basic : test unit :=
  info {| s_level := Some LevelInfo; s_options := {| o_add_source := true; o_replace := Some replace_basic |} |} [] [];;
  lm <- log_map;
  ws <- has_any [no_repl_attr; no_repl_attr_basic];
  hm <- has message_key;
  let last :=
    check_field_count 3 lm;;
    assert (is_nil (at_key TimeKey lm));;
    equal_at (d_str "Tilted") "level" lm;;
    equal_at (DStr test_message) "Message" lm;;
    equal_at (d_str "all knowledge") "source" lm in
  match ws with
  | [] => last
  | w :: _ =>
      let issues :=
        (if Nat.ltb 3 (size lm) then [B "too many attributes: " ++ show_nat (size lm)] else []) ++
        (if is_nil (at_key TimeKey lm) then [] else [B "time field still exists"]) ++
        (if negb (is_nil (at_key MessageKey lm)) then [B "msg field still exists"]
         else if hm && negb (is_nil (at_key (B "message") lm)) then [B "message field still exists"] else []) ++
        (if deep_equal (d_str "all knowledge") (at_key SourceKey lm) then []
         else [B "source == " ++ e_show (z_env W) (at_key SourceKey lm)]) in
      match issues with
      | [] => unused_with_log w;; last
      | _ => warn w (join_with (B (String (ascii_of_nat 10) "")) issues) []
      end
  end.

(** The last of the groups: replace.go 133-136. *)
Definition current_group (gs : list bytes) : bytes := nth (length gs - 1) gs [].

(** replace.go 132-171.  (That an unexpected key makes the test fail is not
    modelled.) *)
Definition replace_groups : attr_fn := fun gs a =>
  let g := current_group gs in
  if beq g [] then
    if beq (fst a) (B "alpha") then a_float "alpha" pi_text
    else if beq (fst a) (B "bravo") then empty_attr
    else a
  else if beq g (B "group") then
    if beq (fst a) (B "charlie") then a_float "charlie" e_text
    else if beq (fst a) (B "delta") then empty_attr
    else a
  else if beq g (B "subGroup") then
    if beq (fst a) (B "echo") then a_float "echo" sqrt_pi_text
    else if beq (fst a) (B "foxtrot") then a_float "foxtrot" sqrt_e_text
    else if beq (fst a) (B "golf") || beq (fst a) (B "hotel") then empty_attr
    else a
  else a.

(** stripEmptyAttr: replace.go 214-224. *)
Fixpoint strip_empty (v : dyn) : dyn :=
  match v with
  | DMap l => DMap
      ((fix go (l : list (bytes * dyn)) : list (bytes * dyn) :=
          match l with
          | [] => []
          | (k, w) :: l' => if beq k [] && is_nil w then go l' else (k, strip_empty w) :: go l'
          end) l)
  | _ => v
  end.
Definition strip_empty_attr (lm : BenchChecks.log_map) : BenchChecks.log_map :=
  option_map (fun m => match strip_empty (DMap m) with DMap m' => m' | _ => m end) lm.

(** replace.go 179-190. *)
Definition groups_expected : dmap :=
  [(LevelKey, DStr (Slog.level_string LevelInfo)); (MessageKey, DStr test_message); (B "alpha", d_pi);
   (B "group", DMap [(B "charlie", d_float e_text);
                     (B "subGroup", DMap [(B "echo", d_float sqrt_pi_text); (B "foxtrot", d_float sqrt_e_text)])])].

(** replace.go 178, 191-204. *)
Definition groups_actual (he hl hm : bool) (lm : BenchChecks.log_map) : BenchChecks.log_map :=
  let lm := delete_key TimeKey lm in
  let lm := if he then strip_empty_attr lm else lm in
  let lm := if hl then
              match as_string (at_key LevelKey lm) with
              | Some l => option_map (put LevelKey (DStr (upper W l))) lm
              | None => lm
              end
            else lm in
  if hm then
    match as_string (at_key (B "message") lm) with
    | Some msg => option_map (fun m => drop (B "message") (put MessageKey (DStr msg) m)) lm
    | None => lm
    end
  else lm.

(** TestReplaceAttrGroup: replace.go 125-212. *)
Definition test_replace_attr_group : test unit :=
  h <- has no_repl_attr;
  if (h : bool) then ret tt
  else
    info (replace_options replace_groups)
      [WithAttrs [a_int "alpha" 1; a_int "bravo" 2]; WithGroup (B "group"); WithAttrs [a_int "charlie" 3; a_int "delta" 4];
       WithGroup (B "subGroup"); WithAttrs [a_int "echo" 5; a_int "foxtrot" 6]]
      [a_int "golf" 7; a_int "hotel" 8];;
    lm <- log_map;
    he <- has empty_attributes;
    hl <- has level_case;
    hm <- has message_key;
    let lm := groups_actual he hl hm lm in
    hr <- has repl_attr_group;
    if negb hr then assert (map_equal (Some groups_expected) lm)
    else if map_equal (Some groups_expected) lm then unused_with_log repl_attr_group
    else warn_with_log repl_attr_group [].

(** issues joined with newlines, replace.go 254-270 and others. *)
Definition issues_mark (w : warning) (issues : list bytes) (last : test unit) : test unit :=
  match issues with
  | [] => not_used w [];; last
  | _ => warn w (join_with (B (String (ascii_of_nat 10) "")) issues) []
  end.

(** TestReplaceAttrFnLevelCase: replace.go 231-272. *)
Definition test_replace_attr_fn_level_case : test unit :=
  hl <- has level_case;
  let start := if (hl : bool) then B "info" else B "INFO" in
  let fixed := if (hl : bool) then B "INFO" else B "info" in
  let fn := change_case cs (B "level") (if (hl : bool) then CaseUpper else CaseLower) false (Some top_check) in
  info simple_options [] [];;
  lm <- log_map;
  match as_string (at_key LevelKey lm) with
  | None => require false
  | Some level =>
      assert (beq start level);;
      buffer_reset;;
      info (replace_options fn) [] [];;
      lm <- log_map;
      match as_string (at_key LevelKey lm) with
      | None => require false
      | Some level =>
          ws <- has_any [no_repl_attr_basic; no_repl_attr];
          let last := assert (beq fixed level) in
          match ws with
          | [] => last
          | w :: _ =>
              issues_mark w
                ((if Nat.ltb (size lm) 3 then [B "too few attributes: " ++ show_nat (size lm)] else []) ++
                 (if beq level [] then [] else [B "level value not null"])) last
          end
      end
  end.

(** TestReplaceAttrFnRemoveEmptyKey: replace.go 276-317. *)
Definition test_replace_attr_fn_remove_empty_key : test unit :=
  ws <- has_any [no_repl_attr; no_repl_attr_basic];
  match ws with
  | w :: _ => warn_with_log w []
  | [] =>
      info simple_options [] [a_str "" "garbage"];;
      lm <- log_map;
      require (found [] lm);;
      require (deep_equal (d_str "garbage") (at_key [] lm));;
      buffer_reset;;
      info (replace_options (remove_key cs [] false (Some top_check))) [] [a_nil ""];;
      lm <- log_map;
      h <- has no_repl_attr;
      let last :=
        he <- has empty_attributes;
        if (he : bool) then
          assert (Nat.eqb (size lm) 4);;
          assert (found [] lm);;
          assert (is_nil (at_key [] lm))
        else
          assert (Nat.eqb (size lm) 3);;
          assert (negb (found [] lm)) in
      if (h : bool) then
        issues_mark no_repl_attr
          ((if Nat.ltb (size lm) 4 then [B "too few attributes: " ++ show_nat (size lm)] else []) ++
           (if found [] lm then [] else [B "no empty key"]) ++
           (if is_nil (at_key [] lm) then [] else [B "empty key value not null"])) last
      else last
  end.

(** TestReplaceAttrFnChangeKey: replace.go 320-365. *)
Definition test_replace_attr_fn_change_key : test unit :=
  info simple_options [] [];;
  lm <- log_map;
  if negb (found (B "message") lm) then ret tt
  else
    buffer_reset;;
    info (replace_options (change_key cs (B "message") MessageKey false (Some top_check))) [] [];;
    lm <- log_map;
    ws <- has_any [no_repl_attr_basic; no_repl_attr];
    let v := at_key MessageKey lm in
    match ws with
    | w :: _ =>
        issues_mark w
          ((if Nat.ltb (size lm) 4 then [B "too few attributes: " ++ show_nat (size lm)] else []) ++
           (if found MessageKey lm then [] else [B "no message key"]) ++
           (match v with
            | DStr s => if beq test_message s then [] else [B "wrong message: '" ++ s ++ B "'"]
            | _ => [B "message not string"]
            end)) (ret tt)
    | [] =>
        assert (negb (found (B "message") lm));;
        assert (found MessageKey lm);;
        assert (match v with DStr _ => true | _ => false end);;
        assert (beq test_message (match v with DStr s => s | _ => [] end))
    end.

(** replace.go 370-376. *)
Definition replace_multi : attr_fn :=
  multiple_fns
    [remove_key cs TimeKey false (Some top_check);
     change_case cs (B "alpha") CaseUpper false (Some (current (B "group")));
     change_key cs (B "alpha") (B "la la la") false (Some (current (B "subGroup")));
     change_value cs (B "gibbering")
       (fun v => VString (replace_all (B "luna") (B "moon") (cs_string cs v))) false (Some (current (B "oneMore")))].

(** replace.go 383-402. *)
Definition multi_fn_expected : dmap :=
  [(B "level", d_str "INFO"); (B "msg", DStr test_message);
   (B "group", DMap
     [(B "alpha", d_str "OMEGA"); (B "pi", d_pi);
      (B "subGroup", DMap
        [(B "la la la", d_str "omega"); (B "goober", d_str "snoofus"); (B "e", d_float e_text);
         (B "oneMore", DMap
           [(B "alpha", d_str "omega"); (B "gibbering", d_str "moontic"); (B "phi", d_float phi_text)])])])].

(** TestReplaceAttrFnMulti: replace.go 369-411. *)
Definition test_replace_attr_fn_multi : test unit :=
  info (replace_options replace_multi)
    [WithGroup (B "group"); WithAttrs [a_str "alpha" "omega"; a_pi];
     WithGroup (B "subGroup"); WithAttrs [a_str "alpha" "omega"; a_str "goober" "snoofus"; a_float "e" e_text];
     WithGroup (B "oneMore"); WithAttrs [a_str "alpha" "omega"; a_str "gibbering" "lunatic"; a_float "phi" phi_text]] [];;
  lm <- log_map;
  ws <- has_any [no_repl_attr_basic; no_repl_attr];
  match ws with
  | [] => assert (map_equal (Some multi_fn_expected) lm)
  | w :: _ => if map_equal (Some multi_fn_expected) lm then unused_with_log w else warn_with_log w []
  end.

(** TestReplaceAttrFnRemoveTime: replace.go 415-455. *)
Definition test_replace_attr_fn_remove_time : test unit :=
  info simple_options [] [];;
  lm <- log_map;
  require (Nat.eqb (size lm) 3);;
  require (found TimeKey lm);;
  assert (negb (is_nil (at_key TimeKey lm)));;
  buffer_reset;;
  info (replace_options (remove_key cs TimeKey false (Some top_check))) [] [];;
  lm <- log_map;
  let v := as_string (at_key TimeKey lm) in
  let ok := match v with Some _ => true | None => false end in
  let shown := match v with Some s => s | None => [] end in
  ws <- has_any [no_repl_attr_basic; no_repl_attr];
  let last :=
    he <- has empty_attributes;
    if (he : bool) then
      require (Nat.eqb (size lm) 3);;
      assert ok;;
      assert (is_nil (DStr shown))                       (* a string in an any is not nil *)
    else
      require (Nat.eqb (size lm) 2);;
      assert (negb ok) in
  match ws with
  | [] => last
  | w :: _ =>
      issues_mark w
        ((if Nat.ltb (size lm) 3 then [B "too few attributes: " ++ show_nat (size lm)] else []) ++
         (if ok then [] else [B "no time key"]) ++
         (if beq shown [] then [] else [B "time value not empty string"])) last
  end.

(** ** The suite

    The tests by the names of their methods.  A test starts with an empty buffer
    (SetupTest, suite.go 53-55) and with the manager that the tests before it left. *)
Definition verify_tests : list (bytes * test unit) :=
  [(B "TestAnyMap", test_any_map);
   (B "TestAttributeDuplicate", test_attribute_duplicate);
   (B "TestAttributeEmptyName", test_attribute_empty_name);
   (B "TestAttributeNil", test_attribute_nil);
   (B "TestAttributeWithDuplicate", test_attribute_with_duplicate);
   (B "TestAttributeWithEmpty", test_attribute_with_empty);
   (B "TestAttributeWithEmptyName", test_attribute_with_empty_name);
   (B "TestAttributeWithNil", test_attribute_with_nil);
   (B "TestAttributes", test_attributes);
   (B "TestAttributesEmpty", test_attributes_empty);
   (B "TestAttributesNotEmpty", test_attributes_not_empty);
   (B "TestAttributesWith", test_attributes_with);
   (B "TestAttributesWithEmpty", test_attributes_with_empty);
   (B "TestAttributesWithNotEmpty", test_attributes_with_not_empty);
   (B "TestCanceledContext", test_canceled_context);
   (B "TestDefaultLevel", test_default_level);
   (B "TestDerivedInvariantWith", test_derived_invariant_with);
   (B "TestDerivedInvariantWithGroup", test_derived_invariant_with_group);
   (B "TestDisabled", test_disabled);
   (B "TestGroup", test_group);
   (B "TestGroupDuration", test_group_duration);
   (B "TestGroupEmpty", test_group_empty);
   (B "TestGroupInline", test_group_inline);
   (B "TestGroupWith", test_group_with);
   (B "TestGroupWithMulti", test_group_with_multi);
   (B "TestGroupWithMultiSubEmpty", test_group_with_multi_sub_empty);
   (B "TestGroupWithTop", test_group_with_top);
   (B "TestKeyCase", test_key_case);
   (B "TestKeys", test_keys);
   (B "TestLevelConfigured", test_level_configured);
   (B "TestLevelDifferent", test_level_different);
   (B "TestLevelVar", test_level_var);
   (B "TestLogAttributes", test_log_attributes);
   (B "TestReplaceAttr", test_replace_attr);
   (B "TestReplaceAttrBasic", test_replace_attr_basic);
   (B "TestReplaceAttrFnChangeKey", test_replace_attr_fn_change_key);
   (B "TestReplaceAttrFnLevelCase", test_replace_attr_fn_level_case);
   (B "TestReplaceAttrFnMulti", test_replace_attr_fn_multi);
   (B "TestReplaceAttrFnRemoveEmptyKey", test_replace_attr_fn_remove_empty_key);
   (B "TestReplaceAttrFnRemoveTime", test_replace_attr_fn_remove_time);
   (B "TestReplaceAttrGroup", test_replace_attr_group);
   (B "TestResolveGroup", test_resolve_group);
   (B "TestResolveGroupWith", test_resolve_group_with);
   (B "TestResolveValuer", test_resolve_valuer);
   (B "TestResolveWith", test_resolve_with);
   (B "TestSourceKey", test_source_key);
   (B "TestStringEscape", test_string_escape);
   (B "TestTimestampFormat", test_timestamp_format);
   (B "TestWithGroupEmpty", test_with_group_empty);
   (B "TestWithGroupInline", test_with_group_inline);
   (B "TestZeroPC", test_zero_pc);
   (B "TestZeroTime", test_zero_time)].

(** One test: whether it passes, and the manager and the number of records after it. *)
Definition run_test (x : bytes * test unit) (m : manager) (n : nat) : bool * manager * nat :=
  let w := fst (snd x {| v_test := fst x; v_buffer := []; v_manager := m; v_failed := false; v_records := n |}) in
  (negb (v_failed w), v_manager w, v_records w).

(** All of them, one after the other: the names of those that fail, and the manager. *)
Fixpoint run_tests (l : list (bytes * test unit)) (m : manager) (n : nat) : list bytes * manager :=
  match l with
  | [] => ([], m)
  | x :: l' =>
      let '(ok, m', n') := run_test x m n in
      let (bad, m'') := run_tests l' m' n' in
      ((if ok then [] else [fst x]) ++ bad, m'')
  end.

End Tests.
