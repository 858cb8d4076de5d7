(** Model of verify/tests: the surroundings of a test of the verification suite
    (suite.go), its utilities (utility.go) and its checks (checks.go). *)

From Coq Require Import Ascii String List ZArith NArith Bool Arith QArith Qcanon.
From Verif Require Import Bytes GoSort Slog Replace Warnings FieldCounter BenchChecks Complex.
Import ListNotations.
Local Open Scope nat_scope.
Local Open Scope list_scope.

(** ** Warnings: infra/warning/required.go, implied.go, suggested.go *)

Definition empty_attributes : warning :=
  {| w_level := level_required; w_name := B "EmptyAttributes"; w_summary := B "Empty attribute(s) logged ("""":null)" |}.
Definition group_inline : warning :=
  {| w_level := level_required; w_name := B "GroupInline"; w_summary := B "Group with empty key does not inline subfields" |}.
Definition level_var : warning :=
  {| w_level := level_required; w_name := B "LevelVar"; w_summary := B "Unable to change level during execution via LevelVar" |}.
Definition with_group_empty : warning :=
  {| w_level := level_required; w_name := B "WithGroupEmpty"; w_summary := B "Empty WithGroup() logged" |}.
Definition zero_pc : warning :=
  {| w_level := level_required; w_name := B "ZeroPC"; w_summary := B "SourceKey logged for zero PC" |}.
Definition zero_time : warning :=
  {| w_level := level_required; w_name := B "ZeroTime"; w_summary := B "Zero time is logged" |}.
Definition canceled_context : warning :=
  {| w_level := level_implied; w_name := B "CanceledContext"; w_summary := B "Canceled context blocks logging" |}.
Definition default_level : warning :=
  {| w_level := level_implied; w_name := B "DefaultLevel"; w_summary := B "Handler doesn't default to slog.LevelInfo" |}.
Definition level_math : warning :=
  {| w_level := level_implied; w_name := B "LevelMath"; w_summary := B "Log levels are not properly treated as integers" |}.
Definition message_key : warning :=
  {| w_level := level_implied; w_name := B "MessageKey"; w_summary := B "Wrong message key (should be 'msg')" |}.
Definition no_repl_attr : warning :=
  {| w_level := level_implied; w_name := B "NoReplAttr"; w_summary := B "HandlerOptions.ReplaceAttr not available" |}.
Definition no_repl_attr_basic : warning :=
  {| w_level := level_implied; w_name := B "NoReplAttrBasic";
     w_summary := B "HandlerOptions.ReplaceAttr not available for basic fields" |}.
Definition repl_attr_group : warning :=
  {| w_level := level_implied; w_name := B "ReplAttrGroup"; w_summary := B "ReplaceAttr groups argument usage results in an error" |}.
Definition with_group : warning :=
  {| w_level := level_implied; w_name := B "WithGroup"; w_summary := B "WithGroup doesn't embed following attributes into group" |}.
Definition level_wrong : warning :=
  {| w_level := level_suggested; w_name := B "LevelWrong"; w_summary := B "Log level is incorrect" |}.
Definition no_empty_name : warning :=
  {| w_level := level_suggested; w_name := B "NoEmptyName"; w_summary := B "Attributes with empty names are not logged" |}.
Definition no_nil_value : warning :=
  {| w_level := level_suggested; w_name := B "NoNilValue"; w_summary := B "Attributes with nil values are not logged" |}.
Definition time_millis : warning :=
  {| w_level := level_suggested; w_name := B "TimeMillis"; w_summary := B "slog.Time() logs milliseconds instead of nanoseconds" |}.
Definition time_seconds : warning :=
  {| w_level := level_suggested; w_name := B "TimeSeconds"; w_summary := B "slog.Time() logs seconds instead of nanoseconds" |}.

(** ** The handler under test

    What the handlers made by the creator do.  [u_enabled]: the answer of Enabled
    for a handler made with this level ([None]: a nil Leveler).  [u_handle]: the
    bytes written and whether no error is returned, by a handler made with these
    options and derived in this way, for a context that is cancelled or not. *)
Record subject : Type := {
  u_enabled : option Z -> Z -> bool;
  u_handle : bool -> options -> list op -> record -> bytes * bool
}.

(** slog.HandlerOptions: the level and the rest. *)
Record setting : Type := { s_level : option Z; s_options : options }.

(** SimpleOptions, LevelOptions, SourceOptions, ReplaceAttrOptions:
    infra/options.go 8-37. *)
Definition level_options (l : Z) : setting :=
  {| s_level := Some l; s_options := {| o_add_source := false; o_replace := None |} |}.
Definition simple_options : setting := level_options LevelInfo.
Definition source_options : setting :=
  {| s_level := Some LevelInfo; s_options := {| o_add_source := true; o_replace := None |} |}.
Definition replace_options (f : attr_fn) : setting :=
  {| s_level := Some LevelInfo; s_options := {| o_add_source := false; o_replace := Some f |} |}.

(** ** The surroundings of a test

    [z_env]: as for the benchmark checks; [z_classes]: package unicode for the
    field counter; [z_now]: the clock and the caller at the n-th record made by a
    logger; [z_when]: another reading of the clock; [z_float]: the float64 with
    this shortest text; [z_date]: year, month and day of time.Parse(RFC3339, _);
    [z_today]: those of time.Now(); [z_percent_f]: the verb %f. *)
Record surroundings : Type := {
  z_env : env;
  z_classes : classes;
  z_now : nat -> gotime * source;
  z_when : gotime;
  z_float : bytes -> Qc;
  z_date : bytes -> option (Z * Z * Z);
  z_today : Z * Z * Z;
  z_percent_f : Qc -> bytes
}.

(** ** A running test

    SlogTestSuite (suite.go 19-28): the buffer and the warning manager; the method
    being run, which misc.CurrentFunctionName finds on the stack; whether an
    assertion has failed; how many records loggers have made. *)
Record state : Type :=
  { v_test : bytes; v_buffer : bytes; v_manager : manager; v_failed : bool; v_records : nat }.
Definition set_buffer (b : bytes) (w : state) : state :=
  {| v_test := v_test w; v_buffer := b; v_manager := v_manager w; v_failed := v_failed w; v_records := v_records w |}.
Definition set_manager (m : manager) (w : state) : state :=
  {| v_test := v_test w; v_buffer := v_buffer w; v_manager := m; v_failed := v_failed w; v_records := v_records w |}.
Definition fail (w : state) : state :=
  {| v_test := v_test w; v_buffer := v_buffer w; v_manager := v_manager w; v_failed := true; v_records := v_records w |}.
Definition next_record (w : state) : state :=
  {| v_test := v_test w; v_buffer := v_buffer w; v_manager := v_manager w; v_failed := v_failed w;
     v_records := v_records w + 1 |}.

(** A piece of a test.  [None]: it was stopped by a requirement (FailNow). *)
Definition test (A : Type) : Type := state -> state * option A.

Definition ret {A} (a : A) : test A := fun w => (w, Some a).
Definition bind {A C} (t : test A) (k : A -> test C) : test C := fun w =>
  match t w with
  | (w', Some a) => k a w'
  | (w', None) => (w', None)
  end.
Declare Scope test_scope.
Delimit Scope test_scope with test.
Notation "x <- t ; k" := (bind t (fun x => k)) (at level 100, t at level 99, right associativity) : test_scope.
Notation "t ;; k" := (bind t (fun _ => k)) (at level 100, right associativity) : test_scope.
Local Open Scope test_scope.

(** suite.Assert() goes on after a failure, suite.Require() does not.  (testify;
    suite.True and the like are as suite.Assert().) *)
Definition assert (b : bool) : test unit := fun w => (if b then w else fail w, Some tt).
Definition require (b : bool) : test unit := fun w => if b then (w, Some tt) else (fail w, None).

(** suite.Buffer.String(), suite.bufferReset() *)
Definition buffer : test bytes := fun w => (w, Some (v_buffer w)).
Definition buffer_reset : test unit := fun w =>
  (set_buffer [] w, Some tt).

(** logMap[key], nil where there is nothing, and whether there is something. *)
Definition at_key (k : bytes) (lm : log_map) : dyn := match lookup k lm with Some v => v | None => DNull end.
Definition found (k : bytes) (lm : log_map) : bool := match lookup k lm with Some _ => true | None => false end.
(** len(logMap) *)
Definition size (lm : log_map) : nat := match lm with Some m => length m | None => 0 end.
Definition is_nil (v : dyn) : bool := match v with DNull => true | _ => false end.
(** v.(map[string]any), v.(string), v.(float64) *)
Definition as_map (v : dyn) : option dmap := match v with DMap l => Some l | _ => None end.
Definition as_string (v : dyn) : option bytes := match v with DStr s => Some s | _ => None end.
Definition as_float (v : dyn) : option Qc := match v with DNum q => Some q | _ => None end.
(** delete(logMap, key) *)
Definition delete_key (k : bytes) (lm : log_map) : log_map := option_map (drop k) lm.
(** reflect.DeepEqual of two maps. *)
Definition map_equal (a b : log_map) : bool :=
  match a, b with
  | None, None => true
  | Some x, Some y => deep_equal (DMap x) (DMap y)
  | _, _ => false
  end.

Section Suite.
Variable S : surroundings.
Variable H : subject.

Definition has (w : warning) : test bool := fun st => (st, Some (has_warning (e_use (z_env S)) w (v_manager st))).
Definition has_any (ws : list warning) : test (list warning) := fun st =>
  (st, Some (has_warnings (e_use (z_env S)) ws (v_manager st))).
Definition warn (w : warning) (text log : bytes) : test unit := fun st =>
  (set_manager (add_warning w (v_test st) text log (v_manager st)) st, Some tt).
Definition not_used (w : warning) (log : bytes) : test unit := fun st =>
  (set_manager (add_unused w (v_test st) log (v_manager st)) st, Some tt).

(** ** Logging

    logger.Log and its relatives: a record is made and handled if the level is
    enabled; what Handle returns is ignored.  The arguments are given as the
    attributes log/slog makes of them; Record.Add leaves out empty groups. *)
Definition record_attrs (attrs : list attr) : list attr :=
  filter (fun a => match snd a with VGroup [] => false | _ => true end) attrs.
Definition log_context (cancelled : bool) (s : setting) (ops : list op) (level : Z) (msg : bytes) (attrs : list attr)
    : test unit := fun w =>
  if u_enabled H (s_level s) level then
    let (t, src) := z_now S (v_records w) in
    let r := {| Slog.r_time := t; Slog.r_level := level; Slog.r_msg := msg; Slog.r_source := Some src;
                Slog.r_attrs := record_attrs attrs |} in
    (next_record (set_buffer (v_buffer w ++ fst (u_handle H cancelled (s_options s) ops r)) w), Some tt)
  else (w, Some tt).
Definition log := log_context false.
Definition info (s : setting) (ops : list op) (attrs : list attr) : test unit := log s ops LevelInfo test_message attrs.

(** suite.Require().NoError(logger.Handler().Handle(context.Background(), record)) *)
Definition handle (s : setting) (r : record) : test unit := fun w =>
  let (b, ok) := u_handle H false (s_options s) [] r in
  require ok (set_buffer (v_buffer w ++ b) w).

(** logger.Enabled *)
Definition enabled (s : setting) (level : Z) : bool := u_enabled H (s_level s) level.

(** ** utility.go *)

(** logMap: utility.go 42-50. *)
Definition get_map : test log_map :=
  b <- buffer;
  let (lm, err) := e_unmarshal (z_env S) b in
  require (match err with None => true | Some _ => false end);;
  ret lm.

(** fieldCounter: utility.go 35-37, and suite.Require().NoError(counter.Parse()).
    (The bound of [count_fields] is never reached.) *)
Definition field_counter : test counts :=
  b <- buffer;
  match count_fields (z_classes S) b with
  | Some (Ok (c, _)) => ret c
  | _ => require false;; ret []
  end.

(** adjustExpected: utility.go 15-26. *)
Definition adjust_expected (expected : dmap) (lm : log_map) : dmap :=
  let e := match lookup TimeKey lm with Some t => put TimeKey t expected | None => expected end in
  let e := match lookup LevelKey lm with Some l => put LevelKey l e | None => e end in
  if found (B "message") lm then drop MessageKey (put (B "message") (at_key MessageKey (Some e)) e) else e.

(** skipTest: utility.go 56-63. *)
Definition skip_test (w : warning) : test bool :=
  h <- has w;
  if (h : bool) then
    warn w (B "Skipping test") [];;
    warn skipping_test (w_name w) [];;
    ret true
  else ret false.

(** ** checks.go *)

(** fmt's %v of a map[string]uint: in the order of the keys. *)
Definition show_counts (c : counts) : bytes :=
  B "map[" ++ join_with (B " ") (map (fun k => k ++ B ":" ++ dec_of_N (match get k c with Some n => n | None => 0%N end)) (fields_of c))
  ++ B "]".

(** checks.go 29-33. *)
Definition count_check (n : nat) (lm : log_map) : test unit :=
  assert (Nat.eqb (size lm) n);;
  c <- field_counter;
  assert (Nat.eqb (num_fields c) n);;
  assert (Nat.eqb (length (duplicates c)) 0).

(** checkFieldCount: checks.go 19-34. *)
Definition check_field_count (n : nat) (lm : log_map) : test unit :=
  h <- has duplicated;
  if (h : bool) then
    c <- field_counter;
    if Nat.ltb 0 (length (duplicates c)) then warn duplicated (show_counts (duplicates c)) []
    else count_check n lm
  else count_check n lm.

(** strings.ToUpper *)
Definition upper (s : bytes) : bytes := map_runes (cs_upper (e_casing (z_env S))) s.

(** checkLevelKey: checks.go 36-53. *)
Definition check_level_key (level : bytes) (lm : log_map) : test unit :=
  let level := upper level in
  h <- has level_case;
  if (h : bool) then
    match as_string (at_key LevelKey lm) with
    | Some l =>
        if negb (beq level (upper l)) then warn level_wrong (B "should be '" ++ level ++ B "', not '" ++ l ++ B "'") []
        else if negb (beq level l) then warn level_case (B "'" ++ l ++ B "'") []
        else not_used level_case []
    | None => not_used level_case []
    end
  else assert (deep_equal (DStr level) (at_key LevelKey lm)).

(** checkLevelMath: checks.go 55-65. *)
Definition check_level_math (s : setting) (level : Z) (want : bool) (message : bytes) : test unit :=
  let good := Bool.eqb (enabled s level) want in
  h <- has level_math;
  if negb h then assert good
  else if good then not_used level_math []
  else warn level_math message [].

(** checkMessageKey: checks.go 67-81. *)
Definition check_message_key (message : bytes) (lm : log_map) : test unit :=
  h <- has message_key;
  let last := assert (deep_equal (DStr message) (at_key MessageKey lm)) in
  if (h : bool) then
    if negb (found MessageKey lm) && found (B "message") lm && deep_equal (DStr message) (at_key (B "message") lm)
    then warn message_key (B "`message`") []
    else not_used message_key [];; last
  else last.

(** checkNoEmptyAttribute: checks.go 83-99. *)
Definition check_no_empty_attribute (n : nat) (lm : log_map) : test unit :=
  h <- has empty_attributes;
  let last := check_field_count n lm;; assert (negb (found [] lm)) in
  if (h : bool) then
    c <- field_counter;
    if Nat.eqb (num_fields c) (n + 1) && found [] lm && is_nil (at_key [] lm) then
      b <- buffer; warn empty_attributes [] b
    else not_used empty_attributes [];; last
  else last.

(** checkResolution: checks.go 101-110.  (The values compared with are strings,
    so the comparison with != does not panic.) *)
Definition check_resolution (value actual : dyn) : test unit :=
  h <- has resolver;
  let last := assert (deep_equal value actual) in
  if (h : bool) then
    if negb (deep_equal value actual) then b <- buffer; warn resolver [] b
    else not_used resolver [];; last
  else last.

(** sourceKeys: checks.go 112-116; the loops over it in this order. *)
Definition source_keys : list bytes := [B "file"; B "function"; B "line"].

(** checks.go 151-163. *)
Definition source_state (group : log_map) (field : bytes) : option bytes :=
  match at_key field group with
  | DNull => Some (field ++ B ": missing")
  | DStr _ => None
  | _ => Some (field ++ B ": not a string")
  end.
Definition source_states (group : log_map) : list bytes :=
  flat_map (fun f => match source_state group f with Some t => [t] | None => [] end) source_keys.

(** suite.Assert().IsType(exemplar, group[field]): two strings and a float64. *)
Definition source_type (group : log_map) (field : bytes) : bool :=
  match at_key field group with
  | DStr _ => negb (beq field (B "line"))
  | DNum _ => beq field (B "line")
  | _ => false
  end.

(** checkSourceKey: checks.go 118-182. *)
Definition check_source_key (n : nat) (lm : log_map) : test unit :=
  b <- buffer;
  let caller := as_string (at_key (B "caller") lm) in
  let plain_check :=
    check_field_count n lm;;
    match as_map (at_key SourceKey lm) with
    | Some g =>
        assert (Nat.eqb (length g) 3);;
        fold_right (fun f rest =>
          assert (negb (is_nil (at_key f (Some g))));;
          assert (source_type (Some g) f);;
          rest) (ret tt) source_keys
    | None => assert false
    end in
  let key_check :=
    hk <- has source_missing;
    if (hk : bool) then
      (match caller with Some text => warn source_caller text b | None => ret tt end);;
      match lookup SourceKey lm with
      | None => warn source_missing (B "no 'source' key") b
      | Some DNull => warn source_missing (B "'source' key is nil") b
      | Some (DMap g) =>
          match source_states (Some g) with
          | [] => not_used source_missing b;; plain_check
          | l => warn source_missing (join_with (B ", ") l) b
          end
      | Some _ => warn source_missing (B "'source' key not a group") b
      end
    else plain_check in
  hc <- has source_caller;
  if (hc : bool) then
    match caller with
    | Some text =>
        hk <- has source_missing;
        (if (hk : bool) then not_used source_missing [] else ret tt);;
        warn source_caller text b
    | None => not_used source_caller b;; key_check
    end
  else key_check.

(** parseTime: checks.go 184-191; the zero time is 1 January 1. *)
Definition parse_time (v : dyn) : test (Z * Z * Z) :=
  assert (negb (is_nil v));;
  match as_string v with
  | Some t =>
      match z_date S t with
      | Some d => ret d
      | None => assert false;; ret (1, 1, 1)%Z
      end
  | None => assert false;; assert (match z_date S [] with Some _ => true | None => false end);; ret (1, 1, 1)%Z
  end.

End Suite.
