(** Model of the benchmarks of bench/tests: what each logs, through which handler,
    and how its output is checked (benchmarks.go, data.go, logging.go). *)

From Coq Require Import Ascii String List ZArith NArith Bool QArith Qcanon.
From Verif Require Import Bytes GoSort Slog Flash Regex Gin Warnings BenchChecks LoggingData.
Import ListNotations.
Local Open Scope nat_scope.
Local Open Scope list_scope.

(** ** logging.go *)

(** ptnTrimTimeLevel: bench/tests/logging.go 28. *)
Definition clock : re := RChr (fun c => is_digit c || Ascii.eqb c (chr 58)).
Definition ptnTrimTimeLevel : re :=
  rcat ([RBol; ws] ++ repeat clock 8 ++ [ws1; rplus (RChr is_word); ws1; RGroup 1 (RSeq (RChr is_digit) (RStar false (RChr is_digit)))]).

(** The body of the loop on one line: logging.go 46-55. *)
Definition trim_time_level (line : bytes) : bytes :=
  match find ptnTrimTimeLevel line with
  | Some f => sub 1 f ++ f_after f
  | None => line
  end.

(** init and logData: logging.go 31-62.  Lines that do not parse are left out (and
    reported to the log). *)
Definition log_data : list (list attr) :=
  flat_map (fun line => match parse (trim_time_level line) with POk args => [args] | PErr _ => [] end) (read_lines logging).

(** ** data.go and benchmarks.go *)

(** slog.LevelDebug, slog.LevelInfo. *)
Definition level_debug : Z := -4.
Definition level_info : Z := 0.

(** message: bench/tests/utility.go 50. *)
Definition message : bytes := B "This is a message".

(** expectedBasic: data.go 17-22. *)
Definition expected_basic : dmap := [(LevelKey, DStr (B "INFO")); (MessageKey, DStr message)].

(** The constants: data.go 33-46; the error: data.go 52. *)
Definition val_string : bytes := B "The only Thing we have to fear is fear itself.".
Definition val_error : bytes := B "I'm sorry, Dave. I'm afraid I can't do that.".
Definition number (z : Z) : dyn := DNum (Q2Qc (inject_Z z)).

Section Suite.
Variable E : env.

(** What is printed for math.Pi, the float64 itself, time.Now() when the
    program starts, and the result of bigGroupBuilder. *)
Variable pi_text : bytes.
Variable pi : Qc.
Variable start : gotime.
Variable big_group : attr.

(** valAny is a pointer to a struct without methods, which json.Marshal writes as
    an object; valError has the method Error and no exported fields. *)
Definition val_any : value := VAny (AnyObj (plain_obs (MOk (B "{""Name"":""Skidoo"",""Num"":23}")))).
Definition val_err : value :=
  VAny (AnyObj {| ao_net := None; ao_stringer := None; ao_error := Some val_error; ao_jsonm := None; ao_textm := None; ao_marshal := MOk (B "{}") |}).
Definition val_group : value := VGroup [(B "alpha", VString (B "omega")); (B "never", VString (B "mind"))].

(** allAttributes, allKeyValues and withAttributes: data.go 55-81, 102-114;
    slog makes the same attributes of the keys and values.  The first argument is
    the prefix of some of the names. *)
Definition attributes (pre : bytes) : list attr :=
  [(pre ++ B "Bool", VBool true);
   (pre ++ B "Int", VInt64 17);
   (pre ++ B "Int64", VInt64 (-654));
   (pre ++ B "Uint64", VUint64 29399459393);
   (pre ++ B "Float64", VFloat64 (FFin pi_text));
   (pre ++ B "String", VString val_string);
   (pre ++ B "Time", VTime start);
   (pre ++ B "Duration", VDuration 3600000000000);
   (group_name, val_group);
   (B "Any", val_any);
   (B "Error", val_err)].
Definition all_attributes : list attr := attributes [].
Definition with_attributes : list attr := attributes (B "with").

(** allValuesMap and withValuesMap: data.go 83-100, 116-133. *)
Definition values_map (pre : bytes) : dmap :=
  [(pre ++ B "Bool", DBool true);
   (pre ++ B "Int", number 17);
   (pre ++ B "Int64", number (-654));
   (pre ++ B "Uint64", number 29399459393);
   (pre ++ B "Float64", DNum pi);
   (pre ++ B "String", DStr val_string);
   (group_name, DMap [(B "alpha", DStr (B "omega")); (B "never", DStr (B "mind"))]);
   (B "Any", DMap [(B "Name", DStr (B "Skidoo")); (B "Num", number 23)])].
Definition all_values_map : dmap := values_map [].
Definition with_values_map : dmap := values_map (B "with").

(** A benchmark: whether the options ask for the source, the operations of
    HandlerFn, the calls of the logger (level, message, attributes), and
    VerifyFn. *)
Record benchmark : Type := {
  b_source : bool;
  b_ops : list op;
  b_calls : list (Z * bytes * list attr);
  b_verify : verify_fn
}.

Definition info (attrs : list attr) : list (Z * bytes * list attr) := [(level_info, message, attrs)].

(** infra.SimpleOptions and SourceOptions: infra/options.go 8-31; the level, Info
    for all of them, is with the calls. *)
Definition options_of (b : benchmark) : options := {| o_add_source := b_source b; o_replace := None |}.

(** withAllAttributes and withGroup: bench/tests/utility.go 19-33. *)
Definition with_all : list op := [WithAttrs with_attributes].
Definition with_group : list op := [WithGroup (B "withGroup")].

(** benchmarks.go 62-258, in this order. *)
Definition benchmarks : list (bytes * benchmark) :=
  [(B "Disabled", {| b_source := false; b_ops := []; b_calls := [(level_debug, message, [])];
      b_verify := disabled_check E |});
   (B "Simple", {| b_source := false; b_ops := []; b_calls := info [];
      b_verify := matcher E (B "Simple") expected_basic |});
   (B "SimpleSource", {| b_source := true; b_ops := []; b_calls := info [];
      b_verify := verify E [finder E (B "SimpleSource") expected_basic; sourcerer E (B "SimpleSource")] |});
   (B "Attributes", {| b_source := false; b_ops := []; b_calls := info all_attributes;
      b_verify := verify E [finder E (B "Attributes") expected_basic; finder E (B "Attributes") all_values_map; no_duplicates E (B "Attributes")] |});
   (B "KeyValues", {| b_source := false; b_ops := []; b_calls := info all_attributes;
      b_verify := verify E [finder E (B "KeyValues") expected_basic; finder E (B "KeyValues") all_values_map; no_duplicates E (B "KeyValues")] |});
   (B "WithAttrsSimple", {| b_source := false; b_ops := with_all; b_calls := info [];
      b_verify := verify E [finder E (B "WithAttrsSimple:Basic") expected_basic; finder E (B "WithAttrsSimple:With") with_values_map;
                            no_duplicates E (B "WithAttrsSimple")] |});
   (B "WithAttrsAttributes", {| b_source := false; b_ops := with_all; b_calls := info all_attributes;
      b_verify := verify E [finder E (B "WithAttrsAttributes:Basic") expected_basic; finder E (B "WithAttrsAttributes:All") all_values_map;
                            finder E (B "WithAttrsAttributes:With") with_values_map; no_duplicates E (B "WithAttrsAttributes")] |});
   (B "WithAttrsKeyValues", {| b_source := false; b_ops := with_all; b_calls := info all_attributes;
      b_verify := verify E [finder E (B "WithAttrsKeyValues:Basic") expected_basic; finder E (B "WithAttrsKeyValues:All") all_values_map;
                            finder E (B "WithAttrsKeyValues:With") with_values_map; no_duplicates E (B "WithAttrsKeyValues")] |});
   (B "WithGroupAttributes", {| b_source := false; b_ops := with_group; b_calls := info all_attributes;
      b_verify := verify E [finder E (B "WithGroupAttributes:Basic") expected_basic;
                            finder E (B "WithGroupAttributes:All") [(B "withGroup", DMap all_values_map)];
                            no_duplicates E (B "With_Group_Attributes")] |});
   (B "WithGroupKeyValues", {| b_source := false; b_ops := with_group; b_calls := info all_attributes;
      b_verify := verify E [finder E (B "WithGroupKeyValues:Basic") expected_basic;
                            finder E (B "WithGroupKeyValues:All") [(B "withGroup", DMap all_values_map)];
                            no_duplicates E (B "WithGroupKeyValues")] |});
   (B "BigGroup", {| b_source := false; b_ops := []; b_calls := info [big_group];
      b_verify := big_group_checker E (B "BigGroup") |});
   (B "Logging", {| b_source := false; b_ops := []; b_calls := map (fun args => (level_info, B "Handle", args)) log_data;
      b_verify := verify_lines E [fields_check E (B "Logging") [B "level"; B "msg"; B "code"; B "elapsed"; B "method"; B "url"]] |})].

End Suite.
