(** The generated enumerations (internal/scoring/score/type_enumer.go,
    internal/data/benchitems_enumer.go, creator/veqryndedup/mode_enumer.go), the names
    beside them (score/type.go, data/bench_items.go), and the level conversions of
    creator/utilzap and creator/utillogrus. *)

From Coq Require Import Ascii String List NArith ZArith Bool.
From Verif Require Import Bytes GoSort Slog Replace Warnings.
Import ListNotations.

(** ** enumer *)

(** The constants _XName, _XLowerName and _XIndex: lines 10-14 of each file. *)
Record enum : Type := { e_type : bytes; e_name : bytes; e_lower : bytes; e_index : list nat }.

Definition types : enum := {|
  e_type := B "Type"; e_name := B "DefaultByDataOriginalByTest"; e_lower := B "defaultbydataoriginalbytest";
  e_index := [0; 7; 13; 21; 27] |}.
Definition items : enum := {|
  e_type := B "BenchItems"; e_name := B "RunsNanosMemAllocsMemBytesMbPerSecGbPerSecTbPerSec";
  e_lower := B "runsnanosmemallocsmembytesmbpersecgbpersectbpersec"; e_index := [0; 4; 9; 18; 26; 34; 42; 50] |}.
Definition modes : enum := {|
  e_type := B "Mode"; e_name := B "NoneAppendIgnoreIncrementOverwrite"; e_lower := B "noneappendignoreincrementoverwrite";
  e_index := [0; 4; 10; 16; 25; 34] |}.

Definition members (e : enum) : nat := length (e_index e) - 1.
Definition slice (s : bytes) (a b : nat) : bytes := firstn (b - a) (skipn a s).
Definition part (e : enum) (s : bytes) (i : nat) : bytes := slice s (nth i (e_index e) 0) (nth (S i) (e_index e) 0).

(** String: type_enumer.go 16-21. *)
Definition enum_string (e : enum) (i : N) : bytes :=
  if N.leb (N.of_nat (members e)) i then e_type e ++ B "(" ++ dec_of_N i ++ B ")" else part e (e_name e) (N.to_nat i).

(** _XNameToValueMap: type_enumer.go 35-44; _XValues: 33. *)
Definition enum_map (e : enum) : list (bytes * N) :=
  concat (map (fun i => [(part e (e_name e) i, N.of_nat i); (part e (e_lower e) i, N.of_nat i)]) (seq 0 (members e))).
Definition enum_values (e : enum) : list N := map N.of_nat (seq 0 (members e)).

(** XString: type_enumer.go 55-64. *)
Definition enum_parse (cs : casing) (e : enum) (s : bytes) : option N :=
  match get s (enum_map e) with Some v => Some v | None => get (to_lower cs s) (enum_map e) end.

(** IsAX: type_enumer.go 79-86; XStrings: 46-51 and 72-76. *)
Definition enum_is (e : enum) (i : N) : bool := existsb (N.eqb i) (enum_values e).
Definition enum_strings (e : enum) : list bytes := map (part e (e_name e)) (seq 0 (members e)).

(** ** Names beside them *)

Fixpoint find_name {A} (i : N) (t : list (N * A)) : option A :=
  match t with [] => None | (k, v) :: t' => if N.eqb k i then Some v else find_name i t' end.

(** ColHeader: type.go 17-29. *)
Definition col_names : list (N * bytes) :=
  [(0%N, B "Score"); (1%N, B "by Data"); (3%N, B "by Test"); (2%N, B "Original")].
Definition col_header (i : N) : bytes :=
  match find_name i col_names with Some h => h | None => B "Unknown:" ++ enum_string types i end.

(** List: type.go 33-43; the error is logged. *)
Definition type_list (cs : casing) (names : list bytes) : list N :=
  flat_map (fun s => match enum_parse cs types s with Some t => [t] | None => [] end) names.

(** ShortName and LongName: bench_items.go 25-69. *)
Definition item_names : list (N * (bytes * bytes)) :=
  [(0%N, (B "Runs", B "Test runs"));
   (1%N, (B "Ns/Op", B "Nanoseconds per operation"));
   (2%N, (B "Allocs/Op", B "Memory allocations per operation"));
   (3%N, (B "Bytes/Op", B "Bytes allocated per operation"));
   (4%N, (B "MB/Sec", B "Megabytes processed per second"));
   (5%N, (B "GB/Sec", B "Gigabytes processed per second"));
   (6%N, (B "TB/Sec", B "Terabytes processed per second"))].
Definition short_name (i : N) : bytes := match find_name i item_names with Some (s, _) => s | None => [] end.
Definition long_name (i : N) : bytes := match find_name i item_names with Some (_, l) => l | None => [] end.

(** ** Levels of other loggers *)

(** zapcore (go.uber.org/zap/zapcore/level.go): higher is more important. *)
Definition zap_debug : Z := -1.
Definition zap_info : Z := 0.
Definition zap_warn : Z := 1.
Definition zap_error : Z := 2.
(** ConvertLevelToZap: creator/utilzap/conversion.go 15-26. *)
Definition to_zap (l : Z) : Z :=
  if Z.leb LevelError l then zap_error else if Z.leb LevelWarn l then zap_warn else if Z.leb LevelInfo l then zap_info else zap_debug.

(** logrus (github.com/sirupsen/logrus/logrus.go): lower is more important. *)
Definition logrus_error : Z := 2.
Definition logrus_warn : Z := 3.
Definition logrus_info : Z := 4.
Definition logrus_debug : Z := 5.
(** ConvertSlogLevel2Logrus: creator/utillogrus/conversion.go 10-21. *)
Definition to_logrus (l : Z) : Z :=
  if Z.leb LevelError l then logrus_error else if Z.leb LevelWarn l then logrus_warn else if Z.leb LevelInfo l then logrus_info else logrus_debug.
