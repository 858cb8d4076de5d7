(** Model of the parts of [log/slog] (Go 1.22) the handlers are written against.

    The standard library is not transcribed.  A value carries what the library
    would observe of it: the text [strconv] prints for a float, the format
    function of a time, the results of the [String], [Error], [MarshalJSON] and
    [MarshalText] methods and of [json.Marshal] for an arbitrary object. *)

From Coq Require Import Ascii String List ZArith NArith Bool.
From Verif Require Import Bytes.
Import ListNotations.

(** Result of a marshalling call: bytes or an error with its message. *)
Inductive mres : Type := MOk (b : bytes) | MErr (e : bytes).

(** What the handlers can observe of a Go object in an [any].  [None]: the
    interface is not implemented (the case of the type switch is not taken).
    [ao_net]: the object is a [net.IP], [net.IPNet] or [net.HardwareAddr]. *)
Record any_obs : Type := {
  ao_net      : option bytes;
  ao_stringer : option bytes;
  ao_error    : option bytes;
  ao_jsonm    : option mres;
  ao_textm    : option mres;
  ao_marshal  : mres
}.

(** An object that implements none of the interfaces, and a Stringer. *)
Definition plain_obs (m : mres) : any_obs :=
  {| ao_net := None; ao_stringer := None; ao_error := None; ao_jsonm := None;
     ao_textm := None; ao_marshal := m |}.

Definition stringer_obs (s : bytes) : any_obs :=
  {| ao_net := None; ao_stringer := Some s; ao_error := None; ao_jsonm := None;
     ao_textm := None; ao_marshal := MOk [] |}.

Inductive anyv : Type := AnyNil | AnyObj (o : any_obs).

(** [time.Time]: zero test, [Format] for each layout, [String]. *)
Record gotime : Type := {
  t_zero   : bool;
  t_format : bytes -> bytes;
  t_string : bytes
}.

(** [float64] as printed by [strconv.AppendFloat(_, f, 'f', -1, 64)]. *)
Inductive float64 : Type := FFin (text : bytes) | FNaN | FPosInf | FNegInf.

Definition float_text (f : float64) : bytes :=
  match f with
  | FFin t => t
  | FNaN => B "NaN"
  | FPosInf => B "+Inf"
  | FNegInf => B "-Inf"
  end.

(** [slog.Value].  A [LogValuer] carries the value its [LogValue] method
    returns and what is observed of the object itself.  A LogValuer that never
    stops is represented by any chain longer than the library's limit. *)
Inductive value : Type :=
| VAny (a : anyv)
| VBool (b : bool)
| VDuration (ns : Z)
| VFloat64 (f : float64)
| VInt64 (i : Z)
| VString (s : bytes)
| VTime (t : gotime)
| VUint64 (u : N)
| VGroup (l : list (bytes * value))
| VLogValuer (next : value) (o : any_obs).

(** [slog.Attr]: key and value. *)
Definition attr : Type := bytes * value.

(** infra/attributes.go: [EmptyAttr]. *)
Definition empty_attr : attr := ([], VAny AnyNil).

(** [attr.Equal(infra.EmptyAttr())]: key empty and value the zero Value.
    (slog: Attr.Equal, Value.Equal; kinds must agree, and for KindAny the
    comparison with nil.) *)
Definition is_empty (a : attr) : bool :=
  match a with
  | ([], VAny AnyNil) => true
  | _ => false
  end.

(** The error value [Resolve] returns when LogValue has been called 100 times;
    the message is not modelled beyond being an [error]. *)
Definition too_many : value :=
  VAny (AnyObj {| ao_net := None; ao_stringer := None;
                  ao_error := Some (B "LogValue called too many times");
                  ao_jsonm := None; ao_textm := None; ao_marshal := MOk (B "{}") |}).

Fixpoint resolve_n (n : nat) (v : value) : value :=
  match n with
  | O => too_many
  | S n' => match v with VLogValuer w _ => resolve_n n' w | _ => v end
  end.

(** slog: Value.Resolve, with maxLogValues = 100. *)
Definition resolve (v : value) : value := resolve_n 100 v.

(** [slog.HandlerOptions.ReplaceAttr] (infra.AttrFn). *)
Definition attr_fn : Type := list bytes -> attr -> attr.

(** Marshalling of values that are not objects: [json.Marshal(value.Any())],
    [Duration.String()], and the two shapes of source data. *)
Record source : Type := { src_function : bytes; src_file : bytes; src_line : Z }.

Record stdlib : Type := {
  sl_marshal  : value -> mres;
  sl_duration : Z -> bytes;
  sl_source_struct : source -> mres;
  sl_source_map    : source -> mres;
  sl_print : N -> bool        (* strconv.IsPrint for code points above 127 *)
}.

(** Observations of [value.Any()] (slog: Value.Any).  Time and Duration are
    Stringers; the other basic kinds and groups implement none of the
    interfaces and go to [json.Marshal]. *)
Definition any_of_value (std : stdlib) (v : value) : any_obs :=
  match v with
  | VAny AnyNil => plain_obs (MOk (B "null"))
  | VAny (AnyObj o) => o
  | VLogValuer _ o => o
  | VTime t => stringer_obs (t_string t)
  | VDuration d => stringer_obs (sl_duration std d)
  | _ => plain_obs (sl_marshal std v)
  end.

(** [slog.Level] constants and Level.String. *)
Definition LevelDebug : Z := -4.
Definition LevelInfo : Z := 0.
Definition LevelWarn : Z := 4.
Definition LevelError : Z := 8.

(** [fmt.Sprintf("%+d", z)]. *)
Definition signed_dec (z : Z) : bytes :=
  match z with Zneg _ => dec_of_Z z | _ => chr 43 :: dec_of_Z z end.

Definition level_str (base : string) (val : Z) : bytes :=
  if Z.eqb val 0 then B base else B base ++ signed_dec val.

Definition level_string (l : Z) : bytes :=
  if Z.ltb l LevelInfo then level_str "DEBUG" (l - LevelDebug)
  else if Z.ltb l LevelWarn then level_str "INFO" (l - LevelInfo)
  else if Z.ltb l LevelError then level_str "WARN" (l - LevelWarn)
  else level_str "ERROR" (l - LevelError).

(** Keys of the built-in attributes. *)
Definition TimeKey : bytes := B "time".
Definition LevelKey : bytes := B "level".
Definition MessageKey : bytes := B "msg".
Definition SourceKey : bytes := B "source".

(** [time.RFC3339Nano]. *)
Definition RFC3339Nano : bytes := B "2006-01-02T15:04:05.999999999Z07:00".

(** [slog.Record].  [r_source] is the decoded frame of the program counter,
    [None] when PC is zero. *)
Record record : Type := {
  r_time   : gotime;
  r_level  : Z;
  r_msg    : bytes;
  r_source : option source;
  r_attrs  : list attr
}.

(** Handler.emptyGroup: the group has no attribute other than empty ones and
    empty groups.
    handlers/flash/composer.go 333-348, handlers/sloggy/composer.go 300-315. *)
Fixpoint empty_value (v : value) : bool :=
  match v with
  | VGroup l =>
      (fix go (l : list (bytes * value)) : bool :=
         match l with
         | [] => true
         | a :: l' =>
             if is_empty a then go l'
             else match a with (_, w) =>
               match w with
               | VGroup _ => if empty_value w then go l' else false
               | _ => false
               end
             end
         end) l
  | _ => false
  end.

Definition empty_group (l : list attr) : bool := empty_value (VGroup l).

(** The derivation calls of the [slog.Handler] interface. *)
Inductive op : Type := WithAttrs (l : list attr) | WithGroup (name : bytes).

(** The [slog.HandlerOptions] a handler reads when handling a record; the level
    is in FlashConfig.v. *)
Record options : Type := {
  o_add_source : bool;
  o_replace    : option attr_fn
}.

(** Outcome of a Handle call: the successive arguments of writer.Write, whether
    an error was returned.  [Panic]: run-time panic. *)
Inductive outcome : Type := Done (writes : list bytes) (ok : bool) | Panic.

(** [ctx.Value("deadGroup")]: absent, a string, or something else. *)
Inductive dead : Type := NoDead | DeadName (s : bytes) | DeadOther.
