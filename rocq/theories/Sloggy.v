(** Model of handlers/sloggy: composer.go, handler.go, group.go.

    The writer is a parameter: a state, and a Write that returns the new state
    and whether it succeeded. *)

From Coq Require Import Ascii String List ZArith NArith Bool.
From Verif Require Import Bytes Slog GoQuote.
Import ListNotations.

(** basicField, composer.go 28-33. *)
Definition sbasic_field (key : bytes) : bool :=
  beq key TimeKey || beq key LevelKey || beq key MessageKey || beq key SourceKey.

(** ** composer.go *)
Section Composer.

Variable W : Type.
Variable write : W -> bytes -> W * bool.
Variable std : stdlib.

(** composer, composer.go 38-43. *)
Record scomposer : Type := {
  s_writer  : W;
  s_started : bool;
  s_replace : option attr_fn;
  s_groups  : list bytes
}.

(** newComposer, composer.go 45-52. *)
Definition snew_composer (w : W) (started : bool) (rep : option attr_fn) (groups : list bytes)
    : scomposer :=
  {| s_writer := w; s_started := started; s_replace := rep; s_groups := groups |}.

Definition swith_writer (c : scomposer) (w : W) : scomposer :=
  {| s_writer := w; s_started := s_started c; s_replace := s_replace c; s_groups := s_groups c |}.

(** setStarted, composer.go 54-56. *)
Definition set_started (c : scomposer) (s : bool) : scomposer :=
  {| s_writer := s_writer c; s_started := s; s_replace := s_replace c; s_groups := s_groups c |}.

(** [c.Write(x)]; [false] is an error. *)
Definition sput (c : scomposer) (x : bytes) : scomposer * bool :=
  let (w, ok) := write (s_writer c) x in (swith_writer c w, ok).

(** [if err := ...; err != nil { return err }] and what follows. *)
Definition sthen (m : scomposer * bool) (k : scomposer -> option (scomposer * bool))
    : option (scomposer * bool) :=
  match m with
  | (c, true) => k c
  | (c, false) => Some (c, false)
  end.

(** begin and end, composer.go 60-65 and 138-143. *)
Definition sbegin (c : scomposer) : scomposer * bool := sput c (B "{").
Definition send (c : scomposer) : scomposer * bool := sput c (B "}").

(** addString, composer.go 258-263. *)
Definition sadd_string (c : scomposer) (s : bytes) : scomposer * bool :=
  sput c (go_quote (sl_print std) s).

(** addJSONMarshaler, addTextMarshaler, composer.go 243-249 and 276-282: the
    text, or the error message, is written as a string; no error is returned. *)
Definition sadd_marshaler (c : scomposer) (m : mres) : scomposer * bool :=
  match m with
  | MErr e => sadd_string c (B "!ERROR:" ++ e)
  | MOk t => sadd_string c t
  end.

(** addAny, composer.go 152-180, with addIPAddress, addIPNet, addMacAddress,
    addError and addStringer. *)
Definition sadd_any (c : scomposer) (o : any_obs) : scomposer * bool :=
  match ao_net o with
  | Some s => sadd_string c s
  | None =>
    match ao_error o with
    | Some s => sadd_string c s
    | None =>
      match ao_stringer o with
      | Some s => sadd_string c s
      | None =>
        match ao_jsonm o with
        | Some m => sadd_marshaler c m
        | None =>
          match ao_textm o with
          | Some m => sadd_marshaler c m
          | None =>
            match ao_marshal o with
            | MErr _ => (c, false)
            | MOk t => sput c t
            end
          end
        end
      end
    end
  end.

(** addBool, addDuration, addFloat64, addInt64, addString, addTime, addUint64,
    addAny (composer.go 182-205, 222-227, 258-263, 284-296): the switch at
    composer.go 106-126 without its first case. *)
Definition sadd_leaf (c : scomposer) (v : value) : scomposer * bool :=
  match v with
  | VBool b => sput c (if b then B "true" else B "false")
  | VDuration d => sput c (dec_of_Z d)
  | VFloat64 f => sput c (float_text f)
  | VInt64 i => sput c (dec_of_Z i)
  | VString s => sadd_string c s
  | VTime t => sadd_string c (t_format t RFC3339Nano)
  | VUint64 u => sput c (dec_of_N u)
  | _ => sadd_any c (any_of_value std v)
  end.

(** [if !c.started { c.started = true } else if ... c.Write(commaSpace)],
    composer.go 95-99. *)
Definition sseparator (c : scomposer) : scomposer * bool :=
  if s_started c then sput c (B ", ") else (set_started c true, true).

(** The loop of addAttributes, composer.go 129-136, with the method for one
    attribute as argument.  [None]: out of fuel. *)
Fixpoint sattrs_loop (f : scomposer -> attr -> option (scomposer * bool))
    (c : scomposer) (l : list attr) : option (scomposer * bool) :=
  match l with
  | [] => Some (c, true)
  | a :: l' =>
    match f c a with
    | None => None
    | Some (c', false) => Some (c', false)
    | Some (c', true) => sattrs_loop f c' l'
    end
  end.

(** addGroup, composer.go 207-220.  The group's composer has its own [started]
    and writes to the same writer. *)
Definition sadd_group (loop : scomposer -> list attr -> option (scomposer * bool))
    (c : scomposer) (l : list attr) : option (scomposer * bool) :=
  sthen (sbegin c) (fun c =>
  match loop (snew_composer (s_writer c) false (s_replace c) (s_groups c)) l with
  | None => None
  | Some (cg, false) => Some (swith_writer c (s_writer cg), false)
  | Some (cg, true) => Some (send (swith_writer c (s_writer cg)))
  end).

(** addAttribute, composer.go 67-127.  The fuel bounds the nesting depth of
    groups after replacement; the Go recursion is unbounded. *)
Fixpoint sadd_attribute (fuel : nat) (c : scomposer) (a : attr) {struct fuel}
    : option (scomposer * bool) :=
  match fuel with
  | O => None
  | S fuel' =>
    if is_empty a then Some (c, true)                                    (* 68-70 *)
    else
      let (a, v) :=                                                      (* 71-79 *)
        match s_replace c with
        | Some f => let a' := f (if sbasic_field (fst a) then [] else s_groups c) a in (a', snd a')
        | None => (a, resolve (snd a))
        end in
      if is_empty a then Some (c, true)                                  (* 80-82 *)
      else
        let key := fst a in
        let field (k : scomposer -> option (scomposer * bool)) :=        (* 95-105 *)
          sthen (sseparator c) (fun c =>
          sthen (sadd_string c key) (fun c =>
          sthen (sput c (B ": ")) k)) in
        match v with
        | VGroup l =>
          if empty_group l then Some (c, true)                           (* 84-86 *)
          else match key with
          | [] => sattrs_loop (sadd_attribute fuel') c l                 (* 87-92 *)
          | _ :: _ => field (fun c => sadd_group (sattrs_loop (sadd_attribute fuel')) c l)
          end
        | _ => field (fun c => Some (sadd_leaf c v))
        end
  end.

Definition sadd_attributes (fuel : nat) (c : scomposer) (l : list attr) : option (scomposer * bool) :=
  sattrs_loop (sadd_attribute fuel) c l.

(** [sthen] after a computation with fuel. *)
Definition safter (m : option (scomposer * bool)) (k : scomposer -> option (scomposer * bool))
    : option (scomposer * bool) :=
  match m with None => None | Some p => sthen p k end.

End Composer.

Arguments s_writer {W} _.
Arguments s_started {W} _.
Arguments s_replace {W} _.
Arguments s_groups {W} _.
Arguments snew_composer {W} _ _ _ _.
Arguments swith_writer {W} _ _.
Arguments set_started {W} _ _.
Arguments sput {W} _ _ _.
Arguments sthen {W} _ _.
Arguments safter {W} _ _.
Arguments sbegin {W} _ _.
Arguments send {W} _ _.
Arguments sadd_string {W} _ _ _ _.
Arguments sadd_marshaler {W} _ _ _ _.
Arguments sadd_any {W} _ _ _ _.
Arguments sadd_leaf {W} _ _ _ _.
Arguments sseparator {W} _ _.
Arguments sattrs_loop {W} _ _ _.
Arguments sadd_group {W} _ _ _ _.
Arguments sadd_attribute {W} _ _ _ _ _.
Arguments sadd_attributes {W} _ _ _ _ _.

(** ** handler.go *)

(** Handler, handler.go 16-22.  The writer is passed to the methods that write;
    the mutex guards only the last write (Concurrency.v). *)
Record shandler : Type := {
  sh_options : options;
  sh_prefix  : bytes;
  sh_suffix  : bytes;
  sh_groups  : list bytes
}.

(** NewHandler, handler.go 26-33. *)
Definition snew_handler (o : options) : shandler :=
  {| sh_options := o; sh_prefix := []; sh_suffix := []; sh_groups := [] |}.

(** The basic attributes, handler.go 47-63; the source is a map. *)
Definition sbasics (std : stdlib) (h : shandler) (r : record) : list attr :=
  (if t_zero (r_time r) then [] else [(TimeKey, VTime (r_time r))])
  ++ [(LevelKey, VString (level_string (r_level r)))]
  ++ [(MessageKey, VString (r_msg r))]
  ++ match o_add_source (sh_options h), r_source r with
     | true, Some s => [(SourceKey, VAny (AnyObj (plain_obs (sl_source_map std s))))]
     | _, _ => []
     end.

Section Handle.
Variable W : Type.
Variable write : W -> bytes -> W * bool.
Variable std : stdlib.

(** handler.go 68-78. *)
Definition sput_prefix (h : shandler) (c : scomposer W) : scomposer W * bool :=
  match sh_prefix h with
  | [] => (c, true)
  | _ :: _ =>
    match sput write c (B ", ") with
    | (c, false) => (c, false)
    | (c, true) =>
      match sput write c (sh_prefix h) with
      | (c, false) => (c, false)
      | (c, true) => (if ends_with (chr 123) (sh_prefix h) then set_started c false else c, true)
      end
    end
  end.

(** Handle, handler.go 41-106.  The suffix is written even if it is empty. *)
Definition shandle (fuel : nat) (h : shandler) (r : record) (w : W) : option (W * bool) :=
  let c := snew_composer w false (o_replace (sh_options h)) (sh_groups h) in
  let run :=
    sthen (sbegin write c) (fun c =>
    safter (sadd_attributes write std fuel c (sbasics std h r)) (fun c =>
    sthen (sput_prefix h c) (fun c =>
    safter (sadd_attributes write std fuel c (r_attrs r)) (fun c =>
    sthen (sput write c (sh_suffix h)) (fun c =>
    sthen (send write c) (fun c =>
    Some (sput write c [chr 13; newline]))))))) in
  match run with
  | None => None
  | Some (c, ok) => Some (s_writer c, ok)
  end.

End Handle.

Arguments sput_prefix {W} _ _ _.
Arguments shandle {W} _ _ _ _ _ _.

(** [bytes.Buffer.Write]: never fails. *)
Definition buffer_write (b x : bytes) : bytes * bool := (b ++ x, true).

Section Derive.
Variable std : stdlib.

(** WithAttrs, handler.go 108-133.  An error is logged elsewhere and whatever was
    written to the new prefix is kept. *)
Definition swith_attrs (fuel : nat) (h : shandler) (attrs : list attr) : option shandler :=
  let started := match sh_prefix h with [] => false | _ => negb (ends_with (chr 123) (sh_prefix h)) end in
  let c := snew_composer (sh_prefix h) started (o_replace (sh_options h)) (sh_groups h) in
  match sadd_attributes buffer_write std fuel c attrs with
  | None => None
  | Some (c', _) =>
    Some {| sh_options := sh_options h; sh_prefix := s_writer c'; sh_suffix := sh_suffix h;
            sh_groups := sh_groups h |}
  end.

(** The Handler inside the group made by WithGroup, handler.go 140-168, for a
    non-empty name; the name is not quoted.  (groups is a slice as a value; its
    sharing is in Slices.v.) *)
Definition swith_group (h : shandler) (name : bytes) : shandler :=
  let start := match sh_prefix h with
               | [] => []
               | _ => if ends_with (chr 123) (sh_prefix h) then [] else B ", "
               end in
  {| sh_options := sh_options h;
     sh_prefix := sh_prefix h ++ start ++ [quote] ++ name ++ [quote] ++ B ": {";
     sh_suffix := sh_suffix h ++ B "}";
     sh_groups := sh_groups h ++ [name] |}.

End Derive.

(** ** group.go *)

(** A slog.Handler of this package: a *Handler, or a *group. *)
Inductive shdl : Type :=
| SBase (h : shandler)
| SGroup (h : shandler) (name : bytes) (parent : shdl).

Definition sinner (g : shdl) : shandler :=
  match g with SBase h => h | SGroup h _ _ => h end.

(** The callback of group.Handle, group.go 31-42. *)
Fixpoint sfirst_attr (l : list attr) : option attr :=
  match l with
  | [] => None
  | a :: l' => if is_empty a then sfirst_attr l' else Some a
  end.

(** Result of Handle on a writer. *)
Inductive sresult (W : Type) : Type := SDone (w : W) (ok : bool) | SPanic.
Arguments SDone {W} _ _.
Arguments SPanic {W}.

Definition sresult_of {W : Type} (m : option (W * bool)) : option (sresult W) :=
  match m with None => None | Some (w, ok) => Some (SDone w ok) end.

Section Group.
Variable W : Type.
Variable write : W -> bytes -> W * bool.
Variable std : stdlib.

(** group.Handle, group.go 23-53, and Handler.Handle. *)
Fixpoint shandle_hdl (fuel : nat) (d : dead) (g : shdl) (r : record) (w : W) : option (sresult W) :=
  match g with
  | SBase h => sresult_of (shandle write std fuel h r w)
  | SGroup h name parent =>
    match d with
    | DeadOther => Some SPanic
    | _ =>
      let deadname := match d with DeadName s => s | _ => [] end in
      let delegate :=
        match sfirst_attr (r_attrs r) with
        | None => true
        | Some (k, v) =>
          negb (beq deadname []) && beq k deadname &&
          match v with VGroup _ => true | _ => false end
        end in
      if delegate then shandle_hdl fuel (DeadName name) parent r w
      else sresult_of (shandle write std fuel h r w)
    end
  end.

End Group.

Arguments shandle_hdl {W} _ _ _ _ _ _ _.

(** WithAttrs is promoted from the embedded Handler; Handler.WithGroup
    (handler.go 135-171) and group.WithGroup (group.go 55-65). *)
Definition sstep (std : stdlib) (fuel : nat) (g : shdl) (o : op) : option shdl :=
  match o with
  | WithAttrs l => match swith_attrs std fuel (sinner g) l with
                   | None => None
                   | Some h => Some (SBase h)
                   end
  | WithGroup [] => Some (SBase (sinner g))
  | WithGroup name => Some (SGroup (swith_group (sinner g) name) name g)
  end.

Fixpoint sderive (std : stdlib) (fuel : nat) (g : shdl) (ops : list op) : option shdl :=
  match ops with
  | [] => Some g
  | o :: ops' => match sstep std fuel g o with None => None | Some g' => sderive std fuel g' ops' end
  end.

(** A writer that accepts everything and keeps the writes apart. *)
Definition log_write (w : list bytes) (x : bytes) : list bytes * bool := (w ++ [x], true).

(** What logging [r] through the handler derived by [ops] from a new handler
    comes to, for all sufficiently large recursion depth, when no write fails. *)
Definition slogs (std : stdlib) (o : options) (ops : list op) (d : dead) (r : record)
    (out : outcome) : Prop :=
  exists n0, forall n, n0 <= n -> exists g,
    sderive std n (SBase (snew_handler o)) ops = Some g /\
    shandle_hdl log_write std n d g r [] =
      Some (match out with Done ws ok => SDone ws ok | Panic => SPanic end).
