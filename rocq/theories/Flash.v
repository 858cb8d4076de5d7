(** Model of handlers/flash: composer.go, handler.go, group.go, extras.go. *)

From Coq Require Import Ascii String List ZArith NArith Bool.
From Verif Require Import Bytes Slog.
Import ListNotations.

(** ** extras.go *)

(** Extras, extras.go 17-44.  The map LevelNames is a total function giving the
    empty string for missing keys, which is what reading a Go map gives. *)
Record extras : Type := {
  x_time_format : bytes;
  x_level_names : Z -> bytes;
  x_level_key   : bytes;
  x_message_key : bytes;
  x_source_key  : bytes;
  x_time_key    : bytes
}.

(** [&Extras{}]. *)
Definition blank_extras : extras :=
  {| x_time_format := []; x_level_names := fun _ => []; x_level_key := [];
     x_message_key := []; x_source_key := []; x_time_key := [] |}.

(** [if s == "" { s = d }]. *)
Definition default (s d : bytes) : bytes := if beq s [] then d else s.

(** [if m[l] == "" { m[l] = l.String() }], extras.go 62-73. *)
Definition default_level (m : Z -> bytes) (l : Z) : Z -> bytes :=
  if beq (m l) [] then fun k => if Z.eqb k l then level_string l else m k else m.

(** fixExtras, extras.go 52-87, on the value pointed to.  (That the function
    writes through the caller's pointer is modelled in FlashConfig.v.) *)
Definition fix_extras (x : option extras) : extras :=
  let x := match x with None => blank_extras | Some x => x end in
  {| x_time_format := default (x_time_format x) RFC3339Nano;
     x_level_names :=
       default_level (default_level (default_level (default_level
         (x_level_names x) LevelDebug) LevelInfo) LevelWarn) LevelError;
     x_level_key := default (x_level_key x) LevelKey;
     x_message_key := default (x_message_key x) MessageKey;
     x_source_key := default (x_source_key x) SourceKey;
     x_time_key := default (x_time_key x) TimeKey |}.

(** [comp.basicField[key]], composer.go 35-39. *)
Definition basic_field (x : extras) (key : bytes) : bool :=
  beq key (x_level_key x) || beq key (x_message_key x)
  || beq key (x_source_key x) || beq key (x_time_key x).

(** [hexDigit[n]], composer.go 159. *)
Definition hex_digit (n : N) : ascii :=
  if N.ltb n 10 then chr (48 + n) else chr (55 + n).

(** ** composer.go

    The composer is generic in the buffer: [Buf] with [app b x] standing for
    [append(b, x...)].  It is instantiated with plain byte strings (Go slices
    viewed as values) and with slices into a heap of arrays (FlashHeap.v). *)
Section Composer.

Variable Buf : Type.
Variable app : Buf -> bytes -> Buf.
Variable std : stdlib.

(** composer, composer.go 19-26; basicField is computed from extras. *)
Record composer : Type := {
  c_buffer  : Buf;
  c_started : bool;
  c_replace : option attr_fn;
  c_groups  : list bytes;
  c_extras  : extras
}.

(** newComposer, composer.go 28-41 (every field is overwritten, so reuse of
    pooled composers is not observable here). *)
Definition new_composer (b : Buf) (started : bool) (rep : option attr_fn)
    (groups : list bytes) (x : extras) : composer :=
  {| c_buffer := b; c_started := started; c_replace := rep; c_groups := groups; c_extras := x |}.

Definition with_buffer (c : composer) (b : Buf) : composer :=
  {| c_buffer := b; c_started := c_started c; c_replace := c_replace c;
     c_groups := c_groups c; c_extras := c_extras c |}.

Definition with_started (c : composer) (s : bool) : composer :=
  {| c_buffer := c_buffer c; c_started := s; c_replace := c_replace c;
     c_groups := c_groups c; c_extras := c_extras c |}.

(** reset, composer.go 47-49. *)
Definition reset (c : composer) : composer := with_started c false.

(** addBytes / addByteArray / [c.buffer = append(c.buffer, ...)], 151-157. *)
Definition add_bytes (c : composer) (x : bytes) : composer := with_buffer c (app (c_buffer c) x).

(** [if index > begin { append(buffer, s[begin:index]...) }]. *)
Definition flush (b : Buf) (s : bytes) (beg idx : nat) : Buf :=
  if Nat.ltb beg idx then app b (slice s beg idx) else b.

(** The loop of addEscaped, composer.go 179-267: [rest] is what [range s] has
    not yet visited, [idx] the index of its first byte.  Returns the buffer and
    the final value of [begin]. *)
Fixpoint esc_loop (s rest : bytes) (idx beg : nat) (uni : bytes) (more : nat) (b : Buf)
    : Buf * nat :=
  match rest with
  | [] => (b, beg)
  | c :: rest' =>
    match more with
    | S m =>                                                   (* 180-191 *)
        let uni' := uni ++ [c] in
        match m with
        | O => esc_loop s rest' (S idx) (S idx) [] 0 (app b uni')
        | S _ => esc_loop s rest' (S idx) beg uni' m b
        end
    | O =>
        let n := code c in
        if N.eqb n 92 || N.eqb n 47 || N.eqb n 34 then          (* 194-199 *)
          esc_loop s rest' (S idx) (S idx) uni 0 (app (flush b s beg idx) [backslash; c])
        else if N.eqb n 8 then
          esc_loop s rest' (S idx) (S idx) uni 0 (app (flush b s beg idx) (B "\b"))
        else if N.eqb n 12 then
          esc_loop s rest' (S idx) (S idx) uni 0 (app (flush b s beg idx) (B "\f"))
        else if N.eqb n 10 then
          esc_loop s rest' (S idx) (S idx) uni 0 (app (flush b s beg idx) (B "\n"))
        else if N.eqb n 13 then
          esc_loop s rest' (S idx) (S idx) uni 0 (app (flush b s beg idx) (B "\r"))
        else if N.eqb n 9 then
          esc_loop s rest' (S idx) (S idx) uni 0 (app (flush b s beg idx) (B "\t"))
        else if N.leb 32 n && N.ltb n 127 then                  (* 231-232 *)
          esc_loop s rest' (S idx) beg uni 0 b
        else if N.eqb (N.land n 224) 192 then                   (* 233-239 *)
          esc_loop s rest' (S idx) beg (uni ++ [c]) 1 (flush b s beg idx)
        else if N.eqb (N.land n 240) 224 then                   (* 240-246 *)
          esc_loop s rest' (S idx) beg (uni ++ [c]) 2 (flush b s beg idx)
        else if N.eqb (N.land n 248) 240 then                   (* 247-253 *)
          esc_loop s rest' (S idx) beg (uni ++ [c]) 3 (flush b s beg idx)
        else if N.ltb n 128 then                                (* 254-262 *)
          esc_loop s rest' (S idx) (S idx) uni 0
            (app (app (app (flush b s beg idx) (B "\u00"))
                      [hex_digit (N.shiftr n 4)])
                 [hex_digit (N.land n 15)])
        else                                                    (* 263-265 *)
          esc_loop s rest' (S idx) beg uni 0 b
    end
  end.

(** addEscaped, composer.go 174-271.  After the loop [index] is the index of the
    last byte, or 0 if there was none. *)
Definition escape_buf (b : Buf) (s : bytes) : Buf :=
  let (b', beg) := esc_loop s s 0 0 [] 0 b in
  let idx := pred (length s) in
  if Nat.leb beg idx && Nat.ltb idx (length s) then app b' (slice s beg (S idx)) else b'.

(** addString, composer.go 300-304. *)
Definition string_buf (b : Buf) (s : bytes) : Buf :=
  app (escape_buf (app b [quote]) s) [quote].

Definition add_string (c : composer) (s : bytes) : composer :=
  with_buffer c (string_buf (c_buffer c) s).

(** addKey, composer.go 284-287. *)
Definition add_key (c : composer) (k : bytes) : composer :=
  add_bytes (add_string c k) (B ": ").

(** addSeparator, composer.go 323-329. *)
Definition add_separator (c : composer) : composer :=
  if c_started c then add_bytes c (B ", ") else with_started c true.

(** addTime, composer.go 317-321: no escaping. *)
Definition add_time (c : composer) (t : gotime) : composer :=
  add_bytes (add_bytes (add_bytes c [quote]) (t_format t (x_time_format (c_extras c)))) [quote].

(** addJSONMarshaler / addTextMarshaler, composer.go 289-298 and 306-315:
    the marshalled text is written as a string; on error the message is written
    and an error returned. *)
Definition add_marshaler (c : composer) (m : mres) : composer * bool :=
  match m with
  | MErr e => (add_string c (B "!ERROR:" ++ e), false)
  | MOk t => (add_string c t, true)
  end.

(** addAny, composer.go 127-149. *)
Definition add_any (c : composer) (o : any_obs) : composer * bool :=
  match ao_stringer o with
  | Some s => (add_string c s, true)
  | None =>
    match ao_error o with
    | Some s => (add_string c s, true)
    | None =>
      match ao_jsonm o with
      | Some m => add_marshaler c m
      | None =>
        match ao_textm o with
        | Some m => add_marshaler c m
        | None =>
          match ao_marshal o with
          | MErr _ => (c, false)
          | MOk t => (add_bytes c t, true)
          end
        end
      end
    end
  end.

(** The loop of addAttributes, composer.go 116-123, with the method for one
    attribute as argument.  [None]: out of fuel. *)
Fixpoint attrs_loop (f : composer -> attr -> option (composer * bool))
    (c : composer) (l : list attr) : option (composer * bool) :=
  match l with
  | [] => Some (c, true)
  | a :: l' =>
    match f c a with
    | None => None
    | Some (c', false) => Some (c', false)
    | Some (c', true) => attrs_loop f c' l'
    end
  end.

(** [groups] handed to ReplaceAttr, composer.go 63-66. *)
Definition replace_groups (c : composer) (key : bytes) : list bytes :=
  if basic_field (c_extras c) key then [] else c_groups c.

(** addAttribute, composer.go 57-114.  [is_lv] is [kind == KindLogValuer] at
    line 58; when ReplaceAttr is nil [kind] is not recomputed after Resolve, so
    the switch at line 87 then takes the default case.  The fuel bounds the
    nesting depth of groups after replacement; the Go recursion is unbounded. *)
Fixpoint add_attribute (fuel : nat) (c : composer) (a : attr) {struct fuel}
    : option (composer * bool) :=
  match fuel with
  | O => None
  | S fuel' =>
    let is_lv := match snd a with VLogValuer _ _ => true | _ => false end in
    let a := if is_lv then (fst a, resolve (snd a)) else a in          (* 59-61 *)
    let (a, as_any) :=                                                 (* 62-69 *)
      match c_replace c with
      | Some f => let a' := f (replace_groups c (fst a)) a in
                  (a', match snd a' with VLogValuer _ _ => true | _ => false end)
      | None => (a, is_lv)
      end in
    if is_empty a then Some (c, true)                                  (* 70-72 *)
    else
      let (key, v) := a in
      if as_any then                                                   (* 85-86, 108-111 *)
        Some (add_any (add_key (add_separator c) key) (any_of_value std v))
      else match v with
      | VGroup l =>                                                    (* 74-84 *)
        if empty_group l then Some (c, true)
        else match key with
        | [] => attrs_loop (add_attribute fuel') c l
        | _ :: _ =>                                                    (* addGroup, 273-282 *)
          let c := add_bytes (add_key (add_separator c) key) (B "{") in
          match attrs_loop (add_attribute fuel') (reset c) l with
          | Some (c', true) => Some (add_bytes c' (B "}"), true)
          | r => r
          end
        end
      | _ =>
        let c := add_key (add_separator c) key in                      (* 85-86 *)
        match v with
        | VBool b => Some (add_bytes c (if b then B "true" else B "false"), true)
        | VDuration d => Some (add_bytes c (dec_of_Z d), true)
        | VFloat64 f => Some (add_bytes c (float_text f), true)
        | VInt64 i => Some (add_bytes c (dec_of_Z i), true)
        | VString s => Some (add_string c s, true)
        | VTime t => Some (add_time c t, true)
        | VUint64 u => Some (add_bytes c (dec_of_N u), true)
        | _ => Some (add_any c (any_of_value std v))
        end
      end
  end.

Definition add_attributes (fuel : nat) (c : composer) (l : list attr) : option (composer * bool) :=
  attrs_loop (add_attribute fuel) c l.

End Composer.

Arguments c_buffer {Buf} _.
Arguments c_started {Buf} _.
Arguments c_replace {Buf} _.
Arguments c_groups {Buf} _.
Arguments c_extras {Buf} _.
Arguments new_composer {Buf} _ _ _ _ _.
Arguments with_started {Buf} _ _.
Arguments with_buffer {Buf} _ _.
Arguments reset {Buf} _.
Arguments add_bytes {Buf} _ _ _.
Arguments add_string {Buf} _ _ _.
Arguments add_key {Buf} _ _ _.
Arguments add_separator {Buf} _ _.
Arguments add_time {Buf} _ _ _.
Arguments add_any {Buf} _ _ _.
Arguments add_marshaler {Buf} _ _ _.
Arguments add_attribute {Buf} _ _ _ _ _.
Arguments add_attributes {Buf} _ _ _ _ _.
Arguments attrs_loop {Buf} _ _ _.
Arguments replace_groups {Buf} _ _.
Arguments esc_loop {Buf} _ _ _ _ _ _ _ _.
Arguments escape_buf {Buf} _ _ _.
Arguments string_buf {Buf} _ _ _.
Arguments flush {Buf} _ _ _ _ _.

(** ** handler.go, with slices as values *)

(** [append] on slices viewed as values. *)
Definition happ (b x : bytes) : bytes := b ++ x.

(** Handler, handler.go 20-27. *)
Record handler : Type := {
  h_options : options;
  h_extras  : extras;
  h_prefix  : bytes;
  h_suffix  : bytes;
  h_groups  : list bytes
}.

(** NewHandler, handler.go 32-42. *)
Definition new_handler (o : options) (x : option extras) : handler :=
  {| h_options := o; h_extras := fix_extras x; h_prefix := []; h_suffix := []; h_groups := [] |}.

Section Handler.
Variable std : stdlib.

(** One basic field: written directly without ReplaceAttr, as an attribute
    otherwise (handler.go 66-103).  [direct] is the direct path. *)
Definition basic_attr (fuel : nat) (c : composer bytes)
    (direct : composer bytes -> composer bytes * bool) (a : attr) : option (composer bytes * bool) :=
  match c_replace c with
  | None => Some (direct (add_key happ (add_separator happ c) (fst a)))
  | Some _ => add_attribute happ std fuel c a
  end.

Definition andthen (m : option (composer bytes * bool))
    (k : composer bytes -> option (composer bytes * bool)) : option (composer bytes * bool) :=
  match m with
  | Some (c, true) => k c
  | r => r
  end.

(** handler.go 66-74. *)
Definition handle_time (fuel : nat) (h : handler) (r : record) (c : composer bytes) :=
  if t_zero (r_time r) then Some (c, true)
  else basic_attr fuel c (fun c => (add_time happ c (r_time r), true))
         (x_time_key (h_extras h), VTime (r_time r)).

(** handler.go 75-81. *)
Definition handle_level (fuel : nat) (h : handler) (r : record) (c : composer bytes) :=
  let text := x_level_names (h_extras h) (r_level r) in
  basic_attr fuel c (fun c => (add_string happ c text, true))
    (x_level_key (h_extras h), VString text).

(** handler.go 82-88. *)
Definition handle_message (fuel : nat) (h : handler) (r : record) (c : composer bytes) :=
  basic_attr fuel c (fun c => (add_string happ c (r_msg r), true))
    (x_message_key (h_extras h), VString (r_msg r)).

(** handler.go 89-103; the source struct implements no interface. *)
Definition handle_source (fuel : nat) (h : handler) (r : record) (c : composer bytes) :=
  match o_add_source (h_options h), r_source r with
  | true, Some src =>
      let o := plain_obs (sl_source_struct std src) in
      basic_attr fuel c (fun c => add_any happ c o)
        (x_source_key (h_extras h), VAny (AnyObj o))
  | _, _ => Some (c, true)
  end.

(** handler.go 105-112. *)
Definition handle_prefix (h : handler) (c : composer bytes) : composer bytes :=
  match h_prefix h with
  | [] => c
  | _ :: _ =>
    let c := add_bytes happ (add_separator happ c) (h_prefix h) in
    if ends_with (chr 123) (h_prefix h) then reset c else c
  end.

(** Handle, handler.go 52-136, up to the Write. *)
Definition compose (fuel : nat) (h : handler) (r : record) : option (composer bytes * bool) :=
  let c := new_composer [] false (o_replace (h_options h)) (h_groups h) (h_extras h) in
  let c := add_bytes happ c (B "{") in
  andthen (handle_time fuel h r c) (fun c =>
  andthen (handle_level fuel h r c) (fun c =>
  andthen (handle_message fuel h r c) (fun c =>
  andthen (handle_source fuel h r c) (fun c =>
  let c := handle_prefix h c in
  andthen (add_attributes happ std fuel c (r_attrs r)) (fun c =>
  let c := match h_suffix h with [] => c | _ => add_bytes happ c (h_suffix h) end in
  Some (add_bytes happ c [chr 125; newline], true)))))).

(** Handle: one Write of the whole line, or none when composing failed.
    (A failing Write is an error after the write; it is not modelled here.) *)
Definition handle (fuel : nat) (h : handler) (r : record) : option outcome :=
  match compose fuel h r with
  | None => None
  | Some (_, false) => Some (Done [] false)
  | Some (c, true) => Some (Done [c_buffer c] true)
  end.

(** WithAttrs, handler.go 138-170.  Errors are logged elsewhere and whatever was
    composed is kept. *)
Definition with_attrs (fuel : nat) (h : handler) (attrs : list attr) : option handler :=
  let started := match h_prefix h with [] => false | _ => negb (ends_with (chr 123) (h_prefix h)) end in
  let c := new_composer (h_prefix h) started (o_replace (h_options h)) (h_groups h) (h_extras h) in
  match add_attributes happ std fuel c attrs with
  | None => None
  | Some (c', _) =>
    Some {| h_options := h_options h; h_extras := h_extras h; h_prefix := c_buffer c';
            h_suffix := h_suffix h; h_groups := h_groups h |}
  end.

(** The Handler inside the group made by WithGroup, handler.go 177-211, for a
    non-empty name; the name is not escaped. *)
Definition with_group (h : handler) (name : bytes) : handler :=
  let start := match h_prefix h with
               | [] => []
               | _ => if ends_with (chr 123) (h_prefix h) then [] else B ", "
               end in
  {| h_options := h_options h;
     h_extras := h_extras h;
     h_prefix := h_prefix h ++ start ++ [quote] ++ name ++ [quote] ++ B ": {";
     h_suffix := h_suffix h ++ B "}";
     h_groups := match o_replace (h_options h) with
                 | None => []
                 | Some _ => h_groups h ++ [name]
                 end |}.

End Handler.

(** ** group.go *)

(** A slog.Handler of this package: a *Handler, or a *group (embedded Handler,
    name, parent). *)
Inductive hdl : Type :=
| HBase (h : handler)
| HGroup (h : handler) (name : bytes) (parent : hdl).

Definition inner (g : hdl) : handler :=
  match g with HBase h => h | HGroup h _ _ => h end.

(** The callback of group.Handle, group.go 31-42: the first non-empty attribute
    decides. *)
Fixpoint first_attr (l : list attr) : option attr :=
  match l with
  | [] => None
  | a :: l' => if is_empty a then first_attr l' else Some a
  end.

Section Group.
Variable std : stdlib.

(** group.Handle, group.go 23-53, and Handler.Handle (which ignores the context). *)
Fixpoint handle_hdl (fuel : nat) (d : dead) (g : hdl) (r : record) : option outcome :=
  match g with
  | HBase h => handle std fuel h r
  | HGroup h name parent =>
    match d with
    | DeadOther => Some Panic
    | _ =>
      let deadname := match d with DeadName s => s | _ => [] end in
      let delegate :=
        match first_attr (r_attrs r) with
        | None => true
        | Some (k, v) =>
          negb (beq deadname []) && beq k deadname &&
          match v with VGroup _ => true | _ => false end
        end in
      if delegate then handle_hdl fuel (DeadName name) parent r
      else handle std fuel h r
    end
  end.

(** WithAttrs is promoted from the embedded Handler. *)
Definition with_attrs_hdl (fuel : nat) (g : hdl) (attrs : list attr) : option hdl :=
  match with_attrs std fuel (inner g) attrs with
  | None => None
  | Some h => Some (HBase h)
  end.

(** Handler.WithGroup (handler.go 172-213) and group.WithGroup (group.go 55-65). *)
Definition with_group_hdl (g : hdl) (name : bytes) : hdl :=
  match name with
  | [] => HBase (inner g)
  | _ => HGroup (with_group (inner g) name) name g
  end.

(** A derivation step and a derivation from a handler. *)
Definition step (fuel : nat) (g : hdl) (o : op) : option hdl :=
  match o with
  | WithAttrs l => with_attrs_hdl fuel g l
  | WithGroup n => Some (with_group_hdl g n)
  end.

Fixpoint derive (fuel : nat) (g : hdl) (ops : list op) : option hdl :=
  match ops with
  | [] => Some g
  | o :: ops' => match step fuel g o with None => None | Some g' => derive fuel g' ops' end
  end.

End Group.

(** What logging [r] through the handler derived by [ops] from a new handler
    comes to, for all sufficiently large recursion depth. *)
Definition logs (std : stdlib) (o : options) (x : option extras) (ops : list op) (d : dead)
    (r : record) (out : outcome) : Prop :=
  exists n0, forall n, n0 <= n -> exists g,
    derive std n (HBase (new_handler o x)) ops = Some g /\ handle_hdl std n d g r = Some out.
