(** Specification of flash in the vocabulary of SpecLog.v. *)

From Coq Require Import Ascii String List ZArith NArith Bool.
From Verif Require Import Bytes Json Slog SpecLog.
Import ListNotations.

(** Objects: Stringer, then error, then the two marshalers (whose text is logged
    as a string), else their JSON encoding. *)
Definition flash_any (o : any_obs) : option json :=
  match ao_stringer o, ao_error o, ao_jsonm o, ao_textm o with
  | Some s, _, _, _ => str s
  | None, Some s, _, _ => str s
  | None, None, Some (MOk t), _ => str t
  | None, None, Some (MErr _), _ => None
  | None, None, None, Some (MOk t) => str t
  | None, None, None, Some (MErr _) => None
  | None, None, None, None => marshalled (ao_marshal o)
  end.

(** Times are written in the configured layout without escaping. *)
Definition flash_time (layout : bytes) (t : gotime) : option json := raw_str (t_format t layout).

Definition flash_leaf (layout : bytes) : value -> option json :=
  leaf flash_any (flash_time layout) str.

(** The resolved value of a LogValuer.  Floats have the text json.Marshal gives
    them.  Groups, times and durations are outside the domain. *)
Definition flash_resolved (std : stdlib) (v : value) : option json :=
  match v with
  | VGroup _ | VTime _ | VDuration _ | VLogValuer _ _ => None
  | VFloat64 _ => marshalled (sl_marshal std v)
  | _ => flash_leaf [] v
  end.

Definition flash_meanings (std : stdlib) (layout : bytes) : list attr -> option fields :=
  meanings flash_any (flash_time layout) str (flash_resolved std).

Definition is_log_valuer (v : value) : bool :=
  match v with VLogValuer _ _ => true | _ => false end.

(** What an attribute becomes, and whether it is shown as an object whatever its
    kind.  With a ReplaceAttr function [f]: the value is resolved, [f] is applied
    with the open groups (none for the built-in keys), and a LogValuer returned
    by [f] is shown as an object.  Without: a LogValuer is resolved and the
    result is shown as an object. *)
Definition flash_effective (basic : bytes -> bool) (rep : option attr_fn) (gs : list bytes)
    (a : attr) : attr * bool :=
  match rep with
  | Some f =>
      let a' := f (if basic (fst a) then [] else gs) (fst a, resolve (snd a)) in
      (a', is_log_valuer (snd a'))
  | None =>
      if is_log_valuer (snd a) then ((fst a, resolve (snd a)), true) else (a, false)
  end.

Definition flash_view (std : stdlib) (layout : bytes) (basic : bytes -> bool)
    (rep : option attr_fn) (gs : list bytes) (a : attr) : shown :=
  let (a', as_object) := flash_effective basic rep gs a in
  if is_empty a' then Gone
  else if as_object then
    Leaf (fst a') (match snd a' with
                   | VLogValuer _ o => flash_any o
                   | w => flash_resolved std w
                   end)
  else match snd a' with
       | VGroup l => Node (fst a') l
       | w => Leaf (fst a') (flash_leaf layout w)
       end.

(** ** Failure *)

(** The object cannot be marshalled. *)
Definition marshal_fails (o : any_obs) : bool :=
  match ao_stringer o, ao_error o, ao_jsonm o, ao_textm o with
  | None, None, Some (MErr _), _ => true
  | None, None, None, Some (MErr _) => true
  | None, None, None, None => match ao_marshal o with MErr _ => true | MOk _ => false end
  | _, _, _, _ => false
  end.

(** Some object in the attribute tree (after replacement) cannot be marshalled. *)
Inductive broken (std : stdlib) (basic : bytes -> bool) (rep : option attr_fn) (gs : list bytes)
    : attr -> Prop :=
| br_object a a' : flash_effective basic rep gs a = (a', true) -> is_empty a' = false ->
    marshal_fails (any_of_value std (snd a')) = true -> broken std basic rep gs a
| br_any a a' o : flash_effective basic rep gs a = (a', false) -> snd a' = VAny (AnyObj o) ->
    marshal_fails o = true -> broken std basic rep gs a
| br_group a a' l : flash_effective basic rep gs a = (a', false) -> snd a' = VGroup l ->
    empty_group l = false -> Exists (broken std basic rep gs) l -> broken std basic rep gs a.

(** The built-in fields as attributes: configured keys, configured level name,
    the source as a struct. *)
Definition flash_basics (std : stdlib) (keys : bytes * bytes * bytes * bytes)
    (names : Z -> bytes) (add_source : bool) (r : record) : list attr :=
  basics keys (names (r_level r)) add_source
    (fun s => VAny (AnyObj (plain_obs (sl_source_struct std s)))) r.

(** The built-in fields of a line: time in the configured layout unless zero,
    level name, message, and function, file and line of the caller. *)
Definition flash_header (keys : bytes * bytes * bytes * bytes) (layout : bytes)
    (names : Z -> bytes) (add_source : bool) (r : record) : option fields :=
  let '(tk, lk, mk, sk) := keys in
  let ok := valid_utf8 lk && valid_utf8 (names (r_level r)) && valid_utf8 mk && valid_utf8 (r_msg r) in
  let time := if t_zero (r_time r) then Some []
              else if valid_utf8 tk && plain (t_format (r_time r) layout)
              then Some [(tk, JStr (t_format (r_time r) layout))] else None in
  let src := match r_source r with
             | Some s =>
               if negb add_source then Some []
               else if valid_utf8 sk && valid_utf8 (src_function s) && valid_utf8 (src_file s)
               then Some [(sk, JObj [(B "function", JStr (src_function s));
                                     (B "file", JStr (src_file s));
                                     (B "line", JNum (dec_of_Z (src_line s)))])]
               else None
             | None => Some []
             end in
  match ok, time, src with
  | true, Some t, Some s => Some (t ++ [(lk, JStr (names (r_level r))); (mk, JStr (r_msg r))] ++ s)
  | _, _, _ => None
  end.

(** A LogValuer's chain ends in one of the kinds flash shows like the resolved
    value itself. *)
Definition simple (v : value) : bool :=
  match v with
  | VString _ | VInt64 _ | VUint64 _ | VBool _ | VAny (AnyObj _) => true
  | _ => false
  end.

(** [lv_unfold a b]: the trees differ only in that [b] has, in some places, a
    LogValuer where [a] has the simple value the LogValuer resolves to. *)
Inductive lv_unfold : attr -> attr -> Prop :=
| lu_same a : lv_unfold a a
| lu_valuer k v o w : resolve (VLogValuer v o) = w -> simple w = true ->
    lv_unfold (k, w) (k, VLogValuer v o)
| lu_group k l l' : Forall2 lv_unfold l l' -> lv_unfold (k, VGroup l) (k, VGroup l').
