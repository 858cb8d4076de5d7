(** Specification of sloggy in the vocabulary of SpecLog.v. *)

From Coq Require Import Ascii String List ZArith NArith Bool.
From Verif Require Import Bytes Json Slog SpecLog GoQuote SpecText.
Import ListNotations.

Section Spec.
Variable std : stdlib.

(** Strings that survive Go quoting as JSON. *)
Definition sstr (s : bytes) : option json :=
  if json_safe (sl_print std) s then Some (JStr s) else None.

(** The text a marshaler's result is logged as. *)
Definition mtext (m : mres) : bytes :=
  match m with MOk t => t | MErr e => B "!ERROR:" ++ e end.

(** Objects: network addresses, then error, then Stringer, then the two
    marshalers (text or error message as a string), else their JSON encoding. *)
Definition sloggy_any (o : any_obs) : option json :=
  match ao_net o, ao_error o, ao_stringer o, ao_jsonm o, ao_textm o with
  | Some s, _, _, _, _ => sstr s
  | None, Some s, _, _, _ => sstr s
  | None, None, Some s, _, _ => sstr s
  | None, None, None, Some m, _ => sstr (mtext m)
  | None, None, None, None, Some m => sstr (mtext m)
  | None, None, None, None, None => marshalled (ao_marshal o)
  end.

(** Times are written in one layout. *)
Definition sloggy_time (t : gotime) : option json := sstr (t_format t RFC3339Nano).

Definition sloggy_leaf : value -> option json := leaf sloggy_any sloggy_time sstr.

(** ** Without ReplaceAttr

    [n] is the number of LogValue calls still allowed plus one.  An attribute
    vanishes if it is empty before resolution, groups nest, groups with an empty
    key are inlined, groups that are empty trees vanish. *)
Fixpoint smeaning (n : nat) (k : bytes) (v : value) : option fields :=
  match n with
  | O => one sstr k (sloggy_leaf too_many)
  | S n' =>
    match v with
    | VLogValuer w _ => smeaning n' k w
    | VGroup l =>
        let inner :=
          (fix go (l : list (bytes * value)) : option fields :=
             match l with
             | [] => Some []
             | (k', v') :: l' =>
                 match smeaning 100 k' v', go l' with
                 | Some a, Some b => Some (a ++ b)
                 | _, _ => None
                 end
             end) l in
        if empty_group l then Some []
        else match k, inner with
             | [], _ => inner
             | _ :: _, Some fs => one sstr k (Some (JObj fs))
             | _ :: _, None => None
             end
    | _ => if Nat.eqb n 100 && is_empty (k, v) then Some [] else one sstr k (sloggy_leaf v)
    end
  end.

Fixpoint sloggy_meanings (l : list attr) : option fields :=
  match l with
  | [] => Some []
  | a :: l' => match smeaning 100 (fst a) (snd a), sloggy_meanings l' with
               | Some a, Some b => Some (a ++ b)
               | _, _ => None
               end
  end.

(** ** With or without ReplaceAttr *)

Definition standard_key (k : bytes) : bool :=
  existsb (beq k) [B "time"; B "level"; B "msg"; B "source"].

(** What an attribute (not empty) becomes, and the value shown.  Without
    ReplaceAttr the value is resolved; ReplaceAttr is given the unresolved
    attribute and its result is shown unresolved. *)
Definition sloggy_effective (rep : option attr_fn) (gs : list bytes) (a : attr) : attr * value :=
  match rep with
  | Some f => let a' := f (if standard_key (fst a) then [] else gs) a in (a', snd a')
  | None => (a, resolve (snd a))
  end.

Definition sloggy_view (rep : option attr_fn) (gs : list bytes) (a : attr) : shown :=
  if is_empty a then Gone
  else let (a', v) := sloggy_effective rep gs a in
       if is_empty a' then Gone
       else match v with
            | VGroup l => Node (fst a') l
            | VLogValuer _ o => Leaf (fst a') (sloggy_any o)
            | w => Leaf (fst a') (sloggy_leaf w)
            end.

(** The built-in fields as attributes: standard keys and level names, the source
    as a map. *)
Definition sloggy_basics (add_source : bool) (r : record) : list attr :=
  basics (B "time", B "level", B "msg", B "source") (level_string (r_level r)) add_source
    (fun s => VAny (AnyObj (plain_obs (sl_source_map std s)))) r.

(** The built-in fields of a line without ReplaceAttr. *)
Definition sloggy_header (add_source : bool) (r : record) : option fields :=
  let safe := json_safe (sl_print std) in
  let time := if t_zero (r_time r) then Some []
              else if safe (t_format (r_time r) RFC3339Nano)
              then Some [(B "time", JStr (t_format (r_time r) RFC3339Nano))] else None in
  let src := match r_source r with
             | Some s =>
               if negb add_source then Some []
               else if valid_utf8 (src_function s) && valid_utf8 (src_file s)
               then Some [(B "source", JObj [(B "file", JStr (src_file s));
                                             (B "function", JStr (src_function s));
                                             (B "line", JNum (dec_of_Z (src_line s)))])]
               else None
             | None => Some []
             end in
  match safe (r_msg r), time, src with
  | true, Some t, Some s =>
      Some (t ++ [(B "level", JStr (level_string (r_level r))); (B "msg", JStr (r_msg r))] ++ s)
  | _, _, _ => None
  end.

(** ** Failure *)

(** json.Marshal is called and fails. *)
Definition smarshal_fails (o : any_obs) : bool :=
  match ao_net o, ao_error o, ao_stringer o, ao_jsonm o, ao_textm o, ao_marshal o with
  | None, None, None, None, None, MErr _ => true
  | _, _, _, _, _, _ => false
  end.

(** Some object in the attribute tree (after replacement) cannot be marshalled. *)
Inductive sbroken (rep : option attr_fn) (gs : list bytes) : attr -> Prop :=
| sb_object a a' v : is_empty a = false -> sloggy_effective rep gs a = (a', v) -> is_empty a' = false ->
    match v with
    | VAny (AnyObj o) | VLogValuer _ o => smarshal_fails o
    | _ => false
    end = true -> sbroken rep gs a
| sb_group a a' l : is_empty a = false -> sloggy_effective rep gs a = (a', VGroup l) ->
    is_empty a' = false -> empty_group l = false -> Exists (sbroken rep gs) l -> sbroken rep gs a.

End Spec.

(** ** Writers *)

(** Chunks are offered to a writer one after the other until one is refused. *)
Fixpoint feed {W : Type} (write : W -> bytes -> W * bool) (w : W) (chunks : list bytes) : W * bool :=
  match chunks with
  | [] => (w, true)
  | x :: rest => match write w x with
                 | (w', true) => feed write w' rest
                 | (w', false) => (w', false)
                 end
  end.

(** ** Related attribute trees *)

(** [b] is [a] with some values wrapped in LogValuers.  Excluded: an empty key
    with nil, and groups that are empty trees. *)
Inductive slv_unfold : attr -> attr -> Prop :=
| su_same a : slv_unfold a a
| su_valuer (k : bytes) w w' v o : resolve (VLogValuer v o) = w' -> slv_unfold (k, w) (k, w') ->
    is_empty (k, w) = false -> empty_value w = false -> slv_unfold (k, w) (k, VLogValuer v o)
| su_group (k : bytes) l l' : Forall2 slv_unfold l l' -> slv_unfold (k, VGroup l) (k, VGroup l').

(** [b] is [a] with every LogValuer replaced by its Go object. *)
Inductive lv_object : attr -> attr -> Prop :=
| lo_valuer (k : bytes) v o : lv_object (k, VLogValuer v o) (k, VAny (AnyObj o))
| lo_other a : match snd a with VLogValuer _ _ | VGroup _ => False | _ => True end -> lv_object a a
| lo_group (k : bytes) l l' : Forall2 lv_object l l' -> lv_object (k, VGroup l) (k, VGroup l').

(** Derivation steps with related attributes. *)
Inductive op_related (R : attr -> attr -> Prop) : op -> op -> Prop :=
| or_attrs l l' : Forall2 R l l' -> op_related R (WithAttrs l) (WithAttrs l')
| or_group name : op_related R (WithGroup name) (WithGroup name).

(** ** Attributes that flash and sloggy show alike *)

(** Objects that are not network addresses with a text of their own, nor errors
    whose Error and String methods differ. *)
Definition any_alike (o : any_obs) : Prop :=
  match ao_net o with Some s => ao_stringer o = Some s | None => True end /\
  match ao_error o, ao_stringer o with Some e, Some s => e = s | _, _ => True end.

(** LogValuers must not resolve to groups, times, durations or floats (flash
    hands those to json.Marshal or String), nor to an empty attribute. *)
Inductive alike : attr -> Prop :=
| al_plain (k : bytes) v :
    match v with
    | VGroup _ | VLogValuer _ _ => False
    | VAny (AnyObj o) => any_alike o
    | _ => True
    end -> alike (k, v)
| al_group (k : bytes) l : Forall alike l -> alike (k, VGroup l)
| al_valuer (k : bytes) v o :
    match resolve (VLogValuer v o) with
    | VAny (AnyObj o') => any_alike o'
    | VAny AnyNil => k <> []
    | VString _ | VInt64 _ | VUint64 _ | VBool _ => True
    | _ => False
    end -> alike (k, VLogValuer v o).

Definition op_attrs (o : op) : list attr :=
  match o with WithAttrs l => l | WithGroup _ => [] end.
