(** Specification of what a structured-logging handler should write: the JSON
    meaning of attribute trees and of derivation sequences.  Nothing here
    mentions composers, buffers, prefixes or separators.

    [None] marks input outside the domain on which the meaning is defined
    (invalid UTF-8, NaN, values that do not marshal, ...). *)

From Coq Require Import Ascii String List ZArith NArith Bool.
From Verif Require Import Bytes Json Slog.
Import ListNotations.

(** Text without control bytes that is valid UTF-8. *)
Definition clean (t : bytes) : bool :=
  forallb (fun c => N.leb 32 (code c)) t && valid_utf8 t.

(** Text that needs no escaping inside a JSON string. *)
Definition plain (t : bytes) : bool := forallb plain_char t && valid_utf8 t.

Definition str (s : bytes) : option json := if valid_utf8 s then Some (JStr s) else None.
Definition raw_str (s : bytes) : option json := if plain s then Some (JStr s) else None.

(** JSON denoted by marshalled text. *)
Definition marshalled (m : mres) : option json :=
  match m with
  | MOk t => if clean t then parse_json t else None
  | MErr _ => None
  end.

(** ** Values *)

Section Values.

(** How the handler shows objects, and how it formats times. *)
Variable any_json : any_obs -> option json.
Variable time_json : gotime -> option json.
Variable text_json : bytes -> option json.

(** A value that is neither a group nor a LogValuer. *)
Definition leaf (v : value) : option json :=
  match v with
  | VAny AnyNil => Some JNull
  | VAny (AnyObj o) => any_json o
  | VBool b => Some (JBool b)
  | VDuration d => Some (JNum (dec_of_Z d))
  | VFloat64 (FFin t) => if is_num t then Some (JNum t) else None
  | VFloat64 _ => None
  | VInt64 i => Some (JNum (dec_of_Z i))
  | VString s => text_json s
  | VTime t => time_json t
  | VUint64 u => Some (JNum (dec_of_N u))
  | VGroup _ => None
  | VLogValuer _ _ => None
  end.

(** ** Attribute trees without replacement *)

(** What a LogValuer denotes, given its resolved value. *)
Variable resolved_json : value -> option json.

Definition one (k : bytes) (j : option json) : option fields :=
  match text_json k, j with
  | Some _, Some j => Some [(k, j)]
  | _, _ => None
  end.

(** Empty attributes vanish, groups nest, groups with an empty key are inlined,
    groups without fields vanish.  Outside the domain: a group that is not an
    empty tree but ends up without fields. *)
Fixpoint meaning (k : bytes) (v : value) : option fields :=
  match v with
  | VGroup l =>
      let inner :=
        (fix go (l : list (bytes * value)) : option fields :=
           match l with
           | [] => Some []
           | (k', v') :: l' =>
               match meaning k' v', go l' with
               | Some a, Some b => Some (a ++ b)
               | _, _ => None
               end
           end) l in
      match k with
      | [] => inner
      | _ :: _ =>
          match inner with
          | Some [] => if empty_group l then Some [] else None
          | Some fs => one k (Some (JObj fs))
          | None => None
          end
      end
  | VLogValuer _ _ =>
      if is_empty (k, resolve v) then Some [] else one k (resolved_json (resolve v))
  | _ => if is_empty (k, v) then Some [] else one k (leaf v)
  end.

Fixpoint meanings (l : list attr) : option fields :=
  match l with
  | [] => Some []
  | a :: l' => match meaning (fst a) (snd a), meanings l' with
               | Some a, Some b => Some (a ++ b)
               | _, _ => None
               end
  end.

End Values.

(** ** Derivations *)

Definition named_group (o : op) : bool :=
  match o with WithGroup (_ :: _) => true | _ => false end.

(** Nothing was put into the groups opened by [ops]: the record has only empty
    attributes and [ops] only opens groups. *)
Definition untouched (attrs : list attr) (ops : list op) : bool :=
  forallb is_empty attrs && forallb named_group ops.

(** Fields of a record with attributes [attrs], logged through a handler derived
    by [ops] (first operation outermost).  [mean] is the meaning of a list of
    attributes.  Groups opened last around a record without attributes are
    dropped; every other opened group is a nested object. *)
Fixpoint nest (mean : list attr -> option fields) (ops : list op) (attrs : list attr)
    : option fields :=
  match ops with
  | [] => mean attrs
  | WithAttrs l :: ops' =>
      match mean l, nest mean ops' attrs with
      | Some a, Some b => Some (a ++ b)
      | _, _ => None
      end
  | WithGroup [] :: ops' => nest mean ops' attrs
  | WithGroup name :: ops' =>
      if negb (plain name) then None
      else if untouched attrs ops' then Some []
      else match nest mean ops' attrs with
           | Some b => Some [(name, JObj b)]
           | None => None
           end
  end.

(** ** Attribute trees with replacement

    [view gs a] is what attribute [a] becomes after resolution and replacement
    when the groups [gs] are open. *)
Inductive shown : Type :=
| Gone
| Node (k : bytes) (l : list attr)
| Leaf (k : bytes) (j : option json).

Section Replaced.

Variable view : list bytes -> attr -> shown.
Variable text_json : bytes -> option json.
(** May a group that is not an empty tree lose all its members? *)
Variable may_vanish : bool.

Inductive den (gs : list bytes) : attr -> fields -> Prop :=
| den_gone a : view gs a = Gone -> den gs a []
| den_empty a k l : view gs a = Node k l -> empty_group l = true -> den gs a []
| den_inline a l fs : view gs a = Node [] l -> empty_group l = false -> dens gs l fs -> den gs a fs
| den_group a k l fs : view gs a = Node k l -> k <> [] -> empty_group l = false ->
    text_json k = Some (JStr k) -> dens gs l fs -> (may_vanish = false -> fs <> []) ->
    den gs a [(k, JObj fs)]
| den_leaf a k j : view gs a = Leaf k (Some j) -> text_json k = Some (JStr k) -> den gs a [(k, j)]
with dens (gs : list bytes) : list attr -> fields -> Prop :=
| dens_nil : dens gs [] []
| dens_cons a l fs1 fs2 : den gs a fs1 -> dens gs l fs2 -> dens gs (a :: l) (fs1 ++ fs2).

(** The relational form of [nest].  [logged attrs gs ops gs' fs]: starting with
    the groups [gs] open, the record is composed with the groups [gs'] open and
    the fields are [fs]. *)
Inductive logged (attrs : list attr) : list bytes -> list op -> list bytes -> fields -> Prop :=
| lg_record gs fs : dens gs attrs fs -> logged attrs gs [] gs fs
| lg_attrs gs l ops gs' a b : dens gs l a -> logged attrs gs ops gs' b ->
    logged attrs gs (WithAttrs l :: ops) gs' (a ++ b)
| lg_inline gs ops gs' b : logged attrs gs ops gs' b -> logged attrs gs (WithGroup [] :: ops) gs' b
| lg_group gs name ops gs' b : name <> [] -> plain name = true -> untouched attrs ops = false ->
    logged attrs (gs ++ [name]) ops gs' b ->
    logged attrs gs (WithGroup name :: ops) gs' [(name, JObj b)]
| lg_elided gs name ops fs : name <> [] -> untouched attrs ops = true -> dens gs attrs fs ->
    logged attrs gs (WithGroup name :: ops) gs fs.

End Replaced.

Scheme den_ind' := Minimality for den Sort Prop
with dens_ind' := Minimality for dens Sort Prop.
Combined Scheme den_dens_ind from den_ind', dens_ind'.

(** ** Built-in fields *)

(** Time (unless zero), level, message, source (if asked for and known). *)
Definition basics (keys : bytes * bytes * bytes * bytes) (level : bytes) (add_source : bool)
    (src_value : source -> value) (r : record) : list attr :=
  let '(tk, lk, mk, sk) := keys in
  (if t_zero (r_time r) then [] else [(tk, VTime (r_time r))])
  ++ [(lk, VString level); (mk, VString (r_msg r))]
  ++ match r_source r with
     | Some s => if add_source then [(sk, src_value s)] else []
     | None => []
     end.

(** ** Contract of the standard library

    json.Marshal on the basic kinds and on source data (the flash form is a
    struct in field order; the sloggy form is a map, printed with sorted keys). *)
Record stdlib_ok (std : stdlib) : Prop := {
  so_bool : forall b, sl_marshal std (VBool b) = MOk (if b then B "true" else B "false");
  so_int : forall z, sl_marshal std (VInt64 z) = MOk (dec_of_Z z);
  so_uint : forall n, sl_marshal std (VUint64 n) = MOk (dec_of_N n);
  so_string : forall s, valid_utf8 s = true ->
    marshalled (sl_marshal std (VString s)) = Some (JStr s);
  so_source_struct : forall s,
    valid_utf8 (src_function s) = true -> valid_utf8 (src_file s) = true ->
    marshalled (sl_source_struct std s) =
      Some (JObj [(B "function", JStr (src_function s)); (B "file", JStr (src_file s));
                  (B "line", JNum (dec_of_Z (src_line s)))]);
  so_source_map : forall s,
    valid_utf8 (src_function s) = true -> valid_utf8 (src_file s) = true ->
    marshalled (sl_source_map std s) =
      Some (JObj [(B "file", JStr (src_file s)); (B "function", JStr (src_function s));
                  (B "line", JNum (dec_of_Z (src_line s)))])
}.

(** The complete lines of a stream and the unfinished rest. *)
Fixpoint split_lines (s : bytes) : list bytes * bytes :=
  match s with
  | [] => ([], [])
  | c :: s' =>
    let (ls, rest) := split_lines s' in
    if Ascii.eqb c newline then ([] :: ls, rest)
    else match ls with
         | [] => ([], c :: rest)
         | l :: ls' => ((c :: l) :: ls', rest)
         end
  end.
