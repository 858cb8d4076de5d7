(** Specification for the field counter: JSON object texts with their keys as
    written, and what is to be counted in them. *)

From Coq Require Import Ascii String List NArith Bool.
From Verif Require Import Bytes Json.
Import ListNotations.

(** A JSON text up to the values of its scalars; keys as written between the
    quotes. *)
Inductive layout : Type :=
| LScalar
| LArr (l : list layout)
| LObj (l : list (bytes * layout)).

Definition members := list (bytes * layout).

(** The grammar of RFC 8259, as [Json.jtext]. *)
Inductive ltext : layout -> bytes -> Prop :=
| lt_null : ltext LScalar (B "null")
| lt_true : ltext LScalar (B "true")
| lt_false : ltext LScalar (B "false")
| lt_num t : is_num t = true -> ltext LScalar t
| lt_str s b : jbody s b -> ltext LScalar (quote :: b ++ [quote])
| lt_arr0 w : ws w -> ltext (LArr []) (chr 91 :: w ++ [chr 93])
| lt_arr l b : lelems l b -> ltext (LArr l) (chr 91 :: b ++ [chr 93])
| lt_obj0 w : ws w -> ltext (LObj []) (chr 123 :: w ++ [chr 125])
| lt_obj l b : lmembers l b -> ltext (LObj l) (chr 123 :: b ++ [chr 125])
with lelems : list layout -> bytes -> Prop :=
| le_one v w1 b w2 : ws w1 -> ltext v b -> ws w2 -> lelems [v] (w1 ++ b ++ w2)
| le_cons v w1 b w2 l t : ws w1 -> ltext v b -> ws w2 -> lelems l t ->
    lelems (v :: l) (w1 ++ b ++ w2 ++ chr 44 :: t)
with lmembers : members -> bytes -> Prop :=
| lm_one k kb v w1 w2 w3 b w4 : ws w1 -> jbody k kb -> ws w2 -> ws w3 -> ltext v b -> ws w4 ->
    lmembers [(kb, v)] (w1 ++ quote :: kb ++ quote :: w2 ++ chr 58 :: w3 ++ b ++ w4)
| lm_cons k kb v w1 w2 w3 b w4 l t :
    ws w1 -> jbody k kb -> ws w2 -> ws w3 -> ltext v b -> ws w4 -> lmembers l t ->
    lmembers ((kb, v) :: l)
      (w1 ++ quote :: kb ++ quote :: w2 ++ chr 58 :: w3 ++ b ++ w4 ++ chr 44 :: t).

Scheme ltext_ind' := Minimality for ltext Sort Prop
with lelems_ind' := Minimality for lelems Sort Prop
with lmembers_ind' := Minimality for lmembers Sort Prop.
Combined Scheme layout_grammar_ind from ltext_ind', lelems_ind', lmembers_ind'.

(** The layouts of a JSON value: its members in order, their keys spelled in
    some way. *)
Inductive spells : json -> layout -> Prop :=
| sp_null : spells JNull LScalar
| sp_bool b : spells (JBool b) LScalar
| sp_num t : spells (JNum t) LScalar
| sp_str s : spells (JStr s) LScalar
| sp_arr l l' : spells_all l l' -> spells (JArr l) (LArr l')
| sp_obj l l' : spells_members l l' -> spells (JObj l) (LObj l')
with spells_all : list json -> list layout -> Prop :=
| sa_nil : spells_all [] []
| sa_cons v v' l l' : spells v v' -> spells_all l l' -> spells_all (v :: l) (v' :: l')
with spells_members : fields -> members -> Prop :=
| sm_nil : spells_members [] []
| sm_cons k kb v v' l l' : jbody k kb -> spells v v' -> spells_members l l' ->
    spells_members ((k, v) :: l) ((kb, v') :: l').

(** No member anywhere is called "fields" and is an object. *)
Fixpoint no_fields (l : layout) : bool :=
  match l with
  | LScalar => true
  | LArr vs => forallb no_fields vs
  | LObj ms => forallb (fun m => no_fields (snd m) &&
                 negb (beq (fst m) (B "fields") && match snd m with LObj _ => true | _ => false end)) ms
  end.

(** How often a name occurs in a list. *)
Definition occurrences (k : bytes) (l : list bytes) : nat := length (filter (beq k) l).

(** A cut keyword: a text that ends with a beginning of true, false or null. *)
Definition cut_keyword (s : bytes) : Prop :=
  exists q a b, s = q ++ a /\ a <> [] /\ b <> [] /\ In (a ++ b) [B "true"; B "false"; B "null"].
