(** Vocabulary for the claims about the checks of the benchmark suite: what a
    decoded JSON value holds at a path, and when two values are the same. *)

From Coq Require Import Ascii String List ZArith NArith Bool Permutation Sorted QArith Qcanon.
From Verif Require Import Bytes GoSort Json Warnings BenchChecks.
Import ListNotations.
Local Open Scope nat_scope.

(** ** Values that Go can hold: no key twice in a map *)
Inductive valid : dyn -> Prop :=
| valid_null : valid DNull
| valid_bool b : valid (DBool b)
| valid_num q : valid (DNum q)
| valid_str s : valid (DStr s)
| valid_arr l : Forall valid l -> valid (DArr l)
| valid_map l : NoDup (map fst l) -> Forall (fun e => valid (snd e)) l -> valid (DMap l).

(** ** The same value: the same type and content, the maps being functions from
    keys to values *)
Inductive same : dyn -> dyn -> Prop :=
| same_null : same DNull DNull
| same_bool b : same (DBool b) (DBool b)
| same_num q : same (DNum q) (DNum q)
| same_str s : same (DStr s) (DStr s)
| same_arr l m : same_list l m -> same (DArr l) (DArr m)
| same_map l m : (forall k, same_option (get k l) (get k m)) -> same (DMap l) (DMap m)
with same_list : list dyn -> list dyn -> Prop :=
| same_nil : same_list [] []
| same_cons a b l m : same a b -> same_list l m -> same_list (a :: l) (b :: m)
with same_option : option dyn -> option dyn -> Prop :=
| same_none : same_option None None
| same_some a b : same a b -> same_option (Some a) (Some b).

(** ** What a value holds at a path of keys *)
Fixpoint at_path (p : list bytes) (v : dyn) : option dyn :=
  match p with
  | [] => Some v
  | k :: p' =>
      match v with
      | DMap l => match get k l with Some w => at_path p' w | None => None end
      | _ => None
      end
  end.

Definition is_map (v : dyn) : Prop := exists l, v = DMap l.

(** ** Paths at which a record is not as expected

    A path is looked at if it leads somewhere in what is expected, through maps on
    both sides, and does not lead to maps on both sides.  It is wrong if the values
    there are not the same; a value missing in the record is like null. *)
Record wrong (expected actual : dmap) (p : list bytes) (v w : dyn) : Prop := {
  wrong_deep : p <> [];
  wrong_expected : at_path p (DMap expected) = Some v;
  wrong_parent : exists l, at_path (removelast p) (DMap actual) = Some (DMap l);
  wrong_actual : at_path p (DMap actual) = Some w \/ (at_path p (DMap actual) = None /\ w = DNull);
  wrong_kind : ~ (is_map v /\ is_map w);
  wrong_value : ~ same v w
}.

(** The record has everything that is expected. *)
Definition contained (expected actual : dmap) : Prop := forall p v w, ~ wrong expected actual p v w.

(** The value is there, but as a string of its JSON text. *)
Definition as_text (E : env) (v w : dyn) : Prop := exists s, w = DStr s /\ e_marshal E v = Some s.

(** json.Marshal fails on an expected value that is to be compared with a string. *)
Definition stuck (E : env) (expected actual : dmap) : Prop :=
  exists p v s, wrong expected actual p v (DStr s) /\ e_marshal E v = None.

(** json.Marshal does not depend on the order of a map: it sorts the keys. *)
Definition marshal_ok (E : env) : Prop := forall v w, same v w -> e_marshal E v = e_marshal E w.

(** ** What a check has recorded *)

(** How often a warning has been recorded. *)
Definition tally (name : bytes) (m : manager) : N :=
  match get name (m_warnings m) with Some r => r_count r | None => 0%N end.

(** None of the three marks that the checks of the benchmark suite heed is set.  (Other
    marks make no difference to them: NewSlogBenchmarkSuite always marks
    NoHandlerCreation, bench/tests/suite.go 44.) *)
Definition heeded : list bytes := [B "SkipDedup"; B "StringAny"; B "Mismatch"].
Definition unheeded (m : manager) : Prop := forall n, In n heeded -> ~ In n (m_only m).

(** The warnings recorded between two states: these, and no others. *)
Definition occurs (name : bytes) (ws : list warning) : N :=
  N.of_nat (length (filter (fun w => beq (w_name w) name) ws)).
Definition added (ws : list warning) (m m' : manager) : Prop :=
  forall name, tally name m' = (tally name m + occurs name ws)%N.

(** ** Contract of json.Unmarshal into a map[string]any

    [num] is strconv.ParseFloat on the text of a number.  Of several members with
    the same name the last counts.  Strings that are not UTF-8, which are changed,
    are left out. *)
Section Decode.
Variable num : bytes -> option Qc.

Fixpoint decode (j : json) : option dyn :=
  match j with
  | JNull => Some DNull
  | JBool b => Some (DBool b)
  | JNum t => match num t with Some q => Some (DNum q) | None => None end
  | JStr s => if valid_utf8 s then Some (DStr s) else None
  | JArr l =>
      match (fix go (l : list json) : option (list dyn) :=
               match l with
               | [] => Some []
               | j :: l' => match decode j, go l' with Some v, Some r => Some (v :: r) | _, _ => None end
               end) l with
      | Some r => Some (DArr r)
      | None => None
      end
  | JObj l =>
      match (fix go (l : list (bytes * json)) (m : dmap) : option dmap :=
               match l with
               | [] => Some m
               | (k, j) :: l' => match (if valid_utf8 k then decode j else None) with Some v => go l' (put k v m) | None => None end
               end) l [] with
      | Some m => Some (DMap m)
      | None => None
      end
  end.
End Decode.

(** Whole numbers of up to 53 bits are exact, all other integers have some value. *)
Record num_ok (num : bytes -> option Qc) : Prop := {
  num_exact : forall z, (Z.abs z <= 2 ^ 53)%Z -> num (dec_of_Z z) = Some (Q2Qc (inject_Z z));
  num_some : forall z, (Z.abs z < 2 ^ 64)%Z -> num (dec_of_Z z) <> None
}.

(** The text of an object is decoded without error, in any order of the map. *)
Definition unmarshal_ok (num : bytes -> option Qc) (E : env) : Prop := forall b fs m,
  parse_json b = Some (JObj fs) -> decode num (JObj fs) = Some (DMap m) ->
  exists m', e_unmarshal E b = (Some m', None) /\ valid (DMap m') /\ same (DMap m) (DMap m').
