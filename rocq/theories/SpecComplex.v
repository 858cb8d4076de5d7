(** Vocabulary for the claims about the programs of the verification suite: what a
    program does, which record it should give, and when a record agrees with
    another up to groups without content. *)

From Coq Require Import Ascii String List ZArith NArith Bool Arith QArith Qcanon.
From Verif Require Import Bytes GoSort Json Slog SpecLog Replace Warnings BenchChecks SpecChecks Complex.
Import ListNotations.
Local Open Scope nat_scope.
Local Open Scope list_scope.

(** ** Programs

    Open a group named by a character, or not, attach attributes, or none; the
    letter is the one the attributes were named by. *)
Inductive step : Type := Open (c : ascii) (letter : ascii) (l : list attr) | Attach (letter : ascii) (l : list attr).

Section Text.
Variable table : ascii -> option (list attr).

(** Nothing, or a plus sign and the name of a list of attributes. *)
Inductive args : bytes -> ascii -> list attr -> Prop :=
| args_none : args [] zero []
| args_some c l : table c = Some l -> args ["+"%char; c] c l.

Inductive blanks : bytes -> Prop :=
| blanks_nil : blanks []
| blanks_cons t : blanks t -> blanks (" "%char :: t).

(** The text of the steps and the attributes of the message that ends them. *)
Inductive spells : list step -> ascii -> list attr -> bytes -> Prop :=
| spell_space ss a l t : spells ss a l t -> spells ss a l (" "%char :: t)
| spell_open c x b m ss a l t : args x b m -> spells ss a l t -> spells (Open c b m :: ss) a l ("G"%char :: c :: x ++ t)
| spell_with x b m ss a l t : args x b m -> spells ss a l t -> spells (Attach b m :: ss) a l ("W"%char :: x ++ t)
| spell_message x a l t : args x a l -> blanks t -> spells [] a l ("M"%char :: x ++ t).
End Text.

(** ** What a program does *)

Definition group_name (c : ascii) : bytes := B "group" ++ utf8_encode (code c).

Definition attached (l : list attr) : list op := match l with [] => [] | _ => [WithAttrs l] end.
Definition step_ops (s : step) : list op :=
  match s with
  | Open c _ l => WithGroup (group_name c) :: attached l
  | Attach _ l => attached l
  end.
Definition program_ops (ss : list step) : list op := concat (map step_ops ss).

(** The same as text. *)
Definition quoted (t : bytes) : bytes := [quote] ++ t ++ [quote].
Definition step_text (s : step) : bytes :=
  match s with
  | Open c a l => B ".WithGroup(" ++ quoted (group_name c) ++ B ")" ++
                  match l with [] => [] | _ => B ".With('" ++ utf8_encode (code a) ++ B "')" end
  | Attach a _ => B ".With(" ++ quoted (utf8_encode (code a)) ++ B ")"
  end.
Definition program_text (ss : list step) (a : ascii) (l : list attr) : bytes :=
  B "log" ++ concat (map step_text ss) ++ B ".Info(" ++ quoted (B "This is a message") ++
  match l with [] => [] | _ => B ", '" ++ utf8_encode (code a) ++ B "'" end ++ B ")".

(** ** The record it should give

    The JSON members of the record: level and message, and what SpecLog.v says of
    the derivations and the attributes.  [text] are the strings that can be
    written. *)
Section Record.
Variable text : bytes -> bool.
Definition string_json (s : bytes) : option json := if text s then Some (JStr s) else None.
Definition resolved_json (v : value) : option json := match v with VString s => string_json s | _ => None end.
Definition attrs_json : list attr -> option fields := meanings (fun _ => None) (fun _ => None) string_json resolved_json.
Definition program_json (ss : list step) (l : list attr) : option fields :=
  match nest attrs_json (program_ops ss) l with
  | Some fs => Some ([(LevelKey, JStr (B "INFO")); (MessageKey, JStr (B "This is a message"))] ++ fs)
  | None => None
  end.

(** ** Attributes that can be logged: names and strings that can be written,
    numbers in range, groups with something in them, LogValuers of strings *)
Variable num : bytes -> option Qc.
Variable X : tools.

Inductive sound_value : value -> Prop :=
| sound_bool b : sound_value (VBool b)
| sound_int z : (- 2 ^ 63 <= z < 2 ^ 63)%Z -> sound_value (VInt64 z)
| sound_duration z : (- 2 ^ 63 <= z < 2 ^ 63)%Z -> sound_value (VDuration z)
| sound_uint n : (n < 2 ^ 64)%N -> sound_value (VUint64 n)
| sound_float t : is_num t = true -> num t = Some (x_float X t) -> sound_value (VFloat64 (FFin t))
| sound_string s : text s = true -> sound_value (VString s)
| sound_valuer s o : text s = true -> sound_value (VLogValuer (VString s) o)
| sound_group l : l <> [] -> Forall (fun a => fst a <> [] /\ text (fst a) = true /\ sound_value (snd a)) l -> sound_value (VGroup l).
Definition sound (a : attr) : Prop := fst a <> [] /\ text (fst a) = true /\ sound_value (snd a).

(** json.Unmarshal reads an integer as the float64 nearest to it. *)
Definition reads_ints : Prop := forall z, (- 2 ^ 64 < z < 2 ^ 64)%Z -> num (dec_of_Z z) = Some (x_int X z).
End Record.

Definition step_attrs (s : step) : list attr := match s with Open _ _ l => l | Attach _ l => l end.
Definition program_attrs (ss : list step) (l : list attr) : list attr := concat (map step_attrs ss) ++ l.

(** Groups are named so that JSON does not escape the name. *)
Definition openable (s : step) : Prop := match s with Open c _ _ => SpecLog.plain (group_name c) = true | Attach _ _ => True end.

(** The names of the attributes outside of all opened groups. *)
Fixpoint outer_keys (ss : list step) (l : list attr) : list bytes :=
  match ss with
  | [] => map fst l
  | Attach _ m :: ss' => map fst m ++ outer_keys ss' l
  | Open _ _ _ :: _ => []
  end.
Definition reserved : list bytes := [TimeKey; LevelKey; MessageKey; B "message"].

(** No group that stays empty is opened next to an attribute of the same name. *)
Fixpoint clash_free (beside : list bytes) (ss : list step) (l : list attr) : Prop :=
  match ss with
  | [] => True
  | Attach _ m :: ss' => clash_free (beside ++ map fst m) ss' l
  | Open c _ m :: ss' => (m ++ program_attrs ss' l = [] -> ~ In (group_name c) beside) /\ clash_free (map fst m) ss' l
  end.

Record good_program (text : bytes -> bool) (num : bytes -> option Qc) (X : tools) (ss : list step) (l : list attr) : Prop := {
  good_attrs : Forall (sound text num X) (program_attrs ss l);
  good_names : Forall openable ss;
  good_outer : forall k, In k (outer_keys ss l) -> ~ In k reserved;
  good_clash : clash_free [] ss l
}.

(** ** Records that agree up to groups without content *)

Inductive hollow : dyn -> Prop :=
| hollow_map l : Forall (fun e => hollow (snd e)) l -> hollow (DMap l).

Definition void (o : option dyn) : Prop := match o with None => True | Some v => hollow v end.

Inductive agree : dyn -> dyn -> Prop :=
| agree_leaf v w : ~ is_map v -> same v w -> agree v w
| agree_map l m : (forall k, slot (get k l) (get k m)) -> agree (DMap l) (DMap m)
with slot : option dyn -> option dyn -> Prop :=
| slot_void a b : void a -> void b -> slot a b
| slot_both v w : agree v w -> slot (Some v) (Some w).

(** What is looked at in a logged record: not the time; the message may be called
    message; the level may be in lower case if that is marked. *)
Definition looked_at (upper : option casing) (m : dmap) (k : bytes) : option dyn :=
  if beq TimeKey k then None
  else if beq (B "message") k then None
  else if beq MessageKey k then match get (B "message") m with Some v => Some v | None => get k m end
  else match upper, get k m with
       | Some cs, Some (DStr s) => if beq LevelKey k then Some (DStr (map_runes (cs_upper cs) s)) else Some (DStr s)
       | _, o => o
       end.

Definition agreeing (upper : option casing) (ideal actual : dmap) : Prop := forall k, slot (get k ideal) (looked_at upper actual k).

(** ** Marks that change what is expected *)
Definition neutral (mark : warning -> bool) : Prop :=
  Forall (fun w => mark w = false)
    [group_with_top; group_attr_msg_top; resolver; group_duration; duration_string; duration_seconds; duration_millis].

(** json.Unmarshal gives maps. *)
Definition unmarshals_maps (E : env) : Prop := forall captured m, e_unmarshal E captured = (Some m, None) -> valid (DMap m).
