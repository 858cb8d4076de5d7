(** Model of package replace: functions usable as
    [slog.HandlerOptions.ReplaceAttr].  The Unicode tables of the standard
    library are parameters. *)

From Coq Require Import Ascii String List ZArith NArith Bool.
From Verif Require Import Bytes GoQuote Slog.
Import ListNotations.

(** ** replace/multiple.go *)

(** A replacement function that may also do other things: [S] is whatever it can
    read and change (its own variables, a trace of the calls, ...); [None] is a
    run-time panic, such as calling a nil function. *)
Definition effect (S : Type) : Type := S -> list bytes -> attr -> option (S * attr).

(** A function without effects. *)
Definition pure {S} (f : attr_fn) : effect S := fun s gs a => Some (s, f gs a).

(** A nil function. *)
Definition nil_fn {S} : effect S := fun _ _ _ => None.

(** Multiple: replace/multiple.go 14-25. *)
Fixpoint multiple {S} (fns : list (effect S)) : effect S := fun s gs a =>
  match fns with
  | [] => Some (s, a)
  | fn :: rest =>
      match fn s gs a with
      | None => None
      | Some (s', a') => if is_empty a' then Some (s', a') else multiple rest s' gs a'
      end
  end.

(** The same for functions without effects. *)
Fixpoint multiple_fns (fns : list attr_fn) : attr_fn := fun gs a =>
  match fns with
  | [] => a
  | fn :: rest => let a' := fn gs a in if is_empty a' then a' else multiple_fns rest gs a'
  end.

(** ** replace/group.go *)

(** GroupCheckFn: replace/group.go 8.  [None] is a nil function. *)
Definition group_check : Type := option (list bytes -> bool).

(** TopCheck: replace/group.go 17-19. *)
Definition top_check (gs : list bytes) : bool := Nat.eqb (length gs) 0.

(** Current: replace/group.go 29-33. *)
Definition current (name : bytes) (gs : list bytes) : bool :=
  Nat.ltb 0 (length gs) && beq (nth (length gs - 1) gs []) name.

(** ** Strings *)

(** [unicode.ToUpper], [unicode.ToLower], a representative of the orbit of
    [unicode.SimpleFold], and [slog.Value.String]. *)
Record casing : Type := {
  cs_upper  : N -> N;
  cs_lower  : N -> N;
  cs_fold   : N -> N;
  cs_string : value -> bytes
}.

Definition rune_error : N := 65533.

(** The runes of a [range] loop over a string: RuneError for a byte that is not
    part of a well-formed character. *)
Fixpoint runes_n (n : nat) (s : bytes) : list N :=
  match n, s with
  | O, _ | _, [] => []
  | S n', _ :: r =>
    match decode_rune s with
    | Some (u, rest) => u :: runes_n n' rest
    | None => rune_error :: runes_n n' r
    end
  end.
Definition runes (s : bytes) : list N := runes_n (length s) s.

(** [strings.Map], hence strings.ToUpper and strings.ToLower.  (The standard
    library returns the same string where nothing changes and has a fast path
    for ASCII; the result is the same.) *)
Definition map_runes (f : N -> N) (s : bytes) : bytes :=
  concat (map (fun r => utf8_encode (f r)) (runes s)).

(** [strings.EqualFold]. *)
Fixpoint fold_eq (cs : casing) (a b : list N) : bool :=
  match a, b with
  | [], [] => true
  | x :: a', y :: b' => N.eqb (cs_fold cs x) (cs_fold cs y) && fold_eq cs a' b'
  | _, _ => false
  end.
Definition equal_fold (cs : casing) (a b : bytes) : bool := fold_eq cs (runes a) (runes b).

(** ** replace/change.go *)

(** checkFieldGroups: replace/change.go 127-137. *)
Definition check_field_groups (cs : casing) (gs : list bytes) (a : attr) (key : bytes)
    (insensitive : bool) (chk : group_check) : bool :=
  let found := if insensitive then equal_fold cs (fst a) key else beq (fst a) key in
  found && match chk with None => true | Some f => f gs end.

(** SetValueTo: replace/change.go 17-21. *)
Definition set_value_to (v : value) : value -> value := fun _ => v.

(** ChangeValue: replace/change.go 95-102. *)
Definition change_value (cs : casing) (key : bytes) (chg : value -> value)
    (insensitive : bool) (chk : group_check) : attr_fn := fun gs a =>
  if check_field_groups cs gs a key insensitive chk then (fst a, chg (snd a)) else a.

(** ChangeKey: replace/change.go 80-87. *)
Definition change_key (cs : casing) (from to : bytes)
    (insensitive : bool) (chk : group_check) : attr_fn := fun gs a =>
  if check_field_groups cs gs a from insensitive chk then (to, snd a) else a.

(** RemoveKey: replace/change.go 112-119. *)
Definition remove_key (cs : casing) (key : bytes)
    (insensitive : bool) (chk : group_check) : attr_fn := fun gs a =>
  if check_field_groups cs gs a key insensitive chk then empty_attr else a.

(** ChangeCases, a uint8: replace/change.go 24-30. *)
Definition CaseNone : N := 0.
Definition CaseLower : N := 1.
Definition CaseUpper : N := 2.

(** caseFn: replace/change.go 32-35. *)
Definition case_fn (cs : casing) (chg : N) : option (bytes -> bytes) :=
  if N.eqb chg CaseLower then Some (map_runes (cs_lower cs))
  else if N.eqb chg CaseUpper then Some (map_runes (cs_upper cs))
  else None.

(** ChangeCase: replace/change.go 55-69.  (The slog.Error call for an unknown
    setting is not modelled.) *)
Definition change_case (cs : casing) (key : bytes) (chg : N)
    (insensitive : bool) (chk : group_check) : attr_fn :=
  if negb (N.eqb chg CaseNone) then
    match case_fn cs chg with
    | Some fn => change_value cs key (fun v => VString (fn (cs_string cs v))) insensitive chk
    | None => fun _ a => a
    end
  else fun _ a => a.
