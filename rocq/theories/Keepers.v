(** internal/scoring/score/filter.go and keeper.go: handler filters and the registry of
    score keepers; internal/scoring/filter and group: the filters used.

    Not modelled: the documents and titles of a keeper, and its two axes, which are in
    Scoring.v.  The slice Keepers returns is the registry's own; callers that write to
    it are not modelled. *)

From Coq Require Import Ascii String List NArith Bool Permutation.
From Verif Require Import Bytes GoSort.
From Verif Require Import Enums.
Import ListNotations.

(** ** Filters *)

(** Group: filter.go 11-13. *)
Definition group : Type := gomap bool.

(** An item of NewFilterGroup(items ...any): a string, a *Group (nil: None), or
    something else. *)
Inductive item : Type := Name (s : bytes) | Grouped (g : option group) | Other.

(** One entry of another group: filter.go 26-32. *)
Definition copy_entry (g : group) (e : bytes * bool) : group :=
  if snd e then put (fst e) true g else drop (fst e) g.

(** NewFilterGroup: filter.go 17-38.  The entries of a group come in any order; a nil
    group is dereferenced (None). *)
Inductive add_items : list item -> group -> option group -> Prop :=
| add_none g : add_items [] g (Some g)
| add_name s items g res : add_items items (put s true g) res -> add_items (Name s :: items) g res
| add_group o entries items g res : Permutation o entries ->
    add_items items (fold_left copy_entry entries g) res -> add_items (Grouped (Some o) :: items) g res
| add_nil items g : add_items (Grouped None :: items) g None
| add_other items g res : add_items items g res -> add_items (Other :: items) g res.
Definition new_group (items : list item) (res : option group) : Prop := add_items items [] res.

(** Group.keep: filter.go 40-42. *)
Definition keep (g : group) (handler : bytes) : bool := match get handler g with Some x => x | None => false end.

(** Filter: filter.go 46-78. *)
Inductive filter : Type := Include (g : group) | Exclude (g : group).
Definition keeps (f : filter) (handler : bytes) : bool :=
  match f with Include g => keep g handler | Exclude g => negb (keep g handler) end.

(** ** The filters used *)

Definition slogjson_name : bytes := B "slog/JSONHandler".     (* creator/slogjson/creator.go 10 *)
Definition flash_name : bytes := B "madkins/flash".           (* creator/madkinsflash/creator.go 11 *)
Definition replattr_name : bytes := B "madkins/replattr".     (* creator/madkinsreplattr/creator.go 12 *)
Definition meld_name : bytes := B "snqk/meld".                (* creator/snqkmeld/creator.go 12 *)
(** creator/veqryndedup/creator.go 12-33; Mode.String is in Enums.v. *)
Definition dedup_name (mode : N) : bytes := B "veqryn/dedup" ++ B "/" ++ enum_string modes mode.

(** group/dedup.go 11-23, group/replattr.go 10-19. *)
Definition dedup_items : list item :=
  map Name [meld_name; dedup_name 1; dedup_name 2; dedup_name 3; dedup_name 4].
Definition replattr_items : list item := [Name replattr_name].
(** filter/basic.go 10-18, dedup.go 13-21, replattr.go 13-21. *)
Definition basic_filter (f : filter) : Prop :=
  exists r d g, new_group replattr_items (Some r) /\ new_group dedup_items (Some d) /\
    new_group [Grouped (Some r); Grouped (Some d)] (Some g) /\ f = Exclude g.
Definition dedup_filter (f : filter) : Prop :=
  exists d g, new_group dedup_items (Some d) /\ new_group [Name slogjson_name; Grouped (Some d)] (Some g) /\ f = Include g.
Definition replattr_filter (f : filter) : Prop :=
  exists r g, new_group replattr_items (Some r) /\ new_group [Name flash_name; Grouped (Some r)] (Some g) /\ f = Include g.

(** ** Keepers *)

(** The lists Setup makes (keeper.go 56-78): those tags of the benchmark data whose
    name in the warning data the filter keeps; the tests must also be in the data. *)
Definition keep_tag (f : option filter) (name : bytes -> bytes) (tag : bytes) : bool :=
  match f with None => true | Some f => keeps f (name tag) end.
Definition keeper_handlers (f : option filter) (name : bytes -> bytes) (tags : list bytes) : list bytes :=
  List.filter (keep_tag f name) tags.
Definition keeper_tests (f : option filter) (name : bytes -> bytes) (has_test : bytes -> bool) (tags : list bytes) : list bytes :=
  List.filter (fun t => has_test t && keep_tag f name t) tags.

Section Registry.
Variable keeper : Type.

(** The package variables: keeper.go 140-143.  [None] is a nil slice. *)
Record registry : Type := { r_keepers : gomap keeper; r_tags : option (list bytes) }.
Definition no_keepers : registry := {| r_keepers := []; r_tags := None |}.

(** AddKeeper: keeper.go 145-156.  [true]: an error. *)
Definition add_keeper (tag : bytes) (k : keeper) (r : registry) : bool * registry :=
  match get tag (r_keepers r) with
  | Some _ => (true, r)
  | None => (false, {| r_keepers := put tag k (r_keepers r); r_tags := None |})
  end.

(** GetKeeper: keeper.go 158-160. *)
Definition get_keeper (tag : bytes) (r : registry) : option keeper := get tag (r_keepers r).

(** The order: keeper.go 168-176.  Indexing an empty tag panics. *)
Definition special (tag : bytes) : option bool :=
  match tag with [] => None | c :: _ => Some (Ascii.eqb c (chr 43)) end.
Definition keeper_less (a b : bytes) : bool :=
  match special a, special b with
  | Some true, Some false => false
  | Some false, Some true => true
  | _, _ => blt a b
  end.
(** Sorting two tags or more looks at each of them. *)
Definition sort_panics (l : list bytes) : bool :=
  (1 <? N.of_nat (length l))%N && existsb (fun t => match t with [] => true | _ => false end) l.

(** Keepers: keeper.go 162-180.  A panic ([None]) leaves a list behind, its tags in
    some order. *)
Definition keepers (r : registry) (res : option (list bytes)) (r' : registry) : Prop :=
  match r_tags r with
  | Some l => res = Some l /\ r' = r
  | None =>
      exists l, r' = {| r_keepers := r_keepers r; r_tags := Some l |} /\
        if sort_panics (keys (r_keepers r))
        then res = None /\ Permutation (keys (r_keepers r)) l
        else res = Some l /\ exists l0, Permutation (keys (r_keepers r)) l0 /\ sort_slice keeper_less l0 l
  end.
End Registry.
Arguments r_keepers {_}. Arguments r_tags {_}. Arguments no_keepers {_}. Arguments add_keeper {_}. Arguments get_keeper {_}. Arguments keepers {_}.
