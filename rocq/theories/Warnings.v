(** Model of infra/warning: warnings, their registry and the warning manager of
    the test suites. *)

From Coq Require Import Ascii String List NArith Bool.
From Verif Require Import Bytes GoSort Regex Replace.
Import ListNotations.

(** ** infra/warning/level.go *)

(** Level: level.go 14-30, an unsigned number. *)
Definition level_admin : N := 1.
Definition level_suggested : N := 2.
Definition level_implied : N := 3.
Definition level_required : N := 4.

(** LevelOrder: level.go 34-39. *)
Definition level_order : list N := [level_required; level_implied; level_suggested; level_admin].

(** levelNames: level.go 40-45. *)
Definition level_names : list (N * bytes) :=
  [(level_admin, B "Administrative"); (level_suggested, B "Suggested"); (level_implied, B "Implied");
   (level_required, B "Required")].

(** levelParse: level.go 46-52. *)
Definition level_parse : list (bytes * N) :=
  [(B "admin", level_admin); (B "administrative", level_admin); (B "suggested", level_suggested);
   (B "implied", level_implied); (B "required", level_required)].

Fixpoint find_level (l : N) (t : list (N * bytes)) : option bytes :=
  match t with [] => None | (k, v) :: t' => if N.eqb k l then Some v else find_level l t' end.

(** Level.String: level.go 56-62. *)
Definition level_string (l : N) : bytes :=
  match find_level l level_names with
  | Some s => s
  | None => B "Unknown level " ++ dec_of_N l
  end.

(** strings.ToLower *)
Definition to_lower (cs : casing) : bytes -> bytes := map_runes (cs_lower cs).

(** ParseLevel: level.go 84-89. *)
Definition parse_level (cs : casing) (text : bytes) : option N := get (to_lower cs text) level_parse.

(** ** infra/warning/warning.go *)

(** Warning: warning.go 18-31, without the description (which is only shown). *)
Record warning : Type := { w_level : N; w_name : bytes; w_summary : bytes }.

(** The package variables allWarnings, byName and warningTree: warning.go 33-39.
    Pointers are identified with the warnings they point to.  The mutex is left
    out: each function holds it from beginning to end. *)
Record registry : Type := {
  g_all : list warning;
  g_names : gomap warning;
  g_tree : list (N * list warning)
}.
Definition empty_registry : registry := {| g_all := []; g_names := []; g_tree := [] |}.

(** NewWarning: warning.go 46-65 (the note on a duplicate name is left out). *)
Definition new_warning (level : N) (name summary : bytes) (g : registry) : warning * registry :=
  match get name (g_names g) with
  | Some w => (w, g)
  | None =>
      let w := {| w_level := level; w_name := name; w_summary := summary |} in
      (w, {| g_all := g_all g ++ [w]; g_names := put name w (g_names g); g_tree := g_tree g |})
  end.

(** ByName: warning.go 68-70; [None] is nil. *)
Definition by_name (name : bytes) (g : registry) : option warning := get name (g_names g).

Fixpoint tree_get (l : N) (t : list (N * list warning)) : list warning :=
  match t with [] => [] | (k, v) :: t' => if N.eqb k l then v else tree_get l t' end.
Fixpoint tree_add (l : N) (w : warning) (t : list (N * list warning)) : list (N * list warning) :=
  match t with
  | [] => [(l, [w])]
  | (k, v) :: t' => if N.eqb k l then (k, v ++ [w]) :: t' else (k, v) :: tree_add l w t'
  end.

(** buildTree: warning.go 100-110.  sort.Slice by name; names are unique, so the
    result does not depend on the algorithm. *)
Definition build_tree (ws : list warning) : list (N * list warning) :=
  map (fun e => (fst e, sort_by (on w_name blt) (snd e)))
    (fold_left (fun t w => tree_add (w_level w) w t) ws []).

(** WarningsForLevel: warning.go 83-90. *)
Definition warnings_for_level (l : N) (g : registry) : list warning * registry :=
  let g' := match g_tree g with
            | [] => {| g_all := g_all g; g_names := g_names g; g_tree := build_tree (g_all g) |}
            | _ => g
            end in
  (tree_get l (g_tree g'), g').

(** ** infra/warning/admin.go *)

Definition skipping_test : warning :=
  {| w_level := level_admin; w_name := B "SkippingTest"; w_summary := B "Skipping test" |}.
Definition undefined : warning :=
  {| w_level := level_admin; w_name := B "Undefined"; w_summary := B "Undefined Warnings(s)" |}.
Definition unused : warning :=
  {| w_level := level_admin; w_name := B "Unused"; w_summary := B "Unused Warnings(s)" |}.

(** ** infra/warning/manager.go *)

(** Instance: manager.go 67-71. *)
Record instance : Type := { i_function : bytes; i_record : bytes; i_text : bytes }.

(** Instances: manager.go 48-64.  The count is a uint, its overflow is left out. *)
Record instances : Type := {
  r_level : N;
  r_name : bytes;
  r_summary : bytes;
  r_count : N;
  r_data : list instance
}.

(** Manager: manager.go 36-45.  [m_only] is the map warnOnly, all of whose values
    are true; a nil map is an empty one. *)
Record manager : Type := {
  m_name : bytes;
  m_prefix : bytes;
  m_predefined : gomap warning;
  m_only : list bytes;
  m_warnings : gomap instances
}.

Definition with_warnings (ws : gomap instances) (m : manager) : manager :=
  {| m_name := m_name m; m_prefix := m_prefix m; m_predefined := m_predefined m; m_only := m_only m;
     m_warnings := ws |}.

(** Predefine: manager.go 94-101. *)
Definition predefine (ws : list warning) (m : manager) : manager :=
  {| m_name := m_name m; m_prefix := m_prefix m;
     m_predefined := fold_left (fun p w => put (w_name w) w p) ws (m_predefined m);
     m_only := m_only m; m_warnings := m_warnings m |}.

(** NewWarningManager: manager.go 82-91; [admin] is Administrative().  The map of
    managers is not modelled. *)
Definition new_manager (admin : list warning) (name prefix : bytes) : manager :=
  predefine admin {| m_name := name; m_prefix := prefix; m_predefined := []; m_only := []; m_warnings := [] |}.

(** AddWarningFnText: manager.go 143-168. *)
Definition add_warning (w : warning) (fn text log : bytes) (m : manager) : manager :=
  let i := {| i_function := fn; i_text := text; i_record := trim_right newline log |} in
  let r := match get (w_name w) (m_warnings m) with
           | Some r => r
           | None => {| r_level := w_level w; r_name := w_name w; r_summary := w_summary w; r_count := 0; r_data := [] |}
           end in
  with_warnings
    (put (w_name w)
       {| r_level := r_level r; r_name := r_name r; r_summary := r_summary r;
          r_count := r_count r + 1; r_data := r_data r ++ [i] |} (m_warnings m)) m.

(** WarnOnly: manager.go 106-115.  [fn] is what misc.CurrentFunctionName finds. *)
Definition warn_only (w : warning) (fn : bytes) (m : manager) : manager :=
  let m' := match get (w_name w) (m_predefined m) with
            | Some _ => m
            | None => add_warning undefined fn (w_summary w) [] m
            end in
  {| m_name := m_name m'; m_prefix := m_prefix m'; m_predefined := m_predefined m';
     m_only := w_name w :: m_only m'; m_warnings := m_warnings m' |}.

(** AddUnused: manager.go 122-124. *)
Definition add_unused (w : warning) (fn log : bytes) (m : manager) : manager :=
  add_warning unused fn (w_name w) log m.

(** HasWarning: manager.go 171-173; [use] is the flag useWarnings. *)
Definition marked (w : warning) (m : manager) : bool := existsb (beq (w_name w)) (m_only m).
Definition has_warning (use : bool) (w : warning) (m : manager) : bool := use && marked w m.

(** HasWarnings: manager.go 178-188. *)
Definition has_warnings (use : bool) (ws : list warning) (m : manager) : list warning :=
  if use then filter (fun w => has_warning use w m) ws else [].

(** SkipTest: manager.go 193-196. *)
Definition skip_test (because : warning) (fn : bytes) (m : manager) : manager :=
  add_warning because fn (w_summary skipping_test) [] (add_warning skipping_test fn (w_summary because) [] m).

(** SkipTestIf: manager.go 201-210. *)
Definition skip_test_if (ws : list warning) (fn : bytes) (m : manager) : bool * manager :=
  match List.find (fun w => marked w m) ws with
  | Some w => (true, skip_test w fn m)
  | None => (false, m)
  end.

(** GetWarnings, cleaning up: manager.go 219-239. *)
Definition clean (m : manager) : manager :=
  match get (w_name unused) (m_warnings m) with
  | None => m
  | Some r =>
      let really := filter (fun i => match get (i_text i) (m_warnings m) with Some _ => false | None => true end)
                      (r_data r) in
      match really with
      | [] => with_warnings (drop (w_name unused) (m_warnings m)) m
      | _ => with_warnings
               (put (w_name unused)
                  {| r_level := r_level r; r_name := r_name r; r_summary := r_summary r;
                     r_count := N.of_nat (length really); r_data := really |} (m_warnings m)) m
      end
  end.

(** The comparison: manager.go 246-255. *)
Definition report_less (a b : instances) : bool :=
  if N.ltb (r_level b) (r_level a) then true
  else if N.ltb (r_level a) (r_level b) then false
  else blt (r_name a) (r_name b).

(** GetWarnings: manager.go 219-262.  The names come from a [range] loop, in any
    order; sort.Slice promises an ordered rearrangement.  The names are then
    replaced by the records. *)
Definition get_warnings (m m' : manager) (l : list instances) : Prop :=
  m' = clean m /\
  exists order names,
    Permutation.Permutation (keys (m_warnings m')) order /\
    sort_slice (fun a b => match get a (m_warnings m'), get b (m_warnings m') with
                           | Some x, Some y => report_less x y
                           | _, _ => false
                           end) order names /\
    map Some l = map (fun n => get n (m_warnings m')) names.

(** The records in order, as a function. *)
Definition report (m : manager) : list instances := sort_by report_less (map snd (m_warnings (clean m))).

(** ** ShowWarnings: manager.go 273-332 *)

(** %4d *)
Definition pad4 (n : N) : bytes := let d := dec_of_N n in repeat space (4 - length d) ++ d.

(** strings.Join(strings.Split(s, newline), sep) *)
Definition join_lines (sep s : bytes) : bytes :=
  match split_on newline s with
  | [] => []
  | p :: ps => p ++ concat (map (fun q => sep ++ q) ps)
  end.

Definition line (prefix s : bytes) : bytes := prefix ++ s ++ [newline].

(** manager.go 316-326. *)
Definition show_instance (prefix : bytes) (i : instance) : bytes :=
  let text := join_lines (newline :: prefix ++ B "           +") (i_text i) in
  (match i_text i with
   | [] => line prefix (B "         " ++ i_function i)
   | _ => line prefix (B "         " ++ i_function i ++ B ": " ++ text)
   end) ++
  match i_record i with
  | [] => []
  | _ => line prefix (B "           " ++ i_record i)
  end.

(** manager.go 315-327. *)
Definition show_record (prefix : bytes) (r : instances) : bytes :=
  line prefix (B "  " ++ pad4 (r_count r) ++ B " [" ++ r_name r ++ B "] " ++ r_summary r)
  ++ concat (map (show_instance prefix) (r_data r)).

(** manager.go 290-330: the records of a level, sorted by name. *)
Definition show_level (prefix : bytes) (l : list instances) (level : N) : bytes :=
  match filter (fun r => N.eqb (r_level r) level) l with
  | [] => []
  | rs => line prefix (B "  " ++ level_string level)
          ++ concat (map (show_record prefix) (sort_by (on r_name blt) rs))
  end.

(** manager.go 278-331. *)
Definition show_list (name prefix : bytes) (l : list instances) : bytes :=
  let for_handler := match name with [] => [] | _ => B " for " ++ name end in
  line prefix [] ++ line prefix (B "Warnings" ++ for_handler ++ B ":") ++
  match l with
  | [] => line prefix (B "  None")
  | _ => concat (map (show_level prefix l) level_order)
  end.

Definition show_warnings (m : manager) : bytes := show_list (m_name m) (m_prefix m) (report m).
