(** Model of the end of a test program: infra/warning/manager.go 75-91 (the managers), 265 and
    305-313 (the handlers by warning), 334-404 (ShowHandlersByWarning, WithWarnings). *)

From Coq Require Import Ascii String List NArith Bool Permutation.
From Verif Require Import Bytes GoSort Warnings.
Import ListNotations.
Local Open Scope list_scope.

(** managers: manager.go 80, 89, a manager replaces the one of the same name.  [created]:
    the managers in the order of their creation, as they are in the end. *)
Definition managers (created : list manager) : gomap manager :=
  fold_left (fun ms m => put (m_name m) m ms) created [].

(** byWarning: manager.go 265.  The keys are pointers, [None] is nil; pointers are identified
    with the warnings they point to, as in Warnings.v. *)
Definition tracked : Type := list (option warning * list bytes).

Definition same_warning (a b : option warning) : bool :=
  match a, b with
  | None, None => true
  | Some x, Some y => N.eqb (w_level x) (w_level y) && beq (w_name x) (w_name y) && beq (w_summary x) (w_summary y)
  | _, _ => false
  end.

(** manager.go 310-313. *)
Fixpoint track (w : option warning) (h : bytes) (t : tracked) : tracked :=
  match t with
  | [] => [(w, [h])]
  | (k, hs) :: t' => if same_warning k w then (k, if existsb (beq h) hs then hs else hs ++ [h]) :: t' else (k, hs) :: track w h t'
  end.

Fixpoint tracked_by (w : option warning) (t : tracked) : list bytes :=
  match t with
  | [] => []
  | (k, hs) :: t' => if same_warning k w then hs else tracked_by w t'
  end.

(** The records in the order shown: manager.go 290-308. *)
Definition shown_records (l : list instances) : list instances :=
  concat (map (fun level => sort_by (on r_name blt) (filter (fun r => N.eqb (r_level r) level) l)) level_order).

(** ShowWarnings, as far as it tracks: manager.go 307-313. *)
Definition track_manager (t : tracked) (m : manager) : tracked :=
  fold_left (fun t r => track (get (r_name r) (m_predefined m)) (m_name m) t) (shown_records (report m)) t.

(** ** ShowHandlersByWarning: manager.go 334-371 *)

(** The keys in the order of the first loop: [None] if it comes across nil, which panics. *)
Fixpoint no_nil (order : list (option warning)) : option (list warning) :=
  match order with
  | [] => Some []
  | Some w :: order' => option_map (cons w) (no_nil order')
  | None :: _ => None
  end.

(** byName: the last one of the name stays. *)
Definition last_named (n : bytes) (ws : list warning) : option warning :=
  List.find (fun w => beq (w_name w) n) (rev ws).

(** manager.go 360-368: the handlers come in any order. *)
Definition shows_warning (prefix : bytes) (t : tracked) (ws : list warning) (n text : bytes) : Prop :=
  exists w hs, last_named n ws = Some w /\ Permutation (tracked_by (Some w) t) hs /\
    text = line prefix (B "    [" ++ n ++ B "] " ++ w_summary w) ++ concat (map (fun h => line prefix (B "      " ++ h)) hs).

(** manager.go 352-369. *)
Definition shows_level (prefix : bytes) (t : tracked) (ws : list warning) (level : N) (text : bytes) : Prop :=
  match filter (fun w => N.eqb (w_level w) level) ws with
  | [] => text = []
  | here => exists blocks, Forall2 (shows_warning prefix t ws) (sort_by blt (map w_name here)) blocks /\
      text = line prefix (B "  " ++ level_string level) ++ concat blocks
  end.

(** What it prints, [None] if it panics; the keys of a map come in any order. *)
Definition show_handlers_by_warning (prefix : bytes) (t : tracked) (out : option bytes) : Prop :=
  exists order, Permutation (map fst t) order /\
    match no_nil order with
    | None => out = None
    | Some [] => out = Some []
    | Some ws => exists parts, Forall2 (shows_level prefix t ws) level_order parts /\
        out = Some (line prefix [] ++ line prefix (B " Handlers by warning:") ++ concat parts)
    end.

(** ** WithWarnings: manager.go 383-404 *)

Fixpoint first_prefix (ms : list manager) : bytes :=
  match ms with
  | [] => []
  | m :: ms' => match m_prefix m with [] => first_prefix ms' | p => p end
  end.

(** manager.go 387-391. *)
Fixpoint managers_named (names : list bytes) (ms : gomap manager) : list manager :=
  match names with
  | [] => []
  | n :: names' => match get n ms with Some m => m :: managers_named names' ms | None => managers_named names' ms end
  end.
Definition ordered_managers (created : list manager) : list manager :=
  managers_named (sort_by blt (keys (managers created))) (managers created).

(** What is printed, and whether os.Exit is reached; if not, the program panics. *)
Definition with_warnings_main (created : list manager) (out : bytes) (exits : bool) : Prop :=
  let ms := ordered_managers created in
  exists listing, show_handlers_by_warning (first_prefix ms) (fold_left track_manager ms []) listing /\
    out = concat (map show_warnings ms) ++ match listing with Some x => x | None => [] end /\
    exits = match listing with Some _ => true | None => false end.
