(** Histories of handler derivations, independent of any handler. *)

From Coq Require Import Ascii String List ZArith NArith Bool Arith.
From Verif Require Import Bytes Slog Flash.
Import ListNotations.

(** NewHandler, or a derivation from the [i]-th handler made (counting from 0). *)
Inductive event : Type :=
| New (o : options) (x : option extras)
| From (i : nat) (o : op).

(** How a handler was made. *)
Record path : Type := { p_options : options; p_extras : option extras; p_ops : list op }.

Definition extend_path (p : path) (o : op) : path :=
  {| p_options := p_options p; p_extras := p_extras p; p_ops := p_ops p ++ [o] |}.

(** The path of each handler of a history.  (Deriving from a handler that does
    not exist yet is no event.) *)
Definition add_path (ps : list path) (e : event) : list path :=
  match e with
  | New o x => ps ++ [{| p_options := o; p_extras := x; p_ops := [] |}]
  | From i o => match nth_error ps i with
                | None => ps
                | Some p => ps ++ [extend_path p o]
                end
  end.

Definition paths (es : list event) : list path := fold_left add_path es [].

(** How often the [i]-th handler is derived from. *)
Definition is_from (i : nat) (e : event) : bool :=
  match e with From j _ => Nat.eqb i j | New _ _ => false end.

Definition derivations (i : nat) (es : list event) : nat := length (filter (is_from i) es).

(** The handler whose groups the [i]-th handler has: itself if it was made by
    NewHandler or WithGroup with a name; otherwise those of its parent. *)
Definition add_origin (os : list nat) (e : event) : list nat :=
  match e with
  | New _ _ => os ++ [length os]
  | From i o => match nth_error os i with
                | None => os
                | Some k => os ++ [match o with
                                   | WithGroup (_ :: _) => length os
                                   | _ => k
                                   end]
                end
  end.

Definition origins (es : list event) : list nat := fold_left add_origin es [].

(** How often a group is opened within the groups of the [k]-th handler: by it
    or by handlers made from it with WithAttrs only. *)
Definition opens (os : list nat) (k : nat) (e : event) : bool :=
  match e with
  | From i (WithGroup (_ :: _)) =>
      match nth_error os i with Some k' => Nat.eqb k k' | None => false end
  | _ => false
  end.

Definition openings (k : nat) (es : list event) : nat := length (filter (opens (origins es) k) es).

(** The names of the groups opened along a path. *)
Definition names (ops : list op) : list bytes :=
  flat_map (fun o => match o with WithGroup (c :: n) => [c :: n] | _ => [] end) ops.
