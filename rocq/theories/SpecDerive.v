(** How named handlers come about, and who may derive from whom. *)

From Coq Require Import List.
From Verif Require Import Bytes Slog History Flash Slices FlashHeapProofs FlashDerive.
Import ListNotations.

(** The derivation path of the handler a name is bound to. *)
Inductive path_of (D : nat -> def) : nat -> path -> Prop :=
| path_new x o e : D x = DNew o e ->
    path_of D x {| p_options := o; p_extras := e; p_ops := [] |}
| path_from x y o p : D x = DFrom y o -> path_of D y p ->
    path_of D x (extend_path p o).

(** A handler that has stored something is derived from at most once, by
    whichever goroutine; a handler that has stored nothing as often as one likes. *)
Definition shared_once (std : stdlib) (D : nat -> def) : Prop :=
  forall x x' y o o' p, x <> x' -> D x = DFrom y o -> D x' = DFrom y o' -> path_of D y p ->
    unstarted std p.

(** The machine can get to [st]. *)
Definition gets_to (std : stdlib) (grow : policy) (fuel : nat) (D : nat -> def)
    (T : nat -> list task) (st : dstate) : Prop :=
  exists sched, drun std grow fuel D sched (dstart T) = Some st.
