(** Whose group names a named sloggy handler has, and who may open groups in them. *)

From Coq Require Import List.
From Verif Require Import Bytes Slog History Slices FlashDerive SpecDerive SloggyDerive.
Import ListNotations.

(** The handler whose groups the handler [x] has: itself if it was made by NewHandler
    or by WithGroup with a name; otherwise those of its parent. *)
Inductive origin (D : nat -> def) : nat -> nat -> Prop :=
| origin_new x o e : D x = DNew o e -> origin D x x
| origin_group x y c n : D x = DFrom y (WithGroup (c :: n)) -> origin D x x
| origin_attrs x y l z : D x = DFrom y (WithAttrs l) -> origin D y z -> origin D x z
| origin_none x y z : D x = DFrom y (WithGroup []) -> origin D y z -> origin D x z.

(** Within the groups of a handler a group is opened at most once, by whichever
    goroutine, unless the handler has none. *)
Definition opened_once (D : nat -> def) : Prop :=
  forall x x' y y' c n c' n' z p, x <> x' ->
    D x = DFrom y (WithGroup (c :: n)) -> D x' = DFrom y' (WithGroup (c' :: n')) ->
    origin D y z -> origin D y' z -> path_of D z p -> names (p_ops p) = [].

(** A handler with these options is right whatever is done with groups, or the groups
    of all handlers are. *)
Definition group_safe (D : nat -> def) (p : path) : Prop :=
  o_replace (p_options p) = None \/ opened_once D.

(** The machine can get to [st]. *)
Definition sgets_to (std : stdlib) (grow : policy) (fuel : nat) (D : nat -> def)
    (T : nat -> list task) (st : sstate) : Prop :=
  exists sched, srun std grow fuel D sched (sstart T) = Some st.
