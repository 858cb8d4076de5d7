(** Model of handler configuration: which options and Extras a handler uses, and
    level filtering.  Handlers keep pointers to the caller's structures and
    NewHandler fills in defaults through these pointers, so the structures live
    in a store.  The same for sloggy, which has no Extras. *)

From Coq Require Import List ZArith Bool.
From Verif Require Import Bytes Slog Flash.
Import ListNotations.

(** [slog.Leveler]: a fixed level or a pointer to a LevelVar. *)
Inductive leveler : Type := Fixed (l : Z) | Dynamic (v : nat).

(** One handler: pointers to its HandlerOptions and its Extras
    (flash handler.go 21-22; sloggy handler.go 17). *)
Record refs : Type := { hr_options : nat; hr_extras : nat }.

(** The store: LevelVars, the Level field of each HandlerOptions ([None]: nil),
    the Extras structures, and the handlers made so far. *)
Record world : Type := {
  w_vars     : nat -> Z;
  w_options  : list (option leveler);
  w_extras   : list extras;
  w_handlers : list refs
}.

Definition world0 : world :=
  {| w_vars := fun _ => 0%Z; w_options := []; w_extras := []; w_handlers := [] |}.

(** What the program does, in any order. *)
Inductive action : Type :=
| MakeOptions (l : option leveler)               (* &slog.HandlerOptions{Level: l} *)
| MakeExtras (x : extras)                        (* &flash.Extras{...} *)
| SetVar (v : nat) (l : Z)                       (* levelVar.Set(l) *)
| WriteExtras (p : nat) (x : extras)             (* *p = x *)
| NewHandler (o e : option nat)                  (* flash.NewHandler(w, o, e) *)
| Derive (h : nat).                              (* h.WithAttrs(...) or h.WithGroup(...) *)

Fixpoint update {A} (l : list A) (i : nat) (f : A -> A) : list A :=
  match l, i with
  | [], _ => []
  | a :: l', O => f a :: l'
  | a :: l', S i' => a :: update l' i' f
  end.

(** fixOptions, flash handler.go 219-227 and sloggy handler.go 177-185: returns
    the pointer to use and the store. *)
Definition fix_options (w : world) (o : option nat) : world * nat :=
  let (w, p) := match o with
    | None => ({| w_vars := w_vars w; w_options := w_options w ++ [None];
                  w_extras := w_extras w; w_handlers := w_handlers w |}, length (w_options w))
    | Some p => (w, p)
    end in
  ({| w_vars := w_vars w;
      w_options := update (w_options w) p (fun l => match l with None => Some (Fixed LevelInfo) | _ => l end);
      w_extras := w_extras w; w_handlers := w_handlers w |}, p).

(** fixExtras, extras.go 52-87, through the pointer.  (LevelNames is a Go map;
    structures that share one map are not modelled.) *)
Definition fix_extras_at (w : world) (e : option nat) : world * nat :=
  let (w, p) := match e with
    | None => ({| w_vars := w_vars w; w_options := w_options w;
                  w_extras := w_extras w ++ [blank_extras]; w_handlers := w_handlers w |},
               length (w_extras w))
    | Some p => (w, p)
    end in
  ({| w_vars := w_vars w; w_options := w_options w;
      w_extras := update (w_extras w) p (fun x => fix_extras (Some x));
      w_handlers := w_handlers w |}, p).

Definition add_handler (w : world) (h : refs) : world :=
  {| w_vars := w_vars w; w_options := w_options w; w_extras := w_extras w;
     w_handlers := w_handlers w ++ [h] |}.

(** One action.  Pointers that do not exist cannot be used ([None]). *)
Definition act (w : world) (a : action) : option world :=
  match a with
  | MakeOptions l =>
      Some {| w_vars := w_vars w; w_options := w_options w ++ [l];
              w_extras := w_extras w; w_handlers := w_handlers w |}
  | MakeExtras x =>
      Some {| w_vars := w_vars w; w_options := w_options w;
              w_extras := w_extras w ++ [x]; w_handlers := w_handlers w |}
  | SetVar v l =>
      Some {| w_vars := fun u => if Nat.eqb u v then l else w_vars w u;
              w_options := w_options w; w_extras := w_extras w; w_handlers := w_handlers w |}
  | WriteExtras p x =>
      if Nat.ltb p (length (w_extras w)) then
        Some {| w_vars := w_vars w; w_options := w_options w;
                w_extras := update (w_extras w) p (fun _ => x); w_handlers := w_handlers w |}
      else None
  | NewHandler o e =>
      let ok l (p : option nat) := match p with None => true | Some p => Nat.ltb p l end in
      if ok (length (w_options w)) o && ok (length (w_extras w)) e then
        let (w, po) := fix_options w o in
        let (w, pe) := fix_extras_at w e in
        Some (add_handler w {| hr_options := po; hr_extras := pe |})
      else None
  | Derive h =>
      match nth_error (w_handlers w) h with
      | Some r => Some (add_handler w r)
      | None => None
      end
  end.

Fixpoint acts (w : world) (l : list action) : option world :=
  match l with
  | [] => Some w
  | a :: l' => match act w a with Some w' => acts w' l' | None => None end
  end.

Definition level_of (w : world) (l : leveler) : Z :=
  match l with Fixed z => z | Dynamic v => w_vars w v end.

(** Enabled, flash handler.go 46-48 and sloggy handler.go 37-39.  [None]: nil
    pointer dereference. *)
Definition enabled (w : world) (h : nat) (l : Z) : option bool :=
  match nth_error (w_handlers w) h with
  | None => None
  | Some r =>
    match nth_error (w_options w) (hr_options r) with
    | Some (Some lv) => Some (Z.leb (level_of w lv) l)
    | _ => None
    end
  end.

(** The Extras a handler reads. *)
Definition settings_of (w : world) (h : nat) : option extras :=
  match nth_error (w_handlers w) h with
  | None => None
  | Some r => nth_error (w_extras w) (hr_extras r)
  end.
