(** Model of flash handler derivation with Go slices in a heap: handler.go and
    group.go once more, this time with the sharing of backing arrays.

    Three heaps: the arrays behind prefixes, behind suffixes, and behind groups.
    (No slice moves from one of these fields to another in the code, so that the
    heaps are apart is no restriction.)  Handler structs are immutable once
    returned, so they are values holding slices. *)

From Coq Require Import Ascii String List ZArith NArith Bool Arith.
From Verif Require Import Bytes Slog History Flash Slices.
Import ListNotations.

(** The byte [make] fills arrays with. *)
Definition NUL : ascii := chr 0.

(** Handler, handler.go 20-27, with slices. *)
Record fhandler : Type := {
  f_options : options;
  f_extras  : extras;
  f_prefix  : gslice;
  f_suffix  : gslice;
  f_groups  : gslice
}.

(** A *Handler, or a *group. *)
Inductive fhdl : Type :=
| FBase (h : fhandler)
| FGroup (h : fhandler) (name : bytes) (parent : fhdl).

Definition finner (g : fhdl) : fhandler := match g with FBase h => h | FGroup h _ _ => h end.

(** The heaps, and all handlers made so far in order. *)
Record world : Type := {
  w_prefix : heap ascii;
  w_suffix : heap ascii;
  w_groups : heap bytes;
  w_tbl    : list fhdl
}.

Definition empty_world : world :=
  {| w_prefix := []; w_suffix := []; w_groups := []; w_tbl := [] |}.

(** What a handler's slices hold at present. *)
Definition fview (w : world) (h : fhandler) : handler :=
  {| h_options := f_options h; h_extras := f_extras h;
     h_prefix := gread (w_prefix w) (f_prefix h);
     h_suffix := gread (w_suffix w) (f_suffix h);
     h_groups := gread (w_groups w) (f_groups h) |}.

Fixpoint fview_hdl (w : world) (g : fhdl) : hdl :=
  match g with
  | FBase h => HBase (fview w h)
  | FGroup h name parent => HGroup (fview w h) name (fview_hdl w parent)
  end.

(** lenPrefix and lenSuffix, handler.go 14-18. *)
Definition lenPrefix := 512.
Definition lenSuffix := 32.

Section Derive.
Variable std : stdlib.
Variable grow : policy.

(** [append(b, x...)] on a byte slice. *)
Definition bapp (b : heap ascii * gslice) (x : bytes) : heap ascii * gslice :=
  gappend NUL grow (fst b) (snd b) x.

(** [if len(s) > 0 { s } else { make([]byte, 0, n) }]. *)
Definition or_make (b : heap ascii) (s : gslice) (n : nat) : heap ascii * gslice :=
  if Nat.ltb 0 (sl_len s) then (b, s) else gmake NUL b n.

(** NewHandler, handler.go 32-42. *)
Definition fnew (w : world) (o : options) (x : option extras) : world :=
  let (p, ps) := gmake NUL (w_prefix w) lenPrefix in
  let (s, ss) := gmake NUL (w_suffix w) lenSuffix in
  {| w_prefix := p; w_suffix := s; w_groups := w_groups w;
     w_tbl := w_tbl w ++
       [FBase {| f_options := o; f_extras := fix_extras x; f_prefix := ps; f_suffix := ss;
                 f_groups := nil_slice |}] |}.

(** WithAttrs, handler.go 138-170: the composer appends to the parent's prefix. *)
Definition fwith_attrs (fuel : nat) (w : world) (h : fhandler) (attrs : list attr) : option world :=
  let v := fview w h in
  let started := match h_prefix v with [] => false | _ => negb (ends_with (chr 123) (h_prefix v)) end in
  let (s, ss) := or_make (w_suffix w) (f_suffix h) lenSuffix in
  let c := new_composer (or_make (w_prefix w) (f_prefix h) lenPrefix) started
             (o_replace (f_options h)) (h_groups v) (f_extras h) in
  match add_attributes bapp std fuel c attrs with
  | None => None
  | Some (c', _) =>
    let (p, ps) := c_buffer c' in
    Some {| w_prefix := p; w_suffix := s; w_groups := w_groups w;
            w_tbl := w_tbl w ++
              [FBase {| f_options := f_options h; f_extras := f_extras h;
                        f_prefix := ps; f_suffix := ss; f_groups := f_groups h |}] |}
  end.

(** WithGroup, handler.go 172-213 and group.go 55-65, on [g]. *)
Definition fwith_group (w : world) (g : fhdl) (name : bytes) : world :=
  match name with
  | [] => {| w_prefix := w_prefix w; w_suffix := w_suffix w; w_groups := w_groups w;
             w_tbl := w_tbl w ++ [FBase (finner g)] |}
  | _ :: _ =>
    let h := finner g in
    let v := fview w h in
    let (gh, gs) := match o_replace (f_options h) with
                    | None => (w_groups w, nil_slice)
                    | Some _ => gappend (nil : bytes) grow (w_groups w) (f_groups h) [name]
                    end in
    let start := match h_prefix v with
                 | [] => []
                 | _ => if ends_with (chr 123) (h_prefix v) then [] else B ", "
                 end in
    let (p, ps) := bapp (or_make (w_prefix w) (f_prefix h) lenPrefix)
                     (start ++ [quote] ++ name ++ [quote] ++ B ": {") in
    (* the suffix made at line 204 is replaced at line 210 *)
    let (s, ss) := gappend NUL grow (fst (or_make (w_suffix w) (f_suffix h) lenSuffix))
                     (f_suffix h) (B "}") in
    {| w_prefix := p; w_suffix := s; w_groups := gh;
       w_tbl := w_tbl w ++
         [FGroup {| f_options := f_options h; f_extras := f_extras h;
                    f_prefix := ps; f_suffix := ss; f_groups := gs |} name g] |}
  end.

Definition fstep (fuel : nat) (w : world) (e : event) : option world :=
  match e with
  | New o x => Some (fnew w o x)
  | From i o =>
    match nth_error (w_tbl w) i with
    | None => Some w
    | Some g => match o with
                | WithAttrs l => fwith_attrs fuel w (finner g) l
                | WithGroup name => Some (fwith_group w g name)
                end
    end
  end.

Fixpoint frun (fuel : nat) (w : world) (es : list event) : option world :=
  match es with
  | [] => Some w
  | e :: es' => match fstep fuel w e with None => None | Some w' => frun fuel w' es' end
  end.

End Derive.

(** What logging [r] through [g] comes to in world [w]. *)
Definition flogs (std : stdlib) (w : world) (g : fhdl) (d : dead) (r : record) (out : outcome) : Prop :=
  exists n0, forall n, n0 <= n -> handle_hdl std n d (fview_hdl w g) r = Some out.
