(** Model of sloggy handler derivation with buffers and slices in a heap:
    handler.go and group.go once more, with the sharing of backing arrays.

    A bytes.Buffer that is only written to is a slice that Write appends to
    (how much it over-allocates is the growth policy). *)

From Coq Require Import Ascii String List ZArith NArith Bool Arith.
From Verif Require Import Bytes Slog GoQuote History Slices Sloggy FlashHeap.
Import ListNotations.

(** Handler, handler.go 16-22. *)
Record qhandler : Type := {
  q_options : options;
  q_prefix  : gslice;
  q_suffix  : gslice;
  q_groups  : gslice
}.

Inductive qhdl : Type :=
| QBase (h : qhandler)
| QGroup (h : qhandler) (name : bytes) (parent : qhdl).

Definition qinner (g : qhdl) : qhandler := match g with QBase h => h | QGroup h _ _ => h end.

(** The arrays of all buffers, the arrays of groups, all handlers made so far. *)
Record qworld : Type := {
  q_bytes  : heap ascii;
  q_names  : heap bytes;
  q_tbl    : list qhdl
}.

Definition empty_qworld : qworld := {| q_bytes := []; q_names := []; q_tbl := [] |}.

Definition qview (w : qworld) (h : qhandler) : shandler :=
  {| sh_options := q_options h;
     sh_prefix := gread (q_bytes w) (q_prefix h);
     sh_suffix := gread (q_bytes w) (q_suffix h);
     sh_groups := gread (q_names w) (q_groups h) |}.

Fixpoint qview_hdl (w : qworld) (g : qhdl) : shdl :=
  match g with
  | QBase h => SBase (qview w h)
  | QGroup h name parent => SGroup (qview w h) name (qview_hdl w parent)
  end.

Section Derive.
Variable std : stdlib.
Variable grow : policy.

(** [bytes.Buffer.Write]. *)
Definition qwrite (b : heap ascii * gslice) (x : bytes) : (heap ascii * gslice) * bool :=
  (gappend NUL grow (fst b) (snd b) x, true).

(** [hdlr.prefix = bytes.Buffer{}; if h.prefix.Len() > 0 { hdlr.prefix.Write(h.prefix.Bytes()) }]. *)
Definition copied (b : heap ascii) (s : gslice) : heap ascii * gslice :=
  if Nat.ltb 0 (sl_len s) then fst (qwrite (b, nil_slice) (gread b s)) else (b, nil_slice).

(** NewHandler, handler.go 26-33. *)
Definition qnew (w : qworld) (o : options) : qworld :=
  {| q_bytes := q_bytes w; q_names := q_names w;
     q_tbl := q_tbl w ++
       [QBase {| q_options := o; q_prefix := nil_slice; q_suffix := nil_slice; q_groups := nil_slice |}] |}.

(** WithAttrs, handler.go 108-133. *)
Definition qwith_attrs (fuel : nat) (w : qworld) (h : qhandler) (attrs : list attr) : option qworld :=
  let v := qview w h in
  let started := match sh_prefix v with [] => false | _ => negb (ends_with (chr 123) (sh_prefix v)) end in
  let (b1, p) := copied (q_bytes w) (q_prefix h) in
  let (b2, s) := copied b1 (q_suffix h) in
  let c := snew_composer (b2, p) started (o_replace (q_options h)) (sh_groups v) in
  match sadd_attributes qwrite std fuel c attrs with
  | None => None
  | Some (c', _) =>
    let (b3, p') := s_writer c' in
    Some {| q_bytes := b3; q_names := q_names w;
            q_tbl := q_tbl w ++
              [QBase {| q_options := q_options h; q_prefix := p'; q_suffix := s; q_groups := q_groups h |}] |}
  end.

(** WithGroup, handler.go 135-171 and group.go 55-65, on [g]. *)
Definition qwith_group (w : qworld) (g : qhdl) (name : bytes) : qworld :=
  match name with
  | [] => {| q_bytes := q_bytes w; q_names := q_names w; q_tbl := q_tbl w ++ [QBase (qinner g)] |}
  | _ :: _ =>
    let h := qinner g in
    let v := qview w h in
    let (gh, gs) := gappend (nil : bytes) grow (q_names w) (q_groups h) [name] in
    let start := match sh_prefix v with
                 | [] => []
                 | _ => if ends_with (chr 123) (sh_prefix v) then [] else B ", "
                 end in
    let (b1, p) := copied (q_bytes w) (q_prefix h) in
    let (b2, s) := copied b1 (q_suffix h) in
    let (b3, p') := fst (qwrite (b2, p) (start ++ [quote] ++ name ++ [quote] ++ B ": {")) in
    let (b4, s') := fst (qwrite (b3, s) (B "}")) in
    {| q_bytes := b4; q_names := gh;
       q_tbl := q_tbl w ++
         [QGroup {| q_options := q_options h; q_prefix := p'; q_suffix := s'; q_groups := gs |} name g] |}
  end.

Definition qstep (fuel : nat) (w : qworld) (e : event) : option qworld :=
  match e with
  | New o _ => Some (qnew w o)
  | From i o =>
    match nth_error (q_tbl w) i with
    | None => Some w
    | Some g => match o with
                | WithAttrs l => qwith_attrs fuel w (qinner g) l
                | WithGroup name => Some (qwith_group w g name)
                end
    end
  end.

Fixpoint qrun (fuel : nat) (w : qworld) (es : list event) : option qworld :=
  match es with
  | [] => Some w
  | e :: es' => match qstep fuel w e with None => None | Some w' => qrun fuel w' es' end
  end.

End Derive.

(** What logging [r] through [g] comes to in world [w] when no write fails. *)
Definition qlogs (std : stdlib) (w : qworld) (g : qhdl) (d : dead) (r : record) (out : outcome) : Prop :=
  exists n0, forall n, n0 <= n ->
    shandle_hdl log_write std n d (qview_hdl w g) r [] =
      Some (match out with Done ws ok => SDone ws ok | Panic => SPanic end).
