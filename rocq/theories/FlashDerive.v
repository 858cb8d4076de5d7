(** Model of flash handler derivation by several goroutines at once, while
    others log: handler.go 32-42, 52-136, 138-213 and group.go once more, as a
    machine whose steps may interleave in any way.

    Handlers have names, like variables assigned once.  What a name is bound to
    is fixed in advance (the program, [D]); which goroutine makes it and when is
    not.  A goroutine can only use a name that has been published.

    Making a handler takes many steps: the slices are taken from the parent (or
    allocated), then every append is a step of its own, then the handler is
    published.  The appends to the three fields are to different arrays; they
    may come in any order here, which includes the order of the code.  One append
    is one step, as in FlashConc.v.

    Logging here is the part of Handle that depends on the handler: it reads the
    bytes of prefix and suffix and the names of the groups one at a time.  Pools,
    the buffer and the mutex are in FlashConc.v.  The composer that WithAttrs
    takes from the pool is not: while in use it is nobody else's (C10), so here
    its buffer is local to the derivation. *)

From Coq Require Import Ascii String List ZArith NArith Bool Arith.
From Verif Require Import Bytes Slog History Flash Slices FlashHeap.
Import ListNotations.

(** What a name is bound to: NewHandler, or WithAttrs or WithGroup on a named handler. *)
Inductive def : Type :=
| DNew (o : options) (x : option extras)
| DFrom (y : nat) (o : op).

(** A handler while it is made: the local variables of WithAttrs and WithGroup,
    and what is still to be appended to each slice.  [b_wrap] is there for a
    group: its name and its parent. *)
Record build : Type := mkbuild {
  b_options : options;
  b_extras  : extras;
  b_pre     : gslice;
  b_prest   : list bytes;
  b_suf     : gslice;
  b_srest   : list bytes;
  b_grp     : gslice;
  b_grest   : list (list bytes);
  b_wrap    : option (bytes * fhdl)
}.

(** The state of a name. *)
Inductive slot : Type :=
| Absent
| Building (b : build)
| Published (f : fhdl).

(** What a goroutine does. *)
Inductive task : Type :=
| Make (x : nat)
| Log (x : nat) (d : dead) (r : record).

(** Where a goroutine is.  Reading: which handler is logged through, by what
    call, which of its (embedded) Handlers composes the line, and what has been
    read of it. *)
Inductive dphase : Type :=
| DIdle
| DMaking (x : nat)
| DReading (x : nat) (d : dead) (r : record) (h : fhandler) (pre suf : bytes) (grp : list bytes).

Record dthread : Type := mkdthr { t_at : dphase; t_tasks : list task }.

(** A log call that has read its handler: handler name, call, and the handler read. *)
Record logged : Type := mklogged {
  l_name : nat; l_dead : dead; l_record : record; l_handler : handler
}.

(** The heaps ([w_tbl] is not used here), the names, the goroutines, the log calls. *)
Record dstate : Type := mkd {
  d_world : world;
  d_slot  : nat -> slot;
  d_thr   : nat -> dthread;
  d_log   : list logged
}.

Definition set {A} (f : nat -> A) (i : nat) (x : A) : nat -> A :=
  fun j => if Nat.eqb j i then x else f j.

Definition heaps (p s : heap ascii) (g : heap bytes) : world :=
  {| w_prefix := p; w_suffix := s; w_groups := g; w_tbl := [] |}.

(** Which Handler composes the line when [g] is logged through, group.go 23-53;
    [None] when it panics. *)
Fixpoint ftarget (d : dead) (g : fhdl) (r : record) : option fhandler :=
  match g with
  | FBase h => Some h
  | FGroup h name parent =>
    match d with
    | DeadOther => None
    | _ =>
      let deadname := match d with DeadName s => s | _ => [] end in
      let delegate :=
        match first_attr (r_attrs r) with
        | None => true
        | Some (k, v) =>
          negb (beq deadname []) && beq k deadname &&
          match v with VGroup _ => true | _ => false end
        end in
      if delegate then ftarget (DeadName name) parent r else Some h
    end
  end.

Section Machine.
Variable std : stdlib.
Variable grow : policy.
Variable fuel : nat.
Variable D : nat -> def.

(** NewHandler, handler.go 32-42. *)
Definition begin_new (w : world) (o : options) (x : option extras) : world * build :=
  let (p, ps) := gmake NUL (w_prefix w) lenPrefix in
  let (s, ss) := gmake NUL (w_suffix w) lenSuffix in
  (heaps p s (w_groups w), mkbuild o (fix_extras x) ps [] ss [] nil_slice [] None).

(** WithAttrs, handler.go 138-163: up to the composer, which is going to append
    [c_buffer c'] chunk by chunk.  [None]: it panics. *)
Definition begin_attrs (w : world) (h : fhandler) (attrs : list attr) : option (world * build) :=
  let v := fview w h in
  let started := match h_prefix v with [] => false | _ => negb (ends_with (chr 123) (h_prefix v)) end in
  let (s, ss) := or_make (w_suffix w) (f_suffix h) lenSuffix in
  let (p, ps) := or_make (w_prefix w) (f_prefix h) lenPrefix in
  let c := new_composer [] started (o_replace (f_options h)) (h_groups v) (f_extras h) in
  match add_attributes (fun l x => l ++ [x]) std fuel c attrs with
  | None => None
  | Some (c', _) =>
    Some (heaps p s (w_groups w),
          mkbuild (f_options h) (f_extras h) ps (c_buffer c') ss [] (f_groups h) [] None)
  end.

(** WithGroup, handler.go 172-206 and group.go 55-65: up to the appends. *)
Definition begin_group (w : world) (g : fhdl) (name : bytes) : world * build :=
  let h := finner g in
  match name with
  | [] => (heaps (w_prefix w) (w_suffix w) (w_groups w),
           mkbuild (f_options h) (f_extras h) (f_prefix h) [] (f_suffix h) [] (f_groups h) [] None)
  | _ :: _ =>
    let v := fview w h in
    let start := match h_prefix v with
                 | [] => []
                 | _ => if ends_with (chr 123) (h_prefix v) then [] else B ", "
                 end in
    let (p, ps) := or_make (w_prefix w) (f_prefix h) lenPrefix in
    let (gs, gr) := match o_replace (f_options h) with
                    | None => (nil_slice, [])
                    | Some _ => (f_groups h, [[name]])
                    end in
    (heaps p (fst (or_make (w_suffix w) (f_suffix h) lenSuffix)) (w_groups w),
     mkbuild (f_options h) (f_extras h) ps [start ++ [quote] ++ name ++ [quote] ++ B ": {"]
       (f_suffix h) [B "}"] gs gr (Some (name, g)))
  end.

(** What making [x] starts with; [None] also if the parent is not there yet. *)
Definition begin (st : dstate) (x : nat) : option (world * build) :=
  match D x with
  | DNew o e => Some (begin_new (d_world st) o e)
  | DFrom y o =>
    match d_slot st y with
    | Published g =>
      match o with
      | WithAttrs l => begin_attrs (d_world st) (finner g) l
      | WithGroup name => Some (begin_group (d_world st) g name)
      end
    | _ => None
    end
  end.

(** The handler returned. *)
Definition built (b : build) : fhdl :=
  let h := {| f_options := b_options b; f_extras := b_extras b; f_prefix := b_pre b;
              f_suffix := b_suf b; f_groups := b_grp b |} in
  match b_wrap b with
  | None => FBase h
  | Some (name, g) => FGroup h name g
  end.

(** The steps a goroutine can take. *)
Inductive act : Type :=
| ABegin | APrefix | ASuffix | AGroups | APublish
| AStart | AReadPrefix | AReadSuffix | AReadGroups | ALogged.

Definition with_slot (st : dstate) (w : world) (x : nat) (s : slot) : dstate :=
  mkd w (set (d_slot st) x s) (d_thr st) (d_log st).

Definition with_thr (st : dstate) (i : nat) (t : dthread) : dstate :=
  mkd (d_world st) (d_slot st) (set (d_thr st) i t) (d_log st).

(** Goroutine [i] takes a step; [None] if it cannot. *)
Definition dact (i : nat) (a : act) (st : dstate) : option dstate :=
  let w := d_world st in
  let t := d_thr st i in
  match a, t_at t with
  | ABegin, DIdle =>
    match t_tasks t with
    | Make x :: rest =>
      match d_slot st x, begin st x with
      | Absent, Some (w', b) => Some (with_thr (with_slot st w' x (Building b)) i (mkdthr (DMaking x) rest))
      | _, _ => None
      end
    | _ => None
    end
  | APrefix, DMaking x =>
    match d_slot st x with
    | Building b =>
      match b_prest b with
      | [] => None
      | c :: cs =>
        let (p, ps) := gappend NUL grow (w_prefix w) (b_pre b) c in
        Some (with_slot st (heaps p (w_suffix w) (w_groups w)) x
               (Building (mkbuild (b_options b) (b_extras b) ps cs (b_suf b) (b_srest b) (b_grp b) (b_grest b) (b_wrap b))))
      end
    | _ => None
    end
  | ASuffix, DMaking x =>
    match d_slot st x with
    | Building b =>
      match b_srest b with
      | [] => None
      | c :: cs =>
        let (s, ss) := gappend NUL grow (w_suffix w) (b_suf b) c in
        Some (with_slot st (heaps (w_prefix w) s (w_groups w)) x
               (Building (mkbuild (b_options b) (b_extras b) (b_pre b) (b_prest b) ss cs (b_grp b) (b_grest b) (b_wrap b))))
      end
    | _ => None
    end
  | AGroups, DMaking x =>
    match d_slot st x with
    | Building b =>
      match b_grest b with
      | [] => None
      | c :: cs =>
        let (g, gs) := gappend (nil : bytes) grow (w_groups w) (b_grp b) c in
        Some (with_slot st (heaps (w_prefix w) (w_suffix w) g) x
               (Building (mkbuild (b_options b) (b_extras b) (b_pre b) (b_prest b) (b_suf b) (b_srest b) gs cs (b_wrap b))))
      end
    | _ => None
    end
  | APublish, DMaking x =>
    match d_slot st x with
    | Building b =>
      match b_prest b, b_srest b, b_grest b with
      | [], [], [] => Some (with_thr (with_slot st w x (Published (built b))) i (mkdthr DIdle (t_tasks t)))
      | _, _, _ => None
      end
    | _ => None
    end
  | AStart, DIdle =>
    match t_tasks t with
    | Log x d r :: rest =>
      match d_slot st x with
      | Published g =>
        match ftarget d g r with
        | Some h => Some (with_thr st i (mkdthr (DReading x d r h [] [] []) rest))
        | None => None
        end
      | _ => None
      end
    | _ => None
    end
  | AReadPrefix, DReading x d r h pre suf grp =>
    if Nat.ltb (length pre) (sl_len (f_prefix h)) then
      Some (with_thr st i (mkdthr (DReading x d r h
              (pre ++ [nth (length pre) (array (w_prefix w) (f_prefix h)) NUL]) suf grp) (t_tasks t)))
    else None
  | AReadSuffix, DReading x d r h pre suf grp =>
    if Nat.ltb (length suf) (sl_len (f_suffix h)) then
      Some (with_thr st i (mkdthr (DReading x d r h pre
              (suf ++ [nth (length suf) (array (w_suffix w) (f_suffix h)) NUL]) grp) (t_tasks t)))
    else None
  | AReadGroups, DReading x d r h pre suf grp =>
    if Nat.ltb (length grp) (sl_len (f_groups h)) then
      Some (with_thr st i (mkdthr (DReading x d r h pre suf
              (grp ++ [nth (length grp) (array (w_groups w) (f_groups h)) []])) (t_tasks t)))
    else None
  | ALogged, DReading x d r h pre suf grp =>
    if Nat.eqb (length pre) (sl_len (f_prefix h)) && Nat.eqb (length suf) (sl_len (f_suffix h)) &&
       Nat.eqb (length grp) (sl_len (f_groups h)) then
      Some (mkd w (d_slot st) (set (d_thr st) i (mkdthr DIdle (t_tasks t)))
             (d_log st ++ [mklogged x d r {| h_options := f_options h; h_extras := f_extras h;
                             h_prefix := pre; h_suffix := suf; h_groups := grp |}]))
    else None
  | _, _ => None
  end.

(** A schedule: who does what next. *)
Fixpoint drun (sched : list (nat * act)) (st : dstate) : option dstate :=
  match sched with
  | [] => Some st
  | (i, a) :: sched' => match dact i a st with None => None | Some st' => drun sched' st' end
  end.

End Machine.

(** In the beginning there is nothing. *)
Definition dstart (T : nat -> list task) : dstate :=
  mkd (heaps [] [] []) (fun _ => Absent) (fun i => mkdthr DIdle (T i)) [].
