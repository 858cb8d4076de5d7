(** Model of sloggy handler derivation by several goroutines at once, while others
    log: handler.go 26-33, 41-106, 108-171 and group.go once more, as a machine
    whose steps may interleave in any way.

    As in FlashDerive.v (whose names, programs and tasks are used here) what a name
    is bound to is fixed in advance, and making a handler takes many steps: copying
    the prefix and the suffix of the parent, every further Write to them, appending to
    groups, publishing.  The steps that concern different fields may come in any order
    here, which includes the order of the code.  What the composer of WithAttrs is going
    to write is settled when it starts.

    Logging here is the part of Handle that depends on the handler: it reads the bytes
    of prefix and suffix and the names of the groups one at a time. *)

From Coq Require Import Ascii String List ZArith NArith Bool Arith.
From Verif Require Import Bytes Slog GoQuote History Slices Sloggy FlashHeap SloggyHeap FlashDerive.
Import ListNotations.

(** A handler while it is made: the local variables of WithAttrs and WithGroup; which
    buffers are still to be copied, and what is still to be written after that. *)
Record sbuild : Type := mksbuild {
  sb_options : options;
  sb_pre     : gslice;
  sb_pcopy   : option gslice;
  sb_prest   : list bytes;
  sb_suf     : gslice;
  sb_scopy   : option gslice;
  sb_srest   : list bytes;
  sb_grp     : gslice;
  sb_grest   : list (list bytes);
  sb_wrap    : option (bytes * qhdl)
}.

Inductive sslot : Type :=
| SAbsent
| SBuilding (b : sbuild)
| SPublished (f : qhdl).

Inductive sphase : Type :=
| SIdle
| SMaking (x : nat)
| SReading (x : nat) (d : dead) (r : record) (h : qhandler) (pre suf : bytes) (grp : list bytes).

Record sthread : Type := mksthr { st_at : sphase; st_tasks : list task }.

(** A log call that has read its handler. *)
Record slogged : Type := mkslogged {
  sl_name : nat; sl_dead : dead; sl_record : record; sl_handler : shandler
}.

(** The heaps, the names, the goroutines, the log calls. *)
Record sstate : Type := mks {
  ss_bytes : heap ascii;
  ss_names : heap bytes;
  ss_slot  : nat -> sslot;
  ss_thr   : nat -> sthread;
  ss_log   : list slogged
}.

(** The heaps as a world ([q_tbl] is not used here). *)
Definition sworld (b : heap ascii) (g : heap bytes) : qworld := {| q_bytes := b; q_names := g; q_tbl := [] |}.

(** Which Handler composes the line when [g] is logged through, group.go 23-53;
    [None] when it panics. *)
Fixpoint starget (d : dead) (g : qhdl) (r : record) : option qhandler :=
  match g with
  | QBase h => Some h
  | QGroup h name parent =>
    match d with
    | DeadOther => None
    | _ =>
      let deadname := match d with DeadName s => s | _ => [] end in
      let delegate :=
        match sfirst_attr (r_attrs r) with
        | None => true
        | Some (k, v) =>
          negb (beq deadname []) && beq k deadname &&
          match v with VGroup _ => true | _ => false end
        end in
      if delegate then starget (DeadName name) parent r else Some h
    end
  end.

Section Machine.
Variable std : stdlib.
Variable grow : policy.
Variable fuel : nat.
Variable D : nat -> def.

(** [if h.prefix.Len() > 0 { hdlr.prefix.Write(h.prefix.Bytes()) }], handler.go 118-126;
    likewise for the suffix, and in WithGroup. *)
Definition to_copy (s : gslice) : option gslice := if Nat.ltb 0 (sl_len s) then Some s else None.

(** NewHandler, handler.go 26-33. *)
Definition sbegin_new (o : options) : sbuild :=
  mksbuild o nil_slice None [] nil_slice None [] nil_slice [] None.

(** WithAttrs, handler.go 108-133.  [None]: it panics. *)
Definition sbegin_attrs (w : qworld) (h : qhandler) (attrs : list attr) : option sbuild :=
  let v := qview w h in
  let started := match sh_prefix v with [] => false | _ => negb (ends_with (chr 123) (sh_prefix v)) end in
  let c := snew_composer [] started (o_replace (q_options h)) (sh_groups v) in
  match sadd_attributes log_write std fuel c attrs with
  | None => None
  | Some (c', _) =>
    Some (mksbuild (q_options h) nil_slice (to_copy (q_prefix h)) (s_writer c')
            nil_slice (to_copy (q_suffix h)) [] (q_groups h) [] None)
  end.

(** WithGroup, handler.go 135-171 and group.go 55-65. *)
Definition sbegin_group (w : qworld) (g : qhdl) (name : bytes) : sbuild :=
  let h := qinner g in
  match name with
  | [] => mksbuild (q_options h) (q_prefix h) None [] (q_suffix h) None [] (q_groups h) [] None
  | _ :: _ =>
    let v := qview w h in
    let start := match sh_prefix v with
                 | [] => []
                 | _ => if ends_with (chr 123) (sh_prefix v) then [] else B ", "
                 end in
    mksbuild (q_options h) nil_slice (to_copy (q_prefix h)) [start ++ [quote] ++ name ++ [quote] ++ B ": {"]
      nil_slice (to_copy (q_suffix h)) [B "}"] (q_groups h) [[name]] (Some (name, g))
  end.

(** What making [x] starts with; [None] also if the parent is not there yet. *)
Definition sbegin_at (st : sstate) (x : nat) : option sbuild :=
  match D x with
  | DNew o _ => Some (sbegin_new o)
  | DFrom y o =>
    match ss_slot st y with
    | SPublished g =>
      let w := sworld (ss_bytes st) (ss_names st) in
      match o with
      | WithAttrs l => sbegin_attrs w (qinner g) l
      | WithGroup name => Some (sbegin_group w g name)
      end
    | _ => None
    end
  end.

(** The handler returned. *)
Definition sbuilt (b : sbuild) : qhdl :=
  let h := {| q_options := sb_options b; q_prefix := sb_pre b; q_suffix := sb_suf b; q_groups := sb_grp b |} in
  match sb_wrap b with
  | None => QBase h
  | Some (name, g) => QGroup h name g
  end.

Inductive sact : Type :=
| SBegin | SCopyPrefix | SPrefix | SCopySuffix | SSuffix | SGroups | SPublish
| SStart | SReadPrefix | SReadSuffix | SReadGroups | SLogged.

Definition sset_slot (st : sstate) (b : heap ascii) (g : heap bytes) (x : nat) (s : sslot) : sstate :=
  mks b g (set (ss_slot st) x s) (ss_thr st) (ss_log st).

Definition sset_thr (st : sstate) (i : nat) (t : sthread) : sstate :=
  mks (ss_bytes st) (ss_names st) (ss_slot st) (set (ss_thr st) i t) (ss_log st).

(** Steps of making [x] that write to a buffer or to groups. *)
Definition swrite (st : sstate) (a : sact) (b : sbuild) : option (heap ascii * heap bytes * sbuild) :=
  let bh := ss_bytes st in
  let gh := ss_names st in
  match a with
  | SCopyPrefix =>
    match sb_pcopy b with
    | None => None
    | Some s =>
      let (h, p) := gappend NUL grow bh (sb_pre b) (gread bh s) in
      Some (h, gh, mksbuild (sb_options b) p None (sb_prest b) (sb_suf b) (sb_scopy b) (sb_srest b) (sb_grp b) (sb_grest b) (sb_wrap b))
    end
  | SPrefix =>
    match sb_pcopy b, sb_prest b with
    | None, c :: cs =>
      let (h, p) := gappend NUL grow bh (sb_pre b) c in
      Some (h, gh, mksbuild (sb_options b) p None cs (sb_suf b) (sb_scopy b) (sb_srest b) (sb_grp b) (sb_grest b) (sb_wrap b))
    | _, _ => None
    end
  | SCopySuffix =>
    match sb_scopy b with
    | None => None
    | Some s =>
      let (h, p) := gappend NUL grow bh (sb_suf b) (gread bh s) in
      Some (h, gh, mksbuild (sb_options b) (sb_pre b) (sb_pcopy b) (sb_prest b) p None (sb_srest b) (sb_grp b) (sb_grest b) (sb_wrap b))
    end
  | SSuffix =>
    match sb_scopy b, sb_srest b with
    | None, c :: cs =>
      let (h, p) := gappend NUL grow bh (sb_suf b) c in
      Some (h, gh, mksbuild (sb_options b) (sb_pre b) (sb_pcopy b) (sb_prest b) p None cs (sb_grp b) (sb_grest b) (sb_wrap b))
    | _, _ => None
    end
  | SGroups =>
    match sb_grest b with
    | [] => None
    | c :: cs =>
      let (h, g) := gappend (nil : bytes) grow gh (sb_grp b) c in
      Some (bh, h, mksbuild (sb_options b) (sb_pre b) (sb_pcopy b) (sb_prest b) (sb_suf b) (sb_scopy b) (sb_srest b) g cs (sb_wrap b))
    end
  | _ => None
  end.

Definition complete (b : sbuild) : bool :=
  match sb_pcopy b, sb_prest b, sb_scopy b, sb_srest b, sb_grest b with
  | None, [], None, [], [] => true
  | _, _, _, _, _ => false
  end.

(** Goroutine [i] takes a step; [None] if it cannot. *)
Definition sstep_by (i : nat) (a : sact) (st : sstate) : option sstate :=
  let t := ss_thr st i in
  match st_at t with
  | SIdle =>
    match a, st_tasks t with
    | SBegin, Make x :: rest =>
      match ss_slot st x, sbegin_at st x with
      | SAbsent, Some b =>
        Some (sset_thr (sset_slot st (ss_bytes st) (ss_names st) x (SBuilding b)) i (mksthr (SMaking x) rest))
      | _, _ => None
      end
    | SStart, Log x d r :: rest =>
      match ss_slot st x with
      | SPublished g =>
        match starget d g r with
        | Some h => Some (sset_thr st i (mksthr (SReading x d r h [] [] []) rest))
        | None => None
        end
      | _ => None
      end
    | _, _ => None
    end
  | SMaking x =>
    match ss_slot st x with
    | SBuilding b =>
      match a with
      | SPublish =>
        if complete b
        then Some (sset_thr (sset_slot st (ss_bytes st) (ss_names st) x (SPublished (sbuilt b))) i (mksthr SIdle (st_tasks t)))
        else None
      | _ =>
        match swrite st a b with
        | None => None
        | Some (bh, gh, b') => Some (sset_slot st bh gh x (SBuilding b'))
        end
      end
    | _ => None
    end
  | SReading x d r h pre suf grp =>
    match a with
    | SReadPrefix =>
      if Nat.ltb (length pre) (sl_len (q_prefix h)) then
        Some (sset_thr st i (mksthr (SReading x d r h
                (pre ++ [nth (length pre) (array (ss_bytes st) (q_prefix h)) NUL]) suf grp) (st_tasks t)))
      else None
    | SReadSuffix =>
      if Nat.ltb (length suf) (sl_len (q_suffix h)) then
        Some (sset_thr st i (mksthr (SReading x d r h pre
                (suf ++ [nth (length suf) (array (ss_bytes st) (q_suffix h)) NUL]) grp) (st_tasks t)))
      else None
    | SReadGroups =>
      if Nat.ltb (length grp) (sl_len (q_groups h)) then
        Some (sset_thr st i (mksthr (SReading x d r h pre suf
                (grp ++ [nth (length grp) (array (ss_names st) (q_groups h)) []])) (st_tasks t)))
      else None
    | SLogged =>
      if Nat.eqb (length pre) (sl_len (q_prefix h)) && Nat.eqb (length suf) (sl_len (q_suffix h)) &&
         Nat.eqb (length grp) (sl_len (q_groups h)) then
        Some (mks (ss_bytes st) (ss_names st) (ss_slot st) (set (ss_thr st) i (mksthr SIdle (st_tasks t)))
               (ss_log st ++ [mkslogged x d r {| sh_options := q_options h; sh_prefix := pre; sh_suffix := suf; sh_groups := grp |}]))
      else None
    | _ => None
    end
  end.

Fixpoint srun (sched : list (nat * sact)) (st : sstate) : option sstate :=
  match sched with
  | [] => Some st
  | (i, a) :: sched' => match sstep_by i a st with None => None | Some st' => srun sched' st' end
  end.

End Machine.

(** In the beginning there is nothing. *)
Definition sstart (T : nat -> list task) : sstate :=
  mks [] [] (fun _ => SAbsent) (fun i => mksthr SIdle (T i)) [].
