(** Model of concurrent flash Handle calls: pools, composers, the mutex and the
    writer, as a small-step machine. *)

From Coq Require Import Ascii String List ZArith NArith Bool Arith.
From Verif Require Import Bytes Slog Flash Slices FlashHeap.
Import ListNotations.

(** ** What a Handle call appends

    [compose] of Flash.v for any kind of buffer (handler.go 52-127): the same text,
    with the buffer type abstract. *)

Section Generic.
Variable Buf : Type.
Variable app : Buf -> bytes -> Buf.
Variable std : stdlib.

Definition gbasic_attr (fuel : nat) (c : composer Buf)
    (direct : composer Buf -> composer Buf * bool) (a : attr) : option (composer Buf * bool) :=
  match c_replace c with
  | None => Some (direct (add_key app (add_separator app c) (fst a)))
  | Some _ => add_attribute app std fuel c a
  end.

Definition gandthen (m : option (composer Buf * bool))
    (k : composer Buf -> option (composer Buf * bool)) : option (composer Buf * bool) :=
  match m with
  | Some (c, true) => k c
  | r => r
  end.

Definition ghandle_time (fuel : nat) (h : handler) (r : record) (c : composer Buf) :=
  if t_zero (r_time r) then Some (c, true)
  else gbasic_attr fuel c (fun c => (add_time app c (r_time r), true))
         (x_time_key (h_extras h), VTime (r_time r)).

Definition ghandle_level (fuel : nat) (h : handler) (r : record) (c : composer Buf) :=
  let text := x_level_names (h_extras h) (r_level r) in
  gbasic_attr fuel c (fun c => (add_string app c text, true))
    (x_level_key (h_extras h), VString text).

Definition ghandle_message (fuel : nat) (h : handler) (r : record) (c : composer Buf) :=
  gbasic_attr fuel c (fun c => (add_string app c (r_msg r), true))
    (x_message_key (h_extras h), VString (r_msg r)).

Definition ghandle_source (fuel : nat) (h : handler) (r : record) (c : composer Buf) :=
  match o_add_source (h_options h), r_source r with
  | true, Some src =>
      let o := plain_obs (sl_source_struct std src) in
      gbasic_attr fuel c (fun c => add_any app c o)
        (x_source_key (h_extras h), VAny (AnyObj o))
  | _, _ => Some (c, true)
  end.

Definition ghandle_prefix (h : handler) (c : composer Buf) : composer Buf :=
  match h_prefix h with
  | [] => c
  | _ :: _ =>
    let c := add_bytes app (add_separator app c) (h_prefix h) in
    if ends_with (chr 123) (h_prefix h) then reset c else c
  end.

Definition gcompose (fuel : nat) (h : handler) (r : record) (b : Buf) : option (composer Buf * bool) :=
  let c := new_composer b false (o_replace (h_options h)) (h_groups h) (h_extras h) in
  let c := add_bytes app c (B "{") in
  gandthen (ghandle_time fuel h r c) (fun c =>
  gandthen (ghandle_level fuel h r c) (fun c =>
  gandthen (ghandle_message fuel h r c) (fun c =>
  gandthen (ghandle_source fuel h r c) (fun c =>
  let c := ghandle_prefix h c in
  gandthen (add_attributes app std fuel c (r_attrs r)) (fun c =>
  let c := match h_suffix h with [] => c | _ => add_bytes app c (h_suffix h) end in
  Some (add_bytes app c [chr 125; newline], true)))))).

End Generic.

(** ** The machine *)

(** A call of Handle: which mutex and writer it uses (handlers derived from one
    handler share them), the appends its composer makes, and whether composing
    succeeds. *)
Record call : Type := { k_sink : nat; k_chunks : list bytes; k_ok : bool }.

(** The call that Handle on [h] amounts to. *)
Definition call_of (std : stdlib) (fuel : nat) (q : nat) (h : handler) (r : record) : option call :=
  match gcompose _ (fun l x => l ++ [x]) std fuel h r [] with
  | None => None
  | Some (c, ok) => Some {| k_sink := q; k_chunks := c_buffer c; k_ok := ok |}
  end.

(** Handle on a handler or group, group.go 23-53; [None] also when it panics. *)
Fixpoint call_hdl (std : stdlib) (fuel : nat) (q : nat) (d : dead) (g : hdl) (r : record) : option call :=
  match g with
  | HBase h => call_of std fuel q h r
  | HGroup h name parent =>
    match d with
    | DeadOther => None
    | _ =>
      let deadname := match d with DeadName s => s | _ => [] end in
      let delegate :=
        match first_attr (r_attrs r) with
        | None => true
        | Some (k, v) =>
          negb (beq deadname []) && beq k deadname &&
          match v with VGroup _ => true | _ => false end
        end in
      if delegate then call_hdl std fuel q (DeadName name) parent r
      else call_of std fuel q h r
    end
  end.

(** Where a goroutine is in Handle (handler.go 52-136).  [b] is the buffer taken
    from the pool, [k] the address of the composer. *)
Inductive phase : Type :=
| Idle
| Got (c : call) (b : gslice)                                  (* after line 55 *)
| Composing (c : call) (b : gslice) (k : nat)                  (* 58-127 *)
| Writing (c : call) (b : gslice) (k : nat) (s : gslice) (m : nat)  (* within Write, 131: m bytes taken from s *)
| Wrote (c : call) (b : gslice) (k : nat)                      (* after Write, mutex held *)
| Reusing (c : call) (b : gslice) (k : nat)                    (* before the deferred reuseComposer *)
| Putting (c : call) (b : gslice).                             (* before the deferred logPool.put *)

Record thread : Type := { t_phase : phase; t_todo : list call }.

(** A composer object: its buffer, and what it is still going to append (which
    its other fields and the record determine). *)
Record cell : Type := { k_buffer : gslice; k_rest : list bytes }.

Record state : Type := mkst {
  s_heap  : heap ascii;
  s_bpool : list gslice;          (* logPool *)
  s_cells : nat -> cell;          (* composers by address *)
  s_next  : nat;                  (* addresses below are allocated *)
  s_cpool : list nat;             (* composerPool *)
  s_lock  : nat -> option nat;    (* who holds which mutex *)
  s_out   : nat -> bytes;         (* what the writers have consumed *)
  s_thr   : nat -> thread
}.

Definition upd {A} (f : nat -> A) (i : nat) (x : A) : nat -> A :=
  fun j => if Nat.eqb j i then x else f j.

(** lenLog, handler.go 15. *)
Definition lenLog := 1024.

(** [s[:0]]. *)
Definition reset_len (s : gslice) : gslice := {| sl_arr := sl_arr s; sl_len := 0; sl_cap := sl_cap s |}.

Definition at_phase (p : phase) (todo : list call) : thread := {| t_phase := p; t_todo := todo |}.

Section Machine.
Variable grow : policy.
Variable fails : bool.   (* may a Write fail, having taken only part? *)

(** Steps, labelled with the goroutine that makes them; [None] is the garbage
    collector. *)
Inductive cstep : option nat -> state -> state -> Prop :=
(* buffer := logPool.get()[:0], line 55; pools.go 60-62 *)
| get_pooled i c todo l1 b l2 h cs nx cp lk o th :
    th i = at_phase Idle (c :: todo) ->
    cstep (Some i) (mkst h (l1 ++ b :: l2) cs nx cp lk o th)
          (mkst h (l1 ++ l2) cs nx cp lk o (upd th i (at_phase (Got c (reset_len b)) todo)))
| get_new i c todo h h' b bp cs nx cp lk o th :
    th i = at_phase Idle (c :: todo) -> gmake NUL h lenLog = (h', b) ->
    cstep (Some i) (mkst h bp cs nx cp lk o th)
          (mkst h' bp cs nx cp lk o (upd th i (at_phase (Got c (reset_len b)) todo)))
(* newComposer, line 58; composer.go 28-41 *)
| comp_pooled i c b todo h bp cs nx l1 k l2 lk o th :
    th i = at_phase (Got c b) todo ->
    cstep (Some i) (mkst h bp cs nx (l1 ++ k :: l2) lk o th)
          (mkst h bp (upd cs k {| k_buffer := b; k_rest := k_chunks c |}) nx (l1 ++ l2) lk o
             (upd th i (at_phase (Composing c b k) todo)))
| comp_new i c b todo h bp cs nx cp lk o th :
    th i = at_phase (Got c b) todo ->
    cstep (Some i) (mkst h bp cs nx cp lk o th)
          (mkst h bp (upd cs nx {| k_buffer := b; k_rest := k_chunks c |}) (S nx) cp lk o
             (upd th i (at_phase (Composing c b nx) todo)))
(* c.buffer = append(c.buffer, x...), composer.go *)
| append i c b k todo h h' s x xs bp cs nx cp lk o th :
    th i = at_phase (Composing c b k) todo -> k_rest (cs k) = x :: xs ->
    gappend NUL grow h (k_buffer (cs k)) x = (h', s) ->
    cstep (Some i) (mkst h bp cs nx cp lk o th)
          (mkst h' bp (upd cs k {| k_buffer := s; k_rest := xs |}) nx cp lk o th)
(* an error while composing *)
| fail i c b k todo h bp cs nx cp lk o th :
    th i = at_phase (Composing c b k) todo -> k_rest (cs k) = [] -> k_ok c = false ->
    cstep (Some i) (mkst h bp cs nx cp lk o th)
          (mkst h bp cs nx cp lk o (upd th i (at_phase (Reusing c b k) todo)))
(* h.mutex.Lock(), line 129, and the argument of Write *)
| lock i c b k todo h bp cs nx cp lk o th :
    th i = at_phase (Composing c b k) todo -> k_rest (cs k) = [] -> k_ok c = true ->
    lk (k_sink c) = None ->
    cstep (Some i) (mkst h bp cs nx cp lk o th)
          (mkst h bp cs nx cp (upd lk (k_sink c) (Some i)) o
             (upd th i (at_phase (Writing c b k (k_buffer (cs k)) 0) todo)))
(* the writer takes a byte *)
| write i c b k s m todo h bp cs nx cp lk o th :
    th i = at_phase (Writing c b k s m) todo -> m < sl_len s ->
    cstep (Some i) (mkst h bp cs nx cp lk o th)
          (mkst h bp cs nx cp lk
             (upd o (k_sink c) (o (k_sink c) ++ [nth m (array h s) NUL]))
             (upd th i (at_phase (Writing c b k s (S m)) todo)))
| written i c b k s m todo h bp cs nx cp lk o th :
    th i = at_phase (Writing c b k s m) todo -> m = sl_len s \/ fails = true ->
    cstep (Some i) (mkst h bp cs nx cp lk o th)
          (mkst h bp cs nx cp lk o (upd th i (at_phase (Wrote c b k) todo)))
(* deferred calls, last first: Unlock, reuseComposer, put *)
| unlock i c b k todo h bp cs nx cp lk o th :
    th i = at_phase (Wrote c b k) todo ->
    cstep (Some i) (mkst h bp cs nx cp lk o th)
          (mkst h bp cs nx cp (upd lk (k_sink c) None) o (upd th i (at_phase (Reusing c b k) todo)))
| reuse i c b k todo h bp cs nx cp lk o th :
    th i = at_phase (Reusing c b k) todo ->
    cstep (Some i) (mkst h bp cs nx cp lk o th)
          (mkst h bp cs nx (k :: cp) lk o (upd th i (at_phase (Putting c b) todo)))
| put i c b todo h bp cs nx cp lk o th :
    th i = at_phase (Putting c b) todo ->
    cstep (Some i) (mkst h bp cs nx cp lk o th)
          (mkst h (b :: bp) cs nx cp lk o (upd th i (at_phase Idle todo)))
(* sync.Pool forgets *)
| drop_buffer l1 b l2 h cs nx cp lk o th :
    cstep None (mkst h (l1 ++ b :: l2) cs nx cp lk o th) (mkst h (l1 ++ l2) cs nx cp lk o th)
| drop_composer l1 k l2 h bp cs nx lk o th :
    cstep None (mkst h bp cs nx (l1 ++ k :: l2) lk o th) (mkst h bp cs nx (l1 ++ l2) lk o th).

Inductive reaches_state (st0 : state) : state -> Prop :=
| at_start : reaches_state st0 st0
| one_more st st' a : reaches_state st0 st -> cstep a st st' -> reaches_state st0 st'.

End Machine.

(** At the start goroutine [i] has the calls [T i] ahead of it. *)
Definition start (T : nat -> list call) : state :=
  mkst [] [] (fun _ => {| k_buffer := nil_slice; k_rest := [] |}) 0 [] (fun _ => None) (fun _ => [])
    (fun i => at_phase Idle (T i)).

Definition finished (st : state) : Prop := forall i, s_thr st i = at_phase Idle [].
