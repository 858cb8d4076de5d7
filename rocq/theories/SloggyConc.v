(** Model of concurrent sloggy Handle calls: every chunk is a Write of its own,
    and the mutex is held only around the last one. *)

From Coq Require Import Ascii String List ZArith NArith Bool Arith.
From Verif Require Import Bytes Slog Sloggy FlashConc.
Import ListNotations.

(** A call of Handle: its writes, and whether composing succeeds; the last write
    of a successful call is the newline (handlers/sloggy/handler.go 41-106). *)
Record scall : Type := { sk_chunks : list bytes; sk_ok : bool }.

Inductive sphase : Type :=
| SIdle
| SRun (c : scall) (rest : list bytes)    (* lines 42-96, [rest] still to be written *)
| SLast (c : scall) (x : bytes)           (* mutex held, before the newline, 98-101 *)
| SWrote (c : scall).                     (* before the deferred Unlock *)

Record sthread : Type := { st_phase : sphase; st_todo : list scall }.

Definition sat_phase (p : sphase) (todo : list scall) : sthread := {| st_phase := p; st_todo := todo |}.

Record sstate : Type := mksst {
  ss_lock : option nat;
  ss_out  : bytes;
  ss_thr  : nat -> sthread
}.

Section Machine.
(** Do calls only begin when no other call is under way? *)
Variable serial : bool.

Inductive scstep : nat -> sstate -> sstate -> Prop :=
| sc_begin i c todo lk o th :
    th i = sat_phase SIdle (c :: todo) ->
    (serial = true -> forall j, st_phase (th j) = SIdle) ->
    scstep i (mksst lk o th) (mksst lk o (upd th i (sat_phase (SRun c (sk_chunks c)) todo)))
| sc_write i c x rest todo lk o th :
    th i = sat_phase (SRun c (x :: rest)) todo -> rest <> [] \/ sk_ok c = false ->
    scstep i (mksst lk o th) (mksst lk (o ++ x) (upd th i (sat_phase (SRun c rest) todo)))
| sc_fail i c todo lk o th :
    th i = sat_phase (SRun c []) todo ->
    scstep i (mksst lk o th) (mksst lk o (upd th i (sat_phase SIdle todo)))
| sc_lock i c x todo o th :
    th i = sat_phase (SRun c [x]) todo -> sk_ok c = true ->
    scstep i (mksst None o th) (mksst (Some i) o (upd th i (sat_phase (SLast c x) todo)))
| sc_last i c x todo lk o th :
    th i = sat_phase (SLast c x) todo ->
    scstep i (mksst lk o th) (mksst lk (o ++ x) (upd th i (sat_phase (SWrote c) todo)))
| sc_unlock i c todo lk o th :
    th i = sat_phase (SWrote c) todo ->
    scstep i (mksst lk o th) (mksst None o (upd th i (sat_phase SIdle todo))).

Inductive sreaches (st0 : sstate) : sstate -> Prop :=
| s_at_start : sreaches st0 st0
| s_one_more st st' i : sreaches st0 st -> scstep i st st' -> sreaches st0 st'.

End Machine.

Definition sstart (T : nat -> list scall) : sstate :=
  mksst None [] (fun i => sat_phase SIdle (T i)).

Definition sfinished (st : sstate) : Prop := forall i, ss_thr st i = sat_phase SIdle [].
