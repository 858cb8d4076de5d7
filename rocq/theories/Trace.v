(** Model of handlers/trace/handler.go, and of the methods of slog.Logger through which
    it is called. *)

From Coq Require Import Ascii String List ZArith Bool.
From Verif Require Import Bytes Slog.
Import ListNotations.
Local Open Scope list_scope.

(** Handler: handler.go 17-19; NewHandler: 24-28. *)
Record thandler : Type := { th_indent : bytes }.
Definition trace_new (indent : bytes) : thandler := {| th_indent := indent |}.

Section Trace.
(** slog.Value.String. *)
Variable value_string : value -> bytes.

(** slog.Attr.String, and fmt's %v of a []slog.Attr, which is a list of Stringers. *)
Definition attr_string (a : attr) : bytes := fst a ++ B "=" ++ value_string (snd a).
Fixpoint spaced (l : list bytes) : bytes :=
  match l with [] => [] | [s] => s | s :: l' => s ++ B " " ++ spaced l' end.
Definition attrs_image (l : list attr) : bytes := B "[" ++ spaced (map attr_string l) ++ B "]".

(** show: handler.go 55-57; the argument as %v formats it. *)
Definition tshow (h : thandler) (name : string) (arg : bytes) : bytes :=
  th_indent h ++ B name ++ B "(" ++ arg ++ B ")" ++ [newline].

(** recordImage: handler.go 61-78; the loop over the attributes has its separator as
    state. *)
Fixpoint image_attrs (separator : bytes) (l : list attr) : bytes :=
  match l with [] => [] | a :: l' => separator ++ attr_string a ++ image_attrs (B ", ") l' end.
Definition record_image (r : record) : bytes :=
  level_string (r_level r) ++ B " """ ++ r_msg r ++ B """" ++
  match r_attrs r with [] => [] | l => image_attrs (B " {") l ++ B "}" end.

(** Enabled, Handle, WithAttrs, WithGroup: handler.go 33-51; first what is printed. *)
Definition trace_enabled (h : thandler) (level : Z) : bytes * bool := (tshow h "Enabled" (level_string level), true).
Definition trace_handle (h : thandler) (r : record) : bytes * bool := (tshow h "Handle" (record_image r), true).
Definition trace_with_attrs (h : thandler) (l : list attr) : bytes * thandler :=
  (tshow h "WithAttrs" (attrs_image l), {| th_indent := th_indent h ++ B "  " |}).
Definition trace_with_group (h : thandler) (name : bytes) : bytes * thandler :=
  (tshow h "WithGroup" name, {| th_indent := th_indent h ++ B "  " |}).

(** ** Through slog.Logger *)

(** Logger.With, WithGroup (log/slog/logger.go: without arguments, or with an empty
    name, the logger itself), Enabled and Log with the time and the place of the
    record. *)
Inductive lcall : Type :=
| LWith (attrs : list attr)
| LGroup (name : bytes)
| LEnabled (level : Z)
| LLog (level : Z) (time : gotime) (src : option source) (msg : bytes) (attrs : list attr).

(** What a call on a logger prints, and the logger it returns, if any.  Record.Add leaves
    out empty groups. *)
Definition lcall_run (h : thandler) (c : lcall) : bytes * option thandler :=
  match c with
  | LWith [] => ([], Some h)
  | LWith l => let (out, h') := trace_with_attrs h l in (out, Some h')
  | LGroup [] => ([], Some h)
  | LGroup n => let (out, h') := trace_with_group h n in (out, Some h')
  | LEnabled l => (fst (trace_enabled h l), None)
  | LLog l t src msg attrs =>
      let (out, on) := trace_enabled h l in
      if on then
        (out ++ fst (trace_handle h {| r_time := t; r_level := l; r_msg := msg; r_source := src;
           r_attrs := filter (fun a => match snd a with VGroup [] => false | _ => true end) attrs |}), None)
      else (out, None)
  end.

(** A program: calls on loggers by their number; loggers are numbered as they are made.
    A call on a logger that is not there does nothing. *)
Fixpoint lrun (ls : list thandler) (p : list (nat * lcall)) : bytes :=
  match p with
  | [] => []
  | (i, c) :: p' =>
      match nth_error ls i with
      | None => lrun ls p'
      | Some h => let (out, made) := lcall_run h c in
                  out ++ lrun (match made with Some h' => ls ++ [h'] | None => ls end) p'
      end
  end.
End Trace.
