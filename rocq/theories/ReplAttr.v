(** Model of creator/madkinsreplattr: the flash handler made to misbehave with
    flash.Extras and put right again with ReplaceAttr functions. *)

From Coq Require Import Ascii String List ZArith NArith Bool.
From Verif Require Import Bytes Slog Replace Flash.
Import ListNotations.

(** The Extras of handlerFn: creator/madkinsreplattr/creator.go 48-57. *)
Definition replattr_extras : extras :=
  {| x_time_format := [];
     x_level_names := fun l =>
       if Z.eqb l LevelDebug then B "Debug"
       else if Z.eqb l LevelInfo then B "Info"
       else if Z.eqb l LevelWarn then B "Warn"
       else if Z.eqb l LevelError then B "Error"
       else [];
     x_level_key := B "lvl";
     x_message_key := B "message";
     x_source_key := [];
     x_time_key := [] |}.

(** The functions of handlerFn: creator/madkinsreplattr/creator.go 34-41. *)
Definition replattr_fns (cs : casing) (user : option attr_fn) : list attr_fn :=
  [change_key cs (B "message") MessageKey false (Some top_check);
   change_key cs (B "lvl") LevelKey false (Some top_check);
   change_case cs LevelKey CaseUpper false (Some top_check)]
  ++ match user with None => [] | Some f => [f] end.

(** The options of handlerFn: creator/madkinsreplattr/creator.go 43-47.  (The
    level is passed on; it is not part of [options].) *)
Definition replattr_options (cs : casing) (o : options) : options :=
  {| o_add_source := o_add_source o;
     o_replace := Some (multiple_fns (replattr_fns cs (o_replace o))) |}.

(** Logging through the handler of handlerFn: flash.NewHandler with both. *)
Definition replattr_logs (std : stdlib) (cs : casing) (o : options) : list op -> dead -> record -> outcome -> Prop :=
  logs std (replattr_options cs o) (Some replattr_extras).
