(** Model of package gin: the parser of traffic lines and the writer that turns
    the output of gin into log records. *)

From Coq Require Import Ascii String List ZArith NArith Bool Arith.
From Verif Require Import Bytes GoQuote Slog Regex.
Import ListNotations.

Definition bar : ascii := chr 124.

(** ** gin/parser.go *)

(** ptnCode: gin/parser.go 23. *)
Definition ptnCode : re := rcat [RBol; ws; RGroup 1 digits1; ws; REol].
(** ptnSplit: gin/parser.go 24. *)
Definition ptnSplit : re := ws1.

(** [strconv.ParseInt(s, 10, 64)] for a string of digits. *)
Definition digits_value (s : bytes) : N :=
  fold_left (fun acc c => (acc * 10 + (code c - 48))%N) s 0%N.
Definition max_int64 : N := 9223372036854775807.
Definition parse_int (s : bytes) : option Z :=
  if N.leb (digits_value s) max_int64 then Some (Z.of_N (digits_value s)) else None.

Inductive parsed : Type := POk (attrs : list attr) | PErr (text : bytes).

(** Parse: gin/parser.go 29-59. *)
Definition parse (message : bytes) : parsed :=
  let parts := split_on bar message in
  match parts with
  | [p0; p1; p2; p3] =>
      match find ptnCode p0 with
      | None => PErr (B "parse Code from '" ++ p0 ++ B "'")
      | Some m =>
          match parse_int (sub 1 m) with
          | None => PErr (B "parse int from '" ++ sub 1 m ++ B "': strconv.ParseInt: parsing "
                          ++ quote :: sub 1 m ++ quote :: B ": value out of range")
          | Some num =>
              let result := [(B "code", VInt64 num);
                             (B "elapsed", VString (trim space p1));
                             (B "client", VString (trim space p2))] in
              match re_split ptnSplit (trim space p3) with
              | [method; url] =>
                  POk (result ++ [(B "method", VString method); (B "url", VString (trim quote url))])
              | _ => POk result
              end
          end
      end
  | _ => PErr (B "wrong number of parts: " ++ dec_of_Z (Z.of_nat (length parts)))
  end.

(** ** gin/writer.go *)

(** A [slog.Leveler]: a [slog.Level] or something else, with its [%s] text. *)
Inductive leveler : Type := Lev (l : Z) | OtherLeveler (text : bytes).

(** Traffic: gin/writer.go 36-60. *)
Record traffic : Type := {
  t_parse   : bool;
  t_embed   : bool;
  t_level   : option leveler;
  t_message : bytes;
  t_group   : bytes
}.

(** Options: gin/writer.go 23-30; also the writer of lines 97-99. *)
Record gin_options : Type := { g_level : option leveler; g_traffic : traffic }.

Definition DefaultTrafficGroup : bytes := B "gin".
Definition DefaultTrafficMessage : bytes := B "Gin Traffic".

Definition is_nil (s : bytes) : bool := match s with [] => true | _ => false end.

(** NewWriter: gin/writer.go 72-92. *)
Definition new_writer (o : gin_options) : gin_options :=
  let t := g_traffic o in
  {| g_level := match g_level o with None => Some (Lev LevelInfo) | l => l end;
     g_traffic :=
       if t_parse t then
         {| t_parse := true; t_embed := t_embed t;
            t_level := match t_level t with None => Some (Lev LevelInfo) | l => l end;
            t_message := if is_nil (t_message t) then DefaultTrafficMessage else t_message t;
            t_group := if is_nil (t_group t) && negb (t_embed t) then DefaultTrafficGroup
                       else t_group t |}
       else t |}.

(** logLevels: gin/writer.go 102-107. *)
Definition log_levels : list (bytes * Z) :=
  [(B "DEBUG", LevelDebug); (B "ERROR", LevelError); (B "INFO", LevelInfo); (B "WARNING", LevelWarn)].
Fixpoint level_named (name : bytes) (l : list (bytes * Z)) : option Z :=
  match l with
  | [] => None
  | (n, z) :: l' => if beq n name then Some z else level_named name l'
  end.

(** The patterns: gin/writer.go 108-111. *)
Definition ptnGIN : re := rcat [RBol; ws; lit "[GIN]"; ws].
Definition ptnGINdebug : re := rcat [RBol; ws; lit "[GIN-debug]"; ws].
Definition ptnLogLevel : re :=
  rcat [RBol; ws; lit "[";
        RGroup 1 (RAlt (lit "DEBUG") (RAlt (lit "ERROR") (RAlt (lit "INFO")
                  (RAlt (lit "WARNING") (rstar (RChr is_dot))))));
        lit "]"; ws].
Definition ptnTimePrefix : re :=
  rcat [RBol; ws; digits1; lit "/"; digits1; lit "/"; digits1; ws; lit "-"; ws;
        digits1; lit ":"; digits1; lit ":"; digits1; ws; lit "|"; ws;
        RGroup 1 (rplus (RChr is_dot)); REol].

(** The loop that removes prefixes: gin/writer.go 121-137.  [inl]: error text. *)
Fixpoint strip (n : nat) (level : option leveler) (msg : bytes) : bytes + (option leveler * bytes) :=
  match n with
  | O => inr (level, msg)
  | S n' =>
      match find ptnGIN msg with
      | Some m => strip n' level (skipn (length (f_text m)) msg)
      | None =>
      match find ptnGINdebug msg with
      | Some m => strip n' (Some (Lev LevelDebug)) (skipn (length (f_text m)) msg)
      | None =>
      match find ptnLogLevel msg with
      | Some m =>
          match level_named (sub 1 m) log_levels with
          | None => inl (B "no level " ++ sub 1 m)
          | Some z => strip n' (Some (Lev z)) (skipn (length (f_text m)) msg)
          end
      | None => inr (level, msg)
      end end end
  end.

(** A call of a function of package slog on the default logger. *)
Record emitted : Type := { e_level : Z; e_msg : bytes; e_args : list attr }.

(** An error value as an attribute. *)
Definition error_value (text : bytes) : value :=
  VAny (AnyObj {| ao_net := None; ao_stringer := None; ao_error := Some text;
                  ao_jsonm := None; ao_textm := None; ao_marshal := MOk (B "{}") |}).

(** What Write returns and the records it sends. *)
Record written : Type := { w_records : list emitted; w_count : nat; w_error : option bytes }.

Definition leveler_text (l : option leveler) : bytes :=
  match l with
  | Some (Lev z) => level_string z
  | Some (OtherLeveler t) => t
  | None => B "%!s(<nil>)"
  end.

(** The switch at the end of Write: gin/writer.go 165-177. *)
Definition send (level : option leveler) : option Z :=
  match level with
  | Some (Lev z) =>
      if Z.eqb z LevelDebug || Z.eqb z LevelError || Z.eqb z LevelInfo || Z.eqb z LevelWarn
      then Some z else None
  | _ => None
  end.

(** Write: gin/writer.go 118-180. *)
Definition gin_write (w : gin_options) (p : bytes) : written :=
  match strip 10 (g_level w) (trim_right newline p) with
  | inl err => {| w_records := []; w_count := 0; w_error := Some err |}
  | inr (level, msg) =>
      let msg := match find ptnTimePrefix msg with Some m => sub 1 m | None => msg end in
      let t := g_traffic w in
      let '(notes, level, msg, args) :=
        if t_parse t then
          match parse msg with
          | PErr err => ([{| e_level := LevelDebug; e_msg := B "gin traffic parse";
                             e_args := [(B "err", error_value err)] |}], level, msg, [])
          | POk args =>
              ([], Some (Lev LevelInfo), t_message t,
               if t_embed t then args else [(t_group t, VGroup args)])
          end
        else ([], level, msg, []) in
      match send level with
      | Some z => {| w_records := notes ++ [{| e_level := z; e_msg := msg; e_args := args |}];
                     w_count := length p; w_error := None |}
      | None => {| w_records := notes; w_count := 0;
                   w_error := Some (B "unknown log level " ++ leveler_text (g_level w)) |}
      end
  end.
