(** Model of infra/creator.go as far as names, summaries and links are concerned,
    of what a verification suite prints of them (verify/tests/suite.go 40-51), and
    of the methods of internal/data/warnings.go that return them. *)

From Coq Require Import Ascii String List NArith Bool Permutation.
From Verif Require Import Bytes GoSort Regex Warnings WarnParser.
Import ListNotations.
Local Open Scope list_scope.

(** Creator: infra/creator.go 29-35, without the functions.  A nil map of links is
    an empty one. *)
Record creator : Type := { cr_name : bytes; cr_summary : bytes; cr_links : gomap bytes }.

(** HasSummary: creator.go 98-100. *)
Definition has_summary (c : creator) : bool := match cr_summary c with [] => false | _ => true end.

(** The lines of SetupSuite, suite.go 42-49; the order of the links is that of the
    loop over the map. *)
Definition intro_head (c : creator) : bytes := B ":[ " ++ cr_name c ++ [newline].
Definition intro_lines (c : creator) : bytes :=
  concat (map (fun l => B ":: " ++ l ++ [newline]) (split_on newline (cr_summary c))).
Definition intro_links (order : list (bytes * bytes)) : bytes :=
  concat (map (fun x => B ":> " ++ fst x ++ B " --> " ++ snd x ++ [newline]) order).

(** SetupSuite: suite.go 40-51; [out] is what it prints. *)
Definition setup_suite (c : creator) (out : bytes) : Prop :=
  if has_summary c then
    exists order, Permutation order (cr_links c) /\
      out = intro_head c ++ intro_lines c ++ intro_links order ++ B ":]" ++ [newline]
  else out = [].

(** HasHandlerSummary: warnings.go 70-75. *)
Definition has_handler_summary (w : wdata) (h : bytes) : bool :=
  match get h (handler_data w) with
  | Some d => match hd_summary d with [] => false | _ => true end
  | None => false
  end.

(** The text that HandlerSummaryHTML renders: warnings.go 79-85. *)
Definition handler_summary (w : wdata) (h : bytes) : bytes :=
  match get h (handler_data w) with Some d => hd_summary d | None => [] end.

(** HasHandlerLinks and HandlerLinks: warnings.go 88-102. *)
Definition has_handler_links (w : wdata) (h : bytes) : bool :=
  match get h (handler_data w) with
  | Some d => match hd_links d with [] => false | _ => true end
  | None => false
  end.
Definition handler_links (w : wdata) (h : bytes) : gomap bytes :=
  match get h (handler_data w) with Some d => hd_links d | None => [] end.
