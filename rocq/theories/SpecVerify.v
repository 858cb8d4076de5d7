(** Specification for the verification suite: what a right handler writes for each
    call to a logger that the tests make.  A line is described by its members, in
    order, each with the value that a reader of the line gets. *)

From Coq Require Import Ascii String List ZArith NArith Bool Arith QArith Qcanon.
From Verif Require Import Bytes GoSort Json Slog Replace PropReplace Warnings FieldGrammar BenchChecks SpecChecks Complex VerifyChecks VerifyTests TextProofs.
Import ListNotations.
Local Open Scope nat_scope.
Local Open Scope list_scope.

(** A call of Handle: the context, the options the handler was made with, how it
    was derived, the record. *)
Record call : Type := { k_cancelled : bool; k_options : options; k_ops : list op; k_record : Slog.record }.

(** A member of a line: its name, its JSON value, the value read from it. *)
Definition item : Type := bytes * json * dyn.
Definition members (l : list item) : fields := map fst l.
Definition names (l : list item) : list bytes := map (fun i => fst (fst i)) l.
(** The map that is read from a line: of members with one name the last counts. *)
Definition contents (l : list item) : dmap := fold_left (fun m i => put (fst (fst i)) (snd i) m) l [].

Section Calls.
Variable W : surroundings.

Definition i_text (k : string) (s : bytes) : item := (B k, JStr s, DStr s).
Definition i_str (k s : string) : item := i_text k (B s).
Definition i_int (k : string) (z : Z) : item := (B k, JNum (dec_of_Z z), DNum (Q2Qc (inject_Z z))).
Definition i_float (k : string) (t : bytes) : item := (B k, JNum t, DNum (z_float W t)).
Definition i_group (k : string) (l : list item) : item := (B k, JObj (members l), DMap (contents l)).

(** The built-in fields, with this text for the time. *)
Definition header (tx : bytes) (level : string) : list item :=
  [i_text "time" tx; i_str "level" level; i_text "msg" test_message].
(** The place of a call: its members as in the type slog.Source or sorted. *)
Definition source_group (s : source) (i : item) : Prop :=
  i = i_group "source" [i_text "function" (src_function s); i_text "file" (src_file s); i_int "line" (src_line s)] \/
  i = i_group "source" [i_text "file" (src_file s); i_text "function" (src_function s); i_int "line" (src_line s)].

Definition first := i_str "first" "one".
Definition pi := i_float "pi" pi_text.

(** *** Calls without options: the derivation, the attributes (log/slog leaves out
    empty groups), the members after the built-in fields *)
Inductive plain_call : list op -> list attr -> list item -> Prop :=
| p_none : plain_call [] [] []
(* slogtest.go 54-157: attributes, the empty one being ignored and an empty name not *)
| p_attributes : plain_call [] [a_str "first" "one"; a_int "second" 2; a_pi] [first; i_int "second" 2; pi]
| p_empty : plain_call [] [a_str "first" "one"; a_nil ""; a_pi] [first; pi]
| p_not_empty : plain_call [] [a_str "first" "one"; a_str "" not_nil; a_pi] [first; i_str "" not_nil; pi]
| p_with : plain_call [WithAttrs [a_str "first" "one"; a_int "second" 2]] [a_pi] [first; i_int "second" 2; pi]
| p_with_empty : plain_call [WithAttrs [a_str "first" "one"; a_int "second" 2; a_nil ""]] [a_pi] [first; i_int "second" 2; pi]
| p_with_not_empty : plain_call [WithAttrs [a_str "first" "one"; a_int "second" 2; a_str "" not_nil]] [a_pi]
    [first; i_int "second" 2; i_str "" not_nil; pi]
(* slogtest.go 161-405: groups, the empty ones being ignored *)
| p_group : plain_call [] [a_str "first" "one"; a_group "group" [a_int "second" 2; a_str "third" "3"; a_str "fourth" "forth"]; a_pi]
    [first; i_group "group" [i_int "second" 2; i_str "third" "3"; i_str "fourth" "forth"]; pi]
| p_with_group_empty : plain_call [WithGroup (B "group1"); WithGroup (B "group2")] [] []
| p_inline : plain_call [] [a_str "first" "one"; a_group "" [a_int "second" 2; a_str "third" "3"; a_str "fourth" "forth"]; a_pi]
    [first; i_int "second" 2; i_str "third" "3"; i_str "fourth" "forth"; pi]
| p_flat : plain_call [] [a_str "first" "one"; a_int "second" 2; a_str "third" "3"; a_str "fourth" "forth"; a_pi]
    [first; i_int "second" 2; i_str "third" "3"; i_str "fourth" "forth"; pi]
| p_group_with : plain_call [WithGroup (B "group")] [a_str "first" "one"; a_pi] [i_group "group" [first; pi]]
| p_multi : plain_call
    [WithAttrs [a_str "first" "one"]; WithGroup (B "group"); WithAttrs [a_int "second" 2; a_str "third" "3"]; WithGroup (B "subGroup")]
    [a_str "fourth" "forth"; a_pi]
    [first; i_group "group" [i_int "second" 2; i_str "third" "3"; i_group "subGroup" [i_str "fourth" "forth"; pi]]]
| p_multi_sub_empty : plain_call
    [WithAttrs [a_str "first" "one"]; WithGroup (B "group"); WithAttrs [a_int "second" 2; a_str "third" "3"]; WithGroup (B "subGroup")]
    [] [first; i_group "group" [i_int "second" 2; i_str "third" "3"]]
(* slogtest.go 422-477: LogValuers *)
| p_resolve_group : plain_call [] [a_group "group" [a_pi; a_hidden "value"]] [i_group "group" [pi; i_str "hidden" "value"]]
| p_resolve_group_with : plain_call [WithAttrs [a_group "group" [a_pi; a_hidden "value"]]] []
    [i_group "group" [pi; i_str "hidden" "value"]]
| p_resolve_with : plain_call [WithAttrs [a_hidden "value"]] [] [i_str "hidden" "value"]
| p_resolve : plain_call [] [a_hidden "something"] [i_str "hidden" "something"]
(* slogtest.go 545-651: empty names, nil values *)
| p_empty_name : plain_call [] [a_str "first" "one"; a_int "" 2; a_pi] [first; i_int "" 2; pi]
| p_nil : plain_call [] [a_str "first" "one"; a_nil "second"; a_pi] [first; (B "second", JNull, DNull); pi]
| p_attr_with_empty : plain_call [WithAttrs [a_nil ""]] [a_str "first" "one"; a_pi] [first; pi]
| p_attr_with_empty_name : plain_call [WithAttrs [a_int "" 2]] [a_str "first" "one"; a_pi] [i_int "" 2; first; pi]
| p_with_nil : plain_call [WithAttrs [a_nil "second"]] [a_str "first" "one"; a_pi] [(B "second", JNull, DNull); first; pi]
(* duplicate.go: every attribute is logged *)
| p_duplicate : plain_call []
    [a_str "alpha" "one"; a_int "alpha" 2; a_str "bravo" "hurrah"; a_str "charlie" "brown"; a_int "charlie" 3; a_float "charlie" (B "23.79")]
    [i_str "alpha" "one"; i_int "alpha" 2; i_str "bravo" "hurrah"; i_str "charlie" "brown"; i_int "charlie" 3; i_float "charlie" (B "23.79")]
| p_with_duplicate : plain_call
    [WithAttrs [a_str "alpha" "one"; a_str "bravo" "hurrah"; a_str "charlie" "brown"; a_str "charlie" "jones"]]
    [a_int "alpha" 2; a_float "charlie" (B "23.7")]
    [i_str "alpha" "one"; i_str "bravo" "hurrah"; i_str "charlie" "brown"; i_str "charlie" "jones"; i_int "alpha" 2; i_float "charlie" (B "23.7")]
(* documented.go 106-137, 207-290 *)
| p_alpha : plain_call [WithAttrs [a_str "alpha" "omega"]] [] [i_str "alpha" "omega"]
| p_kinds : plain_call []
    [(B "when", VTime (z_when W)); (B "howLong", VDuration 60000000000); a_str "goober" "snoofus"; (B "boolean", VBool true);
     a_pi; a_int "skidoo" 23; a_int "minus" (-64); (B "unsigned", VUint64 79); a_json "any" "[""alpha"",""omega""]"]
    [i_text "when" (t_format (z_when W) RFC3339Nano); i_int "howLong" 60000000000; i_str "goober" "snoofus"; (B "boolean", JBool true, DBool true);
     pi; i_int "skidoo" 23; i_int "minus" (-64); i_int "unsigned" 79;
     (B "any", JArr [JStr (B "alpha"); JStr (B "omega")], DArr [DStr (B "alpha"); DStr (B "omega")])]
(* other.go *)
| p_any_map : plain_call [] [a_json "any" "{""John"":""Doe""}"] [i_group "any" [i_str "John" "Doe"]]
| p_duration : plain_call [WithAttrs [(B "outer", VDuration 29002000000000)]; WithGroup (B "group")] [(B "inner", VDuration 29002000000000)]
    [i_int "outer" 29002000000000; i_group "group" [i_int "inner" 29002000000000]]
| p_with_top : plain_call [WithGroup (B "group"); WithAttrs [a_str "key" "value"]] [] [i_group "group" [i_str "key" "value"]]
| p_escape x : In x escape_cases ->
    plain_call [] [(B "esc", VString (fst x)); (B "exp", VString (snd x))] [i_text "esc" (fst x); i_text "exp" (snd x)]
(* replace.go 276-317 *)
| p_garbage : plain_call [] [a_str "" "garbage"] [i_str "" "garbage"].

(** *** Calls with a ReplaceAttr function: the function, the derivation, the
    attributes, all members given the text of the time *)
Inductive replaced_call : attr_fn -> list op -> list attr -> (bytes -> list item) -> Prop :=
| r_simple : replaced_call (replace_simple W) [] [a_str "alpha" "beta"; a_str "change" "my key"; a_str "remove" "me"]
    (fun tx => header tx "INFO" ++ [i_str "alpha" "omega"; i_str "bravo" "my key"])
| r_groups : replaced_call replace_groups
    [WithAttrs [a_int "alpha" 1; a_int "bravo" 2]; WithGroup (B "group"); WithAttrs [a_int "charlie" 3; a_int "delta" 4];
     WithGroup (B "subGroup"); WithAttrs [a_int "echo" 5; a_int "foxtrot" 6]]
    [a_int "golf" 7; a_int "hotel" 8]
    (fun tx => header tx "INFO" ++
       [i_float "alpha" pi_text;
        i_group "group" [i_float "charlie" e_text; i_group "subGroup" [i_float "echo" sqrt_pi_text; i_float "foxtrot" sqrt_e_text]]])
| r_lower : replaced_call (change_case (cs W) (B "level") CaseLower false (Some top_check)) [] [] (fun tx => header tx "info")
| r_remove_empty : replaced_call (remove_key (cs W) [] false (Some top_check)) [] [a_nil ""] (fun tx => header tx "INFO")
| r_multi : replaced_call (replace_multi W)
    [WithGroup (B "group"); WithAttrs [a_str "alpha" "omega"; a_pi];
     WithGroup (B "subGroup"); WithAttrs [a_str "alpha" "omega"; a_str "goober" "snoofus"; a_float "e" e_text];
     WithGroup (B "oneMore"); WithAttrs [a_str "alpha" "omega"; a_str "gibbering" "lunatic"; a_float "phi" phi_text]] []
    (fun _ => [i_str "level" "INFO"; i_text "msg" test_message;
       i_group "group" [i_str "alpha" "OMEGA"; pi;
         i_group "subGroup" [i_str "la la la" "omega"; i_str "goober" "snoofus"; i_float "e" e_text;
           i_group "oneMore" [i_str "alpha" "omega"; i_str "gibbering" "moontic"; i_float "phi" phi_text]]]])
| r_remove_time : replaced_call (remove_key (cs W) TimeKey false (Some top_check)) [] []
    (fun _ => [i_str "level" "INFO"; i_text "msg" test_message]).

Definition plain_options : options := {| o_add_source := false; o_replace := None |}.
Definition with_source : options := {| o_add_source := true; o_replace := None |}.
Definition record_at (n : nat) (level : Z) (attrs : list attr) : Slog.record :=
  {| Slog.r_time := fst (z_now W n); Slog.r_level := level; Slog.r_msg := test_message;
     Slog.r_source := Some (snd (z_now W n)); Slog.r_attrs := attrs |}.

(** *** All calls: the members given the text of the time and the member for the
    place of the call *)
Inductive expected : call -> (bytes -> item -> list item) -> Prop :=
| x_plain cancelled n ops attrs l : plain_call ops attrs l ->
    expected {| k_cancelled := cancelled; k_options := plain_options; k_ops := ops; k_record := record_at n LevelInfo attrs |}
      (fun tx _ => header tx "INFO" ++ l)
| x_debug n : expected {| k_cancelled := false; k_options := plain_options; k_ops := []; k_record := record_at n LevelDebug [] |}
    (fun tx _ => header tx "DEBUG")
| x_warn n : expected {| k_cancelled := false; k_options := plain_options; k_ops := []; k_record := record_at n LevelWarn [] |}
    (fun tx _ => header tx "WARN")
| x_error n : expected {| k_cancelled := false; k_options := plain_options; k_ops := []; k_record := record_at n LevelError [] |}
    (fun tx _ => header tx "ERROR")
| x_no_source : expected {| k_cancelled := false; k_options := with_source; k_ops := []; k_record := new_record (z_when W) None |}
    (fun tx _ => header tx "INFO")
| x_zero_time : expected {| k_cancelled := false; k_options := plain_options; k_ops := []; k_record := new_record (zero_time_value W) None |}
    (fun _ _ => [i_str "level" "INFO"; i_text "msg" test_message])
| x_source n : expected {| k_cancelled := false; k_options := with_source; k_ops := []; k_record := record_at n LevelInfo [] |}
    (fun tx src => header tx "INFO" ++ [src])
| x_replaced n fn ops attrs f : replaced_call fn ops attrs f ->
    expected {| k_cancelled := false; k_options := {| o_add_source := false; o_replace := Some fn |}; k_ops := ops;
                k_record := record_at n LevelInfo attrs |} (fun tx _ => f tx)
| x_replaced_basic n :
    expected {| k_cancelled := false; k_options := {| o_add_source := true; o_replace := Some (replace_basic W) |}; k_ops := [];
                k_record := record_at n LevelInfo [] |}
      (fun _ _ => [i_str "level" "Tilted"; i_text "Message" test_message; i_str "source" "all knowledge"]).

(** ** A right handler *)

(** One line, ended by a newline or a carriage return and a newline; no error. *)
Definition writes (H : subject) (c : call) (l : list item) : Prop :=
  exists line nl, u_handle H (k_cancelled c) (k_options c) (k_ops c) (k_record c) = (line ++ nl, true) /\
    spelled (members l) line /\ (nl = [newline] \/ nl = [chr 13; newline]).

(** The text of the time is a date of today. *)
Definition time_text (tx : bytes) : Prop := valid_utf8 tx = true /\ z_date W tx = Some (z_today W).

Definition source_member (c : call) (i : item) : Prop :=
  match Slog.r_source (k_record c) with Some s => source_group s i | None => True end.

Record right_handler (H : subject) : Prop := {
  right_lines : forall c f, expected c f -> exists tx src, time_text tx /\ source_member c src /\ writes H c (f tx src);
  right_levels : forall l x, u_enabled H l x = Z.leb (match l with Some z => z | None => LevelInfo end) x
}.

(** ** The contract of the surroundings *)

(** A reading of the clock today; its text has only the characters of RFC3339. *)
Definition time_char (c : ascii) : bool := existsb (Ascii.eqb c) (B "0123456789-+:.TZ").
Definition clock_ok (t : gotime) : Prop :=
  t_zero t = false /\ forallb time_char (t_format t RFC3339Nano) = true /\ z_date W (t_format t RFC3339Nano) = Some (z_today W).

(** The floats that the tests log. *)
Definition floats : list bytes := [pi_text; e_text; sqrt_pi_text; sqrt_e_text; phi_text; B "23.79"; B "23.7"].

Record surroundings_ok (num : bytes -> option Qc) : Prop := {
  s_num : num_ok num;
  s_unmarshal : unmarshal_ok num (z_env W);
  s_classes : classes_ok (z_classes W);
  s_casing : casing_ok (cs W);
  s_floats : forall t, In t floats -> num t = Some (z_float W t);
  s_clock : forall n, clock_ok (fst (z_now W n));
  s_when : clock_ok (z_when W);
  s_places : forall n, let s := snd (z_now W n) in
    valid_utf8 (src_function s) = true /\ valid_utf8 (src_file s) = true /\ (Z.abs (src_line s) <= 2 ^ 53)%Z
}.
End Calls.
