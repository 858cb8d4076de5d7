(** Model of verify/tests/slogtest.go 22-46 (TestSlogTest) and of what it calls:
    testing/slogtest.TestHandler of Go 1.22 (src/testing/slogtest/slogtest.go; not part
    of /repo), with its sixteen cases. *)

From Coq Require Import Ascii String List ZArith NArith Bool Arith.
From Verif Require Import Bytes GoSort Slog Warnings Regex BenchChecks VerifyChecks VerifyTests.
Import ListNotations.
Local Open Scope nat_scope.
Local Open Scope list_scope.
Local Open Scope test_scope.

(** infra/warning/required.go 33-34. *)
Definition slog_test : warning :=
  {| w_level := level_required; w_name := B "SlogTest"; w_summary := B "Failure of embedded slog/slogtest" |}.

(** ** testing/slogtest *)

(** hasKey, hasAttr (the cases only have texts as values), missingKey, inGroup. *)
Inductive check : Type :=
| HasKey (k : bytes)
| HasAttr (k v : bytes)
| MissingKey (k : bytes)
| InGroup (g : bytes) (c : check).

(** Whether a check returns a problem. *)
Fixpoint problem (c : check) (m : log_map) : bool :=
  match c with
  | HasKey k => negb (found k m)
  | HasAttr k v => if found k m then negb (deep_equal (at_key k m) (DStr v)) else true
  | MissingKey k => found k m
  | InGroup g c => match lookup g m with
                   | None => true
                   | Some v => match as_map v with Some x => problem c (Some x) | None => true end
                   end
  end.

(** A case: whether mod clears the time or the PC of the record, how the logger is derived,
    the message and its arguments as attributes, the checks. *)
Record case : Type :=
  { c_zero_time : bool; c_zero_pc : bool; c_ops : list op; c_msg : bytes; c_attrs : list attr; c_checks : list check }.

(** The zero time.Time, which has a text too. *)
Definition cleared (t : gotime) : gotime := {| t_zero := true; t_format := t_format t; t_string := t_string t |}.

Section Handler.
Variable W : surroundings.
Variable H : subject.

(** The record of a case, as the wrapper passes it on, if it is made as the [n]th. *)
Definition case_record (c : case) (n : nat) : Slog.record :=
  let (t, src) := z_now W n in
  {| Slog.r_time := if c_zero_time c then cleared t else t; Slog.r_level := LevelInfo; Slog.r_msg := c_msg c;
     Slog.r_source := if c_zero_pc c then None else Some src; Slog.r_attrs := record_attrs (c_attrs c) |}.

(** What the handler writes; the error it returns is dropped by the logger. *)
Definition case_output (c : case) (n : nat) : bytes :=
  if u_enabled H None LevelInfo then fst (u_handle H false (s_options simple_options) (c_ops c) (case_record c n)) else [].

(** TestHandler, first loop; (a record that is not made does not count). *)
Fixpoint run_cases (cs : list case) (n : nat) : bytes :=
  match cs with
  | [] => []
  | c :: cs' => case_output c n ++ run_cases cs' (n + 1)
  end.

(** TestHandler after it: the problems by the number of the case and the check.  [None]: the
    number of results is wrong. *)
Definition case_problems (i : nat) (c : case) (m : log_map) : list (nat * nat) :=
  flat_map (fun x => if problem (snd x) m then [(i, fst x)] else []) (combine (seq 0 (length (c_checks c))) (c_checks c)).
Definition check_results (cs : list case) (res : list log_map) : option (list (nat * nat)) :=
  if Nat.eqb (length res) (length cs)
  then Some (flat_map (fun x => case_problems (fst x) (fst (snd x)) (snd (snd x))) (combine (seq 0 (length cs)) (combine cs res)))
  else None.

(** ** TestSlogTest *)

(** The function results: slogtest.go 27-38.  [None]: a line is not JSON, the test stops. *)
Fixpoint result_maps (lines : list bytes) : option (list log_map) :=
  match lines with
  | [] => Some []
  | l :: lines' =>
      match l with
      | [] => result_maps lines'
      | _ => match e_unmarshal (z_env W) l with
             | (m, None) => option_map (cons m) (result_maps lines')
             | (_, Some _) => None
             end
      end
  end.

(** suite.Creator.CanMakeHandler(), and the texts of slogtest's errors. *)
Variable can_make_handler : bool.
Variable error_text : option (list (nat * nat)) -> bytes.

(** slogtest.go 22-46. *)
Definition test_slog_test (cs : list case) : test unit :=
  if can_make_handler then fun w =>
    let n := v_records w in
    let w' := {| v_test := v_test w; v_buffer := v_buffer w; v_manager := v_manager w; v_failed := v_failed w;
                 v_records := if u_enabled H None LevelInfo then n + length cs else n |} in
    match result_maps (split_on newline (run_cases cs n)) with
    | None => (fail w', None)
    | Some res =>
        let err := check_results cs res in
        let ok := match err with Some [] => true | _ => false end in
        (h <- has W slog_test;
         if negb h then require ok
         else if ok then not_used slog_test []
         else warn slog_test (error_text err) []) w'
    end
  else ret tt.
End Handler.

(** ** The cases of Go 1.22 *)

(** &replace{v}: LogValue returns slog.AnyValue(v); its field is not exported. *)
Definition a_replaced (k v : string) : attr := (B k, VLogValuer (VString (B v)) (plain_obs (MOk (B "{}")))).

Definition simple_case (ops : list op) (msg : string) (attrs : list attr) (checks : list check) : case :=
  {| c_zero_time := false; c_zero_pc := false; c_ops := ops; c_msg := B msg; c_attrs := attrs; c_checks := checks |}.
Definition has_attr (k v : string) : check := HasAttr (B k) (B v).
Definition in_group (g : string) (c : check) : check := InGroup (B g) c.
Definition built_in (msg : string) : list check := [HasKey TimeKey; HasKey LevelKey; HasAttr MessageKey (B msg)].

Definition slogtest_cases : list case :=
  [simple_case [] "message" [] (built_in "message");
   simple_case [] "message" [a_str "k" "v"] [has_attr "k" "v"];
   simple_case [] "msg" [a_str "a" "b"; a_nil ""; a_str "c" "d"] [has_attr "a" "b"; MissingKey []; has_attr "c" "d"];
   {| c_zero_time := true; c_zero_pc := false; c_ops := []; c_msg := B "msg"; c_attrs := [a_str "k" "v"];
      c_checks := [MissingKey TimeKey] |};
   simple_case [WithAttrs [a_str "a" "b"]] "msg" [a_str "k" "v"] [has_attr "a" "b"; has_attr "k" "v"];
   simple_case [] "msg" [a_str "a" "b"; a_group "G" [a_str "c" "d"]; a_str "e" "f"]
     [has_attr "a" "b"; in_group "G" (has_attr "c" "d"); has_attr "e" "f"];
   simple_case [] "msg" [a_str "a" "b"; a_group "G" []; a_str "e" "f"] [has_attr "a" "b"; MissingKey (B "G"); has_attr "e" "f"];
   simple_case [] "msg" [a_str "a" "b"; a_group "" [a_str "c" "d"]; a_str "e" "f"] [has_attr "a" "b"; has_attr "c" "d"; has_attr "e" "f"];
   simple_case [WithGroup (B "G")] "msg" [a_str "a" "b"] (built_in "msg" ++ [MissingKey (B "a"); in_group "G" (has_attr "a" "b")]);
   simple_case [WithAttrs [a_str "a" "b"]; WithGroup (B "G"); WithAttrs [a_str "c" "d"]; WithGroup (B "H")] "msg" [a_str "e" "f"]
     (built_in "msg" ++ [has_attr "a" "b"; in_group "G" (has_attr "c" "d"); in_group "G" (in_group "H" (has_attr "e" "f"))]);
   simple_case [WithAttrs [a_str "a" "b"]; WithGroup (B "G"); WithAttrs [a_str "c" "d"]; WithGroup (B "H")] "msg" []
     (built_in "msg" ++ [has_attr "a" "b"; in_group "G" (has_attr "c" "d"); in_group "G" (MissingKey (B "H"))]);
   simple_case [] "msg" [a_replaced "k" "replaced"] [has_attr "k" "replaced"];
   simple_case [] "msg" [a_group "G" [a_str "a" "v1"; a_replaced "b" "v2"]]
     [in_group "G" (has_attr "a" "v1"); in_group "G" (has_attr "b" "v2")];
   simple_case [WithAttrs [a_replaced "k" "replaced"]] "msg" [] [has_attr "k" "replaced"];
   simple_case [WithAttrs [a_group "G" [a_str "a" "v1"; a_replaced "b" "v2"]]] "msg" []
     [in_group "G" (has_attr "a" "v1"); in_group "G" (has_attr "b" "v2")];
   {| c_zero_time := false; c_zero_pc := true; c_ops := []; c_msg := B "message"; c_attrs := []; c_checks := [MissingKey SourceKey] |}].
