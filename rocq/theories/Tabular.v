(** Model of cmd/tabular/tabular.go: the tables and the listing of warnings it
    prints. *)

From Coq Require Import Ascii String List NArith QArith Bool Permutation.
From Verif Require Import Bytes GoSort Regex Replace Warnings WarnParser Bench.
Import ListNotations.
Local Open Scope list_scope.

(** The texts printed one after the other for the elements of a list, where the
    text of an element depends on the order sort.Slice leaves. *)
Definition prints {A} (f : A -> bytes -> Prop) (l : list A) (out : bytes) : Prop :=
  exists ts, Forall2 f l ts /\ out = concat ts.

(** ** Tables

    What go-utils/text/table and golang.org/x/text print is not modelled: the two
    borders, the header and the separator are texts, and a row is some function of
    the name and the five numbers. *)
Record style : Type := {
  st_top : bytes; st_header : bytes; st_separator : bytes; st_bottom : bytes;
  st_row : bytes -> N -> Q -> N -> N -> Q -> bytes
}.

Section Tables.
Variable st : style.

(** One row: tabular.go 98-109; a missing record is the zero record, which is
    empty. *)
Definition table_row (b : bench) (records : gomap trec) (handler : bytes) : bytes :=
  match get handler records with
  | None => []
  | Some r =>
      if is_empty r then []
      else st_row st (b_handler_name b handler) (t_runs r) (t_nanos r) (t_allocs r) (t_bytes r) (t_mb r)
  end.

(** One table: tabular.go 90-110. *)
Definition bench_table (b : bench) (test : bytes) (handlers : list bytes) : bytes :=
  newline :: B "Benchmark " ++ b_test_name b test ++ [newline]
  ++ st_top st ++ [newline] ++ st_header st ++ st_separator st ++ [newline]
  ++ concat (map (table_row b (handler_records_for b test)) handlers)
  ++ st_bottom st ++ [newline].

(** The loop: tabular.go 90-111; HandlerTags is asked for every table. *)
Fixpoint print_tables (tests : list bytes) (b : bench) (out : bytes) : Prop :=
  match tests with
  | [] => out = []
  | test :: tests' =>
      exists handlers b' out', handler_tags b handlers b' /\ print_tables tests' b' out' /\
        out = bench_table b test handlers ++ out'
  end.
Definition print_bench (b : bench) (out : bytes) : Prop :=
  exists tests b', test_tags b tests b' /\ print_tables tests b' out.
End Tables.

(** ** Warnings *)

(** HasSource: warnings.go 466-468. *)
Definition has_source (d : dinst) : bool := match trim space (di_source d) with [] => false | _ => true end.

(** The text after the name of the test: tabular.go 125-132. *)
Definition next_line : bytes := newline :: B "           ".
Definition is_newline (c : ascii) : bool := Ascii.eqb c newline.
Definition extra_text (e : bytes) : bytes :=
  match e with
  | [] => []
  | _ => B ": " ++ (if existsb is_newline e
                    then next_line ++ concat (map (fun c => if is_newline c then next_line else [c]) e)
                    else e)
  end.

(** One instance: tabular.go 121-136. *)
Definition instance_text (d : dinst) : bytes :=
  B "         " ++ (if has_source d then di_source d ++ B ":" else []) ++ di_tag d ++ extra_text (di_extra d) ++ [newline]
  ++ match di_line d with [] => [] | l => B "           " ++ l ++ [newline] end.

(** One warning: tabular.go 118-138; Instances: warnings.go 403-411, sorted by the
    first call. *)
Definition print_warning (e : (N * bytes) * dwarn) (out : bytes) : Prop :=
  exists is, sort_slice (on di_name blt) (d_insts (snd e)) is /\
    out = B "  " ++ pad4 (N.of_nat (length is)) ++ B " [" ++ snd (fst e) ++ B "] " ++ d_summary (snd e) ++ [newline]
          ++ concat (map instance_text is).

(** One level: tabular.go 116-139; Levels: warnings.go 297-307, a level is in the
    map if it has a warning; Warnings: warnings.go 342-353. *)
Definition print_level (t : table) (level : N) (out : bytes) : Prop :=
  match filter (fun e => N.eqb (fst (fst e)) level) t with
  | [] => out = []
  | ws => exists ws' body, sort_slice (on (fun e => snd (fst e)) blt) ws ws' /\ prints print_warning ws' body /\
            out = B "  " ++ level_string level ++ [newline] ++ body
  end.

(** One handler: tabular.go 113-140. *)
Definition print_handler (w : wdata) (tag : bytes) (out : bytes) : Prop :=
  exists body, prints (print_level (table_of tag (by_handler w))) level_order body /\
    out = newline :: B "Warnings for " ++ w_handler_name w tag ++ B ":" ++ [newline] ++ body.

Definition print_warnings (w : wtags) (out : bytes) : Prop :=
  exists tags w', w_handler_tags w tags w' /\ prints (print_handler (wt_data w)) tags out.

(** ** main: tabular.go 67-143, without the flags, the language and the messages
    about errors.  [None] is a panic. *)
Definition tabular (v : world) (pf : bytes -> option Q) (st : style) (bench_text verify_text : bytes) (out : option bytes) : Prop :=
  exists res, setup v pf bench_text verify_text new_bench no_data res /\
    match res with
    | None => out = None
    | Some (_, _, true) => out = Some []
    | Some (b, w, false) =>
        exists tables warnings, print_bench st b tables /\
          print_warnings {| wt_data := w; wt_tests := []; wt_handlers := [] |} warnings /\
          out = Some (tables ++ warnings ++ [newline])
    end.
