(** Vocabulary for the listings of cmd/tabular: what lines should be printed for
    the results and the warning reports of a benchmark and a verification run. *)

From Coq Require Import Ascii String List NArith QArith Bool Permutation Sorted.
From Verif Require Import Bytes GoSort Regex Warnings WarnParser SpecReport Bench SpecBench SpecBenchText Tabular.
Import ListNotations.
Local Open Scope list_scope.

(** Lines as printed. *)
Definition unlines (ls : list bytes) : bytes := concat (map (fun l => l ++ [newline]) ls).

(** Sorted, where the names of different elements may be the same. *)
Definition by_name {A} (name : A -> bytes) (l : list A) : Prop := StronglySorted (fun a b => blt (name b) (name a) = false) l.

(** ** Warnings *)

(** An occurrence of a warning: the kind of run, the test, the additional text, the
    log record. *)
Record occurrence : Type := { oc_source : bytes; oc_test : bytes; oc_text : bytes; oc_record : bytes }.

(** Its lines: the text behind the test if it is one line, otherwise below it, line
    by line; then the record. *)
Definition occurrence_lines (o : occurrence) : list bytes :=
  let head := B "         "
              ++ (if forallb (Ascii.eqb space) (oc_source o) then [] else oc_source o ++ B ":") ++ oc_test o in
  match split_on newline (oc_text o) with
  | [[]] => [head]
  | [x] => [head ++ B ": " ++ x]
  | xs => (head ++ B ": ") :: map (fun x => B "           " ++ x) xs
  end ++ match oc_record o with [] => [] | r => [B "           " ++ r] end.

(** A warning: how often it occurred, in at least four places, its name and
    summary; then the occurrences. *)
Definition warning_lines (name summary : bytes) (os : list occurrence) : list bytes :=
  let count := dec_of_N (N.of_nat (length os)) in
  (B "  " ++ repeat space (4 - length count) ++ count ++ B " [" ++ name ++ B "] " ++ summary)
  :: concat (map occurrence_lines os).

(** What is told of a level: for the name of a warning its summary and
    occurrences.  Every warning is listed once, by name, with all its occurrences
    and no others, these by the name of the test; a level without warnings is not
    listed. *)
Definition lists_level (test_name : bytes -> bytes) (told : bytes -> option (bytes * list occurrence)) (level : N)
    (lines : list bytes) : Prop :=
  exists ws : list (bytes * (bytes * list occurrence)),
    (forall n, In n (map fst ws) <-> told n <> None) /\
    StronglySorted (fun a b => blt (fst a) (fst b) = true) ws /\
    (forall n s os, In (n, (s, os)) ws ->
       exists os0, told n = Some (s, os0) /\ Permutation os0 os /\ by_name (fun o => test_name (oc_test o)) os) /\
    lines = match ws with
            | [] => []
            | _ => (B "  " ++ level_string level) :: concat (map (fun w => warning_lines (fst w) (fst (snd w)) (snd (snd w))) ws)
            end.

(** A handler: an empty line, the heading, and the levels in their order. *)
Definition lists_handler (test_name : bytes -> bytes) (name : bytes) (told : N -> bytes -> option (bytes * list occurrence))
    (lines : list bytes) : Prop :=
  exists parts, Forall2 (fun level part => lists_level test_name (told level) level part) level_order parts /\
    lines = [] :: (B "Warnings for " ++ name ++ B ":") :: concat parts.

(** What is told by reports: the kind of run, the name of the handler, the
    warnings.  Later reports add to earlier ones; one without warnings makes the
    earlier ones forgotten. *)
Definition sourced : Type := (bytes * (bytes * list instances))%type.

Definition occurrence_of (source : bytes) (i : instance) : occurrence :=
  {| oc_source := source; oc_test := instance_tag i; oc_text := i_text i; oc_record := i_record i |}.

Definition report_tells (source : bytes) (l : list instances) (level : N) (n : bytes) (before : option (bytes * list occurrence))
    : option (bytes * list occurrence) :=
  match l with
  | [] => None
  | _ =>
      match List.find (fun r => N.eqb (r_level r) level && beq (r_name r) n) l with
      | None => before
      | Some r => Some (r_summary r, match before with Some (_, os) => os | None => [] end
                                     ++ map (occurrence_of source) (r_data r))
      end
  end.

Definition reports_tell (lookup : gomap bytes) (reports : list sourced) (h : bytes) (level : N) (n : bytes)
    : option (bytes * list occurrence) :=
  fold_left (fun before x => if beq (tag_of lookup (fst (snd x))) h
                             then report_tells (fst x) (snd (snd x)) level n before else before) reports None.

(** The name above the warnings of a handler: as the last of its reports has it if
    that is the name of a handler of the benchmark run, otherwise with the parts
    between slashes as words with capitals. *)
Definition heading (v : world) (lookup : gomap bytes) (reports : list sourced) (h : bytes) : bytes :=
  fold_left (fun before x =>
               let name := fst (snd x) in
               if beq (tag_of lookup name) h
               then match get name lookup with
                    | Some _ => name
                    | None => join_space (map (default_part v) (split_on (chr 47) name))
                    end
               else before) reports h.

(** ** Tables *)

(** The last result for a test and a handler. *)
Fixpoint last_run (ls : list text_line) (test handler : bytes) : option result :=
  match ls with
  | [] => None
  | l :: ls' =>
      match last_run ls' test handler with
      | Some r => Some r
      | None => match l with
                | Run _ r => if beq (rs_test r) test && beq (rs_handler r) handler then Some r else None
                | _ => None
                end
      end
  end.

(** A table: the results of the test, one row for a handler, if it was run at
    all. *)
Definition result_table (v : world) (pf : bytes -> option Q) (st : style) (ls : list text_line) (handlers : list bytes) (test : bytes)
    : bytes :=
  let row h := match last_run ls test h with
               | Some r => if N.eqb (rs_runs r) 0 then []
                           else st_row st (match name_known v None ls h with Some n => n | None => h end)
                                  (rs_runs r) (nanos_of pf r) (n_of (rs_allocs r)) (n_of (rs_bytes r)) (mb_of pf r)
               | None => []
               end in
  unlines [[]; B "Benchmark " ++ WarnParser.test_name v (B "Bench." ++ test); st_top st; st_header st ++ st_separator st]
  ++ concat (map row handlers) ++ unlines [st_bottom st].
