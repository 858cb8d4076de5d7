(** Vocabulary for what a warning report says: the line syntax in which the report
    can be read back, and what a reader should have learnt from it. *)

From Coq Require Import Ascii String List NArith Bool.
From Verif Require Import Bytes GoSort Regex RegexProofs Replace Warnings WarnParser.
Import ListNotations.

(** ** The line syntax *)

Definition whitespace (c : ascii) : Prop := In c [tab; newline; chr 12; creturn; space].
Definition one_line (s : bytes) : Prop := ~ In newline s.
Definition starts_clean (s : bytes) : Prop := forall c t, s = c :: t -> ~ whitespace c.
Definition ends_clean (s : bytes) : Prop := forall t c, s = t ++ [c] -> ~ whitespace c.

(** The name of a test function: one word without colon, that cannot be taken for
    a log line, a continuation, "None" or a level. *)
Definition good_function (cs : casing) (f : bytes) : Prop :=
  f <> [] /\ (forall c, In c f -> ~ whitespace c /\ c <> chr 58) /\
  (forall t, f <> chr 123 :: t) /\ (forall t, f <> chr 43 :: t) /\ f <> B "None" /\ parse_level cs f = None.

(** Additional text: several lines are possible. *)
Definition good_text (t : bytes) : Prop :=
  t = [] \/
  exists l0 ls, split_on newline t = l0 :: ls /\ l0 <> [] /\ starts_clean l0 /\ ends_clean l0 /\
                Forall ends_clean ls.

(** The log record: one line that begins with a brace. *)
Definition good_record (s : bytes) : Prop :=
  s = [] \/ ((exists t, s = chr 123 :: t) /\ one_line s /\ ends_clean s).

Definition good_instance (cs : casing) (i : instance) : Prop :=
  good_function cs (i_function i) /\ good_text (i_text i) /\ good_record (i_record i).

Definition good_warning (cs : casing) (r : instances) : Prop :=
  one_line (r_name r) /\
  (one_line (r_summary r) /\ ~ In (chr 93) (r_summary r) /\ starts_clean (r_summary r) /\ ends_clean (r_summary r)) /\
  Forall (good_instance cs) (r_data r) /\
  In (r_level r) level_order.

Definition good_handler (h : bytes) : Prop := h <> [] /\ one_line h /\ starts_clean h.

(** ** What is kept of the report *)

(** The instances kept for a handler (or a test) under a level and a name. *)
Definition instances_in (m : gomap table) (x : bytes) (level : N) (name : bytes) : list dinst :=
  match get x m with
  | None => []
  | Some t => match tget (level, name) t with None => [] | Some d => d_insts d end
  end.
Definition summary_in (m : gomap table) (x : bytes) (level : N) (name : bytes) : option bytes :=
  match get x m with
  | None => None
  | Some t => match tget (level, name) t with None => None | Some d => Some (d_summary d) end
  end.
Definition counted (m : gomap wcount) (name h : bytes) : N :=
  match get name m with None => 0 | Some c => match get h (wc_count c) with None => 0 | Some n => n end end.

(** The tag of a handler: as the benchmark data has it, or the name itself. *)
Definition tag_of (lookup : gomap bytes) (name : bytes) : bytes :=
  match get name lookup with Some t => t | None => name end.

(** The tag of a test.  [strip_prefixes] is specified by C36_prefixes. *)
Definition instance_tag (i : instance) : bytes := strip_prefixes (i_function i).
Definition test_tag (source : bytes) (i : instance) : bytes :=
  match source with [] => instance_tag i | _ => source ++ B "." ++ instance_tag i end.

(** The prefixes of the testing package. *)
Definition test_prefixes : list bytes := [B "Benchmark_"; B "Benchmark"; B "Test_"; B "Test"].

(** The log record, made readable where that is possible. *)
Definition readable (v : world) (r : bytes) : bytes :=
  match r with [] => [] | _ => match v_pretty v r with Some x => x | None => [] end end.

(** What is kept of an instance for the handler: *)
Definition kept_as (v : world) (source : bytes) (i : instance) (d : dinst) : Prop :=
  di_tag d = instance_tag i /\ di_source d = source /\ di_name d = test_name v (instance_tag i) /\
  di_extra d = i_text i /\ di_line d = i_record i /\ di_log d = readable v (i_record i).

(** and for the test: *)
Definition seen_as (v : world) (h : bytes) (i : instance) (d : dinst) : Prop :=
  di_name d = handler_name v h /\ di_extra d = i_text i /\ di_log d = readable v (i_record i).

(** The instances a list of records has under a level and a name. *)
Definition told (l : list instances) (level : N) (name : bytes) : list instance :=
  concat (map r_data (filter (fun r => N.eqb (r_level r) level && beq (r_name r) name) l)).

(** Counts under a name, whatever the level. *)
Definition told_count (l : list instances) (name : bytes) : N :=
  N.of_nat (length (concat (map r_data (filter (fun r => beq (r_name r) name) l)))).

(** ** What a reader of a report learns

    [h] is the tag of the handler, [l] the report, [w] and [w'] the data before and
    after. *)
Record learns (v : world) (source h : bytes) (l : list instances) (w w' : wdata) : Prop := {
  (* the instances of every warning of the handler, after those known already *)
  learns_handler : forall level n, exists new,
    instances_in (by_handler w') h level n = instances_in (by_handler w) h level n ++ new /\
    Forall2 (kept_as v source) (told l level n) new;
  learns_summary : forall r, In r l -> summary_in (by_handler w') h (r_level r) (r_name r) = Some (r_summary r);
  (* nothing else about this handler, nothing about the others *)
  learns_only : forall level n, (forall r, In r l -> r_level r = level -> r_name r <> n) ->
    summary_in (by_handler w') h level n = summary_in (by_handler w) h level n;
  learns_others : forall x, x <> h -> get x (by_handler w') = get x (by_handler w);
  (* the same by test *)
  learns_test : forall t level n, exists new,
    instances_in (by_test w') t level n = instances_in (by_test w) t level n ++ new /\
    Forall2 (seen_as v h) (filter (fun i => beq (test_tag source i) t) (told l level n)) new;
  (* and the uses counted by warning *)
  learns_count : forall n x, counted (by_warning w') n x =
    (counted (by_warning w) n x + (if beq x h then told_count l n else 0))%N
}.

(** "None" instead of warnings. *)
Record forgets (h : bytes) (w w' : wdata) : Prop := {
  forgets_handler : forall level n, instances_in (by_handler w') h level n = [] /\ summary_in (by_handler w') h level n = None;
  forgets_others : forall x, x <> h -> get x (by_handler w') = get x (by_handler w);
  forgets_test : by_test w' = by_test w;
  forgets_count : by_warning w' = by_warning w
}.
Definition reads_report (v : world) (source h : bytes) (l : list instances) (w w' : wdata) : Prop :=
  match l with [] => forgets h w w' | _ => learns v source h l w w' end.

(** Several reports, one after the other. *)
Inductive reads_reports (v : world) (source : bytes) (lookup : gomap bytes) :
    list (bytes * list instances) -> wdata -> wdata -> Prop :=
| reads_none w : reads_reports v source lookup [] w w
| reads_one name l reports w w1 w2 :
    reads_report v source (tag_of lookup name) l w w1 -> reads_reports v source lookup reports w1 w2 ->
    reads_reports v source lookup ((name, l) :: reports) w w2.

(** A report the parser can read: each warning once, in the line syntax. *)
Definition readable_report (v : world) (lookup : gomap bytes) (x : bytes * list instances) : Prop :=
  good_handler (fst x) /\ tag_of lookup (fst x) <> [] /\ NoDup (map r_name (snd x)) /\
  Forall (good_warning (v_casing v)) (snd x).

(** No line longer than the scanner's limit: between any two newlines, or before
    the first or after the last, are at most 65535 characters. *)
Definition short_lines (s : bytes) : Prop :=
  forall a l b, s = a ++ l ++ b -> one_line l -> (N.of_nat (length l) <= 65535)%N.
