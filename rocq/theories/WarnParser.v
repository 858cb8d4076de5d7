(** Model of the warning data of the server and of its parser:
    internal/data/warnings.go, warnings_parser.go and tags.go. *)

From Coq Require Import Ascii String List NArith Bool Arith.
From Verif Require Import Bytes GoSort Regex Replace Warnings.
Import ListNotations.

(** ** bufio.Scanner with ScanLines *)

(** A line may not be longer than 65535 bytes; at a longer one the scanner stops
    with an error. *)
Definition max_line : N := 65535.

(** dropCR *)
Definition drop_cr (s : bytes) : bytes :=
  match rev s with c :: r => if Ascii.eqb c creturn then rev r else s | [] => [] end.

Fixpoint until_long (ls : list bytes) : list bytes * bool :=
  match ls with
  | [] => ([], false)
  | l :: ls' =>
      if N.leb (N.of_nat (length l)) max_line
      then let (r, e) := until_long ls' in (drop_cr l :: r, e)
      else ([], true)
  end.

(** Pieces between newlines; nothing after the last newline is no line. *)
Fixpoint raw_lines (s : bytes) : list bytes :=
  match s with
  | [] => []
  | c :: t => if Ascii.eqb c newline then [] :: raw_lines t
              else match t with
                   | [] => [[c]]
                   | d :: _ => if Ascii.eqb d newline then
                                 match raw_lines t with _ :: ls => [c] :: ls | [] => [[c]] end
                               else match raw_lines t with l :: ls => (c :: l) :: ls | [] => [[c]] end
                   end
  end.

(** All calls of Scan: the lines and whether scanner.Err() is not nil.  Errors of
    the reader itself are not modelled. *)
Definition scan (s : bytes) : list bytes * bool := until_long (raw_lines s).

(** ** internal/data/tags.go *)

(** What is used of other packages: the case tables, camelcase.Split, and the
    result of json.Unmarshal with json.MarshalIndent where both succeed. *)
Record world : Type := {
  v_casing : casing;
  v_camel : bytes -> list bytes;
  v_pretty : bytes -> option bytes
}.

(** The loop of both Name methods: tags.go 32-37, 60-65. *)
Definition join_words (ps : list bytes) : bytes :=
  fold_left (fun b p => match b with [] => p | _ => b ++ space :: p end) ps [].

(** TestTag.Name: tags.go 23-44 (the cache changes nothing). *)
Definition test_name (v : world) (tag : bytes) : bytes :=
  let s := match split_on (chr 46) tag with [_; p] => p | _ => tag end in
  join_words (v_camel v s).

(** HandlerTag.Name: tags.go 53-71. *)
Definition handler_name (v : world) (tag : bytes) : bytes := join_words (v_camel v tag).

(** ** internal/data/warnings.go *)

(** dataInstance: warnings.go 416-423. *)
Record dinst : Type := {
  di_tag : bytes; di_source : bytes; di_name : bytes; di_extra : bytes; di_line : bytes; di_log : bytes
}.

(** dataWarning: warnings.go 369-376; the name is the key. *)
Record dwarn : Type := { d_summary : bytes; d_insts : list dinst }.

(** Levels with its DataLevels: warnings.go 281-284, 324-328.  The maps are
    flattened; the level is used instead of its string.  The cached lists are not
    part of this. *)
Definition table : Type := list ((N * bytes) * dwarn).

Definition same_key (a b : N * bytes) : bool := N.eqb (fst a) (fst b) && beq (snd a) (snd b).
Fixpoint tget (k : N * bytes) (t : table) : option dwarn :=
  match t with [] => None | (k', d) :: t' => if same_key k' k then Some d else tget k t' end.
Fixpoint tput (k : N * bytes) (d : dwarn) (t : table) : table :=
  match t with
  | [] => [(k, d)]
  | (k', d') :: t' => if same_key k' k then (k, d) :: t' else (k', d') :: tput k d t'
  end.

(** WarningData: warnings.go 235-241; the maps to bool as lists of their keys. *)
Record wcount : Type := { wc_count : gomap N; wc_handlers : list bytes; wc_tests : list bytes }.

(** handlerData: warnings.go 19-23. *)
Record hdata : Type := { hd_name : bytes; hd_summary : bytes; hd_links : gomap bytes }.

(** Warnings: warnings.go 26-34, without the cached tag lists. *)
Record wdata : Type := {
  by_handler : gomap table;
  by_test : gomap table;
  by_warning : gomap wcount;
  handler_data : gomap hdata;
  test_names : gomap bytes
}.
(** NewWarnings: warnings.go 36-46. *)
Definition no_data : wdata := {| by_handler := []; by_test := []; by_warning := []; handler_data := []; test_names := [] |}.

Definition set_by_handler (x : gomap table) (w : wdata) : wdata :=
  {| by_handler := x; by_test := by_test w; by_warning := by_warning w; handler_data := handler_data w;
     test_names := test_names w |}.
Definition set_by_test (x : gomap table) (w : wdata) : wdata :=
  {| by_handler := by_handler w; by_test := x; by_warning := by_warning w; handler_data := handler_data w;
     test_names := test_names w |}.
Definition set_by_warning (x : gomap wcount) (w : wdata) : wdata :=
  {| by_handler := by_handler w; by_test := by_test w; by_warning := x; handler_data := handler_data w;
     test_names := test_names w |}.
Definition set_handler_data (x : gomap hdata) (w : wdata) : wdata :=
  {| by_handler := by_handler w; by_test := by_test w; by_warning := by_warning w; handler_data := x;
     test_names := test_names w |}.
Definition set_test_names (x : gomap bytes) (w : wdata) : wdata :=
  {| by_handler := by_handler w; by_test := by_test w; by_warning := by_warning w; handler_data := handler_data w;
     test_names := x |}.

(** The table of a handler or test, and the warning in it, made if missing:
    findHandler, findTest, findLevel, findWarningGroup (warnings.go 177-200,
    310-321, 355-366); [f] is then applied to it. *)
Definition no_warn : dwarn := {| d_summary := []; d_insts := [] |}.
Definition table_of (x : bytes) (m : gomap table) : table := match get x m with Some t => t | None => [] end.
Definition warn_of (k : N * bytes) (t : table) : dwarn := match tget k t with Some d => d | None => no_warn end.
Definition update (x : bytes) (k : N * bytes) (f : dwarn -> dwarn) (m : gomap table) : gomap table :=
  let t := table_of x m in put x (tput k (f (warn_of k t)) t) m.

Definition set_summary (s : bytes) (d : dwarn) : dwarn := {| d_summary := s; d_insts := d_insts d |}.
Definition add_inst (i : dinst) (d : dwarn) : dwarn := {| d_summary := d_summary d; d_insts := d_insts d ++ [i] |}.

(** FindWarning: warnings.go 206-219, with the three updates of
    warnings_parser.go 74-76. *)
Definition add_key (k : bytes) (l : list bytes) : list bytes := if existsb (beq k) l then l else l ++ [k].
Definition no_count : wcount := {| wc_count := []; wc_handlers := []; wc_tests := [] |}.
Definition count_in (h : bytes) (m : gomap N) : N := match get h m with Some n => n | None => 0 end.
Definition count_use (name h t : bytes) (m : gomap wcount) : gomap wcount :=
  let c := match get name m with Some c => c | None => no_count end in
  put name {| wc_count := put h (count_in h (wc_count c) + 1)%N (wc_count c);
              wc_handlers := add_key h (wc_handlers c); wc_tests := add_key t (wc_tests c) |} m.

(** getHandlerData: warnings.go 221-231, followed by a change. *)
Definition no_hdata : hdata := {| hd_name := []; hd_summary := []; hd_links := [] |}.
Definition change_hdata (h : bytes) (f : hdata -> hdata) (m : gomap hdata) : gomap hdata :=
  put h (f (match get h m with Some d => d | None => no_hdata end)) m.

(** ** The patterns: warnings_parser.go 21-32 *)

Definition is_nonspace (c : ascii) : bool := negb (is_space c).
Definition dots : re := rstar (RChr is_dot).
Definition lazy_dots : re := RStar false (RChr is_dot).

Definition ptn_warnings_for : re :=
  rcat [RBol; ws; lit "Warnings"; ws1; lit "for"; ws1; RGroup 1 dots; lit ":"; ws; REol].
Definition ptn_level : re := rcat [RBol; ws; RGroup 1 (rplus (RChr is_nonspace)); ws; REol].
Definition ptn_warning : re :=
  rcat [RBol; ws; digits1; ws1; lit "["; RGroup 1 dots; lit "]"; ws; RGroup 2 lazy_dots; ws; REol].
Definition ptn_instance : re :=
  rcat [RBol; ws; RGroup 1 (rplus (RChr is_nonspace)); ropt (rcat [lit ":"; ws; RGroup 2 lazy_dots]); ws; REol].
Definition ptn_extra : re := rcat [RBol; ws; lit "+"; RGroup 1 lazy_dots; ws; REol].
Definition ptn_log_line : re := rcat [RBol; ws; lit "{"].
Definition ptn_none : re := rcat [RBol; ws; lit "None"; ws; REol].
Definition ptn_by_warning : re := rcat [RBol; ws; lit "Handlers"; ws1; lit "by"; ws1; lit "warning:"; ws; REol].
Definition ptn_summary_start : re :=
  rcat [RBol; lit ":["; ws; RGroup 1 (RSeq (RChr is_nonspace) lazy_dots); ws; REol].
Definition ptn_summary_line : re :=
  rcat [RBol; lit "::"; ws; RGroup 1 (RSeq (RChr is_nonspace) lazy_dots); ws; REol].
Definition ptn_summary_link : re :=
  rcat [RBol; lit ":>"; ws; RGroup 1 (RSeq (RChr is_nonspace) lazy_dots); ws; lit "-->"; ws;
        RGroup 2 (RSeq (RChr is_nonspace) lazy_dots); ws; REol].

(** ** ParseWarningData: warnings_parser.go 40-236 *)

(** The data warning last found (the pointer dWarning): where it is kept, and
    whether it is still there.  A "None" line drops the table it is in. *)
Record cur : Type := { c_handler : bytes; c_level : N; c_name : bytes; c_summary : bytes; c_live : bool }.

(** The local variables: warnings_parser.go 54-58. *)
Record pstate : Type := {
  p_data : wdata;
  p_handler : bytes;
  p_test : bytes;
  p_level : N;
  p_cur : option cur;
  p_inst : option dinst
}.

Definition with_data (w : wdata) (s : pstate) : pstate :=
  {| p_data := w; p_handler := p_handler s; p_test := p_test s; p_level := p_level s; p_cur := p_cur s; p_inst := p_inst s |}.
Definition with_inst (i : option dinst) (s : pstate) : pstate :=
  {| p_data := p_data s; p_handler := p_handler s; p_test := p_test s; p_level := p_level s; p_cur := p_cur s; p_inst := i |}.
Definition with_cur (c : option cur) (s : pstate) : pstate :=
  {| p_data := p_data s; p_handler := p_handler s; p_test := p_test s; p_level := p_level s; p_cur := c; p_inst := p_inst s |}.
Definition with_handler (h : bytes) (s : pstate) : pstate :=
  {| p_data := p_data s; p_handler := h; p_test := p_test s; p_level := p_level s; p_cur := p_cur s; p_inst := p_inst s |}.
Definition with_level (l : N) (s : pstate) : pstate :=
  {| p_data := p_data s; p_handler := p_handler s; p_test := p_test s; p_level := l; p_cur := p_cur s; p_inst := p_inst s |}.
Definition with_test (t : bytes) (s : pstate) : pstate :=
  {| p_data := p_data s; p_handler := p_handler s; p_test := t; p_level := p_level s; p_cur := p_cur s; p_inst := p_inst s |}.

Section Parse.
Variable v : world.
Variable source : bytes.
Variable lookup : gomap bytes.

(** saveInstance: warnings_parser.go 59-80. *)
Definition save (s : pstate) : pstate :=
  match p_inst s with
  | None => s
  | Some i =>
      match p_cur s with
      | None => with_inst None s
      | Some c =>
          let w := p_data s in
          let w1 := if c_live c
                    then set_by_handler (update (c_handler c) (c_level c, c_name c) (add_inst i) (by_handler w)) w
                    else w in
          let ti := {| di_tag := []; di_source := []; di_name := handler_name v (p_handler s);
                       di_extra := di_extra i; di_line := []; di_log := di_log i |} in
          let w2 := set_by_test
                      (update (p_test s) (p_level s, c_name c)
                         (fun d => add_inst ti (set_summary (c_summary c) d)) (by_test w1)) w1 in
          let w3 := set_by_warning (count_use (c_name c) (p_handler s) (p_test s) (by_warning w2)) w2 in
          with_inst None (with_data w3 s)
      end
  end.

(** One part of a default name: warnings_parser.go 104-108. *)
Definition default_part (p : bytes) : bytes :=
  match p with
  | [] => []
  | c :: r => map_runes (cs_upper (v_casing v)) [c] ++ map_runes (cs_lower (v_casing v)) r
  end.
Fixpoint join_space (ps : list bytes) : bytes :=
  match ps with [] => [] | [p] => p | p :: ps' => p ++ space :: join_space ps' end.

(** The line that names the handler: warnings_parser.go 89-112. *)
Definition name_handler (h : bytes) (s : pstate) : pstate :=
  let s := save s in
  match get h lookup with
  | Some tag =>
      with_handler tag (with_data (set_handler_data
        (change_hdata tag (fun d => {| hd_name := h; hd_summary := hd_summary d; hd_links := hd_links d |})
           (handler_data (p_data s))) (p_data s)) s)
  | None =>
      with_handler h (with_data (set_handler_data
        (change_hdata h (fun d => {| hd_name := join_space (map default_part (split_on (chr 47) h));
                                     hd_summary := hd_summary d; hd_links := hd_links d |})
           (handler_data (p_data s))) (p_data s)) s)
  end.

(** The end of a summary: warnings_parser.go 128-139; the notes of a missing end
    and of a name mismatch are left out. *)
Definition end_summary (name : bytes) (lines : list bytes) (links : gomap bytes) (s : pstate) : pstate :=
  match get name lookup with
  | None => s
  | Some tag =>
      with_data (set_handler_data
        (change_hdata tag (fun d => {| hd_name := hd_name d;
             hd_summary := match lines with
                           | [] => []
                           | p :: ps => p ++ concat (map (fun q => newline :: q) ps)
                           end;
             hd_links := links |})
           (handler_data (p_data s))) (p_data s)) s
  end.

(** Removing the prefixes: warnings_parser.go 195-209; every round of the outer
    loop that changes anything shortens the text, [n] bounds the rounds. *)
Fixpoint has_prefix (p s : bytes) : option bytes :=
  match p, s with
  | [], _ => Some s
  | c :: p', d :: s' => if Ascii.eqb c d then has_prefix p' s' else None
  | _, [] => None
  end.
Definition strip_one (s p : bytes) : bytes := match has_prefix p s with Some r => r | None => s end.
Fixpoint strip_rounds (n : nat) (s : bytes) : bytes :=
  match n with
  | O => s
  | S n' =>
      let s' := fold_left strip_one [B "Benchmark_"; B "Benchmark"; B "Test_"; B "Test"] s in
      if beq s' s then s else strip_rounds n' s'
  end.
Definition strip_prefixes (s : bytes) : bytes := strip_rounds (length s) s.

(** The part from "if handler == ''" on: warnings_parser.go 145-227.  [None] is a
    panic. *)
Definition parse_rest (line : bytes) (s : pstate) : option pstate :=
  match p_handler s with
  | [] => Some s
  | _ =>
    if matches ptn_none line then
      let s := match p_cur s with
               | Some c => if beq (c_handler c) (p_handler s)
                           then with_cur (Some {| c_handler := c_handler c; c_level := c_level c; c_name := c_name c;
                                                  c_summary := c_summary c; c_live := false |}) s
                           else s
               | None => s
               end in
      Some (with_data (set_by_handler (put (p_handler s) [] (by_handler (p_data s))) (p_data s)) s)
    else
    match (match find ptn_level line with Some f => parse_level (v_casing v) (sub 1 f) | None => None end) with
    | Some l => Some (with_cur None (with_level l (save s)))
    | None =>
    match find ptn_warning line with
    | Some f =>
        let s := save s in
        let name := sub 1 f in
        let c := {| c_handler := p_handler s; c_level := p_level s; c_name := name; c_summary := sub 2 f; c_live := true |} in
        Some (with_inst None (with_cur (Some c)
          (with_data (set_by_handler (update (p_handler s) (p_level s, name) (set_summary (sub 2 f)) (by_handler (p_data s)))
                        (p_data s)) s)))
    | None =>
    if matches ptn_log_line line then
      match p_inst s with
      | None => None
      | Some i =>
          Some (with_inst (Some {| di_tag := di_tag i; di_source := di_source i; di_name := di_name i;
                                   di_extra := di_extra i; di_line := line;
                                   di_log := match v_pretty v line with Some x => x | None => di_log i end |}) s)
      end
    else
    match find ptn_extra line with
    | Some f =>
        match p_inst s with
        | None => Some s
        | Some i =>
            Some (with_inst (Some {| di_tag := di_tag i; di_source := di_source i; di_name := di_name i;
                                     di_extra := di_extra i ++ newline :: sub 1 f; di_line := di_line i;
                                     di_log := di_log i |}) s)
        end
    | None =>
    match find ptn_instance line with
    | Some f =>
        let s := save s in
        let tag := strip_prefixes (sub 1 f) in
        let i := {| di_tag := tag; di_source := source; di_name := test_name v tag; di_extra := sub 2 f;
                    di_line := []; di_log := [] |} in
        let test := match source with [] => tag | _ => source ++ chr 46 :: tag end in
        let names := test_names (p_data s) in
        let names' := match get test names with Some _ => names | None => put test (di_name i) names end in
        Some (with_inst (Some i) (with_test test (with_data (set_test_names names' (p_data s)) s)))
    | None => Some s
    end
    end
    end
    end
  end.

(** TrimPrefix of '#', Trim of spaces: warnings_parser.go 84. *)
Definition prepare (line : bytes) : bytes :=
  trim space (match line with c :: r => if Ascii.eqb c (chr 35) then r else line | [] => [] end).

(** Inside a summary: its first line, the name, the lines and links so far. *)
Definition summary_mode : Type := (bytes * bytes * list bytes * gomap bytes)%type.

(** The loop over the lines: warnings_parser.go 81-229, with the last saveInstance.
    [None] is a panic.  Lines are values here; in Go the first line of a summary
    that is never ended is looked at again after the scanner may have reused its
    memory. *)
Fixpoint parse_loop (mode : option summary_mode) (lines : list bytes) (s : pstate) : option pstate :=
  match lines with
  | [] =>
      match mode with
      | None => Some (save s)
      | Some (first, _, _, _) =>
          match parse_rest first s with Some s' => Some (save s') | None => None end
      end
  | l :: lines' =>
      match mode with
      | Some (first, name, sums, links) =>
          match find ptn_summary_line l with
          | Some f => parse_loop (Some (first, name, sums ++ [sub 1 f], links)) lines' s
          | None =>
          match find ptn_summary_link l with
          | Some f => parse_loop (Some (first, name, sums, put (sub 1 f) (sub 2 f) links)) lines' s
          | None =>
              match parse_rest l (end_summary name sums links s) with
              | Some s' => parse_loop None lines' s'
              | None => None
              end
          end
          end
      | None =>
          let line := prepare l in
          match line with
          | [] => parse_loop None lines' s
          | _ =>
            match find ptn_warnings_for line with
            | Some f => parse_loop None lines' (name_handler (sub 1 f) s)
            | None =>
              if matches ptn_by_warning line then Some (save s)
              else
              match find ptn_summary_start line with
              | Some f => parse_loop (Some (line, sub 1 f, [], [])) lines' s
              | None =>
                  match parse_rest line s with
                  | Some s' => parse_loop None lines' s'
                  | None => None
                  end
              end
            end
          end
      end
  end.

Definition start (w : wdata) : pstate :=
  {| p_data := w; p_handler := []; p_test := []; p_level := 0; p_cur := None; p_inst := None |}.

(** Whether the loop reads to the end: warnings_parser.go 113-116 leaves it before.  [inside]
    is inside of a summary. *)
Fixpoint reads_on (inside : bool) (lines : list bytes) : bool :=
  match lines with
  | [] => true
  | l :: lines' =>
      if inside then
        reads_on (match find ptn_summary_line l, find ptn_summary_link l with None, None => false | _, _ => true end) lines'
      else
        let line := prepare l in
        match line, find ptn_warnings_for line with
        | [], _ | _, Some _ => reads_on false lines'
        | _, None =>
            if matches ptn_by_warning line then false
            else reads_on (match find ptn_summary_start line with Some _ => true | None => false end) lines'
        end
  end.

(** ParseWarningData on a text: the data afterwards and whether an error is
    returned; [None] is a panic.  A line that is too long is only met by a loop that
    reads on to it. *)
Definition parse_warning_data (text : bytes) (w : wdata) : option (wdata * bool) :=
  let (lines, err) := scan text in
  match parse_loop None lines (start w) with
  | Some s => Some (p_data s, err && reads_on false lines)
  | None => None
  end.
End Parse.
