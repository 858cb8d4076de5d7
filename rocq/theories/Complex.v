(** Model of verify/tests/complex.go: the test cases of the verification suite that
    are written as small programs, interpreted both as calls of a logger and as
    the record that is expected. *)

From Coq Require Import Ascii String List ZArith NArith Bool Arith QArith Qcanon.
From Verif Require Import Bytes GoSort Slog Replace Warnings BenchChecks.
Import ListNotations.
Local Open Scope nat_scope.
Local Open Scope list_scope.

(** ** Warnings: infra/warning/required.go, implied.go, suggested.go *)

Definition group_empty : warning :=
  {| w_level := level_required; w_name := B "GroupEmpty"; w_summary := B "Empty (sub)group(s) logged" |}.
Definition resolver : warning :=
  {| w_level := level_required; w_name := B "Resolver"; w_summary := B "LogValuer objects are not resolved" |}.
Definition group_attr_msg_top : warning :=
  {| w_level := level_implied; w_name := B "GroupAttrInfoTop"; w_summary := B "Group-Attr-Info attributes end up at the top level." |}.
Definition duration_millis : warning :=
  {| w_level := level_suggested; w_name := B "DurationMillis"; w_summary := B "slog.Duration() logs milliseconds instead of nanoseconds" |}.
Definition duration_seconds : warning :=
  {| w_level := level_suggested; w_name := B "DurationSeconds"; w_summary := B "slog.Duration() logs seconds instead of nanoseconds" |}.
Definition duration_string : warning :=
  {| w_level := level_suggested; w_name := B "DurationString";
     w_summary := B "slog.Duration() logs a string representation instead of nanoseconds" |}.
Definition group_with_top : warning :=
  {| w_level := level_suggested; w_name := B "GroupWithTop";
     w_summary := B "^WithGroup().With()^ ends up at top level of log record instead of in the group" |}.
Definition group_duration : warning :=
  {| w_level := level_suggested; w_name := B "GroupDuration"; w_summary := [] |}.
Definition level_case : warning :=
  {| w_level := level_suggested; w_name := B "LevelCase"; w_summary := B "Log level in lowercase" |}.

(** ** The surroundings

    float64 of the text strconv prints for a float and of an integer,
    Duration.Seconds and Duration.String, Value.String of a value that is not a
    string, and the representation of a value that JSON has no type for (a time,
    NaN, an infinity, an object); and the table Attributes (complex.go 304-328). *)
Record tools : Type := {
  x_float : bytes -> Qc;
  x_int : Z -> Qc;
  x_seconds : Z -> Qc;
  x_duration : Z -> bytes;
  x_string : value -> bytes;
  x_other : value -> dyn;
  x_table : ascii -> option (list attr)
}.

(** data.go 9 *)
Definition test_message : bytes := B "This is a message".

(** ** The parser *)

(** The maps being built refer to each other: a value is a plain value or the
    address of a map in the heap. *)
Inductive hval : Type := HVal (v : dyn) | HRef (a : nat).
Definition heap : Type := list (gomap hval).

(** parser: complex.go 118-125.  The logger is the sequence of derivations it was
    made by, the map logMap has address 0, ptrMap is an address; [p_calls] are the
    calls of Info made so far (derivations and attributes). *)
Record parser : Type := {
  p_in_group : bool;
  p_in_with : bool;
  p_definition : bytes;
  p_ops : list op;
  p_heap : heap;
  p_ptr : nat;
  p_stmt : bytes;
  p_calls : list (list op * list attr)
}.

(** newParser: complex.go 127-138. *)
Definition new_parser (definition : bytes) : parser :=
  {| p_in_group := false; p_in_with := false; p_definition := definition; p_ops := [];
     p_heap := [[]]; p_ptr := 0; p_stmt := B "log"; p_calls := [] |}.

Definition set_definition (d : bytes) (p : parser) : parser :=
  {| p_in_group := p_in_group p; p_in_with := p_in_with p; p_definition := d; p_ops := p_ops p; p_heap := p_heap p;
     p_ptr := p_ptr p; p_stmt := p_stmt p; p_calls := p_calls p |}.
Definition set_in (g w : bool) (p : parser) : parser :=
  {| p_in_group := g; p_in_with := w; p_definition := p_definition p; p_ops := p_ops p; p_heap := p_heap p;
     p_ptr := p_ptr p; p_stmt := p_stmt p; p_calls := p_calls p |}.
(** pushLog: complex.go 161-163. *)
Definition push_log (o : op) (p : parser) : parser :=
  {| p_in_group := p_in_group p; p_in_with := p_in_with p; p_definition := p_definition p; p_ops := p_ops p ++ [o]; p_heap := p_heap p;
     p_ptr := p_ptr p; p_stmt := p_stmt p; p_calls := p_calls p |}.
Definition set_heap (h : heap) (p : parser) : parser :=
  {| p_in_group := p_in_group p; p_in_with := p_in_with p; p_definition := p_definition p; p_ops := p_ops p; p_heap := h;
     p_ptr := p_ptr p; p_stmt := p_stmt p; p_calls := p_calls p |}.
(** pushMap: complex.go 165-167. *)
Definition push_map (a : nat) (p : parser) : parser :=
  {| p_in_group := p_in_group p; p_in_with := p_in_with p; p_definition := p_definition p; p_ops := p_ops p; p_heap := p_heap p;
     p_ptr := a; p_stmt := p_stmt p; p_calls := p_calls p |}.
Definition write_stmt (t : bytes) (p : parser) : parser :=
  {| p_in_group := p_in_group p; p_in_with := p_in_with p; p_definition := p_definition p; p_ops := p_ops p; p_heap := p_heap p;
     p_ptr := p_ptr p; p_stmt := p_stmt p ++ t; p_calls := p_calls p |}.
Definition call_info (attrs : list attr) (p : parser) : parser :=
  {| p_in_group := p_in_group p; p_in_with := p_in_with p; p_definition := p_definition p; p_ops := p_ops p; p_heap := p_heap p;
     p_ptr := p_ptr p; p_stmt := p_stmt p; p_calls := p_calls p ++ [(p_ops p, attrs)] |}.

(** Logger.With of log/slog: without arguments the logger itself. *)
Definition with_args (attrs : list attr) (p : parser) : parser :=
  match attrs with [] => p | _ => push_log (WithAttrs attrs) p end.

(** Change the map at an address. *)
Fixpoint update (a : nat) (f : gomap hval -> gomap hval) (h : heap) : heap :=
  match h, a with
  | [], _ => []
  | m :: h', O => f m :: h'
  | m :: h', S a' => m :: update a' f h'
  end.

(** A byte as a character: string(b) and %c. *)
Definition char_text (c : ascii) : bytes := utf8_encode (code c).

Section Interpreter.
Variable X : tools.
(** Which warnings are marked (HasWarning). *)
Variable mark : warning -> bool.

(** *** Values: addAttrToMap, complex.go 334-381 *)

(** The value of an attribute, [None] if the attribute is left out (367-369).
    [inside] is p.inGroup.  Value.Any of KindAny (337-338) is nil or an object. *)
Fixpoint attr_value (inside : bool) (v : value) : option dyn :=
  match v with
  | VAny AnyNil => Some DNull
  | VBool b => Some (DBool b)
  | VDuration d =>
      Some (if mark group_duration && inside then DNum (x_int X d)
            else if mark duration_string then DStr (x_duration X d)
            else if mark duration_seconds then DNum (x_seconds X d)
            else if mark duration_millis then DNum (x_int X (Z.quot d 1000000))
            else DNum (x_int X d))
  | VFloat64 (FFin t) => Some (DNum (x_float X t))
  | VInt64 i => Some (DNum (x_int X i))
  | VString s => Some (DStr s)
  | VUint64 u => Some (DNum (x_int X (Z.of_N u)))
  | VGroup l =>
      Some (DMap
        ((fix go (l : list (bytes * value)) (m : dmap) : dmap :=
            match l with
            | [] => m
            | (k, w) :: l' => go l' (match attr_value inside w with Some d => put k d m | None => m end)
            end) l []))
  | VLogValuer next _ =>
      if mark resolver then None
      else Some (DStr (match next with VString s => s | _ => x_string X next end))
  | _ => Some (x_other X v)
  end.

(** addAttrsToMap: complex.go 383-390, on a map in the heap. *)
Definition add_attrs_to (inside : bool) (m : gomap hval) (attrs : list attr) : gomap hval :=
  fold_left (fun m a => match attr_value inside (snd a) with Some d => put (fst a) (HVal d) m | None => m end) attrs m.

Definition add_attrs_at (a : nat) (attrs : list attr) (p : parser) : parser :=
  set_heap (update a (fun m => add_attrs_to (p_in_group p) m attrs) (p_heap p)) p.

(** addAttrs: complex.go 330-332. *)
Definition add_attrs (attrs : list attr) (p : parser) : parser := add_attrs_at (p_ptr p) attrs p.

(** getAttrs: complex.go 392-405.  [None]: the error. *)
Definition get_attrs (p : parser) : parser * option (list attr * ascii) :=
  match p_definition p with
  | plus :: c :: rest =>
      if Ascii.eqb plus "+"%char then
        (set_definition rest p, match x_table X c with Some l => Some (l, c) | None => None end)
      else (p, Some ([], zero))
  | _ => (p, Some ([], zero))
  end.

(** *** Instructions: execute, complex.go 179-259.  The boolean is false if an
    error is returned. *)
Definition exec_group (p : parser) : parser * bool :=
  let (name, p) := match p_definition p with
                   | c :: rest => (B "group" ++ char_text c, set_definition rest p)
                   | [] => (B "group", p)
                   end in
  let new := length (p_heap p) in
  let p := set_heap (update (p_ptr p) (put name (HRef new)) (p_heap p) ++ [[]]) p in
  let p := push_log (WithGroup name) p in
  let p := write_stmt (B ".WithGroup(" ++ [quote] ++ name ++ [quote] ++ B ")") p in
  let p := set_in true false (push_map new p) in
  match get_attrs p with
  | (p, None) => (p, false)
  | (p, Some ([], _)) => (p, true)
  | (p, Some (attrs, c)) =>
      let p := with_args attrs p in
      let p := write_stmt (B ".With('" ++ char_text c ++ B "')") p in
      let p := set_in (p_in_group p) true p in
      (if mark group_with_top then add_attrs_at 0 attrs p else add_attrs attrs p, true)
  end.

Definition exec_message (p : parser) : parser * bool :=
  match get_attrs p with
  | (p, None) => (p, false)
  | (p, Some (attrs, c)) =>
      let p := call_info attrs p in
      let p := write_stmt (B ".Info(" ++ [quote] ++ test_message ++ [quote] ++
                           match attrs with [] => [] | _ => B ", '" ++ char_text c ++ B "'" end ++ B ")") p in
      let p := set_heap (update 0 (fun m => put MessageKey (HVal (DStr test_message)) (put LevelKey (HVal (DStr (B "INFO"))) m)) (p_heap p)) p in
      (if mark group_attr_msg_top && (negb (p_in_group p) || p_in_with p) then add_attrs_at 0 attrs p
       else add_attrs attrs p, true)
  end.

Definition exec_with (p : parser) : parser * bool :=
  match get_attrs p with
  | (p, None) => (p, false)
  | (p, Some (attrs, c)) =>
      (add_attrs attrs (write_stmt (B ".With(" ++ [quote] ++ char_text c ++ [quote] ++ B ")") (with_args attrs p)), true)
  end.

Definition execute (p : parser) : parser * bool :=
  match p_definition p with
  | [] => (p, true)                                             (* not called: parse, 169-177 *)
  | c :: rest =>
      let p := set_definition rest p in
      if Ascii.eqb c " "%char then (p, true)
      else if Ascii.eqb c "G"%char then exec_group p
      else if Ascii.eqb c "M"%char then exec_message p
      else if Ascii.eqb c "W"%char then exec_with p
      else (p, false)
  end.

(** parse: complex.go 169-177.  Every instruction takes at least one byte of the
    definition, so its length is enough fuel. *)
Fixpoint parse_n (n : nat) (p : parser) : parser * bool :=
  match n with
  | O => (p, true)
  | S n' =>
      match p_definition p with
      | [] => (p, true)
      | _ => match execute p with
             | (p', true) => parse_n n' p'
             | (p', false) => (p', false)
             end
      end
  end.
Definition parse (p : parser) : parser * bool := parse_n (length (p_definition p)) p.

(** *** Results *)

(** The content of the map at an address.  A map is referred to only from maps
    with smaller addresses, so the size of the heap is enough fuel. *)
Fixpoint tree (n : nat) (h : heap) (a : nat) : dmap :=
  map (fun e => (fst e, match snd e with
                        | HVal v => v
                        | HRef b => DMap (match n with O => [] | S n' => tree n' h b end)
                        end)) (nth a h []).

(** removeEmptyGroups: complex.go 278-297.  (The last case, a LogValuer in the
    map, does not occur: KindAny excludes LogValuers.) *)
Fixpoint remove_in (v : dyn) (depth : nat) {struct v} : dyn :=
  match v with
  | DMap l => DMap
      ((fix go (l : list (bytes * dyn)) : list (bytes * dyn) :=
          match l with
          | [] => []
          | (k, w) :: l' =>
              match w with
              | DMap g =>
                  let w' := if Nat.ltb 0 (length g) then remove_in w (S depth) else w in
                  let gone := match w' with DMap [] => true | _ => false end in
                  if Nat.ltb 0 depth || negb (mark group_empty)
                  then if gone then go l' else (k, w') :: go l'
                  else if mark group_empty
                  then if gone then go l' else (k, w') :: go l'
                  else (k, w') :: go l'
              | _ => (k, w) :: go l'
              end
          end) l)
  | _ => v
  end.
Definition remove_empty_groups (m : dmap) (depth : nat) : dmap :=
  match remove_in (DMap m) depth with DMap m' => m' | _ => m end.

(** expected: complex.go 149-152. *)
Definition expected (p : parser) : dmap := remove_empty_groups (tree (length (p_heap p)) (p_heap p) 0) 1.

(** fixActual: complex.go 261-276. *)
Definition fix_actual (cs : casing) (m : dmap) : dmap :=
  let m := drop TimeKey m in
  let m := match get (B "message") m with
           | Some v => drop (B "message") (put MessageKey v m)
           | None => m
           end in
  let m := if mark level_case then
             match get LevelKey m with
             | Some (DStr s) => put LevelKey (DStr (map_runes (cs_upper cs) s)) m
             | _ => m
             end
           else m in
  remove_empty_groups m 0.

(** *** One case: complex.go 91-108

    What goes wrong: parse fails (92); the output is not JSON (logMap, utility.go
    42-50), which ends the test; the assertion of equality fails (103-105). *)
Inductive failure : Type := Bad_program (definition : bytes) | Not_json | Differs (definition : bytes).

(** The failures, and the mismatch noted; [None]: the test has ended.  reflect.DeepEqual
    tells a nil map from an empty one; testify's Equal is reflect.DeepEqual here. *)
Definition complex_case (E : env) (definition captured : bytes) : list failure * option (option (bytes * bytes)) :=
  let (p, ok) := parse (new_parser definition) in
  let bad := if ok then [] else [Bad_program definition] in
  match e_unmarshal E captured with
  | (_, Some _) => (bad ++ [Not_json], None)
  | (actual, None) =>
      let equal := match actual with
                   | Some m => deep_equal (DMap (expected p)) (DMap (fix_actual (e_casing E) m))
                   | None => false
                   end in
      (bad ++ (if negb (mark mismatch) && negb equal then [Differs definition] else []),
       Some (if equal then None else Some (definition, p_stmt p)))
  end.

(** All cases: complex.go 81-108; the map mismatches. *)
Fixpoint complex_cases (E : env) (cases : list (bytes * bytes)) (mm : gomap bytes) : list failure * option (gomap bytes) :=
  match cases with
  | [] => ([], Some mm)
  | (d, captured) :: rest =>
      match complex_case E d captured with
      | (f, None) => (f, None)
      | (f, Some x) =>
          let (f', r) := complex_cases E rest (match x with Some (d, s) => put d s mm | None => mm end) in
          (f ++ f', r)
      end
  end.
End Interpreter.

(** fmt's padding: %18s and %3d. *)
Definition pad_left (n : nat) (s : bytes) : bytes := repeat " "%char (n - length (runes s)) ++ s.

(** TestComplexCases: complex.go 74-114, on the test programs with what was
    captured for each.  The order of the range loop over mismatches is the order
    of the list.  Debug output is left out.  skipTest: utility.go 55-62. *)
Definition test_complex (X : tools) (E : env) (cases : list (bytes * bytes)) (m : manager) : list failure * manager :=
  if has_warning (e_use E) skip_dedup m then
    ([], add_warning skipping_test (e_fn E) (w_name skip_dedup) []
           (add_warning skip_dedup (e_fn E) (B "Skipping test") [] m))
  else
    match complex_cases X (fun w => has_warning (e_use E) w m) E cases [] with
    | (f, None) => (f, m)
    | (f, Some []) => (f, m)
    | (f, Some mm) =>
        let text := pad_left 3 (dec_of_N (N.of_nat (length mm))) ++ B " Mismatches:" ++ [newline] ++
                    join_with [newline] (map (fun e => pad_left 18 (fst e) ++ B ": " ++ snd e) mm) in
        (f, add_warning mismatch (e_fn E) text (last (map snd cases) []) m)
    end.

(** ** The table and the programs *)

(** tests: complex.go 20-56. *)
Definition programs : list bytes := [
  B "               M";
  B "               M+A";
  B "               M+B";
  B "W+A            M";
  B "W+A            M+B";
  B "G1             M";
  B "G1             M+A";
  B "G1             M+B";
  B "G1+A           M";
  B "G1+A           M+B";
  B "G1+C           M+B";
  B "G1   G2        M";
  B "G1   G2        M+C";
  B "G1+A G2        M";
  B "G1+A G2        M+C";
  B "G1   G2+B      M";
  B "G1   G2+B      M+C";
  B "G1+A G2+B      M";
  B "G1+A G2+B      M+C";
  B "G1   G2   G3   M";
  B "G1   G2   G3   M+C";
  B "G1+A G2   G3   M";
  B "G1+A G2   G3   M+C";
  B "G1   G2+B G3   M";
  B "G1   G2+B G3   M+C";
  B "G1   G2   G3+C M";
  B "G1   G2   G3+C M+B";
  B "G1+A G2+B G3   M";
  B "G1+A G2+B G3   M+C";
  B "G1+A G2   G3+C M";
  B "G1+A G2   G3+C M+B";
  B "G1   G2+B G3+C M";
  B "G1   G2+B G3+C M+A";
  B "G1+A G2+B G3+C M";
  B "G1+A G2+B G3+C M+D"
].

(** Attributes: complex.go 304-328.  [now] is time.Now().Format(time.RFC3339),
    [pi] and [e] are the texts of math.Pi and math.E, [o] is what the handlers
    observe of a hiddenValuer. *)
Definition attributes_table (now pi e : bytes) (o : any_obs) (c : ascii) : option (list attr) :=
  if Ascii.eqb c "A"%char then Some
    [(B "string", VString (B "value")); (B "int", VInt64 (-13)); (B "uint", VUint64 23)]
  else if Ascii.eqb c "B"%char then Some
    [(B "aTime", VString now); (B "bool", VBool true); (B "duration", VDuration 3802000000000)]
  else if Ascii.eqb c "C"%char then Some
    [(B "groupC", VGroup [(B "name", VString (B "Goober Snoofus")); (B "skidoo", VInt64 23); (B "pi", VFloat64 (FFin pi))]);
     (B "bool", VBool false); (B "valuer", VLogValuer (VString (B "Big Tree")) o); (B "duration", VDuration 1429000000000)]
  else if Ascii.eqb c "D"%char then Some
    [(B "E", VFloat64 (FFin e)); (B "uint64", VUint64 79)]
  else None.
