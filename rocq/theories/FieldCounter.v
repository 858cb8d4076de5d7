(** Model of internal/json/field.go: the counter of the fields of a JSON object.

    The texts of errors are left out; an error says only whether it wraps
    [io.EOF].  The fields charLoc and recent (26-27) serve those texts alone and
    are left out too. *)

From Coq Require Import Ascii String List NArith Bool Arith.
From Verif Require Import Bytes GoQuote Replace.
Import ListNotations.

(** Go's [unicode.IsSpace], [unicode.IsLetter], [unicode.IsDigit] and
    [unicode.ToLower]. *)
Record classes : Type := {
  u_space  : N -> bool;
  u_letter : N -> bool;
  u_digit  : N -> bool;
  u_lower  : N -> N
}.

(** What readRune yields: field.go 355-368, a newline turned into a space.
    unreadRune (370-379) puts the last rune back, to be read again with the same
    result; every call of it follows a read, so that it never fails. *)
Definition input (src : bytes) : list N :=
  map (fun r => if N.eqb r 10 then 32%N else r) (runes src).

(** A builder's text. *)
Definition built (rs : list N) : bytes := concat (map utf8_encode rs).

(** The map from names to counts: field.go 21. *)
Definition counts : Type := list (bytes * N).

Fixpoint count_of (k : bytes) (c : counts) : option N :=
  match c with
  | [] => None
  | (k', n) :: c' => if beq k' k then Some n else count_of k c'
  end.

(** [ctr.counts[field]++] *)
Fixpoint bump (k : bytes) (c : counts) : counts :=
  match c with
  | [] => [(k, 1%N)]
  | (k', n) :: c' => if beq k' k then (k', (n + 1)%N) :: c' else (k', n) :: bump k c'
  end.

(** [delete(ctr.counts, field)] *)
Definition delete (k : bytes) (c : counts) : counts := filter (fun e => negb (beq (fst e) k)) c.

(** The counter: counts and input not read yet. *)
Definition cstate : Type := counts * list N.

(** What a parse function returns, and the state it leaves. *)
Inductive result : Type :=
| Ok (st : cstate)
| Err (eof : bool) (st : cstate).

(** parseString: field.go 277-300; the runes read, whether an escape was cut
    off, the rest. *)
Fixpoint parse_string (s : list N) : list N * bool * list N :=
  match s with
  | [] => ([], false, [])
  | r :: t =>
    if N.eqb r 92 then
      match t with
      | [] => ([r], true, [])
      | e :: t' => let '(a, cut, rest) := parse_string t' in (r :: e :: a, cut, rest)
      end
    else if N.eqb r 34 then ([], false, t)
    else let '(a, cut, rest) := parse_string t in (r :: a, cut, rest)
  end.

(** parseKeyword after the first rune: field.go 194-208. *)
Fixpoint parse_keyword (u : classes) (s : list N) : list N * list N :=
  match s with
  | r :: t => if u_letter u r then let (a, rest) := parse_keyword u t in (r :: a, rest) else ([], s)
  | [] => ([], [])
  end.

(** The flags of parseNumber: field.go 211-213. *)
Record numflags : Type := { n_decimal : bool; n_exponent : bool; n_sign : bool }.

Inductive numstep : Type := NGo (f : numflags) | NStop | NBad.

(** The body of parseNumber's loop: field.go 214-247. *)
Definition num_step (u : classes) (f : numflags) (r : N) : numstep :=
  if u_digit u r then NGo f
  else if N.eqb r 46 then                                  (* . *)
    if n_exponent f then NBad else if n_decimal f then NBad
    else NGo {| n_decimal := true; n_exponent := n_exponent f; n_sign := n_sign f |}
  else if N.eqb r 101 || N.eqb r 69 then                   (* e E *)
    if n_exponent f then NBad
    else NGo {| n_decimal := n_decimal f; n_exponent := true; n_sign := n_sign f |}
  else if N.eqb r 45 || N.eqb r 43 then                    (* - + *)
    if negb (n_exponent f) then NBad else if n_sign f then NBad
    else NGo {| n_decimal := n_decimal f; n_exponent := n_exponent f; n_sign := true |}
  else NStop.

(** parseNumber: field.go 210-247; [None] for an error. *)
Fixpoint parse_number (u : classes) (f : numflags) (s : list N) : option (list N) :=
  match s with
  | [] => Some []
  | r :: t => match num_step u f r with NGo f' => parse_number u f' t | NStop => Some s | NBad => None end
  end.

Definition num_start : numflags := {| n_decimal := false; n_exponent := false; n_sign := false |}.

(** runeKeywords: field.go 308-315. *)
Definition keyword_rune (r : N) : bool := existsb (N.eqb r) [116; 84; 102; 70; 110; 78]%N.

(** goodKeywords: field.go 302-306. *)
Definition good_keyword (u : classes) (rs : list N) : bool :=
  existsb (beq (map_runes (u_lower u) (built rs))) [B "true"; B "false"; B "null"].

(** The functions that call each other.  Every call and every turn of a loop
    takes one unit of fuel; [None] means that it ran out. *)

(** parseValue: field.go 317-344. *)
Fixpoint parse_value (n : nat) (u : classes) (st : cstate) {struct n} : option result :=
  match n with
  | O => None
  | S n' =>
    let (c, s) := st in
    match s with
    | [] => Some (Ok (c, []))
    | r :: t =>
      if u_space u r then parse_value n' u (c, t)
      else if keyword_rune r then
        let (a, rest) := parse_keyword u t in
        if good_keyword u (r :: a) then Some (Ok (c, rest)) else Some (Err false (c, rest))
      else if N.eqb r 34 then
        let '(_, cut, rest) := parse_string t in
        Some (if cut then Err true (c, rest) else Ok (c, rest))
      else if u_digit u r || N.eqb r 45 then
        match parse_number u num_start t with
        | Some rest => Some (Ok (c, rest))
        | None => Some (Err false (c, []))
        end
      else if N.eqb r 91 then parse_array n' u false (c, t)
      else if N.eqb r 123 then parse_object n' u false false (c, t)
      else Some (Err false (c, t))
    end
  end

(** parseArray: field.go 141-165. *)
with parse_array (n : nat) (u : classes) (expect_comma : bool) (st : cstate) {struct n} : option result :=
  match n with
  | O => None
  | S n' =>
    let (c, s) := st in
    match s with
    | [] => Some (Ok (c, []))
    | r :: t =>
      if u_space u r then parse_array n' u expect_comma (c, t)
      else if N.eqb r 44 then
        if expect_comma then parse_array n' u false (c, t) else Some (Err false (c, t))
      else if N.eqb r 93 then Some (Ok (c, t))
      else if expect_comma then Some (Err false (c, t))
      else match parse_value n' u (c, s) with
           | Some (Ok st') => parse_array n' u true st'
           | r => r
           end
    end
  end

(** parseField: field.go 167-192. *)
with parse_field (n : nat) (u : classes) (field : bytes) (expect_colon : bool) (st : cstate) {struct n} : option result :=
  match n with
  | O => None
  | S n' =>
    let (c, s) := st in
    match s with
    | [] => Some (Ok (c, []))
    | r :: t =>
      if u_space u r then parse_field n' u field expect_colon (c, t)
      else if N.eqb r 58 then
        if expect_colon then parse_field n' u field false (c, t) else Some (Err false (c, t))
      else if expect_colon then Some (Err false (c, t))
      else if N.eqb r 123 then
        if beq field (B "fields") then parse_object n' u true false (delete field c, t)
        else parse_object n' u false false (c, t)
      else if N.eqb r 91 then parse_array n' u false (c, t)
      else parse_value n' u (c, s)
    end
  end

(** parseObject: field.go 249-275. *)
with parse_object (n : nat) (u : classes) (count expect_comma : bool) (st : cstate) {struct n} : option result :=
  match n with
  | O => None
  | S n' =>
    let (c, s) := st in
    match s with
    | [] => Some (Ok (c, []))
    | r :: t =>
      if u_space u r then parse_object n' u count expect_comma (c, t)
      else if N.eqb r 44 then
        if expect_comma then parse_object n' u count false (c, t) else Some (Err false (c, t))
      else if N.eqb r 34 then
        if expect_comma then Some (Err false (c, t))
        else
          let '(a, cut, rest) := parse_string t in
          if cut then Some (Err true (c, rest))
          else
            let field := built a in
            match parse_field n' u field true (if count then bump field c else c, rest) with
            | Some (Ok st') => parse_object n' u count true st'
            | r => r
            end
      else if N.eqb r 125 then Some (Ok (c, t))
      else Some (Err false (c, t))
    end
  end.

(** Parse: field.go 125-139.  Formatting the counter for the text of an error
    reads fifteen runes more (91-105); where the error wraps io.EOF the loop
    then goes on. *)
Fixpoint parse_top (n : nat) (u : classes) (st : cstate) : option result :=
  match n with
  | O => None
  | S n' =>
    let (c, s) := st in
    match s with
    | [] => Some (Ok (c, []))
    | r :: t =>
      if u_space u r then parse_top n' u (c, t)
      else if N.eqb r 123 then
        match parse_object n' u true false (c, t) with
        | Some (Err true (c', s')) => parse_top n' u (c', skipn 15 s')
        | r => r
        end
      else Some (Err false (c, t))
    end
  end.

(** NewFieldCounter (28-33) and Parse. *)
Definition count_fields (u : classes) (src : bytes) : option result :=
  parse_top (2 * length src + 3) u ([], input src).

(** Duplicates: field.go 38-46. *)
Definition duplicates (c : counts) : counts := filter (fun e => N.ltb 1 (snd e)) c.

(** Fields: field.go 50-57. *)
Fixpoint insert_name (x : bytes) (l : list bytes) : list bytes :=
  match l with
  | [] => [x]
  | y :: l' => if blt y x then y :: insert_name x l' else x :: l
  end.
Fixpoint sort_names (l : list bytes) : list bytes :=
  match l with [] => [] | x :: l' => insert_name x (sort_names l') end.
Definition fields_of (c : counts) : list bytes := sort_names (map fst c).

(** NumFields: field.go 60-62. *)
Definition num_fields (c : counts) : nat := length c.

(** noDuplicates: bench/tests/checks.go 164-174.  The counter is new and has not
    parsed anything; the answer is whether an error is returned.  (The log map
    fetched first is not used, its own warnings are left out.) *)
Definition no_duplicates_fails (captured : bytes) : bool :=
  let counter : counts := [] in
  Nat.ltb 0 (length (duplicates counter)).
