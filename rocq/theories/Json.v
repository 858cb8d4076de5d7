(** Specification of JSON text (RFC 8259), independent of the handlers.

    [parse_json] is a strict recursive-descent parser.  Object members are kept
    in order with duplicates; strings are decoded; numbers keep their text.
    [jtext] is the corresponding grammar. *)

From Coq Require Import Ascii String List ZArith NArith Bool.
From Verif Require Import Bytes.
Import ListNotations.

Inductive json : Type :=
| JNull
| JBool (b : bool)
| JNum (t : bytes)
| JStr (s : bytes)
| JArr (l : list json)
| JObj (l : list (bytes * json)).

Definition fields := list (bytes * json).

(** ** Lexical classes *)

Definition is_ws (c : ascii) : bool :=
  match code c with 32%N | 9%N | 10%N | 13%N => true | _ => false end.

Fixpoint skip_ws (s : bytes) : bytes :=
  match s with
  | c :: r => if is_ws c then skip_ws r else s
  | [] => []
  end.

Definition hex_val (c : ascii) : option N :=
  let n := code c in
  if btw 48 57 c then Some (n - 48)%N
  else if btw 65 70 c then Some (n - 55)%N
  else if btw 97 102 c then Some (n - 87)%N
  else None.

Definition hex4 (a b c d : ascii) : option N :=
  match hex_val a, hex_val b, hex_val c, hex_val d with
  | Some a, Some b, Some c, Some d => Some (a * 4096 + b * 256 + c * 16 + d)%N
  | _, _, _, _ => None
  end.

(** The two-character escapes. *)
Definition simple_escape (c : ascii) : option ascii :=
  match code c with
  | 34%N => Some quote          (* quote *)
  | 92%N => Some backslash      (* backslash *)
  | 47%N => Some (chr 47)       (* slash *)
  | 98%N => Some (chr 8)        (* \b *)
  | 102%N => Some (chr 12)      (* \f *)
  | 110%N => Some (chr 10)      (* \n *)
  | 114%N => Some (chr 13)      (* \r *)
  | 116%N => Some (chr 9)       (* \t *)
  | _ => None
  end.

Definition high_surrogate (n : N) : bool := N.leb 55296 n && N.leb n 56319.
Definition low_surrogate (n : N) : bool := N.leb 56320 n && N.leb n 57343.
Definition pair_value (h l : N) : N := (65536 + (h - 55296) * 1024 + (l - 56320))%N.

Definition prepend (p : bytes) (r : option (bytes * bytes)) : option (bytes * bytes) :=
  match r with Some (s, rest) => Some (p ++ s, rest) | None => None end.

(** Body of a string after the opening quote: decoded text and what follows
    the closing quote. *)
Fixpoint parse_body (s : bytes) : option (bytes * bytes) :=
  match s with
  | [] => None
  | c :: r =>
    if Ascii.eqb c quote then Some ([], r)
    else if Ascii.eqb c backslash then
      match r with
      | [] => None
      | e :: r1 =>
        if Ascii.eqb e (chr 117) then
          match r1 with
          | h1 :: h2 :: h3 :: h4 :: r2 =>
            match hex4 h1 h2 h3 h4 with
            | None => None
            | Some n =>
              if high_surrogate n then
                match r2 with
                | b' :: u' :: l1 :: l2 :: l3 :: l4 :: r3 =>
                  if Ascii.eqb b' backslash && Ascii.eqb u' (chr 117) then
                    match hex4 l1 l2 l3 l4 with
                    | Some m => if low_surrogate m
                                then prepend (utf8_encode (pair_value n m)) (parse_body r3)
                                else None
                    | None => None
                    end
                  else None
                | _ => None
                end
              else if low_surrogate n then None
              else prepend (utf8_encode n) (parse_body r2)
            end
          | _ => None
          end
        else match simple_escape e with
             | Some d => prepend [d] (parse_body r1)
             | None => None
             end
      end
    else if N.ltb (code c) 32 then None
    else prepend [c] (parse_body r)
  end.

(** ** Numbers *)

Fixpoint drop_digits (s : bytes) : bytes :=
  match s with c :: r => if is_digit c then drop_digits r else s | [] => [] end.

(** [e] or [E], optional sign, at least one digit. *)
Definition num_exp (s : bytes) : bool :=
  match s with
  | [] => true
  | c :: r =>
    (Ascii.eqb c (chr 101) || Ascii.eqb c (chr 69)) &&
    let r' := match r with
              | d :: r1 => if Ascii.eqb d (chr 43) || Ascii.eqb d (chr 45) then r1 else r
              | [] => r
              end in
    match r' with
    | d :: r2 => is_digit d && match drop_digits r2 with [] => true | _ => false end
    | [] => false
    end
  end.

Definition num_frac (s : bytes) : bool :=
  match s with
  | [] => true
  | c :: r =>
    if Ascii.eqb c (chr 46) then
      match r with
      | d :: r1 => is_digit d && num_exp (drop_digits r1)
      | [] => false
      end
    else num_exp s
  end.

Definition num_int (s : bytes) : bool :=
  match s with
  | [] => false
  | c :: r => if Ascii.eqb c (chr 48) then num_frac r
              else is_digit c && num_frac (drop_digits r)
  end.

Definition is_num (s : bytes) : bool :=
  match s with
  | [] => false
  | c :: r => if Ascii.eqb c (chr 45) then num_int r else num_int s
  end.

(** Characters that can occur in a number. *)
Definition num_char (c : ascii) : bool :=
  is_digit c || Ascii.eqb c (chr 43) || Ascii.eqb c (chr 45) || Ascii.eqb c (chr 46)
  || Ascii.eqb c (chr 101) || Ascii.eqb c (chr 69).

Fixpoint span_num (s : bytes) : bytes * bytes :=
  match s with
  | c :: r => if num_char c then let (a, b) := span_num r in (c :: a, b) else ([], s)
  | [] => ([], [])
  end.

Fixpoint strip (p s : bytes) : option bytes :=
  match p, s with
  | [], _ => Some s
  | c :: p', d :: s' => if Ascii.eqb c d then strip p' s' else None
  | _ :: _, [] => None
  end.

(** ** Values *)

Fixpoint pval (n : nat) (s : bytes) {struct n} : option (json * bytes) :=
  match n with
  | O => None
  | S n' =>
    match s with
    | [] => None
    | c :: r =>
      if Ascii.eqb c quote then
        match parse_body r with Some (t, r') => Some (JStr t, r') | None => None end
      else if Ascii.eqb c (chr 123) then            (* { *)
        match skip_ws r with
        | d :: r' => if Ascii.eqb d (chr 125) then Some (JObj [], r')
                     else match pmembers n' (d :: r') with
                          | Some (l, r'') => Some (JObj l, r'')
                          | None => None
                          end
        | [] => None
        end
      else if Ascii.eqb c (chr 91) then             (* [ *)
        match skip_ws r with
        | d :: r' => if Ascii.eqb d (chr 93) then Some (JArr [], r')
                     else match pelems n' (d :: r') with
                          | Some (l, r'') => Some (JArr l, r'')
                          | None => None
                          end
        | [] => None
        end
      else match strip (B "true") s with
      | Some r' => Some (JBool true, r')
      | None => match strip (B "false") s with
        | Some r' => Some (JBool false, r')
        | None => match strip (B "null") s with
          | Some r' => Some (JNull, r')
          | None => let (t, r') := span_num s in
                    if is_num t then Some (JNum t, r') else None
          end
        end
      end
    end
  end
with pelems (n : nat) (s : bytes) {struct n} : option (list json * bytes) :=
  match n with
  | O => None
  | S n' =>
    match pval n' (skip_ws s) with
    | None => None
    | Some (v, r) =>
      match skip_ws r with
      | c :: r' =>
        if Ascii.eqb c (chr 93) then Some ([v], r')
        else if Ascii.eqb c (chr 44) then
          match pelems n' r' with Some (l, r'') => Some (v :: l, r'') | None => None end
        else None
      | [] => None
      end
    end
  end
with pmembers (n : nat) (s : bytes) {struct n} : option (fields * bytes) :=
  match n with
  | O => None
  | S n' =>
    match skip_ws s with
    | q :: r0 =>
      if Ascii.eqb q quote then
        match parse_body r0 with
        | None => None
        | Some (k, r1) =>
          match skip_ws r1 with
          | c :: r2 =>
            if Ascii.eqb c (chr 58) then
              match pval n' (skip_ws r2) with
              | None => None
              | Some (v, r3) =>
                match skip_ws r3 with
                | d :: r4 =>
                  if Ascii.eqb d (chr 125) then Some ([(k, v)], r4)
                  else if Ascii.eqb d (chr 44) then
                    match pmembers n' r4 with
                    | Some (l, r5) => Some ((k, v) :: l, r5)
                    | None => None
                    end
                  else None
                | [] => None
                end
              end
            else None
          | [] => None
          end
        end
      else None
    | [] => None
    end
  end.

Definition parse_json (s : bytes) : option json :=
  match pval (S (2 * length s)) (skip_ws s) with
  | Some (v, r) => match skip_ws r with [] => Some v | _ => None end
  | None => None
  end.

(** ** Grammar *)

Definition ws (s : bytes) : Prop := forallb is_ws s = true.

(** A character that stands for itself inside a string. *)
Definition plain_char (c : ascii) : bool :=
  N.leb 32 (code c) && negb (Ascii.eqb c quote) && negb (Ascii.eqb c backslash).

(** [jbody s b]: the string body [b] denotes [s]. *)
Inductive jbody : bytes -> bytes -> Prop :=
| jb_nil : jbody [] []
| jb_plain c s b : plain_char c = true -> jbody s b -> jbody (c :: s) (c :: b)
| jb_simple e d s b : simple_escape e = Some d -> jbody s b ->
    jbody (d :: s) (backslash :: e :: b)
| jb_unicode h1 h2 h3 h4 n s b : hex4 h1 h2 h3 h4 = Some n ->
    high_surrogate n = false -> low_surrogate n = false -> jbody s b ->
    jbody (utf8_encode n ++ s) (backslash :: chr 117 :: h1 :: h2 :: h3 :: h4 :: b)
| jb_pair h1 h2 h3 h4 n l1 l2 l3 l4 m s b :
    hex4 h1 h2 h3 h4 = Some n -> hex4 l1 l2 l3 l4 = Some m ->
    high_surrogate n = true -> low_surrogate m = true -> jbody s b ->
    jbody (utf8_encode (pair_value n m) ++ s)
          (backslash :: chr 117 :: h1 :: h2 :: h3 :: h4 ::
           backslash :: chr 117 :: l1 :: l2 :: l3 :: l4 :: b).

Inductive jtext : json -> bytes -> Prop :=
| jt_null : jtext JNull (B "null")
| jt_true : jtext (JBool true) (B "true")
| jt_false : jtext (JBool false) (B "false")
| jt_num t : is_num t = true -> jtext (JNum t) t
| jt_str s b : jbody s b -> jtext (JStr s) (quote :: b ++ [quote])
| jt_arr0 w : ws w -> jtext (JArr []) (chr 91 :: w ++ [chr 93])
| jt_arr l b : jelems l b -> jtext (JArr l) (chr 91 :: b ++ [chr 93])
| jt_obj0 w : ws w -> jtext (JObj []) (chr 123 :: w ++ [chr 125])
| jt_obj l b : jmembers l b -> jtext (JObj l) (chr 123 :: b ++ [chr 125])
with jelems : list json -> bytes -> Prop :=
| je_one v w1 b w2 : ws w1 -> jtext v b -> ws w2 -> jelems [v] (w1 ++ b ++ w2)
| je_cons v w1 b w2 l t : ws w1 -> jtext v b -> ws w2 -> jelems l t ->
    jelems (v :: l) (w1 ++ b ++ w2 ++ chr 44 :: t)
with jmembers : fields -> bytes -> Prop :=
| jm_one k kb v w1 w2 w3 b w4 : ws w1 -> jbody k kb -> ws w2 -> ws w3 -> jtext v b -> ws w4 ->
    jmembers [(k, v)] (w1 ++ quote :: kb ++ quote :: w2 ++ chr 58 :: w3 ++ b ++ w4)
| jm_cons k kb v w1 w2 w3 b w4 l t :
    ws w1 -> jbody k kb -> ws w2 -> ws w3 -> jtext v b -> ws w4 -> jmembers l t ->
    jmembers ((k, v) :: l)
      (w1 ++ quote :: kb ++ quote :: w2 ++ chr 58 :: w3 ++ b ++ w4 ++ chr 44 :: t).

Scheme jtext_ind' := Minimality for jtext Sort Prop
with jelems_ind' := Minimality for jelems Sort Prop
with jmembers_ind' := Minimality for jmembers Sort Prop.
Combined Scheme json_grammar_ind from jtext_ind', jelems_ind', jmembers_ind'.
