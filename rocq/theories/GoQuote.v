(** Model of [strconv.Quote] (Go 1.22), which sloggy uses for every string, and
    of the decoding of UTF-8 it relies on.  Which code points above 127 are
    printable is a parameter. *)

From Coq Require Import Ascii String List ZArith NArith Bool.
From Verif Require Import Bytes.
Import ListNotations.

(** [utf8.DecodeRuneInString]: the first code point and the rest; [None] for the
    empty string and where Go returns (RuneError, 1). *)
Definition decode_rune (s : bytes) : option (N * bytes) :=
  match s with
  | [] => None
  | c0 :: r0 =>
    if N.ltb (code c0) 128 then Some (code c0, r0)
    else match r0 with
    | [] => None
    | c1 :: r1 =>
      if btw 194 223 c0 then
        if cont c1 then Some ((code c0 - 192) * 64 + (code c1 - 128), r1)%N else None
      else match r1 with
      | [] => None
      | c2 :: r2 =>
        if btw 224 239 c0 then
          if (if N.eqb (code c0) 224 then btw 160 191 c1
              else if N.eqb (code c0) 237 then btw 128 159 c1 else cont c1) && cont c2
          then Some ((code c0 - 224) * 4096 + (code c1 - 128) * 64 + (code c2 - 128), r2)%N else None
        else match r2 with
        | [] => None
        | c3 :: r3 =>
          if btw 240 244 c0 then
            if (if N.eqb (code c0) 240 then btw 144 191 c1
                else if N.eqb (code c0) 244 then btw 128 143 c1 else cont c1) && cont c2 && cont c3
            then Some ((code c0 - 240) * 262144 + (code c1 - 128) * 4096 + (code c2 - 128) * 64
                       + (code c3 - 128), r3)%N
            else None
          else None
        end
      end
    end
  end.

(** [lowerhex[n]]. *)
Definition lower_hex (n : N) : ascii :=
  if N.ltb n 10 then chr (48 + n) else chr (87 + n).

(** The last [k] hexadecimal digits of [n]. *)
Fixpoint hex_digits (k : nat) (n : N) : bytes :=
  match k with
  | O => []
  | S k' => hex_digits k' (N.div n 16) ++ [lower_hex (N.modulo n 16)]
  end.

Section Quote.
Variable print : N -> bool.

(** [strconv.IsPrint]. *)
Definition is_print (r : N) : bool :=
  if N.ltb r 128 then N.leb 32 r && N.ltb r 127 else print r.

(** [strconv.appendEscapedRune] with a double quote, ASCIIonly and graphicOnly
    false.  (A decoded code point is always valid.) *)
Definition escape_rune (r : N) : bytes :=
  if N.eqb r 34 || N.eqb r 92 then [backslash; chr r]
  else if is_print r then utf8_encode r
  else if N.eqb r 7 then B "\a"
  else if N.eqb r 8 then B "\b"
  else if N.eqb r 12 then B "\f"
  else if N.eqb r 10 then B "\n"
  else if N.eqb r 13 then B "\r"
  else if N.eqb r 9 then B "\t"
  else if N.eqb r 11 then B "\v"
  else if N.ltb r 32 || N.eqb r 127 then B "\x" ++ hex_digits 2 r
  else if N.ltb r 65536 then B "\u" ++ hex_digits 4 r
  else B "\U" ++ hex_digits 8 r.

(** The loop of [strconv.appendQuotedWith]; [n] bounds the number of characters. *)
Fixpoint quote_loop (n : nat) (s : bytes) : bytes :=
  match n, s with
  | O, _ | _, [] => []
  | S n', c :: r =>
    match decode_rune s with
    | Some (u, rest) => escape_rune u ++ quote_loop n' rest
    | None => B "\x" ++ hex_digits 2 (code c) ++ quote_loop n' r
    end
  end.

(** [strconv.Quote]. *)
Definition go_quote (s : bytes) : bytes := quote :: quote_loop (length s) s ++ [quote].

End Quote.
