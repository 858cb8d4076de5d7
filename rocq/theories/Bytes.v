(** Byte strings and the few pieces of the Go standard library that the model
    computes itself.  A Go [string] or [[]byte] is a list of [ascii]. *)

From Coq Require Import Ascii String List ZArith NArith Bool.
Import ListNotations.

Definition bytes := list ascii.

(** String literals. *)
Definition B (s : string) : bytes := list_ascii_of_string s.

(** Numeric value of a byte, 0..255. *)
Definition code (c : ascii) : N := N_of_ascii c.
Definition chr (n : N) : ascii := ascii_of_N n.

Arguments code : simpl never.
Arguments chr : simpl never.
Arguments Ascii.eqb : simpl never.

Definition quote : ascii := chr 34.
Definition backslash : ascii := chr 92.
Definition newline : ascii := chr 10.
Definition creturn : ascii := chr 13.
Definition tab : ascii := chr 9.
Definition space : ascii := chr 32.

(** Equality of byte strings, the Go [==] on strings. *)
Fixpoint beq (a b : bytes) : bool :=
  match a, b with
  | [], [] => true
  | x :: a', y :: b' => Ascii.eqb x y && beq a' b'
  | _, _ => false
  end.

(** The Go [<] on strings: lexicographic by byte. *)
Fixpoint blt (a b : bytes) : bool :=
  match a, b with
  | _, [] => false
  | [], _ :: _ => true
  | x :: a', y :: b' =>
      if N.ltb (code x) (code y) then true
      else if N.ltb (code y) (code x) then false
      else blt a' b'
  end.

(** [bytes.HasSuffix(s, {c})]. *)
Fixpoint ends_with (c : ascii) (s : bytes) : bool :=
  match s with
  | [] => false
  | [x] => Ascii.eqb x c
  | _ :: s' => ends_with c s'
  end.

(** Go slice expression [s[i:j]] for [i <= j <= len(s)]. *)
Definition slice (s : bytes) (i j : nat) : bytes := firstn (j - i) (skipn i s).

Definition is_digit (c : ascii) : bool := N.leb 48 (code c) && N.leb (code c) 57.
Definition digit (n : N) : ascii := chr (48 + n).

(** Decimal text of a natural number: [strconv.AppendUint(_, n, 10)]. *)
Fixpoint dec_aux (fuel : nat) (n : N) (acc : bytes) : bytes :=
  match fuel with
  | O => acc
  | S f =>
      let acc' := digit (N.modulo n 10) :: acc in
      if N.ltb n 10 then acc' else dec_aux f (N.div n 10) acc'
  end.
Definition dec_of_N (n : N) : bytes := dec_aux (S (N.size_nat n)) n [].

(** Decimal text of an integer: [strconv.AppendInt(_, z, 10)]. *)
Definition dec_of_Z (z : Z) : bytes :=
  match z with
  | Zneg p => chr 45 :: dec_of_N (Npos p)
  | _ => dec_of_N (Z.to_N z)
  end.

(** ** UTF-8 (RFC 3629)

    [utf8_step s] removes one well-formed character from the front of [s]. *)
Definition cont (c : ascii) : bool := N.leb 128 (code c) && N.leb (code c) 191.
Definition btw (lo hi : N) (c : ascii) : bool := N.leb lo (code c) && N.leb (code c) hi.

Fixpoint valid_utf8 (s : bytes) : bool :=
  match s with
  | [] => true
  | c0 :: r0 =>
      if N.ltb (code c0) 128 then valid_utf8 r0
      else match r0 with
      | [] => false
      | c1 :: r1 =>
        if btw 194 223 c0 then cont c1 && valid_utf8 r1
        else match r1 with
        | [] => false
        | c2 :: r2 =>
          if N.eqb (code c0) 224 then btw 160 191 c1 && cont c2 && valid_utf8 r2
          else if btw 225 236 c0 || btw 238 239 c0 then cont c1 && cont c2 && valid_utf8 r2
          else if N.eqb (code c0) 237 then btw 128 159 c1 && cont c2 && valid_utf8 r2
          else match r2 with
          | [] => false
          | c3 :: r3 =>
            if N.eqb (code c0) 240 then btw 144 191 c1 && cont c2 && cont c3 && valid_utf8 r3
            else if btw 241 243 c0 then cont c1 && cont c2 && cont c3 && valid_utf8 r3
            else if N.eqb (code c0) 244 then btw 128 143 c1 && cont c2 && cont c3 && valid_utf8 r3
            else false
          end
        end
      end
  end.

(** UTF-8 encoding of a code point below 0x110000. *)
Definition utf8_encode (n : N) : bytes :=
  if N.ltb n 128 then [chr n]
  else if N.ltb n 2048 then [chr (192 + N.div n 64); chr (128 + N.modulo n 64)]
  else if N.ltb n 65536 then
    [chr (224 + N.div n 4096); chr (128 + N.modulo (N.div n 64) 64); chr (128 + N.modulo n 64)]
  else
    [chr (240 + N.div n 262144); chr (128 + N.modulo (N.div n 4096) 64);
     chr (128 + N.modulo (N.div n 64) 64); chr (128 + N.modulo n 64)].
