(** Unicode text and the strings that Go quoting and JSON agree on. *)

From Coq Require Import Ascii String List ZArith NArith Bool.
From Verif Require Import Bytes Json GoQuote.
Import ListNotations.

(** Unicode scalar values. *)
Definition scalar (r : N) : bool :=
  N.ltb r 55296 || N.leb 57344 r && N.ltb r 1114112.

(** The UTF-8 text of a sequence of code points. *)
Definition text (rs : list N) : bytes := concat (map utf8_encode rs).

(** Code points whose Go escape, if any, is a JSON escape with the same meaning:
    all but BEL, VT, the other control characters without a short escape, DEL,
    and non-printable characters beyond the BMP. *)
Definition json_rune (print : N -> bool) (r : N) : bool :=
  existsb (N.eqb r) [8; 9; 10; 12; 13]%N
  || N.leb 32 r && N.ltb r 127
  || N.leb 128 r && (N.ltb r 65536 || print r).

(** The code points of a text; [None] if it is not UTF-8.  (QuoteProofs.v:
    [code_points s = Some rs] exactly if [rs] are scalar values and [s = text rs].) *)
Fixpoint code_points_n (n : nat) (s : bytes) : option (list N) :=
  match s with
  | [] => Some []
  | _ => match n, decode_rune s with
         | S n', Some (r, rest) => option_map (cons r) (code_points_n n' rest)
         | _, _ => None
         end
  end.

Definition code_points (s : bytes) : option (list N) := code_points_n (length s) s.

(** Text that Go quoting writes as a legal JSON string. *)
Definition json_safe (print : N -> bool) (s : bytes) : bool :=
  match code_points s with Some rs => forallb (json_rune print) rs | None => false end.

(** Neither a control byte nor DEL. *)
Definition visible (c : ascii) : bool := N.leb 32 (code c) && negb (N.eqb (code c) 127).

(** What follows the first quote that no backslash escapes. *)
Fixpoint unquoted (s : bytes) : option bytes :=
  match s with
  | [] => None
  | c :: r => if Ascii.eqb c quote then Some r
              else if Ascii.eqb c backslash then match r with [] => None | _ :: r' => unquoted r' end
              else unquoted r
  end.
