(** C01, C02: flash string escaping. *)

From Coq Require Import Ascii String List ZArith NArith Bool.
From Verif Require Import Bytes Json Slog Flash EscapeProofs.
Import ListNotations.

(** C01.  [string_buf happ b s] is what addString appends to a buffer [b].  For
    valid UTF-8 the appended text is a quoted string whose body an RFC 8259
    decoder reads back as [s], up to the closing quote and no further; the body
    has no control byte and is itself valid UTF-8. *)
Theorem C01_flash_string_lossless : forall b s, valid_utf8 s = true ->
  exists body, string_buf happ b s = b ++ quote :: body ++ [quote] /\
    (forall rest, parse_body (body ++ quote :: rest) = Some (s, rest)) /\
    forallb (fun c => N.leb 32 (code c)) body = true /\ valid_utf8 body = true.
Proof. exact flash_string_lossless. Qed.
Print Assumptions C01_flash_string_lossless.

(** A quote, a newline, a control byte, two- and four-byte characters. *)
Definition sample : bytes :=
  B "a""b\" ++ [newline; chr 1; chr 127; chr 195; chr 169] ++ B "/" ++ [chr 240; chr 159; chr 152; chr 128].

Example C01_sample : valid_utf8 sample = true /\
  string_buf happ [] sample =
    B """a\""b\\\n\u0001\u007F" ++ [chr 195; chr 169] ++ B "\/" ++ [chr 240; chr 159; chr 152; chr 128] ++ B """".
Proof. split; vm_compute; reflexivity. Qed.

(** C02.  After any valid text, a two-byte lead byte followed by a quote ends
    the literal early: a decoder reads the text up to the lead byte, and the
    rest of the input, escaped on its own, follows outside the literal. *)
Theorem C02_quote_injection : forall p s, valid_utf8 p = true ->
  exists body, string_buf happ [] (p ++ chr 195 :: quote :: s) =
      quote :: body ++ quote :: escape_buf happ [] s ++ [quote] /\
    forall rest, parse_body (body ++ quote :: rest) = Some (p ++ [chr 195], rest).
Proof. exact flash_quote_injection. Qed.
Print Assumptions C02_quote_injection.

(** Followed by a newline, the newline is written raw. *)
Theorem C02_raw_newline : forall p s, valid_utf8 p = true ->
  In newline (string_buf happ [] (p ++ chr 195 :: newline :: s)).
Proof. exact flash_raw_newline. Qed.
Print Assumptions C02_raw_newline.

(** At the end of the string, the unescaped text before it is repeated: the
    literal decodes to [a ++ a ++ [c]] instead of [a ++ [c]]. *)
Theorem C02_truncated_repeats : forall a c,
  forallb unescaped a = true -> lead2 c || lead3 c || lead4 c = true ->
  string_buf happ [] (a ++ [c]) = quote :: (a ++ a ++ [c]) ++ [quote] /\
  forall rest, parse_body ((a ++ a ++ [c]) ++ quote :: rest) = Some (a ++ a ++ [c], rest).
Proof. exact flash_repeats. Qed.
Print Assumptions C02_truncated_repeats.

(** Without lead bytes the text is safe and lossless even if it is not UTF-8. *)
Theorem C02_no_lead_byte_safe : forall s, forallb (fun c => N.ltb (code c) 192) s = true ->
  exists body, string_buf happ [] s = quote :: body ++ [quote] /\
    (forall rest, parse_body (body ++ quote :: rest) = Some (s, rest)) /\
    forallb (fun c => N.leb 32 (code c)) body = true.
Proof. exact flash_no_lead. Qed.
Print Assumptions C02_no_lead_byte_safe.

Example C02_samples :
  valid_utf8 sample = true /\
  string_buf happ [] (B "id" ++ chr 195 :: quote :: B ", x") = quote :: B "id" ++ chr 195 :: quote :: B ", x" ++ [quote] /\
  string_buf happ [] (B "ab" ++ [chr 195]) = quote :: B "abab" ++ [chr 195; quote] /\
  forallb unescaped (B "ab") = true /\ lead2 (chr 195) = true /\
  valid_utf8 [chr 65; chr 128; quote] = false /\
  forallb (fun c => N.ltb (code c) 192) [chr 65; chr 128; quote] = true.
Proof. repeat split; vm_compute; reflexivity. Qed.
