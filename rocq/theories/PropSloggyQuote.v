(** C19: sloggy string quoting. *)

From Coq Require Import Ascii String List ZArith NArith Bool.
From Verif Require Import Bytes BytesProofs Json Slog SpecLog GoQuote SpecText QuoteProofs Sloggy SpecSloggy SloggyProofs Samples.
Import ListNotations.

(** C19.  Whatever the string, addString writes one chunk; it has neither a
    control byte nor DEL, it is valid UTF-8, it starts with a quote and the next
    quote that is not escaped is its last byte. *)
Theorem C19_sloggy_string_one_line : forall std W (write : W -> bytes -> W * bool) c s,
  exists t, sadd_string write std c s = sput write c (quote :: t) /\
    forallb visible (quote :: t) = true /\ valid_utf8 (quote :: t) = true /\
    forall rest, unquoted (t ++ rest) = Some rest.
Proof.
  intros std W write c s. exists (tl (go_quote (sl_print std) s)). split; [reflexivity|].
  pose proof (go_quote_clean (sl_print std) s) as C. unfold clean in C. apply andb_prop in C as [_ C].
  split; [apply (go_quote_visible (sl_print std) s)|]. split; [exact C|]. apply go_quote_token.
Qed.
Print Assumptions C19_sloggy_string_one_line.

(** What is written parses as JSON exactly for the UTF-8 texts all of whose code
    points are spared or escaped as in JSON, and then to the string itself. *)
Theorem C19_sloggy_string_json : forall print s,
  parse_json (go_quote print s) = Some (JStr s) <->
  exists rs, Forall (fun r => scalar r = true /\ json_rune print r = true) rs /\ s = text rs.
Proof.
  intros print s. rewrite json_safe_parse. unfold json_safe. split.
  - destruct (code_points s) as [rs|] eqn:C; [|discriminate].
    apply code_points_iff in C as [C ->]. destruct (forallb (json_rune print) rs) eqn:J; [|discriminate].
    intros _. exists rs. split; auto. rewrite forallb_forall in C, J. apply Forall_forall. auto.
  - intros (rs & F & ->). rewrite Forall_forall in F.
    assert (C : code_points (text rs) = Some rs).
    { apply code_points_iff. split; auto. apply forallb_forall. intros r I. apply F; auto. }
    rewrite C. replace (forallb (json_rune print) rs) with true; [reflexivity|].
    symmetry. apply forallb_forall. intros r I. apply F; auto.
Qed.
Print Assumptions C19_sloggy_string_json.

(** Any other string is rejected: text with a code point that has only a Go
    escape, wherever it stands, and bytes that are not UTF-8. *)
Theorem C19_sloggy_string_rejected : forall print s,
  valid_utf8 s = false \/
  (exists rs1 r rs2, forallb scalar (rs1 ++ r :: rs2) = true /\ s = text (rs1 ++ r :: rs2) /\
     (r = 7%N \/ r = 11%N \/ r = 127%N \/
      (r < 32)%N /\ ~ In r [8; 9; 10; 12; 13]%N \/ (65536 <= r)%N /\ print r = false)) ->
  parse_json (go_quote print s) = None.
Proof.
  intros print s [V|(rs1 & r & rs2 & S & -> & H)]; [apply quote_invalid; auto|].
  rewrite quote_json by auto. rewrite forallb_app. cbn [forallb].
  replace (json_rune print r) with false; [rewrite andb_false_r; reflexivity|].
  symmetry. unfold json_rune. cbn [existsb].
  destruct H as [->|[->|[->|[[H1 H2]|[H1 H2]]]]]; try reflexivity.
  - cbn [In] in H2.
    repeat match goal with |- context [N.eqb r ?k] => destruct (N.eqb_spec r k) as [E|_]; [exfalso; apply H2; subst r; repeat (left; reflexivity) || auto 10|] end.
    replace (N.leb 32 r) with false by (symmetry; apply N.leb_gt; auto).
    replace (N.leb 128 r) with false by (symmetry; apply N.leb_gt; apply N.lt_trans with (2 := eq_refl : (32 < 128)%N); auto).
    reflexivity.
  - rewrite H2. replace (N.ltb r 65536) with false by (symmetry; apply N.ltb_ge; auto).
    assert (G : (127 <= r)%N) by (apply N.le_trans with (2 := H1); discriminate).
    replace (N.ltb r 127) with false by (symmetry; apply N.ltb_ge; auto).
    repeat match goal with |- context [N.eqb r ?k] =>
      destruct (N.eqb_spec r k) as [->|_]; [exfalso; apply G; reflexivity|] end.
    cbn [orb]. rewrite !andb_false_r. reflexivity.
Qed.
Print Assumptions C19_sloggy_string_rejected.

(** One sample of each sort: the escapes shared with JSON, e acute, U+200B
    (non-printable but in the BMP); BEL; VT; NUL; DEL; U+E0001; a lone lead byte. *)
Definition q (s : bytes) : bytes := go_quote (sl_print std0) s.
Example C19_samples :
  q (B "a""\" ++ [newline; chr 8; chr 195; chr 169]) = B """a\""\\\n\b" ++ [chr 195; chr 169; quote] /\
  parse_json (q (B "a""\" ++ [newline; chr 8; chr 195; chr 169])) = Some (JStr (B "a""\" ++ [newline; chr 8; chr 195; chr 169])) /\
  go_quote (fun _ => false) (text [8203%N]) = B """\u200b""" /\
  map q [[chr 7]; [chr 11]; [chr 0]; [chr 127]; [chr 195; quote]] =
    [B """\a"""; B """\v"""; B """\x00"""; B """\x7f"""; B """\xc3\"""""] /\
  go_quote (fun _ => false) (text [917505%N]) = B """\U000e0001""" /\
  map (fun s => parse_json (q s)) [[chr 7]; [chr 11]; [chr 0]; [chr 127]; [chr 195; quote]] =
    [None; None; None; None; None].
Proof. vm_compute. repeat split; reflexivity. Qed.
