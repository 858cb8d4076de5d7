(** Lemmas about UTF-8 decoding and Go quoting. *)

From Coq Require Import Ascii String List ZArith NArith Bool Lia.
From Verif Require Import Bytes BytesProofs Json JsonProofs EscapeProofs Slog SpecLog TextProofs SpecText GoQuote.
Import ListNotations.

(** ** UTF-8 *)

Lemma code_chr_id c : chr (code c) = c.
Proof. apply ascii_N_embedding. Qed.

Lemma btw_iff lo hi c : btw lo hi c = true <-> (lo <= code c <= hi)%N.
Proof. unfold btw. rewrite andb_true_iff, !N.leb_le. tauto. Qed.

Lemma btw_not lo hi c : btw lo hi c = false <-> (code c < lo \/ hi < code c)%N.
Proof. unfold btw. rewrite andb_false_iff, !N.leb_gt. tauto. Qed.

Lemma cont_iff c : cont c = true <-> (128 <= code c <= 191)%N.
Proof. apply (btw_iff 128 191). Qed.

Lemma byte_lt c : (code c < 256)%N.
Proof. apply N_ascii_bounded. Qed.

Lemma chr_eq c n : code c = n -> chr n = c.
Proof. intros <-. apply code_chr_id. Qed.

Lemma cont_tail x : (x < 64)%N -> cont (chr (128 + x)) = true.
Proof. intros H. apply cont_iff. rewrite code_chr by lia. lia. Qed.

(** What was decoded is the encoding of the code point. *)
Lemma decode_encode s r rest : decode_rune s = Some (r, rest) ->
  s = utf8_encode r ++ rest /\ scalar r = true.
Proof.
  unfold decode_rune. destruct s as [|c0 r0]; [discriminate|].
  assert (Sc : forall n, (n < 55296 \/ 57344 <= n < 1114112)%N -> scalar n = true).
  { intros n H. unfold scalar. apply orb_true_iff. rewrite andb_true_iff, !N.ltb_lt, N.leb_le. lia. }
  destruct (N.ltb (code c0) 128) eqn:E0.
  { intros [= <- <-]. unfold utf8_encode. rewrite E0. split; [cbn [app]; rewrite code_chr_id; reflexivity|].
    apply Sc. apply N.ltb_lt in E0. lia. }
  apply N.ltb_ge in E0.
  destruct r0 as [|c1 r1]; [discriminate|].
  destruct (btw 194 223 c0) eqn:E2.
  { destruct (cont c1) eqn:K1; [|discriminate]. intros [= <- <-].
    apply btw_iff in E2. apply cont_iff in K1.
    set (n := ((code c0 - 192) * 64 + (code c1 - 128))%N).
    assert (B : (128 <= n < 2048)%N) by (unfold n; lia).
    split; [|apply Sc; lia]. unfold utf8_encode.
    replace (N.ltb n 128) with false by (symmetry; apply N.ltb_ge; lia).
    replace (N.ltb n 2048) with true by (symmetry; apply N.ltb_lt; lia).
    cbn [app]. f_equal; [|f_equal]; symmetry; apply chr_eq.
    - replace (N.div n 64) with (code c0 - 192)%N; [lia|]. apply (N.div_unique _ _ _ (code c1 - 128)); unfold n; lia.
    - replace (N.modulo n 64) with (code c1 - 128)%N; [lia|]. apply (N.mod_unique _ _ (code c0 - 192)); unfold n; lia. }
  destruct r1 as [|c2 r2]; [discriminate|].
  destruct (btw 224 239 c0) eqn:E3.
  { match goal with |- (if ?b then _ else _) = _ -> _ => destruct b eqn:K; [|discriminate] end. intros [= <- <-].
    apply btw_iff in E3. apply andb_prop in K as [K1 K2]. apply cont_iff in K2.
    assert (K3 : (128 <= code c1 <= 191 /\ (code c0 = 224 -> 160 <= code c1) /\ (code c0 = 237 -> code c1 <= 159))%N).
    { destruct (N.eqb_spec (code c0) 224); [apply btw_iff in K1; lia|].
      destruct (N.eqb_spec (code c0) 237); [apply btw_iff in K1; lia|]. apply cont_iff in K1. lia. }
    set (n := ((code c0 - 224) * 4096 + (code c1 - 128) * 64 + (code c2 - 128))%N).
    assert (B : (2048 <= n < 65536)%N) by (unfold n; lia).
    split; [|apply Sc; unfold n; lia]. unfold utf8_encode.
    replace (N.ltb n 128) with false by (symmetry; apply N.ltb_ge; lia).
    replace (N.ltb n 2048) with false by (symmetry; apply N.ltb_ge; lia).
    replace (N.ltb n 65536) with true by (symmetry; apply N.ltb_lt; lia).
    assert (D : N.div n 64 = ((code c0 - 224) * 64 + (code c1 - 128))%N).
    { symmetry. apply (N.div_unique _ _ _ (code c2 - 128)); unfold n; lia. }
    cbn [app]. f_equal; [|f_equal; [|f_equal]]; symmetry; apply chr_eq.
    - replace (N.div n 4096) with (code c0 - 224)%N; [lia|].
      apply (N.div_unique _ _ _ ((code c1 - 128) * 64 + (code c2 - 128))); unfold n; lia.
    - rewrite D. replace (N.modulo _ 64) with (code c1 - 128)%N; [lia|]. apply (N.mod_unique _ _ (code c0 - 224)); lia.
    - replace (N.modulo n 64) with (code c2 - 128)%N; [lia|].
      apply (N.mod_unique _ _ ((code c0 - 224) * 64 + (code c1 - 128))); unfold n; lia. }
  destruct r2 as [|c3 r3]; [discriminate|].
  destruct (btw 240 244 c0) eqn:E4; [|discriminate].
  match goal with |- (if ?b then _ else _) = _ -> _ => destruct b eqn:K; [|discriminate] end. intros [= <- <-].
  apply btw_iff in E4. apply andb_prop in K as [K K3]. apply andb_prop in K as [K1 K2]. apply cont_iff in K2, K3.
  assert (K4 : (128 <= code c1 <= 191 /\ (code c0 = 240 -> 144 <= code c1) /\ (code c0 = 244 -> code c1 <= 143))%N).
  { destruct (N.eqb_spec (code c0) 240); [apply btw_iff in K1; lia|].
    destruct (N.eqb_spec (code c0) 244); [apply btw_iff in K1; lia|]. apply cont_iff in K1. lia. }
  set (n := ((code c0 - 240) * 262144 + (code c1 - 128) * 4096 + (code c2 - 128) * 64 + (code c3 - 128))%N).
  assert (B : (65536 <= n < 1114112)%N) by (unfold n; lia).
  split; [|apply Sc; unfold n; lia]. unfold utf8_encode.
  replace (N.ltb n 128) with false by (symmetry; apply N.ltb_ge; lia).
  replace (N.ltb n 2048) with false by (symmetry; apply N.ltb_ge; lia).
  replace (N.ltb n 65536) with false by (symmetry; apply N.ltb_ge; lia).
  assert (D : N.div n 64 = ((code c0 - 240) * 4096 + (code c1 - 128) * 64 + (code c2 - 128))%N).
  { symmetry. apply (N.div_unique _ _ _ (code c3 - 128)); unfold n; lia. }
  assert (D2 : N.div n 4096 = ((code c0 - 240) * 64 + (code c1 - 128))%N).
  { symmetry. apply (N.div_unique _ _ _ ((code c2 - 128) * 64 + (code c3 - 128))); unfold n; lia. }
  cbn [app]. f_equal; [|f_equal; [|f_equal; [|f_equal]]]; symmetry; apply chr_eq.
  - replace (N.div n 262144) with (code c0 - 240)%N; [lia|].
    apply (N.div_unique _ _ _ ((code c1 - 128) * 4096 + (code c2 - 128) * 64 + (code c3 - 128))); unfold n; lia.
  - rewrite D2. replace (N.modulo _ 64) with (code c1 - 128)%N; [lia|]. apply (N.mod_unique _ _ (code c0 - 240)); lia.
  - rewrite D. replace (N.modulo _ 64) with (code c2 - 128)%N; [lia|].
    apply (N.mod_unique _ _ ((code c0 - 240) * 64 + (code c1 - 128))); lia.
  - replace (N.modulo n 64) with (code c3 - 128)%N; [lia|].
    apply (N.mod_unique _ _ ((code c0 - 240) * 4096 + (code c1 - 128) * 64 + (code c2 - 128))); unfold n; lia.
Qed.

(** A code point is decoded from its encoding. *)
Lemma encode_decode r rest : scalar r = true -> decode_rune (utf8_encode r ++ rest) = Some (r, rest).
Proof.
  intros H.
  assert (H' : (r < 55296 \/ 57344 <= r < 1114112)%N).
  { unfold scalar in H. apply orb_true_iff in H. rewrite andb_true_iff, !N.ltb_lt, N.leb_le in H. lia. }
  unfold utf8_encode.
  destruct (N.ltb_spec r 128) as [L1|G1].
  { cbn [app decode_rune]. rewrite code_chr by lia. replace (N.ltb r 128) with true by (symmetry; apply N.ltb_lt; lia).
    reflexivity. }
  pose proof (N.div_mod r 64 ltac:(discriminate)) as D1.
  pose proof (N.mod_lt r 64 ltac:(discriminate)) as M1.
  pose proof (N.div_mod (r / 64) 64 ltac:(discriminate)) as D2.
  pose proof (N.mod_lt (r / 64) 64 ltac:(discriminate)) as M2.
  assert (DD : (r / 64 / 64 = r / 4096)%N) by (rewrite N.div_div by discriminate; reflexivity).
  rewrite DD in D2.
  pose proof (N.div_mod (r / 4096) 64 ltac:(discriminate)) as D3.
  pose proof (N.mod_lt (r / 4096) 64 ltac:(discriminate)) as M3.
  assert (DD3 : (r / 4096 / 64 = r / 262144)%N) by (rewrite N.div_div by discriminate; reflexivity).
  rewrite DD3 in D3. clear DD DD3.
  set (m1 := (r mod 64)%N) in *. set (m2 := ((r / 64) mod 64)%N) in *. set (m3 := ((r / 4096) mod 64)%N) in *.
  clearbody m1 m2 m3.
  set (q1 := (r / 64)%N) in *. set (q2 := (r / 4096)%N) in *. set (q3 := (r / 262144)%N) in *.
  clearbody q1 q2 q3.
  destruct (N.ltb_spec r 2048) as [L2|G2].
  { cbn [app decode_rune].
    rewrite (code_chr (192 + q1)) by lia.
    replace (N.ltb (192 + q1) 128) with false by (symmetry; apply N.ltb_ge; lia).
    assert (E1 : btw 194 223 (chr (192 + q1)) = true) by (apply btw_iff; rewrite code_chr by lia; lia).
    rewrite E1, cont_tail, code_chr by lia. f_equal. f_equal. lia. }
  destruct (N.ltb_spec r 65536) as [L3|G3].
  { cbn [app decode_rune].
    rewrite (code_chr (224 + q2)) by lia.
    replace (N.ltb (224 + q2) 128) with false by (symmetry; apply N.ltb_ge; lia).
    assert (E1 : btw 194 223 (chr (224 + q2)) = false) by (apply btw_not; rewrite code_chr by lia; lia).
    assert (E2 : btw 224 239 (chr (224 + q2)) = true) by (apply btw_iff; rewrite code_chr by lia; lia).
    rewrite E1, E2.
    match goal with |- context [?b && cont (chr (128 + m1))] => assert (E : b = true) end.
    { destruct (N.eqb_spec (224 + q2) 224); [apply btw_iff; rewrite code_chr by lia; lia|].
      destruct (N.eqb_spec (224 + q2) 237); [apply btw_iff; rewrite code_chr by lia; lia|].
      apply cont_tail. lia. }
    rewrite E, cont_tail by lia. cbn [andb]. rewrite !code_chr by lia. f_equal. f_equal. lia. }
  cbn [app decode_rune].
  rewrite (code_chr (240 + q3)) by lia.
  replace (N.ltb (240 + q3) 128) with false by (symmetry; apply N.ltb_ge; lia).
  assert (E1 : btw 194 223 (chr (240 + q3)) = false) by (apply btw_not; rewrite code_chr by lia; lia).
  assert (E2 : btw 224 239 (chr (240 + q3)) = false) by (apply btw_not; rewrite code_chr by lia; lia).
  assert (E3 : btw 240 244 (chr (240 + q3)) = true) by (apply btw_iff; rewrite code_chr by lia; lia).
  rewrite E1, E2, E3.
  match goal with |- context [?b && cont (chr (128 + m2)) && _] => assert (E : b = true) end.
  { destruct (N.eqb_spec (240 + q3) 240); [apply btw_iff; rewrite code_chr by lia; lia|].
    destruct (N.eqb_spec (240 + q3) 244); [apply btw_iff; rewrite code_chr by lia; lia|].
    apply cont_tail. lia. }
  rewrite E, !cont_tail by lia. cbn [andb]. rewrite !code_chr by lia. f_equal. f_equal. lia.
Qed.

(** Decoding a character and validity. *)
Lemma valid_decode s : s <> [] -> valid_utf8 s =
  match decode_rune s with Some (_, rest) => valid_utf8 rest | None => false end.
Proof.
  intros N. destruct s as [|c0 r0]; [congruence|]. cbn [valid_utf8 decode_rune].
  destruct (N.ltb (code c0) 128) eqn:E0; [reflexivity|].
  destruct r0 as [|c1 r1]; [reflexivity|].
  destruct (btw 194 223 c0) eqn:E2; [destruct (cont c1); reflexivity|].
  apply btw_not in E2. apply N.ltb_ge in E0.
  destruct r1 as [|c2 r2]; [reflexivity|].
  destruct (btw 224 239 c0) eqn:E3.
  - apply btw_iff in E3. destruct (N.eqb_spec (code c0) 224) as [E|N1].
    + destruct (btw 160 191 c1), (cont c2); reflexivity.
    + destruct (N.eqb_spec (code c0) 237) as [E|N2].
      * replace (btw 225 236 c0 || btw 238 239 c0) with false.
        -- destruct (btw 128 159 c1), (cont c2); reflexivity.
        -- symmetry. apply orb_false_iff. rewrite !btw_not. lia.
      * replace (btw 225 236 c0 || btw 238 239 c0) with true.
        -- destruct (cont c1), (cont c2); reflexivity.
        -- symmetry. apply orb_true_iff. rewrite !btw_iff. lia.
  - apply btw_not in E3.
    destruct (N.eqb_spec (code c0) 224) as [E|N1]; [lia|].
    replace (btw 225 236 c0 || btw 238 239 c0) with false by (symmetry; apply orb_false_iff; rewrite !btw_not; lia).
    destruct (N.eqb_spec (code c0) 237) as [E|N2]; [lia|].
    destruct r2 as [|c3 r3]; [reflexivity|].
    destruct (btw 240 244 c0) eqn:E4.
    + apply btw_iff in E4. destruct (N.eqb_spec (code c0) 240) as [E|N3].
      * destruct (btw 144 191 c1), (cont c2), (cont c3); reflexivity.
      * destruct (N.eqb_spec (code c0) 244) as [E|N4].
        -- replace (btw 241 243 c0) with false by (symmetry; apply btw_not; lia).
           destruct (btw 128 143 c1), (cont c2), (cont c3); reflexivity.
        -- replace (btw 241 243 c0) with true by (symmetry; apply btw_iff; lia).
           destruct (cont c1), (cont c2), (cont c3); reflexivity.
    + apply btw_not in E4.
      destruct (N.eqb_spec (code c0) 240) as [E|N3]; [lia|].
      replace (btw 241 243 c0) with false by (symmetry; apply btw_not; lia).
      destruct (N.eqb_spec (code c0) 244) as [E|N4]; [lia|]. reflexivity.
Qed.

Lemma encode_nonempty r : exists c t, utf8_encode r = c :: t.
Proof. unfold utf8_encode. destruct (N.ltb r 128), (N.ltb r 2048), (N.ltb r 65536); eauto. Qed.

Lemma encode_valid r : scalar r = true -> valid_utf8 (utf8_encode r) = true.
Proof.
  intros H. destruct (encode_nonempty r) as (c & t & E).
  rewrite valid_decode by congruence. pose proof (encode_decode r [] H) as D. rewrite app_nil_r in D.
  rewrite D. reflexivity.
Qed.

Lemma text_cons r rs : text (r :: rs) = utf8_encode r ++ text rs.
Proof. reflexivity. Qed.

Lemma text_valid rs : forallb scalar rs = true -> valid_utf8 (text rs) = true.
Proof.
  induction rs as [|r rs IH]; [reflexivity|]. cbn [forallb]. intros H. apply andb_prop in H as [H1 H2].
  rewrite text_cons. apply valid_app; auto. apply encode_valid; auto.
Qed.

(** Valid text is the encoding of a sequence of scalar values. *)
Lemma valid_text s : valid_utf8 s = true -> exists rs, forallb scalar rs = true /\ s = text rs.
Proof.
  assert (G : forall n s, length s <= n -> valid_utf8 s = true -> exists rs, forallb scalar rs = true /\ s = text rs).
  2:{ apply (G (length s)); auto. }
  clear s. induction n as [|n IH]; intros s L V.
  { destruct s; [|cbn in L; lia]. exists []. auto. }
  destruct s as [|c s]; [exists []; auto|].
  rewrite valid_decode in V by discriminate.
  destruct (decode_rune (c :: s)) as [[r rest]|] eqn:D; [|discriminate].
  apply decode_encode in D as [E S].
  destruct (IH rest) as (rs & Hr & ->); auto.
  { apply (f_equal (@length ascii)) in E. rewrite app_length in E.
    destruct (encode_nonempty r) as (c' & t & E'). rewrite E' in E. cbn [length] in *. lia. }
  exists (r :: rs). cbn [forallb]. rewrite S, Hr. auto.
Qed.

Lemma decode_iff s r rest : decode_rune s = Some (r, rest) <-> scalar r = true /\ s = utf8_encode r ++ rest.
Proof.
  split.
  - intros H. apply decode_encode in H. tauto.
  - intros [H ->]. apply encode_decode; auto.
Qed.

Lemma code_points_iff s rs : code_points s = Some rs <-> forallb scalar rs = true /\ s = text rs.
Proof.
  assert (G : forall n s rs, length s <= n -> (code_points_n n s = Some rs <-> forallb scalar rs = true /\ s = text rs)).
  2:{ apply G. auto. }
  clear. induction n as [|n IH]; intros s rs L.
  - destruct s; [|cbn in L; lia]. cbn [code_points_n]. split.
    + intros [= <-]. auto.
    + intros [_ H]. destruct rs as [|r rs]; auto. rewrite text_cons in H.
      destruct (encode_nonempty r) as (c & t & E). rewrite E in H. discriminate.
  - destruct s as [|c s].
    { cbn [code_points_n]. split; [intros [= <-]; auto|]. intros [_ H]. destruct rs as [|r rs]; auto.
      rewrite text_cons in H. destruct (encode_nonempty r) as (c & t & E). rewrite E in H. discriminate. }
    cbn [code_points_n]. split.
    + destruct (decode_rune (c :: s)) as [[r rest]|] eqn:D; [|discriminate].
      apply decode_iff in D as [Sc E].
      destruct (code_points_n n rest) as [rs'|] eqn:C; [|discriminate]. intros [= <-].
      apply IH in C.
      * destruct C as [C ->]. cbn [forallb]. rewrite Sc, C. auto.
      * apply (f_equal (@length ascii)) in E. rewrite app_length in E.
        destruct (encode_nonempty r) as (c' & t & E'). rewrite E' in E. cbn [length] in *. lia.
    + intros [Sc E]. destruct rs as [|r rs]; [discriminate|]. cbn [forallb] in Sc.
      apply andb_prop in Sc as [S1 S2]. rewrite text_cons in E.
      assert (D : decode_rune (c :: s) = Some (r, text rs)) by (apply decode_iff; auto).
      rewrite D. assert (C : code_points_n n (text rs) = Some rs).
      { apply IH; auto. apply (f_equal (@length ascii)) in E. rewrite app_length in E.
        destruct (encode_nonempty r) as (c' & t & E'). rewrite E' in E. cbn [length] in *. lia. }
      rewrite C. reflexivity.
Qed.

(** ** Escapes *)

Section Quote.
Variable print : N -> bool.

Local Notation esc := (escape_rune print).

Lemma lower_hex_code n : (n < 16)%N -> code (lower_hex n) = (if N.ltb n 10 then 48 + n else 87 + n)%N.
Proof. intros H. unfold lower_hex. destruct (N.ltb_spec n 10); apply code_chr; lia. Qed.

Lemma lower_hex_val n : (n < 16)%N -> hex_val (lower_hex n) = Some n.
Proof.
  intros H. unfold hex_val, btw. rewrite lower_hex_code by auto. destruct (N.ltb_spec n 10) as [L|G].
  - replace (N.leb 48 (48 + n)) with true by (symmetry; apply N.leb_le; lia).
    replace (N.leb (48 + n) 57) with true by (symmetry; apply N.leb_le; lia). cbn [andb]. f_equal. lia.
  - replace (N.leb (87 + n) 57) with false by (symmetry; apply N.leb_gt; lia). rewrite andb_false_r.
    replace (N.leb (87 + n) 70) with false by (symmetry; apply N.leb_gt; lia). rewrite andb_false_r.
    replace (N.leb 97 (87 + n)) with true by (symmetry; apply N.leb_le; lia).
    replace (N.leb (87 + n) 102) with true by (symmetry; apply N.leb_le; lia). cbn [andb]. f_equal. lia.
Qed.

Lemma mod16 n : (n mod 16 < 16)%N.
Proof. apply N.mod_lt. discriminate. Qed.

Lemma lower_hex_visible n : (n < 16)%N -> N.leb 48 (code (lower_hex n)) && N.ltb (code (lower_hex n)) 127 && negb (N.eqb (code (lower_hex n)) 92) = true.
Proof.
  intros H. rewrite lower_hex_code by auto.
  rewrite !andb_true_iff, N.leb_le, N.ltb_lt, negb_true_iff, N.eqb_neq. destruct (N.ltb_spec n 10); lia.
Qed.

Lemma hex_digits_ok k : forall n, forallb (fun c => N.leb 48 (code c) && N.ltb (code c) 127 && negb (N.eqb (code c) 92)) (hex_digits k n) = true.
Proof.
  induction k as [|k IH]; intros n; [reflexivity|]. cbn [hex_digits]. rewrite forallb_app, IH. cbn [forallb].
  rewrite lower_hex_visible by apply mod16. reflexivity.
Qed.

Lemma hex4_digits n : (n < 65536)%N -> exists a b c d, hex_digits 4 n = [a; b; c; d] /\ hex4 a b c d = Some n.
Proof.
  intros H. cbn [hex_digits app]. do 4 eexists. split; [reflexivity|].
  unfold hex4. rewrite !lower_hex_val by apply mod16. f_equal.
  pose proof (N.div_mod n 16 ltac:(discriminate)). pose proof (N.div_mod (n / 16) 16 ltac:(discriminate)).
  pose proof (N.div_mod (n / 16 / 16) 16 ltac:(discriminate)). pose proof (N.div_mod (n / 16 / 16 / 16) 16 ltac:(discriminate)).
  assert (n / 16 / 16 / 16 / 16 = 0)%N.
  { rewrite !N.div_div by discriminate. apply N.div_small. exact H. }
  lia.
Qed.

(** A scalar value up to a printable non-ASCII one, or one of JSON's escapes. *)
Lemma encode_bytes_high r : (128 <= r)%N -> scalar r = true -> forallb (fun c => N.leb 128 (code c)) (utf8_encode r) = true.
Proof.
  intros G H.
  assert (H' : (r < 1114112)%N).
  { unfold scalar in H. apply orb_true_iff in H. rewrite andb_true_iff, !N.ltb_lt, N.leb_le in H. lia. }
  assert (M : forall a, (a mod 64 < 64)%N) by (intros; apply N.mod_lt; discriminate).
  assert (HL : forall b x, (128 <= b /\ b + x < 256 -> 128 <= code (chr (b + x)))%N).
  { intros b x L. rewrite code_chr by lia. lia. }
  assert (M128 : forall m, (m < 64 -> 128 <= 128 /\ 128 + m < 256)%N) by lia.
  unfold utf8_encode. replace (N.ltb r 128) with false by (symmetry; apply N.ltb_ge; lia).
  destruct (N.ltb_spec r 2048) as [L2|G2]; [|destruct (N.ltb_spec r 65536) as [L3|G3]];
    cbn [forallb]; rewrite !andb_true_iff, !N.leb_le.
  - assert (Q : (r / 64 < 32)%N) by (apply N.div_lt_upper_bound; lia).
    repeat split; [apply (HL 192%N); lia|apply (HL 128%N), M128, M].
  - assert (Q : (r / 4096 < 16)%N) by (apply N.div_lt_upper_bound; lia).
    repeat split; [apply (HL 224%N); lia|apply (HL 128%N), M128, M|apply (HL 128%N), M128, M].
  - assert (Q : (r / 262144 < 5)%N) by (apply N.div_lt_upper_bound; lia).
    repeat split; [apply (HL 240%N); lia|apply (HL 128%N), M128, M|apply (HL 128%N), M128, M|apply (HL 128%N), M128, M].
Qed.

Lemma plain_of_high c : N.leb 128 (code c) = true -> plain_char c = true.
Proof.
  intros H. apply N.leb_le in H. unfold plain_char.
  replace (N.leb 32 (code c)) with true by (symmetry; apply N.leb_le; lia). cbn [andb].
  apply andb_true_intro. split; apply negb_true_iff, Ascii.eqb_neq; intros ->; apply H; reflexivity.
Qed.

Lemma parse_body_plain t : forall rest, forallb plain_char t = true ->
  parse_body (t ++ rest) = prepend t (parse_body rest).
Proof.
  induction t as [|c t IH]; intros rest H; cbn [app forallb] in *.
  - unfold prepend. destruct (parse_body rest) as [[s r]|]; reflexivity.
  - apply andb_prop in H as [H1 H2]. unfold plain_char in H1. apply andb_prop in H1 as [H1 N2].
    apply andb_prop in H1 as [H1 N1]. apply negb_true_iff in N1, N2.
    cbn [parse_body]. rewrite N1, N2. apply N.leb_le in H1.
    replace (N.ltb (code c) 32) with false by (symmetry; apply N.ltb_ge; lia).
    rewrite IH by auto. unfold prepend. destruct (parse_body rest) as [[s r]|]; reflexivity.
Qed.

(** Parsing the escape of one code point. *)
Lemma parse_escape r rest : scalar r = true ->
  parse_body (esc r ++ rest) =
  if json_rune print r then prepend (utf8_encode r) (parse_body rest) else None.
Proof.
  intros S. unfold escape_rune.
  destruct (N.eqb_spec r 34) as [->|N34]; [reflexivity|].
  destruct (N.eqb_spec r 92) as [->|N92]; [reflexivity|]. cbn [orb].
  destruct (is_print print r) eqn:P.
  - assert (J : json_rune print r = true).
    { unfold is_print in P. unfold json_rune. destruct (N.ltb_spec r 128) as [L|G].
      - rewrite P, orb_true_r. reflexivity.
      - rewrite P. replace (N.leb 128 r) with true by (symmetry; apply N.leb_le; lia).
        rewrite !orb_true_r. reflexivity. }
    rewrite J. apply parse_body_plain. unfold is_print in P.
    destruct (N.ltb_spec r 128) as [L|G].
    + apply andb_prop in P as [P1 P2]. apply N.leb_le in P1. apply N.ltb_lt in P2.
      unfold utf8_encode. replace (N.ltb r 128) with true by (symmetry; apply N.ltb_lt; lia).
      cbn [forallb]. rewrite andb_true_r. unfold plain_char. rewrite code_chr by lia.
      replace (N.leb 32 r) with true by (symmetry; apply N.leb_le; lia). cbn [andb].
      apply andb_true_intro. split; apply negb_true_iff, Ascii.eqb_neq; intros E;
        apply (f_equal code) in E; rewrite code_chr in E by lia; [apply N34|apply N92]; exact E.
    + pose proof (encode_bytes_high r G S) as H. rewrite forallb_forall in *. intros c I.
      apply plain_of_high, H, I.
  - destruct (N.eqb_spec r 7) as [->|N7]; [reflexivity|].
    destruct (N.eqb_spec r 8) as [->|N8]; [reflexivity|].
    destruct (N.eqb_spec r 12) as [->|N12]; [reflexivity|].
    destruct (N.eqb_spec r 10) as [->|N10]; [reflexivity|].
    destruct (N.eqb_spec r 13) as [->|N13]; [reflexivity|].
    destruct (N.eqb_spec r 9) as [->|N9]; [reflexivity|].
    destruct (N.eqb_spec r 11) as [->|N11]; [reflexivity|].
    assert (Jn : forall b, existsb (N.eqb r) [8; 9; 10; 12; 13]%N = b -> b = false).
    { intros b <-. cbn [existsb]. rewrite !orb_false_iff, !N.eqb_neq. repeat split; auto. }
    unfold json_rune. rewrite (Jn _ eq_refl). cbn [orb].
    destruct (N.ltb r 32 || N.eqb r 127) eqn:Lo.
    + replace (N.leb 32 r && N.ltb r 127) with false.
      * replace (N.leb 128 r) with false; [reflexivity|].
        symmetry. apply N.leb_gt. apply orb_true_iff in Lo. rewrite N.ltb_lt, N.eqb_eq in Lo. lia.
      * symmetry. apply andb_false_iff. apply orb_true_iff in Lo. rewrite N.ltb_lt, N.eqb_eq in Lo.
        rewrite N.leb_gt, N.ltb_ge. lia.
    + apply orb_false_iff in Lo as [L1 L2]. apply N.ltb_ge in L1. apply N.eqb_neq in L2.
      assert (G : (128 <= r)%N).
      { unfold is_print in P. destruct (N.ltb_spec r 128); [|lia]. apply andb_false_iff in P.
        rewrite N.leb_gt, N.ltb_ge in P. lia. }
      assert (Pf : print r = false).
      { unfold is_print in P. destruct (N.ltb_spec r 128); [lia|exact P]. }
      replace (N.ltb r 127) with false by (symmetry; apply N.ltb_ge; lia). rewrite andb_false_r. cbn [orb].
      replace (N.leb 128 r) with true by (symmetry; apply N.leb_le; lia). rewrite Pf, orb_false_r. cbn [andb].
      destruct (N.ltb_spec r 65536) as [L|G2].
      * destruct (hex4_digits r L) as (a & b & c & d & E & H4). rewrite E.
        cbn [app B list_ascii_of_string parse_body].
        change (Ascii.eqb "\"%char quote) with false. change (Ascii.eqb "\"%char backslash) with true.
        change (Ascii.eqb "u"%char (chr 117)) with true. cbv iota. rewrite H4.
        unfold scalar in S. apply orb_true_iff in S. rewrite andb_true_iff, !N.ltb_lt, N.leb_le in S.
        replace (high_surrogate r) with false.
        2:{ symmetry. unfold high_surrogate. apply andb_false_iff. rewrite !N.leb_gt. lia. }
        replace (low_surrogate r) with false; [reflexivity|].
        symmetry. unfold low_surrogate. apply andb_false_iff. rewrite !N.leb_gt. lia.
      * reflexivity.
Qed.

Lemma quote_loop_text rs : forall n, forallb scalar rs = true -> length rs <= n ->
  quote_loop print n (text rs) = concat (map esc rs).
Proof.
  induction rs as [|r rs IH]; intros n H L.
  - destruct n; reflexivity.
  - cbn [forallb] in H. apply andb_prop in H as [H1 H2]. destruct n as [|n]; [cbn in L; lia|].
    rewrite text_cons. pose proof (encode_decode r (text rs) H1) as D.
    destruct (encode_nonempty r) as (c & t & E).
    rewrite E in *. cbn [app] in *. cbn [quote_loop]. rewrite D.
    rewrite IH by (auto; cbn in L; lia). reflexivity.
Qed.

Lemma text_length rs : length rs <= length (text rs).
Proof.
  induction rs as [|r rs IH]; [cbn; lia|]. rewrite text_cons, app_length.
  destruct (encode_nonempty r) as (c & t & ->). cbn [length]. lia.
Qed.

Lemma go_quote_text rs : forallb scalar rs = true ->
  go_quote print (text rs) = quote :: concat (map esc rs) ++ [quote].
Proof. intros H. unfold go_quote. rewrite quote_loop_text; auto. apply text_length. Qed.

Lemma parse_escapes rs rest : forallb scalar rs = true ->
  parse_body (concat (map esc rs) ++ rest) =
  if forallb (json_rune print) rs then prepend (text rs) (parse_body rest) else None.
Proof.
  induction rs as [|r rs IH]; intros H; cbn [map concat forallb] in *.
  - unfold prepend. cbn [app text map concat]. destruct (parse_body rest) as [[s t]|]; reflexivity.
  - apply andb_prop in H as [H1 H2]. rewrite <- app_assoc, parse_escape, IH by auto.
    rewrite text_cons. unfold prepend.
    destruct (json_rune print r), (forallb (json_rune print) rs); cbn [andb]; try reflexivity.
    destruct (parse_body rest) as [[s t]|]; [rewrite app_assoc|]; reflexivity.
Qed.

Lemma parse_quoted_head b : parse_body b = None -> parse_json (quote :: b) = None.
Proof.
  intros H. unfold parse_json. cbn [skip_ws is_ws]. change (is_ws quote) with false. cbv iota.
  cbn [length]. rewrite Nat.mul_succ_r, Nat.add_comm. cbn [Nat.add pval].
  change (Ascii.eqb quote quote) with true. cbv iota. rewrite H. reflexivity.
Qed.

Lemma parse_quoted b s : parse_body b = Some (s, []) -> parse_json (quote :: b) = Some (JStr s).
Proof.
  intros H. unfold parse_json. cbn [skip_ws is_ws]. change (is_ws quote) with false. cbv iota.
  cbn [length]. rewrite Nat.mul_succ_r, Nat.add_comm. cbn [Nat.add pval].
  change (Ascii.eqb quote quote) with true. cbv iota. rewrite H. reflexivity.
Qed.

Theorem quote_json rs : forallb scalar rs = true ->
  parse_json (go_quote print (text rs)) =
  if forallb (json_rune print) rs then Some (JStr (text rs)) else None.
Proof.
  intros H. rewrite go_quote_text by auto.
  pose proof (parse_escapes rs [quote] H) as P.
  destruct (forallb (json_rune print) rs).
  - apply parse_quoted. rewrite P. cbn [parse_body]. change (Ascii.eqb quote quote) with true. cbn [prepend].
    rewrite app_nil_r. reflexivity.
  - apply parse_quoted_head. exact P.
Qed.

(** Invalid text is never a JSON string. *)
Lemma invalid_body : forall n s, length s <= n -> valid_utf8 s = false ->
  forall rest, parse_body (quote_loop print n s ++ rest) = None.
Proof.
  induction n as [|n IH]; intros s L V rest.
  { destruct s; [discriminate|cbn in L; lia]. }
  destruct s as [|c s]; [discriminate|]. cbn [quote_loop].
  rewrite valid_decode in V by discriminate.
  destruct (decode_rune (c :: s)) as [[r t]|] eqn:D.
  - apply decode_encode in D as [E S].
    assert (Lt : length t <= n).
    { apply (f_equal (@length ascii)) in E. rewrite app_length in E.
      destruct (encode_nonempty r) as (c' & t' & E'). rewrite E' in E. cbn [length] in *. lia. }
    rewrite <- app_assoc, parse_escape by auto. rewrite (IH t Lt V rest).
    destruct (json_rune print r); reflexivity.
  - reflexivity.
Qed.

Theorem quote_invalid s : valid_utf8 s = false -> parse_json (go_quote print s) = None.
Proof.
  intros V. apply parse_quoted_head. apply invalid_body; auto.
Qed.

(** ** One token on one line *)

Lemma unquoted_skip t : forall rest, forallb (fun c => negb (Ascii.eqb c quote) && negb (Ascii.eqb c backslash)) t = true ->
  unquoted (t ++ rest) = unquoted rest.
Proof.
  induction t as [|c t IH]; intros rest H; [reflexivity|]. cbn [forallb app unquoted] in *.
  apply andb_prop in H as [H1 H2]. apply andb_prop in H1 as [H0 H1]. apply negb_true_iff in H0, H1.
  rewrite H0, H1. auto.
Qed.

(** A piece of quoted text: visible bytes, and skipped as a whole. *)
Definition piece (t : bytes) : Prop :=
  forallb visible t = true /\ valid_utf8 t = true /\ forall rest, unquoted (t ++ rest) = unquoted rest.

Lemma piece_escape c t : visible c = true -> N.ltb (code c) 128 = true ->
  forallb (fun c => N.leb 48 (code c) && N.ltb (code c) 127 && negb (N.eqb (code c) 92)) t = true ->
  piece (backslash :: c :: t).
Proof.
  intros V A H.
  assert (H' : forallb visible t = true /\ forallb (fun c => N.ltb (code c) 128) t = true /\
     forallb (fun c => negb (Ascii.eqb c quote) && negb (Ascii.eqb c backslash)) t = true).
  { rewrite !forallb_forall in *. repeat split; intros d I; specialize (H d I);
      rewrite !andb_true_iff, N.leb_le, N.ltb_lt, negb_true_iff, N.eqb_neq in H.
    - unfold visible. rewrite andb_true_iff, negb_true_iff, N.leb_le, N.eqb_neq. lia.
    - apply N.ltb_lt. lia.
    - apply andb_true_intro. split; apply negb_true_iff, Ascii.eqb_neq; intros ->; vm_compute in H; intuition congruence. }
  destruct H' as (H1 & H2 & H3). split; [|split].
  - cbn [forallb]. rewrite V, H1. reflexivity.
  - apply valid_ascii. cbn [forallb]. rewrite A, H2. reflexivity.
  - intros rest. cbn [app unquoted]. change (Ascii.eqb backslash quote) with false.
    change (Ascii.eqb backslash backslash) with true. cbv iota. apply unquoted_skip; auto.
Qed.

Lemma escape_piece r : scalar r = true -> piece (esc r).
Proof.
  intros S. unfold escape_rune.
  destruct (N.eqb_spec r 34) as [->|N34]; [apply (piece_escape (chr 34) []); reflexivity|].
  destruct (N.eqb_spec r 92) as [->|N92]; [apply (piece_escape (chr 92) []); reflexivity|]. cbn [orb].
  destruct (is_print print r) eqn:P.
  - unfold is_print in P. split; [|split].
    + destruct (N.ltb_spec r 128) as [L|G].
      * apply andb_prop in P as [P1 P2]. apply N.leb_le in P1. apply N.ltb_lt in P2.
        unfold utf8_encode. replace (N.ltb r 128) with true by (symmetry; apply N.ltb_lt; lia).
        cbn [forallb]. rewrite andb_true_r. unfold visible. rewrite code_chr by lia.
        rewrite andb_true_iff, negb_true_iff, N.leb_le, N.eqb_neq. lia.
      * pose proof (encode_bytes_high r G S) as H. rewrite forallb_forall in *. intros c I.
        specialize (H c I). apply N.leb_le in H. unfold visible. rewrite andb_true_iff, negb_true_iff, N.leb_le, N.eqb_neq. lia.
    + apply encode_valid; auto.
    + intros rest. apply unquoted_skip. destruct (N.ltb_spec r 128) as [L|G].
      * unfold utf8_encode. replace (N.ltb r 128) with true by (symmetry; apply N.ltb_lt; lia).
        cbn [forallb]. rewrite andb_true_r. apply andb_true_intro.
        split; apply negb_true_iff, Ascii.eqb_neq; intros E;
          apply (f_equal code) in E; rewrite code_chr in E by lia; [apply N34|apply N92]; exact E.
      * pose proof (encode_bytes_high r G S) as H. rewrite forallb_forall in *. intros c I.
        specialize (H c I). apply N.leb_le in H.
        apply andb_true_intro. split; apply negb_true_iff, Ascii.eqb_neq; intros ->; vm_compute in H; intuition congruence.
  - repeat match goal with |- piece (if ?b then ?t else _) =>
      destruct b; [ first [ apply (piece_escape _ []); reflexivity | apply (piece_escape _ (hex_digits _ _)); [reflexivity|reflexivity|apply hex_digits_ok] ] | ] end.
    apply (piece_escape _ (hex_digits _ _)); [reflexivity|reflexivity|apply hex_digits_ok].
Qed.

Lemma piece_app a b : piece a -> piece b -> piece (a ++ b).
Proof.
  intros (A1 & A2 & A3) (B1 & B2 & B3). split; [|split].
  - rewrite forallb_app, A1, B1. reflexivity.
  - apply valid_app; auto.
  - intros rest. rewrite <- app_assoc, A3, B3. reflexivity.
Qed.

Lemma quote_loop_piece n : forall s, piece (quote_loop print n s).
Proof.
  induction n as [|n IH]; intros s; [split; [|split]; reflexivity|].
  destruct s as [|c s]; [split; [|split]; reflexivity|]. cbn [quote_loop].
  destruct (decode_rune (c :: s)) as [[r t]|] eqn:D.
  - apply decode_encode in D as [_ S]. apply piece_app; auto. apply escape_piece; auto.
  - rewrite app_assoc. apply piece_app; auto.
    apply (piece_escape _ (hex_digits _ _)); [reflexivity|reflexivity|apply hex_digits_ok].
Qed.

Lemma go_quote_clean s : clean (go_quote print s) = true.
Proof.
  destruct (quote_loop_piece (length s) s) as (V & U & _). unfold go_quote.
  apply (clean_app [quote]); [reflexivity|]. apply clean_app; [|reflexivity].
  unfold clean. rewrite U, andb_true_r. rewrite forallb_forall in *. intros c I.
  specialize (V c I). apply andb_prop in V as [V _]. exact V.
Qed.

Lemma go_quote_visible s : forallb visible (go_quote print s) = true.
Proof.
  destruct (quote_loop_piece (length s) s) as (V & _). unfold go_quote. cbn [forallb].
  rewrite forallb_app, V. reflexivity.
Qed.

Lemma go_quote_token s rest : unquoted (tl (go_quote print s) ++ rest) = Some rest.
Proof.
  destruct (quote_loop_piece (length s) s) as (_ & _ & U). unfold go_quote. cbn [tl].
  rewrite <- app_assoc, U. reflexivity.
Qed.

(** ** Safe strings *)

Lemma json_safe_parse s : parse_json (go_quote print s) =
  if json_safe print s then Some (JStr s) else None.
Proof.
  unfold json_safe. destruct (code_points s) as [rs|] eqn:C.
  - apply code_points_iff in C as [C ->]. apply quote_json; auto.
  - apply quote_invalid. destruct (valid_utf8 s) eqn:V; auto.
    apply valid_text in V as (rs & H). apply code_points_iff in H. congruence.
Qed.

Lemma json_safe_body s : json_safe print s = true ->
  exists b, go_quote print s = quote :: b ++ [quote] /\ jbody s b /\ clean b = true.
Proof.
  intros H. unfold json_safe in H. destruct (code_points s) as [rs|] eqn:C; [|discriminate].
  apply code_points_iff in C as [C ->]. exists (concat (map esc rs)). split; [apply go_quote_text; auto|].
  split.
  - pose proof (parse_escapes rs [quote] C) as P. rewrite H in P.
    cbn [parse_body] in P. change (Ascii.eqb quote quote) with true in P. cbn [prepend] in P.
    rewrite app_nil_r in P. apply parse_body_sound in P as (b & E & J).
    apply app_inj_tail in E as [<- _]. exact J.
  - clear H. induction rs as [|r rs IH]; [reflexivity|]. cbn [forallb map concat] in *. apply andb_prop in C as [C1 C2].
    apply clean_app; auto. destruct (escape_piece r C1) as (V & U & _).
    unfold clean. rewrite U, andb_true_r. rewrite forallb_forall in *. intros c I.
    specialize (V c I). apply andb_prop in V as [V _]. exact V.
Qed.

Lemma quote_ordinary k : ordinary k = true -> go_quote print k = quote :: k ++ [quote].
Proof.
  intros H. unfold go_quote. do 2 f_equal.
  assert (G : forall n s, length s <= n -> ordinary s = true -> quote_loop print n s = s); [|apply G; auto].
  clear k H. induction n as [|n IH]; intros [|c s] L O; try reflexivity; [cbn in L; lia|].
  unfold ordinary in O. cbn [forallb] in O. apply andb_prop in O as [O1 O2].
  assert (D : decode_rune (c :: s) = Some (code c, s) /\ escape_rune print (code c) = [c]).
  { clear - O1. destruct c as [[][][][][][][][]]; vm_compute in O1; try discriminate; split; reflexivity. }
  destruct D as [D E]. cbn [quote_loop]. rewrite D, E, IH; [reflexivity|cbn in L; lia|exact O2].
Qed.

End Quote.
