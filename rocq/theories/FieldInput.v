(** From JSON texts in bytes to the grammar over runes. *)

From Coq Require Import Ascii String List NArith Bool Arith Lia.
From Verif Require Import Bytes BytesProofs Json GoQuote SpecText QuoteProofs Replace PropReplace FieldCounter SpecFields
  FieldProofs FieldGrammar.
Import ListNotations.

(** ** Splitting the input at an ASCII character *)

Definition ascii_head (t : bytes) : Prop := match t with [] => True | c :: _ => (code c < 128)%N end.

Lemma ascii_not_cont c : (code c < 128)%N -> cont c = false.
Proof. intros H. unfold cont. apply andb_false_iff. left. apply N.leb_gt. lia. Qed.
Lemma ascii_not_btw lo hi c : (code c < 128)%N -> (128 <= lo)%N -> btw lo hi c = false.
Proof. intros H L. unfold btw. apply andb_false_iff. left. apply N.leb_gt. lia. Qed.

Lemma decode_app a t : a <> [] -> ascii_head t ->
  decode_rune (a ++ t) = match decode_rune a with Some (r, rest) => Some (r, rest ++ t) | None => None end.
Proof.
  intros Na Ht. destruct a as [|c0 a]; [congruence|]. cbn [app decode_rune].
  destruct (N.ltb (code c0) 128); [reflexivity|].
  destruct a as [|c1 a].
  { cbn [app]. destruct t as [|x t]; [reflexivity|]. cbn in Ht. rewrite (ascii_not_cont x Ht).
    destruct (btw 194 223 c0); [reflexivity|]. destruct t as [|y t]; [reflexivity|].
    rewrite !(ascii_not_btw _ _ x Ht) by lia.
    destruct (btw 224 239 c0).
    { destruct (N.eqb (code c0) 224); [reflexivity|]. destruct (N.eqb (code c0) 237); reflexivity. }
    destruct t as [|z t]; [reflexivity|]. destruct (btw 240 244 c0); [|reflexivity].
    destruct (N.eqb (code c0) 240); [reflexivity|]. destruct (N.eqb (code c0) 244); reflexivity. }
  cbn [app]. destruct (btw 194 223 c0); [destruct (cont c1); reflexivity|].
  destruct a as [|c2 a].
  { cbn [app]. destruct t as [|x t]; [reflexivity|]. cbn in Ht. rewrite (ascii_not_cont x Ht).
    rewrite !andb_false_r. destruct (btw 224 239 c0); [reflexivity|].
    destruct t as [|z t]; [reflexivity|]. cbn [andb]. destruct (btw 240 244 c0); reflexivity. }
  cbn [app]. destruct (btw 224 239 c0).
  { match goal with |- (if ?b then _ else _) = _ => destruct b end; reflexivity. }
  destruct a as [|c3 a].
  { cbn [app]. destruct t as [|x t]; [reflexivity|]. cbn in Ht. rewrite (ascii_not_cont x Ht).
    rewrite !andb_false_r. destruct (btw 240 244 c0); reflexivity. }
  cbn [app]. destruct (btw 240 244 c0); [|reflexivity].
  match goal with |- (if ?b then _ else _) = _ => destruct b end; reflexivity.
Qed.

Lemma runes_decode s r rest : decode_rune s = Some (r, rest) -> runes s = r :: runes rest.
Proof.
  intros H. apply decode_encode in H. destruct H as [-> H]. apply runes_rune. exact H.
Qed.

Lemma runes_app a t : ascii_head t -> runes (a ++ t) = runes a ++ runes t.
Proof.
  intros Ht. enough (H : forall n a, length a <= n -> runes (a ++ t) = runes a ++ runes t) by (apply (H (length a)); lia).
  clear a. induction n as [|n IH]; intros a L; (destruct a as [|c a]; [reflexivity|]); [cbn in L; lia|].
  assert (D := decode_app (c :: a) t ltac:(discriminate) Ht).
  destruct (decode_rune (c :: a)) as [[r rest]|] eqn:E.
  - rewrite (runes_decode _ _ _ D), (runes_decode _ _ _ E). cbn [app]. f_equal. apply IH.
    pose proof (decode_length _ _ _ E). cbn in *. lia.
  - cbn [app] in *. rewrite (runes_bad _ _ D), (runes_bad _ _ E). cbn [app]. f_equal. apply IH. cbn in L. lia.
Qed.

Lemma input_app a t : ascii_head t -> input (a ++ t) = input a ++ input t.
Proof. intros H. unfold input. rewrite runes_app, map_app by exact H. reflexivity. Qed.

Definition nl (r : N) : N := if N.eqb r 10 then 32%N else r.

Lemma input_ascii c t : (code c < 128)%N -> input (c :: t) = nl (code c) :: input t.
Proof.
  intros H. unfold input. assert (D : decode_rune (c :: t) = Some (code c, t)).
  { cbn [decode_rune]. apply N.ltb_lt in H. rewrite H. reflexivity. }
  rewrite (runes_decode _ _ _ D). reflexivity.
Qed.

Lemma valid_app_inv a t : ascii_head t -> valid_utf8 (a ++ t) = true -> valid_utf8 a = true.
Proof.
  intros Ht. enough (H : forall n a, length a <= n -> valid_utf8 (a ++ t) = true -> valid_utf8 a = true)
    by (apply (H (length a)); lia).
  clear a. induction n as [|n IH]; intros a L V; (destruct a as [|c a]; [reflexivity|]); [cbn in L; lia|].
  rewrite valid_decode in V by discriminate. rewrite (decode_app (c :: a) t) in V by (discriminate || exact Ht).
  rewrite valid_decode by discriminate.
  destruct (decode_rune (c :: a)) as [[r rest]|] eqn:E; [|discriminate].
  apply IH; [|exact V]. pose proof (decode_length _ _ _ E). cbn in *. lia.
Qed.

(** ** Bodies of strings *)

Inductive bbody : bytes -> Prop :=
| bb_nil : bbody []
| bb_plain c b : code c <> 34%N -> code c <> 92%N -> (32 <= code c)%N -> bbody b -> bbody (c :: b)
| bb_escape e b : (32 <= code e < 128)%N -> bbody b -> bbody (backslash :: e :: b).

Lemma plain_bbody c b : plain_char c = true -> bbody b -> bbody (c :: b).
Proof.
  unfold plain_char. rewrite !andb_true_iff, !negb_true_iff, N.leb_le. intros [[H1 H2] H3] H.
  constructor; [| |exact H1|exact H]; intros E.
  - assert (c = quote) by (rewrite <- (code_chr_id c), E; reflexivity). subst. discriminate.
  - assert (c = backslash) by (rewrite <- (code_chr_id c), E; reflexivity). subst. discriminate.
Qed.

Lemma hex_plain c n : hex_val c = Some n -> plain_char c = true.
Proof.
  unfold hex_val. destruct (btw 48 57 c) eqn:E1; [|destruct (btw 65 70 c) eqn:E2; [|destruct (btw 97 102 c) eqn:E3; [|discriminate]]];
    intros _; unfold plain_char; rewrite ?btw_iff in *;
    rewrite !andb_true_iff, !negb_true_iff, N.leb_le; (split; [split; [lia|]|]);
    apply Ascii.eqb_neq; intros ->; unfold quote, backslash in *; rewrite code_chr in * by lia; lia.
Qed.

Lemma hex4_plain a b c d n t : hex4 a b c d = Some n -> bbody t -> bbody (a :: b :: c :: d :: t).
Proof.
  unfold hex4. destruct (hex_val a) eqn:Ea; [|discriminate]. destruct (hex_val b) eqn:Eb; [|discriminate].
  destruct (hex_val c) eqn:Ec; [|discriminate]. destruct (hex_val d) eqn:Ed; [|discriminate].
  intros _ H. repeat (apply plain_bbody; [eapply hex_plain; eassumption|]). exact H.
Qed.

Lemma jbody_bbody s b : jbody s b -> bbody b.
Proof.
  induction 1.
  - constructor.
  - apply plain_bbody; assumption.
  - constructor; [|assumption]. unfold simple_escape in H.
    destruct (code e) as [|p] eqn:E; [discriminate|].
    repeat (destruct p as [p|p|]; try discriminate); lia.
  - constructor; [rewrite code_chr by lia; lia|]. eapply hex4_plain; eassumption.
  - constructor; [rewrite code_chr by lia; lia|]. eapply hex4_plain; [eassumption|].
    constructor; [rewrite code_chr by lia; lia|]. eapply hex4_plain; eassumption.
Qed.

Lemma bbody_app a b : forallb (fun c => N.leb 128 (code c)) a = true -> bbody (a ++ b) -> bbody b.
Proof.
  induction a as [|c a IH]; intros H K; [exact K|]. cbn in H. apply andb_true_iff in H. destruct H as [H1 H2].
  apply N.leb_le in H1. apply IH; [exact H2|]. inversion K; subst; [assumption|].
  change (code backslash) with 92%N in H1. lia.
Qed.

Lemma encode_high r : (128 <= r)%N -> scalar r = true -> forallb (fun c => N.leb 128 (code c)) (utf8_encode r) = true.
Proof.
  intros L H.
  assert (H' : (r < 1114112)%N).
  { unfold scalar in H. apply orb_true_iff in H. rewrite andb_true_iff, !N.ltb_lt, N.leb_le in H. lia. }
  unfold utf8_encode. destruct (N.ltb_spec r 128); [lia|].
  pose proof (N.mod_lt r 64 ltac:(discriminate)). pose proof (N.mod_lt (r / 64) 64 ltac:(discriminate)).
  pose proof (N.mod_lt (r / 4096) 64 ltac:(discriminate)).
  destruct (N.ltb_spec r 2048).
  { assert (r / 64 < 32)%N by (apply N.div_lt_upper_bound; lia).
    cbn [forallb]. rewrite !code_chr, !andb_true_iff, !N.leb_le by lia. repeat split; match goal with |- (_ <= ?a + _)%N => apply (N.le_trans _ a); [lia|apply N.le_add_r] end. }
  destruct (N.ltb_spec r 65536).
  { assert (r / 4096 < 16)%N by (apply N.div_lt_upper_bound; lia).
    cbn [forallb]. rewrite !code_chr, !andb_true_iff, !N.leb_le by lia. repeat split; match goal with |- (_ <= ?a + _)%N => apply (N.le_trans _ a); [lia|apply N.le_add_r] end. }
  assert (r / 262144 < 8)%N by (apply N.div_lt_upper_bound; lia).
  cbn [forallb]. rewrite !code_chr, !andb_true_iff, !N.leb_le by lia. repeat split; match goal with |- (_ <= ?a + _)%N => apply (N.le_trans _ a); [lia|apply N.le_add_r] end.
Qed.

Lemma decode_high c s r rest : (128 <= code c)%N -> decode_rune (c :: s) = Some (r, rest) ->
  (128 <= r)%N /\ exists a, c :: s = a ++ rest /\ forallb (fun c => N.leb 128 (code c)) a = true.
Proof.
  intros H D. apply decode_encode in D. destruct D as [E S0].
  destruct (N.lt_ge_cases r 128) as [L|L].
  - exfalso. unfold utf8_encode in E. apply N.ltb_lt in L. rewrite L in E. injection E as -> _.
    apply N.ltb_lt in L. rewrite code_chr in H by lia. lia.
  - split; [exact L|]. exists (utf8_encode r). split; [exact E|]. apply encode_high; assumption.
Qed.

Lemma bbody_rbody b : bbody b -> rbody (input b) /\ input b = runes b.
Proof.
  enough (H : forall n b, length b <= n -> bbody b -> rbody (input b) /\ input b = runes b) by (apply (H (length b)); lia).
  clear b. induction n as [|n IH]; intros b L H; (destruct b as [|c b]; [split; [constructor|reflexivity]|]); [cbn in L; lia|].
  destruct (N.lt_ge_cases (code c) 128) as [Hc|Hc].
  - assert (R1 : runes (c :: b) = code c :: runes b).
    { apply runes_decode. cbn [decode_rune]. apply N.ltb_lt in Hc. rewrite Hc. reflexivity. }
    rewrite input_ascii, R1 by exact Hc. inversion H; subst.
    + destruct (IH b) as [IH1 IH2]; [cbn in L; lia|assumption|]. unfold nl.
      replace (N.eqb (code c) 10) with false by (symmetry; apply N.eqb_neq; lia).
      rewrite IH2 in *. split; [constructor; assumption|reflexivity].
    + destruct (IH b0) as [IH1 IH2]; [cbn in L; lia|assumption|].
      change (code backslash) with 92%N. cbn [nl N.eqb Pos.eqb].
      assert (R2 : runes (e :: b0) = code e :: runes b0).
      { apply runes_decode. cbn [decode_rune]. replace (N.ltb (code e) 128) with true by (symmetry; apply N.ltb_lt; lia).
        reflexivity. }
      rewrite input_ascii, R2 by lia. unfold nl.
      replace (N.eqb (code e) 10) with false by (symmetry; apply N.eqb_neq; lia).
      cbn [N.eqb Pos.eqb]. rewrite IH2 in *. split; [constructor; assumption|reflexivity].
  - unfold input. destruct (decode_rune (c :: b)) as [[r rest]|] eqn:D.
    + rewrite (runes_decode _ _ _ D). cbn [map]. pose proof (decode_length _ _ _ D) as Ld.
      destruct (decode_high _ _ _ _ Hc D) as (Lr & a & E & Ha). rewrite E in H.
      apply bbody_app in H; [|exact Ha]. destruct (IH rest) as [IH1 IH2]; [cbn in *; lia|exact H|].
      unfold input in *. rewrite IH2 in *.
      replace (N.eqb r 10) with false by (symmetry; apply N.eqb_neq; lia).
      split; [|reflexivity]. constructor; [lia|lia|exact IH1].
    + rewrite (runes_bad _ _ D). cbn [map]. 
      assert (H2 : bbody b) by (apply (bbody_app [c] b); [cbn; rewrite andb_true_r; apply N.leb_le; exact Hc|exact H]).
      destruct (IH b) as [IH1 IH2]; [cbn in L; lia|exact H2|]. unfold input in *. rewrite IH2 in *.
      split; [|reflexivity]. constructor; [discriminate|discriminate|exact IH1].
Qed.

(** ** Numbers and white space *)

Lemma input_all_ascii s : forallb (fun c => N.ltb (code c) 128) s = true -> input s = map (fun c => nl (code c)) s.
Proof.
  induction s as [|c s IH]; intros H; [reflexivity|]. cbn in H. apply andb_true_iff in H. destruct H as [H1 H2].
  rewrite input_ascii by (apply N.ltb_lt, H1). cbn. rewrite IH by exact H2. reflexivity.
Qed.

Lemma ws_input w : ws w -> rws (input w).
Proof.
  unfold ws, rws. induction w as [|c w IH]; intros H; [reflexivity|]. cbn in H. apply andb_true_iff in H. destruct H as [H1 H2].
  assert (C : (code c = 32 \/ code c = 9 \/ code c = 10 \/ code c = 13)%N).
  { unfold is_ws in H1. destruct (code c) as [|p]; [discriminate|].
    repeat (destruct p as [p|p|]; try discriminate); auto. }
  rewrite input_ascii by (destruct C as [->|[->|[->| ->]]]; reflexivity). cbn [forallb]. rewrite IH by exact H2.
  destruct C as [->|[->|[->| ->]]]; reflexivity.
Qed.

Lemma ws_ascii w t : ws w -> ascii_head t -> ascii_head (w ++ t).
Proof.
  destruct w as [|c w]; [auto|]. unfold ws. cbn. rewrite andb_true_iff. intros [H _] _.
  unfold is_ws in H. destruct (code c) as [|p]; [discriminate|].
  repeat (destruct p as [p|p|]; try discriminate); reflexivity.
Qed.

Lemma ws_head w : ws w -> ascii_head w.
Proof. intros H. rewrite <- (app_nil_r w). apply ws_ascii; [exact H|exact I]. Qed.

Section Numbers.
Variable u : classes.
Hypothesis ok : classes_ok u.

Lemma step_digit f c : is_digit c = true -> num_step u f (code c) = NGo f.
Proof.
  intros H. assert (L : (48 <= code c <= 57)%N) by (unfold is_digit in H; rewrite andb_true_iff, !N.leb_le in H; lia).
  unfold num_step. destruct (ok (code c)) as (_ & _ & -> & _); [lia|].
  assert (E : ascii_digit (code c) = true) by exact H. rewrite E. reflexivity.
Qed.

Lemma run_digits f s : num_run u f (map code s) = num_run u f (map code (drop_digits s)).
Proof.
  induction s as [|c s IH]; [reflexivity|]. cbn [drop_digits]. destruct (is_digit c) eqn:E; [|reflexivity].
  cbn [map num_run]. rewrite (step_digit _ _ E). exact IH.
Qed.

Ltac u_digit_false x := destruct (ok x eq_refl) as (_ & _ & -> & _); cbn [ascii_digit N.leb N.compare Pos.compare Pos.compare_cont andb].

Lemma run_exp d s : num_exp s = true -> num_run u {| n_decimal := d; n_exponent := false; n_sign := false |} (map code s) = true.
Proof.
  destruct s as [|c r]; [reflexivity|]. cbn [num_exp]. rewrite andb_true_iff, orb_true_iff. intros [Hc H].
  assert (St : num_step u {| n_decimal := d; n_exponent := false; n_sign := false |} (code c) =
          NGo {| n_decimal := d; n_exponent := true; n_sign := false |}).
  { unfold num_step. destruct Hc as [Hc|Hc]; apply Ascii.eqb_eq in Hc; subst c; rewrite code_chr by lia;
      [destruct (ok 101%N eq_refl) as (_ & _ & -> & _)|destruct (ok 69%N eq_refl) as (_ & _ & -> & _)]; reflexivity. }
  cbn [map num_run]. rewrite St. destruct r as [|x r1]; [discriminate|].
  destruct (Ascii.eqb x (chr 43) || Ascii.eqb x (chr 45)) eqn:Ex.
  - assert (Sx : num_step u {| n_decimal := d; n_exponent := true; n_sign := false |} (code x) =
          NGo {| n_decimal := d; n_exponent := true; n_sign := true |}).
    { unfold num_step. apply orb_true_iff in Ex. destruct Ex as [Ex|Ex]; apply Ascii.eqb_eq in Ex; subst x; rewrite code_chr by lia;
      [destruct (ok 43%N eq_refl) as (_ & _ & -> & _)|destruct (ok 45%N eq_refl) as (_ & _ & -> & _)]; reflexivity. }
    cbn [map num_run]. rewrite Sx. destruct r1 as [|y r2]; [discriminate|]. apply andb_true_iff in H. destruct H as [Hy H].
    cbn [map num_run]. rewrite (step_digit _ _ Hy), run_digits. destruct (drop_digits r2); [reflexivity|discriminate].
  - apply andb_true_iff in H. destruct H as [Hy H].
    cbn [map num_run]. rewrite (step_digit _ _ Hy), run_digits. destruct (drop_digits r1); [reflexivity|discriminate].
Qed.

Lemma run_frac s : num_frac s = true -> num_run u num_start (map code s) = true.
Proof.
  destruct s as [|c r]; [reflexivity|]. cbn [num_frac]. destruct (Ascii.eqb c (chr 46)) eqn:E.
  - apply Ascii.eqb_eq in E. subst c. destruct r as [|x r1]; [discriminate|]. rewrite andb_true_iff. intros [Hx H].
    cbn [map num_run]. rewrite code_chr by lia.
    replace (num_step u num_start 46) with (NGo {| n_decimal := true; n_exponent := false; n_sign := false |}).
    2:{ unfold num_step. destruct (ok 46%N eq_refl) as (_ & _ & -> & _). reflexivity. }
    cbn [map num_run]. rewrite (step_digit _ _ Hx), run_digits. apply run_exp, H.
  - apply run_exp.
Qed.

Lemma num_ascii s : forall c, In c s -> is_num s = true -> num_char c = true.
Proof.
  intros c Hc H.
  assert (D : forall t x, In x t -> is_digit x = true \/ In x (drop_digits t)).
  { clear. induction t as [|y t IH]; [intros x []|]. intros x [<-|Hx]; cbn [drop_digits]; destruct (is_digit y) eqn:E; auto.
    all: right; cbn; auto. }
  assert (Dg : forall x, is_digit x = true -> num_char x = true).
  { intros x Hx. unfold num_char. rewrite Hx. reflexivity. }
  assert (Exp : forall t x, num_exp t = true -> In x t -> num_char x = true).
  { intros t x He Hx. destruct t as [|y r]; [destruct Hx|]. cbn [num_exp] in He. apply andb_true_iff in He. destruct He as [Hy He].
    assert (Fin : forall r', match r' with d :: r2 => is_digit d && match drop_digits r2 with [] => true | _ => false end | [] => false end = true ->
                  In x r' -> num_char x = true).
    { intros r' H' I'. destruct r' as [|d r2]; [destruct I'|]. apply andb_true_iff in H'. destruct H' as [H1 H2].
      destruct I' as [<-|I']; [auto|]. destruct (D _ _ I') as [|I2]; [auto|]. destruct (drop_digits r2); [destruct I2|discriminate]. }
    destruct Hx as [<-|Hx].
    - unfold num_char. apply orb_true_iff in Hy. destruct Hy as [Hy|Hy]; rewrite Hy, !orb_true_r; reflexivity.
    - destruct r as [|d r1]; [destruct Hx|]. destruct (Ascii.eqb d (chr 43) || Ascii.eqb d (chr 45)) eqn:Ed.
      + destruct Hx as [<-|Hx]; [|apply (Fin _ He Hx)]. unfold num_char. apply orb_true_iff in Ed.
        destruct Ed as [Ed|Ed]; rewrite Ed, ?orb_true_r; reflexivity.
      + apply (Fin (d :: r1) He Hx). }
  assert (Frac : forall t x, num_frac t = true -> In x t -> num_char x = true).
  { intros t x He Hx. destruct t as [|y r]; [destruct Hx|]. cbn [num_frac] in He. destruct (Ascii.eqb y (chr 46)) eqn:Ey.
    - destruct Hx as [<-|Hx]; [unfold num_char; rewrite Ey, !orb_true_r; reflexivity|].
      destruct r as [|d r1]; [destruct Hx|]. apply andb_true_iff in He. destruct He as [H1 H2].
      destruct Hx as [<-|Hx]; [auto|]. destruct (D _ _ Hx) as [|I2]; [auto|]. eapply Exp; eassumption.
    - eapply Exp; eassumption. }
  assert (Int : forall t x, num_int t = true -> In x t -> num_char x = true).
  { intros t x He Hx. destruct t as [|y r]; [destruct Hx|]. cbn [num_int] in He. destruct (Ascii.eqb y (chr 48)) eqn:Ey.
    - destruct Hx as [<-|Hx]; [apply Ascii.eqb_eq in Ey; subst; reflexivity|]. eapply Frac; eassumption.
    - apply andb_true_iff in He. destruct He as [H1 H2]. destruct Hx as [<-|Hx]; [auto|].
      destruct (D _ _ Hx) as [|I2]; [auto|]. eapply Frac; eassumption. }
  destruct s as [|y r]; [destruct Hc|]. cbn [is_num] in H. destruct (Ascii.eqb y (chr 45)) eqn:Ey.
  - destruct Hc as [<-|Hc]; [unfold num_char; rewrite Ey, !orb_true_r; reflexivity|]. eapply Int; eassumption.
  - eapply Int; eassumption.
Qed.

Lemma num_char_code c : num_char c = true -> (43 <= code c < 128)%N.
Proof.
  unfold num_char, is_digit. rewrite !orb_true_iff, andb_true_iff, !N.leb_le, !Ascii.eqb_eq.
  intros [[[[[H|H]|H]|H]|H]|H]; subst; rewrite ?code_chr by lia; lia.
Qed.

Lemma num_input t : is_num t = true -> input t = map code t /\ ascii_head t.
Proof.
  intros H. assert (A : forall c, In c t -> (43 <= code c < 128)%N) by (intros c Hc; eapply num_char_code, num_ascii; eassumption).
  split.
  - rewrite input_all_ascii.
    + apply map_ext_in. intros c Hc. unfold nl. specialize (A c Hc).
      replace (N.eqb (code c) 10) with false by (symmetry; apply N.eqb_neq; lia). reflexivity.
    + apply forallb_forall. intros c Hc. apply N.ltb_lt. apply A, Hc.
  - destruct t as [|c t]; [exact I|]. cbn. apply A. left. reflexivity.
Qed.

Lemma num_rtext t : is_num t = true -> rtext u LScalar (input t).
Proof.
  intros H. rewrite (proj1 (num_input t H)). destruct t as [|c r]; [discriminate|]. cbn [is_num] in H. cbn [map].
  destruct (Ascii.eqb c (chr 45)) eqn:E.
  - apply Ascii.eqb_eq in E. subst c. apply rt_num; [reflexivity|].
    destruct r as [|d r]; [discriminate|]. cbn [num_int] in H. destruct (Ascii.eqb d (chr 48)) eqn:E0.
    + apply Ascii.eqb_eq in E0. subst d. cbn [map num_run]. rewrite step_digit by reflexivity. apply run_frac, H.
    + apply andb_true_iff in H. destruct H as [Hd H]. cbn [map num_run]. rewrite (step_digit _ _ Hd), run_digits. apply run_frac, H.
  - cbn [num_int] in H. destruct (Ascii.eqb c (chr 48)) eqn:E0.
    + apply Ascii.eqb_eq in E0. subst c. apply rt_num; [reflexivity|]. apply run_frac, H.
    + apply andb_true_iff in H. destruct H as [Hd H]. apply rt_num.
      * assert (E1 : ascii_digit (code c) = true) by exact Hd. rewrite E1. reflexivity.
      * rewrite run_digits. apply run_frac, H.
Qed.

(** ** Texts *)

(** The key the counter sees. *)
Definition seen (kb : bytes) : bytes := built (input kb).

Fixpoint relabel (l : layout) : layout :=
  match l with
  | LScalar => LScalar
  | LArr vs => LArr (map relabel vs)
  | LObj ms => LObj (map (fun m => (seen (fst m), relabel (snd m))) ms)
  end.
Definition relabel_members (ms : members) : members := map (fun m => (seen (fst m), relabel (snd m))) ms.

Lemma text_head v b : ltext v b -> ascii_head b.
Proof.
  destruct 1; try reflexivity. apply num_input. assumption.
Qed.

Lemma input_cons_ascii c t : (code c < 128)%N -> (code c =? 10)%N = false -> input (c :: t) = code c :: input t.
Proof. intros H E. rewrite input_ascii by exact H. unfold nl. rewrite E. reflexivity. Qed.

Lemma input_chr n t : (n < 128)%N -> (n =? 10)%N = false -> input (chr n :: t) = n :: input t.
Proof. intros H E. rewrite input_cons_ascii; rewrite code_chr by lia; auto. Qed.

Lemma head_chr n t : (n < 128)%N -> ascii_head (chr n :: t).
Proof. intros H. cbn. rewrite code_chr by lia. exact H. Qed.

Lemma texts_runes :
  (forall v b, ltext v b -> rtext u (relabel v) (input b)) /\
  (forall l b, lelems l b -> relems u (map relabel l) (input b)) /\
  (forall ms b, lmembers ms b -> rmembers u (relabel_members ms) (input b)).
Proof.
  unfold quote in *.
  apply layout_grammar_ind.
  - apply rt_key. right. right. left. reflexivity.
  - apply rt_key. left. reflexivity.
  - apply rt_key. right. left. reflexivity.
  - intros t H. apply num_rtext, H.
  - intros s b H. change quote with (chr 34). rewrite input_chr, input_app by (reflexivity || apply head_chr; reflexivity).
    apply (rt_str u (input b)). apply bbody_rbody, (jbody_bbody _ _ H).
  - intros w H. rewrite input_chr, input_app by (reflexivity || apply head_chr; reflexivity).
    apply (rt_arr0 u (input w)), ws_input, H.
  - intros l b _ IH. rewrite input_chr, input_app by (reflexivity || apply head_chr; reflexivity).
    apply (rt_arr u _ (input b)), IH.
  - intros w H. rewrite input_chr, input_app by (reflexivity || apply head_chr; reflexivity).
    apply (rt_obj0 u (input w)), ws_input, H.
  - intros l b _ IH. rewrite input_chr, input_app by (reflexivity || apply head_chr; reflexivity).
    apply (rt_obj u _ (input b)), IH.
  - intros v w1 b w2 H1 Hv IH H2. pose proof (text_head v b Hv) as Hb.
    assert (Hb2 : ascii_head (b ++ w2)).
    { destruct b as [|c b]; [apply ws_head, H2|exact Hb]. }
    rewrite input_app by exact Hb2.
    rewrite input_app by (apply ws_head, H2).
    cbn [map]. apply re_one; [apply ws_input, H1|exact IH|apply ws_input, H2].
  - intros v w1 b w2 l t H1 Hv IH H2 _ IHl. pose proof (text_head v b Hv) as Hb.
    assert (Hc : ascii_head (chr 44 :: t)) by (apply head_chr; reflexivity).
    assert (Hw : ascii_head (w2 ++ chr 44 :: t)) by (apply ws_ascii; assumption).
    rewrite input_app by (destruct b; [exact Hw|exact Hb]).
    rewrite input_app by exact Hw. rewrite input_app by exact Hc. rewrite input_chr by reflexivity.
    cbn [map]. apply re_cons; [apply ws_input, H1|exact IH|apply ws_input, H2|exact IHl].
  - intros k kb v w1 w2 w3 b w4 H1 Hk H2 H3 Hv IH H4. change quote with (chr 34). pose proof (text_head v b Hv) as Hb.
    assert (H4' : ascii_head w4) by (apply ws_head, H4).
    assert (Hb4 : ascii_head (b ++ w4)) by (destruct b; [exact H4'|exact Hb]).
    rewrite input_app by (apply head_chr; reflexivity). rewrite input_chr by reflexivity.
    rewrite input_app by (apply head_chr; reflexivity). rewrite input_chr by reflexivity.
    rewrite input_app by (apply head_chr; reflexivity). rewrite input_chr by reflexivity.
    rewrite input_app by exact Hb4. rewrite input_app by exact H4'.
    apply rm_one; auto using ws_input. apply bbody_rbody, (jbody_bbody _ _ Hk).
  - intros k kb v w1 w2 w3 b w4 l t H1 Hk H2 H3 Hv IH H4 _ IHl. change quote with (chr 34). pose proof (text_head v b Hv) as Hb.
    assert (Hc : ascii_head (chr 44 :: t)) by (apply head_chr; reflexivity).
    assert (H4' : ascii_head (w4 ++ chr 44 :: t)) by (apply ws_ascii; assumption).
    assert (Hb4 : ascii_head (b ++ w4 ++ chr 44 :: t)) by (destruct b; [exact H4'|exact Hb]).
    rewrite input_app by (apply head_chr; reflexivity). rewrite input_chr by reflexivity.
    rewrite input_app by (apply head_chr; reflexivity). rewrite input_chr by reflexivity.
    rewrite input_app by (apply head_chr; reflexivity). rewrite input_chr by reflexivity.
    rewrite input_app by exact Hb4. rewrite input_app by exact H4'. rewrite input_app by exact Hc.
    rewrite input_chr by reflexivity.
    apply rm_cons; auto using ws_input. apply bbody_rbody, (jbody_bbody _ _ Hk).
Qed.
End Numbers.

(** A well-formed key is seen as it is written. *)
Lemma seen_valid s kb : jbody s kb -> valid_utf8 kb = true -> seen kb = kb.
Proof.
  intros H V. unfold seen. rewrite (proj2 (bbody_rbody kb (jbody_bbody _ _ H))).
  apply valid_text in V. destruct V as (rs & S0 & ->). rewrite runes_text by exact S0. reflexivity.
Qed.

(** In a well-formed text all keys are. *)
Lemma valid_tail a t : ascii_head t -> valid_utf8 (a ++ t) = true -> valid_utf8 a = true /\ valid_utf8 t = true.
Proof.
  intros H V. pose proof (valid_app_inv a t H V) as Va. split; [exact Va|].
  eapply EscapeProofs.valid_split; eassumption.
Qed.
Lemma valid_cons n t : (n < 128)%N -> valid_utf8 (chr n :: t) = true -> valid_utf8 t = true.
Proof. intros H V. cbn [valid_utf8] in V. rewrite code_chr in V by lia. apply N.ltb_lt in H. rewrite H in V. exact V. Qed.

Lemma texts_valid :
  (forall v b, ltext v b -> valid_utf8 b = true -> relabel v = v) /\
  (forall l b, lelems l b -> valid_utf8 b = true -> map relabel l = l) /\
  (forall ms b, lmembers ms b -> valid_utf8 b = true -> relabel_members ms = ms).
Proof.
  unfold quote in *. apply layout_grammar_ind; try reflexivity.
  - intros l b _ IH V. cbn [relabel]. apply valid_cons, valid_tail in V; [|apply head_chr|]; try reflexivity.
    rewrite IH by apply V. reflexivity.
  - intros l b _ IH V. cbn [relabel]. apply valid_cons, valid_tail in V; [|apply head_chr|]; try reflexivity.
    fold (relabel_members l). rewrite IH by apply V. reflexivity.
  - intros v w1 b w2 H1 Hv IH H2 V. pose proof (text_head v b Hv) as Hb.
    assert (H2' : ascii_head w2) by (apply ws_head, H2).
    apply valid_tail in V; [|destruct b; [exact H2'|exact Hb]]. destruct V as [_ V].
    apply valid_tail in V; [|exact H2']. cbn [map]. rewrite IH by apply V. reflexivity.
  - intros v w1 b w2 l t H1 Hv IH H2 _ IHl V. pose proof (text_head v b Hv) as Hb.
    assert (Hc : ascii_head (chr 44 :: t)) by (apply head_chr; reflexivity).
    assert (H2' : ascii_head (w2 ++ chr 44 :: t)) by (apply ws_ascii; assumption).
    apply valid_tail in V; [|destruct b; [exact H2'|exact Hb]]. destruct V as [_ V].
    apply valid_tail in V; [|exact H2']. destruct V as [V1 V2].
    apply valid_tail in V2; [|exact Hc]. destruct V2 as [_ V2]. apply valid_cons in V2; [|reflexivity].
    cbn [map]. rewrite IH, IHl by assumption. reflexivity.
  - intros k kb v w1 w2 w3 b w4 H1 Hk H2 H3 Hv IH H4 V. change quote with (chr 34) in V. pose proof (text_head v b Hv) as Hb.
    assert (H4' : ascii_head w4) by (apply ws_head, H4).
    assert (Hb4 : ascii_head (b ++ w4)) by (destruct b; [exact H4'|exact Hb]).
    apply valid_tail in V; [|apply head_chr; reflexivity]. destruct V as [_ V]. apply valid_cons in V; [|reflexivity].
    apply valid_tail in V; [|apply head_chr; reflexivity]. destruct V as [Vk V]. apply valid_cons in V; [|reflexivity].
    apply valid_tail in V; [|apply head_chr; reflexivity]. destruct V as [_ V]. apply valid_cons in V; [|reflexivity].
    apply valid_tail in V; [|exact Hb4]. destruct V as [_ V]. apply valid_tail in V; [|exact H4'].
    unfold relabel_members. cbn [map fst snd]. rewrite IH, (seen_valid k kb) by (assumption || apply V). reflexivity.
  - intros k kb v w1 w2 w3 b w4 l t H1 Hk H2 H3 Hv IH H4 _ IHl V. change quote with (chr 34) in V. pose proof (text_head v b Hv) as Hb.
    assert (Hc : ascii_head (chr 44 :: t)) by (apply head_chr; reflexivity).
    assert (H4' : ascii_head (w4 ++ chr 44 :: t)) by (apply ws_ascii; assumption).
    assert (Hb4 : ascii_head (b ++ w4 ++ chr 44 :: t)) by (destruct b; [exact H4'|exact Hb]).
    apply valid_tail in V; [|apply head_chr; reflexivity]. destruct V as [_ V]. apply valid_cons in V; [|reflexivity].
    apply valid_tail in V; [|apply head_chr; reflexivity]. destruct V as [Vk V]. apply valid_cons in V; [|reflexivity].
    apply valid_tail in V; [|apply head_chr; reflexivity]. destruct V as [_ V]. apply valid_cons in V; [|reflexivity].
    apply valid_tail in V; [|exact Hb4]. destruct V as [_ V]. apply valid_tail in V; [|exact H4'].
    destruct V as [V1 V2]. apply valid_tail in V2; [|exact Hc]. destruct V2 as [_ V2]. apply valid_cons in V2; [|reflexivity].
    unfold relabel_members. cbn [map fst snd]. fold (relabel_members l). rewrite IH, IHl, (seen_valid k kb) by assumption. reflexivity.
Qed.
