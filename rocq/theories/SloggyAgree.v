(** Flash and sloggy meanings agree on attributes shown alike. *)

From Coq Require Import Ascii String List ZArith NArith Bool Lia.
From Verif Require Import Bytes BytesProofs Json JsonProofs Slog SlogProofs SpecLog SpecFlash SpecText GoQuote
  Flash EscapeProofs TextProofs FlashProofs FlashRecord QuoteProofs SpecSloggy Sloggy SloggyProofs SloggyHandler SloggyMeaning.
Import ListNotations.

Section Agree.
Variable std : stdlib.

Lemma str_sstr s j j' : str s = Some j -> sstr std s = Some j' -> j = j'.
Proof. unfold str, sstr. destruct (valid_utf8 s), (json_safe _ s); congruence. Qed.

Lemma any_agree o j j' : any_alike o -> flash_any o = Some j -> sloggy_any std o = Some j' -> j = j'.
Proof.
  unfold any_alike, flash_any, sloggy_any. intros [A1 A2].
  destruct (ao_net o) as [a|].
  { rewrite A1. apply str_sstr. }
  destruct (ao_stringer o) as [s|], (ao_error o) as [e|]; subst; try apply str_sstr.
  destruct (ao_jsonm o) as [[t|t]|]; [apply str_sstr|discriminate|].
  destruct (ao_textm o) as [[t|t]|]; [apply str_sstr|discriminate|]. congruence.
Qed.

Lemma leaf_agree v j j' :
  match v with VGroup _ | VLogValuer _ _ => False | VAny (AnyObj o) => any_alike o | _ => True end ->
  flash_leaf RFC3339Nano v = Some j -> sloggy_leaf std v = Some j' -> j = j'.
Proof.
  destruct v as [[|o]| | |[]| | | | | |]; unfold flash_leaf, sloggy_leaf; cbn [leaf]; intros A; try congruence; try contradiction.
  - apply any_agree; auto.
  - apply str_sstr.
  - unfold flash_time, sloggy_time, raw_str, sstr. destruct (plain _), (json_safe _ _); congruence.
Qed.

Lemma one_agree k f f' fs fs' : (forall j j', f = Some j -> f' = Some j' -> j = j') ->
  one str k f = Some fs -> one (sstr std) k f' = Some fs' -> fs = fs'.
Proof.
  unfold one. intros H. destruct (str k) as [x|], f as [j|]; try discriminate.
  destruct (sstr std k) as [x'|], f' as [j'|]; try discriminate. rewrite (H j j' eq_refl eq_refl). congruence.
Qed.

Lemma smeaning_resolved : forall v n k w, n < 100 -> resolve_n n v = w ->
  match w with VGroup _ => False | _ => True end ->
  smeaning std n k v = one (sstr std) k (sloggy_leaf std w).
Proof.
  apply (value_rect' (fun v => forall n k w, n < 100 -> resolve_n n v = w ->
    match w with VGroup _ => False | _ => True end ->
    smeaning std n k v = one (sstr std) k (sloggy_leaf std w))).
  all: try (intros x n k w L <- Hw; destruct n as [|n]; [reflexivity|]; cbn [smeaning resolve_n] in *;
    destruct (Nat.eqb_spec (S n) 100); [lia|]; reflexivity).
  - intros l F n k w L <- Hw. destruct n as [|n]; [reflexivity|]. contradiction.
  - intros v o IH n k w L R Hw. destruct n as [|n]; [subst; reflexivity|].
    cbn [smeaning resolve_n] in *. apply IH; auto. lia.
Qed.

Local Notation fmeaning := (meaning flash_any (flash_time RFC3339Nano) str (flash_resolved std)).

Lemma meaning_agree : forall v k fs fs', alike (k, v) ->
  fmeaning k v = Some fs -> smeaning std 100 k v = Some fs' -> fs = fs'.
Proof.
  assert (Lf : forall v k fs fs', match v with VGroup _ | VLogValuer _ _ => False | _ => True end -> alike (k, v) ->
    fmeaning k v = Some fs -> smeaning std 100 k v = Some fs' -> fs = fs').
  { intros v k fs fs' Nv A H1 H2.
    replace (fmeaning k v) with (if is_empty (k, v) then Some [] else one str k (flash_leaf RFC3339Nano v)) in H1
      by (destruct v; try contradiction; reflexivity).
    replace (smeaning std 100 k v) with (if is_empty (k, v) then Some [] else one (sstr std) k (sloggy_leaf std v)) in H2
      by (destruct v; try contradiction; reflexivity).
    destruct (is_empty (k, v)); [congruence|]. eapply one_agree; [|exact H1|exact H2].
    intros j j'. apply leaf_agree. inversion A; subst; auto; contradiction. }
  apply (value_rect' (fun v => forall k fs fs', alike (k, v) ->
    fmeaning k v = Some fs -> smeaning std 100 k v = Some fs' -> fs = fs')).
  all: try (intros x k fs fs'; apply Lf; exact I).
  - intros l F k fs fs' A H1 H2.
    assert (Al : Forall alike l) by (inversion A; subst; [contradiction|assumption]). clear A.
    rewrite meaning_group in H1. fold (flash_meanings std RFC3339Nano) in H1.
    assert (X : forall f f', flash_meanings std RFC3339Nano l = Some f -> sloggy_meanings std l = Some f' -> f = f').
    { clear H1 H2. induction F as [|[k' v'] l Ha F IH]; intros f f' H1 H2.
      - cbn in *. congruence.
      - cbn [flash_meanings meanings sloggy_meanings fst snd] in H1, H2. inversion_clear Al.
        destruct (fmeaning k' v') as [g1|] eqn:E1; [|discriminate].
        fold (flash_meanings std RFC3339Nano) in H1.
        destruct (flash_meanings std RFC3339Nano l) as [g2|] eqn:E2; [|discriminate].
        destruct (smeaning std 100 k' v') as [g1'|] eqn:E1'; [|discriminate].
        destruct (sloggy_meanings std l) as [g2'|] eqn:E2'; [|discriminate].
        injection H1 as <-. injection H2 as <-. rewrite (Ha k' g1 g1' H E1 E1'), (IH H0 g2 g2' eq_refl eq_refl). reflexivity. }
    rewrite smeaning_group in H2. destruct (empty_group l) eqn:Em.
    + injection H2 as <-. assert (E : flash_meanings std RFC3339Nano l = Some []).
      { apply empty_means. exact Em. }
      rewrite E in H1. destruct k; congruence.
    + destruct k as [|kc k]; [eapply X; eauto|].
      destruct (flash_meanings std RFC3339Nano l) as [f|] eqn:E1; [|discriminate].
      destruct (sloggy_meanings std l) as [f'|] eqn:E2; [|discriminate].
      rewrite <- (X f f' eq_refl eq_refl) in H2.
      destruct f; [discriminate|]. eapply one_agree; [|exact H1|exact H2]. congruence.
  - intros v o IH k fs fs' A H1 H2. clear IH.
    assert (Al : match resolve (VLogValuer v o) with
      | VAny (AnyObj o') => any_alike o'
      | VAny AnyNil => k <> []
      | VString _ | VInt64 _ | VUint64 _ | VBool _ => True
      | _ => False
      end) by (inversion A; subst; [contradiction|assumption]). clear A.
    change (smeaning std 100 k (VLogValuer v o)) with (smeaning std 99 k v) in H2.
    rewrite (smeaning_resolved v 99 k (resolve (VLogValuer v o))) in H2;
      [|lia|reflexivity|destruct (resolve (VLogValuer v o)); auto].
    change (fmeaning k (VLogValuer v o)) with
      (if is_empty (k, resolve (VLogValuer v o)) then Some [] else one str k (flash_resolved std (resolve (VLogValuer v o)))) in H1.
    assert (Ne : is_empty (k, resolve (VLogValuer v o)) = false).
    { destruct (resolve (VLogValuer v o)) as [[|]| | | | | | | | |], k; try reflexivity; congruence. }
    rewrite Ne in H1. eapply one_agree; [|exact H1|exact H2]. intros j j'.
    destruct (resolve (VLogValuer v o)) as [[|]| | | | | | | | |]; try contradiction; try (cbn; congruence).
    + apply any_agree. exact Al.
    + apply str_sstr.
Qed.

Lemma meanings_agree l : Forall alike l -> forall fs fs',
  flash_meanings std RFC3339Nano l = Some fs -> sloggy_meanings std l = Some fs' -> fs = fs'.
Proof.
  induction 1 as [|[k v] l A F IH]; intros fs fs' H1 H2; [cbn in *; congruence|].
  cbn [flash_meanings meanings sloggy_meanings fst snd] in H1, H2.
  destruct (fmeaning k v) as [g1|] eqn:E1; [|discriminate].
  fold (flash_meanings std RFC3339Nano) in H1.
  destruct (flash_meanings std RFC3339Nano l) as [g2|] eqn:E2; [|discriminate].
  destruct (smeaning std 100 k v) as [g1'|] eqn:E1'; [|discriminate].
  destruct (sloggy_meanings std l) as [g2'|] eqn:E2'; [|discriminate].
  injection H1 as <-. injection H2 as <-.
  rewrite (meaning_agree v k g1 g1' A E1 E1'), (IH g2 g2' eq_refl eq_refl). reflexivity.
Qed.

Lemma nest_agree ops attrs : Forall alike (flat_map op_attrs ops) -> Forall alike attrs -> forall fs fs',
  nest (flash_meanings std RFC3339Nano) ops attrs = Some fs -> nest (sloggy_meanings std) ops attrs = Some fs' -> fs = fs'.
Proof.
  intros Ho Ha. revert Ho. induction ops as [|[l|[|c name]] ops IH]; cbn [flat_map op_attrs nest]; intros Ho fs fs' H1 H2.
  - exact (meanings_agree attrs Ha fs fs' H1 H2).
  - apply Forall_app in Ho as [Hl Ho].
    destruct (flash_meanings std RFC3339Nano l) as [f1|] eqn:E1; [|discriminate].
    destruct (nest (flash_meanings std RFC3339Nano) ops attrs) as [f2|] eqn:E2; [|discriminate].
    destruct (sloggy_meanings std l) as [f1'|] eqn:E1'; [|discriminate].
    destruct (nest (sloggy_meanings std) ops attrs) as [f2'|] eqn:E2'; [|discriminate].
    injection H1 as <-. injection H2 as <-.
    rewrite (meanings_agree l Hl f1 f1' E1 E1'), (IH Ho f2 f2' eq_refl eq_refl). reflexivity.
  - eapply IH; eauto.
  - destruct (plain (c :: name)); [|discriminate]. cbn [negb] in *.
    destruct (untouched attrs ops); [congruence|].
    destruct (nest (flash_meanings std RFC3339Nano) ops attrs) as [f2|] eqn:E2; [|discriminate].
    destruct (nest (sloggy_meanings std) ops attrs) as [f2'|] eqn:E2'; [|discriminate].
    injection H1 as <-. injection H2 as <-. rewrite (IH Ho f2 f2' eq_refl eq_refl). reflexivity.
Qed.

Lemma header_agree r bs bs' :
  existsb (Z.eqb (r_level r)) [LevelDebug; LevelInfo; LevelWarn; LevelError] = true ->
  flash_header (keys (fix_extras None)) RFC3339Nano (x_level_names (fix_extras None)) false r = Some bs ->
  sloggy_header std false r = Some bs' -> bs = bs'.
Proof.
  intros Hl H1 H2.
  assert (Hn : x_level_names (fix_extras None) (r_level r) = level_string (r_level r)).
  { cbn [existsb] in Hl. destruct (r_level r =? LevelDebug)%Z eqn:E1; [apply Z.eqb_eq in E1; rewrite E1; reflexivity|].
    destruct (r_level r =? LevelInfo)%Z eqn:E2; [apply Z.eqb_eq in E2; rewrite E2; reflexivity|].
    destruct (r_level r =? LevelWarn)%Z eqn:E3; [apply Z.eqb_eq in E3; rewrite E3; reflexivity|].
    destruct (r_level r =? LevelError)%Z eqn:E4; [apply Z.eqb_eq in E4; rewrite E4; reflexivity|]. discriminate. }
  unfold flash_header, sloggy_header in *. change (keys (fix_extras None)) with (B "time", B "level", B "msg", B "source") in H1.
  cbv beta iota in H1. rewrite Hn in H1. cbn [negb] in *.
  destruct (valid_utf8 (B "level") && valid_utf8 (level_string (r_level r)) && valid_utf8 (B "msg") && valid_utf8 (r_msg r)); [|discriminate].
  destruct (json_safe (sl_print std) (r_msg r)); [|discriminate].
  destruct (t_zero (r_time r)); [destruct (r_source r); congruence|].
  destruct (valid_utf8 (B "time") && plain (t_format (r_time r) RFC3339Nano)); [|discriminate].
  destruct (json_safe (sl_print std) (t_format (r_time r) RFC3339Nano)); [|discriminate]. destruct (r_source r); congruence.
Qed.

End Agree.
