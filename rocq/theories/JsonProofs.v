(** The parser accepts exactly the grammar. *)

From Coq Require Import Ascii String List ZArith NArith Bool Lia.
From Verif Require Import Bytes BytesProofs Json.
Import ListNotations.

Lemma plain_char_facts c : plain_char c = true ->
  Ascii.eqb c quote = false /\ Ascii.eqb c backslash = false /\ N.ltb (code c) 32 = false.
Proof. bytecase c; auto. Qed.

Lemma parse_body_complete s b : jbody s b ->
  forall r, parse_body (b ++ quote :: r) = Some (s, r).
Proof.
  induction 1 as [|c s b P _ IH|e d s b E _ IH|h1 h2 h3 h4 n s b E Hh Hl _ IH
                 |h1 h2 h3 h4 n l1 l2 l3 l4 m s b E1 E2 Hh Hl _ IH]; intros r.
  - reflexivity.
  - destruct (plain_char_facts c P) as (A & C & D).
    cbn [app parse_body]. rewrite A, C, D, IH. reflexivity.
  - cbn [app parse_body].
    change (Ascii.eqb backslash quote) with false.
    change (Ascii.eqb backslash backslash) with true. cbv iota.
    replace (Ascii.eqb e (chr 117)) with false
      by (clear -E; revert E; bytecase e).
    rewrite E, IH. reflexivity.
  - cbn [app parse_body].
    change (Ascii.eqb backslash quote) with false.
    change (Ascii.eqb backslash backslash) with true.
    change (Ascii.eqb (chr 117) (chr 117)) with true. cbv iota.
    rewrite E, Hh, Hl, IH. reflexivity.
  - cbn [app parse_body].
    change (Ascii.eqb backslash quote) with false.
    change (Ascii.eqb backslash backslash) with true.
    change (Ascii.eqb (chr 117) (chr 117)) with true. cbv iota.
    rewrite E1, Hh. cbn [andb]. cbv iota. rewrite E2, Hl, IH. reflexivity.
Qed.

Lemma skip_ws_ws w s : ws w -> skip_ws (w ++ s) = skip_ws s.
Proof.
  unfold ws. induction w as [|c w IH]; simpl; auto.
  destruct (is_ws c); simpl; auto; discriminate.
Qed.

Lemma skip_ws_stop c s : is_ws c = false -> skip_ws (c :: s) = c :: s.
Proof. intros H. simpl. rewrite H. reflexivity. Qed.

Lemma skip_ws_idem s : skip_ws (skip_ws s) = skip_ws s.
Proof. induction s as [|c s IH]; auto. simpl. destruct (is_ws c) eqn:E; auto. simpl. rewrite E. auto. Qed.

Lemma skip_ws_length s : length (skip_ws s) <= length s.
Proof. induction s as [|c s IH]; simpl; auto. destruct (is_ws c); simpl; lia. Qed.

(** First character of a value: not white space, not a closing bracket. *)
Definition value_start (c : ascii) : bool :=
  negb (is_ws c) && negb (Ascii.eqb c (chr 93)) && negb (Ascii.eqb c (chr 125)).

Lemma is_num_start t : is_num t = true ->
  exists c r, t = c :: r /\ (Ascii.eqb c (chr 45) || is_digit c) = true.
Proof.
  destruct t as [|c r]; [discriminate|]. intros H. exists c, r. split; auto.
  unfold is_num in H. destruct (Ascii.eqb c (chr 45)); auto.
  unfold num_int in H. destruct (Ascii.eqb c (chr 48)) eqn:E.
  - apply Ascii.eqb_eq in E. subst. reflexivity.
  - apply andb_prop in H as [H _]. rewrite H. reflexivity.
Qed.

Lemma num_start_value c : (Ascii.eqb c (chr 45) || is_digit c) = true -> value_start c = true.
Proof. bytecase c. Qed.

Lemma jtext_start v b : jtext v b -> exists c r, b = c :: r /\ value_start c = true.
Proof.
  destruct 1; try (eexists; eexists; split; [reflexivity|reflexivity]).
  destruct (is_num_start t H) as (c & r & -> & E).
  exists c, r. split; auto. apply num_start_value; auto.
Qed.

Lemma value_start_ws c : value_start c = true -> is_ws c = false.
Proof. unfold value_start. destruct (is_ws c); auto. Qed.

Lemma jelems_start l b : jelems l b -> forall r,
  exists c r', skip_ws (b ++ r) = c :: r' /\ value_start c = true.
Proof.
  destruct 1 as [v w1 b w2 H1 Hv H2|v w1 b w2 l t H1 Hv H2 Hl]; intros r;
    rewrite <- app_assoc, skip_ws_ws by auto;
    destruct (jtext_start _ _ Hv) as (c & b' & -> & E);
    cbn [app]; rewrite skip_ws_stop by (apply value_start_ws; auto); eauto.
Qed.

Lemma jmembers_start l b : jmembers l b -> forall r,
  exists r', skip_ws (b ++ r) = quote :: r'.
Proof.
  destruct 1; intros r; rewrite <- app_assoc, skip_ws_ws by auto;
    cbn [app]; rewrite skip_ws_stop by reflexivity; eauto.
Qed.

(** A number ends where the next character cannot continue it. *)
Definition stop (r : bytes) : Prop :=
  match r with c :: _ => num_char c = false | [] => True end.

Lemma drop_digits_chars s : forallb num_char (drop_digits s) = true -> forallb num_char s = true.
Proof.
  induction s as [|c s IH]; simpl; auto. destruct (is_digit c) eqn:E; auto.
  intros H. unfold num_char at 1. rewrite E. simpl. auto.
Qed.

Lemma is_digit_num_char c : is_digit c = true -> num_char c = true.
Proof. unfold num_char. intros ->. reflexivity. Qed.

Lemma num_exp_chars s : num_exp s = true -> forallb num_char s = true.
Proof.
  destruct s as [|c r]; auto. unfold num_exp. intros H.
  apply andb_prop in H as [H1 H2].
  assert (N1 : num_char c = true).
  { unfold num_char. apply orb_prop in H1 as [->| ->]; rewrite ?orb_true_r; reflexivity. }
  simpl. rewrite N1. simpl.
  assert (D : forall r', match r' with
              | d :: r2 => is_digit d && match drop_digits r2 with [] => true | _ => false end
              | [] => false end = true -> forallb num_char r' = true).
  { intros [|d r2]; [discriminate|]. intros H. apply andb_prop in H as [Hd He].
    simpl. rewrite (is_digit_num_char _ Hd). simpl. apply drop_digits_chars.
    destruct (drop_digits r2); auto; discriminate. }
  destruct r as [|d r1]; [auto|].
  destruct (Ascii.eqb d (chr 43) || Ascii.eqb d (chr 45)) eqn:E; [|auto].
  simpl. rewrite (D _ H2). unfold num_char.
  apply orb_prop in E as [->| ->]; rewrite ?orb_true_r; reflexivity.
Qed.

Lemma num_frac_chars s : num_frac s = true -> forallb num_char s = true.
Proof.
  destruct s as [|c r]; auto. unfold num_frac.
  destruct (Ascii.eqb c (chr 46)) eqn:E; [|apply num_exp_chars].
  destruct r as [|d r]; [discriminate|]. intros H. apply andb_prop in H as [Hd He].
  simpl. rewrite (is_digit_num_char _ Hd). apply num_exp_chars, drop_digits_chars in He.
  rewrite He. apply Ascii.eqb_eq in E. subst. reflexivity.
Qed.

Lemma num_int_chars s : num_int s = true -> forallb num_char s = true.
Proof.
  destruct s as [|c r]; auto. unfold num_int. simpl.
  destruct (Ascii.eqb c (chr 48)) eqn:E; intros H.
  - apply Ascii.eqb_eq in E. subst. apply num_frac_chars in H. rewrite H. reflexivity.
  - apply andb_prop in H as [Hd He]. rewrite (is_digit_num_char _ Hd).
    apply num_frac_chars, drop_digits_chars in He. rewrite He. reflexivity.
Qed.

Lemma is_num_chars s : is_num s = true -> forallb num_char s = true.
Proof.
  destruct s as [|c r]; auto. unfold is_num.
  destruct (Ascii.eqb c (chr 45)) eqn:E; [|apply num_int_chars].
  intros H. apply num_int_chars in H. simpl. rewrite H.
  apply Ascii.eqb_eq in E. subst. reflexivity.
Qed.

Lemma span_num_app t r : forallb num_char t = true -> stop r -> span_num (t ++ r) = (t, r).
Proof.
  intros H S. induction t as [|c t IH]; simpl in *.
  - destruct r as [|c r]; auto. simpl in *. rewrite S. reflexivity.
  - apply andb_prop in H as [-> H]. rewrite IH by auto. reflexivity.
Qed.

Lemma pval_num n t r : is_num t = true -> stop r -> 0 < n -> pval n (t ++ r) = Some (JNum t, r).
Proof.
  intros H S L. destruct n as [|n]; [lia|].
  destruct (is_num_start t H) as (c & t' & -> & E).
  pose proof (span_num_app _ _ (is_num_chars _ H) S) as Sp.
  cbn [app] in *. cbn [pval].
  assert (F : Ascii.eqb c quote = false /\ Ascii.eqb c (chr 123) = false /\
              Ascii.eqb c (chr 91) = false /\ Ascii.eqb (chr 116) c = false /\
              Ascii.eqb (chr 102) c = false /\ Ascii.eqb (chr 110) c = false).
  { clear -E. revert E. bytecase c; intros _; repeat split. }
  destruct F as (-> & -> & -> & F1 & F2 & F3).
  assert (S1 : strip (B "true") (c :: t' ++ r) = None).
  { change (B "true") with (chr 116 :: B "rue"). cbn [strip]. rewrite F1. reflexivity. }
  assert (S2 : strip (B "false") (c :: t' ++ r) = None).
  { change (B "false") with (chr 102 :: B "alse"). cbn [strip]. rewrite F2. reflexivity. }
  assert (S3 : strip (B "null") (c :: t' ++ r) = None).
  { change (B "null") with (chr 110 :: B "ull"). cbn [strip]. rewrite F3. reflexivity. }
  rewrite S1, S2, S3, Sp, H. reflexivity.
Qed.

Lemma pelems_skip n s : pelems n (skip_ws s) = pelems n s.
Proof. destruct n; auto. cbn [pelems]. rewrite skip_ws_idem. reflexivity. Qed.

Lemma pmembers_skip n s : pmembers n (skip_ws s) = pmembers n s.
Proof. destruct n; auto. cbn [pmembers]. rewrite skip_ws_idem. reflexivity. Qed.

Lemma ws_stop w c r : ws w -> num_char c = false -> stop (w ++ c :: r).
Proof.
  unfold ws. destruct w as [|d w]; simpl; auto. intros H _.
  apply andb_prop in H as [H _]. revert H. bytecase d.
Qed.

Ltac len := repeat (rewrite ?app_length in *; cbn [length] in *); lia.


Theorem json_complete :
  (forall v b, jtext v b -> forall n r, stop r -> 2 * length (b ++ r) < n ->
     pval n (b ++ r) = Some (v, r)) /\
  (forall l b, jelems l b -> forall n r, 2 * length (b ++ chr 93 :: r) + 1 < n ->
     pelems n (b ++ chr 93 :: r) = Some (l, r)) /\
  (forall l b, jmembers l b -> forall n r, 2 * length (b ++ chr 125 :: r) + 1 < n ->
     pmembers n (b ++ chr 125 :: r) = Some (l, r)).
Proof.
  apply json_grammar_ind.
  - intros n r _ L. destruct n; [len|]. reflexivity.
  - intros n r _ L. destruct n; [len|]. reflexivity.
  - intros n r _ L. destruct n; [len|]. reflexivity.
  - intros t H n r S L. apply pval_num; auto. len.
  - intros s b H n r _ L. destruct n; [len|].
    cbn [app pval]. change (Ascii.eqb quote quote) with true. cbv iota.
    rewrite <- app_assoc. cbn [app]. rewrite (parse_body_complete _ _ H). reflexivity.
  - intros w H n r _ L. destruct n; [len|].
    cbn [app pval]. change (Ascii.eqb (chr 91) quote) with false.
    change (Ascii.eqb (chr 91) (chr 123)) with false.
    change (Ascii.eqb (chr 91) (chr 91)) with true. cbv iota.
    rewrite <- app_assoc. cbn [app]. rewrite skip_ws_ws by auto.
    rewrite skip_ws_stop by reflexivity. reflexivity.
  - intros l b H IH n r _ L. destruct n; [len|].
    cbn [app pval]. change (Ascii.eqb (chr 91) quote) with false.
    change (Ascii.eqb (chr 91) (chr 123)) with false.
    change (Ascii.eqb (chr 91) (chr 91)) with true. cbv iota.
    rewrite <- app_assoc. cbn [app].
    destruct (jelems_start _ _ H (chr 93 :: r)) as (c & r' & E & V).
    pose proof (pelems_skip n (b ++ chr 93 :: r)) as Sk.
    rewrite E in *. rewrite Sk, IH by len.
    replace (Ascii.eqb c (chr 93)) with false; auto.
    clear -V. revert V. bytecase c.
  - intros w H n r _ L. destruct n; [len|].
    cbn [app pval]. change (Ascii.eqb (chr 123) quote) with false.
    change (Ascii.eqb (chr 123) (chr 123)) with true. cbv iota.
    rewrite <- app_assoc. cbn [app]. rewrite skip_ws_ws by auto.
    rewrite skip_ws_stop by reflexivity. reflexivity.
  - intros l b H IH n r _ L. destruct n; [len|].
    cbn [app pval]. change (Ascii.eqb (chr 123) quote) with false.
    change (Ascii.eqb (chr 123) (chr 123)) with true. cbv iota.
    rewrite <- app_assoc. cbn [app].
    destruct (jmembers_start _ _ H (chr 125 :: r)) as (r' & E).
    pose proof (pmembers_skip n (b ++ chr 125 :: r)) as Sk.
    rewrite E in *. rewrite Sk, IH by len. reflexivity.
  - intros v w1 b w2 H1 Hv IH H2 n r L. destruct n; [len|].
    cbn [pelems]. rewrite <- !app_assoc, skip_ws_ws by auto.
    destruct (jtext_start _ _ Hv) as (c & b' & Eb & E).
    assert (Sk : skip_ws (b ++ w2 ++ chr 93 :: r) = b ++ w2 ++ chr 93 :: r).
    { rewrite Eb. apply skip_ws_stop, value_start_ws; auto. }
    rewrite Sk, IH; [|apply ws_stop; auto|len].
    rewrite skip_ws_ws by auto. rewrite skip_ws_stop by reflexivity. reflexivity.
  - intros v w1 b w2 l t H1 Hv IH H2 Hl IHl n r L. destruct n; [len|].
    cbn [pelems].
    replace ((w1 ++ b ++ w2 ++ chr 44 :: t) ++ chr 93 :: r)
      with (w1 ++ b ++ w2 ++ chr 44 :: t ++ chr 93 :: r) in *
      by (rewrite <- !app_assoc; reflexivity).
    rewrite skip_ws_ws by auto.
    destruct (jtext_start _ _ Hv) as (c & b' & Eb & E).
    assert (Sk : skip_ws (b ++ w2 ++ chr 44 :: t ++ chr 93 :: r) = b ++ w2 ++ chr 44 :: t ++ chr 93 :: r).
    { rewrite Eb. apply skip_ws_stop, value_start_ws; auto. }
    rewrite Sk, IH; [|apply ws_stop; auto|len].
    rewrite skip_ws_ws by auto. rewrite skip_ws_stop by reflexivity.
    cbn [Ascii.eqb]. change (Ascii.eqb (chr 44) (chr 93)) with false.
    change (Ascii.eqb (chr 44) (chr 44)) with true. cbv iota.
    rewrite IHl by len. reflexivity.
  - intros k kb v w1 w2 w3 b w4 H1 Hk H2 H3 Hv IH H4 n r L. destruct n; [len|].
    cbn [pmembers].
    replace ((w1 ++ quote :: kb ++ quote :: w2 ++ chr 58 :: w3 ++ b ++ w4) ++ chr 125 :: r)
      with (w1 ++ quote :: kb ++ quote :: w2 ++ chr 58 :: w3 ++ b ++ w4 ++ chr 125 :: r) in *
      by (repeat (rewrite <- !app_assoc; cbn [app]); reflexivity).
    rewrite skip_ws_ws by auto. rewrite skip_ws_stop by reflexivity.
    change (Ascii.eqb quote quote) with true. cbv iota.
    rewrite (parse_body_complete _ _ Hk).
    rewrite skip_ws_ws by auto. rewrite skip_ws_stop by reflexivity.
    change (Ascii.eqb (chr 58) (chr 58)) with true. cbv iota.
    rewrite skip_ws_ws by auto.
    destruct (jtext_start _ _ Hv) as (c & b' & Eb & E).
    assert (Sk : skip_ws (b ++ w4 ++ chr 125 :: r) = b ++ w4 ++ chr 125 :: r).
    { rewrite Eb. apply skip_ws_stop, value_start_ws; auto. }
    rewrite Sk, IH; [|apply ws_stop; auto|len].
    rewrite skip_ws_ws by auto. rewrite skip_ws_stop by reflexivity. reflexivity.
  - intros k kb v w1 w2 w3 b w4 l t H1 Hk H2 H3 Hv IH H4 Hl IHl n r L. destruct n; [len|].
    cbn [pmembers].
    replace ((w1 ++ quote :: kb ++ quote :: w2 ++ chr 58 :: w3 ++ b ++ w4 ++ chr 44 :: t) ++ chr 125 :: r)
      with (w1 ++ quote :: kb ++ quote :: w2 ++ chr 58 :: w3 ++ b ++ w4 ++ chr 44 :: t ++ chr 125 :: r) in *
      by (repeat (rewrite <- !app_assoc; cbn [app]); reflexivity).
    rewrite skip_ws_ws by auto. rewrite skip_ws_stop by reflexivity.
    change (Ascii.eqb quote quote) with true. cbv iota.
    rewrite (parse_body_complete _ _ Hk).
    rewrite skip_ws_ws by auto. rewrite skip_ws_stop by reflexivity.
    change (Ascii.eqb (chr 58) (chr 58)) with true. cbv iota.
    rewrite skip_ws_ws by auto.
    destruct (jtext_start _ _ Hv) as (c & b' & Eb & E).
    assert (Sk : skip_ws (b ++ w4 ++ chr 44 :: t ++ chr 125 :: r) = b ++ w4 ++ chr 44 :: t ++ chr 125 :: r).
    { rewrite Eb. apply skip_ws_stop, value_start_ws; auto. }
    rewrite Sk, IH; [|apply ws_stop; auto|len].
    rewrite skip_ws_ws by auto. rewrite skip_ws_stop by reflexivity.
    change (Ascii.eqb (chr 44) (chr 125)) with false.
    change (Ascii.eqb (chr 44) (chr 44)) with true. cbv iota.
    rewrite IHl by len. reflexivity.
Qed.

Theorem parse_json_complete v b w1 w2 :
  ws w1 -> jtext v b -> ws w2 -> parse_json (w1 ++ b ++ w2) = Some v.
Proof.
  intros H1 H H2. unfold parse_json. rewrite skip_ws_ws by auto.
  destruct (jtext_start _ _ H) as (c & b' & E & V).
  assert (Sk : skip_ws (b ++ w2) = b ++ w2).
  { rewrite E. apply skip_ws_stop, value_start_ws; auto. }
  rewrite Sk. rewrite (proj1 json_complete _ _ H).
  - replace (skip_ws w2) with (@nil ascii); auto.
    rewrite <- (app_nil_r w2). rewrite skip_ws_ws; auto.
  - destruct w2 as [|d w2]; simpl; auto. unfold ws in H2. simpl in H2.
    apply andb_prop in H2 as [H2 _]. revert H2. bytecase d.
  - len.
Qed.

(** ** Soundness *)

Lemma skip_ws_split s : exists w, ws w /\ s = w ++ skip_ws s.
Proof.
  induction s as [|c s (w & Hw & E)]; [exists []; split; reflexivity|].
  simpl. destruct (is_ws c) eqn:Hc.
  - exists (c :: w). split; [|simpl; f_equal; auto].
    unfold ws in *. simpl. rewrite Hc. auto.
  - exists []. split; reflexivity.
Qed.

Lemma prepend_some p o t r : prepend p o = Some (t, r) ->
  exists t', t = p ++ t' /\ o = Some (t', r).
Proof. destruct o as [[t' r']|]; simpl; [|discriminate]. intros [= <- <-]. eauto. Qed.

Lemma parse_body_sound_aux n : forall s t r, length s <= n -> parse_body s = Some (t, r) ->
  exists b, s = b ++ quote :: r /\ jbody t b.
Proof.
  induction n as [|n IH]; intros s t r L H.
  { destruct s; [discriminate|simpl in L; lia]. }
  destruct s as [|c s]; [discriminate|]. simpl in L. cbn [parse_body] in H.
  destruct (Ascii.eqb c quote) eqn:E1.
  { apply Ascii.eqb_eq in E1. injection H as <- <-. subst. exists []. split; constructor. }
  destruct (Ascii.eqb c backslash) eqn:E2.
  { apply Ascii.eqb_eq in E2. subst c.
    destruct s as [|e s]; [discriminate|].
    destruct (Ascii.eqb e (chr 117)) eqn:E3.
    { apply Ascii.eqb_eq in E3. subst e.
      destruct s as [|h1 [|h2 [|h3 [|h4 s]]]]; try discriminate.
      destruct (hex4 h1 h2 h3 h4) as [k|] eqn:Hx; [|discriminate].
      destruct (high_surrogate k) eqn:Hh.
      { destruct s as [|b' [|u' [|l1 [|l2 [|l3 [|l4 s]]]]]]; try discriminate.
        destruct (Ascii.eqb b' backslash && Ascii.eqb u' (chr 117)) eqn:E4; [|discriminate].
        apply andb_prop in E4 as [E4 E5]. apply Ascii.eqb_eq in E4, E5. subst.
        destruct (hex4 l1 l2 l3 l4) as [m|] eqn:Hy; [|discriminate].
        destruct (low_surrogate m) eqn:Hl; [|discriminate].
        apply prepend_some in H as (t' & -> & H).
        apply IH in H as (b & -> & Hb); [|simpl in L; lia].
        eexists. split; [|eapply jb_pair; eauto]. reflexivity. }
      destruct (low_surrogate k) eqn:Hl; [discriminate|].
      apply prepend_some in H as (t' & -> & H).
      apply IH in H as (b & -> & Hb); [|simpl in L; lia].
      eexists. split; [|eapply jb_unicode; eauto]. reflexivity. }
    destruct (simple_escape e) as [d|] eqn:Hd; [|discriminate].
    apply prepend_some in H as (t' & -> & H).
    apply IH in H as (b & -> & Hb); [|simpl in L; lia].
    eexists. split; [|eapply jb_simple; eauto]. reflexivity. }
  destruct (N.ltb (code c) 32) eqn:E3; [discriminate|].
  apply prepend_some in H as (t' & -> & H).
  apply IH in H as (b & -> & Hb); [|lia].
  exists (c :: b). split; [reflexivity|]. simpl. apply jb_plain; auto.
  unfold plain_char. rewrite E1, E2. apply N.ltb_ge in E3.
  apply N.leb_le in E3. rewrite E3. reflexivity.
Qed.

Lemma parse_body_sound s t r : parse_body s = Some (t, r) ->
  exists b, s = b ++ quote :: r /\ jbody t b.
Proof. eapply parse_body_sound_aux; eauto. Qed.

Lemma strip_some p : forall s r, strip p s = Some r -> s = p ++ r.
Proof.
  induction p as [|c p IH]; intros s r; simpl; [congruence|].
  destruct s as [|d s]; [discriminate|].
  destruct (Ascii.eqb c d) eqn:E; [|discriminate].
  intros H. apply Ascii.eqb_eq in E. subst. f_equal. auto.
Qed.

Lemma span_num_split s : let (t, r) := span_num s in s = t ++ r.
Proof.
  induction s as [|c s IH]; simpl; auto.
  destruct (num_char c); auto. destruct (span_num s). simpl. f_equal. auto.
Qed.

Theorem json_sound n :
  (forall s v r, pval n s = Some (v, r) -> exists b, s = b ++ r /\ jtext v b) /\
  (forall s l r, pelems n s = Some (l, r) -> exists b, s = b ++ chr 93 :: r /\ jelems l b) /\
  (forall s l r, pmembers n s = Some (l, r) -> exists b, s = b ++ chr 125 :: r /\ jmembers l b).
Proof.
  induction n as [|n (IHv & IHe & IHm)]; [repeat split; discriminate|].
  split; [|split].
  - intros s v r H. destruct s as [|c s]; [discriminate|]. cbn [pval] in H.
    destruct (Ascii.eqb c quote) eqn:E1.
    { apply Ascii.eqb_eq in E1. subst c.
      destruct (parse_body s) as [[t r']|] eqn:Hb; [|discriminate]. injection H as <- <-.
      apply parse_body_sound in Hb as (b & -> & Hb).
      exists (quote :: b ++ [quote]). split; [cbn; rewrite <- app_assoc; reflexivity|].
      constructor. auto. }
    destruct (Ascii.eqb c (chr 123)) eqn:E2.
    { apply Ascii.eqb_eq in E2. subst c.
      destruct (skip_ws_split s) as (w & Hw & Es).
      destruct (skip_ws s) as [|d s'] eqn:Sk; [discriminate|].
      destruct (Ascii.eqb d (chr 125)) eqn:E3.
      - apply Ascii.eqb_eq in E3. subst d. injection H as <- <-. subst s.
        exists (chr 123 :: w ++ [chr 125]). split; [cbn; rewrite <- app_assoc; reflexivity|].
        constructor. auto.
      - rewrite <- Sk, pmembers_skip in H.
        destruct (pmembers n s) as [[l r']|] eqn:Hm; [|discriminate]. injection H as <- <-.
        apply IHm in Hm as (b & Eb & Hb). rewrite Eb.
        exists (chr 123 :: b ++ [chr 125]). split; [cbn; rewrite <- app_assoc; reflexivity|].
        constructor. auto. }
    destruct (Ascii.eqb c (chr 91)) eqn:E3.
    { apply Ascii.eqb_eq in E3. subst c.
      destruct (skip_ws_split s) as (w & Hw & Es).
      destruct (skip_ws s) as [|d s'] eqn:Sk; [discriminate|].
      destruct (Ascii.eqb d (chr 93)) eqn:E4.
      - apply Ascii.eqb_eq in E4. subst d. injection H as <- <-. subst s.
        exists (chr 91 :: w ++ [chr 93]). split; [cbn; rewrite <- app_assoc; reflexivity|].
        constructor. auto.
      - rewrite <- Sk, pelems_skip in H.
        destruct (pelems n s) as [[l r']|] eqn:Hm; [|discriminate]. injection H as <- <-.
        apply IHe in Hm as (b & Eb & Hb). rewrite Eb.
        exists (chr 91 :: b ++ [chr 93]). split; [cbn; rewrite <- app_assoc; reflexivity|].
        constructor. auto. }
    destruct (strip (B "true") (c :: s)) as [r'|] eqn:S1.
    { injection H as <- <-. apply strip_some in S1. rewrite S1. eexists. split; [reflexivity|constructor]. }
    destruct (strip (B "false") (c :: s)) as [r'|] eqn:S2.
    { injection H as <- <-. apply strip_some in S2. rewrite S2. eexists. split; [reflexivity|constructor]. }
    destruct (strip (B "null") (c :: s)) as [r'|] eqn:S3.
    { injection H as <- <-. apply strip_some in S3. rewrite S3. eexists. split; [reflexivity|constructor]. }
    pose proof (span_num_split (c :: s)) as Sp.
    destruct (span_num (c :: s)) as [t r'].
    destruct (is_num t) eqn:Hn; [|discriminate]. injection H as <- <-.
    exists t. split; auto. constructor. auto.
  - intros s l r H. cbn [pelems] in H.
    destruct (skip_ws_split s) as (w1 & Hw1 & Es).
    destruct (pval n (skip_ws s)) as [[v r1]|] eqn:Hv; [|discriminate].
    apply IHv in Hv as (b & Eb & Hb).
    destruct (skip_ws_split r1) as (w2 & Hw2 & Er).
    destruct (skip_ws r1) as [|c r2]; [discriminate|].
    destruct (Ascii.eqb c (chr 93)) eqn:E1.
    { apply Ascii.eqb_eq in E1. subst c. injection H as <- <-.
      exists (w1 ++ b ++ w2). split; [|constructor; auto].
      rewrite Es, Eb, Er. rewrite <- !app_assoc. reflexivity. }
    destruct (Ascii.eqb c (chr 44)) eqn:E2; [|discriminate].
    apply Ascii.eqb_eq in E2. subst c.
    destruct (pelems n r2) as [[l' r3]|] eqn:He; [|discriminate]. injection H as <- <-.
    apply IHe in He as (t & Et & Ht).
    exists (w1 ++ b ++ w2 ++ chr 44 :: t). split; [|constructor; auto].
    rewrite Es, Eb, Er, Et. repeat (rewrite <- !app_assoc; cbn [app]). reflexivity.
  - intros s l r H. cbn [pmembers] in H.
    destruct (skip_ws_split s) as (w1 & Hw1 & Es).
    destruct (skip_ws s) as [|q s1]; [discriminate|].
    destruct (Ascii.eqb q quote) eqn:E1; [|discriminate].
    apply Ascii.eqb_eq in E1. subst q.
    destruct (parse_body s1) as [[k r1]|] eqn:Hk; [|discriminate].
    apply parse_body_sound in Hk as (kb & Ek & Hk).
    destruct (skip_ws_split r1) as (w2 & Hw2 & Er1).
    destruct (skip_ws r1) as [|c r2]; [discriminate|].
    destruct (Ascii.eqb c (chr 58)) eqn:E2; [|discriminate].
    apply Ascii.eqb_eq in E2. subst c.
    destruct (skip_ws_split r2) as (w3 & Hw3 & Er2).
    destruct (pval n (skip_ws r2)) as [[v r3]|] eqn:Hv; [|discriminate].
    apply IHv in Hv as (b & Eb & Hb).
    destruct (skip_ws_split r3) as (w4 & Hw4 & Er3).
    destruct (skip_ws r3) as [|d r4]; [discriminate|].
    destruct (Ascii.eqb d (chr 125)) eqn:E3.
    { apply Ascii.eqb_eq in E3. subst d. injection H as <- <-.
      exists (w1 ++ quote :: kb ++ quote :: w2 ++ chr 58 :: w3 ++ b ++ w4).
      split; [|constructor; auto].
      rewrite Es, Ek, Er1, Er2, Eb, Er3. repeat (rewrite <- !app_assoc; cbn [app]). reflexivity. }
    destruct (Ascii.eqb d (chr 44)) eqn:E4; [|discriminate].
    apply Ascii.eqb_eq in E4. subst d.
    destruct (pmembers n r4) as [[l' r5]|] eqn:Hm; [|discriminate]. injection H as <- <-.
    apply IHm in Hm as (t & Et & Ht).
    exists (w1 ++ quote :: kb ++ quote :: w2 ++ chr 58 :: w3 ++ b ++ w4 ++ chr 44 :: t).
    split; [|constructor; auto].
    rewrite Es, Ek, Er1, Er2, Eb, Er3, Et. repeat (rewrite <- !app_assoc; cbn [app]). reflexivity.
Qed.

Theorem parse_json_sound s v : parse_json s = Some v ->
  exists w1 b w2, s = w1 ++ b ++ w2 /\ ws w1 /\ jtext v b /\ ws w2.
Proof.
  unfold parse_json. intros H.
  destruct (skip_ws_split s) as (w1 & Hw1 & Es).
  destruct (pval _ (skip_ws s)) as [[v' r]|] eqn:Hv; [|discriminate].
  apply (proj1 (json_sound _)) in Hv as (b & Eb & Hb).
  destruct (skip_ws_split r) as (w2 & Hw2 & Er).
  destruct (skip_ws r); [|discriminate]. injection H as <-.
  exists w1, b, w2. rewrite Es, Eb, Er, app_nil_r. auto.
Qed.

(** The parser accepts exactly the texts of the grammar. *)
Theorem parse_json_iff s v : parse_json s = Some v <->
  exists w1 b w2, s = w1 ++ b ++ w2 /\ ws w1 /\ jtext v b /\ ws w2.
Proof.
  split; [apply parse_json_sound|].
  intros (w1 & b & w2 & -> & H1 & H & H2). apply parse_json_complete; auto.
Qed.

(** A text has at most one meaning. *)
Corollary jtext_functional b v v' : jtext v b -> jtext v' b -> v = v'.
Proof.
  intros H H'.
  pose proof (parse_json_complete v b [] [] eq_refl H eq_refl) as E.
  pose proof (parse_json_complete v' b [] [] eq_refl H' eq_refl) as E'. congruence.
Qed.
