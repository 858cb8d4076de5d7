(** C57: the checks of the benchmark suite put together: fields, sourcerer, verify
    and verifyLines, and what they make of output that is not JSON. *)

From Coq Require Import Ascii String List ZArith NArith Bool Arith Lia QArith Qcanon.
From Verif Require Import Bytes BytesProofs GoSort Slog Regex RegexProofs Warnings BenchChecks SpecChecks ChecksProofs ChecksSamples PropFinder PropBigGroup.
Import ListNotations.
Local Open Scope nat_scope.
Local Open Scope list_scope.

(** ** A check that decides something about a record

    With none of the marks it heeds it returns an error exactly if the record is not as it should
    be, and records nothing otherwise. *)
Definition decides (E : env) (fn : verify_fn) (P : dmap -> Prop) : Prop := forall captured lm m (a : dmap),
  unheeded m -> valid (DMap a) -> looks_at E captured lm a ->
  exists m' err, fn captured lm m = (lm, m', err) /\ unheeded m' /\ (err = None <-> P a) /\ (err = None -> m' = m).

(** ** fields *)

(** Those elements of a list that have the property, in their order. *)
Inductive picked {A} (P : A -> Prop) : list A -> list A -> Prop :=
| picked_nil : picked P [] []
| picked_keep x l l' : P x -> picked P l l' -> picked P (x :: l) (x :: l')
| picked_skip x l l' : ~ P x -> picked P l l' -> picked P (x :: l) l'.

Theorem C57_fields E test names a captured lm m : looks_at E captured lm a ->
  exists missing m' err, fields_check E test names captured lm m = (lm, m', err) /\
    picked (fun f => get f a = None) names missing /\
    (missing = [] -> m' = m /\ err = None) /\
    (missing <> [] -> added [mismatch] m m' /\
       err = Some (B "Required [Mismatch] Logged record does not match expected: " ++ test ++ B ": " ++ join_with (B ",") missing)).
Proof.
  intros LK. unfold fields_check. rewrite (looks_get _ _ _ _ _ LK), (looks_passed _ _ _ _ LK). cbn [lookup].
  set (missing := filter (fun f => match get f a with Some _ => false | None => true end) names).
  assert (I : picked (fun f => get f a = None) names missing).
  { unfold missing. clear missing. induction names as [|x names IH]; cbn [filter]; [constructor|].
    destruct (get x a) eqn:X; [apply picked_skip|apply picked_keep]; congruence. }
  exists missing. destruct missing as [|x l].
  - eexists _, _. split; [reflexivity|]. split; [exact I|]. split; [auto|]. intros H. now destruct H.
  - eexists _, _. split; [reflexivity|]. split; [exact I|]. split; [discriminate|]. intros _. split; [apply added_one|reflexivity].
Qed.

Lemma only_add w fn text log m : m_only (add_warning w fn text log m) = m_only m.
Proof. reflexivity. Qed.

Theorem C57_fields_decide E test names : decides E (fields_check E test names) (fun a => forall f, In f names -> get f a <> None).
Proof.
  intros captured lm m a NM V LK. unfold fields_check. rewrite (looks_get _ _ _ _ _ LK), (looks_passed _ _ _ _ LK). cbn [lookup].
  destruct (filter _ names) as [|x l] eqn:F.
  - eexists _, _. split; [reflexivity|]. split; [exact NM|]. split; [|reflexivity]. split; [|reflexivity].
    intros _ f I X. assert (Y : In f []); [|destruct Y]. rewrite <- F. apply filter_In. now rewrite X.
  - eexists _, _. split; [reflexivity|]. split; [exact NM|]. split; [|discriminate]. split; [discriminate|].
    intros H. exfalso. assert (Y : In x (x :: l)) by now left. rewrite <- F in Y. apply filter_In in Y. destruct Y as [I X].
    specialize (H x I). now destruct (get x a).
Qed.

(** ** sourcerer *)

(** The record has a source with the three members of slog.Source. *)
Definition sourced (a : dmap) : Prop := exists src, get (B "source") a = Some (DMap src) /\
  get (B "file") src <> None /\ get (B "function") src <> None /\ get (B "line") src <> None.

Lemma sourced_dec a : sourced a \/ ~ sourced a.
Proof.
  unfold sourced. destruct (get (B "source") a) as [[| | | | |src]|]; try (right; intros [? [X _]]; discriminate).
  destruct (get (B "file") src) eqn:F1, (get (B "function") src) eqn:F2, (get (B "line") src) eqn:F3;
    try (right; intros [? [[= <-] [X [Y Z]]]]; congruence).
  left. exists src. rewrite F1, F2, F3. repeat split; discriminate.
Qed.

(** The warning is SourceCaller exactly if there is a member caller and no source. *)
Theorem C57_sourcerer E test a captured lm m : looks_at E captured lm a ->
  exists m' err, sourcerer E test captured lm m = (lm, m', err) /\
    (sourced a -> m' = m /\ err = None) /\
    (~ sourced a -> exists w, added [w] m m' /\ (exists text, err = Some (error_extra w text)) /\
       (w = source_caller <-> get (B "source") a = None /\ get (B "caller") a <> None) /\ (w = source_caller \/ w = source_missing)).
Proof.
  intros LK. unfold sourcerer. rewrite (looks_get _ _ _ _ _ LK), (looks_passed _ _ _ _ LK). cbn [lookup].
  change SourceKey with (B "source").
  assert (NE : source_missing <> source_caller) by discriminate.
  assert (bad : forall text log (w : warning), (w = source_caller <-> get (B "source") a = None /\ get (B "caller") a <> None) ->
    (w = source_caller \/ w = source_missing) -> ~ sourced a ->
    exists m' err, (lm, add_warning w test text log m, Some (error_extra w text)) = (lm, m', err) /\
    (sourced a -> m' = m /\ err = None) /\
    (~ sourced a -> exists w, added [w] m m' /\ (exists text, err = Some (error_extra w text)) /\
       (w = source_caller <-> get (B "source") a = None /\ get (B "caller") a <> None) /\ (w = source_caller \/ w = source_missing))).
  { intros text log w W1 W2 NS. eexists _, _. split; [reflexivity|]. split; [intros X; now destruct NS|]. intros _. exists w.
    split; [apply added_one|]. split; [eauto|]. split; [exact W1|exact W2]. }
  destruct (get (B "source") a) as [[| | | | |src]|] eqn:SR;
    try (apply bad; [split; [intros X; now destruct NE|intros [X _]; discriminate]|now right|intros [? [X _]]; congruence]).
  - cbn [filter]. destruct (get (B "file") src) eqn:F1, (get (B "function") src) eqn:F2, (get (B "line") src) eqn:F3; cbn [join_with];
      try (apply bad; [split; [intros X; now destruct NE|intros [X _]; discriminate]|now right|intros [? [X [X1 [X2 X3]]]]; congruence]).
    eexists _, _. split; [reflexivity|]. split; [auto|]. intros N0. destruct N0. exists src. rewrite F1, F2, F3. repeat split; auto; discriminate.
  - destruct (get (B "caller") a) as [c|] eqn:CA.
    + apply bad; [|now left|intros [? [X _]]; congruence]. split; [intros _; split; [reflexivity|discriminate]|reflexivity].
    + apply bad; [|now right|intros [? [X _]]; congruence]. split; [intros X; now destruct NE|]. intros [_ X]. now destruct X.
Qed.

Lemma sourcerer_only E test captured lm m : unheeded m -> unheeded (snd (fst (sourcerer E test captured lm m))).
Proof.
  intros NM. unfold sourcerer. destruct (get_log_map E captured lm m) as [lm' m1] eqn:G.
  assert (M1 : unheeded m1).
  { unfold get_log_map in G. destruct lm; [injection G as <- <-; exact NM|]. destruct (e_unmarshal E captured) as [x [t|]]; injection G as <- <-; exact NM. }
  destruct (lookup SourceKey lm') as [[| | | | |src]|]; try exact M1.
  - destruct (filter _ _); exact M1.
  - destruct (lookup (B "caller") lm'); exact M1.
Qed.

Theorem C57_sourcerer_decide E test : decides E (sourcerer E test) sourced.
Proof.
  intros captured lm m a NM V LK. pose proof (sourcerer_only E test captured lm m NM) as O.
  destruct (C57_sourcerer E test a captured lm m LK) as [m' [err [R [Y N0]]]]. rewrite R in O. cbn in O.
  exists m', err. split; [exact R|]. split; [exact O|].
  destruct (sourced_dec a) as [D|D].
  - destruct (Y D) as [-> ->]. tauto.
  - destruct (N0 D) as [w [_ [[t ->] _]]]. split; [|discriminate]. split; [discriminate|]. intros X. now destruct D.
Qed.

(** ** The other checks *)

Theorem C57_finder_decide E test expected : valid (DMap expected) -> decides E (finder E test expected) (contained expected).
Proof.
  intros VE captured lm m a NM V LK. pose proof (C55_finder_unmarked E test expected a captured lm m VE V LK NM) as U.
  assert (HN : forall w, In (w_name w) heeded -> has_warning (e_use E) w m = false) by (intros w; now apply unheeded_has).
  assert (R : exists err, finder E test expected captured lm m = (lm, m, err)).
  { unfold finder. rewrite (HN skip_dedup (or_introl eq_refl)). cbn [andb]. rewrite (looks_get _ _ _ _ _ LK), (looks_passed _ _ _ _ LK).
    destruct (finder_deep E expected a) as [[bad strs]|]; [|eauto]. rewrite (HN string_any (or_intror (or_introl eq_refl))).
    destruct strs as [|s strs]; [destruct bad|destruct (bad ++ _)]; rewrite (HN mismatch (or_intror (or_intror (or_introl eq_refl)))); eauto. }
  destruct R as [err R]. rewrite R in *. exists m, err. split; [reflexivity|]. split; [exact NM|]. split; [|reflexivity]. rewrite <- U. split.
  - intros ->. eauto.
  - intros [m' [[= <- ->] _]]. reflexivity.
Qed.

(** noDuplicates has no objection to anything: it counts nothing (C32). *)
Theorem C57_duplicates_decide E test : decides E (no_duplicates E test) (fun _ => True).
Proof.
  intros captured lm m a NM V LK. unfold no_duplicates. rewrite (looks_get _ _ _ _ _ LK), (looks_passed _ _ _ _ LK).
  exists m, None. tauto.
Qed.

Theorem C57_big_decide E test : decides E (big_group_checker E test) big_fine.
Proof.
  intros captured lm m a NM V LK. unfold big_group_checker. rewrite (looks_get _ _ _ _ _ LK), (looks_passed _ _ _ _ LK). cbn [lookup].
  unfold big_fine. change group_name with (B "group"). destruct (get (B "group") a) as [[| | | | |g]|] eqn:G;
    try (eexists _, _; split; [reflexivity|]; split; [exact NM|]; split; [|discriminate];
         split; [discriminate|intros [X|[g [X _]]]; discriminate]).
  - pose proof (big_value_ok E (DMap g) (valid_get _ _ _ V G) g 0%N (B "group") eq_refl) as R. unfold big_group_check.
    destruct (big_group_value E (DMap g) 0 (B "group")) as [d|e]; cbn [right_answer] in R.
    + destruct R as [W [h [H ->]]]. destruct (N.eqb (0 + N.of_nat h) big_group_limit) eqn:Q; cbn [negb].
      * exists m, None. split; [reflexivity|]. split; [exact NM|]. split; [|reflexivity]. split; [|reflexivity]. intros _. right.
        exists g. split; [reflexivity|]. split; [exact W|]. apply N.eqb_eq in Q. unfold big_group_limit in Q.
        replace 5 with h by lia. exact H.
      * eexists _, _; split; [reflexivity|]; split; [exact NM|]; split; [|discriminate]. split; [discriminate|].
        intros [X|[g' [[= <-] [_ H']]]]; [discriminate|]. rewrite (height_unique g h 5 H H') in Q. discriminate.
    + eexists _, _; split; [reflexivity|]; split; [exact NM|]; split; [|discriminate]. split; [discriminate|].
      intros [X|[g' [[= <-] [W _]]]]; [discriminate|]. now destruct R.
  - exists m, None. split; [reflexivity|]. split; [exact NM|]. tauto.
Qed.

(** ** verify: all the checks, one after the other, on one record *)

Lemma run_decides E fns Ps captured lm m (a : dmap) : Forall2 (decides E) fns Ps ->
  unheeded m -> valid (DMap a) -> looks_at E captured lm a ->
  exists m' errs, run_all fns captured lm m = (lm, m', errs) /\ unheeded m' /\
    (errs = [] <-> Forall (fun P => P a) Ps) /\ (errs = [] -> m' = m).
Proof.
  intros F. revert m. induction F as [|fn P fns Ps D F IH]; intros m NM V LK.
  - exists m, []. cbn. repeat split; auto; constructor.
  - cbn [run_all]. destruct (D captured lm m a NM V LK) as [m1 [err [-> [N1 [I1 Q1]]]]].
    destruct (IH m1 N1 V LK) as [m2 [errs [-> [N2 [I2 Q2]]]]].
    exists m2. destruct err as [e|]; eexists; (split; [reflexivity|]); (split; [exact N2|]); split.
    + split; [discriminate|]. intros X. inversion X; subst. destruct I1 as [_ I1]. now apply I1 in H1.
    + discriminate.
    + split; [intros ->; constructor; [now apply I1|now apply I2]|]. intros X. inversion X; subst. now apply I2.
    + intros ->. rewrite Q2, Q1; auto.
Qed.

Lemma joined errs : join_errors errs = None <-> errs = [].
Proof. destruct errs; split; try reflexivity; discriminate. Qed.

Lemma looks_some E captured a : looks_at E captured (Some a) a.
Proof. now left. Qed.

Theorem C57_verify E fns Ps : Forall2 (decides E) fns Ps -> decides E (verify E fns) (fun a => Forall (fun P => P a) Ps).
Proof.
  intros F captured lm m a NM V LK. unfold verify. rewrite (looks_get _ _ _ _ _ LK). cbv iota beta.
  destruct (run_decides E fns Ps captured (Some a) m a F NM V (looks_some _ _ _)) as [m' [errs [-> [N1 [I1 Q1]]]]].
  rewrite (looks_passed _ _ _ _ LK). exists m', (join_errors errs). rewrite !joined. auto.
Qed.

(** ** verifyLines: every line on its own, up to the first that is not right *)

(** The output: lines, and possibly an unfinished one. *)
Definition output (lines : list bytes) (rest : bytes) : bytes := concat (map (fun l => l ++ [newline]) lines) ++ rest.

Definition one_line (l : bytes) : Prop := ~ In newline l /\ ends_with (chr 13) l = false.

Lemma without_in c l : without c l = true <-> ~ In c l.
Proof.
  unfold without. rewrite forallb_forall. split.
  - intros H I. specialize (H c I). now rewrite Ascii.eqb_refl in H.
  - intros H x I. apply negb_true_iff. apply Ascii.eqb_neq. intros ->. now apply H.
Qed.

Lemma split_output lines rest : Forall one_line lines -> ~ In newline rest -> split_on newline (output lines rest) = lines ++ [rest].
Proof.
  intros F R. induction F as [|l lines [L _] F IH]; unfold output in *; cbn [map concat].
  - apply split_plain. now apply without_in.
  - rewrite <- !app_assoc. cbn [app]. rewrite split_app by now apply without_in. now rewrite IH.
Qed.

Lemma read_output lines rest : Forall one_line lines -> ~ In newline rest ->
  read_lines (output lines rest) = lines ++ match rest with [] => [] | _ => [rest] end.
Proof.
  intros F R. unfold read_lines. rewrite (split_output _ _ F R), removelast_last, last_last. f_equal.
  - clear R. induction F as [|l lines [_ L] F IH]; cbn [map]; [reflexivity|]. rewrite IH. unfold chomp. now rewrite L.
  - now destruct rest.
Qed.

Definition all_lines (lines : list bytes) (rest : bytes) : list bytes := lines ++ match rest with [] => [] | _ => [rest] end.

(** What a line holds: decoded and put right. *)
Definition holds (E : env) (l : bytes) (a : dmap) : Prop := valid (DMap a) /\ looks_at E l None a.

Theorem C57_lines E fns Ps lines rest records lm m : Forall2 (decides E) fns Ps ->
  Forall one_line lines -> ~ In newline rest -> unheeded m -> Forall2 (holds E) (all_lines lines rest) records ->
  exists m' err, verify_lines E fns (output lines rest) lm m = (lm, m', err) /\
    (err = None <-> Forall (fun a => Forall (fun P => P a) Ps) records) /\ (err = None -> m' = m).
Proof.
  intros F L R NM H. unfold verify_lines. assert (RL : read_lines (output lines rest) = all_lines lines rest) by now apply read_output. rewrite RL.
  clear RL L R. revert H. generalize (all_lines lines rest). intros ls H.
  revert m NM. induction H as [|l a ls' records [V LK] H IH]; intros m NM.
  - exists m, None. cbn. repeat split; auto; constructor.
  - cbn [verify_each]. rewrite (looks_get _ _ _ _ _ LK). cbv iota beta.
    destruct (run_decides E fns Ps l (Some a) m a F NM V (looks_some _ _ _)) as [m1 [errs [-> [N1 [I1 Q1]]]]].
    destruct (join_errors errs) as [e|] eqn:J.
    + exists m1, (Some e). split; [reflexivity|]. split; [|discriminate]. split; [discriminate|]. intros X. inversion X; subst.
      apply I1 in H2. apply joined in H2. congruence.
    + apply joined in J. destruct (IH m1 N1) as [m2 [err [X [I2 Q2]]]]. exists m2, err.
      split; [exact X|]. split.
      * rewrite I2. split; [intros Y; constructor; [now apply I1|exact Y]|]. intros Y. now inversion Y.
      * intros Y. rewrite (Q2 Y). auto.
Qed.

(** Nothing after the first line that is not right is looked at, whatever it is:
    the outcome is that of verify on this line. *)
Theorem C57_first E fns Ps good bad (a : dmap) rest records lm m : Forall2 (decides E) fns Ps ->
  Forall one_line good -> one_line bad -> unheeded m -> Forall2 (holds E) good records ->
  Forall (fun a => Forall (fun P => P a) Ps) records -> holds E bad a -> ~ Forall (fun P => P a) Ps ->
  exists m' e, verify E fns bad None m = (None, m', Some e) /\
    verify_lines E fns (output (good ++ [bad]) rest) lm m = (lm, m', Some e).
Proof.
  intros F G B0 NM H OK [V LK] NO. unfold verify_lines.
  assert (RL : exists more, read_lines (output (good ++ [bad]) rest) = good ++ bad :: more).
  { unfold read_lines.
    assert (SP : split_on newline (output (good ++ [bad]) rest) = good ++ bad :: split_on newline rest).
    { unfold output. clear -G B0. induction G as [|l good [L _] G IH]; cbn [app map concat].
      - rewrite app_nil_r, <- app_assoc. cbn [app]. apply split_app. apply without_in, B0.
      - rewrite <- !app_assoc. cbn [app]. rewrite split_app by now apply without_in. now rewrite IH. }
    rewrite SP. pose proof (split_on_not_nil newline rest) as NN. destruct (split_on newline rest) as [|p ps]; [now destruct NN|].
    replace (good ++ bad :: p :: ps) with ((good ++ [bad]) ++ p :: ps) by now rewrite <- app_assoc.
    rewrite removelast_app by discriminate. rewrite !map_app.
    assert (CG : map chomp good = good).
    { clear -G. induction G as [|l good [_ L] G IH]; cbn [map]; [reflexivity|]. rewrite IH. unfold chomp. now rewrite L. }
    rewrite CG. cbn [map]. unfold chomp at 1. destruct B0 as [_ ->]. eexists. rewrite <- !app_assoc. cbn [app]. reflexivity. }
  destruct RL as [more ->]. unfold verify. rewrite (looks_get _ _ _ _ _ LK). cbv iota beta.
  destruct (run_decides E fns Ps bad (Some a) m a F NM V (looks_some _ _ _)) as [m' [errs [R [N1 [I1 Q1]]]]]. rewrite R.
  destruct (join_errors errs) as [e|] eqn:J; [|apply joined in J; now apply I1 in J].
  exists m', e. split; [reflexivity|].
  assert (VE : verify_each E fns (good ++ bad :: more) m = (m', Some e)); [|now rewrite VE].
  clear G. revert OK. induction H as [|l b good records [Vl Ll] H IH]; intros OK; cbn [app verify_each].
  - rewrite (looks_get _ _ _ _ _ LK), R, J. reflexivity.
  - inversion OK as [|x y O1 O2]; subst. rewrite (looks_get _ _ _ _ _ Ll). cbv iota beta.
    destruct (run_decides E fns Ps l (Some b) m b F NM Vl (looks_some _ _ _)) as [m1 [errs1 [-> [_ [I2 Q2]]]]].
    apply I2 in O1. rewrite O1, (Q2 O1). cbn [join_errors]. now apply IH.
Qed.

(** No output passes, whatever the checks: a handler that writes nothing passes
    the benchmark of logging. *)
Example C57_silence E fns lm m : verify_lines E fns [] lm m = (lm, m, None).
Proof. reflexivity. Qed.

(** ** Output that is not JSON

    The map stays nil, so that every check tries to decode again: a verify with n
    checks records n + 1 times that it could not. *)
Inductive reads (E : env) : verify_fn -> Prop :=
| reads_fields test names : reads E (fields_check E test names)
| reads_finder test expected : reads E (finder E test expected)
| reads_duplicates test : reads E (no_duplicates E test)
| reads_sourcerer test : reads E (sourcerer E test)
| reads_big test : reads E (big_group_checker E test).

Lemma tally_other w fn text log m : w_name w <> B "TestError" -> tally (B "TestError") (add_warning w fn text log m) = tally (B "TestError") m.
Proof.
  intros H. rewrite (added_one w fn text log m). unfold occurs. cbn [filter length].
  destruct (beq (w_name w) (B "TestError")) eqn:X; [apply beq_eq in X; now destruct H|]. cbn. lia.
Qed.

Lemma tally_error fn text log m : tally (B "TestError") (add_warning test_error fn text log m) = (tally (B "TestError") m + 1)%N.
Proof. rewrite (added_one test_error fn text log m). reflexivity. Qed.

Lemma reads_once E fn captured t m : e_unmarshal E captured = (None, Some t) -> unheeded m -> reads E fn ->
  exists m' err, fn captured None m = (None, m', err) /\ unheeded m' /\ tally (B "TestError") m' = (tally (B "TestError") m + 1)%N.
Proof.
  intros U NM R.
  set (m1 := add_warning test_error (e_fn E) (B "unmarshal bytes: " ++ t) captured m).
  assert (G : get_log_map E captured None m = (None, m1)) by (unfold get_log_map; rewrite U; reflexivity).
  assert (O1 : unheeded m1) by exact NM.
  assert (T1 : tally (B "TestError") m1 = (tally (B "TestError") m + 1)%N) by apply tally_error.
  clearbody m1.
  assert (HN : forall m w, unheeded m -> In (w_name w) heeded -> has_warning (e_use E) w m = false) by (intros; now apply unheeded_has).
  assert (one : forall w fn text log, w_name w <> B "TestError" -> tally (B "TestError") (add_warning w fn text log m1) = (tally (B "TestError") m + 1)%N).
  { intros w f x l X. now rewrite tally_other. }
  destruct R as [test names|test expected|test|test|test].
  - unfold fields_check. rewrite G. destruct (filter _ names); eexists _, _; (split; [reflexivity|]); (split; [exact O1|]); [exact T1|apply one; discriminate].
  - unfold finder. rewrite (HN m skip_dedup NM (or_introl eq_refl)). cbn [andb]. rewrite G. destruct (finder_deep E expected []) as [[bad strs]|]; [|eexists _, _; split; [reflexivity|]; auto].
    rewrite (HN m1 string_any O1 (or_intror (or_introl eq_refl))). destruct strs as [|s strs]; [destruct bad|destruct (bad ++ _)]; rewrite (HN m1 mismatch O1 (or_intror (or_intror (or_introl eq_refl)))); eexists _, _; (split; [reflexivity|]); auto.
  - unfold no_duplicates. rewrite G. eexists _, _. split; [reflexivity|]. auto.
  - unfold sourcerer. rewrite G. cbn [lookup]. eexists _, _. split; [reflexivity|]. split; [exact O1|]. apply one. discriminate.
  - unfold big_group_checker. rewrite G. cbn [lookup]. eexists _, _. split; [reflexivity|]. auto.
Qed.

Theorem C57_unparsable E fns captured t m : e_unmarshal E captured = (None, Some t) -> unheeded m -> Forall (reads E) fns ->
  exists m' err, verify E fns captured None m = (None, m', err) /\
    tally (B "TestError") m' = (tally (B "TestError") m + N.of_nat (length fns) + 1)%N.
Proof.
  intros U NM F. unfold verify.
  set (m1 := add_warning test_error (e_fn E) (B "unmarshal bytes: " ++ t) captured m).
  assert (G : get_log_map E captured None m = (None, m1)) by (unfold get_log_map; rewrite U; reflexivity). rewrite G.
  assert (O1 : unheeded m1) by exact NM.
  assert (T1 : tally (B "TestError") m1 = (tally (B "TestError") m + 1)%N) by apply tally_error.
  clearbody m1.
  assert (R : exists m' errs, run_all fns captured None m1 = (None, m', errs) /\ tally (B "TestError") m' = (tally (B "TestError") m1 + N.of_nat (length fns))%N).
  { clear G T1. revert m1 O1. induction F as [|fn fns D F IH]; intros m1 O1.
    - exists m1, []. split; [reflexivity|]. cbn. lia.
    - cbn [run_all]. destruct (reads_once E fn captured t m1 U O1 D) as [m2 [err [-> [O2 T2]]]].
      destruct (IH m2 O2) as [m3 [errs [-> T3]]]. eexists _, _. split; [reflexivity|]. rewrite T3, T2. cbn [length]. lia. }
  destruct R as [m' [errs [-> T]]]. eexists _, _. split; [reflexivity|]. rewrite T, T1. lia.
Qed.

(** ** A disabled logger *)

(** The check of the benchmark of a disabled logger fails exactly on output, which is
    recorded. *)
Theorem C57_disabled E captured lm m :
  exists m' err, disabled_check E captured lm m = (lm, m', err) /\
    (captured = [] -> m' = m /\ err = None) /\
    (captured <> [] -> added [not_disabled] m m' /\ err = Some (B "Required [NotDisabled] Logging was not properly disabled")).
Proof.
  destruct captured as [|c captured]; eexists _, _; (split; [reflexivity|]).
  - split; [auto|]. congruence.
  - split; [discriminate|]. intros _. split; [apply added_one|reflexivity].
Qed.

(** ** Examples *)

Definition record2 : dmap := [(B "level", DStr (B "INFO")); (B "msg", DStr (B "hi")); (B "caller", DStr (B "a.go:5"))].
Definition record3 : dmap :=
  [(B "level", DStr (B "INFO")); (B "source", DMap [(B "file", DStr (B "a.go")); (B "function", DStr (B "f")); (B "line", DNum (Q2Qc 5))])].

Example C57_fields_ex :
  let '(_, m, err) := fields_check (env0 true) (B "T") [B "msg"; B "code"; B "level"; B "url"] [] (Some record2) (manager0 []) in
  (err, map fst (m_warnings m)) =
  (Some (B "Required [Mismatch] Logged record does not match expected: T: code,url"), [B "Mismatch"]).
Proof. vm_compute. reflexivity. Qed.

Example C57_sourcerer_ex :
  map (fun a => let '(_, m, err) := sourcerer (env0 true) (B "T") [] (Some a) (manager0 []) in (err, map fst (m_warnings m)))
      [record3; record2; []; [(B "source", DStr (B "a.go:5"))]; [(B "source", DMap [(B "line", DNull)])]] =
  [(None, []);
   (Some (B "Implied [SourceCaller] Source data logged as 'caller' instead of 'source': a.go:5"), [B "SourceCaller"]);
   (Some (B "Implied [SourceKey] Source data not logged when AddSource flag set: no 'source' key"), [B "SourceKey"]);
   (Some (B "Implied [SourceKey] Source data not logged when AddSource flag set: source not map"), [B "SourceKey"]);
   (Some (B "Implied [SourceKey] Source data not logged when AddSource flag set: missing fields: file,function"), [B "SourceKey"])] /\
  sourced record3 /\ ~ sourced record2.
Proof.
  split; [vm_compute; reflexivity|]. split.
  - eexists. split; [reflexivity|]. repeat split; discriminate.
  - intros [? [X _]]. discriminate.
Qed.

(** The checks of the benchmark with a source, on a record that passes and on one
    that does not. *)
Definition fns1 : list verify_fn := [finder (env0 true) (B "T") [(B "level", DStr (B "INFO"))]; sourcerer (env0 true) (B "T"); no_duplicates (env0 true) (B "T")].
Definition Ps1 : list (dmap -> Prop) := [contained [(B "level", DStr (B "INFO"))]; sourced; fun _ => True].
Lemma fns1_decide : Forall2 (decides (env0 true)) fns1 Ps1.
Proof.
  constructor; [apply C57_finder_decide, validb_ok; reflexivity|]. constructor; [apply C57_sourcerer_decide|].
  constructor; [apply C57_duplicates_decide|constructor].
Qed.
Example C57_verify_ex :
  verify (env0 true) fns1 [] (Some record3) (manager0 []) = (Some record3, manager0 [], None) /\
  Forall (fun P => P record3) Ps1 /\
  snd (verify (env0 true) fns1 [] (Some record2) (manager0 [])) =
    Some (B "Implied [SourceCaller] Source data logged as 'caller' instead of 'source': a.go:5").
Proof.
  split; [vm_compute; reflexivity|]. split; [|vm_compute; reflexivity].
  assert (V : valid (DMap record3)) by (apply validb_ok; vm_compute; reflexivity).
  destruct (C57_verify (env0 true) fns1 Ps1 fns1_decide [] (Some record3) (manager0 []) record3 unheeded0 V (looks_some _ _ _))
    as [m' [err [R [_ [I _]]]]]. apply I.
  assert (X : verify (env0 true) fns1 [] (Some record3) (manager0 []) = (Some record3, manager0 [], None)) by (vm_compute; reflexivity).
  congruence.
Qed.

(** Two lines; then the first of three is wrong and the last not even JSON. *)
Definition line1 : bytes := B "{""level"":""info"",""url"":""/""}".
Definition line2 : bytes := B "{""url"":""/""}".
Definition decoded (l : bytes) : dmap := match fst (unmarshal0 l) with Some b => b | None => [] end.
Definition record_of (l : bytes) : dmap := fix_map PropReplace.casing0 (decoded l).
Lemma holds1 : holds (env0 true) line1 (record_of line1).
Proof.
  split; [apply validb_ok; vm_compute; reflexivity|]. right. split; [reflexivity|]. exists (decoded line1).
  split; [vm_compute; reflexivity|reflexivity].
Qed.
Lemma holds2 : holds (env0 true) line2 (record_of line2).
Proof.
  split; [apply validb_ok; vm_compute; reflexivity|]. right. split; [reflexivity|]. exists (decoded line2).
  split; [vm_compute; reflexivity|reflexivity].
Qed.
Lemma no_newline l : without newline l = true -> ~ In newline l. Proof. apply without_in. Qed.
Example C57_lines_ex : let fns := [fields_check (env0 true) (B "T") [B "level"; B "url"]] in
  Forall one_line [line1; line2] /\
  verify_lines (env0 true) fns (output [line1; line1] line1) None (manager0 []) = (None, manager0 [], None) /\
  snd (verify_lines (env0 true) fns (output [line1; line2; B "nothing"] line1) None (manager0 [])) =
    Some (B "Required [Mismatch] Logged record does not match expected: T: level").
Proof.
  split; [|split; vm_compute; reflexivity].
  constructor; [split; [apply no_newline; vm_compute; reflexivity|vm_compute; reflexivity]|].
  constructor; [split; [apply no_newline; vm_compute; reflexivity|vm_compute; reflexivity]|constructor].
Qed.

Example C57_unparsable_ex : Forall (reads (env0 true)) fns1 /\ e_unmarshal (env0 true) (B "nothing") = (None, Some (B "invalid character")) /\
  map (fun e => (fst e, r_count (snd e))) (m_warnings (snd (fst (verify (env0 true) fns1 (B "nothing") None (manager0 []))))) =
    [(B "TestError", 4%N); (B "SourceKey", 1%N)].
Proof. split; [repeat constructor|]. split; vm_compute; reflexivity. Qed.

Example C57_disabled_ex : disabled_check (env0 true) [] None (manager0 []) = (None, manager0 [], None) /\
  snd (disabled_check (env0 true) line1 None (manager0 [])) <> None.
Proof. split; [reflexivity|discriminate]. Qed.

Print Assumptions C57_fields.
Print Assumptions C57_fields_decide.
Print Assumptions C57_sourcerer.
Print Assumptions C57_sourcerer_decide.
Print Assumptions C57_finder_decide.
Print Assumptions C57_duplicates_decide.
Print Assumptions C57_big_decide.
Print Assumptions C57_verify.
Print Assumptions C57_lines.
Print Assumptions C57_first.
Print Assumptions C57_unparsable.
Print Assumptions C57_disabled.
