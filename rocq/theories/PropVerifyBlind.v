(** C63: what the tests of the verification suite do not see, or can never accept. *)

From Coq Require Import Ascii String List ZArith NArith Bool Arith Lia QArith Qcanon.
From Verif Require Import Bytes BytesProofs GoSort Json Slog SpecLog Samples Replace PropReplace Warnings FieldCounter FieldGrammar BenchChecks SpecChecks ChecksProofs
  ChecksSamples Complex VerifyChecks VerifyTests VerifyLines SpecVerify VerifyProofs VerifyHandlers PropVerifyTests.
Import ListNotations.
Local Open Scope nat_scope.
Local Open Scope list_scope.

(** ** TestReplaceAttrFnRemoveTime cannot be passed with EmptyAttributes marked *)

(** A piece that leaves the manager alone and, if it stops the test, fails it. *)
Definition sound {A} (t : test A) : Prop := forall st,
  v_manager (fst (t st)) = v_manager st /\ (snd (t st) = None -> v_failed (fst (t st)) = true).
(** A piece after which the test has failed, from any state with these marks. *)
Definition doomed (P : manager -> Prop) (t : test unit) : Prop := forall st, P (v_manager st) -> v_failed (fst (t st)) = true.

Lemma doomed_bind P A (t : test A) k : sound t -> (forall a, doomed P (k a)) -> doomed P (bind t k).
Proof.
  intros S K st M. destruct (S st) as [S1 S2]. unfold bind. destruct (t st) as [st' [a|]]; cbn [fst snd] in *; [|now apply S2].
  apply K. now rewrite S1.
Qed.
Lemma sound_bind A C (t : test A) (k : A -> test C) : sound t -> (forall a, sound (k a)) -> sound (bind t k).
Proof.
  intros S K st. destruct (S st) as [S1 S2]. unfold bind. destruct (t st) as [st' [a|]]; cbn [fst snd] in *; [|split; [exact S1|intros _; now apply S2]].
  destruct (K a st') as [K1 K2]. split; [congruence|exact K2].
Qed.
Lemma sound_ret A (a : A) : sound (ret a).
Proof. intros st. split; [reflexivity|discriminate]. Qed.
Lemma sound_assert b : sound (assert b).
Proof. intros st. unfold assert. cbn. split; [destruct b; reflexivity|discriminate]. Qed.
Lemma sound_require b : sound (require b).
Proof. intros st. unfold require. destruct b; cbn; split; try reflexivity; discriminate. Qed.
Lemma sound_reset : sound buffer_reset.
Proof. intros st. split; [reflexivity|discriminate]. Qed.
Lemma sound_log W H c s ops l msg attrs : sound (log_context W H c s ops l msg attrs).
Proof. intros st. unfold log_context. destruct (u_enabled _ _ _); [|split; [reflexivity|discriminate]]. destruct (z_now W _). split; [reflexivity|discriminate]. Qed.
Lemma sound_map W : sound (get_map W).
Proof.
  unfold get_map. apply sound_bind; [intros st; split; [reflexivity|discriminate]|]. intros b. destruct (e_unmarshal _ b) as [lm err].
  apply sound_bind; [apply sound_require|intros _; apply sound_ret].
Qed.

(** Whatever the handler writes: the test asks for a time that is a string and nil. *)
Theorem C63_remove_time W H m n : has_warning (e_use (z_env W)) empty_attributes m = true ->
  has_warning (e_use (z_env W)) no_repl_attr m = false -> has_warning (e_use (z_env W)) no_repl_attr_basic m = false ->
  fst (fst (run_test (B "TestReplaceAttrFnRemoveTime", test_replace_attr_fn_remove_time W H) m n)) = false.
Proof.
  intros ME M1 M2. unfold run_test. cbn [fst snd]. rewrite negb_false_iff.
  set (P := fun m => has_warning (e_use (z_env W)) empty_attributes m = true /\ has_warning (e_use (z_env W)) no_repl_attr m = false /\ has_warning (e_use (z_env W)) no_repl_attr_basic m = false).
  enough (D : doomed P (test_replace_attr_fn_remove_time W H)) by (apply D; now repeat split).
  unfold test_replace_attr_fn_remove_time, info, log.
  repeat first [apply doomed_bind; [first [apply sound_log|apply sound_map|apply sound_require|apply sound_assert|apply sound_reset]|intros ?]].
  intros st (X1 & X2 & X3). cbv zeta. unfold bind at 1, has_any, has_warnings. cbn [filter]. rewrite X2, X3.
  assert (U : e_use (z_env W) = true) by (unfold has_warning in X1; now apply andb_prop in X1). rewrite U.
  unfold bind at 1, has. rewrite X1. match goal with |- v_failed (fst (?t st)) = true => enough (D : doomed (fun _ => True) t) by now apply D end.
  apply doomed_bind; [apply sound_require|intros _]. apply doomed_bind; [apply sound_assert|intros _]. intros st' _. reflexivity.
Qed.
Print Assumptions C63_remove_time.

(** Without the mark flash passes it: here marking a warning turns passed tests into failures. *)
Example C63_remove_time_ex :
  fst (run_tests (verify_tests W0 flash0) (manager0 [duplicated]) 0) = [] /\
  fst (run_tests (verify_tests W0 flash0) (manager0 [duplicated; empty_attributes]) 0) =
    [B "TestReplaceAttr"; B "TestReplaceAttrFnRemoveEmptyKey"; B "TestReplaceAttrFnRemoveTime"].
Proof. vm_compute. split; reflexivity. Qed.

(** ** TestDerivedInvariantWithGroup never calls WithGroup *)

Lemma bind_ext {A C} (t t' : test A) (k k' : A -> test C) : (forall st, t st = t' st) -> (forall a st, k a st = k' a st) ->
  forall st, bind t k st = bind t' k' st.
Proof. intros T K st. unfold bind. rewrite T. destruct (t' st) as [st' [a|]]; [apply K|reflexivity]. Qed.

Theorem C63_derived_group W H H' m n : (forall l x, u_enabled H l x = u_enabled H' l x) ->
  (forall c o ops r, (forall g, ~ In (WithGroup g) ops) -> u_handle H c o ops r = u_handle H' c o ops r) ->
  run_test (B "TestDerivedInvariantWithGroup", test_derived_invariant_with_group W H) m n =
  run_test (B "TestDerivedInvariantWithGroup", test_derived_invariant_with_group W H') m n.
Proof.
  intros E A. unfold run_test. cbn [fst snd].
  enough (X : forall st, test_derived_invariant_with_group W H st = test_derived_invariant_with_group W H' st) by now rewrite X.
  assert (L : forall s ops attrs st, (forall g, ~ In (WithGroup g) ops) -> info W H s ops attrs st = info W H' s ops attrs st).
  { intros s ops attrs st N. unfold info, log, log_context. rewrite E. destruct (u_enabled H' _ _); [|reflexivity]. destruct (z_now W _). now rewrite A. }
  unfold test_derived_invariant_with_group, test_derived_invariant_with.
  apply bind_ext; [intros st; apply L; intros g []|intros _]. apply bind_ext; [reflexivity|intros orig]. apply bind_ext; [reflexivity|intros _].
  apply bind_ext; [intros st; apply L; intros g [X|[]]; discriminate|intros _]. apply bind_ext; [reflexivity|intros _].
  apply bind_ext; [intros st; apply L; intros g []|intros _]. apply bind_ext; [reflexivity|intros cur]. reflexivity.
Qed.
Print Assumptions C63_derived_group.

(** A handler that goes wrong with any group opened passes it. *)
Definition groupless : subject :=
  {| u_enabled := u_enabled flash0;
     u_handle := fun c o ops r => if existsb (fun p => match p with WithGroup _ => true | _ => false end) ops then ([], false) else u_handle flash0 c o ops r |}.
Example C63_derived_group_ex : (forall l x, u_enabled flash0 l x = u_enabled groupless l x) /\
  (forall c o ops r, (forall g, ~ In (WithGroup g) ops) -> u_handle flash0 c o ops r = u_handle groupless c o ops r) /\
  fst (fst (run_test (B "TestDerivedInvariantWithGroup", test_derived_invariant_with_group W0 groupless) (manager0 []) 0)) = true /\
  u_handle groupless false {| o_add_source := false; o_replace := None |} [WithGroup (B "g")] (record_at W0 0 LevelInfo []) = ([], false).
Proof.
  split; [reflexivity|]. split; [|vm_compute; split; reflexivity]. intros c o ops r N. cbn [groupless u_handle].
  destruct (existsb _ ops) eqn:E; [|reflexivity]. apply existsb_exists in E as ([x|g] & I & X); [discriminate|]. now destruct (N g).
Qed.

(** ** Two ReplaceAttr tests that a handler without ReplaceAttr passes *)

Definition ignoring (H : subject) : subject :=
  {| u_enabled := u_enabled H;
     u_handle := fun c o ops r => u_handle H c {| o_add_source := o_add_source o; o_replace := None |} ops r |}.

Section Ignoring.
Variable W : surroundings.
Variable num : bytes -> option Qc.
Variable H : subject.
Hypothesis OK : surroundings_ok W num.
Hypothesis RIGHT : right_handler W H.

Let UN := s_unmarshal W num OK.
Let CLS := s_classes W num OK.
Let NUM := s_num W num OK.
Let CSOK := s_casing W num OK.
Let FLOATS := s_floats W num OK.
Let WHEN := time_valid _ (proj1 (proj2 (s_when W num OK))).
Let SOURCES := s_places W num OK.

(** The first call finds no field "message", and the test is over. *)
Theorem C63_change_key m n : only_duplicates_may_be_marked W m ->
  fst (run_test (B "TestReplaceAttrFnChangeKey", test_replace_attr_fn_change_key W (ignoring H)) m n) = (true, m).
Proof.
  intros O. rewrite (run_outcome _ m n). cbn [fst snd]. unfold test_replace_attr_fn_change_key, info, log.
  change (log_context W (ignoring H) false simple_options [] LevelInfo test_message []) with (log_context W H false simple_options [] LevelInfo test_message []).
  eapply (outcome_log W num H NUM FLOATS WHEN SOURCES RIGHT); [vm_compute; discriminate|reflexivity|eapply x_plain; constructor|].
  intros b tx src T HB. apply (outcome_map W num UN _ _ _ _ _ _ _ HB). intros d S0. rewrite (seen_found _ _ _ S0). reflexivity.
Qed.

(** An attribute without key and value is left out without ReplaceAttr too. *)
Definition drops_zero_attribute : Prop := forall n, exists tx, time_text W tx /\
  writes H {| k_cancelled := false; k_options := plain_options; k_ops := []; k_record := record_at W n LevelInfo [a_nil ""] |} (header tx "INFO").

Theorem C63_remove_empty_key m n : drops_zero_attribute -> only_duplicates_may_be_marked W m ->
  fst (run_test (B "TestReplaceAttrFnRemoveEmptyKey", test_replace_attr_fn_remove_empty_key W (ignoring H)) m n) = (true, m).
Proof.
  intros DZ O. apply only_unmarked in O. rewrite (run_outcome _ m n). cbn [fst snd]. unfold test_replace_attr_fn_remove_empty_key, info, log.
  rewrite outcome_has_any; [|assumption|cbn; tauto|cbn; tauto]. cbv beta iota.
  change (log_context W (ignoring H) false simple_options [] LevelInfo test_message [a_str "" "garbage"])
    with (log_context W H false simple_options [] LevelInfo test_message [a_str "" "garbage"]).
  eapply (outcome_log W num H NUM FLOATS WHEN SOURCES RIGHT); [vm_compute; discriminate|reflexivity|eapply x_plain; constructor|].
  intros b tx src T HB. apply (outcome_map W num UN _ _ _ _ _ _ _ HB). intros d S0.
  rewrite outcome_require by (rewrite (seen_found _ _ _ S0); reflexivity).
  rewrite outcome_require by (apply (seen_equal _ _ _ _ S0); reflexivity).
  rewrite outcome_reset.
  destruct (DZ (n + 1)) as (tx2 & T2 & line & nl & U & SP & NL). cbn [k_cancelled k_options k_ops k_record] in U.
  assert (HB2 : holds num (line ++ nl) (header tx2 "INFO")).
  { split; [|now exists line, nl]. split; [apply ok_header; [apply T2|reflexivity]|now split]. }
  rewrite (outcome_step _ _ _ (mk (B "TestReplaceAttrFnRemoveEmptyKey") (line ++ nl) m (n + 1 + 1)) tt).
  2:{ unfold log_context, mk. cbn [v_records v_buffer ignoring u_enabled u_handle s_options replace_options o_add_source o_replace s_level].
      rewrite (right_levels _ _ RIGHT). change (Z.leb _ _) with true. cbv iota. unfold record_at in U. destruct (z_now W (n + 1)) as [t place]. cbn [fst snd] in U.
      change (record_attrs [a_nil ""]) with [a_nil ""]. unfold plain_options in U. rewrite U. reflexivity. }
  apply (outcome_map W num UN _ _ _ _ _ _ _ HB2). intros d2 S2.
  rewrite outcome_has; [|assumption|cbn; tauto]. cbv zeta iota.
  rewrite outcome_has; [|assumption|cbn; tauto]. cbv iota.
  rewrite outcome_assert by (rewrite (seen_size _ _ S2); reflexivity).
  rewrite outcome_last. rewrite outcome_assert by (rewrite (seen_found _ _ _ S2); reflexivity). reflexivity.
Qed.
End Ignoring.
Print Assumptions C63_change_key.
Print Assumptions C63_remove_empty_key.

(** flash without ReplaceAttr: six of its eight tests fail, these two do not. *)
Example C63_ignoring_ex :
  fst (run_tests (verify_tests W0 (ignoring flash0)) (manager0 [duplicated]) 0) =
    [B "TestReplaceAttr"; B "TestReplaceAttrBasic"; B "TestReplaceAttrFnLevelCase"; B "TestReplaceAttrFnMulti";
     B "TestReplaceAttrFnRemoveTime"; B "TestReplaceAttrGroup"].
Proof. vm_compute. reflexivity. Qed.

Example C63_remove_empty_key_ex : drops_zero_attribute W0 flash0.
Proof.
  intros n. assert (R : right_handler W0 flash0) by (eapply C62_flash; [exact std0_ok|exact W0_ok|apply C62_flash_ex|apply C62_flash_ex]).
  destruct (right_lines _ _ R _ _ (x_plain W0 false n _ _ _ (p_none W0))) as (tx & _ & T & _ & line & nl & U & X). exists tx. split; [exact T|].
  exists line, nl. split; [|exact X]. rewrite <- U. vm_compute. reflexivity.
Qed.

(** ** TestGroupDuration with DurationString marked *)

(** What a handler writes for the duration in the group is not looked at, if it is not
    a number and that outside is a string. *)
Theorem C63_group_duration W H m n (d g : dmap) s v st1 :
  has_warning (e_use (z_env W)) duration_string m = true ->
  log_context W H false simple_options [WithAttrs [(B "outer", VDuration 29002000000000)]; WithGroup (B "group")] LevelInfo test_message
    [(B "inner", VDuration 29002000000000)] (mk (B "TestGroupDuration") [] m n) = (st1, Some tt) ->
  get_map W st1 = (st1, Some (Some d)) ->
  at_key (B "outer") (Some d) = DStr s -> at_key (B "group") (Some d) = DMap g -> get (B "inner") g = Some v -> (forall q, v <> DNum q) ->
  fst (fst (run_test (B "TestGroupDuration", test_group_duration W H) m n)) = true.
Proof.
  intros M L G EO EG EI NV.
  assert (SM : v_manager st1 = m /\ v_failed st1 = false).
  { unfold log_context in L. destruct (u_enabled _ _ _); [|injection L as <-; now split]. destruct (z_now W _). injection L as <-. now split. }
  destruct SM as [SM SF].
  change (fst (fst (run_test (B "TestGroupDuration", test_group_duration W H) m n))) with (fst (outcome (test_group_duration W H) (mk (B "TestGroupDuration") [] m n))).
  unfold test_group_duration, info, log. cbv zeta.
  rewrite (outcome_step _ _ _ st1 tt) by exact L. rewrite (outcome_step _ _ _ st1 (Some d)) by exact G.
  assert (FO : found (B "outer") (Some d) = true) by (unfold at_key in EO; unfold found; cbn [lookup] in *; destruct (get (B "outer") d); [reflexivity|discriminate]).
  assert (FG : found (B "group") (Some d) = true) by (unfold at_key in EG; unfold found; cbn [lookup] in *; destruct (get (B "group") d); [reflexivity|discriminate]).
  assert (FI : found (B "inner") (Some g) = true) by (unfold found; cbn [lookup]; now rewrite EI).
  assert (AI : at_key (B "inner") (Some g) = v) by (unfold at_key; cbn [lookup]; now rewrite EI).
  rewrite (outcome_step _ _ _ st1 tt) by (unfold require; now rewrite FO).
  rewrite (outcome_step _ _ _ st1 true) by (unfold has; now rewrite SM, M).
  rewrite EO, EG. cbn [negb as_map as_string].
  rewrite (outcome_step _ _ _ (fst (warn_with_log duration_string s st1)) tt) by reflexivity.
  rewrite (outcome_step _ _ _ (fst (warn_with_log duration_string s st1)) tt) by (unfold require; now rewrite FG).
  rewrite (outcome_step _ _ _ (fst (warn_with_log duration_string s st1)) tt) by (unfold require; now rewrite FI).
  rewrite AI. unfold outcome. cbn [fst].
  destruct v; try (now destruct (NV q)); unfold assert; rewrite beq_refl; cbn; now rewrite SF.
Qed.
Print Assumptions C63_group_duration.

(** A handler that writes "8h3m22s" and, in the group, null. *)
Definition odd0 : subject :=
  {| u_enabled := fun _ _ => true;
     u_handle := fun _ _ _ _ => (list_ascii_of_string "{""outer"":""8h3m22s"",""group"":{""inner"":null}}" ++ [newline], true) |}.
Example C63_group_duration_ex : fst (fst (run_test (B "TestGroupDuration", test_group_duration W0 odd0) (manager0 [duration_string]) 0)) = true.
Proof. vm_compute. reflexivity. Qed.
