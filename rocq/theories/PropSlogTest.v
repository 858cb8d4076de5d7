(** C64: testing/slogtest as run by the verification suite: what it decides, and that flash
    and sloggy pass it. *)

From Coq Require Import Ascii String List ZArith NArith Bool Arith Lia QArith Qcanon.
From Verif Require Import Bytes BytesProofs GoSort Json JsonProofs Regex RegexProofs Slog SpecLog SpecText SpecFlash SpecSloggy Samples Flash FlashProofs FlashRecord Sloggy SloggyHandler SloggyMeaning
  FlashConfig Replace Warnings BenchChecks SpecChecks ChecksProofs ChecksSamples Complex EscapeProofs TextProofs VerifyChecks VerifyTests SpecVerify VerifyProofs VerifyHandlers
  SlogTest PropVerifyTests.
From Verif Require PropBigGroup PropComplex.
Import ListNotations.
Local Open Scope nat_scope.
Local Open Scope list_scope.

(** ** Specification *)

(** What a check asks of a record. *)
Inductive satisfies : SlogTest.check -> dmap -> Prop :=
| sat_key k v m : get k m = Some v -> satisfies (HasKey k) m
| sat_attr k s m : get k m = Some (DStr s) -> satisfies (HasAttr k s) m
| sat_missing k m : get k m = None -> satisfies (MissingKey k) m
| sat_group g c x m : get g m = Some (DMap x) -> satisfies c x -> satisfies (InGroup g c) m.

Definition members_of (m : log_map) : dmap := match m with Some d => d | None => [] end.
Definition case_right (c : case) (m : log_map) : Prop := forall ck, In ck (c_checks c) -> satisfies ck (members_of m).

(** The lines of a text that are not empty. *)
Definition nonempty_lines (b : bytes) : list bytes := filter (fun l => negb (Nat.eqb (length l) 0)) (split_on newline b).

(** ** What it decides *)

Lemma lookup_members k m : lookup k m = get k (members_of m).
Proof. destruct m; reflexivity. Qed.

Lemma problem_iff c : forall m, problem c m = false <-> satisfies c (members_of m).
Proof.
  induction c as [k|k v|k|g c IH]; intros m; cbn [problem]; unfold found, at_key; rewrite lookup_members.
  - destruct (get k (members_of m)) as [v|] eqn:E; cbn [negb]; split; try discriminate; try reflexivity.
    + intros _. econstructor. exact E.
    + intros X. inversion X. congruence.
  - destruct (get k (members_of m)) as [w|] eqn:E; split; try discriminate.
    + intros X. apply negb_false_iff in X. constructor. rewrite E. f_equal. destruct w; cbn in X; try discriminate. apply beq_eq in X. now subst.
    + intros X. inversion X; subst. assert (w = DStr v) as -> by congruence. cbn. now rewrite beq_refl.
    + intros X. inversion X. congruence.
  - destruct (get k (members_of m)) as [v|] eqn:E; split; try discriminate; try reflexivity.
    + intros X. inversion X. congruence.
    + intros _. now constructor.
  - destruct (get g (members_of m)) as [v|] eqn:E.
    + destruct v as [| | | | |x]; cbn [as_map]; try (split; [discriminate|intros X; inversion X; congruence]). rewrite IH. cbn [members_of]. split.
      * intros X. econstructor; eassumption.
      * intros X. inversion X; subst. assert (x0 = x) as -> by congruence. assumption.
    + split; [discriminate|]. intros X. inversion X. congruence.
Qed.

Lemma case_problems_iff i c m : case_problems i c m = [] <-> case_right c m.
Proof.
  unfold case_problems, case_right. generalize 0. induction (c_checks c) as [|ck l IH]; intros j; cbn [length seq combine flat_map fst snd].
  - split; [intros _ ck []|reflexivity].
  - destruct (problem ck m) eqn:P.
    + split; [discriminate|]. intros X. exfalso. specialize (X ck (or_introl eq_refl)). apply problem_iff in X. congruence.
    + cbn [app]. rewrite (IH (S j)). split.
      * intros X ck' [<-|I]; [now apply problem_iff|now apply X].
      * intros X ck' I. apply X. now right.
Qed.

Lemma check_results_iff cs res : check_results cs res = Some [] <-> Forall2 case_right cs res.
Proof.
  unfold check_results. destruct (Nat.eqb (length res) (length cs)) eqn:L.
  - apply Nat.eqb_eq in L. symmetry in L. revert res L. generalize 0.
    induction cs as [|c cs IH]; intros i [|m res] L; try discriminate; cbn [length seq combine flat_map fst snd]; [split; [constructor|reflexivity]|].
    injection L as L. specialize (IH (S i) res L). split.
    + intros [= X]. apply app_eq_nil in X as [X1 X2]. constructor; [now apply case_problems_iff in X1|]. apply IH. now f_equal.
    + intros X. inversion X as [|? ? ? ? X1 X2]; subst. apply IH in X2. injection X2 as X2. rewrite X2, app_nil_r. f_equal. now apply case_problems_iff.
  - apply Nat.eqb_neq in L. split; [discriminate|]. intros X. destruct L. clear -X. induction X; cbn; congruence.
Qed.

Lemma result_maps_iff W lines res : result_maps W lines = Some res <->
  Forall2 (fun l m => e_unmarshal (z_env W) l = (m, None)) (filter (fun l => negb (Nat.eqb (length l) 0)) lines) res.
Proof.
  revert res. induction lines as [|l lines IH]; intros res; cbn [result_maps filter].
  - split; [intros [= <-]; constructor|]. intros X. inversion X. reflexivity.
  - destruct l as [|a l]; [exact (IH res)|]. cbn [length Nat.eqb negb].
    destruct (e_unmarshal (z_env W) (a :: l)) as [m [e|]] eqn:E.
    + split; [discriminate|]. intros X. inversion X. congruence.
    + split.
      * destruct (result_maps W lines) as [res'|]; [|discriminate]. intros [= <-]. constructor; [exact E|now apply IH].
      * intros X. inversion X as [|? m' ? res' Y Z]; subst. apply IH in Z. rewrite Z. assert (m' = m) as -> by congruence. reflexivity.
Qed.

(** For any table of cases: without the mark the test passes exactly if the lines written are
    as many as the cases, are all JSON, and each has what its case asks for; nothing is
    recorded. *)
Theorem C64_decides W H text cs st : v_failed st = false -> is_marked W slog_test st = false ->
  (accepts (test_slog_test W H true text cs) st <->
     exists ms, Forall2 (fun l m => e_unmarshal (z_env W) l = (m, None)) (nonempty_lines (run_cases W H cs (v_records st))) ms /\ Forall2 case_right cs ms) /\
  leaves (test_slog_test W H true text cs) st = v_manager st.
Proof.
  intros F M. unfold accepts, leaves, test_slog_test. cbv zeta.
  destruct (result_maps W (split_on newline (run_cases W H cs (v_records st)))) as [res|] eqn:R.
  - unfold bind, has. cbn [v_manager]. unfold is_marked in M. rewrite M. cbn [negb].
    assert (X : (match check_results cs res with Some [] => true | _ => false end) = true <-> Forall2 case_right cs res).
    { rewrite <- check_results_iff. destruct (check_results cs res) as [[|]|]; split; intros; try reflexivity; try discriminate. }
    apply result_maps_iff in R. unfold require. destruct (match check_results cs res with Some [] => true | _ => false end).
    + split; [|reflexivity]. split; [|intros _; exact F]. intros _. exists res. split; [exact R|]. now apply X.
    + split; [|reflexivity]. split; [discriminate|]. intros (ms & R' & C). cbn [fst fail v_failed]. symmetry. apply X.
      assert (ms = res) as <-; [|exact C]. apply result_maps_iff in R. apply result_maps_iff in R'. congruence.
  - split; [|reflexivity]. split; [discriminate|]. intros (ms & R' & _). apply result_maps_iff in R'. unfold nonempty_lines in R'. congruence.
Qed.
Print Assumptions C64_decides.

(** With the mark, JSON on all lines is enough; what is recorded tells whether all is right.
    A handler that cannot be made is not tested. *)
Theorem C64_decides_marked W H text cs st ms : v_failed st = false -> is_marked W slog_test st = true ->
  Forall2 (fun l m => e_unmarshal (z_env W) l = (m, None)) (nonempty_lines (run_cases W H cs (v_records st))) ms ->
  accepts (test_slog_test W H true text cs) st /\
  (Forall2 case_right cs ms -> leaves (test_slog_test W H true text cs) st = add_unused slog_test (v_test st) [] (v_manager st)) /\
  (~ Forall2 case_right cs ms -> exists t, leaves (test_slog_test W H true text cs) st = add_warning slog_test (v_test st) t [] (v_manager st)) /\
  test_slog_test W H false text cs st = (st, Some tt).
Proof.
  intros F M R. unfold accepts, leaves, test_slog_test. cbv zeta. apply result_maps_iff in R. unfold nonempty_lines in R. rewrite R.
  unfold bind, has. cbn [v_manager]. unfold is_marked in M. rewrite M. cbn [negb].
  pose proof (check_results_iff cs ms) as X. destruct (check_results cs ms) as [[|p l]|] eqn:E; cbn [fst snd not_used warn set_manager v_failed v_manager v_test].
  - split; [exact F|]. split; [reflexivity|]. split; [|reflexivity]. intros N. destruct N. now apply X.
  - split; [exact F|]. split; [intros C; apply X in C; discriminate|]. split; [|reflexivity]. intros _. eexists. reflexivity.
  - split; [exact F|]. split; [intros C; apply X in C; discriminate|]. split; [|reflexivity]. intros _. eexists. reflexivity.
Qed.
Print Assumptions C64_decides_marked.

(** ** Handlers *)

(** The members of the line for a case, [l] those of its attributes. *)
Definition case_head (c : case) (tx : bytes) : list item :=
  (if c_zero_time c then [] else [i_text "time" tx]) ++ [i_str "level" "INFO"; i_text "msg" (c_msg c)].

(** A reader of these members finds what the case asks for, whatever the text of the time. *)
Definition asks (c : case) (l : list item) : Prop :=
  forall tx ck, In ck (c_checks c) -> satisfies ck (contents (case_head c tx ++ l)).

Lemma seen_satisfies c : forall m d, seen m d -> satisfies c m -> satisfies c d.
Proof.
  induction c as [k|k v|k|g c IH]; intros m d S0 X; pose proof (seen_get m d S0) as G.
  - inversion X as [? v ? E| | |]; subst. specialize (G k). rewrite E in G. destruct (get k d) as [w|] eqn:E'; [econstructor; exact E'|inversion G].
  - inversion X as [|? ? ? E| |]; subst.
    assert (A : at_key k (Some d) = DStr v) by (apply (seen_leaf m d k _ S0); [unfold at_key, lookup; now rewrite E|reflexivity]).
    constructor. unfold at_key, lookup in A. destruct (get k d); [now subst|discriminate].
  - inversion X as [| |? ? E|]; subst. specialize (G k). rewrite E in G. destruct (get k d) as [w|] eqn:E'; [inversion G|now constructor].
  - inversion X as [| | |? ? x ? E Y]; subst. destruct (seen_map m d g x S0) as (x' & A & S1); [unfold at_key, lookup; now rewrite E|].
    econstructor; [|apply (IH x x' S1 Y)]. unfold at_key, lookup in A. destruct (get g d); [now subst|discriminate].
Qed.

Lemma parse_cr line v : parse_json line = Some v -> parse_json (line ++ [chr 13]) = Some v.
Proof.
  intros P. apply parse_json_iff in P. destruct P as [w1 [b [w2 [-> [W1 [J W2]]]]]].
  apply parse_json_iff. exists w1, b, (w2 ++ [chr 13]). rewrite <- !app_assoc. split; [reflexivity|]. split; [exact W1|].
  split; [exact J|]. unfold Json.ws in *. rewrite forallb_app, W2. reflexivity.
Qed.

Lemma clean_without line : SpecLog.clean line = true -> without newline line = true.
Proof.
  intros C. apply andb_true_iff in C as [C _]. unfold without. rewrite forallb_forall in *. intros a I. specialize (C a I).
  destruct (Ascii.eqb_spec a newline) as [->|N]; [discriminate|reflexivity].
Qed.

(** A handler that writes a right line for each case passes. *)
Definition writes_case (W : surroundings) (num : bytes -> option Qc) (H : subject) (n : nat) (c : case) : Prop :=
  exists tx l line nl ok, u_handle H false plain_options (c_ops c) (case_record W c n) = (line ++ nl, ok) /\
    (nl = [newline] \/ nl = [chr 13; newline]) /\ spelled (members (case_head c tx ++ l)) line /\
    Forall (item_ok num) (case_head c tx ++ l) /\ asks c l.

Definition enabled (H : subject) : Prop := u_enabled H None LevelInfo = true.

Section Passing.
Variable W : surroundings.
Variable num : bytes -> option Qc.
Variable H : subject.
Hypothesis UN : unmarshal_ok num (z_env W).
Hypothesis EN : enabled H.

Lemma clean_nonempty fs line : spelled fs line -> exists a t, line = a :: t.
Proof.
  intros S. destruct (spelled_parses _ _ S) as [P _]. destruct line as [|a t]; [discriminate P|eauto].
Qed.

Lemma cases_lines cs : forall n, (forall i c, nth_error cs i = Some c -> writes_case W num H (n + i) c) ->
  exists ms, Forall2 (fun l m => e_unmarshal (z_env W) l = (m, None)) (nonempty_lines (run_cases W H cs n)) ms /\ Forall2 case_right cs ms.
Proof.
  unfold nonempty_lines. induction cs as [|c cs IH]; intros n R.
  - exists []. split; constructor.
  - destruct (IH (n + 1)) as (ms & X1 & X2).
    { intros i c' E. specialize (R (S i) c' E). now replace (n + 1 + i) with (n + S i) by lia. }
    destruct (R 0 c eq_refl) as (tx & l & line & nl & ok & E & NL & SP & F & A). rewrite Nat.add_0_r in E.
    destruct (spelled_parses _ _ SP) as [P C]. apply clean_without in C. destruct (decode_members num _ F) as [D V].
    assert (O : exists lf, run_cases W H (c :: cs) n = lf ++ newline :: run_cases W H cs (n + 1) /\ without newline lf = true /\ parse_json lf = Some (JObj (members (case_head c tx ++ l))) /\ negb (Nat.eqb (length lf) 0) = true).
    { cbn [run_cases]. unfold case_output. rewrite EN. change (s_options simple_options) with plain_options. rewrite E. cbn [fst].
      destruct (clean_nonempty _ _ SP) as (a & t & ->).
      destruct NL as [-> | ->].
      - exists (a :: t). split; [now rewrite <- app_assoc|]. repeat split; assumption.
      - exists ((a :: t) ++ [chr 13]). split; [now rewrite <- !app_assoc|]. split; [unfold without in *; rewrite forallb_app, C; reflexivity|].
        split; [now apply parse_cr|reflexivity]. }
    destruct O as (lf & -> & C' & P' & NE). destruct (UN _ _ _ P' D) as (d & U & VD & S0).
    rewrite split_app by exact C'. cbn [filter]. rewrite NE. exists (Some d :: ms). split; constructor; auto.
    intros ck I. apply (seen_satisfies ck (contents (case_head c tx ++ l))); [repeat split; assumption|]. now apply A.
Qed.

Theorem slogtest_passes text cs st : v_failed st = false -> (forall i c, nth_error cs i = Some c -> writes_case W num H (v_records st + i) c) ->
  accepts (test_slog_test W H true text cs) st /\
  leaves (test_slog_test W H true text cs) st = (if is_marked W slog_test st then add_unused slog_test (v_test st) [] (v_manager st) else v_manager st).
Proof.
  intros F R. destruct (cases_lines cs _ R) as (ms & X1 & X2). destruct (is_marked W slog_test st) eqn:M.
  - destruct (C64_decides_marked W H text cs st ms F M X1) as (A & B & _). split; [exact A|exact (B X2)].
  - destruct (C64_decides W H text cs st F M) as (A & B). split; [apply A; now exists ms|exact B].
Qed.
End Passing.

(** Any handler that is enabled and writes, for each case, one JSON line in which the case's
    checks hold passes, whatever the cases are. *)
Theorem C64_pass W num H text cs st : unmarshal_ok num (z_env W) -> enabled H -> v_failed st = false ->
  (forall i c, nth_error cs i = Some c -> writes_case W num H (v_records st + i) c) ->
  accepts (test_slog_test W H true text cs) st /\
  leaves (test_slog_test W H true text cs) st = (if is_marked W slog_test st then add_unused slog_test (v_test st) [] (v_manager st) else v_manager st).
Proof. intros UN EN F R. exact (slogtest_passes W num H UN EN text cs st F R). Qed.
Print Assumptions C64_pass.

(** *** flash and sloggy *)

(** What the attributes of a case mean, and that a line with them is what it asks for. *)
Definition case_meant (num : bytes -> option Qc) (means : list attr -> option fields) (c : case) : Prop :=
  valid_utf8 (c_msg c) = true /\
  exists l, nest means (c_ops c) (record_attrs (c_attrs c)) = Some (members l) /\ Forall (item_ok num) l /\ asks c l.

(** The subject is the handler, for the calls of the cases. *)
Definition answers_cases (writes : list op -> Slog.record -> list bytes -> bool -> Prop) (W : surroundings) (H : subject) (cs : list case) (n : nat) : Prop :=
  forall i c ws ok, nth_error cs i = Some c -> writes (c_ops c) (case_record W c (n + i)) ws ok ->
    u_handle H false plain_options (c_ops c) (case_record W c (n + i)) = (concat ws, ok).

Lemma head_ok num c tx : valid_utf8 tx = true -> valid_utf8 (c_msg c) = true -> Forall (item_ok num) (case_head c tx).
Proof.
  intros V M. unfold case_head. apply Forall_app. split; [destruct (c_zero_time c); [constructor|repeat constructor; now apply ok_text]|].
  constructor; [now apply ok_text|]. constructor; [now apply ok_text|constructor].
Qed.

Theorem C64_flash std W num H text cs st : stdlib_ok std -> surroundings_ok W num -> enabled H -> v_failed st = false ->
  Forall (case_meant num (flash_meanings std RFC3339Nano)) cs ->
  answers_cases (fun ops r ws ok => logs std plain_options None ops NoDead r (Done ws ok)) W H cs (v_records st) ->
  accepts (test_slog_test W H true text cs) st /\
  leaves (test_slog_test W H true text cs) st = (if is_marked W slog_test st then add_unused slog_test (v_test st) [] (v_manager st) else v_manager st).
Proof.
  intros STD OK EN F CM A. apply (C64_pass W num H text cs st (s_unmarshal _ _ OK) EN F). intros i c E.
  rewrite Forall_forall in CM. destruct (CM c (nth_error_In _ _ E)) as (VM & l & N & IO & AK). set (n := v_records st + i).
  destruct (s_clock W num OK n) as (Z & PL & D). pose proof (time_valid _ PL) as TV. apply time_plain in PL.
  exists (t_format (fst (z_now W n)) RFC3339Nano), l.
  destruct (flash_record_spelled std STD plain_options None (c_ops c) (case_record W c n) (members (case_head c (t_format (fst (z_now W n)) RFC3339Nano))) (members l)) as (line & L & S).
  - reflexivity.
  - unfold case_record, flash_header, case_head. destruct (z_now W n) as [t src] eqn:ZN. cbn [fst] in *. cbn [Slog.r_time Slog.r_level Slog.r_msg Slog.r_source].
    change (x_time_format (fix_extras None)) with RFC3339Nano.
    destruct (c_zero_time c); cbn [cleared t_zero t_format]; rewrite ?Z, ?PL, VM; destruct (c_zero_pc c); reflexivity.
  - unfold case_record. destruct (z_now W n). exact N.
  - exists line, [newline], true. split; [|split; [now left|]].
    + pose proof (A i c _ _ E L) as R. fold n in R. rewrite R. cbn [concat]. now rewrite app_nil_r.
    + split; [unfold members in *; now rewrite map_app|]. split; [|exact AK]. apply Forall_app. split; [now apply head_ok|exact IO].
Qed.
Print Assumptions C64_flash.

Theorem C64_sloggy std W num H text cs st : stdlib_ok std -> surroundings_ok W num -> enabled H -> v_failed st = false ->
  Forall (fun c => case_meant num (sloggy_meanings std) c /\ json_safe (sl_print std) (c_msg c) = true) cs ->
  answers_cases (fun ops r ws ok => slogs std plain_options ops NoDead r (Done ws ok)) W H cs (v_records st) ->
  accepts (test_slog_test W H true text cs) st /\
  leaves (test_slog_test W H true text cs) st = (if is_marked W slog_test st then add_unused slog_test (v_test st) [] (v_manager st) else v_manager st).
Proof.
  intros STD OK EN F CM A. apply (C64_pass W num H text cs st (s_unmarshal _ _ OK) EN F). intros i c E.
  rewrite Forall_forall in CM. destruct (CM c (nth_error_In _ _ E)) as ((VM & l & N & IO & AK) & JS). set (n := v_records st + i).
  destruct (s_clock W num OK n) as (Z & PL & D). pose proof (time_valid _ PL) as TV. apply (time_safe std) in PL.
  exists (t_format (fst (z_now W n)) RFC3339Nano), l.
  destruct (sloggy_plain_spelled std STD plain_options (c_ops c) (case_record W c n) (members (case_head c (t_format (fst (z_now W n)) RFC3339Nano))) (members l)) as (ws & line & L & C & S).
  - reflexivity.
  - unfold case_record, sloggy_header, case_head. destruct (z_now W n) as [t src] eqn:ZN. cbn [fst] in *. cbn [Slog.r_time Slog.r_level Slog.r_msg Slog.r_source].
    destruct (c_zero_time c); cbn [cleared t_zero t_format]; rewrite ?Z, ?PL, JS; destruct (c_zero_pc c); reflexivity.
  - unfold case_record. destruct (z_now W n). exact N.
  - exists line, [chr 13; newline], true. split; [|split; [now right|]].
    + pose proof (A i c _ _ E L) as R. fold n in R. rewrite R. now rewrite C.
    + split; [unfold members in *; now rewrite map_app|]. split; [|exact AK]. apply Forall_app. split; [now apply head_ok|exact IO].
Qed.
Print Assumptions C64_sloggy.

(** The cases of testing/slogtest are such cases, for both. *)
Lemma asks_all c l : (forall tx, Forall (fun ck => satisfies ck (contents (case_head c tx ++ l))) (c_checks c)) -> asks c l.
Proof. intros X tx ck I. specialize (X tx). rewrite Forall_forall in X. auto. Qed.

Definition slogtest_members : list (list item) :=
  [[]; [i_str "k" "v"]; [i_str "a" "b"; i_str "c" "d"]; [i_str "k" "v"]; [i_str "a" "b"; i_str "k" "v"];
   [i_str "a" "b"; i_group "G" [i_str "c" "d"]; i_str "e" "f"]; [i_str "a" "b"; i_str "e" "f"]; [i_str "a" "b"; i_str "c" "d"; i_str "e" "f"];
   [i_group "G" [i_str "a" "b"]]; [i_str "a" "b"; i_group "G" [i_str "c" "d"; i_group "H" [i_str "e" "f"]]];
   [i_str "a" "b"; i_group "G" [i_str "c" "d"]]; [i_str "k" "replaced"]; [i_group "G" [i_str "a" "v1"; i_str "b" "v2"]];
   [i_str "k" "replaced"]; [i_group "G" [i_str "a" "v1"; i_str "b" "v2"]]; []].

Ltac a_check := repeat (eapply sat_group; [reflexivity|]);
  first [eapply sat_key; reflexivity | apply sat_attr; reflexivity | apply sat_missing; reflexivity].

Lemma members_ask : Forall2 asks slogtest_cases slogtest_members.
Proof.
  unfold slogtest_cases, slogtest_members.
  repeat first [apply Forall2_nil | apply Forall2_cons]; apply asks_all; intros tx; cbn [c_checks simple_case built_in app];
    repeat first [apply Forall_nil | apply Forall_cons]; a_check.
Qed.

Lemma members_ok num : Forall (Forall (item_ok num)) slogtest_members.
Proof.
  unfold slogtest_members, i_str.
  repeat first [apply Forall_nil | apply Forall_cons | apply ok_text; reflexivity | apply ok_group; [reflexivity|]].
Qed.

Lemma cases_meant num means : Forall2 (fun c l => nest means (c_ops c) (record_attrs (c_attrs c)) = Some (members l)) slogtest_cases slogtest_members ->
  Forall (case_meant num means) slogtest_cases.
Proof.
  assert (V : Forall (fun c => valid_utf8 (c_msg c) = true) slogtest_cases) by (repeat constructor).
  pose proof members_ask as A. pose proof (members_ok num) as O. revert V A O. generalize slogtest_cases slogtest_members.
  intros cs ls V A O X. induction X as [|c l cs ls E X IH]; inversion V; inversion A; inversion O; subst; constructor; auto.
  split; [assumption|]. exists l. auto.
Qed.

Theorem C64_cases std num : Forall (case_meant num (flash_meanings std RFC3339Nano)) slogtest_cases /\
  Forall (fun c => case_meant num (sloggy_meanings std) c /\ json_safe (sl_print std) (c_msg c) = true) slogtest_cases.
Proof.
  split.
  - apply cases_meant. repeat constructor.
  - assert (X : Forall (case_meant num (sloggy_meanings std)) slogtest_cases) by (apply cases_meant; repeat constructor).
    assert (Y : Forall (fun c => json_safe (sl_print std) (c_msg c) = true) slogtest_cases) by (repeat constructor).
    rewrite Forall_forall in *. auto.
Qed.
Print Assumptions C64_cases.

(** *** What the sixteen cases demand *)

(** A demand on a result: under the groups of a path, a key is present, is a text, or is
    absent. *)
Inductive demand : Type := Present | Text (s : string) | Absent.
Fixpoint meets (m : dmap) (path : list string) (k : string) (d : demand) : Prop :=
  match path with
  | [] => match d with
          | Present => get (B k) m <> None
          | Text s => get (B k) m = Some (DStr (B s))
          | Absent => get (B k) m = None
          end
  | g :: path' => exists x, get (B g) m = Some (DMap x) /\ meets x path' k d
  end.
Definition meets_all (ds : list (list string * string * demand)) (m : log_map) : Prop :=
  forall path k d, In (path, k, d) ds -> meets (members_of m) path k d.

Local Open Scope string_scope.
Definition basics (msg : string) : list (list string * string * demand) :=
  [([], "time", Present); ([], "level", Present); ([], "msg", Text msg)].
Definition slogtest_demands : list (list (list string * string * demand)) :=
  [basics "message";
   [([], "k", Text "v")];
   [([], "a", Text "b"); ([], "", Absent); ([], "c", Text "d")];
   [([], "time", Absent)];
   [([], "a", Text "b"); ([], "k", Text "v")];
   [([], "a", Text "b"); (["G"], "c", Text "d"); ([], "e", Text "f")];
   [([], "a", Text "b"); ([], "G", Absent); ([], "e", Text "f")];
   [([], "a", Text "b"); ([], "c", Text "d"); ([], "e", Text "f")];
   (basics "msg" ++ [([], "a", Absent); (["G"], "a", Text "b")])%list;
   (basics "msg" ++ [([], "a", Text "b"); (["G"], "c", Text "d"); (["G"; "H"], "e", Text "f")])%list;
   (basics "msg" ++ [([], "a", Text "b"); (["G"], "c", Text "d"); (["G"], "H", Absent)])%list;
   [([], "k", Text "replaced")];
   [(["G"], "a", Text "v1"); (["G"], "b", Text "v2")];
   [([], "k", Text "replaced")];
   [(["G"], "a", Text "v1"); (["G"], "b", Text "v2")];
   [([], "source", Absent)]].
Local Close Scope string_scope.

Definition as_check (x : list string * string * demand) : SlogTest.check :=
  fold_right (fun g c => InGroup (B g) c)
    (match snd x with Present => HasKey (B (snd (fst x))) | Text s => HasAttr (B (snd (fst x))) (B s) | Absent => MissingKey (B (snd (fst x))) end)
    (fst (fst x)).

Lemma meets_check path k d : forall m, satisfies (as_check (path, k, d)) m <-> meets m path k d.
Proof.
  unfold as_check. cbn [fst snd]. induction path as [|g path IH]; intros m; cbn [fold_right meets].
  - destruct d as [|s|].
    + split; intros X; [inversion X as [? v ? E| | |]; subst; rewrite E; discriminate|].
      destruct (get (B k) m) as [v|] eqn:E; [econstructor; exact E|now destruct X].
    + split; intros X; [now inversion X|now constructor].
    + split; intros X; [now inversion X|now constructor].
  - split.
    + intros X. inversion X as [| | |? ? x ? E Y]; subst. exists x. split; [exact E|now apply IH].
    + intros (x & E & Y). apply (sat_group _ _ x); [exact E|now apply IH].
Qed.

(** The results the cases accept, one by one. *)
Theorem C64_demands ms : Forall2 case_right slogtest_cases ms <-> Forall2 meets_all slogtest_demands ms.
Proof.
  assert (E : map c_checks slogtest_cases = map (map as_check) slogtest_demands) by reflexivity.
  revert ms E. generalize slogtest_cases slogtest_demands. intros cs. induction cs as [|c cs IH]; intros [|ds dss] ms E; try discriminate E.
  - split; intros X; inversion X; constructor.
  - injection E as E1 E2. specialize (IH dss).
    assert (Q : forall m, case_right c m <-> meets_all ds m).
    { intros m. unfold case_right, meets_all. rewrite E1. split.
      - intros X path k d I. apply meets_check, X. now apply (in_map as_check) in I.
      - intros X ck I. apply in_map_iff in I. destruct I as ([[path k] d] & <- & I). apply meets_check, X, I. }
    split; intros X; inversion X as [|? m ? ms' Y Z]; subst; constructor; try (apply Q; exact Y); apply (IH ms' E2); exact Z.
Qed.
Print Assumptions C64_demands.

(** The records they are asked about: at level Info; the fourth without a time, the last
    without a place in the source; the logger of a case is derived and called so that the
    members are the given ones. *)
Theorem C64_records std W n i c l : nth_error slogtest_cases i = Some c -> nth_error slogtest_members i = Some l ->
  let r := case_record W c n in
  Slog.r_level r = 0%Z /\
  (t_zero (Slog.r_time r) = true <-> i = 3 \/ t_zero (fst (z_now W n)) = true) /\
  (Slog.r_source r = None <-> i = 15) /\
  Slog.r_msg r = (if Nat.eqb i 0 || Nat.eqb i 1 || Nat.eqb i 15 then B "message" else B "msg") /\
  nest (flash_meanings std RFC3339Nano) (c_ops c) (Slog.r_attrs r) = Some (members l) /\
  nest (sloggy_meanings std) (c_ops c) (Slog.r_attrs r) = Some (members l).
Proof.
  intros E1 E2 r. unfold r, case_record. destruct (z_now W n) as [t src].
  do 16 (destruct i as [|i]; [injection E1 as <-; injection E2 as <-; cbn;
    (split; [reflexivity|]); (split; [intuition congruence|]); (split; [split; intros X; first [discriminate X|reflexivity]|]);
    (split; [reflexivity|]); split; reflexivity|]).
  destruct i; discriminate E1.
Qed.
Print Assumptions C64_records.

(** *** Concrete runs *)

Example C64_flash_ex n : enabled flash0 /\
  answers_cases (fun ops r ws ok => logs std0 plain_options None ops NoDead r (Done ws ok)) W0 flash0 slogtest_cases n.
Proof.
  split; [reflexivity|]. intros i c ws ok E L.
  assert (D : forallb (fun c => flash_done {| k_cancelled := false; k_options := plain_options; k_ops := c_ops c; k_record := case_record W0 c 0 |}) slogtest_cases = true) by (vm_compute; reflexivity).
  rewrite forallb_forall in D. specialize (D c (nth_error_In _ _ E)). change (case_record W0 c (n + i)) with (case_record W0 c 0) in *.
  unfold flash_done in D. cbn [k_options k_ops k_record] in D. unfold flash0, u_handle.
  destruct (derive std0 depth0 _ (c_ops c)) as [g|] eqn:G; [|discriminate]. destruct (handle_hdl std0 depth0 NoDead g _) as [out|] eqn:O; [|discriminate].
  rewrite (logs_fun std0 _ _ _ _ _ _ _ (logs_intro std0 _ _ _ _ _ _ _ _ G O) L). reflexivity.
Qed.

Example C64_sloggy_ex n : enabled sloggy0 /\
  answers_cases (fun ops r ws ok => slogs std0 plain_options ops NoDead r (Done ws ok)) W0 sloggy0 slogtest_cases n.
Proof.
  split; [reflexivity|]. intros i c ws ok E L.
  assert (D : forallb (fun c => sloggy_done {| k_cancelled := false; k_options := plain_options; k_ops := c_ops c; k_record := case_record W0 c 0 |}) slogtest_cases = true) by (vm_compute; reflexivity).
  rewrite forallb_forall in D. specialize (D c (nth_error_In _ _ E)). change (case_record W0 c (n + i)) with (case_record W0 c 0) in *.
  unfold sloggy_done in D. cbn [k_options k_ops k_record] in D. unfold sloggy0, u_handle.
  destruct (sderive std0 depth0 _ (c_ops c)) as [g|] eqn:G; [|discriminate]. destruct (shandle_hdl log_write std0 depth0 NoDead g _ []) as [out|] eqn:O; [|discriminate].
  assert (S : slogs std0 plain_options (c_ops c) NoDead (case_record W0 c 0) (match out with SDone ws ok => Done ws ok | SPanic => Panic end)).
  { eapply slogs_intro; [exact G|]. rewrite O. now destruct out. }
  pose proof (slogs_fun _ _ _ _ _ _ _ S L) as X. destruct out; [injection X as -> ->; reflexivity|discriminate].
Qed.

(** Both pass; a handler that drops the groups of the logger does not, and is warned of with
    the mark; one that writes no JSON fails even then. *)
Definition no_groups0 : subject :=
  {| u_enabled := u_enabled flash0;
     u_handle := fun b o ops r => u_handle flash0 b o (filter (fun x => match x with WithGroup _ => false | _ => true end) ops) r |}.
Definition no_json0 : subject :=
  {| u_enabled := u_enabled flash0; u_handle := fun b o ops r => (B "msg=" ++ Slog.r_msg r ++ [newline], true) |}.
Definition slogtest0 (H : subject) (m : manager) := run_test (B "TestSlogTest", test_slog_test W0 H true (fun _ => B "missing group") slogtest_cases) m 5.

Example C64_run_ex :
  (forall H, H = flash0 \/ H = sloggy0 -> slogtest0 H (manager0 []) = (true, manager0 [], 21)) /\
  slogtest0 no_groups0 (manager0 []) = (false, manager0 [], 21) /\
  slogtest0 no_groups0 (manager0 [slog_test]) = (true, add_warning slog_test (B "TestSlogTest") (B "missing group") [] (manager0 [slog_test]), 21) /\
  slogtest0 no_json0 (manager0 [slog_test]) = (false, manager0 [slog_test], 21).
Proof. split; [intros H [-> | ->]; vm_compute; reflexivity|vm_compute; repeat split]. Qed.
