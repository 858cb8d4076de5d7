(** C73: the loop of the benchmark suite. *)

From Coq Require Import Ascii String List NArith ZArith Bool Arith Lia Permutation Sorted QArith Qcanon.
From Verif Require Import Bytes BytesProofs Regex RegexProofs GoSort Json Slog SpecLog SpecFlash Samples Flash FlashProofs Replace Warnings BenchChecks SpecChecks
  ChecksSamples PropReplace PropFinder PropBigGroup PropVerify BenchSuite BenchRun PropSuite.
Import ListNotations.
Local Open Scope nat_scope.
Local Open Scope list_scope.

(** ** The name of the current function *)

(** What follows the last dot of a name. *)
Definition local_name (f p : bytes) : Prop := ~ In (chr 46) p /\ (f = p \/ exists q, f = q ++ chr 46 :: p).

(** The name of a function of the suite: it starts so. *)
Definition of_suite (prefix f : bytes) : Prop := exists p r, local_name f p /\ p = prefix ++ r.

Lemma after_prefix_spec p s r : after_prefix p s = Some r <-> s = p ++ r.
Proof.
  revert s. induction p as [|c p IH]; intros s; cbn [after_prefix app].
  - split; [now intros [= ->]|now intros ->].
  - destruct s as [|d s]; [split; discriminate|]. destruct (Ascii.eqb c d) eqn:E.
    + apply Ascii.eqb_eq in E. subst d. rewrite IH. split; [now intros ->|now intros [= ->]].
    + apply Ascii.eqb_neq in E. split; [discriminate|]. intros [= -> _]. now destruct E.
Qed.

Lemma starts_spec p s : starts_with p s = true <-> exists r, s = p ++ r.
Proof.
  unfold starts_with. destruct (after_prefix p s) as [r|] eqn:X.
  - apply after_prefix_spec in X. split; [eauto|reflexivity].
  - split; [discriminate|]. intros [r R]. apply after_prefix_spec in R. congruence.
Qed.

Lemma last_cons {A} (x : A) l d : l <> [] -> last (x :: l) d = last l d.
Proof. destruct l; [congruence|reflexivity]. Qed.

Lemma local_last f : local_name f (last_part f).
Proof.
  unfold last_part. remember (length f) as n eqn:N. revert f N. induction n as [n IH] using lt_wf_ind. intros f N.
  destruct (in_dec ascii_dec (chr 46) f) as [I|I].
  - assert (S0 : exists a b, f = a ++ chr 46 :: b /\ ~ In (chr 46) a).
    { clear -I. induction f as [|c f IH]; [destruct I|]. destruct (ascii_dec c (chr 46)) as [->|D].
      - exists [], f. split; [reflexivity|intros []].
      - destruct I as [->|I]; [now destruct D|]. destruct (IH I) as (a & b & -> & NA). exists (c :: a), b. split; [reflexivity|].
        intros [->|J]; [now destruct D|contradiction]. }
    destruct S0 as (a & b & -> & NA). rewrite split_app by now apply without_in. rewrite last_cons by apply split_on_not_nil.
    destruct (IH (length b)) with (f := b) as (D & [E|(q & E)]); [rewrite N, app_length; cbn; lia|reflexivity|..].
    + split; [exact D|]. right. exists a. now rewrite <- E.
    + split; [exact D|]. right. exists (a ++ chr 46 :: q). rewrite <- app_assoc. cbn [app]. now rewrite <- E.
  - rewrite split_plain by now apply without_in. cbn [last]. split; [exact I|now left].
Qed.

Lemma local_unique f p p' : local_name f p -> local_name f p' -> p = p'.
Proof.
  assert (H : forall q (p p' : bytes) q', ~ In (chr 46) p -> ~ In (chr 46) p' -> q ++ chr 46 :: p = q' ++ chr 46 :: p' -> p = p').
  { induction q as [|c q IH]; intros a a' q' NA NA' E; destruct q' as [|c' q']; cbn in E.
    - congruence.
    - injection E as _ E. subst a. destruct NA. apply in_or_app. right. now left.
    - injection E as _ E. subst a'. destruct NA'. apply in_or_app. right. now left.
    - injection E as _ E. eapply IH; eauto. }
  intros (N1 & [E1|(q1 & E1)]) (N2 & [E2|(q2 & E2)]).
  - congruence.
  - subst p. destruct N1. rewrite E2. apply in_or_app. right. now left.
  - subst p'. destruct N2. rewrite E1. apply in_or_app. right. now left.
  - apply (H q1 p p' q2 N1 N2). congruence.
Qed.

Lemma suite_part prefix f : starts_with prefix (last_part f) = true <-> of_suite prefix f.
Proof.
  rewrite starts_spec. split.
  - intros [r R]. exists (last_part f), r. split; [apply local_last|exact R].
  - intros (p & r & L & ->). exists r. now rewrite (local_unique _ _ _ (local_last f) L).
Qed.

(** The innermost of the ten nearest functions of that kind, else Unknown. *)
Theorem C73_name prefix stack name : prefix <> [] ->
  current_function_name prefix stack = name <->
    (exists inner f outer, stack = inner ++ f :: outer /\ length inner < 10 /\ (forall g, In g inner -> ~ of_suite prefix g) /\
       of_suite prefix f /\ local_name f name) \/
    ((forall g, In g (firstn 10 stack) -> ~ of_suite prefix g) /\ name = B "Unknown").
Proof.
  intros NP. unfold current_function_name.
  assert (F : forall l, match List.find (starts_with prefix) (map last_part l) with
     | Some n => exists inner f outer, l = inner ++ f :: outer /\ (forall g, In g inner -> ~ of_suite prefix g) /\ of_suite prefix f /\ n = last_part f
     | None => forall g, In g l -> ~ of_suite prefix g end).
  { induction l as [|f l IH]; cbn [map List.find]; [intros g []|]. destruct (starts_with prefix (last_part f)) eqn:S0.
    - exists [], f, l. split; [reflexivity|]. split; [intros g []|]. split; [now apply suite_part|reflexivity].
    - assert (NF : ~ of_suite prefix f) by (intros X; apply suite_part in X; congruence).
      destruct (List.find _ _) as [n|].
      + destruct IH as (inner & g & outer & -> & NI & OF & ->). exists (f :: inner), g, outer. split; [reflexivity|]. split; [|auto].
        intros x [<-|J]; auto.
      + intros x [<-|J]; auto. }
  assert (Z : ~ of_suite prefix []).
  { intros (p & r & (ND & [E|(q & E)]) & ->); [destruct prefix; [congruence|discriminate]|destruct q; discriminate]. }
  assert (FF : match List.find (starts_with prefix) (map last_part (match firstn 10 stack with [] => [[]] | l => l end)) with
     | Some n => exists inner f outer, firstn 10 stack = inner ++ f :: outer /\ (forall g, In g inner -> ~ of_suite prefix g) /\ of_suite prefix f /\ n = last_part f
     | None => forall g, In g (firstn 10 stack) -> ~ of_suite prefix g end).
  { destruct (firstn 10 stack) as [|f l] eqn:E; [|exact (F (f :: l))]. pose proof (F [[]]) as X. destruct (List.find _ _) as [n|].
    - destruct X as (inner & f & outer & EQ & _ & OF & _). destruct inner as [|x [|]]; try discriminate. injection EQ as <- _. now destruct Z.
    - intros g []. }
  clear F. destruct (List.find _ _) as [n|].
  - destruct FF as (inner & f & outer & EQ & NI & OF & ->).
    assert (LI : length inner < 10).
    { pose proof (firstn_le_length 10 stack) as L. rewrite EQ, app_length in L. cbn [length] in L. lia. }
    assert (ST : exists o, stack = inner ++ f :: o).
    { rewrite <- (firstn_skipn 10 stack), EQ. eexists. rewrite <- app_assoc. reflexivity. }
    destruct ST as (o & ST). split.
    + intros <-. left. exists inner, f, o. split; [exact ST|]. split; [exact LI|]. split; [exact NI|]. split; [exact OF|apply local_last].
    + intros [(i2 & f2 & o2 & E2 & L2 & N2 & O2 & LN)|(N2 & _)].
      * assert (f2 = f) as ->; [|symmetry; eapply local_unique; [exact LN|apply local_last]].
        rewrite ST in E2. clear -E2 NI OF N2 O2. revert i2 E2 N2. induction inner as [|x inner IH]; intros [|y i2] E2 N2; cbn in E2; injection E2; intros.
        -- now subst.
        -- subst y. destruct (N2 f (or_introl eq_refl) OF).
        -- subst x. destruct (NI f2 (or_introl eq_refl) O2).
        -- eapply IH; [intros g J; apply NI; now right|exact H|intros g J; apply N2; now right].
      * destruct (N2 f); [rewrite EQ; apply in_or_app; right; now left|exact OF].
  - split.
    + intros <-. now right.
    + intros [(i2 & f2 & o2 & E2 & L2 & N2 & O2 & LN)|(_ & ->)]; [exfalso|reflexivity]. apply (FF f2); [|exact O2].
      rewrite E2, firstn_app. apply in_or_app. right. destruct (10 - length i2) eqn:K; [lia|]. now left.
Qed.
Print Assumptions C73_name.

(** ** Which benchmarks are run *)

(** What a creator can have a benchmark write: through the handler it makes, derived as
    the benchmark asks for; where nothing is asked for, through its logger if it makes
    loggers itself. *)
Definition written (c : creator) (b : benchmark) (out : bytes) : Prop :=
  (b_ops b <> [] -> exists f, c_handler c = Some f /\ f b out) /\
  (b_ops b = [] -> (exists f, c_logger c = Some f /\ f b out) \/ (c_logger c = None /\ exists f, c_handler c = Some f /\ f b out)).

(** What happens to one of them. *)
Inductive happens (c : creator) (just : bool) (name : bytes) (b : benchmark) : list event -> Prop :=
| left_out : b_ops b <> [] -> c_handler c = None -> happens c just name b [Skipped name]
| taken out m lm m' err : b_ops b = [] \/ c_handler c <> None -> written c b out -> b_verify b out None m = (lm, m', err) ->
    happens c just name b (Wrote name out :: Verified name err :: if just then [] else [Timed name]).

Lemma no_ops_same b : b_ops b = [] -> no_ops b = b.
Proof. destruct b; cbn. now intros ->. Qed.

Lemma logger_written c b out : has_handler_fn b && negb (can_make_handler c) = false -> suite_logger c b out -> written c b out.
Proof.
  unfold suite_logger, new_logger, has_handler_fn, can_make_handler. intros H L. split; intros O.
  - destruct (b_ops b); [congruence|]. destruct (c_handler c) as [f|]; [eauto|discriminate].
  - rewrite (no_ops_same b O) in L. rewrite O in L. destruct (c_logger c) as [f|]; [left; eauto|right]. destruct (c_handler c) as [f|]; [eauto|destruct L].
Qed.

Lemma method_happens c just name b m evs m' : run_method c just name b m evs m' -> happens c just name b evs.
Proof.
  intros [H|out lm m1 err H L V].
  - unfold has_handler_fn, can_make_handler in H. apply left_out; [destruct (b_ops b); [discriminate|discriminate]|].
    destruct (c_handler c); [rewrite andb_false_r in H; discriminate|reflexivity].
  - cbn [app]. eapply taken; [|now apply logger_written|exact V]. unfold has_handler_fn, can_make_handler in H.
    destruct (b_ops b); [now left|right]. destruct (c_handler c); [discriminate|discriminate].
Qed.

(** One line is printed, with the creator's name and under what handler the results are
    filed; then every benchmark has its turn once, in the order of the names. *)
Theorem C73_each c just stack bs m evs m' : bench_run c just stack bs m evs m' ->
  exists (tag : bytes) (turns : list (bytes * benchmark * list event)),
    evs = Printed (B "# Handler[" ++ tag ++ B "]=""" ++ c_name c ++ [chr 34; chr 10]) :: concat (map snd turns) /\
    (forall f, current_function_name (B "Benchmark") stack = B "Benchmark" ++ f -> tag = f) /\
    Permutation (map fst turns) (map (fun nb => (B "Benchmark" ++ fst nb, snd nb)) bs) /\
    StronglySorted (fun a b => blt (fst b) (fst a) = false) (map fst turns) /\
    Forall (fun t => happens c just (fst (fst t)) (snd (fst t)) (snd t)) turns.
Proof.
  intros [evs0 m0 R]. exists (trim_prefix benchmark_prefix (current_function_name benchmark_prefix stack)).
  assert (X : forall ms m evs m', run_methods c just ms m evs m' -> exists turns : list (bytes * benchmark * list event), evs = concat (map snd turns) /\ map fst turns = ms /\
    Forall (fun t => happens c just (fst (fst t)) (snd (fst t)) (snd t)) turns).
  { clear. intros ms m evs m' R. induction R as [m|name b ms m evs m1 evs' m2 H R (turns & -> & <- & F)].
    - exists []. repeat split. constructor.
    - exists ((name, b, evs) :: turns). split; [reflexivity|]. split; [reflexivity|]. constructor; [|exact F]. cbn. eapply method_happens; eauto. }
  destruct (X _ _ _ _ R) as (turns & -> & E & F). exists turns. split; [reflexivity|]. split.
  - intros f Q. change (B "Benchmark") with benchmark_prefix in Q. rewrite Q. unfold trim_prefix.
    now rewrite (proj2 (after_prefix_spec benchmark_prefix (benchmark_prefix ++ f) f) eq_refl).
  - rewrite E. unfold methods. split; [symmetry; apply sort_by_perm|]. split; [|exact F].
    apply (sort_by_ok (fun a b : bytes * benchmark => blt (fst a) (fst b))).
    split; [intros a b; apply blt_asym|intros a b d; apply blt_neg].
Qed.
Print Assumptions C73_each.

(** The line is filed under the name under which the checks file their warnings, whatever
    benchmark they are at: that of the Go benchmark function that called Run, as long as
    it is among the ten nearest. *)
Theorem C73_filed inner run top outer tag : (forall g, In g (inner ++ [run]) -> ~ of_suite (B "Benchmark") g) ->
  local_name top (B "Benchmark" ++ tag) ->
  (forall name, handler_line (run :: top :: outer) name = B "# Handler[" ++ tag ++ B "]=""" ++ name ++ [chr 34; chr 10]) /\
  (length inner <= 8 -> current_function_name (B "Benchmark") (inner ++ run :: top :: outer) = B "Benchmark" ++ tag) /\
  (9 <= length inner -> current_function_name (B "Benchmark") (inner ++ run :: top :: outer) = B "Unknown").
Proof.
  intros NI L. assert (OF : of_suite (B "Benchmark") top) by (exists (B "Benchmark" ++ tag), tag; auto).
  assert (N0 : B "Benchmark" <> []) by discriminate.
  split; [|split].
  - intros name. unfold handler_line. assert (E : current_function_name benchmark_prefix (run :: top :: outer) = B "Benchmark" ++ tag).
    { apply (C73_name _ _ _ N0). left. exists [run], top, outer. split; [reflexivity|]. split; [cbn; lia|].
      split; [intros g [<-|[]]; apply NI; apply in_or_app; right; now left|auto]. }
    rewrite E. unfold trim_prefix. change (B "Benchmark") with benchmark_prefix.
    now rewrite (proj2 (after_prefix_spec benchmark_prefix (benchmark_prefix ++ tag) tag) eq_refl).
  - intros LI. apply (C73_name _ _ _ N0). left. exists (inner ++ [run]), top, outer. split; [now rewrite <- app_assoc|].
    split; [rewrite app_length; cbn; lia|]. auto.
  - intros LI. apply (C73_name _ _ _ N0). right. split; [|reflexivity]. intros g I. apply NI.
    replace (inner ++ run :: top :: outer) with ((inner ++ [run]) ++ top :: outer) in I by now rewrite <- app_assoc.
    rewrite firstn_app in I. replace (10 - length (inner ++ [run])) with 0 in I by (rewrite app_length; cbn [length]; lia).
    cbn [firstn] in I. rewrite app_nil_r in I. rewrite <- (firstn_skipn 10 (inner ++ [run])). apply in_or_app. now left.
Qed.
Print Assumptions C73_filed.

(** ** The suite's own manager *)

Lemma get_predefined k ws : forall p : gomap warning, get k p <> None -> get k (fold_left (fun p w => put (w_name w) w p) ws p) <> None.
Proof.
  induction ws as [|w ws IH]; intros p H; cbn [fold_left]; [exact H|]. apply IH. rewrite get_put. now destruct (beq (w_name w) k).
Qed.

Lemma predefined_by k ws : forall p : gomap warning, get k (fold_left (fun p w => put (w_name w) w p) ws p) <> None ->
  get k p <> None \/ exists w, In w ws /\ w_name w = k.
Proof.
  induction ws as [|w ws IH]; intros p H; cbn [fold_left] in H; [now left|]. destruct (IH _ H) as [G|(w' & I & E)].
  - rewrite get_put in G. destruct (beq (w_name w) k) eqn:E; [right; exists w; split; [now left|now apply beq_eq]|now left].
  - right. exists w'. split; [now right|exact E].
Qed.
Lemma predefines k ws w : In w ws -> w_name w = k -> forall p : gomap warning, get k (fold_left (fun p w => put (w_name w) w p) ws p) <> None.
Proof.
  intros I E. induction ws as [|x ws IH]; [destruct I|]. intros p. cbn [fold_left]. destruct I as [->|I]; [|now apply IH].
  apply get_predefined. rewrite get_put, E, beq_refl. discriminate.
Qed.

(** Nothing is recorded yet, of the marks none that a check heeds is set, and the
    warnings that may be marked are those of all levels. *)
Definition administrative_names : list bytes :=
  [B "SkipDedup"; B "NoHandlerCreation"; B "SkippingTest"; B "TestError"; B "Undefined"; B "Unused"].
Theorem C73_manager name more fn : let m := suite_manager name more fn in
  m_warnings m = [] /\ m_only m = [B "NoHandlerCreation"] /\ unheeded m /\
  forall k, get k (m_predefined m) <> None <-> In k administrative_names \/ exists w, In w more /\ w_name w = k.
Proof.
  cbv zeta.
  assert (K : forall k, get k (m_predefined (suite_manager name more fn)) <> None <-> In k administrative_names \/ exists w, In w more /\ w_name w = k).
  { intros k. assert (E : m_predefined (suite_manager name more fn) = m_predefined (predefine more (new_manager administrative name (B "# ")))).
    { unfold suite_manager, warn_only. now destruct (get _ _). }
    rewrite E. clear E. unfold predefine. cbn [m_predefined].
    assert (A : get k (m_predefined (new_manager administrative name (B "# "))) <> None <-> In k administrative_names).
    { split.
      - intros G. destruct (get k _) as [w|] eqn:X; [|now destruct G].
        assert (Y : In k (GoSort.keys (m_predefined (new_manager administrative name (B "# "))))) by (apply get_keys; now exists w).
        vm_compute in Y |- *. tauto.
      - intros I. assert (Y : In k (GoSort.keys (m_predefined (new_manager administrative name (B "# "))))) by (vm_compute in I |- *; tauto).
        apply get_keys in Y. destruct Y as (w & ->). discriminate. }
    split.
    - intros G. apply predefined_by in G. destruct G as [G|G]; [left; now apply A|now right].
    - intros [I|(w & I & E)]; [apply get_predefined; now apply A|now apply (predefines k more w I E)]. }
  enough (X : m_warnings (suite_manager name more fn) = [] /\ m_only (suite_manager name more fn) = [B "NoHandlerCreation"] /\ unheeded (suite_manager name more fn)) by (destruct X as (? & ? & ?); auto).
  clear K. assert (P : get (B "NoHandlerCreation") (m_predefined (predefine more (new_manager administrative name (B "# ")))) <> None).
  { unfold predefine. cbn [m_predefined]. apply get_predefined. vm_compute. discriminate. }
  unfold suite_manager, warn_only. cbn [w_name no_handler_creation].
  destruct (get (B "NoHandlerCreation") (m_predefined (predefine more (new_manager administrative name (B "# "))))) as [w|]; [|now destruct P].
  cbn [m_only m_warnings]. split; [reflexivity|]. split; [reflexivity|].
  intros n [<-|[<-|[<-|[]]]] [X|[]]; discriminate.
Qed.
Print Assumptions C73_manager.

(** ** What is recorded *)

(** What flash can write for the calls of a benchmark, at any time and place (C58). *)
Definition flash_output (std : stdlib) : maker := fun b out =>
  exists ss, Forall stamp_ok ss /\ length ss = length (b_calls b) /\ captures std b (b_calls b) ss out.

(** The instances of a warning that a manager has. *)
Definition instances_of (k : bytes) (m : manager) : list instance := match get k (m_warnings m) with Some r => r_data r | None => [] end.

(** The benchmarks that have a turn, and those that are left out. *)
Definition turns_of (evs : list event) : list bytes := flat_map (fun e => match e with Wrote n _ | Skipped n => [n] | _ => [] end) evs.
Definition left_out_of (evs : list event) : list bytes := flat_map (fun e => match e with Skipped n => [n] | _ => [] end) evs.
Definition timed_of (evs : list event) : list bytes := flat_map (fun e => match e with Timed n => [n] | _ => [] end) evs.

Definition skip_all (names : list bytes) (m : manager) : manager := fold_left (fun m n => add_warning no_handler_creation n [] [] m) names m.
Definition needing (ms : list (bytes * benchmark)) : list bytes := map fst (filter (fun nb => has_handler_fn (snd nb)) ms).

Definition silent_for (c : creator) (b : benchmark) : Prop := forall out m, unheeded m -> written c b out -> b_verify b out None m = (None, m, None).

Lemma run_silent c just ms : Forall (fun nb => silent_for c (snd nb)) ms -> forall m evs m', unheeded m -> run_methods c just ms m evs m' ->
  m' = skip_all (match c_handler c with Some _ => [] | None => needing ms end) m /\
  turns_of evs = map fst ms /\ left_out_of evs = (match c_handler c with Some _ => [] | None => needing ms end) /\
  timed_of evs = (if just then [] else map fst (filter (fun nb => negb (has_handler_fn (snd nb)) || can_make_handler c) ms)) /\
  (forall n err, In (Verified n err) evs -> err = None).
Proof.
  intros F m evs m' U R. induction R as [m|name b ms m e1 m1 e2 m2 H R IH].
  - split; [now destruct (c_handler c)|]. split; [reflexivity|]. split; [now destruct (c_handler c)|]. split; [now destruct just|intros n err []].
  - inversion F as [|x y SB F']; subst. cbn [snd] in SB. unfold turns_of, left_out_of, timed_of in *. rewrite !flat_map_app.
    destruct H as [G|out lm m1 err G L V].
    + assert (U1 : unheeded (add_warning no_handler_creation name [] [] m)) by exact U.
      destruct (IH F' U1) as (-> & -> & -> & -> & VN). unfold has_handler_fn, can_make_handler in G.
      unfold needing, has_handler_fn, can_make_handler. cbn [filter map fst snd flat_map app].
      destruct (c_handler c) as [f|]; [rewrite andb_false_r in G; discriminate|]. destruct (b_ops b); [discriminate|]. cbn [negb orb map fst].
      split; [reflexivity|]. split; [reflexivity|]. split; [reflexivity|]. split; [reflexivity|]. intros n err [X|I]; [discriminate|exact (VN n err I)].
    + rewrite (SB out m U (logger_written _ _ _ G L)) in V. injection V as <- <- <-.
      destruct (IH F' U) as (-> & -> & -> & -> & VN). unfold has_handler_fn, can_make_handler in G.
      unfold needing, has_handler_fn, can_make_handler. cbn [filter map fst snd app].
      split; [|split; [|split; [|split]]].
      * destruct (c_handler c); [reflexivity|]. destruct (b_ops b); [reflexivity|discriminate].
      * cbn [flat_map app]. now destruct just.
      * destruct (c_handler c); [now destruct just|]. destruct (b_ops b); [now destruct just|discriminate].
      * destruct just; [reflexivity|]. cbn [flat_map app]. destruct (c_handler c); [rewrite orb_true_r|destruct (b_ops b); [|discriminate]]; reflexivity.
      * intros n err [X|[X|I]]; [discriminate|congruence|]. apply in_app_or in I. destruct I as [I|I]; [|exact (VN n err I)].
        destruct just; [destruct I|destruct I as [X|[]]; discriminate].
Qed.

Definition twelve : list bytes :=
  [B "BenchmarkAttributes"; B "BenchmarkBigGroup"; B "BenchmarkDisabled"; B "BenchmarkKeyValues"; B "BenchmarkLogging"; B "BenchmarkSimple";
   B "BenchmarkSimpleSource"; B "BenchmarkWithAttrsAttributes"; B "BenchmarkWithAttrsKeyValues"; B "BenchmarkWithAttrsSimple";
   B "BenchmarkWithGroupAttributes"; B "BenchmarkWithGroupKeyValues"].
Definition five : list bytes :=
  [B "BenchmarkWithAttrsAttributes"; B "BenchmarkWithAttrsKeyValues"; B "BenchmarkWithAttrsSimple";
   B "BenchmarkWithGroupAttributes"; B "BenchmarkWithGroupKeyValues"].
Definition seven : list bytes :=
  [B "BenchmarkAttributes"; B "BenchmarkBigGroup"; B "BenchmarkDisabled"; B "BenchmarkKeyValues"; B "BenchmarkLogging"; B "BenchmarkSimple";
   B "BenchmarkSimpleSource"].

Lemma methods_are E pi_text pi start big_group : let ms := methods (benchmarks E pi_text pi start big_group) in
  map (fun nb => (fst nb, has_handler_fn (snd nb))) ms = map (fun n => (n, false)) seven ++ map (fun n => (n, true)) five.
Proof. cbv zeta. lazy. reflexivity. Qed.

Lemma picked_names (p : bool -> bool) (ms : list (bytes * benchmark)) :
  map fst (filter (fun nb => p (has_handler_fn (snd nb))) ms) =
  map fst (filter (fun x : bytes * bool => p (snd x)) (map (fun nb => (fst nb, has_handler_fn (snd nb))) ms)).
Proof. induction ms as [|[n b] ms IH]; [reflexivity|]. cbn [filter map fst snd]. destruct (p (has_handler_fn b)); cbn [map fst]; now rewrite IH. Qed.

Lemma all_names (ms : list (bytes * benchmark)) : map fst ms = map fst (map (fun nb => (fst nb, has_handler_fn (snd nb))) ms).
Proof. induction ms as [|[n b] ms IH]; [reflexivity|]. cbn [map fst]. now rewrite IH. Qed.

Lemma skip_other names : forall m k, k <> B "NoHandlerCreation" -> get k (m_warnings (skip_all names m)) = get k (m_warnings m).
Proof.
  induction names as [|n names IH]; intros m k K; [reflexivity|]. unfold skip_all in *. cbn [fold_left]. rewrite IH by exact K.
  unfold add_warning, with_warnings. cbn [m_warnings w_name no_handler_creation]. rewrite get_put.
  destruct (beq (B "NoHandlerCreation") k) eqn:Q; [apply beq_eq in Q; congruence|reflexivity].
Qed.

Lemma skip_noted names : forall m, instances_of (B "NoHandlerCreation") (skip_all names m) =
  instances_of (B "NoHandlerCreation") m ++ map (fun n => {| i_function := n; i_record := []; i_text := [] |}) names.
Proof.
  induction names as [|n names IH]; intros m; cbn [map]; [now rewrite app_nil_r|]. unfold skip_all in *. cbn [fold_left]. rewrite IH.
  unfold instances_of at 1, add_warning, with_warnings. cbn [m_warnings w_name no_handler_creation]. rewrite get_put, beq_refl. cbn [r_data].
  unfold instances_of. destruct (get (B "NoHandlerCreation") (m_warnings m)) as [r|]; cbn [r_data]; [now rewrite <- app_assoc|reflexivity].
Qed.

Lemma skip_keys names : forall m, names <> [] -> map fst (m_warnings m) = [] \/ map fst (m_warnings m) = [B "NoHandlerCreation"] ->
  map fst (m_warnings (skip_all names m)) = [B "NoHandlerCreation"].
Proof.
  assert (K : forall (r : instances) (w : gomap instances), map fst w = [] \/ map fst w = [B "NoHandlerCreation"] -> map fst (put (B "NoHandlerCreation") r w) = [B "NoHandlerCreation"]).
  { intros r w [H|H]; destruct w as [|[k x] [|]]; try discriminate; [reflexivity|]. injection H as ->. reflexivity. }
  assert (X : forall names m, map fst (m_warnings m) = [B "NoHandlerCreation"] -> map fst (m_warnings (skip_all names m)) = [B "NoHandlerCreation"]).
  { clear names. unfold skip_all. induction names as [|n names IH]; intros m H; [exact H|]. cbn [fold_left]. apply IH.
    unfold add_warning, with_warnings. cbn [m_warnings w_name no_handler_creation]. apply K. now right. }
  intros m NN H. destruct names as [|n names]; [congruence|]. apply (X names (add_warning no_handler_creation n [] [] m)).
  unfold add_warning, with_warnings. cbn [m_warnings w_name no_handler_creation]. now apply K.
Qed.

Lemma skip_only names : forall m, m_only (skip_all names m) = m_only m.
Proof. induction names as [|n names IH]; intros m; [reflexivity|]. unfold skip_all in *. cbn [fold_left]. now rewrite IH. Qed.

Section Flash.
Variables (std : stdlib) (num : bytes -> option Qc) (E : env) (pi_text : bytes) (pi : Qc) (start : gotime) (big_group : attr).
Hypothesis STD : stdlib_ok std.
Hypothesis NUM : num_ok num.
Hypothesis UN : unmarshal_ok num E.
Hypothesis CS : casing_ok (e_casing E).
Hypothesis PI : num pi_text = Some pi.
Hypothesis PT : is_num pi_text = true.
Hypothesis ST : SpecLog.plain (t_format start layout) = true.
Hypothesis BG : built 5 0 (B "group") big_group.
Let bs := benchmarks E pi_text pi start big_group.

(** The creator's handlers and loggers write what flash does. *)
Definition like_flash (c : creator) : Prop := forall f b out, c_handler c = Some f \/ c_logger c = Some f -> f b out -> flash_output std b out.

Lemma flash_silent c b n : like_flash c -> In (n, b) bs -> silent_for c b.
Proof.
  intros LF I out m U W.
  assert (FO : flash_output std b out).
  { destruct W as (W1 & W2). destruct (b_ops b) as [|o ops] eqn:O.
    - destruct (W2 eq_refl) as [(f & C & H)|(_ & f & C & H)]; eapply LF; eauto.
    - destruct W1 as (f & C & H); [discriminate|]. eapply LF; eauto. }
  destruct FO as (ss & SO & LE & CA).
  destruct (C58_flash std num E pi_text pi start big_group STD NUM UN CS PI PT ST BG n b ss m I SO LE U) as (o & ON & V).
  apply ON in CA. now subst o.
Qed.

Lemma methods_in x : In x (methods bs) -> exists n, In (n, snd x) bs.
Proof.
  intros I. assert (J : In x (map (fun nb => (benchmark_prefix ++ fst nb, snd nb)) bs)).
  { eapply Permutation_in; [symmetry; apply sort_by_perm|exact I]. }
  apply in_map_iff in J. destruct J as ([n b] & <- & J). exists n. exact J.
Qed.

Lemma all_silent c : like_flash c -> Forall (fun nb => silent_for c (snd nb)) (methods bs).
Proof. intros LF. apply Forall_forall. intros x I. destruct (methods_in x I) as (n & J). eapply flash_silent; eauto. Qed.

(** Every run of such a creator: no verification fails and nothing is recorded but one
    NoHandlerCreation for each of the five benchmarks that need a handler, if the creator
    makes none. *)
Lemma flash_runs c just stack m evs m' : like_flash c -> unheeded m -> bench_run c just stack bs m evs m' ->
  turns_of evs = twelve /\
  left_out_of evs = (match c_handler c with Some _ => [] | None => five end) /\
  timed_of evs = (if just then [] else match c_handler c with Some _ => twelve | None => seven end) /\
  (forall n err, In (Verified n err) evs -> err = None) /\
  m_only m' = m_only m /\ (forall k, k <> B "NoHandlerCreation" -> get k (m_warnings m') = get k (m_warnings m)) /\
  instances_of (B "NoHandlerCreation") m' = instances_of (B "NoHandlerCreation") m ++
    map (fun n => {| i_function := n; i_record := []; i_text := [] |}) (match c_handler c with Some _ => [] | None => five end) /\
  (c_handler c <> None -> m' = m).
Proof.
  intros LF U R. inversion R as [evs0 m0 R']; subst. destruct (run_silent c just _ (all_silent c LF) _ _ _ U R') as (-> & T & LO & TM & VN).
  pose proof (methods_are E pi_text pi start big_group) as M. cbv zeta in M. fold bs in M.
  assert (N5 : needing (methods bs) = five).
  { unfold needing. rewrite (picked_names (fun x => x)), M. reflexivity. }
  rewrite N5 in *. split; [|split; [|split; [|split; [|split; [|split; [|split]]]]]].
  - change (turns_of evs0 = twelve). rewrite T, all_names, M. reflexivity.
  - exact LO.
  - change (timed_of evs0 = (if just then [] else match c_handler c with Some _ => twelve | None => seven end)). rewrite TM.
    destruct just; [reflexivity|]. unfold can_make_handler. rewrite (picked_names (fun x => negb x || match c_handler c with Some _ => true | None => false end)), M.
    destruct (c_handler c); reflexivity.
  - intros n err [X|I]; [discriminate|eauto].
  - apply skip_only.
  - intros k K. now apply skip_other.
  - apply skip_noted.
  - destruct (c_handler c); [reflexivity|congruence].
Qed.

(** And flash's own creators have runs, at every time and place. *)
Lemma flash_has_run c just stack s m : (forall f, c_handler c = Some f \/ c_logger c = Some f -> f = flash_output std) ->
  (c_handler c <> None \/ c_logger c <> None) -> stamp_ok s -> unheeded m -> exists evs m', bench_run c just stack bs m evs m'.
Proof.
  intros FO SOME SO U.
  assert (X : forall ms m, unheeded m -> (forall x, In x ms -> exists n, In (n, snd x) bs) -> exists evs m', run_methods c just ms m evs m').
  { clear m U. induction ms as [|[n b] ms IH]; intros m U H; [exists [], m; constructor|].
    assert (TL : forall x, In x ms -> exists n, In (n, snd x) bs) by (intros x I; apply H; now right).
    destruct (H (n, b) (or_introl eq_refl)) as (n0 & I). cbn [snd] in I.
    destruct (has_handler_fn b && negb (can_make_handler c)) eqn:SK.
    - destruct (IH (add_warning no_handler_creation n [] [] m) U TL) as (evs & m' & R). eexists _, _. eapply run_next; [now apply run_skip|exact R].
    - assert (SS : Forall stamp_ok (repeat s (length (b_calls b)))) by (apply Forall_forall; intros y Y; apply repeat_spec in Y; now subst).
      destruct (C58_flash std num E pi_text pi start big_group STD NUM UN CS PI PT ST BG n0 b _ m I SS (repeat_length _ _) U) as (o & ON & V).
      destruct (IH m U TL) as (evs & m' & R). eexists _, _. eapply run_next; [|exact R]. eapply (run_it c just n b m o); [exact SK| |exact V].
      assert (FB : flash_output std b o) by (exists (repeat s (length (b_calls b))); split; [exact SS|]; split; [apply repeat_length|now apply ON]).
      unfold suite_logger, new_logger. unfold can_make_handler in SK. destruct (has_handler_fn b) eqn:HB.
      + destruct (c_handler c) as [f|]; [|discriminate]. now rewrite (FO f (or_introl eq_refl)).
      + rewrite no_ops_same by (unfold has_handler_fn in HB; now destruct (b_ops b)).
        destruct (c_logger c) as [f|]; [now rewrite (FO f (or_intror eq_refl))|]. destruct (c_handler c) as [f|]; [now rewrite (FO f (or_introl eq_refl))|].
        destruct SOME; congruence. }
  destruct (X (methods bs) m U methods_in) as (evs & m' & R). eexists _, m'. constructor. exact R.
Qed.
End Flash.

Theorem C73_recorded std num E pi_text pi start big_group :
  stdlib_ok std -> num_ok num -> unmarshal_ok num E -> casing_ok (e_casing E) ->
  num pi_text = Some pi -> is_num pi_text = true -> SpecLog.plain (t_format start layout) = true -> built 5 0 (B "group") big_group ->
  forall c just stack m evs m', like_flash std c -> unheeded m -> bench_run c just stack (benchmarks E pi_text pi start big_group) m evs m' ->
  turns_of evs = twelve /\
  left_out_of evs = (match c_handler c with Some _ => [] | None => five end) /\
  timed_of evs = (if just then [] else match c_handler c with Some _ => twelve | None => seven end) /\
  (forall n err, In (Verified n err) evs -> err = None) /\
  m_only m' = m_only m /\ (forall k, k <> B "NoHandlerCreation" -> get k (m_warnings m') = get k (m_warnings m)) /\
  instances_of (B "NoHandlerCreation") m' = instances_of (B "NoHandlerCreation") m ++
    map (fun n => {| i_function := n; i_record := []; i_text := [] |}) (match c_handler c with Some _ => [] | None => five end) /\
  (c_handler c <> None -> m' = m).
Proof. intros STD NUM UN CS PI PT ST BG c just stack m evs m'. eapply flash_runs; eauto. Qed.
Print Assumptions C73_recorded.

(** A creator whose functions, either or both, are flash's, and the suite's own manager:
    there is a run, and every run ends with these warnings. *)
Theorem C73_flash std num E pi_text pi start big_group :
  stdlib_ok std -> num_ok num -> unmarshal_ok num E -> casing_ok (e_casing E) ->
  num pi_text = Some pi -> is_num pi_text = true -> SpecLog.plain (t_format start layout) = true -> built 5 0 (B "group") big_group ->
  forall name handler logger c more fn just stack s,
  (forall f, handler = Some f \/ logger = Some f -> f = flash_output std) -> new_creator name handler logger = Some c -> stamp_ok s ->
  let m := suite_manager name more fn in
  c_name c = name /\ like_flash std c /\
  (exists evs m', bench_run c just stack (benchmarks E pi_text pi start big_group) m evs m') /\
  (forall evs m', bench_run c just stack (benchmarks E pi_text pi start big_group) m evs m' ->
     (handler <> None -> m_warnings m' = []) /\
     (handler = None -> map fst (m_warnings m') = [B "NoHandlerCreation"] /\ map i_function (instances_of (B "NoHandlerCreation") m') = five)).
Proof.
  intros STD NUM UN CS PI PT ST BG name handler logger c more fn just stack s FO C SO m. destruct (C73_manager name more fn) as (W0 & _ & U & _). fold m in W0, U.
  assert (CC : c = {| c_name := name; c_handler := handler; c_logger := logger |} /\ (handler <> None \/ logger <> None)).
  { unfold new_creator in C. destruct name; [discriminate|]. destruct handler, logger; try discriminate; injection C as <-; (split; [reflexivity|]);
      first [left; discriminate|right; discriminate]. }
  destruct CC as (-> & SOME).
  assert (LF : like_flash std {| c_name := name; c_handler := handler; c_logger := logger |}).
  { intros f b out H X. cbn [c_handler c_logger] in H. now rewrite <- (FO f H). }
  split; [reflexivity|]. split; [exact LF|]. split; [eapply flash_has_run; eauto|]. intros evs m' R.
  inversion R as [evs0 m0 R']; subst.
  pose proof (flash_runs std num E pi_text pi start big_group STD NUM UN CS PI PT ST BG _ _ _ _ _ _ LF U R) as (_ & _ & _ & _ & _ & _ & _ & EQ).
  cbn [c_handler] in EQ. split.
  - intros H. now rewrite (EQ H).
  - intros ->. destruct (run_silent _ just _ (all_silent std num E pi_text pi start big_group STD NUM UN CS PI PT ST BG _ LF) _ _ _ U R') as (-> & _).
    cbn [c_handler]. pose proof (methods_are E pi_text pi start big_group) as M. cbv zeta in M.
    assert (N5 : needing (methods (benchmarks E pi_text pi start big_group)) = five) by (unfold needing; rewrite (picked_names (fun x => x)), M; reflexivity).
    rewrite N5. split.
    + apply (skip_keys five m); [discriminate|left; now rewrite W0].
    + rewrite skip_noted, map_app, map_map. unfold instances_of. rewrite W0. reflexivity.
Qed.
Print Assumptions C73_flash.

(** ** The count of lines

    The calls of a benchmark that are enabled; each is one line (C52). *)
Definition enabled_calls (b : benchmark) : nat := length (filter (fun c => Z.leb 0 (fst (fst c))) (b_calls b)).

(** Counting is left out for exactly those that do not log one line; so with one line for
    each enabled call no run is fatal, and where lines are counted a single one too many
    or too few is. *)
Theorem C73_count E pi_text pi start big_group name b n written0 : In (name, b) (benchmarks E pi_text pi start big_group) ->
  (enabled_calls b = 1 <-> name <> B "Disabled" /\ name <> B "Logging") /\
  fatal name n (n * N.of_nat (enabled_calls b)) = false /\
  (enabled_calls b = 1 -> fatal name n written0 = true <-> written0 <> n).
Proof.
  intros I.
  assert (K : (name = B "Disabled" /\ enabled_calls b = 0) \/ (name = B "Logging" /\ enabled_calls b = length log_data) \/
              (existsb (beq name) dont_count = false /\ enabled_calls b = 1)).
  { unfold benchmarks in I. revert I. generalize log_data. intros ld I. cbn [In] in I.
    repeat match goal with H : _ \/ _ |- _ => destruct H as [H|H] end; try contradiction; injection I as <- <-;
      first [left; split; reflexivity|right; right; split; reflexivity|right; left; split; [reflexivity|]].
    unfold enabled_calls. cbn [b_calls]. clear. induction ld as [|a ld IH]; [reflexivity|].
    cbn [map filter fst]. change (0 <=? level_info)%Z with true. cbn [length]. now rewrite IH. }
  clear I. assert (LL : length log_data = 51) by (vm_compute; reflexivity).
  assert (D : enabled_calls b = 1 <-> name <> B "Disabled" /\ name <> B "Logging").
  { destruct K as [(-> & ->)|[(-> & ->)|(NE & ->)]].
    - split; [discriminate|intros [X _]; congruence].
    - rewrite LL. split; [discriminate|intros [_ X]; congruence].
    - split; [intros _|reflexivity]. split; intros ->; discriminate NE. }
  split; [exact D|]. unfold fatal. split.
  - destruct K as [(-> & _)|[(-> & _)|(NE & ->)]]; [reflexivity|reflexivity|]. rewrite N.mul_1_r, N.eqb_refl. apply andb_false_r.
  - intros O. destruct K as [(-> & K)|[(-> & K)|(NE & K)]]; [congruence|rewrite LL in K; congruence|]. rewrite NE. cbn [negb andb].
    rewrite negb_true_iff, N.eqb_neq. split; congruence.
Qed.
Print Assumptions C73_count.

(** ** Concrete cases *)

Example C73_name_ex :
  let stack := [B "github.com/madkins23/go-slog/infra/warning.(*Manager).AddWarning"; B "github.com/madkins23/go-slog/bench/tests.(*SlogBenchmarkSuite).BenchmarkDisabled.func2";
                B "github.com/madkins23/go-slog/bench/tests.Run"; B "github.com/madkins23/go-slog/bench.BenchmarkSlogJSON"; B "testing.(*B).runN"] in
  current_function_name (B "Benchmark") stack = B "BenchmarkSlogJSON" /\
  current_function_name (B "Test") stack = B "Unknown" /\
  handler_line (skipn 2 stack) (B "slog/JSONHandler") = B "# Handler[SlogJSON]=""slog/JSONHandler""" ++ [newline].
Proof. split; [|split]; vm_compute; reflexivity. Qed.

Example C73_filed_ex : (forall g, In g ([B "warning.(*Manager).AddWarning"; B "tests.verify.func1"] ++ [B "tests.Run"]) -> ~ of_suite (B "Benchmark") g) /\
  local_name (B "bench.BenchmarkSlogJSON") (B "Benchmark" ++ B "SlogJSON").
Proof.
  split.
  - intros g I X. apply suite_part in X. destruct I as [<-|[<-|[<-|[]]]]; vm_compute in X; discriminate.
  - exact (local_last (B "bench.BenchmarkSlogJSON")).
Qed.

(** Creators with a handler, with a logger only, and with neither or no name. *)
Example C73_recorded_ex :
  let fits (c : creator) := like_flash std0 c /\
     (exists evs m', bench_run c false [B "tests.Run"; B "bench.BenchmarkSlogMadkinsFlash"] suite0 (suite_manager (c_name c) [mismatch] (B "Unknown")) evs m') in
  (exists c, new_creator (B "madkins/flash") (Some (flash_output std0)) None = Some c /\ fits c /\ c_handler c <> None) /\
  (exists c, new_creator (B "logger") None (Some (flash_output std0)) = Some c /\ fits c /\ c_handler c = None) /\
  new_creator (B "nothing") None None = None /\ new_creator [] (Some (flash_output std0)) None = None.
Proof.
  destruct C58_hypotheses_ex as (H1 & H2 & H3 & H4 & H5 & H6 & H7 & H8 & H9 & _). cbv zeta.
  pose proof (C73_flash std0 num0 (env0 true) pi_text0 pi0 time0 group1 H1 H2 H3 H4 H5 H6 H7 H8) as R.
  split; [|split; [|split; reflexivity]].
  - eexists. split; [reflexivity|]. split; [|discriminate].
    edestruct (R (B "madkins/flash") (Some (flash_output std0)) None) as (_ & LF & X & _); [|reflexivity|exact H9|split; [exact LF|exact X]].
    intros f [[= <-]|X]; [reflexivity|discriminate].
  - eexists. split; [reflexivity|]. split; [|reflexivity].
    edestruct (R (B "logger") None (Some (flash_output std0))) as (_ & LF & X & _); [|reflexivity|exact H9|split; [exact LF|exact X]].
    intros f [X|[= <-]]; [discriminate|reflexivity].
Qed.

Example C73_count_ex : map (fun nb => enabled_calls (snd nb)) suite0 = [0; 1; 1; 1; 1; 1; 1; 1; 1; 1; 1; 51] /\
  fatal (B "Simple") 10 11 = true /\ fatal (B "Logging") 10 510 = false.
Proof. split; [vm_compute; reflexivity|split; reflexivity]. Qed.
