(** Properties of the warning manager and the warning registry: C33 (ledger), C34
    (order of the report), C35 (unused notices), C39 (registry). *)

From Coq Require Import Ascii String List NArith Bool Arith Lia Permutation Sorted.
From Verif Require Import Bytes BytesProofs GoSort Regex RegexProofs Replace Warnings.
Import ListNotations.

(** ** Specification: histories of calls and what they record *)

(** A call on a manager.  [fn] is the name of the calling test function. *)
Inductive call : Type :=
| CPredefine (ws : list warning)
| CWarnOnly (w : warning) (fn : bytes)
| CAddUnused (w : warning) (fn log : bytes)
| CAdd (w : warning) (fn text log : bytes)       (* AddWarning, AddWarningFn, AddWarningFnText *)
| CSkipTest (w : warning) (fn : bytes)
| CSkipTestIf (ws : list warning) (fn : bytes)
| CHas (w : warning)
| CGet.                                          (* GetWarnings, ShowWarnings *)

Definition named (n : bytes) (w : warning) : bool := beq (w_name w) n.

(** The names predefined and those marked by WarnOnly in a history (latest call
    first), given the warnings predefined at the start. *)
Fixpoint predefined_in (p0 : list warning) (h : list call) (n : bytes) : bool :=
  match h with
  | [] => existsb (named n) p0
  | CPredefine ws :: h' => existsb (named n) ws || predefined_in p0 h' n
  | _ :: h' => predefined_in p0 h' n
  end.
Fixpoint marked_in (h : list call) (n : bytes) : bool :=
  match h with
  | [] => false
  | CWarnOnly w _ :: h' => named n w || marked_in h' n
  | _ :: h' => marked_in h' n
  end.

Definition entry := (warning * instance)%type.

(** Log lines are stored without their trailing newlines. *)
Fixpoint strip_newlines (s : bytes) : bytes :=
  match s with
  | [] => []
  | c :: t => match strip_newlines t with
              | [] => if Ascii.eqb c newline then [] else [c]
              | t' => c :: t'
              end
  end.
Definition note (w : warning) (fn text log : bytes) : entry :=
  (w, {| i_function := fn; i_text := text; i_record := strip_newlines log |}).

(** What a call records after a history. *)
Definition records (p0 : list warning) (h : list call) (c : call) : list entry :=
  match c with
  | CPredefine _ | CHas _ | CGet => []
  | CWarnOnly w fn => if predefined_in p0 h (w_name w) then [] else [note undefined fn (w_summary w) []]
  | CAddUnused w fn log => [note unused fn (w_name w) log]
  | CAdd w fn text log => [note w fn text log]
  | CSkipTest w fn => [note skipping_test fn (w_summary w) []; note w fn (w_summary skipping_test) []]
  | CSkipTestIf ws fn =>
      match filter (fun w => marked_in h (w_name w)) ws with
      | [] => []
      | w :: _ => [note skipping_test fn (w_summary w) []; note w fn (w_summary skipping_test) []]
      end
  end.

(** Everything recorded by a history, in order of time. *)
Fixpoint ledger (p0 : list warning) (h : list call) : list entry :=
  match h with
  | [] => []
  | c :: h' => ledger p0 h' ++ records p0 h' c
  end.

Definition under (n : bytes) (l : list entry) : list entry := filter (fun e => named n (fst e)) l.

(** ** Running a history *)

Definition do_call (c : call) (m : manager) : manager :=
  match c with
  | CPredefine ws => predefine ws m
  | CWarnOnly w fn => warn_only w fn m
  | CAddUnused w fn log => add_unused w fn log m
  | CAdd w fn text log => add_warning w fn text log m
  | CSkipTest w fn => skip_test w fn m
  | CSkipTestIf ws fn => snd (skip_test_if ws fn m)
  | CHas _ => m
  | CGet => clean m
  end.

Fixpoint after (m0 : manager) (h : list call) : manager :=
  match h with [] => m0 | c :: h' => do_call c (after m0 h') end.

(** ** Lemmas *)

Lemma strip_newlines_ok s : trim_right newline s = strip_newlines s.
Proof.
  unfold trim_right. induction s as [|c s IH]; [reflexivity|]. cbn [rev strip_newlines]. rewrite <- IH.
  generalize (rev s). clear. intros l. induction l as [|x l IH]; cbn [app trim_left].
  - destruct (Ascii.eqb c newline); reflexivity.
  - destruct (Ascii.eqb x newline) eqn:E; [exact IH|].
    change (x :: l ++ [c]) with ((x :: l) ++ [c]). rewrite rev_app_distr. cbn [rev app].
    destruct (rev l ++ [x]) eqn:K; [destruct (rev l); discriminate|]. reflexivity.
Qed.

Definition apply_entry (ws : gomap instances) (e : entry) : gomap instances :=
  let r := match get (w_name (fst e)) ws with
           | Some r => r
           | None => {| r_level := w_level (fst e); r_name := w_name (fst e); r_summary := w_summary (fst e);
                        r_count := 0; r_data := [] |}
           end in
  put (w_name (fst e)) {| r_level := r_level r; r_name := r_name r; r_summary := r_summary r;
                          r_count := r_count r + 1; r_data := r_data r ++ [snd e] |} ws.

Lemma add_is w fn text log m :
  m_warnings (add_warning w fn text log m) = apply_entry (m_warnings m) (note w fn text log).
Proof. unfold add_warning, apply_entry, note. cbn [fst snd m_warnings with_warnings]. rewrite strip_newlines_ok. reflexivity. Qed.

Lemma add_only w fn text log m : m_only (add_warning w fn text log m) = m_only m.
Proof. reflexivity. Qed.
Lemma add_predefined w fn text log m : m_predefined (add_warning w fn text log m) = m_predefined m.
Proof. reflexivity. Qed.

Lemma clean_only m : m_only (clean m) = m_only m /\ m_predefined (clean m) = m_predefined m /\
  m_name (clean m) = m_name m /\ m_prefix (clean m) = m_prefix m.
Proof.
  unfold clean. destruct (get (w_name unused) (m_warnings m)) as [r|]; [|repeat split].
  destruct (filter _ (r_data r)); repeat split.
Qed.

Lemma predefine_get ws : forall p n,
  (exists w, get n (fold_left (fun p w => put (w_name w) w p) ws p) = Some w) <->
  existsb (named n) ws = true \/ exists w, get n p = Some w.
Proof.
  induction ws as [|w ws IH]; intros p n; cbn [fold_left existsb].
  - split; [auto|]. intros [K|K]; [discriminate|exact K].
  - rewrite IH, get_put. unfold named at 2. destruct (beq (w_name w) n); cbn [orb]; split; intros H; eauto.
Qed.

Section History.
Variables (p0 : list warning) (name prefix : bytes).
Let m0 := new_manager p0 name prefix.

Lemma after_predefined h n : (exists w, get n (m_predefined (after m0 h)) = Some w) <-> predefined_in p0 h n = true.
Proof.
  induction h as [|c h IH]; cbn [after predefined_in].
  - unfold m0, new_manager, predefine. cbn [m_predefined]. rewrite predefine_get. cbn [get]. split.
    + intros [K|[w K]]; [exact K|discriminate].
    + auto.
  - destruct c; cbn [do_call]; try exact IH.
    + unfold predefine. cbn [m_predefined]. rewrite predefine_get, IH, orb_true_iff. reflexivity.
    + unfold warn_only. destruct (get (w_name w) (m_predefined (after m0 h))); exact IH.
    + unfold skip_test_if. destruct (List.find _ ws); exact IH.
    + destruct (clean_only (after m0 h)) as (_ & -> & _). exact IH.
Qed.

Lemma predefined_none h n : get n (m_predefined (after m0 h)) = None <-> predefined_in p0 h n = false.
Proof.
  pose proof (after_predefined h n) as H. destruct (get n (m_predefined (after m0 h))) as [w|], (predefined_in p0 h n);
    split; try reflexivity; try discriminate; intros _; exfalso.
  - assert (K : false = true) by (apply H; eauto). discriminate.
  - destruct (proj2 H eq_refl). discriminate.
Qed.

Lemma after_marked h n : existsb (beq n) (m_only (after m0 h)) = marked_in h n.
Proof.
  induction h as [|c h IH]; cbn [after marked_in]; [reflexivity|]. destruct c; cbn [do_call]; try exact IH.
  - unfold warn_only. cbn [m_only existsb]. f_equal.
    + unfold named. destruct (beq n (w_name w)) eqn:E.
      * apply beq_eq in E. subst. symmetry. apply beq_refl.
      * symmetry. apply beq_neq. apply beq_neq in E. congruence.
    + destruct (get (w_name w) (m_predefined (after m0 h))); exact IH.
  - unfold skip_test_if. destruct (List.find _ ws); exact IH.
  - destruct (clean_only (after m0 h)) as (-> & _). exact IH.
Qed.

Lemma find_filter {A} (p : A -> bool) l : List.find p l = match filter p l with [] => None | x :: _ => Some x end.
Proof. induction l as [|x l IH]; [reflexivity|]. cbn. destruct (p x); [reflexivity|exact IH]. Qed.

Lemma filter_ext' {A} (p q : A -> bool) l : (forall x, p x = q x) -> filter p l = filter q l.
Proof. intros H. induction l as [|x l IH]; [reflexivity|]. cbn. rewrite H, IH. reflexivity. Qed.

(** One call: its entries are added one after the other, and GetWarnings cleans. *)
Lemma call_effect h c : m_warnings (do_call c (after m0 h)) =
  match c with
  | CGet => m_warnings (clean (after m0 h))
  | _ => fold_left apply_entry (records p0 h c) (m_warnings (after m0 h))
  end.
Proof.
  destruct c; cbn [do_call records fold_left]; try reflexivity; try (rewrite <- ?add_is; reflexivity).
  - unfold warn_only. destruct (get (w_name w) (m_predefined (after m0 h))) eqn:E.
    + replace (predefined_in p0 h (w_name w)) with true; [reflexivity|]. symmetry. apply after_predefined. eauto.
    + replace (predefined_in p0 h (w_name w)) with false by (symmetry; apply predefined_none, E).
      cbn [m_warnings fold_left]. rewrite add_is. reflexivity.
  - unfold skip_test_if. rewrite find_filter.
    rewrite (filter_ext' (fun w => marked w (after m0 h)) (fun w => marked_in h (w_name w)))
      by (intros w; apply after_marked).
    destruct (filter _ ws) as [|w ws']; [reflexivity|]. cbn [snd fold_left]. unfold skip_test. rewrite !add_is. reflexivity.
Qed.

(** What is stored under a name. *)
Definition stored (n : bytes) (es : list entry) (o : option instances) : Prop :=
  match es with
  | [] => o = None
  | (w, _) :: _ => o = Some {| r_level := w_level w; r_name := n; r_summary := w_summary w;
                               r_count := N.of_nat (length es); r_data := map snd es |}
  end.

Lemma stored_app n es ws e : stored n es (get n ws) -> 
  stored n (es ++ under n [e]) (get n (apply_entry ws e)).
Proof.
  intros H. unfold under, apply_entry. cbn [filter]. unfold named. rewrite get_put.
  destruct (beq (w_name (fst e)) n) eqn:E; [|rewrite app_nil_r; exact H].
  apply beq_eq in E. rewrite E. destruct es as [|[w i] es]; cbn [stored] in H.
  - rewrite H. destruct e as [w i]. cbn [app stored fst snd] in *. subst. reflexivity.
  - rewrite H. cbn [app stored r_level r_name r_summary r_count r_data map snd]. f_equal. f_equal.
    + cbn [length]. rewrite app_length. cbn [length]. lia.
    + rewrite map_app. reflexivity.
Qed.

Lemma stored_fold n l : forall es ws, stored n es (get n ws) ->
  stored n (es ++ under n l) (get n (fold_left apply_entry l ws)).
Proof.
  induction l as [|e l IH]; intros es ws H; [cbn; rewrite app_nil_r; exact H|].
  cbn [fold_left]. replace (es ++ under n (e :: l)) with ((es ++ under n [e]) ++ under n l).
  - apply IH, stored_app, H.
  - rewrite <- app_assoc. f_equal. unfold under. cbn [filter]. destruct (named n (fst e)); reflexivity.
Qed.

Lemma under_app n a b : under n (a ++ b) = under n a ++ under n b.
Proof. apply filter_app. Qed.

Lemma clean_other n m : n <> w_name unused -> get n (m_warnings (clean m)) = get n (m_warnings m).
Proof.
  intros N. unfold clean. destruct (get (w_name unused) (m_warnings m)) as [r|]; [|reflexivity].
  destruct (filter _ (r_data r)); cbn [m_warnings with_warnings].
  - rewrite get_drop. replace (beq (w_name unused) n) with false by (symmetry; apply beq_neq; congruence). reflexivity.
  - apply get_put_other. congruence.
Qed.

Lemma stored_after n h : n <> w_name unused -> stored n (under n (ledger p0 h)) (get n (m_warnings (after m0 h))).
Proof.
  intros N. induction h as [|c h IH]; cbn [after ledger]; [reflexivity|].
  rewrite call_effect, under_app. destruct c; try (apply stored_fold; exact IH).
  rewrite clean_other by exact N. cbn [records under filter]. rewrite app_nil_r. exact IH.
Qed.

Lemma apply_wf ws e : wf ws -> wf (apply_entry ws e).
Proof. apply wf_put. Qed.
Lemma fold_wf l : forall ws, wf ws -> wf (fold_left apply_entry l ws).
Proof. induction l as [|e l IH]; intros ws H; [exact H|]. apply IH, apply_wf, H. Qed.
Lemma clean_wf m : wf (m_warnings m) -> wf (m_warnings (clean m)).
Proof.
  intros H. unfold clean. destruct (get (w_name unused) (m_warnings m)) as [r|]; [|exact H].
  destruct (filter _ (r_data r)); [apply wf_drop, H|apply wf_put, H].
Qed.
Lemma after_wf h : wf (m_warnings (after m0 h)).
Proof.
  induction h as [|c h IH]; cbn [after]; [constructor|]. rewrite call_effect.
  destruct c; try (apply fold_wf; exact IH). apply clean_wf, IH.
Qed.

(** ** Unused notices *)

Definition recorded (l : list entry) (n : bytes) : bool := existsb (fun e => named n (fst e)) l.

Lemma under_recorded n l : recorded l n = false <-> under n l = [].
Proof.
  unfold recorded, under. induction l as [|e l IH]; [cbn; tauto|]. cbn [existsb filter].
  destruct (named n (fst e)); [cbn; split; discriminate|exact IH].
Qed.

Lemma recorded_get n h : n <> w_name unused ->
  match get n (m_warnings (after m0 h)) with Some _ => true | None => false end = recorded (ledger p0 h) n.
Proof.
  intros N. pose proof (stored_after n h N) as S. destruct (recorded (ledger p0 h) n) eqn:E.
  - destruct (under n (ledger p0 h)) as [|[w i] es] eqn:U.
    + apply under_recorded in U. congruence.
    + cbn in S. rewrite S. reflexivity.
  - apply under_recorded in E. rewrite E in S. cbn in S. rewrite S. reflexivity.
Qed.

(** The notices in force: those about warnings not recorded. *)
Definition in_force (l : list entry) (e : entry) : bool := negb (recorded l (i_text (snd e))).
Definition notices (l : list entry) : list entry := filter (in_force l) (under (w_name unused) l).

(** As [stored], without level and summary. *)
Definition held (n : bytes) (es : list entry) (o : option instances) : Prop :=
  match es with
  | [] => o = None
  | _ => exists r, o = Some r /\ r_name r = n /\ r_count r = N.of_nat (length es) /\ r_data r = map snd es
  end.

Lemma held_app n es ws e : held n es (get n ws) -> held n (es ++ under n [e]) (get n (apply_entry ws e)).
Proof.
  intros H. unfold under, apply_entry. cbn [filter]. unfold named. rewrite get_put.
  destruct (beq (w_name (fst e)) n) eqn:E; [|rewrite app_nil_r; exact H].
  apply beq_eq in E. rewrite E. destruct es as [|x es].
  - cbn [held] in H. rewrite H. cbn [app held]. eexists. split; [reflexivity|]. cbn. auto.
  - destruct H as (r & -> & H1 & H2 & H3). cbn [app held]. eexists. split; [reflexivity|].
    cbn [r_name r_count r_data]. split; [exact H1|]. split.
    + rewrite H2. cbn [length]. rewrite app_length. cbn [length]. lia.
    + rewrite H3. cbn [map app]. rewrite map_app. reflexivity.
Qed.

Lemma held_fold n l : forall es ws, held n es (get n ws) ->
  held n (es ++ under n l) (get n (fold_left apply_entry l ws)).
Proof.
  induction l as [|e l IH]; intros es ws H; [cbn; rewrite app_nil_r; exact H|].
  cbn [fold_left]. replace (es ++ under n (e :: l)) with ((es ++ under n [e]) ++ under n l).
  - apply IH, held_app, H.
  - rewrite <- app_assoc. f_equal. unfold under. cbn [filter]. destruct (named n (fst e)); reflexivity.
Qed.

Lemma recorded_app a b n : recorded (a ++ b) n = recorded a n || recorded b n.
Proof. apply existsb_app. Qed.

Lemma in_force_app a b e : in_force (a ++ b) e = true -> in_force a e = true.
Proof. unfold in_force. rewrite recorded_app, negb_orb, andb_true_iff. tauto. Qed.

Lemma filter_filter_sub {A} (p q : A -> bool) l : (forall x, p x = true -> q x = true) -> filter p (filter q l) = filter p l.
Proof.
  intros H. induction l as [|x l IH]; [reflexivity|]. cbn [filter]. destruct (q x) eqn:Q; cbn [filter]; rewrite IH; [reflexivity|].
  destruct (p x) eqn:P; [apply H in P; congruence|reflexivity].
Qed.

Lemma clean_unused es m : held (w_name unused) es (get (w_name unused) (m_warnings m)) ->
  held (w_name unused)
    (filter (fun e => match get (i_text (snd e)) (m_warnings m) with Some _ => false | None => true end) es)
    (get (w_name unused) (m_warnings (clean m))).
Proof.
  intros S. unfold clean. destruct es as [|x es].
  { cbn [held] in S. rewrite S. exact S. }
  destruct S as (r & S & H1 & H2 & H3). rewrite S. rewrite H3.
  set (p := fun i => match get (i_text i) (m_warnings m) with Some _ => false | None => true end).
  change (fun e : warning * instance => match get (i_text (snd e)) (m_warnings m) with Some _ => false | None => true end)
    with (fun e : warning * instance => p (snd e)).
  assert (M : forall l, filter p (map (@snd warning instance) l) = map snd (filter (fun e => p (snd e)) l)).
  { induction l as [|y l IH]; [reflexivity|]. cbn. destruct (p (snd y)); cbn; rewrite IH; reflexivity. }
  rewrite M. destruct (filter (fun e => p (snd e)) (x :: es)) as [|y es'] eqn:F.
  - cbn [map held m_warnings with_warnings]. rewrite get_drop, beq_refl. reflexivity.
  - cbn [map m_warnings with_warnings]. rewrite get_put_same. cbn [held]. eexists. split; [reflexivity|].
    cbn [r_name r_count r_data]. split; [exact H1|]. split; [|reflexivity]. cbn [length]. rewrite map_length. reflexivity.
Qed.

(** What is kept under "Unused" after a history: notices recorded, among them all
    in force, in order. *)
Definition kept (h : list call) (es : list entry) : Prop :=
  held (w_name unused) es (get (w_name unused) (m_warnings (after m0 h))) /\
  filter (in_force (ledger p0 h)) es = notices (ledger p0 h) /\
  (es <> [] -> recorded (ledger p0 h) (w_name unused) = true).

(** Cleaning such a state leaves exactly the notices in force. *)
Lemma kept_clean h es : kept h es ->
  filter (fun e => match get (i_text (snd e)) (m_warnings (after m0 h)) with Some _ => false | None => true end) es
  = notices (ledger p0 h).
Proof.
  intros (S & F & R). rewrite <- F. apply filter_ext_in. intros e He. unfold in_force.
  assert (Ne : es <> []) by (intros ->; exact He).
  destruct (bytes_eq_dec (i_text (snd e)) (w_name unused)) as [->|N].
  - rewrite (R Ne). destruct es as [|x es]; [congruence|]. destruct S as (r & -> & _). reflexivity.
  - rewrite <- (recorded_get _ h N). destruct (get (i_text (snd e)) (m_warnings (after m0 h))); reflexivity.
Qed.

Lemma kept_after h : exists es, kept h es.
Proof.
  induction h as [|c h (es & S & F & R)].
  { exists []. split; [reflexivity|]. split; [reflexivity|congruence]. }
  destruct (match c with CGet => true | _ => false end) eqn:G.
  - destruct c; try discriminate. exists (notices (ledger p0 h)). split; [|split].
    + rewrite <- (kept_clean h es) by (repeat split; assumption). cbn [after do_call]. apply clean_unused, S.
    + cbn [ledger records]. rewrite app_nil_r. unfold notices. apply filter_filter_sub. auto.
    + cbn [ledger records]. rewrite app_nil_r. intros N. destruct (recorded (ledger p0 h) (w_name unused)) eqn:E; [reflexivity|].
      apply under_recorded in E. exfalso. apply N. unfold notices. rewrite E. reflexivity.
  - exists (es ++ under (w_name unused) (records p0 h c)). split; [|split].
    + cbn [after]. rewrite call_effect. destruct c; try discriminate; apply held_fold; exact S.
    + cbn [ledger]. unfold notices. rewrite under_app, !filter_app. f_equal.
      rewrite <- (filter_filter_sub (in_force (ledger p0 h ++ records p0 h c)) (in_force (ledger p0 h)) es) by apply in_force_app.
      rewrite F. unfold notices. apply filter_filter_sub, in_force_app.
    + cbn [ledger]. rewrite recorded_app. intros N. destruct es as [|x es].
      * cbn [app] in N. destruct (recorded (records p0 h c) (w_name unused)) eqn:E; [apply orb_true_r|].
        apply under_recorded in E. exfalso. apply N, E.
      * rewrite R by discriminate. reflexivity.
Qed.

Lemma clean_notices h : held (w_name unused) (notices (ledger p0 h)) (get (w_name unused) (m_warnings (clean (after m0 h)))).
Proof.
  destruct (kept_after h) as (es & K). rewrite <- (kept_clean h es K). apply clean_unused, K.
Qed.

(** ** The order of reports *)

Lemma report_less_weak : weak_order report_less.
Proof.
  split; unfold report_less.
  - intros a b. destruct (N.ltb_spec (r_level b) (r_level a)); destruct (N.ltb_spec (r_level a) (r_level b)); try lia; try (intros; discriminate); auto.
    apply blt_asym.
  - intros a b c. destruct (N.ltb_spec (r_level b) (r_level a)); [discriminate|].
    destruct (N.ltb_spec (r_level c) (r_level b)); [intros; discriminate|].
    destruct (N.ltb_spec (r_level c) (r_level a)); [lia|].
    destruct (N.ltb_spec (r_level a) (r_level b)); destruct (N.ltb_spec (r_level b) (r_level c));
      destruct (N.ltb_spec (r_level a) (r_level c)); try lia; auto. apply blt_neg.
Qed.

Lemma report_less_names a b : report_less a b = false -> report_less b a = false -> r_name a = r_name b.
Proof.
  unfold report_less. destruct (N.ltb_spec (r_level b) (r_level a)); [discriminate|].
  destruct (N.ltb_spec (r_level a) (r_level b)); [discriminate|]. apply blt_antisym.
Qed.

(** Every record carries the name it is stored under. *)
Lemma names_after h n r : get n (m_warnings (clean (after m0 h))) = Some r -> r_name r = n.
Proof.
  intros H. destruct (bytes_eq_dec n (w_name unused)) as [->|N].
  - pose proof (clean_notices h) as K. rewrite H in K. destruct (notices (ledger p0 h)); [discriminate|].
    destruct K as (r' & E & K & _). congruence.
  - rewrite clean_other in H by exact N. pose proof (stored_after n h N) as K. rewrite H in K.
    destruct (under n (ledger p0 h)) as [|[w i] es]; [discriminate|]. cbn in K. injection K as ->. reflexivity.
Qed.

Lemma report_is m m' l : get_warnings m m' l -> wf (m_warnings (clean m)) ->
  (forall n r, get n (m_warnings (clean m)) = Some r -> r_name r = n) -> l = report m.
Proof.
  intros (-> & order & names & P & [P2 S] & E) W Nm. set (ws := m_warnings (clean m)) in *.
  assert (K : forall n, In n names -> exists r, get n ws = Some r).
  { intros n Hn. apply get_keys. eapply Permutation_in; [symmetry; exact P|]. eapply Permutation_in; [symmetry; exact P2|exact Hn]. }
  assert (Pl : Permutation (map snd ws) l).
  { assert (Q : Permutation (map (fun n => get n ws) (keys ws)) (map Some l)).
    { rewrite E. apply Permutation_map. rewrite P. exact P2. }
    assert (Q2 : map (fun n => get n ws) (keys ws) = map Some (map snd ws)).
    { unfold keys. rewrite !map_map. apply map_ext_in. intros [n r] Hi. cbn. apply get_in; assumption. }
    rewrite Q2 in Q. apply Permutation_map_inv in Q. destruct Q as (l3 & E3 & P3).
    assert (map snd ws = l3) as ->; [|symmetry; exact P3]. clear -E3. revert l3 E3.
    induction (map snd ws) as [|x l IH]; intros [|y l3] E; try discriminate; [reflexivity|].
    cbn in E. injection E as -> E. f_equal. auto. }
  unfold report. fold ws.
  apply (sorted_unique report_less).
  - rewrite <- Pl. apply sort_by_perm.
  - clear -S E. revert names S E. induction l as [|x l IH]; intros [|n names] S E; try discriminate; [constructor|].
    cbn [map] in E. injection E as E1 E2. inversion S; subst. constructor; [eapply IH; eassumption|].
    clear -H2 E1 E2. revert names H2 E2. induction l as [|y l IH]; intros [|z names] H2 E2; try discriminate; [constructor|].
    cbn [map] in E2. injection E2 as E3 E4. inversion H2; subst. constructor; [|eapply IH; eassumption].
    rewrite <- E1, <- E3 in H1. exact H1.
  - apply (sort_by_ok report_less report_less_weak).
  - intros a b Ha Hb L1 L2. pose proof (report_less_names a b L1 L2) as En.
    apply (Permutation_in _ (Permutation_sym Pl)) in Ha, Hb.
    apply in_map_iff in Ha, Hb. destruct Ha as ([na ra] & <- & Ha), Hb as ([nb rb] & <- & Hb). cbn [snd] in *.
    apply get_in in Ha, Hb; try assumption. rewrite (Nm _ _ Ha), (Nm _ _ Hb) in En. subst. congruence.
Qed.

Lemma report_exists m : wf (m_warnings (clean m)) -> (forall n r, get n (m_warnings (clean m)) = Some r -> r_name r = n) ->
  get_warnings m (clean m) (report m).
Proof.
  intros W Nm. split; [reflexivity|]. set (ws := m_warnings (clean m)) in *. exists (keys ws), (map r_name (report m)).
  assert (G : forall r, In r (report m) -> get (r_name r) ws = Some r).
  { intros r Hr. apply (Permutation_in _ (Permutation_sym (sort_by_perm report_less _))) in Hr.
    apply in_map_iff in Hr. destruct Hr as ([n r'] & <- & Hr). cbn [snd]. apply get_in in Hr; [|exact W].
    rewrite (Nm _ _ Hr). exact Hr. }
  split; [reflexivity|]. split; [split|].
  - unfold report. fold ws. rewrite <- (sort_by_perm report_less (map snd ws)). unfold keys. rewrite map_map.
    replace (map (fun x => r_name (snd x)) ws) with (map fst ws); [reflexivity|].
    apply map_ext_in. intros [n r] Hi. cbn. symmetry. apply Nm. apply get_in; assumption.
  - assert (S : StronglySorted (fun a b => report_less b a = false) (report m)) by (apply (sort_by_ok report_less report_less_weak)).
    induction S as [|r l S IH F]; [constructor|]. cbn [map]. constructor; [apply IH; intros; apply G; right; assumption|].
    rewrite Forall_forall in *. intros n Hn. apply in_map_iff in Hn. destruct Hn as (r' & <- & Hr').
    rewrite (G r') by (right; assumption). rewrite (G r) by (left; reflexivity). apply F, Hr'.
  - rewrite map_map. apply map_ext_in. intros r Hr. symmetry. apply G, Hr.
Qed.

End History.

(** ** C33 *)

(** After every history, what is stored under a name other than "Unused" is what
    was recorded under it, in order, with level and summary of the first entry. *)
Theorem C33_ledger p0 name prefix h n : n <> B "Unused" ->
  get n (m_warnings (after (new_manager p0 name prefix) h)) =
  match under n (ledger p0 h) with
  | [] => None
  | (w, i) :: es => Some {| r_level := w_level w; r_name := n; r_summary := w_summary w;
                            r_count := N.of_nat (length ((w, i) :: es)); r_data := i :: map snd es |}
  end.
Proof.
  intros N. pose proof (stored_after p0 name prefix n h N) as S. unfold stored in S.
  destruct (under n (ledger p0 h)) as [|[w i] es]; exact S.
Qed.
Print Assumptions C33_ledger.

(** HasWarning and HasWarnings tell exactly the warnings marked by WarnOnly,
    predefined or not, and nothing if warnings are switched off. *)
Theorem C33_has p0 name prefix h use w ws :
  has_warning use w (after (new_manager p0 name prefix) h) = use && marked_in h (w_name w) /\
  has_warnings use ws (after (new_manager p0 name prefix) h) = filter (fun w => use && marked_in h (w_name w)) ws.
Proof.
  assert (H : forall use w, has_warning use w (after (new_manager p0 name prefix) h) = use && marked_in h (w_name w)).
  { intros u x. unfold has_warning, marked. rewrite after_marked. reflexivity. }
  split; [apply H|]. unfold has_warnings. destruct use.
  - apply filter_ext'. intros x. apply H.
  - induction ws as [|x ws IH]; [reflexivity|exact IH].
Qed.
Print Assumptions C33_has.

(** SkipTestIf answers whether one of the warnings is marked, whatever the flag. *)
Theorem C33_skip p0 name prefix h ws fn :
  fst (skip_test_if ws fn (after (new_manager p0 name prefix) h)) = existsb (fun w => marked_in h (w_name w)) ws.
Proof.
  unfold skip_test_if. rewrite find_filter.
  rewrite (filter_ext' (fun w => marked w _) (fun w => marked_in h (w_name w))) by (intros w; apply after_marked).
  induction ws as [|w ws IH]; [reflexivity|]. cbn [filter existsb]. destruct (marked_in h (w_name w)); [reflexivity|exact IH].
Qed.
Print Assumptions C33_skip.

(** ** C34 *)

(** The reference: decreasing level, then name. *)
Definition before (a b : instances) : Prop :=
  (r_level b < r_level a)%N \/ (r_level a = r_level b /\ blt (r_name a) (r_name b) = true).

(** Whatever the iteration order and the sorting algorithm, the list is strictly
    ordered, contains every record once, and is the same on the next request. *)
Theorem C34_report p0 name prefix h m' l :
  get_warnings (after (new_manager p0 name prefix) h) m' l ->
  StronglySorted before l /\
  (forall n r, (In r l /\ r_name r = n) <-> get n (m_warnings m') = Some r) /\
  (forall n, n <> B "Unused" -> get n (m_warnings m') = get n (m_warnings (after (new_manager p0 name prefix) h))) /\
  (forall m1 l1, get_warnings (after (new_manager p0 name prefix) h) m1 l1 -> m1 = m' /\ l1 = l) /\
  (forall m2 l2, get_warnings m' m2 l2 -> m2 = m' /\ l2 = l).
Proof.
  intros G. set (m := after (new_manager p0 name prefix) h) in *.
  assert (W : wf (m_warnings (clean m))) by (apply clean_wf, after_wf).
  assert (Nm : forall n r, get n (m_warnings (clean m)) = Some r -> r_name r = n) by (intros n r; apply names_after).
  assert (Em : m' = clean m) by apply G.
  assert (El : l = report m) by (eapply report_is; eassumption). subst m' l.
  assert (In_l : forall r, In r (report m) <-> get (r_name r) (m_warnings (clean m)) = Some r).
  { intros r. split.
    - intros Hr. apply (Permutation_in _ (Permutation_sym (sort_by_perm report_less _))) in Hr.
      apply in_map_iff in Hr. destruct Hr as ([n r'] & <- & Hr). cbn [snd]. apply get_in in Hr; [|exact W].
      rewrite (Nm _ _ Hr). exact Hr.
    - intros Hr. apply get_in in Hr; [|exact W]. apply (Permutation_in _ (sort_by_perm report_less _)).
      apply (in_map snd) in Hr. exact Hr. }
  assert (Cl : clean (clean m) = clean m).
  { destruct (clean_only (clean m)) as (C1 & C2 & C3 & C4).
    unfold clean at 1. pose proof (clean_notices p0 name prefix h) as K. fold m in K.
    destruct (get (w_name unused) (m_warnings (clean m))) as [r|] eqn:E; [|reflexivity].
    destruct (notices (ledger p0 h)) as [|x es] eqn:En; [discriminate|]. destruct K as (r' & Er & K1 & K2 & K3).
    injection Er as <-.
    assert (F : filter (fun i => match get (i_text i) (m_warnings (clean m)) with Some _ => false | None => true end) (r_data r) = r_data r).
    { rewrite K3, <- En. clear -En. assert (A : forall e, In e (notices (ledger p0 h)) ->
        get (i_text (snd e)) (m_warnings (clean m)) = None).
      { intros e He. apply filter_In in He. destruct He as [He I]. unfold in_force in I. apply negb_true_iff in I.
        destruct (bytes_eq_dec (i_text (snd e)) (w_name unused)) as [Eq|N].
        - exfalso. rewrite Eq in I. apply under_recorded in I. rewrite I in He. exact He.
        - rewrite clean_other by exact N. pose proof (recorded_get p0 name prefix _ h N) as R. fold m in R.
          rewrite I in R. destruct (get (i_text (snd e)) (m_warnings m)); [discriminate|reflexivity]. }
      clear En. induction (notices (ledger p0 h)) as [|e l IH]; [reflexivity|]. cbn [map filter].
      rewrite A by (left; reflexivity). rewrite IH; [reflexivity|]. intros e' He'. apply A. right. exact He'. }
    rewrite F, K3. cbn [map]. unfold with_warnings.
    replace (put (w_name unused) _ (m_warnings (clean m))) with (m_warnings (clean m)); [destruct (clean m); reflexivity|].
    replace {| r_level := r_level r; r_name := r_name r; r_summary := r_summary r;
               r_count := N.of_nat (length (snd x :: map snd es)); r_data := snd x :: map snd es |} with r.
    - clear -E. revert E. generalize (m_warnings (clean m)). intros ws. induction ws as [|[k v] ws IH]; [discriminate|].
      cbn [get put]. destruct (beq k (w_name unused)) eqn:B0; intros E.
      + apply beq_eq in B0. subst. injection E as ->. reflexivity.
      + rewrite <- IH by exact E. reflexivity.
    - destruct r; cbn in *. subst. cbn [length]. rewrite map_length. reflexivity. }
  split; [|split; [|split; [|split]]].
  - assert (S : StronglySorted (fun a b => report_less b a = false) (report m)) by apply (sort_by_ok report_less report_less_weak).
    assert (D : NoDup (map r_name (report m))).
    { eapply Permutation_NoDup; [|exact W]. unfold report. rewrite <- (sort_by_perm report_less).
      unfold keys. rewrite map_map. replace (map (fun x => r_name (snd x)) (m_warnings (clean m))) with (map fst (m_warnings (clean m))); [reflexivity|].
      apply map_ext_in. intros [n r] Hi. cbn. symmetry. apply Nm. apply get_in; assumption. }
    clear -S D. induction S as [|r l S IH F]; [constructor|]. cbn [map] in D. inversion D; subst. constructor; [auto|].
    rewrite Forall_forall in *. intros r' Hr'. specialize (F r' Hr'). unfold report_less in F. unfold before.
    destruct (N.ltb_spec (r_level r) (r_level r')); [discriminate|].
    destruct (N.ltb_spec (r_level r') (r_level r)); [left; assumption|]. right. split; [lia|].
    destruct (blt (r_name r) (r_name r')) eqn:E; [reflexivity|]. exfalso. apply H1.
    rewrite (blt_antisym _ _ E F). apply in_map, Hr'.
  - intros n r. rewrite In_l. split; [intros [H1 <-]; exact H1|]. intros Hg. rewrite (Nm _ _ Hg). auto.
  - intros n N. apply clean_other, N.
  - intros m1 l1 G1. split; [apply G1|]. eapply report_is; eassumption.
  - intros m2 l2 G2. split; [destruct G2 as [-> _]; exact Cl|].
    assert (E : l2 = report (clean m)) by (eapply report_is; [exact G2|rewrite Cl; exact W|rewrite Cl; exact Nm]).
    rewrite E. unfold report. rewrite Cl. reflexivity.
Qed.
Print Assumptions C34_report.

(** There always is a list. *)
Theorem C34_exists p0 name prefix h : exists m' l, get_warnings (after (new_manager p0 name prefix) h) m' l.
Proof.
  eexists _, _. apply report_exists; [apply clean_wf, after_wf|]. intros n r. apply names_after.
Qed.
Print Assumptions C34_exists.

(** ** C35 *)

(** A notice of non-use is reported exactly if nothing was recorded, up to then,
    under the name it gives; reports made in between make no difference. *)
Theorem C35_unused p0 name prefix h m' l :
  get_warnings (after (new_manager p0 name prefix) h) m' l ->
  match filter (fun e => negb (recorded (ledger p0 h) (i_text (snd e)))) (under (B "Unused") (ledger p0 h)) with
  | [] => forall r, In r l -> r_name r <> B "Unused"
  | es => exists r, In r l /\ r_name r = B "Unused" /\ r_data r = map snd es /\ r_count r = N.of_nat (length es)
  end.
Proof.
  intros G. destruct (C34_report _ _ _ _ _ _ G) as (_ & L & _). destruct G as [-> _].
  pose proof (clean_notices p0 name prefix h) as K. change (w_name unused) with (B "Unused") in K.
  change (filter _ (under (B "Unused") (ledger p0 h))) with (notices (ledger p0 h)).
  destruct (notices (ledger p0 h)) as [|x es].
  - intros r Hr E. cbn [held] in K. assert (H : get (B "Unused") (m_warnings (clean (after (new_manager p0 name prefix) h))) = Some r).
    { apply L. auto. }
    rewrite K in H. discriminate.
  - destruct K as (r & K & K1 & K2 & K3). exists r. destruct (proj2 (L _ _) K) as [L1 L2]. auto.
Qed.
Print Assumptions C35_unused.

(** ** C39 *)

(** Calls on the registry, and what they are to create (latest call first). *)
Inductive reg_call : Type :=
| RNew (level : N) (name summary : bytes)
| RFor (level : N).

Fixpoint created (h : list reg_call) : list warning :=
  match h with
  | [] => []
  | RNew l n s :: h' =>
      if existsb (named n) (created h') then created h'
      else created h' ++ [{| w_level := l; w_name := n; w_summary := s |}]
  | RFor _ :: h' => created h'
  end.

(** What had been created at the first request made after some creation. *)
Fixpoint snapshot (h : list reg_call) : list warning :=
  match h with
  | [] => []
  | RNew _ _ _ :: h' => snapshot h'
  | RFor _ :: h' => match snapshot h' with [] => created h' | s => s end
  end.

Definition do_reg (c : reg_call) (g : registry) : registry :=
  match c with
  | RNew l n s => snd (new_warning l n s g)
  | RFor l => snd (warnings_for_level l g)
  end.
Fixpoint reg_after (h : list reg_call) : registry :=
  match h with [] => empty_registry | c :: h' => do_reg c (reg_after h') end.

Lemma tree_add_get l w t x : tree_get x (tree_add l w t) = if N.eqb l x then tree_get x t ++ [w] else tree_get x t.
Proof.
  induction t as [|[k v] t IH]; cbn [tree_add tree_get].
  - destruct (N.eqb l x); reflexivity.
  - destruct (N.eqb k l) eqn:E; cbn [tree_get].
    + apply N.eqb_eq in E. subst k. destruct (N.eqb l x); reflexivity.
    + destruct (N.eqb k x) eqn:E2; [|exact IH]. apply N.eqb_eq in E2. subst k. rewrite N.eqb_sym, E. reflexivity.
Qed.

Lemma tree_fold ws : forall t x, tree_get x (fold_left (fun t w => tree_add (w_level w) w t) ws t) =
  tree_get x t ++ filter (fun w => N.eqb (w_level w) x) ws.
Proof.
  induction ws as [|w ws IH]; intros t x; cbn [fold_left filter]; [rewrite app_nil_r; reflexivity|].
  rewrite IH, tree_add_get. destruct (N.eqb (w_level w) x); [rewrite <- app_assoc|]; reflexivity.
Qed.

Lemma build_get ws x : tree_get x (build_tree ws) = sort_by (on w_name blt) (filter (fun w => N.eqb (w_level w) x) ws).
Proof.
  unfold build_tree. assert (M : forall t, tree_get x (map (fun e => (fst e, sort_by (on w_name blt) (snd e))) t) =
    sort_by (on w_name blt) (tree_get x t)).
  { induction t as [|[k v] t IH]; [reflexivity|]. cbn [map tree_get fst snd]. destruct (N.eqb k x); [reflexivity|exact IH]. }
  rewrite M, tree_fold. reflexivity.
Qed.

Lemma build_nil ws : build_tree ws = [] <-> ws = [].
Proof.
  split; [|intros ->; reflexivity]. destruct ws as [|w ws]; [reflexivity|]. intros H.
  pose proof (build_get (w :: ws) (w_level w)) as K. rewrite H in K. cbn [tree_get filter] in K.
  rewrite N.eqb_refl in K. exfalso. symmetry in K.
  assert (P : Permutation (w :: filter (fun x => N.eqb (w_level x) (w_level w)) ws) []) by (rewrite <- K; apply sort_by_perm).
  apply Permutation_sym, Permutation_nil in P. discriminate.
Qed.

Lemma reg_state h : wf (g_names (reg_after h)) /\ g_all (reg_after h) = created h /\
  (forall n, get n (g_names (reg_after h)) = List.find (named n) (created h)) /\
  g_tree (reg_after h) = build_tree (snapshot h).
Proof.
  induction h as [|c h (W & A & N & T)]; [repeat split; constructor|].
  destruct c as [l n s|l]; cbn [created snapshot reg_after do_reg].
  - unfold new_warning. pose proof (N n) as Nn. destruct (get n (g_names (reg_after h))) as [w|]; cbn [snd].
    + symmetry in Nn. apply find_some in Nn. replace (existsb (named n) (created h)) with true.
      * repeat split; assumption.
      * symmetry. apply existsb_exists. exists w. exact Nn.
    + assert (E : existsb (named n) (created h) = false).
      { destruct (existsb (named n) (created h)) eqn:E; [|reflexivity]. apply existsb_exists in E. destruct E as (w & I & E).
        symmetry in Nn. pose proof (find_none _ _ Nn w I). congruence. }
      rewrite E. cbn [g_all g_names g_tree]. split; [apply wf_put, W|]. split; [rewrite A; reflexivity|]. split; [|exact T].
      intros x. rewrite get_put, N. clear -E. induction (created h) as [|w ws IH].
      * cbn [app List.find]. unfold named. cbn [w_name]. destruct (beq n x); reflexivity.
      * cbn [app List.find existsb] in *. apply orb_false_iff in E. destruct E as [E1 E2].
        unfold named in E1. unfold named at 1. unfold named at 2. destruct (beq (w_name w) x) eqn:X; [|apply IH, E2].
        apply beq_eq in X. subst. replace (beq n (w_name w)) with false; [reflexivity|].
        symmetry. apply beq_neq. apply beq_neq in E1. congruence.
  - unfold warnings_for_level. cbn [snd]. destruct (g_tree (reg_after h)) as [|e t] eqn:E.
    + cbn [g_all g_names g_tree]. assert (S : snapshot h = []) by (apply build_nil; congruence).
      rewrite S. repeat split; try assumption. rewrite A. reflexivity.
    + assert (S : snapshot h <> []) by (intros S; apply build_nil in S; congruence).
      destruct (snapshot h) eqn:E2; [congruence|]. repeat split; try assumption. rewrite E. exact T.
Qed.

Lemma created_unique h : NoDup (map w_name (created h)).
Proof.
  induction h as [|c h IH]; [constructor|]. destruct c as [l n s|l]; cbn [created]; [|exact IH].
  destruct (existsb (named n) (created h)) eqn:E; [exact IH|]. rewrite map_app. cbn [map w_name].
  apply Permutation_NoDup with (l := n :: map w_name (created h)); [apply Permutation_cons_append|].
  constructor; [|exact IH]. intros K. apply in_map_iff in K. destruct K as (w & <- & K).
  assert (X : existsb (named (w_name w)) (created h) = true).
  { apply existsb_exists. exists w. split; [exact K|apply beq_refl]. }
  congruence.
Qed.

Lemma snapshot_unique h : NoDup (map w_name (snapshot h)).
Proof.
  induction h as [|c h IH]; [constructor|]. destruct c; cbn [snapshot]; [exact IH|].
  destruct (snapshot h) eqn:E; [apply created_unique|exact IH].
Qed.

(** Looking up a name gives the first warning created with it. *)
Theorem C39_by_name h n :
  by_name n (reg_after h) = List.find (named n) (created h) /\
  NoDup (map w_name (created h)).
Proof. split; [apply reg_state|apply created_unique]. Qed.
Print Assumptions C39_by_name.

(** Creating a warning again returns the one created first. *)
Theorem C39_again h l n s : fst (new_warning l n s (reg_after h)) =
  match by_name n (reg_after h) with Some w => w | None => {| w_level := l; w_name := n; w_summary := s |} end.
Proof. unfold new_warning, by_name. destruct (get n (g_names (reg_after h))); reflexivity. Qed.
Print Assumptions C39_again.

(** The list of a level: the warnings of that level created before the first
    request made when there were any, in order of their names. *)
Theorem C39_level h l :
  let ws := fst (warnings_for_level l (reg_after h)) in
  Permutation ws (filter (fun w => N.eqb (w_level w) l) (snapshot (RFor l :: h))) /\
  StronglySorted (fun a b => blt (w_name a) (w_name b) = true) ws.
Proof.
  cbv zeta. assert (E : fst (warnings_for_level l (reg_after h)) =
    sort_by (on w_name blt) (filter (fun w => N.eqb (w_level w) l) (snapshot (RFor l :: h)))).
  { rewrite <- build_get. destruct (reg_state (RFor l :: h)) as (_ & _ & _ & <-). reflexivity. }
  rewrite E. split; [symmetry; apply sort_by_perm|].
  pose proof (snapshot_unique (RFor l :: h)) as D. revert D. generalize (snapshot (RFor l :: h)). intros ws D.
  assert (D2 : NoDup (map w_name (sort_by (on w_name blt) (filter (fun w => N.eqb (w_level w) l) ws)))).
  { eapply Permutation_NoDup; [apply Permutation_map, sort_by_perm|]. clear -D. induction ws as [|w ws IH]; [constructor|].
    cbn [map] in D. inversion D; subst. cbn [filter]. destruct (N.eqb (w_level w) l); [|auto]. cbn [map]. constructor; [|auto].
    intros K. apply H1. apply in_map_iff in K. destruct K as (x & <- & K). apply filter_In in K. apply in_map, K. }
  pose proof (proj2 (sort_by_ok (on w_name blt) (on_weak w_name blt blt_weak) (filter (fun w => N.eqb (w_level w) l) ws))) as S.
  induction S as [|w l' S IH F]; [constructor|]. cbn [map] in D2. inversion D2; subst. constructor; [auto|].
  rewrite Forall_forall in *. intros x Hx. specialize (F x Hx). unfold on in F.
  destruct (blt (w_name w) (w_name x)) eqn:B1; [reflexivity|]. exfalso. apply H1. rewrite (blt_antisym _ _ B1 F). apply in_map, Hx.
Qed.
Print Assumptions C39_level.

(** ** Examples *)

Definition wlevel (n : N) (s : string) : warning := {| w_level := n; w_name := B s; w_summary := B s |}.
Definition mgr0 : manager := new_manager [skipping_test; undefined; unused] (B "h") [].

(** Two notices, one about a warning recorded later; a mark of a warning not
    predefined; a skipped test. *)
Definition history : list call := rev
  [CPredefine [wlevel 4 "LevelVar"; wlevel 2 "Duplicates"];
   CWarnOnly (wlevel 4 "LevelVar") (B "TestA");
   CWarnOnly (wlevel 3 "Other") (B "TestA");
   CAddUnused (wlevel 2 "Duplicates") (B "TestA") [];
   CAddUnused (wlevel 4 "LevelVar") (B "TestB") [];
   CGet;
   CAdd (wlevel 2 "Duplicates") (B "TestC") (B "text") (B "{}" ++ [newline; newline]);
   CSkipTestIf [wlevel 2 "Duplicates"; wlevel 3 "Other"] (B "TestD")].

Example C33_ex : map (fun r => (r_name r, r_count r)) (map snd (m_warnings (after mgr0 history))) =
  [(B "Undefined", 1%N); (B "Unused", 2%N); (B "Duplicates", 1%N); (B "SkippingTest", 1%N); (B "Other", 1%N)] /\
  map (fun e => w_name (fst e)) (ledger [skipping_test; undefined; unused] history) =
  [B "Undefined"; B "Unused"; B "Unused"; B "Duplicates"; B "SkippingTest"; B "Other"].
Proof. vm_compute. split; reflexivity. Qed.

Example C34_ex : map (fun r => (r_level r, r_name r)) (report (after mgr0 history)) =
  [(3%N, B "Other"); (2%N, B "Duplicates"); (1%N, B "SkippingTest"); (1%N, B "Undefined"); (1%N, B "Unused")].
Proof. vm_compute. reflexivity. Qed.

Example C35_ex : match get (B "Unused") (m_warnings (clean (after mgr0 history))) with
                 | Some r => (r_count r, map i_text (r_data r)) | None => (0%N, []) end = (1%N, [B "LevelVar"]).
Proof. vm_compute. reflexivity. Qed.

(** A warning created after the first list was requested is found by name only. *)
Example C39_ex :
  let h := rev [RFor 1; RNew 1 (B "b") []; RNew 1 (B "a") []; RNew 2 (B "a") (B "again"); RFor 3; RNew 1 (B "c") []] in
  map w_name (fst (warnings_for_level 1 (reg_after h))) = [B "a"; B "b"] /\
  by_name (B "c") (reg_after h) = Some {| w_level := 1; w_name := B "c"; w_summary := [] |} /\
  option_map w_level (by_name (B "a") (reg_after h)) = Some 1%N.
Proof. vm_compute. repeat split; reflexivity. Qed.
