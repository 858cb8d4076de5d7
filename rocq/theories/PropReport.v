(** Properties of warning reports: C36 (round trip), C37 (merging), C38 (arbitrary
    text). *)

From Coq Require Import Ascii String List NArith Bool Arith Lia Permutation.
From Verif Require Import Bytes BytesProofs GoSort Regex RegexProofs RegexFirst Replace PropReplace Warnings WarnParser
  WarnLines SpecReport WarnRoundTrip WarnEffects.
From Verif Require PropWarnings.
Import ListNotations.

(** ** Tables *)

Lemma beq_refl' a : beq a a = true.
Proof. apply beq_eq. reflexivity. Qed.

Lemma same_key_eq a b : same_key a b = true <-> a = b.
Proof.
  destruct a as [x n], b as [y m]. unfold same_key. cbn [fst snd]. rewrite andb_true_iff, N.eqb_eq, beq_eq.
  split; [intros [-> ->]; reflexivity|]. intros E; injection E; auto.
Qed.

Lemma tget_tput k d t k' : tget k' (tput k d t) = if same_key k k' then Some d else tget k' t.
Proof.
  induction t as [|[a x] t IH]; cbn [tput tget].
  - reflexivity.
  - destruct (same_key a k) eqn:E.
    + cbn [tget]. apply same_key_eq in E. subst a. destruct (same_key k k'); reflexivity.
    + cbn [tget]. rewrite IH. destruct (same_key a k') eqn:E'; [|reflexivity].
      destruct (same_key k k') eqn:E2; [|reflexivity]. apply same_key_eq in E', E2. subst.
      assert (K : same_key k' k' = true) by (apply same_key_eq; reflexivity). congruence.
Qed.

Lemma instances_update x k f m y level n :
  instances_in (update x k f m) y level n =
  if beq x y && same_key k (level, n) then d_insts (f (warn_of k (table_of x m))) else instances_in m y level n.
Proof.
  unfold instances_in, update. rewrite get_put. destruct (beq x y) eqn:E; [|reflexivity]. cbn [andb].
  apply beq_eq in E. subst y. rewrite tget_tput. destruct (same_key k (level, n)) eqn:K; [reflexivity|].
  unfold table_of. destruct (get x m); reflexivity.
Qed.

Lemma summary_update x k f m y level n :
  summary_in (update x k f m) y level n =
  if beq x y && same_key k (level, n) then Some (d_summary (f (warn_of k (table_of x m)))) else summary_in m y level n.
Proof.
  unfold summary_in, update. rewrite get_put. destruct (beq x y) eqn:E; [|reflexivity]. cbn [andb].
  apply beq_eq in E. subst y. rewrite tget_tput. destruct (same_key k (level, n)) eqn:K; [reflexivity|].
  unfold table_of. destruct (get x m); reflexivity.
Qed.

Lemma instances_warn_of m x level n : d_insts (warn_of (level, n) (table_of x m)) = instances_in m x level n.
Proof.
  unfold instances_in, warn_of, table_of. destruct (get x m) as [t|]; [|reflexivity].
  destruct (tget (level, n) t); reflexivity.
Qed.

Lemma get_update_other x k f m y : x <> y -> get y (update x k f m) = get y m.
Proof. intros N. unfold update. apply get_put_other. exact N. Qed.

Lemma counted_use name h t m n x : counted (count_use name h t m) n x =
  (counted m n x + (if beq name n && beq h x then 1 else 0))%N.
Proof.
  unfold counted, count_use. rewrite get_put. destruct (beq name n) eqn:E; cbn [andb]; [|lia].
  apply beq_eq in E. subst n. cbn [wc_count]. rewrite get_put. destruct (beq h x) eqn:K.
  - apply beq_eq in K. subst x. unfold count_in. destruct (get name m) as [c|]; [|reflexivity].
    destruct (get h (wc_count c)); lia.
  - destruct (get name m) as [c|]; cbn; lia.
Qed.

(** ** The effect of a report, observed *)

Section Observed.
Variable v : world.
Variable source : bytes.
Variable h : bytes.

Notation file' level n s := (file v source h level (new_cur h level n s)).

Definition seen (i : instance) : dinst :=
  {| di_tag := []; di_source := []; di_name := handler_name v h; di_extra := i_text i; di_line := [];
     di_log := di_log (kept v source i) |}.

Lemma file_handler level n s i w : by_handler (file' level n s i w) =
  update h (level, n) (add_inst (kept v source i)) (by_handler w).
Proof. reflexivity. Qed.
Lemma file_test level n s i w : by_test (file' level n s i w) =
  update (the_test source (i_function i)) (level, n) (fun d => add_inst (seen i) (set_summary s d)) (by_test w).
Proof. reflexivity. Qed.
Lemma file_count level n s i w : by_warning (file' level n s i w) =
  count_use n h (the_test source (i_function i)) (by_warning w).
Proof. reflexivity. Qed.

Lemma the_test_tag i : the_test source (i_function i) = test_tag source i.
Proof. reflexivity. Qed.

(** The instances of a record are filed one after the other. *)
Lemma fold_handler level n s is : forall w x level' n',
  instances_in (by_handler (fold_left (fun w i => file' level n s i w) is w)) x level' n' =
  instances_in (by_handler w) x level' n' ++
  (if beq h x && same_key (level, n) (level', n') then map (kept v source) is else []).
Proof.
  induction is as [|i is IH]; intros w x level' n'; cbn [fold_left map].
  - destruct (_ && _); rewrite app_nil_r; reflexivity.
  - rewrite IH, file_handler, instances_update. destruct (beq h x && same_key (level, n) (level', n')) eqn:E; [|reflexivity].
    cbn [add_inst d_insts]. rewrite instances_warn_of, <- app_assoc. cbn [app].
    apply andb_true_iff in E. destruct E as [E1 E2]. apply beq_eq in E1. apply same_key_eq in E2. subst x. injection E2 as <- <-.
    reflexivity.
Qed.

Lemma fold_summary level n s is : forall w x level' n',
  summary_in (by_handler w) h level n = Some s ->
  summary_in (by_handler (fold_left (fun w i => file' level n s i w) is w)) x level' n' = summary_in (by_handler w) x level' n'.
Proof.
  induction is as [|i is IH]; intros w x level' n' H; cbn [fold_left]; [reflexivity|].
  assert (K : forall x level' n', summary_in (by_handler (file' level n s i w)) x level' n' = summary_in (by_handler w) x level' n').
  { intros y l0 n0. rewrite file_handler, summary_update. destruct (beq h y && same_key (level, n) (l0, n0)) eqn:E; [|reflexivity].
    apply andb_true_iff in E. destruct E as [E1 E2]. apply beq_eq in E1. apply same_key_eq in E2. subst y. injection E2 as <- <-.
    cbn [add_inst d_summary]. unfold warn_of, table_of, summary_in in *. destruct (get h (by_handler w)); [|discriminate].
    destruct (tget (level, n) t); [reflexivity|discriminate]. }
  rewrite IH by (rewrite K; exact H). apply K.
Qed.

Lemma fold_others level n s is : forall w x, x <> h ->
  get x (by_handler (fold_left (fun w i => file' level n s i w) is w)) = get x (by_handler w).
Proof.
  induction is as [|i is IH]; intros w x N; cbn [fold_left]; [reflexivity|].
  rewrite IH by exact N. rewrite file_handler. apply get_update_other. congruence.
Qed.

Lemma fold_test level n s is : forall w t level' n',
  instances_in (by_test (fold_left (fun w i => file' level n s i w) is w)) t level' n' =
  instances_in (by_test w) t level' n' ++
  (if same_key (level, n) (level', n') then map seen (filter (fun i => beq (test_tag source i) t) is) else []).
Proof.
  induction is as [|i is IH]; intros w t level' n'; cbn [fold_left filter].
  - destruct (same_key _ _); symmetry; apply app_nil_r.
  - rewrite IH, file_test, instances_update, the_test_tag.
    destruct (same_key (level, n) (level', n')) eqn:E; [|rewrite andb_false_r; reflexivity]. rewrite andb_true_r.
    apply same_key_eq in E. injection E as <- <-.
    destruct (beq (test_tag source i) t) eqn:K; [|reflexivity].
    apply beq_eq in K. subst t. cbn [add_inst d_insts set_summary]. rewrite instances_warn_of, <- app_assoc. reflexivity.
Qed.

Lemma fold_count level n s is : forall w n' x,
  counted (by_warning (fold_left (fun w i => file' level n s i w) is w)) n' x =
  (counted (by_warning w) n' x + (if beq n n' && beq h x then N.of_nat (length is) else 0))%N.
Proof.
  induction is as [|i is IH]; intros w n' x; cbn [fold_left length].
  - destruct (_ && _); lia.
  - rewrite IH, file_count, counted_use. destruct (beq n n' && beq h x); lia.
Qed.

(** ** Several records *)

Lemma absorb_handler r w x level n :
  instances_in (by_handler (absorb v source h w r)) x level n =
  instances_in (by_handler w) x level n ++ (if beq h x then map (kept v source) (told [r] level n) else []).
Proof.
  unfold absorb. rewrite fold_handler. unfold touch at 1. cbn [by_handler set_by_handler]. rewrite instances_update.
  unfold told. cbn [filter]. unfold same_key. cbn [fst snd].
  destruct (N.eqb (r_level r) level && beq (r_name r) n) eqn:E.
  - cbn [map concat]. rewrite app_nil_r, andb_true_r. apply andb_true_iff in E. destruct E as [E1 E2].
    apply N.eqb_eq in E1. apply beq_eq in E2. subst level n.
    destruct (beq h x) eqn:E3; [|reflexivity]. apply beq_eq in E3. subst x. cbn [set_summary d_insts].
    rewrite instances_warn_of. reflexivity.
  - rewrite andb_false_r. destruct (beq h x); reflexivity.
Qed.

Lemma absorb_summary r w x level n :
  summary_in (by_handler (absorb v source h w r)) x level n =
  if beq h x && same_key (r_level r, r_name r) (level, n) then Some (r_summary r) else summary_in (by_handler w) x level n.
Proof.
  unfold absorb. rewrite fold_summary.
  - unfold touch. cbn [by_handler set_by_handler]. rewrite summary_update. reflexivity.
  - unfold touch. cbn [by_handler set_by_handler]. rewrite summary_update, beq_refl'.
    replace (same_key (r_level r, r_name r) (r_level r, r_name r)) with true by (symmetry; apply same_key_eq; reflexivity).
    reflexivity.
Qed.

Lemma absorb_others r w x : x <> h -> get x (by_handler (absorb v source h w r)) = get x (by_handler w).
Proof.
  intros N. unfold absorb. rewrite fold_others by exact N. unfold touch. cbn [by_handler set_by_handler].
  apply get_update_other. congruence.
Qed.

Lemma absorb_test r w t level n :
  instances_in (by_test (absorb v source h w r)) t level n =
  instances_in (by_test w) t level n ++ map seen (filter (fun i => beq (test_tag source i) t) (told [r] level n)).
Proof.
  unfold absorb. rewrite fold_test. unfold touch. cbn [by_test set_by_handler].
  unfold told. cbn [filter]. unfold same_key. cbn [fst snd].
  destruct (N.eqb (r_level r) level && beq (r_name r) n); [cbn [map concat]; rewrite app_nil_r|]; reflexivity.
Qed.

Lemma absorb_count r w n x : counted (by_warning (absorb v source h w r)) n x =
  (counted (by_warning w) n x + (if beq x h then told_count [r] n else 0))%N.
Proof.
  unfold absorb. rewrite fold_count. unfold touch. cbn [by_warning set_by_handler]. f_equal.
  unfold told_count. cbn [filter]. replace (beq x h) with (beq h x).
  - destruct (beq (r_name r) n); cbn [map concat andb]; [rewrite app_nil_r; reflexivity|]. destruct (beq h x); reflexivity.
  - destruct (beq h x) eqn:E1, (beq x h) eqn:E2; auto; [apply beq_eq in E1; subst|apply beq_eq in E2; subst];
      rewrite beq_refl' in *; congruence.
Qed.

Lemma told_cons r l level n : told (r :: l) level n = told [r] level n ++ told l level n.
Proof. unfold told. cbn [filter]. destruct (_ && _); cbn [map concat]; [rewrite app_nil_r|]; reflexivity. Qed.

Lemma told_count_cons r l n : told_count (r :: l) n = (told_count [r] n + told_count l n)%N.
Proof.
  unfold told_count. cbn [filter]. destruct (beq _ _); cbn [map concat]; [|reflexivity].
  rewrite app_nil_r, app_length. lia.
Qed.

Lemma absorbs_handler l : forall w level n,
  instances_in (by_handler (fold_left (absorb v source h) l w)) h level n =
  instances_in (by_handler w) h level n ++ map (kept v source) (told l level n).
Proof.
  induction l as [|r l IH]; intros w level n; cbn [fold_left]; [symmetry; apply app_nil_r|].
  rewrite IH, absorb_handler, beq_refl', (told_cons r l), map_app, app_assoc. reflexivity.
Qed.

Lemma absorbs_only l : forall w level n, (forall r, In r l -> r_level r = level -> r_name r <> n) ->
  summary_in (by_handler (fold_left (absorb v source h) l w)) h level n = summary_in (by_handler w) h level n.
Proof.
  induction l as [|r l IH]; intros w level n H; cbn [fold_left]; [reflexivity|].
  rewrite IH by (intros r' Hr'; apply H; right; exact Hr'). rewrite absorb_summary, beq_refl'. cbn [andb].
  destruct (same_key (r_level r, r_name r) (level, n)) eqn:E; [|reflexivity]. apply same_key_eq in E. injection E as E1 E2.
  exfalso. apply (H r (or_introl eq_refl) E1 E2).
Qed.

Lemma absorbs_summary l : NoDup (map r_name l) -> forall w r, In r l ->
  summary_in (by_handler (fold_left (absorb v source h) l w)) h (r_level r) (r_name r) = Some (r_summary r).
Proof.
  induction l as [|a l IH]; intros ND w r Hr; cbn [fold_left]; [destruct Hr|].
  cbn [map] in ND. inversion ND as [|? ? Na ND']; subst. destruct Hr as [->|Hr]; [|apply IH; assumption].
  rewrite absorbs_only.
  - rewrite absorb_summary, beq_refl'.
    replace (same_key (r_level r, r_name r) (r_level r, r_name r)) with true by (symmetry; apply same_key_eq; reflexivity).
    reflexivity.
  - intros r' Hr' _ E. apply Na. rewrite <- E. apply in_map. exact Hr'.
Qed.

Lemma absorbs_others l : forall w x, x <> h -> get x (by_handler (fold_left (absorb v source h) l w)) = get x (by_handler w).
Proof.
  induction l as [|r l IH]; intros w x N; cbn [fold_left]; [reflexivity|]. rewrite IH, absorb_others by exact N. reflexivity.
Qed.

Lemma absorbs_test l : forall w t level n,
  instances_in (by_test (fold_left (absorb v source h) l w)) t level n =
  instances_in (by_test w) t level n ++ map seen (filter (fun i => beq (test_tag source i) t) (told l level n)).
Proof.
  induction l as [|r l IH]; intros w t level n; cbn [fold_left]; [symmetry; apply app_nil_r|].
  rewrite IH, absorb_test, (told_cons r l), filter_app, map_app, app_assoc. reflexivity.
Qed.

Lemma absorbs_count l : forall w n x, counted (by_warning (fold_left (absorb v source h) l w)) n x =
  (counted (by_warning w) n x + (if beq x h then told_count l n else 0))%N.
Proof.
  induction l as [|r l IH]; intros w n x; cbn [fold_left].
  - unfold told_count. cbn. destruct (beq x h); lia.
  - rewrite IH, absorb_count, (told_count_cons r l). destruct (beq x h); lia.
Qed.

Lemma kept_ok is : Forall2 (kept_as v source) is (map (kept v source) is).
Proof.
  induction is as [|i is IH]; constructor; [|assumption]. repeat split.
  unfold readable. cbn. destruct (i_record i); reflexivity.
Qed.
Lemma seen_ok is : Forall2 (seen_as v h) is (map seen is).
Proof.
  induction is as [|i is IH]; constructor; [|assumption]. repeat split.
  unfold readable. cbn. destruct (i_record i); reflexivity.
Qed.
End Observed.

(** ** The order of printing does not matter *)

Lemma filter_perm {A} (f : A -> bool) l l' : Permutation l l' -> Permutation (filter f l) (filter f l').
Proof.
  induction 1; cbn.
  - constructor.
  - destruct (f x); [constructor|]; assumption.
  - destruct (f x), (f y); try apply Permutation_refl. constructor.
  - eapply Permutation_trans; eauto.
Qed.

Lemma same_name_one l n : NoDup (map r_name l) -> forall (p : instances -> bool), (forall r, p r = true -> r_name r = n) ->
  length (filter p l) <= 1.
Proof.
  induction l as [|r l IH]; intros ND p H; cbn; [lia|]. cbn in ND. inversion ND as [|? ? Nr ND']; subst.
  destruct (p r) eqn:E; [|apply IH; assumption]. cbn.
  assert (K : filter p l = []).
  { destruct (filter p l) as [|r' rest] eqn:Ef; [reflexivity|]. exfalso. apply Nr.
    assert (I : In r' (filter p l)) by (rewrite Ef; left; reflexivity). apply filter_In in I. destruct I as [I1 I2].
    rewrite (H r E), <- (H r' I2). apply in_map. exact I1. }
  rewrite K. cbn. lia.
Qed.

Lemma filter_one_perm l l' n (p : instances -> bool) : Permutation l l' -> NoDup (map r_name l) ->
  (forall r, p r = true -> r_name r = n) -> filter p l = filter p l'.
Proof.
  intros P ND H. pose proof (filter_perm p l l' P) as Q. pose proof (same_name_one l n ND p H) as L.
  destruct (filter p l) as [|a [|b t]].
  - apply Permutation_nil in Q. congruence.
  - apply Permutation_length_1_inv in Q. congruence.
  - cbn in L. lia.
Qed.

Lemma told_perm l l' level n : Permutation l l' -> NoDup (map r_name l) -> told l level n = told l' level n.
Proof.
  intros P ND. unfold told. rewrite (filter_one_perm l l' n); auto. intros r E. apply andb_true_iff in E.
  destruct E as [_ E]. apply beq_eq in E. exact E.
Qed.
Lemma told_count_perm l l' n : Permutation l l' -> NoDup (map r_name l) -> told_count l n = told_count l' n.
Proof.
  intros P ND. unfold told_count. rewrite (filter_one_perm l l' n); auto. intros r E. apply beq_eq in E. exact E.
Qed.

Lemma split_levels levels l : NoDup levels -> (forall r : instances, In r l -> In (r_level r) levels) ->
  Permutation l (concat (map (fun level => filter (fun r => N.eqb (r_level r) level) l) levels)).
Proof.
  revert l. induction levels as [|x levels IH]; intros l ND H.
  - destruct l as [|r l]; [constructor|]. destruct (H r (or_introl eq_refl)).
  - inversion ND as [|? ? Nx ND']; subst. cbn [map concat].
    assert (E : forall level, In level levels ->
      filter (fun r => N.eqb (r_level r) level) l = filter (fun r => N.eqb (r_level r) level) (filter (fun r => negb (N.eqb (r_level r) x)) l)).
    { intros level Hl. symmetry. apply PropWarnings.filter_filter_sub. intros r Hr. apply N.eqb_eq in Hr. apply negb_true_iff, N.eqb_neq. intros E1. apply Nx. rewrite <- E1, Hr. exact Hl. }
    assert (E2 : map (fun level => filter (fun r => N.eqb (r_level r) level) l) levels =
      map (fun level => filter (fun r => N.eqb (r_level r) level) (filter (fun r => negb (N.eqb (r_level r) x)) l)) levels).
    { apply map_ext_in. exact E. }
    rewrite E2, <- IH.
    + clear. induction l as [|r l IH]; cbn; [constructor|]. destruct (N.eqb (r_level r) x); cbn.
      * constructor. exact IH.
      * apply Permutation_cons_app. exact IH.
    + exact ND'.
    + intros r Hr. apply filter_In in Hr. destruct Hr as [Hr Hx]. apply negb_true_iff, N.eqb_neq in Hx.
      destruct (H r Hr) as [K|K]; [symmetry in K; contradiction|exact K].
Qed.

Lemma groups_perm l : (forall r, In r l -> In (r_level r) level_order) ->
  Permutation l (concat (map (level_group l) level_order)).
Proof.
  intros H. eapply Permutation_trans; [apply (split_levels level_order l); [|exact H]|].
  - repeat constructor; cbn; intuition discriminate.
  - assert (K : forall levels, Permutation (concat (map (fun level => filter (fun r => N.eqb (r_level r) level) l) levels))
                                           (concat (map (level_group l) levels))).
    { induction levels as [|x levels IH]; [constructor|]. cbn [map concat]. apply Permutation_app; [|exact IH].
      apply sort_by_perm. }
    apply K.
Qed.

Lemma report_effect_reads v source lookup name l w :
  NoDup (map r_name l) -> Forall (good_warning (v_casing v)) l ->
  reads_report v source (tag_of lookup name) l w (report_effect v source lookup name l w).
Proof.
  intros ND G. unfold report_effect, reads_report. set (h := tag_of lookup name).
  assert (NH : by_handler (name_effect v lookup name w) = by_handler w) by (unfold name_effect; destruct (get name lookup); reflexivity).
  assert (NT : by_test (name_effect v lookup name w) = by_test w) by (unfold name_effect; destruct (get name lookup); reflexivity).
  assert (NC : by_warning (name_effect v lookup name w) = by_warning w) by (unfold name_effect; destruct (get name lookup); reflexivity).
  destruct l as [|r0 l0] eqn:El.
  - constructor; unfold wipe; cbn [by_handler by_test by_warning set_by_handler]; try assumption.
    + intros level n. unfold instances_in, summary_in. rewrite get_put_same. auto.
    + intros x Nx. rewrite get_put_other by congruence. rewrite NH. reflexivity.
  - rewrite <- El in *. clear El.
    assert (L : forall r, In r l -> In (r_level r) level_order).
    { rewrite Forall_forall in G. intros r Hr. apply G in Hr. apply Hr. }
    pose proof (groups_perm l L) as P. set (l' := concat (map (level_group l) level_order)) in *.
    assert (ND' : NoDup (map r_name l')) by (apply (Permutation_NoDup (Permutation_map r_name P)); exact ND).
    constructor.
    + intros level n. exists (map (kept v source) (told l level n)). split; [|apply kept_ok].
      rewrite absorbs_handler, NH, (told_perm l l' level n P ND). reflexivity.
    + intros r Hr. apply absorbs_summary; [exact ND'|]. apply (Permutation_in _ P). exact Hr.
    + intros level n H. rewrite absorbs_only, NH; [reflexivity|]. intros r Hr. apply H.
      apply (Permutation_in _ (Permutation_sym P)). exact Hr.
    + intros x Nx. rewrite absorbs_others by exact Nx. rewrite NH. reflexivity.
    + intros t level n. exists (map (seen v source h) (filter (fun i => beq (test_tag source i) t) (told l level n))).
      split; [|apply seen_ok]. rewrite absorbs_test, NT, (told_perm l l' level n P ND). reflexivity.
    + intros n x. rewrite absorbs_count, NC, (told_count_perm l l' n P ND). reflexivity.
Qed.

(** ** C36 *)

Lemma short_lines_ok ls p : short_lines (printed p ls) -> Forall (fun l => without newline l = true) (map (full p) ls) ->
  Forall short (map (full p) ls).
Proof.
  intros H W. apply Forall_forall. intros l Hl. rewrite printed_full in H.
  assert (W' := W). rewrite Forall_forall in W'. specialize (W' l Hl). apply in_split in Hl. destruct Hl as (a & b & E).
  rewrite E in H. rewrite map_app, concat_app in H. cbn [map concat] in H.
  apply (H (concat (map (fun l => l ++ [newline]) a)) l (newline :: concat (map (fun l => l ++ [newline]) b))).
  - f_equal. rewrite <- app_assoc. reflexivity.
  - apply one_line_without. exact W'.
Qed.

Definition reports_text (p : bytes) (reports : list (bytes * list instances)) : bytes :=
  concat (map (fun x => show_list (fst x) p (snd x)) reports).

Section Text.
Variables (v : world) (source : bytes) (lookup : gomap bytes) (p : bytes).
Hypothesis ok : casing_ok (v_casing v).
Hypothesis pok : prefix_ok p.

Lemma loop_reports reports : forall s, Forall (readable_report v lookup) reports ->
  exists s', parse_loop v source lookup None (rd p (concat (map (fun x => report_lines (fst x) (snd x)) reports))) s = Some s' /\
             p_data s' = fold_left (fun w x => report_effect v source lookup (fst x) (snd x) w) reports (settled v s).
Proof.
  induction reports as [|[name l] reports IH]; intros s G.
  - exists (save v s). split; reflexivity.
  - inversion G as [|? ? (G1 & G2 & G3 & G4) G']; subst. cbn [map concat fst snd] in *. rewrite rd_app.
    destruct (loop_report v source lookup ok p pok name l s
                (rd p (concat (map (fun x => report_lines (fst x) (snd x)) reports))) G1 G2 G4) as (s1 & E1 & P1).
    destruct (IH s1 G') as (s2 & E2 & P2). exists s2. split; [congruence|]. rewrite P2, P1. reflexivity.
Qed.

Lemma prefix_without : without newline p = true.
Proof. destruct pok as [-> | ->]; reflexivity. Qed.

Lemma parse_reports reports w : Forall (readable_report v lookup) reports -> short_lines (reports_text p reports) ->
  parse_warning_data v source lookup (reports_text p reports) w =
  Some (fold_left (fun w x => report_effect v source lookup (fst x) (snd x) w) reports w, false).
Proof.
  intros G S. set (ls := concat (map (fun x => report_lines (fst x) (snd x)) reports)).
  assert (E : reports_text p reports = printed p ls).
  { apply (printed_concat p (fun x : bytes * list instances => show_list (fst x) p (snd x))
             (fun x => report_lines (fst x) (snd x))).
    intros [name l] Hx. apply show_list_lines. rewrite Forall_forall in G. apply G in Hx. apply Hx. }
  assert (W : Forall (fun l => without newline l = true) (map (full p) ls)).
  { apply Forall_map. apply Forall_concat, Forall_map. revert G. apply Forall_impl. intros [name l] (G1 & G2 & G3 & G4).
    pose proof (report_lines_whole (v_casing v) name l G1 G4) as K. revert K. apply Forall_impl. intros x Hx.
    unfold full. rewrite without_app, prefix_without. exact Hx. }
  rewrite E in S |- *. pose proof (short_lines_ok ls p S W) as Sh.
  unfold parse_warning_data, scan. rewrite printed_full, raw_lines_concat by exact W. rewrite until_long_short by exact Sh.
  destruct (loop_reports reports (start w) G) as (s' & E1 & P). fold ls in E1. unfold rd in E1. rewrite map_map.
  rewrite E1, P. reflexivity.
Qed.
End Text.

(** The round trip: however many reports a text contains, parsing it with either
    prefix yields what the reports say, and nothing else. *)
Theorem C36_round_trip v source lookup p reports w :
  casing_ok (v_casing v) -> p = [] \/ p = B "# " ->
  Forall (readable_report v lookup) reports -> short_lines (reports_text p reports) ->
  exists w', parse_warning_data v source lookup (reports_text p reports) w = Some (w', false) /\
             reads_reports v source lookup reports w w'.
Proof.
  intros ok pok G S. eexists. split; [apply parse_reports; assumption|]. clear S.
  revert w. induction G as [|[name l] reports (G1 & G2 & G3 & G4) _ IH]; intros w; cbn [fold_left].
  - constructor.
  - econstructor; [|apply IH]. apply report_effect_reads; assumption.
Qed.
Print Assumptions C36_round_trip.
