(** Properties of the end of a test program (WithWarnings): C65. *)

From Coq Require Import Ascii String List NArith Bool Arith Lia Permutation Sorted.
From Verif Require Import Bytes BytesProofs GoSort Regex RegexProofs Replace Warnings WarnParser SpecReport WarnRoundTrip
  WarnEffects PropWarnings PropReport PropText PropReplace WarningsMain.
From Verif Require PropMerge.
Import ListNotations.
Local Open Scope list_scope.

(** ** Specification *)

(** The managers shown: the last one created under each name, by increasing name. *)
Definition final_managers (created ms : list manager) : Prop :=
  StronglySorted (fun a b => blt (m_name a) (m_name b) = true) ms /\
  forall m, In m ms <-> exists a b, created = a ++ m :: b /\ forall x, In x b -> m_name x <> m_name m.

(** Handler [h] reports a warning that it has predefined as [k] ([None]: not at all). *)
Definition noted (ms : list manager) (h : bytes) (k : option warning) : Prop :=
  exists m r, In m ms /\ m_name m = h /\ In r (report m) /\ In (r_level r) level_order /\ get (r_name r) (m_predefined m) = k.

(** Managers of handlers that reported something not predefined. *)
Definition unlisted (ms : list manager) : Prop := exists h, noted ms h None.

(** Two predefined warnings of the same name are the same. *)
Definition one_name (ms : list manager) : Prop :=
  forall h w h' w', noted ms h (Some w) -> noted ms h' (Some w') -> w_name w = w_name w' -> w = w'.

(** A list of handlers by warning, by level. *)
Definition entry_of : Type := (warning * list bytes)%type.
Definition listing : Type := list (N * list entry_of).

Definition full_line (p s : bytes) : bytes := p ++ s ++ [newline].
Definition entry_text (p : bytes) (e : entry_of) : bytes :=
  full_line p (B "    [" ++ w_name (fst e) ++ B "] " ++ w_summary (fst e)) ++
  concat (map (fun h => full_line p (B "      " ++ h)) (snd e)).
Definition level_text (p : bytes) (x : N * list entry_of) : bytes :=
  full_line p (B "  " ++ level_string (fst x)) ++ concat (map (entry_text p) (snd x)).
Definition listing_text (p : bytes) (ls : listing) : bytes :=
  full_line p [] ++ full_line p (B " Handlers by warning:") ++ concat (map (level_text p) ls).

(** Levels decreasing, names increasing, no warning and no handler twice, nothing empty, and
    exactly what the reports say. *)
Record right_listing (ms : list manager) (ls : listing) : Prop := {
  by_level : StronglySorted (fun a b => (fst b < fst a)%N) ls;
  no_empty : forall level es, In (level, es) ls -> es <> [];
  by_names : forall level es, In (level, es) ls -> StronglySorted (fun a b => blt (w_name (fst a)) (w_name (fst b)) = true) es;
  warnings_right : forall level w, (exists es hs, In (level, es) ls /\ In (w, hs) es) <->
    In level level_order /\ w_level w = level /\ exists h, noted ms h (Some w);
  handlers_right : forall level es w hs, In (level, es) ls -> In (w, hs) es ->
    hs <> [] /\ NoDup hs /\ forall h, In h hs <-> noted ms h (Some w)
}.

(** The prefix: that of the first manager that has one. *)
Definition first_of (ms : list manager) (p : bytes) : Prop :=
  (p = [] /\ forall m, In m ms -> m_prefix m = []) \/
  (p <> [] /\ exists a m b, ms = a ++ m :: b /\ m_prefix m = p /\ forall x, In x a -> m_prefix x = []).

(** ** The managers *)

Lemma managers_spec created : forall acc, wf acc -> wf (fold_left (fun ms m => put (m_name m) m ms) created acc) /\
  forall n, get n (fold_left (fun ms m => put (m_name m) m ms) created acc) =
    match List.find (fun m => beq (m_name m) n) (rev created) with Some m => Some m | None => get n acc end.
Proof.
  induction created as [|m created IH]; intros acc W; [split; [exact W|reflexivity]|].
  cbn [fold_left]. destruct (IH (put (m_name m) m acc) (wf_put _ _ _ W)) as [I1 I2]. split; [exact I1|].
  intros n. rewrite I2. cbn [rev]. rewrite get_put.
  assert (F : forall l x, List.find (fun m => beq (m_name m) n) (l ++ [x]) =
    match List.find (fun m => beq (m_name m) n) l with Some m => Some m | None => if beq (m_name x) n then Some x else None end).
  { induction l as [|y l IHl]; intros x; cbn [app List.find]; [reflexivity|]. destruct (beq (m_name y) n); [reflexivity|apply IHl]. }
  rewrite F. destruct (List.find _ (rev created)); [reflexivity|]. destruct (beq (m_name m) n); reflexivity.
Qed.

Lemma find_last created n m : List.find (fun m => beq (m_name m) n) (rev created) = Some m <->
  m_name m = n /\ exists a b, created = a ++ m :: b /\ forall x, In x b -> m_name x <> m_name m.
Proof.
  induction created as [|c l IH] using rev_ind.
  - cbn. split; [discriminate|]. intros (_ & a & b & E & _). destruct a; discriminate.
  - rewrite rev_app_distr. cbn [rev app List.find]. destruct (beq (m_name c) n) eqn:D.
    + apply beq_eq in D. split.
      * intros [= <-]. split; [exact D|]. exists l, []. split; [reflexivity|intros x []].
      * intros (E & a & b & F & G). destruct b as [|y b] using rev_ind; [apply app_inj_tail in F as [_ ->]; reflexivity|].
        rewrite app_comm_cons, app_assoc in F. apply app_inj_tail in F as [_ <-]. exfalso. apply (G c); [apply in_app_iff; right; now left|congruence].
    + apply beq_neq in D. rewrite IH. split.
      * intros (E & a & b & -> & G). split; [exact E|]. exists a, (b ++ [c]). split; [now rewrite <- app_assoc|].
        intros x X. apply in_app_iff in X as [X|[<-|[]]]; [now apply G|congruence].
      * intros (E & a & b & F & G). split; [exact E|]. destruct b as [|y b _] using rev_ind.
        { apply app_inj_tail in F as [_ ->]. now destruct D. }
        rewrite app_comm_cons, app_assoc in F. apply app_inj_tail in F as [-> _]. exists a, b. split; [reflexivity|].
        intros x X. apply G, in_app_iff. now left.
Qed.

Lemma managers_named_in ms : (forall n m, get n ms = Some m -> m_name m = n) -> forall names m,
  In m (managers_named names ms) <-> In (m_name m) names /\ get (m_name m) ms = Some m.
Proof.
  intros K. induction names as [|n names IH]; intros m; cbn [managers_named In]; [tauto|].
  destruct (get n ms) as [x|] eqn:E; cbn [In]; rewrite IH.
  - split; [intros [<-|[X Y]]|intros [[->|X] Y]]; auto.
    + rewrite (K _ _ E). auto.
    + left. congruence.
  - split; [intros [X Y]; auto|]. intros [[->|X] Y]; [congruence|auto].
Qed.

Lemma strict_sorted (l : list bytes) : NoDup l -> StronglySorted (fun a b => blt b a = false) l -> StronglySorted (fun a b => blt a b = true) l.
Proof.
  intros N S. induction S as [|x l S IH F]; [constructor|]. inversion N; subst. constructor; [auto|].
  rewrite Forall_forall in *. intros y Y. destruct (blt x y) eqn:D; [reflexivity|].
  specialize (F y Y). rewrite (blt_antisym _ _ D F) in *. contradiction.
Qed.

Lemma ordered_final created : final_managers created (ordered_managers created).
Proof.
  unfold ordered_managers. destruct (managers_spec created [] wf_nil) as [W G]. fold (managers created) in W, G.
  assert (K : forall n m, get n (managers created) = Some m -> m_name m = n).
  { intros n m. rewrite G. cbn [get]. destruct (List.find _ (rev created)) eqn:E; [|discriminate]. intros [= ->].
    now apply find_last in E. }
  split.
  - assert (S : StronglySorted (fun a b => blt a b = true) (sort_by blt (keys (managers created)))).
    { apply strict_sorted; [|apply (sort_by_ok blt blt_weak)]. apply (Permutation_NoDup (sort_by_perm blt _)). exact W. }
    induction S as [|n names S IH F]; cbn [managers_named]; [constructor|].
    destruct (get n (managers created)) as [m|] eqn:E; [|exact IH]. constructor; [exact IH|].
    rewrite Forall_forall in *. intros x X. apply (managers_named_in _ K) in X as [X _]. rewrite (K _ _ E). now apply F.
  - intros m. rewrite (managers_named_in _ K). split.
    + intros [_ X]. rewrite G in X. cbn [get] in X. destruct (List.find _ (rev created)) eqn:E; [|discriminate].
      injection X as ->. now apply find_last in E.
    + intros X. assert (Y : get (m_name m) (managers created) = Some m).
      { rewrite G. rewrite (proj2 (find_last created (m_name m) m)); [reflexivity|]. split; [reflexivity|exact X]. }
      split; [|exact Y]. apply (Permutation_in _ (sort_by_perm blt _)). apply get_keys. eauto.
Qed.

Lemma sorted_same {A} (R : A -> A -> Prop) l1 : (forall a, ~ R a a) -> (forall a b, R a b -> R b a -> False) -> forall l2,
  StronglySorted R l1 -> StronglySorted R l2 -> (forall x, In x l1 <-> In x l2) -> l1 = l2.
Proof.
  intros I T. induction l1 as [|a l1 IH]; intros [|b l2] S1 S2 E.
  - reflexivity.
  - destruct (proj2 (E b)). now left.
  - destruct (proj1 (E a)). now left.
  - inversion S1 as [|? ? S1' F1]; inversion S2 as [|? ? S2' F2]; subst. rewrite Forall_forall in *.
    assert (a = b).
    { destruct (proj1 (E a) (or_introl eq_refl)) as [X|X]; [auto|]. destruct (proj2 (E b) (or_introl eq_refl)) as [Y|Y]; [auto|].
      destruct (T a b); auto. }
    subst b. f_equal. apply IH; auto. intros x. split; intros X.
    + destruct (proj1 (E x) (or_intror X)) as [Y|Y]; [|exact Y]. subst x. destruct (I a). auto.
    + destruct (proj2 (E x) (or_intror X)) as [Y|Y]; [|exact Y]. subst x. destruct (I a). auto.
Qed.

Lemma final_unique created ms ms' : final_managers created ms -> final_managers created ms' -> ms = ms'.
Proof.
  intros [S1 E1] [S2 E2]. apply (sorted_same (fun a b => blt (m_name a) (m_name b) = true)); [| |exact S1|exact S2|].
  - intros a. rewrite blt_irrefl. discriminate.
  - intros a b X Y. apply blt_asym in X. congruence.
  - intros x. now rewrite E1, E2.
Qed.

(** ** What is tracked *)

Lemma same_warning_eq a b : same_warning a b = true <-> a = b.
Proof.
  destruct a as [[l n s]|], b as [[l' n' s']|]; cbn; split; try discriminate; try reflexivity.
  - rewrite !andb_true_iff, N.eqb_eq, !beq_eq. intros [[-> ->] ->]. reflexivity.
  - intros [= -> -> ->]. rewrite N.eqb_refl, !beq_refl. reflexivity.
Qed.
Lemma same_warning_refl a : same_warning a a = true.
Proof. now apply same_warning_eq. Qed.

Lemma track_keys w h t k : In k (map fst (track w h t)) <-> k = w \/ In k (map fst t).
Proof.
  induction t as [|[x hs] t IH]; cbn [track map fst In]; [intuition|].
  destruct (same_warning x w) eqn:D; cbn [map fst In].
  - apply same_warning_eq in D. subst. intuition.
  - rewrite IH. intuition.
Qed.
Lemma track_nodup w h t : NoDup (map fst t) -> NoDup (map fst (track w h t)).
Proof.
  induction t as [|[x hs] t IH]; cbn [track map fst]; intros N; [repeat constructor; intros []|].
  inversion N; subst. destruct (same_warning x w) eqn:D; cbn [map fst]; [constructor; auto|].
  constructor; [|auto]. rewrite track_keys. intros [->|X]; [|contradiction]. rewrite same_warning_refl in D. discriminate.
Qed.
Lemma tracked_track w h t k : tracked_by k (track w h t) =
  if same_warning w k then (if existsb (beq h) (tracked_by k t) then tracked_by k t else tracked_by k t ++ [h]) else tracked_by k t.
Proof.
  induction t as [|[x hs] t IH]; cbn [track tracked_by].
  - destruct (same_warning w k); reflexivity.
  - destruct (same_warning x w) eqn:D; cbn [tracked_by].
    + apply same_warning_eq in D. subst x. destruct (same_warning w k); reflexivity.
    + destruct (same_warning x k) eqn:E.
      * apply same_warning_eq in E. subst x. destruct (same_warning w k) eqn:F; [|reflexivity].
        apply same_warning_eq in F. subst. rewrite same_warning_refl in D. discriminate.
      * rewrite IH. reflexivity.
Qed.

Local Notation event := (option warning * bytes)%type.
Definition events (ms : list manager) : list event :=
  concat (map (fun m => map (fun r => (get (r_name r) (m_predefined m), m_name m)) (shown_records (report m))) ms).

Lemma tracks_events ms : forall t, fold_left track_manager ms t = fold_left (fun t e => track (fst e) (snd e) t) (events ms) t.
Proof.
  induction ms as [|m ms IH]; intros t; [reflexivity|]. unfold events. cbn [fold_left map concat]. rewrite fold_left_app.
  fold (events ms). rewrite IH. f_equal. unfold track_manager. generalize (shown_records (report m)). intros l. revert t.
  induction l as [|r l IHl]; intros t; [reflexivity|]. cbn [fold_left map fst snd]. apply IHl.
Qed.

Lemma events_noted ms k h : In (k, h) (events ms) <-> noted ms h k.
Proof.
  unfold events, noted. rewrite in_concat. split.
  - intros (l & L & I). apply in_map_iff in L as (m & <- & M). apply in_map_iff in I as (r & [= <- <-] & R).
    exists m, r. unfold shown_records in R. apply in_concat in R as (x & X & R). apply in_map_iff in X as (level & <- & X).
    apply (Permutation_in _ (Permutation_sym (sort_by_perm _ _))) in R. apply filter_In in R as [R E]. apply N.eqb_eq in E. subst level. auto.
  - intros (m & r & M & <- & R & L & <-). eexists. split; [apply in_map_iff; exists m; split; [reflexivity|exact M]|].
    apply in_map_iff. exists r. split; [reflexivity|]. unfold shown_records. apply in_concat. eexists.
    split; [apply in_map_iff; exists (r_level r); split; [reflexivity|exact L]|].
    apply (Permutation_in _ (sort_by_perm _ _)), filter_In. split; [exact R|apply N.eqb_refl].
Qed.

Definition tracks (t : tracked) (es : list event) : Prop :=
  NoDup (map fst t) /\ (forall k, In k (map fst t) <-> exists h, In (k, h) es) /\
  forall k, NoDup (tracked_by k t) /\ forall h, In h (tracked_by k t) <-> In (k, h) es.

Definition track_event (t : tracked) (e : event) : tracked := track (fst e) (snd e) t.

Lemma tracks_all es : tracks (fold_left track_event es []) es.
Proof.
  induction es as [|[w h] es IH] using rev_ind.
  - split; [constructor|]. split; [|intros k; split; [constructor|reflexivity]]. intros k. cbn. split; [intros []|intros (h & [])].
  - assert (E0 : fold_left track_event (es ++ [(w, h)]) [] = track w h (fold_left track_event es [])) by now rewrite fold_left_app.
    rewrite E0. set (t := fold_left track_event es []) in *. clearbody t. destruct IH as (I1 & I2 & I3).
    split; [now apply track_nodup|]. split.
    + intros k. rewrite track_keys, I2. split.
      * intros [->|[x X]]; [exists h; apply in_app_iff; right; now left|]. exists x. apply in_app_iff. now left.
      * intros [x X]. apply in_app_iff in X as [X|[X|[]]]; [right; eauto|]. left. congruence.
    + intros k. rewrite tracked_track. destruct (I3 k) as [N M]. destruct (same_warning w k) eqn:D.
      * apply same_warning_eq in D. subst k. destruct (existsb (beq h) (tracked_by w t)) eqn:E.
        { split; [exact N|]. intros x. rewrite M. split; intros X; [apply in_app_iff; now left|].
          apply in_app_iff in X as [X|[X|[]]]; [exact X|]. injection X as ->. apply existsb_exists in E as (y & Y & E). apply beq_eq in E. subst y.
          now apply M. }
        { assert (NI : ~ In h (tracked_by w t)).
          { intros X. assert (F : existsb (beq h) (tracked_by w t) = true) by (apply existsb_exists; exists h; split; [exact X|apply beq_refl]). congruence. }
          split.
          - apply (Permutation_NoDup (Permutation_cons_append _ _)). constructor; assumption.
          - intros x. rewrite in_app_iff, M, in_app_iff. cbn [In]. split; (intros [X|[X|[]]]; [now left|right; left; congruence]). }
      * split; [exact N|]. intros x. rewrite M, in_app_iff. cbn [In]. split; [now left|]. intros [X|[X|[]]]; [exact X|].
        injection X as -> _. rewrite same_warning_refl in D. discriminate.
Qed.

(** ** The listing *)

Lemma no_nil_spec order : match no_nil order with Some ws => order = map Some ws | None => In None order end.
Proof.
  induction order as [|[w|] order IH]; cbn [no_nil]; [reflexivity| |now left].
  destruct (no_nil order); cbn [option_map map]; [now rewrite IH|now right].
Qed.

Lemma sort_map {A} (f : A -> bytes) (l : list A) : sort_by blt (map f l) = map f (sort_by (on f blt) l).
Proof.
  induction l as [|x l IH]; [reflexivity|]. cbn [map sort_by]. rewrite IH. generalize (sort_by (on f blt) l). intros s.
  induction s as [|y s IHs]; [reflexivity|]. cbn [map insert_by]. unfold on at 1. destruct (blt (f y) (f x)); cbn [map]; [now rewrite IHs|reflexivity].
Qed.

Section Listing.
Variables (p : bytes) (t : tracked) (ws : list warning).
Hypothesis names_ok : forall w w', In w ws -> In w' ws -> w_name w = w_name w' -> w = w'.

Lemma last_named_in w : In w ws -> last_named (w_name w) ws = Some w.
Proof.
  intros I. unfold last_named. destruct (List.find _ (rev ws)) as [x|] eqn:E.
  - apply find_some in E as [E1 E2]. apply beq_eq in E2. apply in_rev in E1. f_equal. now apply names_ok.
  - apply in_rev in I. pose proof (find_none _ _ E w I) as N. cbn in N. rewrite beq_refl in N. discriminate.
Qed.

Definition entry_ok (e : entry_of) : Prop := Permutation (tracked_by (Some (fst e)) t) (snd e).

Lemma warnings_shown l : (forall w, In w l -> In w ws) -> forall blocks,
  Forall2 (shows_warning p t ws) (map w_name l) blocks ->
  exists es, map fst es = l /\ Forall entry_ok es /\ concat blocks = concat (map (entry_text p) es).
Proof.
  induction l as [|w l IH]; intros H blocks F; inversion F as [|? b ? bs S F']; subst.
  - exists []. repeat split. constructor.
  - destruct (IH (fun x X => H x (or_intror X)) bs F') as (es & E1 & E2 & E3). destruct S as (x & hs & X & P & ->).
    rewrite last_named_in in X by (apply H; now left). injection X as <-.
    exists ((w, hs) :: es). cbn [map fst concat]. rewrite E1, E3. repeat split. constructor; [exact P|exact E2].
Qed.

Definition level_ok (x : N * list entry_of) : Prop :=
  snd x <> [] /\ map fst (snd x) = sort_by (on w_name blt) (filter (fun w => N.eqb (w_level w) (fst x)) ws) /\ Forall entry_ok (snd x).

Lemma levels_shown levels : forall parts, Forall2 (shows_level p t ws) levels parts ->
  exists ls, map fst ls = filter (fun level => existsb (fun w => N.eqb (w_level w) level) ws) levels /\
    Forall level_ok ls /\ concat parts = concat (map (level_text p) ls).
Proof.
  assert (FE : forall level, existsb (fun w => N.eqb (w_level w) level) ws =
    match filter (fun w => N.eqb (w_level w) level) ws with [] => false | _ => true end).
  { intros level. induction ws as [|w l IH]; [reflexivity|]. cbn [existsb filter]. destruct (N.eqb (w_level w) level); [reflexivity|].
    apply IH. intros a b A B. apply names_ok; now right. }
  induction levels as [|level levels IH]; intros parts F; inversion F as [|? q ? qs S F']; subst.
  - exists []. repeat split. constructor.
  - destruct (IH qs F') as (ls & L1 & L2 & L3). cbn [filter concat]. rewrite FE. unfold shows_level in S.
    destruct (filter (fun w => N.eqb (w_level w) level) ws) as [|w0 here] eqn:E.
    + subst q. exists ls. auto.
    + destruct S as (blocks & S & ->). rewrite <- E, sort_map in S. apply warnings_shown in S.
      * destruct S as (es & E1 & E2 & E3). exists ((level, es) :: ls). cbn [map fst concat]. rewrite L1, E3, L3.
        repeat split. constructor; [|exact L2]. split; [|split; assumption]. cbn [snd]. intros ->. cbn in E1. rewrite E in E1.
        assert (X : Permutation (w0 :: here) []) by (rewrite E1; apply sort_by_perm). apply Permutation_sym, Permutation_nil in X. discriminate.
      * intros w W. apply (Permutation_in _ (Permutation_sym (sort_by_perm _ _))) in W. now apply filter_In in W.
Qed.
End Listing.

Lemma sorted_filter {A} (R : A -> A -> Prop) f l : StronglySorted R l -> StronglySorted R (filter f l).
Proof.
  induction 1 as [|x l S IH F]; cbn [filter]; [constructor|]. destruct (f x); [|exact IH]. constructor; [exact IH|].
  rewrite Forall_forall in *. intros y Y. apply filter_In in Y. apply F, Y.
Qed.
Lemma sorted_map {A C} (R : C -> C -> Prop) (f : A -> C) l : StronglySorted R (map f l) <-> StronglySorted (fun a b => R (f a) (f b)) l.
Proof.
  induction l as [|x l IH]; [split; constructor|]. cbn [map]. split; intros S; inversion S as [|? ? S' F]; subst; constructor; try (now apply IH).
  - rewrite Forall_forall in *. intros y Y. apply F. now apply in_map.
  - rewrite Forall_forall in *. intros y Y. apply in_map_iff in Y as (z & <- & Z). now apply F.
Qed.

Lemma first_prefix_ok ms : first_of ms (first_prefix ms).
Proof.
  induction ms as [|m ms IH]; cbn [first_prefix]; [left; split; [reflexivity|intros m []]|].
  destruct (m_prefix m) as [|c q] eqn:E.
  - destruct IH as [[-> H]|(N & a & x & b & -> & P & H)].
    + left. split; [reflexivity|]. intros y [<-|Y]; auto.
    + right. split; [exact N|]. exists (m :: a), x, b. split; [reflexivity|]. split; [exact P|]. intros y [<-|Y]; auto.
  - right. split; [discriminate|]. exists [], m, ms. split; [reflexivity|]. split; [exact E|intros y []].
Qed.

Lemma listing_shown ms p out : one_name ms -> show_handlers_by_warning p (fold_left track_manager ms []) out ->
  (out = None <-> unlisted ms) /\
  forall text, out = Some text ->
    (text = [] /\ (forall h k, ~ noted ms h k)) \/
    ((exists h w, noted ms h (Some w)) /\ exists ls, right_listing ms ls /\ text = listing_text p ls).
Proof.
  intros O (order & P & S). rewrite tracks_events in P, S. destruct (tracks_all (events ms)) as (N & K & H).
  change (fun t e => track (fst e) (snd e) t) with track_event in P, S. set (t := fold_left track_event (events ms) []) in *. clearbody t.
  assert (K' : forall k, In k order <-> exists h, noted ms h k).
  { intros k. split.
    - intros X. apply (Permutation_in _ (Permutation_sym P)), K in X as (h & X). exists h. now apply events_noted.
    - intros (h & X). apply (Permutation_in _ P), K. exists h. now apply events_noted. }
  pose proof (no_nil_spec order) as NN. destruct (no_nil order) as [ws|].
  2:{ subst out. split; [|discriminate]. split; [|reflexivity]. intros _. now apply K' in NN. }
  assert (WS : forall w, In w ws <-> exists h, noted ms h (Some w)).
  { intros w. rewrite <- K', NN, in_map_iff. split; [eauto|]. intros (x & [= ->] & X). exact X. }
  assert (ND : NoDup ws).
  { apply (NoDup_map_inv Some). rewrite <- NN. exact (Permutation_NoDup P N). }
  assert (NU : ~ unlisted ms).
  { intros U. apply K' in U. rewrite NN in U. apply in_map_iff in U as (x & X & _). discriminate. }
  assert (NO : forall w w', In w ws -> In w' ws -> w_name w = w_name w' -> w = w').
  { intros w w' W W'. apply WS in W as [h W]. apply WS in W' as [h' W']. exact (O _ _ _ _ W W'). }
  destruct ws as [|w0 ws0].
  - subst out. split; [split; [discriminate|intros U; now destruct NU]|]. intros text [= <-]. left. split; [reflexivity|].
    intros h k X. assert (I : In k order) by (apply K'; eauto). rewrite NN in I. destruct I.
  - set (ws := w0 :: ws0) in *. destruct S as (parts & F & ->). split; [split; [discriminate|intros U; now destruct NU]|].
    intros text [= <-]. right. split; [destruct (proj1 (WS w0) (or_introl eq_refl)) as [h X]; eauto|].
    destruct (levels_shown p t ws NO level_order parts F) as (ls & L1 & L2 & L3). exists ls. split; [|unfold listing_text; now rewrite L3].
    assert (EN : forall level es w, In (level, es) ls -> (exists hs, In (w, hs) es) <-> In w ws /\ w_level w = level).
    { intros level es w I. rewrite Forall_forall in L2. destruct (L2 _ I) as (_ & M & _). cbn [fst snd] in M.
      rewrite <- N.eqb_eq, <- filter_In with (f := fun w => N.eqb (w_level w) level). split.
      - intros (hs & X). apply (in_map fst) in X. rewrite M in X. exact (Permutation_in _ (Permutation_sym (sort_by_perm _ _)) X).
      - intros X. apply (Permutation_in _ (sort_by_perm (on w_name blt) _)) in X. rewrite <- M in X. apply in_map_iff in X as ([x hs] & <- & X). eauto. }
    constructor.
    + apply sorted_map with (f := fst) (R := fun a b => (b < a)%N). rewrite L1. apply sorted_filter.
      repeat constructor; reflexivity.
    + intros level es I. rewrite Forall_forall in L2. apply (L2 _ I).
    + intros level es I. rewrite Forall_forall in L2. destruct (L2 _ I) as (_ & M & _). cbn [fst snd] in M.
      apply sorted_map with (f := fun e : entry_of => w_name (fst e)) (R := fun a b => blt a b = true).
      assert (MM : map (fun e : entry_of => w_name (fst e)) es = map w_name (map fst es)) by (symmetry; apply map_map).
      rewrite MM, M, <- sort_map. apply strict_sorted; [|apply (sort_by_ok blt blt_weak)].
      apply (Permutation_NoDup (sort_by_perm blt _)).
      assert (NF : NoDup (filter (fun w => N.eqb (w_level w) level) ws)) by now apply NoDup_filter.
      assert (SF : forall w, In w (filter (fun w => N.eqb (w_level w) level) ws) -> In w ws) by (intros w W; now apply filter_In in W).
      revert NF SF. generalize (filter (fun w => N.eqb (w_level w) level) ws). intros l. induction l as [|x l IHl]; intros NF SF; [constructor|].
      inversion NF; subst. cbn [map]. constructor.
      * intros X. apply in_map_iff in X as (y & Y & YI). apply NO in Y; [subst; contradiction| |]; apply SF; [now right|now left].
      * apply IHl; [assumption|]. intros w W. apply SF. now right.
    + intros level w. split.
      * intros (es & hs & I & J). destruct (proj1 (EN _ _ w I) (ex_intro _ hs J)) as [W L]. split; [|split; [exact L|now apply WS]].
        apply (in_map fst) in I. rewrite L1 in I. now apply filter_In in I.
      * intros (I & L & W). apply WS in W. assert (J : In level (map fst ls)).
        { rewrite L1. apply filter_In. split; [exact I|]. apply existsb_exists. exists w. split; [exact W|]. now apply N.eqb_eq. }
        apply in_map_iff in J as ([lv es] & <- & J). cbn [fst] in *. destruct (proj2 (EN _ _ w J) (conj W L)) as [hs Y]. eauto.
    + intros level es w hs I J. destruct (proj1 (EN _ _ w I) (ex_intro _ hs J)) as [W _]. rewrite Forall_forall in L2.
      destruct (L2 _ I) as (_ & _ & Q). rewrite Forall_forall in Q. specialize (Q _ J). unfold entry_ok in Q. cbn [fst snd] in Q.
      destruct (H (Some w)) as [H1 H2].
      assert (H3 : forall h, In h hs <-> noted ms h (Some w)).
      { intros h. rewrite <- events_noted, <- H2. split; intros X; [exact (Permutation_in _ (Permutation_sym Q) X)|exact (Permutation_in _ Q X)]. }
      split; [|split; [exact (Permutation_NoDup Q H1)|exact H3]]. intros ->. apply WS in W as [h X]. now apply H3 in X.
Qed.

(** ** C65 *)

(** What is printed in the end: the report of the last manager of each name, by name; then
    the handlers by warning.  The exit is reached unless a warning was reported that is
    not predefined; the list is then missing. *)
Theorem C65_output created ms out exits : with_warnings_main created out exits -> final_managers created ms -> one_name ms ->
  (exits = false <-> unlisted ms) /\
  exists text p, out = concat (map show_warnings ms) ++ text /\ first_of ms p /\
    ((text = [] /\ (unlisted ms \/ forall h k, ~ noted ms h k)) \/
     (~ unlisted ms /\ (exists h w, noted ms h (Some w)) /\ exists ls, right_listing ms ls /\ text = listing_text p ls)).
Proof.
  unfold with_warnings_main. cbv zeta. intros (listing & S & -> & ->) F O.
  rewrite <- (final_unique _ _ _ F (ordered_final created)) in *. destruct (listing_shown _ _ _ O S) as [N T].
  split; [rewrite <- N; destruct listing; split; congruence|].
  eexists _, _. split; [reflexivity|]. split; [apply first_prefix_ok|]. destruct listing as [text|].
  - destruct (T text eq_refl) as [[-> X]|[X Y]]; [left; auto|]. right. split; [|auto]. intros U. apply N in U. discriminate.
  - left. split; [reflexivity|]. left. now apply N.
Qed.
Print Assumptions C65_output.

(** There are such managers, only one such list, and some output. *)
Theorem C65_exists created : exists ms out exits, final_managers created ms /\ (forall ms', final_managers created ms' -> ms' = ms) /\
  with_warnings_main created out exits.
Proof.
  exists (ordered_managers created).
  enough (exists l, show_handlers_by_warning (first_prefix (ordered_managers created)) (fold_left track_manager (ordered_managers created) []) l)
    as [l L].
  { eexists _, _. split; [apply ordered_final|]. split; [|exists l; repeat split; exact L].
    intros ms' F. exact (final_unique _ _ _ F (ordered_final created)). }
  generalize (first_prefix (ordered_managers created)) (fold_left track_manager (ordered_managers created) []). intros p t.
  destruct (no_nil (map fst t)) as [[|w0 ws0]|] eqn:E.
  - exists (Some []), (map fst t). rewrite E. split; reflexivity.
  - set (ws := w0 :: ws0) in *.
    assert (LN : forall w, In w ws -> exists x, last_named (w_name w) ws = Some x).
    { intros w W. unfold last_named. destruct (List.find _ (rev ws)) eqn:D; [eauto|]. apply in_rev in W.
      pose proof (find_none _ _ D w W) as X. cbn in X. rewrite beq_refl in X. discriminate. }
    assert (LV : forall level, exists part, shows_level p t ws level part).
    { intros level. unfold shows_level. destruct (filter _ ws) as [|x here] eqn:D; [eauto|].
      enough (exists blocks, Forall2 (shows_warning p t ws) (sort_by blt (map w_name (x :: here))) blocks) as [bs Bs] by eauto.
      assert (SF : forall n, In n (sort_by blt (map w_name (x :: here))) -> exists w, In w ws /\ w_name w = n).
      { intros n I. apply (Permutation_in _ (Permutation_sym (sort_by_perm _ _))) in I. apply in_map_iff in I as (w & <- & W).
        rewrite <- D in W. apply filter_In in W. exists w. split; [apply W|reflexivity]. }
      revert SF. generalize (sort_by blt (map w_name (x :: here))). intros l. induction l as [|n l IH]; intros SF; [exists []; constructor|].
      destruct IH as [bs Bs]; [intros m M; apply SF; now right|]. destruct (SF n (or_introl eq_refl)) as (w & W & <-).
      destruct (LN w W) as [y Y]. eexists (_ :: bs). constructor; [|exact Bs]. exists y, (tracked_by (Some y) t). auto. }
    assert (PS : exists parts, Forall2 (shows_level p t ws) level_order parts).
    { generalize level_order. intros l. induction l as [|level l [ps Ps]]; [exists []; constructor|].
      destruct (LV level) as [q Q]. exists (q :: ps). now constructor. }
    destruct PS as [parts Ps]. eexists (Some _), (map fst t). split; [reflexivity|]. rewrite E. exists parts. split; [exact Ps|reflexivity].
  - exists None, (map fst t). rewrite E. split; reflexivity.
Qed.
Print Assumptions C65_exists.

(** ** Which programs reach the exit *)

(** What a call adds records for. *)
Definition adds (c : call) : list warning :=
  match c with CAdd w _ _ _ | CSkipTest w _ => [w] | CSkipTestIf ws _ => ws | _ => [] end.

(** The warnings of the manager itself are predefined, and everything added is in the end. *)
Definition disciplined (p0 : list warning) (h : list call) : Prop :=
  (forall n, In n [B "SkippingTest"; B "Undefined"; B "Unused"] -> predefined_in p0 h n = true) /\
  forall c w, In c h -> In w (adds c) -> predefined_in p0 h (w_name w) = true.

Lemma ledger_names p0 h e : In e (ledger p0 h) ->
  In (w_name (fst e)) [B "SkippingTest"; B "Undefined"; B "Unused"] \/ exists c w, In c h /\ In w (adds c) /\ w_name w = w_name (fst e).
Proof.
  induction h as [|c h IH]; cbn [ledger]; [intros []|]. rewrite in_app_iff. intros [I|I].
  - destruct (IH I) as [X|(c' & w & C & W & E)]; [now left|]. right. exists c', w. split; [now right|auto].
  - destruct c as [ws|w fn|w fn lg|w fn text lg|w fn|ws fn|w|]; cbn [records] in I; try (destruct I; fail).
    + destruct (predefined_in p0 h (w_name w)); [destruct I|]. destruct I as [<-|[]]. left. right. now left.
    + destruct I as [<-|[]]. left. right. right. now left.
    + destruct I as [<-|[]]. right. exists (CAdd w fn text lg), w. cbn. auto.
    + destruct I as [<-|[<-|[]]]; [left; now left|]. right. exists (CSkipTest w fn), w. cbn. auto.
    + destruct (filter (fun w => marked_in h (w_name w)) ws) as [|w ws'] eqn:F; [destruct I|].
      destruct I as [<-|[<-|[]]]; [left; now left|]. right. exists (CSkipTestIf ws fn), w. split; [now left|]. split; [|reflexivity].
      cbn [adds]. assert (X : In w (w :: ws')) by now left. rewrite <- F in X. now apply filter_In in X.
Qed.

Lemma report_recorded p0 name prefix h r : In r (report (after (new_manager p0 name prefix) h)) ->
  r_name r = B "Unused" \/ exists e, In e (ledger p0 h) /\ w_name (fst e) = r_name r.
Proof.
  intros R. destruct (C34_exists p0 name prefix h) as (m' & l & G). destruct (C34_report _ _ _ _ _ _ G) as (_ & L & U & _).
  assert (El : l = report (after (new_manager p0 name prefix) h)).
  { eapply report_is; [exact G|apply clean_wf, after_wf|]. intros n x. apply names_after. }
  subst l. destruct (bytes_eq_dec (r_name r) (B "Unused")) as [E|E]; [now left|]. right.
  assert (X : get (r_name r) (m_warnings m') = Some r) by (apply L; auto). rewrite U in X by exact E.
  pose proof (recorded_get p0 name prefix (r_name r) h E) as K. rewrite X in K. symmetry in K. unfold recorded in K.
  apply existsb_exists in K as (e & I & K). exists e. split; [exact I|]. now apply beq_eq in K.
Qed.

(** The exit is reached exactly if every warning reported is predefined.  (No condition on names.) *)
Theorem C65_exits created ms out exits : with_warnings_main created out exits -> final_managers created ms ->
  (exits = true <-> forall m r, In m ms -> In r (report m) -> In (r_level r) level_order -> get (r_name r) (m_predefined m) <> None).
Proof.
  unfold with_warnings_main. cbv zeta. intros (listing & (order & P & S) & _ & ->) F.
  rewrite <- (final_unique _ _ _ F (ordered_final created)) in *. rewrite tracks_events in P.
  destruct (tracks_all (events ms)) as (_ & K & _). change (fun t e => track (fst e) (snd e) t) with track_event in P.
  pose proof (no_nil_spec order) as NN. assert (KO : In None order <-> unlisted ms).
  { unfold unlisted. split.
    - intros X. apply (Permutation_in _ (Permutation_sym P)), K in X as (h & X). exists h. now apply events_noted.
    - intros (h & X). apply (Permutation_in _ P), K. exists h. now apply events_noted. }
  assert (U : unlisted ms <-> ~ (forall m r, In m ms -> In r (report m) -> In (r_level r) level_order -> get (r_name r) (m_predefined m) <> None)).
  { split.
    - intros (h & m & r & M & _ & R & L & E) X. exact (X m r M R L E).
    - intros X. destruct (no_nil order) as [ws|] eqn:N; [|now apply KO]. exfalso. apply X. intros m r M R L E.
      assert (Y : In None order) by (apply KO; exists (m_name m), m, r; auto). rewrite NN in Y. apply in_map_iff in Y as (x & Y & _). discriminate. }
  destruct (no_nil order) as [ws|].
  - assert (LS : exists text, listing = Some text) by (destruct ws as [|w ws]; [eauto|destruct S as (parts & _ & ->); eauto]).
    destruct LS as [text ->]. split; [|reflexivity]. intros _ m r M R L E.
    assert (Y : In None order) by (apply KO; exists (m_name m), m, r; auto). rewrite NN in Y. apply in_map_iff in Y as (x & Y & _). discriminate.
  - subst listing. split; [discriminate|]. intros X. exfalso. apply KO, U in NN. auto.
Qed.
Print Assumptions C65_exits.

(** Programs that only add predefined warnings reach it. *)
Theorem C65_disciplined created out exits :
  (forall m, In m created -> exists p0 name prefix h, m = after (new_manager p0 name prefix) h /\ disciplined p0 h) ->
  with_warnings_main created out exits -> exits = true.
Proof.
  intros D W. apply (C65_exits _ _ _ _ W (ordered_final created)). intros m r M R L E.
  apply (proj2 (ordered_final created)) in M as (a & b & C & _).
  destruct (D m) as (p0 & name & prefix & h & -> & D1 & D2); [rewrite C; apply in_app_iff; right; now left|].
  apply predefined_none in E. destruct (report_recorded _ _ _ _ _ R) as [N|(e & I & N)].
  - rewrite N, (D1 (B "Unused")) in E by (right; right; now left). discriminate.
  - destruct (ledger_names _ _ _ I) as [X|(c & w & C1 & C2 & C3)].
    + rewrite N in X. rewrite (D1 _ X) in E. discriminate.
    + rewrite <- N, <- C3, (D2 c w C1 C2) in E. discriminate.
Qed.
Print Assumptions C65_disciplined.

(** Warnings from the registry have one name each. *)
Theorem C65_registered calls ms :
  (forall m n w, In m ms -> get n (m_predefined m) = Some w -> In w (created calls)) -> one_name ms.
Proof.
  intros H h w h' w' (m & r & M & _ & _ & _ & E) (m' & r' & M' & _ & _ & _ & E'). apply (H _ _ _ M) in E. apply (H _ _ _ M') in E'.
  pose proof (created_unique calls) as N. revert N E E'. generalize (created calls). intros l. induction l as [|x l IH]; intros N I I' Q; [destruct I|].
  cbn [map] in N. inversion N; subst. destruct I as [->|I], I' as [->|I']; [reflexivity| | |now apply IH].
  - destruct H2. rewrite Q. now apply in_map.
  - destruct H2. rewrite <- Q. now apply in_map.
Qed.
Print Assumptions C65_registered.

(** ** Reading it back *)

Section Back.
Variables (v : world) (source : bytes) (lookup : gomap bytes) (p : bytes).
Hypothesis ok : casing_ok (v_casing v).
Hypothesis pok : prefix_ok p.

Lemma loop_reports_then reports tail : forall s, Forall (readable_report v lookup) reports ->
  exists s', parse_loop v source lookup None (rd p (concat (map (fun x => report_lines (fst x) (snd x)) reports)) ++ tail) s =
               parse_loop v source lookup None tail s' /\
             settled v s' = fold_left (fun w x => report_effect v source lookup (fst x) (snd x) w) reports (settled v s).
Proof.
  induction reports as [|[name l] reports IH]; intros s G.
  - exists s. split; reflexivity.
  - inversion G as [|? ? (G1 & G2 & G3 & G4) G']; subst. cbn [map concat fst snd] in *. rewrite rd_app, <- app_assoc.
    destruct (loop_report v source lookup ok p pok name l s
                (rd p (concat (map (fun x => report_lines (fst x) (snd x)) reports)) ++ tail) G1 G2 G4) as (s1 & E1 & P1).
    destruct (IH s1 G') as (s2 & E2 & P2). exists s2. split; [congruence|]. rewrite P2, P1. reflexivity.
Qed.

Lemma parse_then reports rest w : Forall (readable_report v lookup) reports ->
  let text := reports_text p reports ++ full_line p [] ++ full_line p (B " Handlers by warning:") ++ rest in
  short_lines text ->
  exists w', parse_warning_data v source lookup text w = Some (w', false) /\ reads_reports v source lookup reports w w'.
Proof.
  intros G text S. set (ls := concat (map (fun x => report_lines (fst x) (snd x)) reports)).
  assert (E : reports_text p reports = printed p ls).
  { apply (printed_concat p (fun x : bytes * list instances => show_list (fst x) p (snd x))
             (fun x => report_lines (fst x) (snd x))).
    intros [name l] Hx. apply show_list_lines. rewrite Forall_forall in G. apply G in Hx. apply Hx. }
  assert (W : Forall (fun l => without newline l = true) (map (full p) ls)).
  { apply Forall_map. apply Forall_concat, Forall_map. revert G. apply Forall_impl. intros [name l] (G1 & G2 & G3 & G4).
    pose proof (report_lines_whole (v_casing v) name l G1 G4) as K. revert K. apply Forall_impl. intros x Hx.
    unfold full. rewrite without_app, (prefix_without p pok). exact Hx. }
  assert (RL : forall a t, Forall (fun l => without newline l = true) a -> raw_lines (concat (map (fun l => l ++ [newline]) a) ++ t) = a ++ raw_lines t).
  { induction 1 as [|l a H _ IH]; [reflexivity|]. cbn [map concat]. rewrite <- !app_assoc. cbn [app]. rewrite raw_lines_app by exact H.
    now rewrite IH. }
  assert (R : raw_lines text = map (full p) ls ++ p :: (p ++ B " Handlers by warning:") :: raw_lines rest).
  { unfold text. rewrite E, printed_full, RL by exact W. f_equal. unfold full_line. cbn [app]. rewrite <- !app_assoc.
    change ([newline] ++ ?x) with (newline :: x). rewrite raw_lines_app by apply (prefix_without p pok). f_equal.
    rewrite (app_assoc p). change ([newline] ++ ?x) with (newline :: x). apply raw_lines_app. rewrite without_app, (prefix_without p pok). reflexivity. }
  assert (SR : Forall short (raw_lines text)).
  { apply Forall_forall. intros l L. assert (X : ~ (65535 < N.of_nat (length l))%N); [|unfold short; lia].
    assert (SP : In l (split_on newline text)) by (destruct (PropText.raw_lines_split text) as [-> | ->]; [exact L|apply in_app_iff; now left]).
    enough (Y : exists a b, text = a ++ l ++ b /\ one_line l).
    { destruct Y as (a & b & Y & O). specialize (S a l b Y O). lia. }
    clear -SP. revert l SP. induction text as [|c s IH]; intros l I.
    - destruct I as [<-|[]]. exists [], []. split; [reflexivity|intros []].
    - cbn [split_on] in I. destruct (Ascii.eqb c newline) eqn:D.
      + destruct I as [<-|I]; [exists [], (c :: s); split; [reflexivity|intros []]|]. destruct (IH l I) as (a & b & -> & O). exists (c :: a), b. auto.
      + assert (H0 : exists b, s = hd [] (split_on newline s) ++ b /\ split_on newline s <> []).
        { clear. induction s as [|d s IHs]; [exists []; split; [reflexivity|discriminate]|]. cbn [split_on].
          destruct (Ascii.eqb d newline); [exists (d :: s); split; [reflexivity|discriminate]|].
          destruct IHs as (b & E & N). destruct (split_on newline s) as [|x xs]; [now destruct N|]. cbn [hd] in *.
          exists b. split; [now rewrite E at 1|discriminate]. }
        destruct (split_on newline s) as [|x xs] eqn:SPL; [destruct H0 as (b & _ & N); now destruct N|].
        destruct I as [<-|I].
        * destruct H0 as (b & E & _). cbn [hd] in E. exists [], b. split; [cbn [app]; now rewrite E at 1|].
          destruct (IH x (or_introl eq_refl)) as (_ & _ & _ & O). intros [X|X]; [subst c; discriminate D|now apply O].
        * destruct (IH l (or_intror I)) as (a & b & -> & O). exists (c :: a), b. auto. }
  unfold parse_warning_data, scan. rewrite until_long_short by exact SR. cbn [andb]. rewrite R, map_app, map_map. cbn [map].
  destruct (loop_reports_then reports (drop_cr p :: drop_cr (p ++ B " Handlers by warning:") :: map drop_cr (raw_lines rest)) (start w) G) as (s' & E1 & P).
  fold ls in E1. unfold rd in E1. rewrite E1.
  assert (L1 : forall t s, parse_loop v source lookup None (drop_cr p :: drop_cr (p ++ B " Handlers by warning:") :: t) s = Some (save v s)).
  { intros t s. cbn [parse_loop].
    assert (P1 : prepare (drop_cr p) = []) by (destruct pok as [-> | ->]; reflexivity).
    assert (P2 : prepare (drop_cr (p ++ B " Handlers by warning:")) = B "Handlers by warning:") by (destruct pok as [-> | ->]; reflexivity).
    rewrite P1, P2. reflexivity. }
  rewrite L1. eexists. split; [reflexivity|]. fold (settled v s'). rewrite P. change (settled v (start w)) with w. clear -G.
  revert w. induction G as [|[name l] reports (G1 & G2 & G3 & G4) _ IH]; intros w; cbn [fold_left].
  - constructor.
  - econstructor; [|apply IH]. apply report_effect_reads; assumption.
Qed.
End Back.

(** Reading the whole output back tells what the reports say and nothing else: the list of
    handlers is not taken for a part of them, whether or not the exit was reached. *)
Theorem C65_read_back v source lookup p created ms out exits w :
  with_warnings_main created out exits -> final_managers created ms -> one_name ms ->
  casing_ok (v_casing v) -> p = [] \/ p = B "# " -> (forall m, In m ms -> m_prefix m = p) ->
  Forall (fun m => readable_report v lookup (m_name m, report m)) ms -> short_lines out ->
  exists w', parse_warning_data v source lookup out w = Some (w', false) /\
             reads_reports v source lookup (map (fun m => (m_name m, report m)) ms) w w'.
Proof.
  intros M F O ok pok PP R S. destruct (C65_output _ _ _ _ M F O) as (_ & text & q & -> & Q & T).
  assert (E : concat (map show_warnings ms) = reports_text p (map (fun m => (m_name m, report m)) ms)).
  { unfold reports_text. rewrite map_map. f_equal. apply map_ext_in. intros m I. unfold show_warnings. cbn [fst snd]. now rewrite (PP m I). }
  rewrite E in *. assert (R' : Forall (readable_report v lookup) (map (fun m => (m_name m, report m)) ms)) by now apply Forall_map.
  destruct T as [[-> _]|(_ & (h & k & m0 & _ & I0 & _) & ls & _ & ->)].
  - rewrite app_nil_r in *. now apply C36_round_trip.
  - assert (q = p).
    { destruct Q as [[-> Q]|(_ & a & m & b & -> & <- & _)]; [rewrite <- (Q m0 I0); now apply PP|]. apply PP, in_app_iff. right. now left. }
    subst q. unfold listing_text in *. now apply parse_then.
Qed.
Print Assumptions C65_read_back.

(** ** Examples *)

Definition level_var : warning := {| w_level := 4; w_name := B "LevelVar"; w_summary := B "LevelVar doesn't change level" |}.
Definition duplicates : warning := {| w_level := 2; w_name := B "Duplicates"; w_summary := B "Duplicate field(s) found" |}.
Definition admin0 : list warning := [skipping_test; undefined; unused].

Definition sloggy_calls : list call :=
  [CAdd duplicates (B "TestB") [] []; CAddUnused level_var (B "TestA") []; CWarnOnly level_var (B "TestS"); CPredefine [level_var; duplicates]].
Definition sloggy_manager : manager := after (new_manager admin0 (B "sloggy") (B "# ")) sloggy_calls.
Definition flash_manager : manager :=
  {| m_name := B "flash"; m_prefix := B "# "; m_predefined := [(B "LevelVar", level_var); (B "Duplicates", duplicates)]; m_only := [];
     m_warnings := map (fun r => (r_name r, r)) PropMerge.report0 |}.
Definition old_flash : manager := new_manager admin0 (B "flash") [].

(** A manager replaced by a later one; the same warning from two handlers. *)
Example C65_ex : final_managers [old_flash; sloggy_manager; flash_manager] [flash_manager; sloggy_manager] /\
  one_name [flash_manager; sloggy_manager] /\
  right_listing [flash_manager; sloggy_manager]
    [(4, [(level_var, [B "flash"])]); (2, [(duplicates, [B "flash"; B "sloggy"])]); (1, [(unused, [B "sloggy"])])]%N /\
  exists out, with_warnings_main [old_flash; sloggy_manager; flash_manager] out true /\
    out = concat (map show_warnings [flash_manager; sloggy_manager]) ++ concat (map (fun s => B s ++ [newline])
      ["# "; "#  Handlers by warning:"; "#   Required"; "#     [LevelVar] LevelVar doesn't change level"; "#       flash";
       "#   Suggested"; "#     [Duplicates] Duplicate field(s) found"; "#       flash"; "#       sloggy";
       "#   Administrative"; "#     [Unused] Unused Warnings(s)"; "#       sloggy"]%string).
Proof.
  assert (FM : final_managers [old_flash; sloggy_manager; flash_manager] [flash_manager; sloggy_manager]).
  { assert (E : ordered_managers [old_flash; sloggy_manager; flash_manager] = [flash_manager; sloggy_manager]) by (vm_compute; reflexivity).
    rewrite <- E. apply ordered_final. }
  assert (EV : events [flash_manager; sloggy_manager] =
    [(Some level_var, B "flash"); (Some duplicates, B "flash"); (Some duplicates, B "sloggy"); (Some unused, B "sloggy")]) by (vm_compute; reflexivity).
  assert (O : one_name [flash_manager; sloggy_manager]).
  { intros h w h' w' A A'. apply events_noted in A, A'. rewrite EV in A, A'. cbn [In] in A, A'.
    repeat (destruct A as [A|A]; [injection A as <- <-|]); try destruct A;
    repeat (destruct A' as [A'|A']; [injection A' as <- <-|]); try destruct A'; intros X; try reflexivity; discriminate X. }
  split; [exact FM|]. split; [exact O|].
  assert (M : with_warnings_main [old_flash; sloggy_manager; flash_manager]
    (concat (map show_warnings [flash_manager; sloggy_manager]) ++ concat (map (fun s => B s ++ [newline])
      ["# "; "#  Handlers by warning:"; "#   Required"; "#     [LevelVar] LevelVar doesn't change level"; "#       flash";
       "#   Suggested"; "#     [Duplicates] Duplicate field(s) found"; "#       flash"; "#       sloggy";
       "#   Administrative"; "#     [Unused] Unused Warnings(s)"; "#       sloggy"]%string)) true).
  { assert (TM : fold_left track_manager (ordered_managers [old_flash; sloggy_manager; flash_manager]) [] =
      [(Some level_var, [B "flash"]); (Some duplicates, [B "flash"; B "sloggy"]); (Some unused, [B "sloggy"])]) by (vm_compute; reflexivity).
    assert (E : ordered_managers [old_flash; sloggy_manager; flash_manager] = [flash_manager; sloggy_manager]) by (vm_compute; reflexivity).
    eexists (Some _). split; [|split; [rewrite E; reflexivity|reflexivity]]. rewrite TM.
    exists [Some level_var; Some duplicates; Some unused]. split; [reflexivity|]. cbn [no_nil option_map].
    eexists [_; _; _; _]. split.
    - repeat constructor; [eexists [_]; split; [|reflexivity]..]; (repeat constructor; eexists _, _; (split; [vm_compute; reflexivity|]; split; reflexivity)).
    - vm_compute. reflexivity. }
  split; [|eexists; split; [exact M|reflexivity]].
  constructor.
  - repeat constructor; reflexivity.
  - intros level es I. cbn [In] in I. repeat (destruct I as [I|I]; [injection I as <- <-; discriminate|]). destruct I.
  - intros level es I. cbn [In] in I. repeat (destruct I as [I|I]; [injection I as <- <-; repeat constructor|]). destruct I.
  - intros level w. split.
    + intros (es & hs & I & J). cbn [In] in I. repeat (destruct I as [I|I]; [injection I as <- <-; destruct J as [J|[]]; injection J as <- <-|]);
        try destruct I; (split; [cbn; auto|]; split; [reflexivity|]); eexists; apply events_noted; rewrite EV; cbn; eauto.
    + intros (_ & <- & h & A). apply events_noted in A. rewrite EV in A. cbn [In] in A.
      repeat (destruct A as [A|A]; [injection A as <- _|]); try destruct A; eexists _, _; (split; [cbn; eauto|cbn; eauto]).
  - intros level es w hs I J. cbn [In] in I. repeat (destruct I as [I|I]; [injection I as <- <-; destruct J as [J|[]]; injection J as <- <-|]);
      try destruct I; (split; [discriminate|]; split; [repeat constructor; cbn; intuition discriminate|]; intros h; rewrite <- events_noted, EV; cbn [In]; split;
      [intros X; repeat (destruct X as [<-|X]; [auto|]); destruct X|intros X; repeat (destruct X as [X|X]; [try discriminate X; injection X as <-; auto|]); destruct X]).
Qed.

Example C65_disciplined_ex : disciplined admin0 sloggy_calls.
Proof.
  split.
  - intros n I. cbn [In] in I. repeat (destruct I as [<-|I]; [vm_compute; reflexivity|]). destruct I.
  - intros c w I J. cbn [In sloggy_calls] in I. repeat (destruct I as [<-|I]; [cbn [adds In] in J; try (destruct J; fail)|]); [|destruct I].
    destruct J as [<-|[]]. vm_compute. reflexivity.
Qed.

(** A warning of a test program's own, not predefined: no output reaches the exit, and no
    list is printed. *)
Definition own : warning := {| w_level := 2; w_name := B "Own"; w_summary := B "Own warning" |}.
Definition own_manager : manager :=
  after (new_manager admin0 (B "h") []) [CAdd own (B "TestA") [] []; CWarnOnly own (B "TestS")].
Example C65_own out exits : with_warnings_main [own_manager] out exits -> exits = false /\ out = show_warnings own_manager.
Proof.
  assert (E : ordered_managers [own_manager] = [own_manager]) by (vm_compute; reflexivity).
  assert (T : fold_left track_manager [own_manager] [] = [(None, [B "h"]); (Some undefined, [B "h"])]) by (vm_compute; reflexivity).
  unfold with_warnings_main. rewrite E. cbv zeta. rewrite T. intros (l & (order & P & S) & -> & ->).
  pose proof (no_nil_spec order) as N. destruct (no_nil order) as [ws|].
  - exfalso. assert (I : In None order) by (apply (Permutation_in _ P); now left). rewrite N in I. apply in_map_iff in I as (x & X & _). discriminate.
  - subst l. split; [reflexivity|]. cbn [map concat]. now rewrite !app_nil_r.
Qed.

(** The hypotheses of C65_read_back. *)
Example C65_back_ex : exists out, with_warnings_main [flash_manager] out true /\ final_managers [flash_manager] [flash_manager] /\
  one_name [flash_manager] /\ Forall (fun m => readable_report PropMerge.world0 PropMerge.lookup0 (m_name m, report m)) [flash_manager] /\
  short_lines out.
Proof.
  assert (E : ordered_managers [flash_manager] = [flash_manager]) by (vm_compute; reflexivity).
  assert (EV : events [flash_manager] = [(Some level_var, B "flash"); (Some duplicates, B "flash")]) by (vm_compute; reflexivity).
  assert (T : fold_left track_manager [flash_manager] [] = [(Some level_var, [B "flash"]); (Some duplicates, [B "flash"])]) by (vm_compute; reflexivity).
  exists (show_warnings flash_manager ++ concat (map (fun s => B s ++ [newline])
      ["# "; "#  Handlers by warning:"; "#   Required"; "#     [LevelVar] LevelVar doesn't change level"; "#       flash";
       "#   Suggested"; "#     [Duplicates] Duplicate field(s) found"; "#       flash"]%string)).
  split; [|split; [rewrite <- E at 2; apply ordered_final|split; [|split]]].
  - unfold with_warnings_main. rewrite E. cbv zeta. rewrite T. eexists (Some _). split; [|split; [cbn [map concat]; rewrite app_nil_r; reflexivity|reflexivity]].
    exists [Some level_var; Some duplicates]. split; [reflexivity|]. cbn [no_nil option_map].
    eexists [_; _; _; _]. split.
    + repeat constructor; [eexists [_]; split; [|reflexivity]..]; (repeat constructor; eexists _, _; (split; [vm_compute; reflexivity|]; split; reflexivity)).
    + vm_compute. reflexivity.
  - intros h w h' w' A A'. apply events_noted in A, A'. rewrite EV in A, A'. cbn [In] in A, A'.
    repeat (destruct A as [A|A]; [injection A as <- <-|]); try destruct A;
    repeat (destruct A' as [A'|A']; [injection A' as <- <-|]); try destruct A'; intros X; try reflexivity; discriminate X.
  - constructor; [|constructor]. assert (R : report flash_manager = PropMerge.report0) by (vm_compute; reflexivity).
    rewrite R. exact PropMerge.readable0.
  - apply PropMerge.short_text. vm_compute. discriminate.
Qed.

(** Different warnings of one name are both listed with the summary and the handlers of one
    of them: the condition on names is needed. *)
Definition twin (s : string) : warning := {| w_level := 2; w_name := B "Twin"; w_summary := B s |}.
Definition twin_manager (h s : string) : manager :=
  after (new_manager admin0 (B h) []) [CAdd (twin s) (B "TestA") [] []; CPredefine [twin s]].
Example C65_twins : exists reports, with_warnings_main [twin_manager "a" "first"; twin_manager "b" "second"]
    (reports ++ concat (map (fun s => B s ++ [newline])
      [""; " Handlers by warning:"; "  Suggested"; "    [Twin] second"; "      b"; "    [Twin] second"; "      b"]%string)) true.
Proof.
  assert (E : ordered_managers [twin_manager "a" "first"; twin_manager "b" "second"] = [twin_manager "a" "first"; twin_manager "b" "second"]) by (vm_compute; reflexivity).
  assert (T : fold_left track_manager [twin_manager "a" "first"; twin_manager "b" "second"] [] =
    [(Some (twin "first"), [B "a"]); (Some (twin "second"), [B "b"])]) by (vm_compute; reflexivity).
  eexists. unfold with_warnings_main. rewrite E. cbv zeta. rewrite T. eexists (Some _). split; [|split; [reflexivity|reflexivity]].
  exists [Some (twin "first"); Some (twin "second")]. split; [reflexivity|]. cbn [no_nil option_map].
  eexists [_; _; _; _]. split.
  - repeat constructor; [eexists [_; _]; split; [|reflexivity]..]; (repeat constructor; eexists _, _; (split; [vm_compute; reflexivity|]; split; reflexivity)).
  - vm_compute. reflexivity.
Qed.
