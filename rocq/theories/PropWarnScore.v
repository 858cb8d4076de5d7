(** C45: the warning scores, over exact numbers. *)

From Coq Require Import Ascii String List NArith ZArith QArith Qcanon Bool Lia Lqa Permutation.
From Verif Require PropMerge.
From Verif Require Import Bytes BytesProofs GoSort PropReplace Warnings WarnParser SpecReport PropReport Bench PropTags WarnInv
  Num NumProofs Scoring PropRange PropAverage SpecScore ScoreProofs PropScore.
Import ListNotations.
Local Open Scope Qc_scope.

(** ** What the scores should be *)

(** A handler has a warning at a level. *)
Definition has (w : wdata) (h : bytes) (level : N) (n : bytes) : Prop := summary_in (by_handler w) h level n <> None.
(** A warning of the level is known: registered there, and somebody has it. *)
Definition known (registered : N -> list bytes) (w : wdata) (level : N) (n : bytes) : Prop :=
  In n (registered level) /\ exists h, counted (by_warning w) n h <> 0%N.
(** How many names there are. *)
Definition number (p : bytes -> Prop) (k : N) : Prop :=
  exists l, NoDup l /\ (forall n, In n l <-> p n) /\ N.of_nat (length l) = k.
(** Every warning of the handler is known at its level. *)
Definition fair (registered : N -> list bytes) (w : wdata) (h : bytes) : Prop :=
  forall level n, In level level_order -> has w h level n -> known registered w level n.

(** [c] warnings out of [l]. *)
Definition level_percent (c l : N) : Qc :=
  if N.eqb c 0 then Qc_of_N 100 else Qc_of_N 100 * (Qc_of_N l - Qc_of_N c) / Qc_of_N l.
Definition weighted (lw : N -> N) (f : N -> N) : N := fold_right (fun l a => (lw l * f l + a)%N) 0%N level_order.

(** The handlers that get a score. *)
Definition w_listed (w : wtags) (h : bytes) : Prop :=
  match wt_handlers w with [] => w_handler_present w h | l => In h l end.

(** Warnings are registered once, and not so many that the counters overflow. *)
Record registry_ok (registered : N -> list bytes) (lw : N -> N) : Prop := {
  reg_once : forall level, NoDup (registered level);
  reg_small : forall level, (N.of_nat (length (registered level)) < 2 ^ 64)%N;
  reg_weights : (weighted lw (fun level => N.of_nat (length (registered level))) < 2 ^ 64)%N
}.

(** ** Counting *)

Lemma number_same (p : bytes -> Prop) a b : number p a -> number p b -> a = b.
Proof.
  intros (l & N1 & I1 & <-) (l' & N2 & I2 & <-). f_equal. apply Permutation_length, NoDup_Permutation; auto. intros x. rewrite I1, I2. reflexivity.
Qed.
Lemma number_le (p q : bytes -> Prop) a b : (forall n, p n -> q n) -> number p a -> number q b -> (a <= b)%N.
Proof.
  intros H (l & N1 & I1 & <-) (l' & N2 & I2 & <-). assert (length l <= length l')%nat; [|lia].
  apply NoDup_incl_length; [exact N1|]. intros x I. apply I2, H, I1, I.
Qed.
Lemma number_0 (p : bytes -> Prop) : number p 0 <-> forall n, ~ p n.
Proof.
  split.
  - intros (l & _ & I & E) n H. apply I in H. destruct l; [destruct H|cbn in E; lia].
  - intros H. exists []. split; [constructor|]. split; [|reflexivity]. intros n. split; [intros []|]. apply H.
Qed.

Lemma at_level_in t level n : In n (at_level t level) <-> In (level, n) (map fst t).
Proof.
  unfold at_level. rewrite in_map_iff. split.
  - intros ([[l x] d] & E & I). apply filter_In in I. cbn [fst snd] in *. destruct I as [I K]. apply N.eqb_eq in K. subst.
    apply (in_map fst) in I. exact I.
  - intros I. apply in_map_iff in I. destruct I as ([[l x] d] & E & I). cbn [fst] in E. injection E as -> ->.
    exists ((level, n), d). split; [reflexivity|]. apply filter_In. split; [exact I|apply N.eqb_refl].
Qed.
Lemma at_level_once t level : NoDup (map fst t) -> NoDup (at_level t level).
Proof.
  induction t as [|[[l x] d] t IH]; intros H; [constructor|]. inversion H as [|? ? H1 H2]; subst. cbn [map fst] in *.
  unfold at_level. cbn [filter fst]. destruct (N.eqb_spec l level) as [ -> |]; cbn [map fst snd]; [|apply IH, H2].
  constructor; [|apply IH, H2]. fold (at_level t level). rewrite at_level_in. exact H1.
Qed.

Lemma has_at_level w h t level n : get h (by_handler w) = Some t -> (has w h level n <-> In n (at_level t level)).
Proof.
  intros G. unfold has, summary_in. rewrite G, at_level_in, <- tget_keys. destruct (tget (level, n) t); split; congruence.
Qed.

Lemma has_number w h t level : sound w -> get h (by_handler w) = Some t ->
  number (has w h level) (N.of_nat (length (at_level t level))).
Proof.
  intros S G. exists (at_level t level). split; [apply at_level_once, (sound_once w S h t G)|]. split; [|reflexivity].
  intros n. symmetry. apply has_at_level, G.
Qed.

Lemma used_counted w n : sound w -> (in_use (by_warning w) n <-> exists h, counted (by_warning w) n h <> 0%N).
Proof.
  intros S. unfold in_use, counted. split.
  - intros (c & G & H). destruct (wc_count c) as [|[h x] l] eqn:E; [congruence|]. exists h. rewrite G, E. cbn [get]. rewrite beq_refl'.
    apply (sound_count w S n c h x G). rewrite E. cbn [get]. rewrite beq_refl'. reflexivity.
  - intros (h & H). destruct (get n (by_warning w)) as [c|]; [|congruence]. exists c. split; [reflexivity|]. intros E. rewrite E in H. cbn in H. congruence.
Qed.

Lemma known_number registered w level : sound w -> NoDup (registered level) ->
  number (known registered w level) (level_count registered (by_warning w) level).
Proof.
  intros S N. unfold level_count. set (f := fun n => _).
  exists (filter f (registered level)). split; [apply NoDup_filter, N|]. split; [|reflexivity].
  intros n. rewrite filter_In. unfold known. rewrite <- (used_counted w n S). unfold f, in_use.
  split; intros [I H]; (split; [exact I|]).
  - destruct (get n (by_warning w)) as [c|]; [|discriminate]. exists c. split; [reflexivity|]. destruct (wc_count c); [discriminate|discriminate].
  - destruct H as (c & -> & H). destruct (wc_count c); [congruence|reflexivity].
Qed.

(** ** The axis *)

Section Axis.
Variable registered : N -> list bytes.
Variable lw : N -> N.
Hypothesis Reg : registry_ok registered lw.

Definition lev (m : gomap wcount) (t : table) (level : N) : xnum :=
  match at_level t level with
  | [] => Fin (Qc_of_N 100)
  | _ => ranged_value exact (level_range exact registered m level) (Fin (Qc_of_N (N.of_nat (length (at_level t level)))))
  end.

Lemma once_average x : avg_average exact (avg_add exact x (no_average exact)) = x.
Proof. unfold avg_average, avg_add. cbn [a_count a_value no_average]. cbn [N.add N.ltb N.compare N.eqb]. cbn. rewrite of_N_0. apply xadd_0. Qed.

Lemma levels_is m t ls : NoDup ls -> forall s a, (forall l, In l ls -> ws_by_level exact s l = no_average exact) ->
  exists s', fold_left (score_level exact registered lw m t) ls (s, a) = (s', go (map (fun l => Times (lev m t l) (lw l)) ls) a) /\
    (forall l, ws_by_level exact s' l = if existsb (N.eqb l) ls then avg_add exact (lev m t l) (no_average exact) else ws_by_level exact s l) /\
    ws_scores exact s' = ws_scores exact s.
Proof.
  induction ls as [|l ls IH]; intros ND s a H.
  - exists s. repeat split; reflexivity.
  - inversion ND as [|? ? N1 N2]; subst. cbn [fold_left]. unfold score_level at 2. fold (lev m t l).
    set (st := match at_level t l with [] => _ | _ => _ end).
    assert (E : snd st = lev m t l) by (unfold st, lev; destruct (at_level t l); reflexivity).
    destruct st as [counts ranged]. cbn [snd] in E. subst ranged. cbn [ws_by_level].
    rewrite N.eqb_refl, (H l (or_introl eq_refl)), once_average.
    edestruct (IH N2) as (s' & E1 & E2 & E3); [|exists s'; split; [exact E1|]; split].
    + intros l' I. cbn [ws_by_level]. destruct (N.eqb_spec l' l) as [ -> |]; [contradiction|]. apply H. right. exact I.
    + intros l'. rewrite E2. cbn [ws_by_level existsb]. destruct (N.eqb_spec l' l) as [ -> |]; cbn [orb].
      * rewrite (H l (or_introl eq_refl)). destruct (existsb (N.eqb l) ls); reflexivity.
      * reflexivity.
    + rewrite E3. reflexivity.
Qed.

Lemma order_once : NoDup level_order.
Proof. repeat constructor; cbn; intuition discriminate. Qed.

Lemma fold_weighted (f : N -> N) : fold_left (fun a l => a + lw l * f l)%N level_order 0%N = weighted lw f.
Proof. unfold weighted. cbn [fold_left fold_right level_order]. lia. Qed.

Definition result_of (m : gomap wcount) (t : table) (s : wscored exact) : Prop :=
  (forall l, In l level_order -> avg_average exact (ws_by_level exact s l) = lev m t l /\ a_count exact (ws_by_level exact s l) = 1%N) /\
  (forall l, ~ In l level_order -> a_count exact (ws_by_level exact s l) = 0%N) /\
  ws_scores exact s ByData = result (map (fun l => Times (lev m t l) (lw l)) level_order) /\
  ws_scores exact s Default = result (map (fun l => Times (lev m t l) (lw l)) level_order) /\
  ws_scores exact s Original = original_warn_score exact registered lw m t /\
  ws_scores exact s ByTest = Fin (Qc_of_N 0).

Lemma handler_is m t : result_of m t (score_warn_handler exact registered lw m t (new_wscored exact)).
Proof.
  unfold score_warn_handler.
  destruct (levels_is m t level_order order_once (new_wscored exact) (no_average exact)) as (s' & E & H1 & H2); [reflexivity|].
  rewrite E. assert (X : forall l, existsb (N.eqb l) level_order = true <-> In l level_order).
  { intros l. rewrite existsb_exists. split; [intros (y & I & K); apply N.eqb_eq in K; congruence|intros I; exists l; split; [exact I|apply N.eqb_refl]]. }
  split; [|split; [|split; [|split; [|split]]]]; cbn [ws_by_level ws_scores]; try reflexivity.
  - intros l I. rewrite H1, (proj2 (X l) I). split; [apply once_average|reflexivity].
  - intros l I. rewrite H1. destruct (existsb (N.eqb l) level_order) eqn:K; [apply X in K; contradiction|reflexivity].
  - rewrite H2. reflexivity.
Qed.

Lemma handlers_is w hs : forall d, NoDup hs -> (forall h, In h hs -> get h d = None) ->
  (forall h, In h hs -> get h (by_handler w) <> None) ->
  exists d', score_warn_handlers exact registered lw w hs d = Some d' /\
    (forall h, In h hs -> exists t, get h (by_handler w) = Some t /\
       get h d' = Some (score_warn_handler exact registered lw (by_warning w) t (new_wscored exact))) /\
    (forall h, ~ In h hs -> get h d' = get h d).
Proof.
  induction hs as [|h hs IH]; intros d ND Hd Hw.
  - exists d. split; [reflexivity|]. split; [intros h []|reflexivity].
  - inversion ND as [|? ? N1 N2]; subst. cbn [score_warn_handlers]. destruct (get h (by_handler w)) as [t|] eqn:G; [|destruct (Hw h (or_introl eq_refl) G)].
    rewrite (Hd h (or_introl eq_refl)). set (s := score_warn_handler _ _ _ _ _ _).
    destruct (IH (put h s d) N2) as (d' & E & H1 & H2).
    + intros h' I. rewrite get_put_other by (intros ->; contradiction). apply Hd. right. exact I.
    + intros h' I. apply Hw. right. exact I.
    + exists d'. split; [exact E|]. split.
      * intros h' [ <- |I]; [|apply H1, I]. exists t. split; [exact G|]. rewrite H2 by exact N1. apply get_put_same.
      * intros h' I. rewrite H2 by (intros K; apply I; right; exact K). apply get_put_other. intros ->. apply I. left. reflexivity.
Qed.

Lemma setup_is v es w res w' : whistory v es w -> warn_axis_setup exact registered lw w [] res w' ->
  exists d, res = Some d /\ forall h,
    (w_listed w h -> exists t s, get h (by_handler (wt_data w)) = Some t /\ get h d = Some s /\ result_of (by_warning (wt_data w)) t s) /\
    (~ w_listed w h -> get h d = None).
Proof.
  intros H (tests & w1 & handlers & [_ ->] & [C _] & R). cbn [wt_data wt_handlers] in C.
  destruct (whistory_sound v es w H) as (S1 & S2 & S3). pose proof (whistory_tidy v es w H) as [T _].
  assert (L : NoDup handlers /\ (forall h, In h handlers -> get h (by_handler (wt_data w)) <> None) /\ forall h, In h handlers <-> w_listed w h).
  { unfold w_listed, cached_keys in *. destruct (wt_handlers w) as [|x l].
    - pose proof (sorted_listing _ _ _ T C) as [L1 L2 _]. split; [exact L1|]. split.
      + intros h I. apply L2 in I. apply get_keys in I. destruct I as [t ->]. discriminate.
      + intros h. rewrite L2. unfold w_handler_present. symmetry. apply get_keys.
    - subst. split; [exact S2|]. split; [exact S3|]. reflexivity. }
  destruct L as (L1 & L2 & L3). destruct (handlers_is (wt_data w) handlers [] L1 ltac:(reflexivity) L2) as (d & E & H1 & H2).
  exists d. split; [congruence|]. intros h. split; intros K.
  - destruct (H1 h (proj2 (L3 h) K)) as (t & G & Gd). exists t. eexists. split; [exact G|]. split; [exact Gd|apply handler_is].
  - rewrite H2 by (intros I; apply K, L3, I). reflexivity.
Qed.

Lemma sub64_N a b : (b <= a)%N -> (a < 2 ^ 64)%N -> sub64 a b = (a - b)%N.
Proof. apply sub64_le. Qed.

Lemma range_is m level : level_range exact registered m level = UintRange exact 0 (level_count registered m level).
Proof.
  unfold level_range, add_uint, zero_uint_range. destruct (N.ltb_spec (level_count registered m level) 0); [lia|].
  destruct (N.ltb_spec 0 (level_count registered m level)); [reflexivity|]. f_equal. lia.
Qed.

Lemma weighted_le f g : (forall l, In l level_order -> (f l <= g l)%N) -> (weighted lw f <= weighted lw g)%N.
Proof.
  intros H. unfold weighted. assert (X : forall ls, (forall l, In l ls -> (f l <= g l)%N) ->
    (fold_right (fun l a => (lw l * f l + a)%N) 0%N ls <= fold_right (fun l a => (lw l * g l + a)%N) 0%N ls)%N); [|apply X, H].
  induction ls as [|l ls IH]; intros K; cbn [fold_right]; [lia|]. specialize (K l (or_introl eq_refl)) as K1.
  assert (lw l * f l <= lw l * g l)%N by (apply N.mul_le_mono_l, K1). specialize (IH (fun x I => K x (or_intror I))). lia.
Qed.
Lemma weighted_ext f g : (forall l, In l level_order -> f l = g l) -> weighted lw f = weighted lw g.
Proof. intros H. apply N.le_antisymm; apply weighted_le; intros l I; rewrite (H l I); lia. Qed.

Lemma count_small m level : (level_count registered m level <= N.of_nat (length (registered level)))%N.
Proof.
  unfold level_count. set (f := fun n => _). induction (registered level) as [|n ns IH]; [reflexivity|]. cbn [filter]. destruct (f n); cbn [length]; lia.
Qed.

Lemma signed_below q : q < 0 -> xsigned q false = Inf true.
Proof. intros P. unfold xsigned. assert (E : (q ?= 0)%Qc = Lt) by (apply Qclt_alt, P). rewrite E. reflexivity. Qed.

(** A level: 100 without warnings, otherwise the part of the known warnings the
    handler does not have; minus infinity if none is known. *)
Definition level_value (c l : N) : xnum :=
  if N.eqb c 0 then Fin (Qc_of_N 100) else if N.eqb l 0 then Inf true else Fin (Qc_of_N 100 * (Qc_of_N l - Qc_of_N c) / Qc_of_N l).

Lemma lev_is w h t level : sound w -> get h (by_handler w) = Some t ->
  forall c l, number (has w h level) c -> number (known registered w level) l -> lev (by_warning w) t level = level_value c l.
Proof.
  intros S G c l Nc Nl.
  assert (Ec : c = N.of_nat (length (at_level t level))) by (eapply number_same; [exact Nc|apply has_number; assumption]).
  assert (El : l = level_count registered (by_warning w) level) by (eapply number_same; [exact Nl|apply known_number; [exact S|apply Reg]]).
  assert (Sm : (l < 2 ^ 64)%N) by (rewrite El; eapply N.le_lt_trans; [apply count_small|apply Reg]).
  unfold lev, level_value. rewrite range_is, <- El. rewrite <- Ec. destruct (at_level t level) as [|x xs].
  - subst c. reflexivity.
  - assert (Pc : (0 < c)%N) by (rewrite Ec; cbn [length]; lia). destruct (N.eqb_spec c 0); [lia|].
    unfold ranged_value. cbn [range_length range_high exact ndiv nmul nsub of_N].
    rewrite sub64_N by lia. rewrite N.sub_0_r. unfold xsub. cbn [xadd xneg xmul xdiv]. destruct (N.eqb_spec l 0) as [ -> |Zl].
    + assert (P : Qc_of_N 100 * (Qc_of_N 0 + - Qc_of_N c) < 0).
      { rewrite of_N_0. assert (0 < Qc_of_N c) by (rewrite <- of_N_0; apply of_N_lt, Pc).
        assert (0 < Qc_of_N 100) by reflexivity. qcn. }
      rewrite of_N_0 in *. destruct (Qc_eq_bool 0 0) eqn:Ez; [|discriminate]. apply signed_below, P.
    + destruct (Qc_eq_bool (Qc_of_N l) 0) eqn:Ez; [apply Qc_eqb_spec in Ez; exfalso; apply (of_N_nonzero l); [lia|exact Ez]|]. reflexivity.
Qed.

Lemma original_is w h t : sound w -> get h (by_handler w) = Some t -> fair registered w h ->
  forall c l, (forall level, In level level_order -> number (has w h level) (c level) /\ number (known registered w level) (l level)) ->
  original_warn_score exact registered lw (by_warning w) t =
    Fin (if N.eqb (weighted lw l) 0 then Qc_of_N 100
         else Qc_of_N 100 * (Qc_of_N (weighted lw l) - Qc_of_N (weighted lw c)) / Qc_of_N (weighted lw l)).
Proof.
  intros S G F c l H. unfold original_warn_score, max_score. rewrite !fold_weighted.
  assert (Ec : weighted lw (fun x => N.of_nat (length (at_level t x))) = weighted lw c).
  { apply weighted_ext. intros x I. eapply number_same; [apply has_number; eassumption|apply (H x I)]. }
  assert (El : weighted lw (level_count registered (by_warning w)) = weighted lw l).
  { apply weighted_ext. intros x I. eapply number_same; [apply known_number; [exact S|apply Reg]|apply (H x I)]. }
  assert (Sm : (weighted lw l < 2 ^ 64)%N).
  { rewrite <- El. eapply N.le_lt_trans; [apply weighted_le; intros x _; apply count_small|apply Reg]. }
  assert (Le : (weighted lw c <= weighted lw l)%N).
  { apply weighted_le. intros x I. destruct (H x I) as [H1 H2]. eapply number_le; [|exact H1|exact H2]. intros n. apply F, I. }
  rewrite Ec, El. destruct (N.eqb_spec (weighted lw l) 0) as [|Z]; [reflexivity|].
  rewrite sub64_N by assumption. cbn [exact ndiv nmul of_N xmul]. rewrite xdiv_fin by (apply of_N_nonzero; lia).
  rewrite of_N_sub by exact Le. reflexivity.
Qed.

(** *** The theorems *)

Section Scores.
Variables (v : world) (es : list event) (w w' : wtags) (d : gomap (wscored exact)).
Hypothesis Hist : whistory v es w.
Hypothesis Setup : warn_axis_setup exact registered lw w [] (Some d) w'.
Variable h : bytes.
Hypothesis Listed : w_listed w h.
(** How many warnings the handler has at a level, and how many are known there. *)
Variables c l : N -> N.
Hypothesis Hc : forall level, In level level_order -> number (has (wt_data w) h level) (c level).
Hypothesis Hl : forall level, In level level_order -> number (known registered (wt_data w) level) (l level).

Lemma listed_result : exists t s, get h (by_handler (wt_data w)) = Some t /\ get h d = Some s /\ result_of (by_warning (wt_data w)) t s.
Proof. destruct (setup_is v es w _ w' Hist Setup) as (d' & E & H). injection E as <-. apply (H h), Listed. Qed.

(** The level scores. *)
Theorem C45_levels level :
  w_score_for_level exact d h level = Some (if existsb (N.eqb level) level_order then level_value (c level) (l level) else Fin (Qc_of_N 100)).
Proof.
  destruct listed_result as (t & s & G & Gd & R1 & R2 & _). destruct (whistory_sound v es w Hist) as (S & _).
  unfold w_score_for_level. rewrite Gd. cbn [option_map]. f_equal. destruct (existsb (N.eqb level) level_order) eqn:E.
  - assert (I : In level level_order) by (apply existsb_exists in E; destruct E as (x & I & K); apply N.eqb_eq in K; congruence).
    destruct (R1 level I) as [A1 A2]. rewrite A2, A1. cbn [N.ltb N.compare]. eapply lev_is; eauto.
  - rewrite R2; [reflexivity|]. intros I. assert (X : existsb (N.eqb level) level_order = true) by (apply existsb_exists; exists level; split; [exact I|apply N.eqb_refl]). congruence.
Qed.

(** The bound holds exactly when not more warnings than are known. *)
Theorem C45_bound level : In level level_order ->
  ((exists q, w_score_for_level exact d h level = Some (Fin q) /\ 0 <= q /\ q <= Qc_of_N 100) <-> (c level <= l level)%N).
Proof.
  intros I. rewrite C45_levels. replace (existsb (N.eqb level) level_order) with true
    by (symmetry; apply existsb_exists; exists level; split; [exact I|apply N.eqb_refl]).
  unfold level_value. destruct (N.eqb_spec (c level) 0) as [Zc|Zc].
  - rewrite Zc. split; [lia|]. intros _. exists (Qc_of_N 100). split; [reflexivity|]. split; [apply of_N_pos|apply Qcle_refl].
  - destruct (N.eqb_spec (l level) 0) as [Zl|Zl].
    + split; [intros (q & K & _); discriminate|lia].
    + assert (Pl : 0 < Qc_of_N (l level)) by (rewrite <- of_N_0; apply of_N_lt; lia). assert (P100 : 0 < Qc_of_N 100) by reflexivity.
      split.
      * intros (q & K & K1 & K2). injection K as <-. apply of_N_le. set (x := Qc_of_N (l level)) in *. set (y := Qc_of_N (c level)) in *.
        assert (X : 0 * x <= Qc_of_N 100 * (x - y) / x * x) by (apply Qcmult_le_compat_r; [exact K1|apply Qclt_le_weak, Pl]).
        replace (Qc_of_N 100 * (x - y) / x * x) with (Qc_of_N 100 * (x - y)) in X by (field; apply Qclt_not_eq in Pl; congruence).
        replace (0 * x) with 0 in X by ring. qc_hyps. qc_goal. nra.
      * intros Le. eexists. split; [reflexivity|]. apply of_N_le in Le. pose proof (of_N_pos (c level)) as Pc. apply div_bounds; [exact Pl| |]; qcn.
Qed.

Section Fair.
Hypothesis F : fair registered (wt_data w) h.

Lemma fair_le level : In level level_order -> (c level <= l level)%N.
Proof. intros I. eapply number_le; [|apply Hc, I|apply Hl, I]. intros n. apply F, I. Qed.

Lemma fair_value level : In level level_order -> level_value (c level) (l level) = Fin (level_percent (c level) (l level)).
Proof.
  intros I. apply fair_le in I. unfold level_value, level_percent. destruct (N.eqb_spec (c level) 0); [reflexivity|].
  destruct (N.eqb_spec (l level) 0); [lia|reflexivity].
Qed.

Definition original_percent : Qc :=
  if N.eqb (weighted lw l) 0 then Qc_of_N 100 else Qc_of_N 100 * (Qc_of_N (weighted lw l) - Qc_of_N (weighted lw c)) / Qc_of_N (weighted lw l).
Definition levels_percent : option Qc := mean (map (fun level => (Some (level_percent (c level) (l level)), lw level)) level_order).

(** The scores: the weighted mean of the levels; the original one weighs the
    warnings; there is no score by test. *)
Theorem C45_scores :
  w_score_for_type exact d h ByData = Some (of_option levels_percent) /\
  w_score_for_type exact d h Default = Some (of_option levels_percent) /\
  w_score_for_type exact d h Original = Some (Fin original_percent) /\
  w_score_for_type exact d h ByTest = Some (Fin 0).
Proof.
  destruct listed_result as (t & s & G & Gd & R1 & R2 & R3 & R4 & R5 & R6). destruct (whistory_sound v es w Hist) as (S & _).
  unfold w_score_for_type. rewrite Gd. cbn [option_map]. rewrite R3, R4, R5, R6, of_N_0.
  assert (X : result (map (fun x => Times (lev (by_warning (wt_data w)) t x) (lw x)) level_order) = of_option levels_percent).
  { apply stands_result. assert (Y : forall ls, (forall x, In x ls -> In x level_order) ->
      Forall2 stands (map (fun x => Times (lev (by_warning (wt_data w)) t x) (lw x)) ls) (map (fun x => (Some (level_percent (c x) (l x)), lw x)) ls)); [|apply Y; auto].
    induction ls as [|x ls IH]; intros I; cbn [map]; constructor; [|apply IH; intros y K; apply I; right; exact K].
    split; [|reflexivity]. cbn [op_value fst of_option]. rewrite (lev_is (wt_data w) h t x S G (c x) (l x)); [apply fair_value| |]; auto with datatypes. }
  rewrite X. split; [reflexivity|]. split; [reflexivity|]. split; [|reflexivity]. f_equal. eapply original_is; eauto.
Qed.

Lemma percent_bounds level : In level level_order -> 0 <= level_percent (c level) (l level) /\ level_percent (c level) (l level) <= Qc_of_N 100.
Proof.
  intros I. apply fair_le in I. unfold level_percent. destruct (N.eqb_spec (c level) 0); [split; [apply of_N_pos|apply Qcle_refl]|].
  assert (Pl : 0 < Qc_of_N (l level)) by (rewrite <- of_N_0; apply of_N_lt; lia). apply of_N_le in I. pose proof (of_N_pos (c level)) as Pc.
  assert (P100 : 0 < Qc_of_N 100) by reflexivity. apply div_bounds; [exact Pl| |]; qcn.
Qed.
Lemma original_bounds : 0 <= original_percent /\ original_percent <= Qc_of_N 100.
Proof.
  unfold original_percent. destruct (N.eqb_spec (weighted lw l) 0); [split; [apply of_N_pos|apply Qcle_refl]|].
  assert (Pl : 0 < Qc_of_N (weighted lw l)) by (rewrite <- of_N_0; apply of_N_lt; lia).
  assert (I : (weighted lw c <= weighted lw l)%N) by (apply weighted_le; intros x; apply fair_le).
  apply of_N_le in I. pose proof (of_N_pos (weighted lw c)) as Pc. assert (P100 : 0 < Qc_of_N 100) by reflexivity. apply div_bounds; [exact Pl| |]; qcn.
Qed.
Lemma levels_none : levels_percent = None <-> forall level, In level level_order -> lw level = 0%N.
Proof.
  unfold levels_percent. rewrite mean_none, weight_sum_0. split.
  - intros [(n & K)|K] level I; [apply in_map_iff in K; destruct K as (x & K & _); discriminate|].
    apply (K (Some (level_percent (c level) (l level)), lw level)). apply (in_map (fun level => (Some (level_percent (c level) (l level)), lw level))), I.
  - intros K. right. intros e I. apply in_map_iff in I. destruct I as (x & <- & I). apply K, I.
Qed.

(** Percentages, if any level has a weight. *)
Theorem C45_percent ty : (exists level, In level level_order /\ lw level <> 0%N) ->
  exists q, w_score_for_type exact d h ty = Some (Fin q) /\ 0 <= q /\ q <= Qc_of_N 100.
Proof.
  intros (lv & I & Z). destruct C45_scores as (H1 & H2 & H3 & H4).
  assert (X : exists q, levels_percent = Some q /\ 0 <= q /\ q <= Qc_of_N 100).
  { destruct levels_percent as [q|] eqn:E; [|exfalso; apply Z, (proj1 levels_none E), I]. exists q. split; [reflexivity|].
    eapply mean_bounds; [|exact E]. intros x n K. apply in_map_iff in K. destruct K as (y & K & Iy). injection K as <- _. apply percent_bounds, Iy. }
  destruct X as (q & Eq & Bq). destruct ty.
  - exists q. rewrite H2, Eq. auto.
  - exists q. rewrite H1, Eq. auto.
  - exists original_percent. rewrite H3. split; [reflexivity|apply original_bounds].
  - exists 0. rewrite H4. split; [reflexivity|]. split; [apply Qcle_refl|apply of_N_pos].
Qed.
End Fair.

(** No warnings: 100. *)
Theorem C45_clean : (forall level n, In level level_order -> ~ has (wt_data w) h level n) ->
  (exists level, In level level_order /\ lw level <> 0%N) ->
  (forall level, w_score_for_level exact d h level = Some (Fin (Qc_of_N 100))) /\
  forall ty, ty <> ByTest -> w_score_for_type exact d h ty = Some (Fin (Qc_of_N 100)).
Proof.
  intros N (lv & I & Z). assert (C0 : forall x, In x level_order -> c x = 0%N).
  { intros x Ix. eapply number_same; [apply Hc, Ix|]. apply number_0. intros n. apply N, Ix. }
  assert (F : fair registered (wt_data w) h) by (intros x n Ix K; destruct (N x n Ix K)).
  destruct (C45_scores F) as (H1 & H2 & H3 & _).
  assert (X : levels_percent = Some (Qc_of_N 100)).
  { destruct levels_percent as [q|] eqn:E; [|exfalso; apply Z, (proj1 levels_none E), I]. f_equal.
    assert (Y : Qc_of_N 100 <= q /\ q <= Qc_of_N 100); [|apply Qcle_antisym; apply Y].
    eapply mean_bounds; [|exact E]. intros x n K. apply in_map_iff in K. destruct K as (y & K & Iy). injection K as <- _.
    unfold level_percent. rewrite (C0 y Iy). split; apply Qcle_refl. }
  assert (W0 : weighted lw c = 0%N).
  { rewrite (weighted_ext c (fun _ => 0%N) C0). unfold weighted. cbn [fold_right level_order]. lia. }
  split.
  - intros level. rewrite C45_levels. destruct (existsb _ _) eqn:E; [|reflexivity]. unfold level_value.
    apply existsb_exists in E. destruct E as (x & Ix & K). apply N.eqb_eq in K. subst x. rewrite (C0 level Ix). reflexivity.
  - intros ty Nt. destruct ty; try congruence; rewrite ?H1, ?H2, ?H3, ?X; try reflexivity.
    unfold original_percent. rewrite W0. destruct (N.eqb_spec (weighted lw l) 0) as [|Zl]; [reflexivity|]. do 2 f_equal. rewrite of_N_0. field. apply of_N_nonzero. lia.
Qed.
End Scores.
End Axis.

(** Setup always succeeds; asking for the score of a handler it did not list is a
    nil dereference (None). *)
Theorem C45_setup registered lw v es w res w' : whistory v es w -> warn_axis_setup exact registered lw w [] res w' ->
  exists d, res = Some d /\
    forall h, (w_listed w h <-> w_score_for_type exact d h Default <> None) /\
              (w_listed w h <-> forall level, w_score_for_level exact d h level <> None).
Proof.
  intros H S. destruct (setup_is registered lw v es w res w' H S) as (d & -> & K). exists d. split; [reflexivity|].
  intros h. destruct (K h) as [K1 K2]. unfold w_score_for_type, w_score_for_level. destruct (get h d) as [s|] eqn:G; cbn [option_map].
  - assert (L : w_listed w h).
    { destruct (wt_handlers w) as [|x l] eqn:E.
      - unfold w_listed, w_handler_present in *. rewrite E in *. destruct (get h (by_handler (wt_data w))) as [t|]; [eauto|].
        discriminate K2. intros [t T]. discriminate.
      - destruct (in_dec (list_eq_dec ascii_dec) h (x :: l)) as [I|I]; unfold w_listed in *; rewrite E in *; [exact I|]. discriminate (K2 I). }
    split; (split; [intros _|intros _; exact L]); [discriminate|intros level; discriminate].
  - assert (L : ~ w_listed w h) by (intros L; destruct (K1 L) as (t & s & _ & X & _); discriminate).
    split; (split; [contradiction|]); [congruence|]. intros X. destruct (X 0%N eq_refl).
Qed.

Print Assumptions C45_setup.
Print Assumptions C45_levels.
Print Assumptions C45_bound.
Print Assumptions C45_scores.
Print Assumptions C45_percent.
Print Assumptions C45_clean.

(** ** When the scores are fair *)

(** A registered warning with an instance is a known one. *)
Theorem C45_fair registered v es w h : whistory v es w ->
  (forall level n, In level level_order -> has (wt_data w) h level n ->
     In n (registered level) /\ instances_in (by_handler (wt_data w)) h level n <> []) ->
  fair registered (wt_data w) h.
Proof.
  intros H K level n I Hn. destruct (K level n I Hn) as [R J]. destruct (whistory_sound v es w H) as (S & _).
  split; [exact R|]. apply used_counted; [exact S|]. unfold instances_in in J. destruct (get h (by_handler (wt_data w))) as [t|] eqn:G; [|congruence].
  destruct (tget (level, n) t) as [dw|] eqn:T; [|congruence]. apply tget_some_in in T. apply (sound_used _ S h t (level, n) dw G T J).
Qed.
Print Assumptions C45_fair.

(** ** A further warning *)

(** The second data set knows more about the handler: nothing is lost, and what is
    newly known is what the handler has. *)
Record more (registered : N -> list bytes) (w1 w2 : wdata) (h : bytes) : Prop := {
  more_has : forall level n, In level level_order -> has w1 h level n -> has w2 h level n;
  more_known : forall level n, In level level_order -> known registered w1 level n -> known registered w2 level n;
  more_only : forall level n, In level level_order -> known registered w2 level n -> known registered w1 level n \/ has w2 h level n
}.

Lemma in_bool (l : list bytes) x : {In x l} + {~ In x l}.
Proof. apply in_dec, list_eq_dec, ascii_dec. Qed.

Lemma nodup_app (a b : list bytes) : NoDup a -> NoDup b -> (forall x, In x a -> ~ In x b) -> NoDup (a ++ b).
Proof.
  intros A D H. induction A as [|x a N A IH]; [exact D|]. cbn [app]. constructor.
  - rewrite in_app_iff. intros [I|I]; [exact (N I)|exact (H x (or_introl eq_refl) I)].
  - apply IH. intros y I. apply H. right. exact I.
Qed.

Lemma number_gap (hs ks hs' ks' : bytes -> Prop) c l c' l' :
  (forall n, hs n -> ks n) -> (forall n, hs n -> hs' n) -> (forall n, ks' n -> ks n \/ hs' n) ->
  number hs c -> number ks l -> number hs' c' -> number ks' l' -> (l' + c <= l + c')%N.
Proof.
  intros F Hh Hk (H1 & N1 & I1 & <-) (K1 & _ & J1 & <-) (H2 & N2 & I2 & <-) (K2 & M2 & J2 & <-).
  set (f := fun n => if in_bool K1 n then false else true).
  assert (A : (length (filter f K2 ++ H1) <= length H2)%nat).
  { apply NoDup_incl_length.
    - apply nodup_app; [apply NoDup_filter, M2|exact N1|]. intros x I K. apply filter_In in I. destruct I as [_ I].
      unfold f in I. destruct (in_bool K1 x); [discriminate|]. apply n, J1, F, I1, K.
    - intros x I. apply in_app_iff in I. destruct I as [I|I].
      + apply filter_In in I. destruct I as [I T]. unfold f in T. destruct (in_bool K1 x) as [|Nx]; [discriminate|].
        apply J2, Hk in I. destruct I as [I|I]; [destruct Nx; apply J1, I|apply I2, I].
      + apply I2, Hh, I1, I. }
  assert (D : (length K2 <= length (K1 ++ filter f K2))%nat).
  { apply NoDup_incl_length; [exact M2|]. intros x I. apply in_app_iff. destruct (in_bool K1 x) as [J|J]; [left; exact J|right].
    apply filter_In. split; [exact I|]. unfold f. destruct (in_bool K1 x); [contradiction|reflexivity]. }
  rewrite app_length in A, D. lia.
Qed.

Lemma ratio_le (a b x y : Qc) : 0 <= b -> b <= a -> 0 < x -> x <= y -> Qc_of_N 100 * b / y <= Qc_of_N 100 * a / x.
Proof.
  intros B0 Ba X Y. assert (P : 0 < Qc_of_N 100) by reflexivity. set (k := Qc_of_N 100) in *.
  assert (Y0 : 0 < y) by qcl. assert (Z : k * a = k * a / x * x) by (field; intros E; rewrite E in X; apply (Qclt_not_eq 0 0 X); reflexivity).
  assert (R : 0 <= k * a / x) by (apply (div_bounds (k * a) x 0 (k * a / x)); [exact X|qcn|rewrite <- Z; apply Qcle_refl]).
  apply (div_bounds (k * b) y 0 (k * a / x)); [exact Y0|qcn|]. set (r := k * a / x) in *. qcn.
Qed.

Lemma level_percent_le c l c' l' : (c <= l)%N -> (c' <= l')%N -> (c <= c')%N -> (l <= l')%N -> (l' + c <= l + c')%N ->
  level_percent c' l' <= level_percent c l.
Proof.
  intros A1 A2 A3 A4 A5. unfold level_percent. pose proof (of_N_pos c') as P. assert (P100 : 0 < Qc_of_N 100) by reflexivity.
  destruct (N.eqb_spec c' 0), (N.eqb_spec c 0); try lia; [apply Qcle_refl| |].
  - apply div_bounds with (lo := 0).
    + rewrite <- of_N_0. apply of_N_lt. lia.
    + apply of_N_le in A2. qcn.
    + apply of_N_le in A2. qcn.
  - apply ratio_le.
    + apply of_N_le in A2. qcl.
    + apply of_N_le in A5. rewrite !of_N_add in A5. qcl.
    + rewrite <- of_N_0. apply of_N_lt. lia.
    + apply of_N_le, A4.
Qed.

Lemma add_up_le l l' : Forall2 (fun e e' => exists x x', fst e = Some x /\ fst e' = Some x' /\ x' <= x /\ snd e = snd e') l l' ->
  exists s s' m, add_up l = Some (s, m) /\ add_up l' = Some (s', m) /\ s' <= s.
Proof.
  induction 1 as [|[e n] [e' n'] l l' (x & x' & E & E' & L & W) F (s & s' & m & E1 & E2 & L2)].
  - exists 0, 0, 0%N. repeat split. apply Qcle_refl.
  - cbn [fst snd] in *. subst e e' n'. cbn [add_up]. rewrite E1, E2. do 3 eexists. split; [reflexivity|]. split; [reflexivity|].
    pose proof (of_N_pos n). qcn.
Qed.

Lemma mean_le l l' : Forall2 (fun e e' => exists x x', fst e = Some x /\ fst e' = Some x' /\ x' <= x /\ snd e = snd e') l l' ->
  (mean l = None /\ mean l' = None) \/ exists q q', mean l = Some q /\ mean l' = Some q' /\ q' <= q.
Proof.
  intros H. destruct (add_up_le l l' H) as (s & s' & m & E & E' & L). unfold mean. rewrite E, E'.
  destruct (N.eqb_spec m 0); [auto|right]. do 2 eexists. split; [reflexivity|]. split; [reflexivity|].
  assert (P : 0 < / Qc_of_N m). { assert (0 < Qc_of_N m) by (rewrite <- of_N_0; apply of_N_lt; lia). qc_hyps. qc_goal. apply Qinv_lt_0_compat. assumption. }
  unfold Qcdiv. apply Qcmult_le_compat_r; [exact L|apply Qclt_le_weak, P].
Qed.

(** More warnings of a handler never make a score of it better. *)
Theorem C45_monotone registered lw v es1 es2 w1 w2 w1' w2' d1 d2 h : registry_ok registered lw ->
  whistory v es1 w1 -> whistory v es2 w2 ->
  warn_axis_setup exact registered lw w1 [] (Some d1) w1' -> warn_axis_setup exact registered lw w2 [] (Some d2) w2' ->
  w_listed w1 h -> w_listed w2 h -> fair registered (wt_data w1) h -> fair registered (wt_data w2) h ->
  more registered (wt_data w1) (wt_data w2) h ->
  (forall level, exists q1 q2, w_score_for_level exact d1 h level = Some (Fin q1) /\ w_score_for_level exact d2 h level = Some (Fin q2) /\ q2 <= q1) /\
  ((exists level, In level level_order /\ lw level <> 0%N) ->
   forall ty, exists q1 q2, w_score_for_type exact d1 h ty = Some (Fin q1) /\ w_score_for_type exact d2 h ty = Some (Fin q2) /\ q2 <= q1).
Proof.
  intros Reg H1 H2 S1 S2 L1 L2 F1 F2 M.
  destruct (whistory_sound v es1 w1 H1) as (So1 & _). destruct (whistory_sound v es2 w2 H2) as (So2 & _).
  destruct (listed_result registered lw v es1 w1 w1' d1 H1 S1 h L1) as (t1 & _ & G1 & _).
  destruct (listed_result registered lw v es2 w2 w2' d2 H2 S2 h L2) as (t2 & _ & G2 & _).
  set (c1 := fun level => N.of_nat (length (at_level t1 level))). set (c2 := fun level => N.of_nat (length (at_level t2 level))).
  set (l1 := level_count registered (by_warning (wt_data w1))). set (l2 := level_count registered (by_warning (wt_data w2))).
  assert (Hc1 : forall level, In level level_order -> number (has (wt_data w1) h level) (c1 level)) by (intros; apply has_number; assumption).
  assert (Hc2 : forall level, In level level_order -> number (has (wt_data w2) h level) (c2 level)) by (intros; apply has_number; assumption).
  assert (Hl1 : forall level, In level level_order -> number (known registered (wt_data w1) level) (l1 level)) by (intros; apply known_number; [assumption|apply Reg]).
  assert (Hl2 : forall level, In level level_order -> number (known registered (wt_data w2) level) (l2 level)) by (intros; apply known_number; [assumption|apply Reg]).
  assert (A1 : forall x, In x level_order -> (c1 x <= l1 x)%N) by (intros x I; eapply number_le; [|apply Hc1, I|apply Hl1, I]; intros n; apply F1, I).
  assert (A2 : forall x, In x level_order -> (c2 x <= l2 x)%N) by (intros x I; eapply number_le; [|apply Hc2, I|apply Hl2, I]; intros n; apply F2, I).
  assert (A3 : forall x, In x level_order -> (c1 x <= c2 x)%N) by (intros x I; eapply number_le; [|apply Hc1, I|apply Hc2, I]; intros n; apply M, I).
  assert (A4 : forall x, In x level_order -> (l1 x <= l2 x)%N) by (intros x I; eapply number_le; [|apply Hl1, I|apply Hl2, I]; intros n; apply M, I).
  assert (A5 : forall x, In x level_order -> (l2 x + c1 x <= l1 x + c2 x)%N).
  { intros x I. eapply number_gap; [| | |apply Hc1, I|apply Hl1, I|apply Hc2, I|apply Hl2, I]; intros n.
    - apply F1, I.
    - apply M, I.
    - apply M, I. }
  assert (P : forall x, In x level_order -> level_percent (c2 x) (l2 x) <= level_percent (c1 x) (l1 x)) by (intros x I; apply level_percent_le; auto).
  split.
  - intros level. rewrite (C45_levels registered lw Reg v es1 w1 w1' d1 H1 S1 h L1 c1 l1 Hc1 Hl1), (C45_levels registered lw Reg v es2 w2 w2' d2 H2 S2 h L2 c2 l2 Hc2 Hl2).
    destruct (existsb (N.eqb level) level_order) eqn:E.
    + apply existsb_exists in E. destruct E as (x & I & K). apply N.eqb_eq in K. subst x.
      rewrite (fair_value registered w1 h c1 l1 Hc1 Hl1 F1 level I), (fair_value registered w2 h c2 l2 Hc2 Hl2 F2 level I).
      do 2 eexists. split; [reflexivity|]. split; [reflexivity|apply P, I].
    + do 2 eexists. split; [reflexivity|]. split; [reflexivity|apply Qcle_refl].
  - intros Lw ty.
    destruct (C45_scores registered lw Reg v es1 w1 w1' d1 H1 S1 h L1 c1 l1 Hc1 Hl1 F1) as (B1 & B2 & B3 & B4).
    destruct (C45_scores registered lw Reg v es2 w2 w2' d2 H2 S2 h L2 c2 l2 Hc2 Hl2 F2) as (D1 & D2 & D3 & D4).
    assert (X : exists q1 q2, levels_percent lw c1 l1 = Some q1 /\ levels_percent lw c2 l2 = Some q2 /\ q2 <= q1).
    { destruct (mean_le (map (fun level => (Some (level_percent (c1 level) (l1 level)), lw level)) level_order)
                        (map (fun level => (Some (level_percent (c2 level) (l2 level)), lw level)) level_order)) as [[N1 N2]|X]; [| |exact X].
      - revert P. generalize level_order. induction l as [|x l IH]; intros P; cbn [map]; constructor; [|apply IH; intros y I; apply P; right; exact I].
        do 2 eexists. cbn [fst snd]. split; [reflexivity|]. split; [reflexivity|]. split; [apply P; left; reflexivity|reflexivity].
      - exfalso. destruct Lw as (x & I & Z). apply Z. apply (proj1 (levels_none lw c1 l1) N1), I. }
    destruct X as (q1 & q2 & E1 & E2 & Le). destruct ty.
    + exists q1, q2. rewrite B2, D2, E1, E2. auto.
    + exists q1, q2. rewrite B1, D1, E1, E2. auto.
    + do 2 eexists. rewrite B3, D3. split; [reflexivity|]. split; [reflexivity|].
      assert (W1 : (weighted lw c1 <= weighted lw l1)%N) by (apply weighted_le, A1). assert (W2 : (weighted lw c2 <= weighted lw l2)%N) by (apply weighted_le, A2).
      assert (W4 : (weighted lw l1 <= weighted lw l2)%N) by (apply weighted_le, A4).
      assert (W5 : (weighted lw l2 + weighted lw c1 <= weighted lw l1 + weighted lw c2)%N).
      { revert A5. unfold weighted. generalize level_order. induction l as [|x l IH]; intros A5; cbn [fold_right]; [lia|].
        specialize (IH (fun y I => A5 y (or_intror I))). specialize (A5 x (or_introl eq_refl)).
        assert (lw x * (l2 x + c1 x) <= lw x * (l1 x + c2 x))%N by (apply N.mul_le_mono_l, A5). lia. }
      destruct (N.eqb_spec (weighted lw l1) 0) as [Z|Z].
      * unfold original_percent at 2. rewrite (proj2 (N.eqb_eq _ _) Z). apply (original_bounds registered lw w2 h c2 l2 Hc2 Hl2 F2).
      * unfold original_percent. destruct (N.eqb_spec (weighted lw l2) 0); [lia|]. destruct (N.eqb_spec (weighted lw l1) 0); [lia|].
        apply ratio_le.
        -- apply of_N_le in W2. qcl.
        -- apply of_N_le in W5. rewrite !of_N_add in W5. qcl.
        -- rewrite <- of_N_0. apply of_N_lt. lia.
        -- apply of_N_le, W4.
    + exists 0, 0. rewrite B4, D4. split; [reflexivity|]. split; [reflexivity|apply Qcle_refl].
Qed.
Print Assumptions C45_monotone.

(** Reading a further report about the handler is such a change, if its warnings
    are registered where it has them, and nowhere else, and come with instances. *)
Theorem C45_report registered v es w1 w2 source lookup p name l :
  casing_ok (v_casing v) -> p = [] \/ p = B "# " -> l <> [] ->
  readable_report v lookup (name, l) -> short_lines (reports_text p [(name, l)]) ->
  whistory v es w1 -> parse_wtags v source lookup (reports_text p [(name, l)]) w1 w2 ->
  (forall r, In r l -> r_data r <> [] /\ forall level, In (r_name r) (registered level) <-> level = r_level r) ->
  fair registered (wt_data w1) (tag_of lookup name) ->
  more registered (wt_data w1) (wt_data w2) (tag_of lookup name) /\ fair registered (wt_data w2) (tag_of lookup name).
Proof.
  intros ok pok Nl G Sh H P Rl F. set (h := tag_of lookup name) in *.
  destruct (C36_round_trip v source lookup p [(name, l)] (wt_data w1) ok pok) as (w' & E & R); [constructor; [exact G|constructor]|exact Sh|].
  destruct P as (e & P & _). rewrite E in P. injection P as P _. rewrite P in R. inversion R as [|? ? ? ? wa ? R1 R2]; subst. inversion R2; subst. clear R R2.
  fold h in R1. assert (L : learns v source h l (wt_data w1) (wt_data w2)) by (destruct l; [congruence|exact R1]). clear R1 E.
  assert (Hh : forall level n, has (wt_data w2) h level n -> has (wt_data w1) h level n \/ exists r, In r l /\ r_level r = level /\ r_name r = n).
  { intros level n K. destruct (existsb (fun r => N.eqb (r_level r) level && beq (r_name r) n) l) eqn:Ex.
    - right. apply existsb_exists in Ex. destruct Ex as (r & I & Er). apply andb_true_iff in Er. destruct Er as [E1 E2].
      apply N.eqb_eq in E1. apply beq_eq in E2. eauto.
    - left. unfold has in *. rewrite (learns_only _ _ _ _ _ _ L level n) in K; [exact K|]. intros r I E1 E2.
      assert (X : existsb (fun r => N.eqb (r_level r) level && beq (r_name r) n) l = true).
      { apply existsb_exists. exists r. split; [exact I|]. rewrite E1, E2, N.eqb_refl, beq_refl'. reflexivity. } congruence. }
  assert (Hn : forall r, In r l -> has (wt_data w2) h (r_level r) (r_name r)).
  { intros r I. unfold has. rewrite (learns_summary _ _ _ _ _ _ L r I). discriminate. }
  assert (Hk : forall level n, known registered (wt_data w1) level n -> known registered (wt_data w2) level n).
  { intros level n [I (x & K)]. split; [exact I|]. exists x. rewrite (learns_count _ _ _ _ _ _ L). lia. }
  assert (C : forall n, told_count l n <> 0%N -> exists r, In r l /\ r_name r = n).
  { intros n K. unfold told_count in K. destruct (filter (fun r => beq (r_name r) n) l) as [|r rs] eqn:Ef; [cbn in K; congruence|].
    assert (I : In r (filter (fun r => beq (r_name r) n) l)) by (rewrite Ef; left; reflexivity). apply filter_In in I. exists r. split; [apply I|apply beq_eq, I]. }
  split; [split|].
  - intros level n _ K. destruct (existsb (fun r => N.eqb (r_level r) level && beq (r_name r) n) l) eqn:Ex.
    + apply existsb_exists in Ex. destruct Ex as (r & I & Er). apply andb_true_iff in Er. destruct Er as [E1 E2].
      apply N.eqb_eq in E1. apply beq_eq in E2. subst level n. apply Hn, I.
    + unfold has in *. rewrite (learns_only _ _ _ _ _ _ L level n); [exact K|]. intros r I E1 E2.
      assert (X : existsb (fun r => N.eqb (r_level r) level && beq (r_name r) n) l = true).
      { apply existsb_exists. exists r. split; [exact I|]. rewrite E1, E2, N.eqb_refl, beq_refl'. reflexivity. } congruence.
  - intros level n _. apply Hk.
  - intros level n _ [I (x & K)]. rewrite (learns_count _ _ _ _ _ _ L) in K.
    destruct (N.eq_dec (counted (by_warning (wt_data w1)) n x) 0) as [Z|Z]; [|left; split; [exact I|exists x; exact Z]].
    right. destruct (beq x h); [|lia]. destruct (C n) as (r & Ir & <-); [lia|]. destruct (Rl r Ir) as [_ X].
    apply X in I. subst level. apply Hn, Ir.
  - intros level n Il K. destruct (Hh level n K) as [K1|(r & I & <- & <-)]; [apply Hk, F; assumption|].
    destruct (Rl r I) as [D X]. split; [apply X; reflexivity|]. exists h. rewrite (learns_count _ _ _ _ _ _ L), beq_refl'.
    assert (T : told_count l (r_name r) <> 0%N); [|lia]. unfold told_count.
    assert (J : forall i, In i (r_data r) -> In i (concat (map r_data (filter (fun r1 => beq (r_name r1) (r_name r)) l)))).
    { intros i Hi. apply in_concat. exists (r_data r). split; [|exact Hi]. apply in_map, filter_In. split; [exact I|apply beq_refl']. }
    destruct (r_data r) as [|i is]; [congruence|]. specialize (J i (or_introl eq_refl)). destruct (concat _); [destruct J|cbn; lia].
Qed.
Print Assumptions C45_report.

(** ** Examples *)

Definition registered5 (level : N) : list bytes :=
  if N.eqb level 4 then [B "LevelVar"; B "ZeroTime"] else if N.eqb level 2 then [B "Duplicates"; B "Undefined"] else [].
Definition lw5 (level : N) : N := match level with 4 => 8 | 3 => 4 | 2 => 2 | 1 => 1 | _ => 0 end%N.
Definition further5 : list instances := [
  {| r_level := 4; r_name := B "ZeroTime"; r_summary := B "Zero time is logged"; r_count := 1;
     r_data := [{| i_function := B "TestZero"; i_text := []; i_record := [] |}] |}].
Definition tags_of (x : option (wdata * bool)) : wtags :=
  {| wt_data := match x with Some (w, _) => w | None => no_data end; wt_tests := []; wt_handlers := [] |}.
Definition parse5 (text : bytes) (w : wdata) : option (wdata * bool) := parse_warning_data PropMerge.world0 (B "Bench") PropMerge.lookup0 text w.
Definition other5 : list instances := further5 ++ [
  {| r_level := 2; r_name := B "Undefined"; r_summary := B "Not specified"; r_count := 1;
     r_data := [{| i_function := B "TestZero"; i_text := []; i_record := [] |}] |}].
Definition text5 : bytes := reports_text [] [(B "flash", PropMerge.report0); (B "other", other5)].
Definition first5 : wtags := tags_of (parse5 text5 no_data).
Definition second5 : wtags := tags_of (parse5 (reports_text [] [(B "flash", further5)]) (wt_data first5)).

Lemma registry5 : registry_ok registered5 lw5.
Proof.
  split.
  - intros level. unfold registered5. destruct (N.eqb level 4); [|destruct (N.eqb level 2)];
      repeat constructor; cbn [In]; intros K; repeat (destruct K as [K|K]; [discriminate K|]); exact K.
  - intros level. unfold registered5. destruct (N.eqb level 4); [|destruct (N.eqb level 2)]; reflexivity.
  - reflexivity.
Qed.
Lemma first5_is : whistory PropMerge.world0 [Parsed text5] first5.
Proof.
  apply (wh_parse PropMerge.world0 [] new_wtags (B "Bench") PropMerge.lookup0); [constructor|]. exists false. split; [vm_compute; reflexivity|split; vm_compute; reflexivity].
Qed.
Lemma second5_parse : parse_wtags PropMerge.world0 (B "Bench") PropMerge.lookup0 (reports_text [] [(B "flash", further5)]) first5 second5.
Proof. exists false. split; [vm_compute; reflexivity|split; vm_compute; reflexivity]. Qed.

Definition score5 (w : wtags) : option (gomap (wscored exact)) := score_warn_handlers exact registered5 lw5 (wt_data w) [B "other"; B "flash_handler"] [].
Lemma score5_some w : match score5 w with Some _ => true | None => false end = true -> exists d, score5 w = Some d.
Proof. destruct (score5 w); [eauto|discriminate]. Qed.
Lemma setup5 (w : wtags) : wt_tests w = [] -> wt_handlers w = [] -> keys (by_handler (wt_data w)) = [B "flash_handler"; B "other"] ->
  w_handler_name (wt_data w) (B "flash_handler") = B "flash" -> w_handler_name (wt_data w) (B "other") = B "Other" ->
  exists w', warn_axis_setup exact registered5 lw5 w [] (score5 w) w'.
Proof.
  intros E1 E2 E3 E4 E5. do 4 eexists. split; [split; [|reflexivity]|].
  - rewrite E1. cbn [cached_keys]. apply sorted_keys_some.
  - split; [split; [|reflexivity]|reflexivity]. cbn [wt_handlers wt_data]. rewrite E2. cbn [cached_keys].
    
    replace [B "other"; B "flash_handler"] with (sort_by (on (w_handler_name (wt_data w)) blt) (keys (by_handler (wt_data w))))
      by (rewrite E3; cbn [sort_by insert_by]; unfold on; rewrite E4, E5; reflexivity). apply sorted_keys_some.
Qed.

Definition check5 (w : wdata) (h : bytes) : bool :=
  match get h (by_handler w) with
  | Some t => forallb (fun level => forallb (fun n => existsb (beq n) (registered5 level) &&
                match instances_in (by_handler w) h level n with [] => false | _ => true end) (at_level t level)) level_order
  | None => false
  end.
Lemma check5_fair v es w h : whistory v es w -> check5 (wt_data w) h = true -> fair registered5 (wt_data w) h.
Proof.
  intros H C. apply (C45_fair registered5 v es w h H). intros level n I K. unfold check5 in C.
  destruct (get h (by_handler (wt_data w))) as [t|] eqn:G; [|discriminate]. rewrite forallb_forall in C. specialize (C level I). rewrite forallb_forall in C.
  apply (has_at_level (wt_data w) h t level n G) in K. specialize (C n K). apply andb_true_iff in C. destruct C as [C1 C2]. split.
  - apply existsb_exists in C1. destruct C1 as (x & Ix & E). apply beq_eq in E. subst. exact Ix.
  - intros E. rewrite E in C2. discriminate.
Qed.

Lemma readable5 : readable_report PropMerge.world0 PropMerge.lookup0 (B "flash", further5).
Proof.
  assert (NW : forall c, existsb (Ascii.eqb c) [tab; newline; chr 12; creturn; space] = false -> ~ whitespace c).
  { intros c Hc K. assert (X : existsb (Ascii.eqb c) [tab; newline; chr 12; creturn; space] = true).
    { apply existsb_exists. exists c. split; [exact K|apply Ascii.eqb_refl]. } congruence. }
  assert (NL : forall c s, existsb (Ascii.eqb c) s = false -> ~ In c s).
  { intros c s Hc K. assert (X : existsb (Ascii.eqb c) s = true).
    { apply existsb_exists. exists c. split; [exact K|apply Ascii.eqb_refl]. } congruence. }
  assert (SC : forall c t, ~ whitespace c -> starts_clean (c :: t)).
  { intros c t Hc c' t' E. injection E as <- _. exact Hc. }
  unfold readable_report. cbn [fst snd]. split; [|split; [|split]].
  - split; [discriminate|]. split; [apply NL; reflexivity|apply SC, NW; reflexivity].
  - discriminate.
  - repeat constructor; cbn [In]; intros [].
  - constructor; [|constructor]. split; [apply NL; reflexivity|]. split; [|split].
    + split; [apply NL; reflexivity|]. split; [apply NL; reflexivity|]. split; [apply SC, NW; reflexivity|].
      eapply PropMerge.clean_ends; [discriminate|reflexivity|apply NW; reflexivity].
    + constructor; [|constructor]. split; [|split; left; reflexivity]. split; [discriminate|].
      split; [|split; [discriminate|split; [discriminate|split; [discriminate|vm_compute; reflexivity]]]].
      intros c Hc. cbn in Hc. repeat (destruct Hc as [<-|Hc]); [| .. |destruct Hc]; (split; [apply NW; reflexivity|discriminate]).
    + cbn. auto.
Qed.

(** Two handlers; one of them gets a further warning.  The hypotheses of C45_report
    and C45_monotone hold, and the scores fall. *)
Example C45_ex :
  exists d1 w1' d2 w2',
    warn_axis_setup exact registered5 lw5 first5 [] (Some d1) w1' /\ warn_axis_setup exact registered5 lw5 second5 [] (Some d2) w2' /\
    whistory PropMerge.world0 [Parsed text5] first5 /\
    parse_wtags PropMerge.world0 (B "Bench") PropMerge.lookup0 (reports_text [] [(B "flash", further5)]) first5 second5 /\
    w_listed first5 (B "flash_handler") /\ w_listed second5 (B "flash_handler") /\
    fair registered5 (wt_data first5) (B "flash_handler") /\ fair registered5 (wt_data second5) (B "flash_handler") /\
    more registered5 (wt_data first5) (wt_data second5) (B "flash_handler") /\
    map (fun level => shown (w_score_for_level exact d1 (B "flash_handler") level)) level_order = map (fun n => Some (Some n)) [50; 100; 50; 100]%Q /\
    map (fun level => shown (w_score_for_level exact d2 (B "flash_handler") level)) level_order = map (fun n => Some (Some n)) [0; 100; 50; 100]%Q /\
    map (fun ty => shown (w_score_for_type exact d1 (B "flash_handler") ty)) [Default; Original] = map (fun n => Some (Some n)) [200 # 3; 50]%Q /\
    map (fun ty => shown (w_score_for_type exact d2 (B "flash_handler") ty)) [Default; Original] = map (fun n => Some (Some n)) [40; 10]%Q.
Proof.
  assert (X1 : match score5 first5 with Some _ => true | None => false end = true) by (vm_compute; reflexivity).
  assert (X2 : match score5 second5 with Some _ => true | None => false end = true) by (vm_compute; reflexivity).
  destruct (score5_some first5 X1) as [d1 E1]. destruct (score5_some second5 X2) as [d2 E2]. clear X1 X2.
  destruct (setup5 first5) as [w1' S1]; [vm_compute; reflexivity ..|]. destruct (setup5 second5) as [w2' S2]; [vm_compute; reflexivity ..|].
  rewrite E1 in S1. rewrite E2 in S2.
  assert (F1 : fair registered5 (wt_data first5) (B "flash_handler")) by (eapply check5_fair; [exact first5_is|vm_compute; reflexivity]).
  assert (R : more registered5 (wt_data first5) (wt_data second5) (B "flash_handler") /\ fair registered5 (wt_data second5) (B "flash_handler")).
  { assert (T : tag_of PropMerge.lookup0 (B "flash") = B "flash_handler") by reflexivity. rewrite <- T.
    eapply (C45_report registered5 _ _ first5 second5 (B "Bench") PropMerge.lookup0 [] (B "flash") further5).
    - apply PropMerge.C36_ex.
    - left. reflexivity.
    - discriminate.
    - exact readable5.
    - apply PropMerge.short_text. vm_compute. discriminate.
    - exact first5_is.
    - exact second5_parse.
    - intros r [ <- |[]]. split; [discriminate|]. intros level. cbn [r_name r_level]. unfold registered5.
      destruct (N.eqb_spec level 4) as [ -> |N]; [split; [reflexivity|right; left; reflexivity]|].
      split; [|contradiction]. destruct (N.eqb level 2); [|intros []]. intros K. destruct K as [K|[K|[]]]; discriminate K.
    - rewrite T. exact F1. }
  destruct R as [R1 R2]. assert (Q1 : d1 = match score5 first5 with Some d => d | None => [] end) by (rewrite E1; reflexivity).
  assert (Q2 : d2 = match score5 second5 with Some d => d | None => [] end) by (rewrite E2; reflexivity).
  exists d1, w1', d2, w2'. split; [exact S1|]. split; [exact S2|]. split; [exact first5_is|]. split; [exact second5_parse|].
  assert (L : forall w, wt_handlers w = [] -> get (B "flash_handler") (by_handler (wt_data w)) <> None -> w_listed w (B "flash_handler")).
  { intros w Z G. unfold w_listed. rewrite Z. unfold w_handler_present. destruct (get _ _); [eexists; reflexivity|congruence]. }
  split; [apply L; [vm_compute; reflexivity|vm_compute; discriminate]|]. split; [apply L; [vm_compute; reflexivity|vm_compute; discriminate]|].
  split; [exact F1|]. split; [exact R2|]. split; [exact R1|]. clear - Q1 Q2. subst d1 d2. repeat split; vm_compute; reflexivity.
Qed.

(** A warning that is not registered, and one without instances: no percentage. *)
Example C45_unfair_ex :
  let report r := wt_data (tags_of (parse5 (reports_text [] [(B "flash", r)]) no_data)) in
  let score r := match score_warn_handlers exact registered5 lw5 (report r) [B "flash_handler"] [] with
                 | Some d => w_score_for_level exact d (B "flash_handler") 4 | None => None end in
  let one n := {| r_level := 4; r_name := B n; r_summary := B "summary"; r_count := 1;
                  r_data := [{| i_function := B "TestZero"; i_text := []; i_record := [] |}] |} in
  score [one "Strange"%string] = Some (Inf true) /\
  shown (score [one "ZeroTime"%string; one "Strange"%string]) = Some (Some (-100 # 1)%Q) /\
  score [{| r_level := 4; r_name := B "ZeroTime"; r_summary := B "summary"; r_count := 1; r_data := [] |}] = Some (Inf true).
Proof. cbv zeta. repeat split; vm_compute; reflexivity. Qed.
