(** Derivation histories of sloggy handlers. *)

From Coq Require Import Ascii String List ZArith NArith Bool Arith Lia.
From Verif Require Import Bytes Slog SpecLog SpecSloggy GoQuote History HistoryProofs Slices GroupSlices
  Sloggy SloggyProofs SloggyHandler FlashHeap SloggyHeap.
Import ListNotations.

(** The handler a path stands for. *)
Definition of_spath (std : stdlib) (n : nat) (p : path) : option shdl :=
  sderive std n (SBase (snew_handler (p_options p))) (p_ops p).

(** ** Without ReplaceAttr the groups do not matter *)

Definition norm (h : shandler) : shandler :=
  {| sh_options := sh_options h; sh_prefix := sh_prefix h; sh_suffix := sh_suffix h;
     sh_groups := match o_replace (sh_options h) with None => [] | Some _ => sh_groups h end |}.

Fixpoint norm_hdl (g : shdl) : shdl :=
  match g with
  | SBase h => SBase (norm h)
  | SGroup h name p => SGroup (norm h) name (norm_hdl p)
  end.

Section Norm.
Variable std : stdlib.

Lemma em_nogroups n : forall gs gs' st a, em std None n gs st a = em std None n gs' st a.
Proof.
  induction n as [|n IH]; intros gs gs' st a; [reflexivity|]. cbn [em].
  assert (L : forall l st, ems_loop (em std None n gs) st l = ems_loop (em std None n gs') st l).
  { induction l as [|x l IHl]; intros s; cbn [ems_loop]; [reflexivity|]. rewrite (IH gs gs').
    destruct (em std None n gs' s x) as [[[c s1] []]|]; auto. rewrite IHl. reflexivity. }
  replace (sloggy_effective None gs a) with (sloggy_effective None gs' a) by reflexivity.
  destruct (is_empty a); [reflexivity|]. destruct (sloggy_effective None gs' a) as [a' v].
  destruct (is_empty a'); [reflexivity|]. destruct v; auto. destruct (empty_group l); auto.
  destruct (fst a'); rewrite L; reflexivity.
Qed.

Lemma ems_nogroups n gs gs' l : forall st, ems std None n gs st l = ems std None n gs' st l.
Proof.
  unfold ems. induction l as [|x l IHl]; intros s; cbn [ems_loop]; [reflexivity|]. rewrite (em_nogroups n gs gs').
  destruct (em std None n gs' s x) as [[[c s1] []]|]; auto. rewrite IHl. reflexivity.
Qed.

Lemma ems_norm h n l st : ems std (o_replace (sh_options h)) n (sh_groups (norm h)) st l =
  ems std (o_replace (sh_options h)) n (sh_groups h) st l.
Proof. unfold norm. cbn. destruct (o_replace (sh_options h)); [reflexivity|]. apply ems_nogroups. Qed.

Lemma hchunks_norm n h r : hchunks std n (norm h) r = hchunks std n h r.
Proof.
  unfold hchunks. change (sh_options (norm h)) with (sh_options h). rewrite ems_norm.
  change (sbasics std (norm h) r) with (sbasics std h r). change (sh_prefix (norm h)) with (sh_prefix h).
  change (sh_suffix (norm h)) with (sh_suffix h).
  destruct (ems _ _ _ _ _ (sbasics std h r)) as [[[c1 s1] []]|]; auto. rewrite ems_norm. reflexivity.
Qed.

Lemma shandle_norm n h r w : shandle log_write std n (norm h) r w = shandle log_write std n h r w.
Proof. rewrite !shandle_log, hchunks_norm. reflexivity. Qed.

Lemma shandle_norm_hdl n r : forall g d w,
  shandle_hdl log_write std n d (norm_hdl g) r w = shandle_hdl log_write std n d g r w.
Proof.
  induction g as [h|h nm p IH]; intros d w; cbn [shandle_hdl norm_hdl].
  - rewrite shandle_norm. reflexivity.
  - destruct d; auto; rewrite shandle_norm, IH; reflexivity.
Qed.

Lemma norm_idem h : norm (norm h) = norm h.
Proof. unfold norm. cbn. destruct (o_replace (sh_options h)); reflexivity. Qed.

Lemma norm_inner g : sinner (norm_hdl g) = norm (sinner g).
Proof. destruct g; reflexivity. Qed.

(** Deriving from handlers equal up to unused groups. *)
Lemma swith_attrs_norm n h h' l : norm h = norm h' ->
  option_map norm (swith_attrs std n h l) = option_map norm (swith_attrs std n h' l).
Proof.
  intros E. rewrite !swith_attrs_eq.
  rewrite <- (ems_norm h), <- (ems_norm h'), E.
  assert (E1 : sh_options h = sh_options h') by exact (f_equal sh_options E).
  assert (E2 : sh_prefix h = sh_prefix h') by exact (f_equal sh_prefix E).
  assert (E3 : sh_suffix h = sh_suffix h') by exact (f_equal sh_suffix E).
  pose proof (f_equal sh_groups E) as E4. cbn in E4.
  rewrite <- E1, <- E2.
  destruct (ems _ _ _ _ _ l) as [[[ch s] ok]|]; [|reflexivity]. cbn. f_equal. unfold norm, sextend. cbn.
  rewrite <- E1, <- E2, <- E3. rewrite <- E1 in E4. rewrite E4. reflexivity.
Qed.

Lemma swith_group_norm h h' nm : norm h = norm h' -> norm (swith_group h nm) = norm (swith_group h' nm).
Proof.
  intros E.
  assert (E1 : sh_options h = sh_options h') by exact (f_equal sh_options E).
  assert (E2 : sh_prefix h = sh_prefix h') by exact (f_equal sh_prefix E).
  assert (E3 : sh_suffix h = sh_suffix h') by exact (f_equal sh_suffix E).
  pose proof (f_equal sh_groups E) as E4. cbn in E4. unfold norm, swith_group. cbn.
  rewrite <- E1 in *. rewrite E2, E3. f_equal. destruct (o_replace (sh_options h)); [rewrite E4|]; reflexivity.
Qed.

End Norm.

(** ** Buffers *)

(** Old arrays are as they were. *)
Definition untouched {T} (h h' : heap T) : Prop :=
  length h <= length h' /\ forall i, i < length h -> nth i h' [] = nth i h [].

Lemma untouched_refl {T} (h : heap T) : untouched h h.
Proof. split; auto. Qed.

Lemma untouched_trans {T} (h h1 h2 : heap T) : untouched h h1 -> untouched h1 h2 -> untouched h h2.
Proof. intros [L1 K1] [L2 K2]. split; [lia|]. intros i H. rewrite K2 by lia. apply K1. exact H. Qed.

Lemma untouched_read {T} (h h' : heap T) s : wf h s -> untouched h h' -> wf h' s /\ gread h' s = gread h s.
Proof.
  intros [L W] [Lh K]. destruct W as [W|[W1 W2]].
  - split; [split; auto|]. unfold gread. replace (sl_len s) with 0 by lia. reflexivity.
  - unfold wf, gread, array in *. rewrite K by auto. split; auto. split; auto. right. split; auto. lia.
Qed.

(** A buffer of its own with respect to the arrays of [h]. *)
Definition own {T} (h : heap T) (s : gslice) : Prop := sl_cap s = 0 \/ length h <= sl_arr s.

Lemma own_append {T} (zero : T) grow h0 h s x : untouched h0 h -> own h0 s -> wf h s ->
  let (h', s') := gappend zero grow h s x in
  untouched h0 h' /\ own h0 s' /\ wf h' s' /\ gread h' s' = gread h s ++ x.
Proof.
  intros U O W. pose proof (append_ok T zero grow h s x W) as A. destruct (gappend zero grow h s x) as [h' s'].
  destruct A as (W' & R & [Lk K] & A). split; [|split; [|split; auto]].
  - destruct U as [Lu U]. split; [lia|]. intros i Hi. rewrite <- U by auto. destruct (K i ltac:(lia)) as [Kl Kf].
    specialize (Kf (max (length (nth i h' [])) (length (nth i h [])))).
    rewrite !firstn_all2 in Kf by lia. apply Kf. right. destruct O as [O|O]; [right; exact O|left; lia].
  - destruct A as [(A1 & A2 & A3)|A]; [unfold own in *; rewrite A1, A3; exact O|right].
    destruct U. lia.
Qed.

(** Appending to [s] does not disturb [t]. *)
Definition apart (t s : gslice) : Prop := sl_cap t = 0 \/ sl_cap s = 0 \/ sl_arr t <> sl_arr s.

Lemma apart_append {T} (zero : T) grow h s t x : wf h s -> wf h t -> apart t s ->
  let (h', s') := gappend zero grow h s x in wf h' t /\ gread h' t = gread h t /\ apart t s'.
Proof.
  intros W Wt A. pose proof (append_ok T zero grow h s x W) as H. destruct (gappend zero grow h s x) as [h' s'].
  destruct H as (W' & R & [Lk K] & Af). destruct Wt as [L Wt]. destruct (Nat.eq_dec (sl_cap t) 0) as [Z|Z].
  - split; [split; auto|]. split; [|left; exact Z]. unfold gread. replace (sl_len t) with 0 by lia. reflexivity.
  - destruct Wt as [Wt|[Wt1 Wt2]]; [lia|]. destruct (K _ Wt1) as [Kl Kf]. destruct A as [A|A]; [lia|].
    split; [|split].
    + split; auto. right. split; [lia|]. unfold array in *. congruence.
    + unfold gread, array. apply Kf. right. destruct A as [A|A]; [right|left]; auto.
    + right. destruct Af as [(A1 & A2 & A3)|Af].
      * destruct A as [A|A]; [left; congruence|right; congruence].
      * right. lia.
Qed.

Section Proofs.
Variable std : stdlib.
Variable grow : policy.
Variable n : nat.

Lemma own_feed h0 ch : forall h s, untouched h0 h -> own h0 s -> wf h s ->
  let (h', s') := fst (feed (qwrite grow) (h, s) ch) in
  untouched h0 h' /\ own h0 s' /\ wf h' s' /\ gread h' s' = gread h s ++ concat ch.
Proof.
  induction ch as [|x ch IH]; intros h s U O W; cbn [feed concat].
  - cbn. rewrite app_nil_r. auto.
  - unfold qwrite at 1. cbn [fst snd]. pose proof (own_append NUL grow h0 h s x U O W) as A.
    destruct (gappend NUL grow h s x) as [h1 s1]. destruct A as (U1 & O1 & W1 & R1).
    specialize (IH h1 s1 U1 O1 W1). destruct (fst (feed (qwrite grow) (h1, s1) ch)) as [h2 s2].
    destruct IH as (U2 & O2 & W2 & R2). rewrite R2, R1, app_assoc. auto.
Qed.

Lemma apart_feed t ch : forall h s, wf h s -> wf h t -> apart t s ->
  let (h', s') := fst (feed (qwrite grow) (h, s) ch) in wf h' t /\ gread h' t = gread h t /\ apart t s'.
Proof.
  induction ch as [|x ch IH]; intros h s W Wt A; cbn [feed].
  - cbn. auto.
  - unfold qwrite at 1. cbn [fst snd]. pose proof (apart_append NUL grow h s t x W Wt A) as H.
    pose proof (append_ok _ NUL grow h s x W) as H'.
    destruct (gappend NUL grow h s x) as [h1 s1]. destruct H as (Wt1 & R1 & A1). destruct H' as (W1 & _).
    specialize (IH h1 s1 W1 Wt1 A1). destruct (fst (feed (qwrite grow) (h1, s1) ch)) as [h2 s2].
    rewrite <- R1. exact IH.
Qed.

Lemma own_copied h0 h s : untouched h0 h -> wf h s ->
  let (h', s') := copied grow h s in
  untouched h h' /\ untouched h0 h' /\ own h0 s' /\ own h s' /\ wf h' s' /\ gread h' s' = gread h s.
Proof.
  intros U W. unfold copied, qwrite. cbn [fst snd]. destruct (Nat.ltb_spec 0 (sl_len s)) as [L|L].
  - pose proof (own_append NUL grow h0 h nil_slice (gread h s) U (or_introl eq_refl) (wf_nil _ h)) as A.
    pose proof (own_append NUL grow h h nil_slice (gread h s) (untouched_refl h) (or_introl eq_refl) (wf_nil _ h)) as A'.
    destruct (gappend NUL grow h nil_slice (gread h s)) as [h1 s1]. destruct A as (U1 & O1 & W1 & R1).
    destruct A' as (U2 & O2 & _). auto 8.
  - split; [apply untouched_refl|]. split; auto. split; [left; reflexivity|]. split; [left; reflexivity|].
    split; [apply wf_nil|]. unfold gread. replace (sl_len s) with 0 by lia. reflexivity.
Qed.

(** ** The invariant *)

Lemma qrun_snoc es : forall w e, qrun std grow n w (es ++ [e]) =
  match qrun std grow n w es with None => None | Some w' => qstep std grow n w' e end.
Proof.
  induction es as [|e' es IH]; intros w e; cbn.
  - destruct (qstep std grow n w e); reflexivity.
  - destruct (qstep std grow n w e'); auto.
Qed.

Definition gproj (w : qworld) : heap bytes * list (gslice * options) :=
  (q_names w, map (fun f => (q_groups (qinner f), q_options (qinner f))) (q_tbl w)).

Lemma gproj_step w e w' : qstep std grow n w e = Some w' -> gproj w' = gstep grow (fun _ => true) (gproj w) e.
Proof.
  unfold gproj. destruct e as [o x|i op]; cbn [qstep gstep].
  - intros H. injection H as <-. cbn. rewrite map_app. reflexivity.
  - rewrite nth_error_map. destruct (nth_error (q_tbl w) i) as [f|]; cbn [option_map]; [|intros H; injection H as <-; reflexivity].
    destruct op as [l|nm].
    + unfold qwith_attrs. destruct (copied grow (q_bytes w) _) as [b1 p]. destruct (copied grow b1 _) as [b2 s].
      destruct (sadd_attributes _ _ _ _ l) as [[c ok]|]; [|discriminate]. destruct (s_writer c) as [b3 p'].
      intros H. injection H as <-. cbn. rewrite map_app. reflexivity.
    + intros H. injection H as <-. destruct nm as [|c nm]; cbn [qwith_group].
      * cbn. rewrite map_app. reflexivity.
      * destruct (gappend (nil : bytes) grow (q_names w) (q_groups (qinner f)) (@cons bytes (c :: nm) nil)) as [gh gs].
        destruct (copied grow (q_bytes w) _) as [b1 p]. destruct (copied grow b1 _) as [b2 s].
        destruct (fst (qwrite grow (b2, p) _)) as [b3 p']. destruct (fst (qwrite grow (b3, s) _)) as [b4 s'].
        cbn. rewrite map_app. reflexivity.
Qed.

Lemma gproj_run es : forall w, qrun std grow n empty_qworld es = Some w -> gproj w = grun grow (fun _ => true) es.
Proof.
  induction es as [|e es IH] using rev_ind; intros w R.
  - cbn in R. injection R as <-. reflexivity.
  - rewrite qrun_snoc in R. destruct (qrun std grow n empty_qworld es) as [w0|]; [|discriminate].
    rewrite grun_snoc, <- (IH w0 eq_refl). apply gproj_step. exact R.
Qed.

Fixpoint qchain (f : qhdl) : list qhandler :=
  match f with QBase h => [h] | QGroup h _ p => h :: qchain p end.

(** Told or not: the groups of handlers with path [p] count as right. *)
Definition counted (es : list event) (p : path) : Prop := o_replace (p_options p) = None \/ narrow es.

Definition qinv (es : list event) (w : qworld) : Prop :=
  length (q_tbl w) = length (paths es) /\
  forall i f p, nth_error (q_tbl w) i = Some f -> nth_error (paths es) i = Some p ->
    wf (q_bytes w) (q_prefix (qinner f)) /\ wf (q_bytes w) (q_suffix (qinner f)) /\
    (forall h, In h (qchain f) -> q_options h = p_options p /\ exists f', In f' (q_tbl w) /\ h = qinner f') /\
    (counted es p -> exists g, of_spath std n p = Some g /\ norm_hdl g = norm_hdl (qview_hdl w f)).

Lemma qview_same w w' f : (forall h, In h (qchain f) -> norm (qview w' h) = norm (qview w h)) ->
  norm_hdl (qview_hdl w' f) = norm_hdl (qview_hdl w f).
Proof.
  induction f as [h|h nm p IH]; cbn; intros H.
  - rewrite H; auto.
  - rewrite H by auto. rewrite IH; auto.
Qed.

Lemma qinner_view w f : sinner (qview_hdl w f) = qview w (qinner f).
Proof. destruct f; reflexivity. Qed.

Lemma sderive_snoc ops : forall g o,
  sderive std n g (ops ++ [o]) = match sderive std n g ops with None => None | Some g' => sstep std n g' o end.
Proof.
  induction ops as [|p ops IH]; intros g o; cbn.
  - destruct (sstep std n g o); reflexivity.
  - destruct (sstep std n g p); auto.
Qed.

Lemma of_spath_extend p o g : of_spath std n p = Some g -> of_spath std n (extend_path p o) = sstep std n g o.
Proof. unfold of_spath, extend_path. cbn. rewrite sderive_snoc. intros ->. reflexivity. Qed.

(** Adding a handler without touching old arrays. *)
Lemma qinv_add es e w w' f' p' :
  qrun std grow n empty_qworld es = Some w -> qrun std grow n empty_qworld (es ++ [e]) = Some w' ->
  qinv es w -> paths (es ++ [e]) = paths es ++ [p'] -> q_tbl w' = q_tbl w ++ [f'] ->
  untouched (q_bytes w) (q_bytes w') ->
  wf (q_bytes w') (q_prefix (qinner f')) -> wf (q_bytes w') (q_suffix (qinner f')) ->
  (forall h, In h (qchain f') -> q_options h = p_options p' /\ (h = qinner f' \/ exists f, In f (q_tbl w) /\ h = qinner f)) ->
  (counted (es ++ [e]) p' -> (forall f p i, nth_error (q_tbl w) i = Some f -> nth_error (paths es) i = Some p ->
       counted (es ++ [e]) p -> norm_hdl (qview_hdl w' f) = norm_hdl (qview_hdl w f)) ->
     exists g, of_spath std n p' = Some g /\ norm_hdl g = norm_hdl (qview_hdl w' f')) ->
  qinv (es ++ [e]) w'.
Proof.
  intros R R' [L I] P T U W1 W2 Ch V.
  assert (PathOf : forall k f, nth_error (q_tbl w) k = Some f -> exists p, nth_error (paths es) k = Some p).
  { intros k f N. destruct (nth_error (paths es) k) eqn:E; eauto. apply nth_error_None in E.
    assert (k < length (q_tbl w)) by (apply nth_error_Some; congruence). lia. }
  assert (Early : forall p, counted (es ++ [e]) p -> counted es p).
  { intros p [C|C]; [left; exact C|right]. eapply narrow_earlier; eauto. }
  assert (Old : forall f p i, nth_error (q_tbl w) i = Some f -> nth_error (paths es) i = Some p ->
       counted (es ++ [e]) p -> norm_hdl (qview_hdl w' f) = norm_hdl (qview_hdl w f)).
  { intros f p i N Np C. apply qview_same. intros h Ih. destruct (I i f p N Np) as (_ & _ & Hc & _).
    destruct (Hc h Ih) as (Ho & f0 & If0 & ->). apply In_nth_error in If0 as (k & Nk).
    destruct (PathOf k f0 Nk) as (p0 & Np0). destruct (I k f0 p0 Nk Np0) as (Wp & Ws & _ & _).
    destruct (untouched_read _ _ _ Wp U) as [_ Rp]. destruct (untouched_read _ _ _ Ws U) as [_ Rs].
    unfold norm, qview. cbn. rewrite Rp, Rs. f_equal.
    destruct (o_replace (q_options (qinner f0))) eqn:Er; [|reflexivity].
    destruct C as [C|C]; [congruence|].
    (* the groups are right before and after *)
    assert (G : forall es' w1, qrun std grow n empty_qworld es' = Some w1 -> narrow es' ->
      nth_error (q_tbl w1) k = Some f0 -> nth_error (paths es') k = Some p0 ->
      gread (q_names w1) (q_groups (qinner f0)) = names (p_ops p0)).
    { intros es' w1 R1 N1 Nk1 Np1. pose proof (groups_right grow (fun _ => true) es' N1 k) as GR.
      rewrite <- (gproj_run es' w1 R1) in GR. unfold gproj in GR. cbn [fst snd] in GR.
      rewrite nth_error_map, Nk1 in GR. apply (GR _ _ p0 eq_refl Np1). }
    rewrite (G (es ++ [e]) w' R' C).
    - symmetry. apply (G es w R); auto. eapply narrow_earlier; eauto.
    - rewrite T. apply nth_old. exact Nk.
    - rewrite P. apply nth_old. exact Np0. }
  split; [rewrite T, P, !app_length; cbn; lia|].
  intros i f p N Np. rewrite T in N. rewrite P in Np. apply nth_snoc in N as [N|[-> ->]].
  - assert (Li : i < length (q_tbl w)) by (apply nth_error_Some; congruence).
    apply nth_snoc in Np as [Np|[-> _]]; [|lia].
    destruct (I i f p N Np) as (Wp & Ws & Hc & G).
    split; [apply (untouched_read _ _ _ Wp U)|]. split; [apply (untouched_read _ _ _ Ws U)|]. split.
    + intros h Ih. destruct (Hc h Ih) as (Ho & f0 & If0 & ->). split; auto. exists f0. split; auto.
      rewrite T. apply in_or_app. auto.
    + intros C. destruct (G (Early p C)) as (g & D & E). exists g. split; auto.
      rewrite (Old f p i N Np C). exact E.
  - apply nth_snoc in Np as [Np|[_ ->]].
    { assert (length (q_tbl w) < length (paths es)) by (apply nth_error_Some; congruence). lia. }
    split; [exact W1|]. split; [exact W2|]. split.
    + intros h Ih. destruct (Ch h Ih) as (Ho & Hc). split; auto.
      destruct Hc as [->|(f0 & If0 & ->)]; [exists f'|exists f0]; (split; [rewrite T; apply in_or_app|reflexivity]); cbn; auto.
    + intros C. apply V; auto.
Qed.

Lemma norm_eta h : norm h = {| sh_options := sh_options h; sh_prefix := sh_prefix h; sh_suffix := sh_suffix h;
  sh_groups := sh_groups (norm h) |}.
Proof. reflexivity. Qed.

Theorem qrun_inv es : forall w, qrun std grow n empty_qworld es = Some w -> qinv es w.
Proof.
  induction es as [|e es IH] using rev_ind; intros w' R'.
  { cbn in R'. injection R' as <-. split; [reflexivity|]. intros [|i] f p N; discriminate. }
  pose proof R' as S. rewrite qrun_snoc in S. destruct (qrun std grow n empty_qworld es) as [w|] eqn:R; [|discriminate].
  specialize (IH w eq_refl). pose proof IH as [L I]. destruct e as [o x|i op].
  { cbn [qstep] in S. injection S as <-.
    eapply (qinv_add es (New o x) w _ _ {| p_options := o; p_extras := x; p_ops := [] |} R R' IH); try reflexivity.
    - apply paths_snoc.
    - apply untouched_refl.
    - apply wf_nil.
    - apply wf_nil.
    - cbn. intros h [<-|[]]. auto.
    - intros _ _. cbn. eexists. split; [reflexivity|]. cbn. unfold norm. cbn. destruct (o_replace o); reflexivity. }
  cbn [qstep] in S. destruct (nth_error (q_tbl w) i) as [f|] eqn:Nf.
  2: { injection S as <-. assert (Np : nth_error (paths es) i = None).
       { apply nth_error_None. apply nth_error_None in Nf. lia. }
       assert (P : paths (es ++ [From i op]) = paths es) by (rewrite paths_snoc; cbn; rewrite Np; reflexivity).
       split; [rewrite P; exact L|]. rewrite P. intros k f p Nk Npk. destruct (I k f p Nk Npk) as (A1 & A2 & A3 & A4).
       repeat (split; [assumption|]). intros C. apply A4. destruct C as [C|C]; [left; exact C|right].
       eapply narrow_earlier; eauto. }
  assert (exists p, nth_error (paths es) i = Some p) as (p & Np).
  { destruct (nth_error (paths es) i) eqn:E; eauto. apply nth_error_None in E.
    assert (i < length (q_tbl w)) by (apply nth_error_Some; congruence). lia. }
  destruct (I i f p Nf Np) as (Wp & Ws & Hc & G).
  assert (P : paths (es ++ [From i op]) = paths es ++ [extend_path p op]).
  { rewrite paths_snoc. cbn. rewrite Np. reflexivity. }
  assert (Early : counted (es ++ [From i op]) (extend_path p op) -> counted es p).
  { intros [C|C]; [left; exact C|right]. eapply narrow_earlier; eauto. }
  assert (Opt : q_options (qinner f) = p_options p).
  { destruct (Hc (qinner f)) as [Ho _]; auto. destruct f; cbn; auto. }
  set (h := qinner f) in *. set (v := qview w h) in *.
  destruct op as [l|nm].
  - (* WithAttrs *)
    unfold qwith_attrs in S. fold v in S.
    pose proof (own_copied (q_bytes w) (q_bytes w) (q_prefix h) (untouched_refl _) Wp) as A1.
    destruct (copied grow (q_bytes w) (q_prefix h)) as [b1 pb]. destruct A1 as (_ & U1 & O1 & _ & W1 & R1).
    destruct (untouched_read _ _ _ Ws U1) as [Ws1 Rs1].
    pose proof (own_copied (q_bytes w) b1 (q_suffix h) U1 Ws1) as A2.
    destruct (copied grow b1 (q_suffix h)) as [b2 sb]. destruct A2 as (U12 & U2 & O2 & O2' & W2 & R2).
    destruct (untouched_read _ _ _ W1 U12) as [W1' R1'].
    set (st := match sh_prefix v with [] => false | _ => _ end) in S.
    destruct (ems std (o_replace (q_options h)) n (sh_groups v) st l) as [[[ch s'] ok]|] eqn:E.
    2: { rewrite (none_attributes std (o_replace (q_options h)) _ (qwrite grow) (sh_groups v) n (b2, pb) st l) in S; auto.
         - discriminate.
         - intros w0 x. reflexivity. }
    destruct (runs_attributes std (o_replace (q_options h)) _ (qwrite grow) (sh_groups v) n (b2, pb) st l ch s' ok E) as (s2 & Er & _).
    rewrite Er in S. cbn [s_writer snew_composer] in S.
    (* appending to the copied prefix leaves the older arrays and the copied suffix *)
    pose proof (own_feed (q_bytes w) ch b2 pb U2 O1 W1') as A3.
    assert (Ap : apart sb pb).
    { destruct O2' as [O2'|O2']; [left; exact O2'|]. destruct W1 as [_ [W1|[W1 _]]]; [right; left; exact W1|].
      right; right. lia. }
    pose proof (apart_feed sb ch b2 pb W1' W2 Ap) as A4.
    destruct (fst (feed (qwrite grow) (b2, pb) ch)) as [b3 p3]. destruct A3 as (U3 & O3 & W3 & R3).
    destruct A4 as (W4 & R4 & _). injection S as <-.
    eapply (qinv_add es (From i (WithAttrs l)) w _ _ (extend_path p (WithAttrs l)) R R' IH P eq_refl);
      cbn [q_bytes qinner q_prefix q_suffix]; auto.
    + cbn. intros h0 [<-|[]]. auto.
    + intros C _. destruct (G (Early C)) as (g & D & E0).
      rewrite (of_spath_extend p _ g D). cbn [sstep].
      assert (En : norm (sinner g) = norm v).
      { rewrite <- norm_inner, E0, norm_inner, qinner_view. reflexivity. }
      pose proof (swith_attrs_norm std n (sinner g) v l En) as Sn.
      rewrite (swith_attrs_eq std n v l) in Sn.
      change (TextProofs.started_of (sh_prefix v) false) with st in Sn. change (o_replace (sh_options v)) with (o_replace (q_options h)) in Sn.
      rewrite E in Sn. destruct (swith_attrs std n (sinner g) l) as [h'|]; [|discriminate]. cbn [option_map] in Sn. apply (f_equal (fun o => match o with Some x => x | None => norm h' end)) in Sn.
      eexists. split; [reflexivity|]. cbn [norm_hdl qview_hdl]. f_equal. rewrite Sn. unfold norm, sextend, qview. cbn.
      rewrite R3, R1', R1, R4, R2, Rs1. reflexivity.
  - (* WithGroup *)
    injection S as S. unfold qwith_group in S. destruct nm as [|c nm].
    { subst w'. fold h in R' |- *.
      eapply (qinv_add es (From i (WithGroup [])) w _ _ (extend_path p (WithGroup [])) R R' IH P eq_refl);
        cbn [q_bytes qinner q_prefix q_suffix]; auto.
      - apply untouched_refl.
      - cbn. intros h0 [<-|[]]. auto.
      - intros C Old. destruct (G (Early C)) as (g & D & E0). rewrite (of_spath_extend p _ g D). cbn [sstep].
        eexists. split; [reflexivity|]. cbn [norm_hdl qview_hdl]. f_equal.
        rewrite <- norm_inner, E0, norm_inner, qinner_view. reflexivity. }
    fold h in S. fold v in S. set (name := c :: nm) in *.
    set (start := match sh_prefix v with [] => [] | _ => _ end) in S.
    set (text := start ++ [quote] ++ name ++ [quote] ++ B ": {") in S.
    destruct (gappend (nil : bytes) grow (q_names w) (q_groups h) (@cons bytes name nil)) as [gh gs] eqn:Eg.
    pose proof (own_copied (q_bytes w) (q_bytes w) (q_prefix h) (untouched_refl _) Wp) as A1.
    destruct (copied grow (q_bytes w) (q_prefix h)) as [b1 pb]. destruct A1 as (_ & U1 & O1 & _ & W1 & R1).
    destruct (untouched_read _ _ _ Ws U1) as [Ws1 Rs1].
    pose proof (own_copied (q_bytes w) b1 (q_suffix h) U1 Ws1) as A2.
    destruct (copied grow b1 (q_suffix h)) as [b2 sb]. destruct A2 as (U12 & U2 & O2 & O2' & W2 & R2).
    destruct (untouched_read _ _ _ W1 U12) as [W1' R1'].
    assert (Ap : apart sb pb).
    { destruct O2' as [O2'|O2']; [left; exact O2'|]. destruct W1 as [_ [W1|[W1 _]]]; [right; left; exact W1|].
      right; right. lia. }
    unfold qwrite in S. cbn [fst snd] in S.
    pose proof (own_append NUL grow (q_bytes w) b2 pb text U2 O1 W1') as A3.
    pose proof (apart_append NUL grow b2 pb sb text W1' W2 Ap) as A4.
    destruct (gappend NUL grow b2 pb text) as [b3 p3]. destruct A3 as (U3 & O3 & W3 & R3). destruct A4 as (W4 & R4 & Ap').
    cbn [fst snd] in S.
    assert (Ap'' : apart p3 sb).
    { destruct Ap' as [X|[X|X]]; unfold apart; auto. }
    pose proof (own_append NUL grow (q_bytes w) b3 sb (B "}") U3 O2 W4) as A5.
    pose proof (apart_append NUL grow b3 sb p3 (B "}") W4 W3 Ap'') as A6.
    destruct (gappend NUL grow b3 sb (B "}")) as [b4 s4]. destruct A5 as (U5 & O5 & W5 & R5). destruct A6 as (W6 & R6 & _).
    subst w'.
    eapply (qinv_add es (From i (WithGroup name)) w _ _ (extend_path p (WithGroup name)) R R' IH P eq_refl);
      cbn [q_bytes qinner q_prefix q_suffix]; auto.
    + cbn [qchain]. intros h0 [<-|I0]; [cbn; auto|]. destruct (Hc h0 I0) as (Ho & f0 & If0 & ->). split; [exact Ho|].
      right. exists f0. auto.
    + intros C Old. destruct (G (Early C)) as (g & D & E0). rewrite (of_spath_extend p _ g D). cbn [sstep]. unfold name at 1. fold name.
      eexists. split; [reflexivity|]. cbn [norm_hdl qview_hdl]. rewrite (Old f p i Nf Np C), <- E0. f_equal.
      assert (En : norm (sinner g) = norm v).
      { rewrite <- norm_inner, E0, norm_inner, qinner_view. reflexivity. }
      rewrite (swith_group_norm _ _ name En). unfold norm, swith_group, qview. cbn [sh_options sh_prefix sh_suffix sh_groups
        q_options q_prefix q_suffix q_groups q_bytes q_names]. fold start. fold text.
      rewrite R6, R3, R1', R1, R5, R4, R2, Rs1. f_equal.
      change (o_replace (sh_options v)) with (o_replace (q_options h)).
      destruct (o_replace (q_options h)) eqn:Er; [|reflexivity].
      (* the groups of the new handler *)
      destruct C as [C|C]; [cbn in C; rewrite <- Opt, Er in C; discriminate|].
      pose proof (groups_right grow (fun _ => true) (es ++ [From i (WithGroup name)]) C (length (q_tbl w))) as GR.
      rewrite <- (gproj_run _ _ R') in GR. unfold gproj in GR. cbn [fst snd q_names q_tbl] in GR.
      rewrite map_app in GR. cbn [map] in GR.
      specialize (GR gs (q_options h) (extend_path p (WithGroup name))).
      assert (X1 : nth_error (map (fun f0 => (q_groups (qinner f0), q_options (qinner f0))) (q_tbl w) ++ [(gs, q_options h)])
               (length (q_tbl w)) = Some (gs, q_options h)).
      { rewrite <- (map_length (fun f0 => (q_groups (qinner f0), q_options (qinner f0)))). apply nth_last. }
      specialize (GR X1). rewrite P in GR. rewrite L in GR. specialize (GR (nth_last _ _)).
      pose proof (groups_right grow (fun _ => true) es (narrow_earlier _ _ C) i (q_groups h) (q_options h) p) as GP.
      rewrite <- (gproj_run _ _ R) in GP. unfold gproj in GP. cbn [fst snd] in GP.
      rewrite nth_error_map, Nf in GP. specialize (GP eq_refl Np).
      change (sh_groups v) with (gread (q_names w) (q_groups h)). rewrite GP, GR. cbn [p_ops extend_path].
      rewrite names_snoc. reflexivity.
Qed.

(** Every handler logs as if it had been derived alone. *)
Theorem sindependent es w : qrun std grow n empty_qworld es = Some w ->
  forall i f p, nth_error (q_tbl w) i = Some f -> nth_error (paths es) i = Some p -> counted es p ->
  exists g, of_spath std n p = Some g /\ forall m d r w0,
    shandle_hdl log_write std m d (qview_hdl w f) r w0 = shandle_hdl log_write std m d g r w0.
Proof.
  intros R i f p N Np C. destruct (qrun_inv es w R) as [_ I]. destruct (I i f p N Np) as (_ & _ & _ & G).
  destruct (G C) as (g & D & E). exists g. split; auto. intros m d r w0.
  rewrite <- (shandle_norm_hdl std m r (qview_hdl w f)), <- E. apply shandle_norm_hdl.
Qed.

Theorem stable_length es w : qrun std grow n empty_qworld es = Some w -> length (q_tbl w) = length (paths es).
Proof. intros R. apply (qrun_inv es w R). Qed.



End Proofs.
