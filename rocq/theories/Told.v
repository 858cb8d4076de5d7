(** What a composer does depends on ReplaceAttr only through its answers for the
    composer's groups. *)

From Coq Require Import Ascii String List ZArith NArith Bool Arith Lia.
From Verif Require Import Bytes Slog SpecSloggy Flash FlashProofs FlashRecord FlashLaws FlashCompose Sloggy SloggyProofs SloggyHandler SloggyLaws History.
Import ListNotations.

(** ** flash *)

Section Told.
Variable std : stdlib.
Variables f f' : attr_fn.

Section Composer.
Variable Buf : Type.
Variable app : Buf -> bytes -> Buf.
Variables (gs : list bytes) (x : extras).
Hypothesis agree : forall a, f (if basic_field x (fst a) then [] else gs) a = f' (if basic_field x (fst a) then [] else gs) a.

Definition tag (g : attr_fn) (b : Buf) (s : bool) : composer Buf := new_composer b s (Some g) gs x.

(** Both composers do the same. *)
Definition same (m m' : option (composer Buf * bool)) : Prop :=
  m = None /\ m' = None \/
  exists b s ok, m = Some (tag f b s, ok) /\ m' = Some (tag f' b s, ok).

Lemma same_intro b s ok : same (Some (tag f b s, ok)) (Some (tag f' b s, ok)).
Proof. right. eauto. Qed.

Lemma key_tag g b s k : exists b', add_key app (add_separator app (tag g b s)) k = tag g b' true /\
  forall g', add_key app (add_separator app (tag g' b s)) k = tag g' b' true.
Proof. unfold add_separator. destruct s; cbn; eexists; split; intros; reflexivity. Qed.

Lemma any_tag b s o : same (Some (add_any app (tag f b s) o)) (Some (add_any app (tag f' b s) o)).
Proof.
  right. unfold add_any, add_marshaler.
  destruct (ao_stringer o); [repeat eexists|]. destruct (ao_error o); [repeat eexists|].
  destruct (ao_jsonm o) as [[]|]; [repeat eexists..|]. destruct (ao_textm o) as [[]|]; [repeat eexists..|].
  destruct (ao_marshal o); repeat eexists.
Qed.

Lemma loop_told h : (forall b s a, same (h (tag f b s) a) (h (tag f' b s) a)) ->
  forall l b s, same (attrs_loop h (tag f b s) l) (attrs_loop h (tag f' b s) l).
Proof.
  intros H. induction l as [|a l IH]; intros b s; cbn [attrs_loop]; [apply same_intro|].
  destruct (H b s a) as [[-> ->]|(b' & s' & ok & -> & ->)]; [left; auto|].
  destruct ok; [apply IH|apply same_intro].
Qed.

Lemma attr_told n : forall b s a,
  same (add_attribute app std n (tag f b s) a) (add_attribute app std n (tag f' b s) a).
Proof.
  induction n as [|n IH]; intros b s [k v]; [left; auto|]. cbn [add_attribute fst snd].
  set (is_lv := match v with VLogValuer _ _ => true | _ => false end).
  assert (Ea : (if is_lv then (k, resolve v) else (k, v)) = (k, resolve v)) by (subst is_lv; destruct v; reflexivity).
  rewrite Ea. cbn [c_replace tag new_composer]. cbn [fst].
  unfold replace_groups. cbn [c_extras c_groups tag new_composer].
  pose proof (agree (k, resolve v)) as A. cbn [fst] in A. rewrite <- A.
  destruct (f (if basic_field x k then [] else gs) (k, resolve v)) as [k' v'] eqn:Ef. cbn [snd].
  fold (tag f b s) (tag f' b s).
  destruct (is_empty (k', v')); [apply same_intro|].
  destruct (key_tag f b s k') as (b1 & K & K'). rewrite K, (K' f'). clear K K'.
  destruct v' as [a'| | | | | | | |l|]; try apply any_tag; try (right; repeat eexists; fail).
  destruct (empty_group l); [apply same_intro|].
  destruct k' as [|kc k']; [apply loop_told; exact IH|].
  change (reset (add_bytes app (tag f b1 true) (B "{"))) with (tag f (app b1 (B "{")) false).
  change (reset (add_bytes app (tag f' b1 true) (B "{"))) with (tag f' (app b1 (B "{")) false).
  destruct (loop_told _ IH l (app b1 (B "{")) false) as [[-> ->]|(b' & s' & ok & -> & ->)]; [left; auto|].
  destruct ok; [|apply same_intro]. apply (same_intro (app b' (B "}")) s' true).
Qed.

Lemma attrs_told n l b s :
  same (add_attributes app std n (tag f b s) l) (add_attributes app std n (tag f' b s) l).
Proof. apply loop_told. apply attr_told. Qed.

End Composer.

Definition rehandle (h : handler) : handler :=
  {| h_options := {| o_add_source := o_add_source (h_options h); o_replace := Some f' |};
     h_extras := h_extras h; h_prefix := h_prefix h; h_suffix := h_suffix h; h_groups := h_groups h |}.

Definition agree_at (x : extras) (gs : list bytes) : Prop :=
  forall a, f (if basic_field x (fst a) then [] else gs) a = f' (if basic_field x (fst a) then [] else gs) a.

Local Notation sm h := (same bytes (h_groups h) (h_extras h)).
Local Notation tg h := (tag bytes (h_groups h) (h_extras h)).

Lemma then_told h m m' k k' : sm h m m' -> (forall b s, sm h (k (tg h f b s)) (k' (tg h f' b s))) ->
  sm h (andthen m k) (andthen m' k').
Proof.
  intros [[-> ->]|(b & s & ok & -> & ->)] K; cbn; [left; auto|]. destruct ok; [apply K|apply same_intro].
Qed.

Lemma basic_told h n d a b s : agree_at (h_extras h) (h_groups h) ->
  sm h (basic_attr std n (tg h f b s) d a) (basic_attr std n (tg h f' b s) d a).
Proof. intros A. unfold basic_attr. cbn [c_replace tag new_composer]. apply attr_told. exact A. Qed.

Lemma handle_told n h r : agree_at (h_extras h) (h_groups h) -> o_replace (h_options h) = Some f ->
  handle std n (rehandle h) r = handle std n h r.
Proof.
  intros A Ho.
  assert (C : sm h (compose std n h r) (compose std n (rehandle h) r)).
  { unfold compose. rewrite Ho. cbn [rehandle h_options h_groups h_extras o_replace].
    change (add_bytes happ (new_composer [] false (Some f) (h_groups h) (h_extras h)) (B "{")) with (tg h f (B "{") false).
    change (add_bytes happ (new_composer [] false (Some f') (h_groups h) (h_extras h)) (B "{")) with (tg h f' (B "{") false).
    apply then_told.
    { unfold handle_time. cbn [rehandle h_extras]. destruct (t_zero (r_time r)); [apply same_intro|]. apply basic_told; auto. }
    intros b1 s1. apply then_told; [apply basic_told; auto|].
    intros b2 s2. apply then_told; [apply basic_told; auto|].
    intros b3 s3. apply then_told.
    { unfold handle_source. cbn [rehandle h_options o_add_source h_extras].
      destruct (o_add_source (h_options h)); [destruct (r_source r)|]; try apply same_intro. apply basic_told; auto. }
    intros b4 s4. apply then_told.
    { assert (P : exists b s, handle_prefix h (tg h f b4 s4) = tg h f b s /\ handle_prefix (rehandle h) (tg h f' b4 s4) = tg h f' b s).
      { unfold handle_prefix. cbn [rehandle h_prefix]. destruct (h_prefix h); [repeat eexists|].
        unfold add_separator. cbn [c_started tag new_composer].
        destruct s4, (ends_with _ _); repeat eexists. }
      destruct P as (b & s & -> & ->). apply attrs_told. exact A. }
    intros b5 s5. cbn [rehandle h_suffix].
    destruct (h_suffix h); right; repeat eexists. }
  unfold handle. destruct C as [[-> ->]|(b & s & ok & -> & ->)]; [reflexivity|]. destruct ok; reflexivity.
Qed.

Lemma with_attrs_told n h l : agree_at (h_extras h) (h_groups h) -> o_replace (h_options h) = Some f ->
  with_attrs std n (rehandle h) l = option_map rehandle (with_attrs std n h l).
Proof.
  intros A Ho. unfold with_attrs. rewrite Ho. cbn [rehandle h_options h_groups h_extras h_prefix h_suffix o_replace].
  set (st := match h_prefix h with [] => false | _ => _ end).
  destruct (attrs_told bytes happ (h_groups h) (h_extras h) A n l (h_prefix h) st) as [[E E']|(b & s & ok & E & E')];
    unfold tag in E, E'; rewrite E, E'; reflexivity.
Qed.

Fixpoint rehdl' (g : hdl) : hdl :=
  match g with
  | HBase h => HBase (rehandle h)
  | HGroup h n p => HGroup (rehandle h) n (rehdl' p)
  end.

Fixpoint uses' (g : hdl) : Prop :=
  match g with
  | HBase h => o_replace (h_options h) = Some f
  | HGroup h _ p => o_replace (h_options h) = Some f /\ uses' p
  end.

Lemma inner_rehdl' g : inner (rehdl' g) = rehandle (inner g).
Proof. destruct g; reflexivity. Qed.

Lemma uses_inner' g : uses' g -> o_replace (h_options (inner g)) = Some f.
Proof. destruct g; cbn; tauto. Qed.

(** Handled by the handler itself, not by an enclosing one. *)
Definition own_record (g : hdl) (r : record) : Prop :=
  match g with HBase _ => True | HGroup _ _ _ => forallb is_empty (r_attrs r) = false end.

Lemma handle_hdl_told n g r : own_record g r -> agree_at (h_extras (inner g)) (h_groups (inner g)) ->
  o_replace (h_options (inner g)) = Some f ->
  handle_hdl std n NoDead (rehdl' g) r = handle_hdl std n NoDead g r.
Proof.
  destruct g as [h|h name p]; intros O A U; cbn [rehdl' handle_hdl inner own_record] in *.
  - apply handle_told; auto.
  - destruct (first_attr (r_attrs r)) as [[k v]|] eqn:F.
    + cbn. apply handle_told; auto.
    + apply first_attr_none in F. congruence.
Qed.

End Told.

(** ** sloggy *)

Section SToldS.
Variable std : stdlib.
Variables f f' : attr_fn.

Definition sagree_at (gs : list bytes) : Prop :=
  forall a, f (if standard_key (fst a) then [] else gs) a = f' (if standard_key (fst a) then [] else gs) a.

Lemma sloop_told (h h' : bool -> attr -> option (list bytes * bool * bool)) : (forall s a, h s a = h' s a) ->
  forall l s, ems_loop h s l = ems_loop h' s l.
Proof.
  intros H. induction l as [|a l IH]; intros s; cbn [ems_loop]; [reflexivity|]. rewrite H.
  destruct (h' s a) as [[[c s1] []]|]; auto. rewrite IH. reflexivity.
Qed.

Lemma em_told n gs : sagree_at gs -> forall s a, em std (Some f) n gs s a = em std (Some f') n gs s a.
Proof.
  intros A. induction n as [|n IH]; intros s a; cbn [em]; [reflexivity|]. destruct (is_empty a); [reflexivity|].
  unfold sloggy_effective. rewrite <- (A a). destruct (f _ a) as [k v]. cbn [snd fst].
  destruct (is_empty (k, v)); [reflexivity|]. destruct v; auto. destruct (empty_group l); auto.
  destruct k; rewrite (sloop_told _ _ IH); reflexivity.
Qed.

Lemma ems_told n gs l s : sagree_at gs -> ems std (Some f) n gs s l = ems std (Some f') n gs s l.
Proof. intros A. apply sloop_told. intros. apply em_told. exact A. Qed.

Definition srehandle (h : shandler) : shandler :=
  {| sh_options := {| o_add_source := o_add_source (sh_options h); o_replace := Some f' |};
     sh_prefix := sh_prefix h; sh_suffix := sh_suffix h; sh_groups := sh_groups h |}.

Lemma hchunks_told n h r : sagree_at (sh_groups h) -> o_replace (sh_options h) = Some f ->
  hchunks std n (srehandle h) r = hchunks std n h r.
Proof.
  intros A Ho. unfold hchunks. cbn [srehandle sh_options o_replace sh_groups sh_prefix sh_suffix]. rewrite Ho.
  change (sbasics std (srehandle h) r) with (sbasics std h r).
  rewrite (ems_told n (sh_groups h) (sbasics std h r) false A).
  destruct (ems std (Some f') n (sh_groups h) false (sbasics std h r)) as [[[c1 s1] []]|]; auto.
  rewrite (ems_told n _ _ _ A). reflexivity.
Qed.

Lemma swith_attrs_told n h l : sagree_at (sh_groups h) -> o_replace (sh_options h) = Some f ->
  swith_attrs std n (srehandle h) l = option_map srehandle (swith_attrs std n h l).
Proof.
  intros A Ho. rewrite !swith_attrs_eq. cbn [srehandle sh_options o_replace sh_groups sh_prefix]. rewrite Ho.
  rewrite (ems_told n _ _ _ A). destruct (ems _ _ _ _ _ l) as [[[ch s] ok]|]; reflexivity.
Qed.

Fixpoint srehdl (g : shdl) : shdl :=
  match g with
  | SBase h => SBase (srehandle h)
  | SGroup h n p => SGroup (srehandle h) n (srehdl p)
  end.

Definition sown_record (g : shdl) (r : record) : Prop :=
  match g with SBase _ => True | SGroup _ _ _ => forallb is_empty (r_attrs r) = false end.

Lemma shandle_hdl_told n g r w : sown_record g r -> sagree_at (sh_groups (sinner g)) ->
  o_replace (sh_options (sinner g)) = Some f ->
  shandle_hdl log_write std n NoDead (srehdl g) r w = shandle_hdl log_write std n NoDead g r w.
Proof.
  destruct g as [h|h name p]; intros O A U; cbn [srehdl shandle_hdl sinner sown_record] in *.
  - rewrite !shandle_log, hchunks_told; auto.
  - destruct (sfirst_attr (r_attrs r)) as [[k v]|] eqn:F.
    + cbn. rewrite !shandle_log, hchunks_told; auto.
    + apply sfirst_none in F. congruence.
Qed.

End SToldS.

(** ** Along a derivation *)

Section Chain.
Variable std : stdlib.
Variables f f' : attr_fn.
Variable x : extras.

Lemma derive_told n src ops : forall g, o_replace (h_options (inner g)) = Some f -> h_extras (inner g) = x ->
  o_add_source (h_options (inner g)) = src ->
  (forall pre post l, ops = pre ++ WithAttrs l :: post -> agree_at f f' x (h_groups (inner g) ++ names pre)) ->
  derive std n (rehdl' f' g) ops = option_map (rehdl' f') (derive std n g ops).
Proof.
  induction ops as [|[l|name] ops IH]; intros g U X S A; cbn [derive step]; [reflexivity| |].
  - unfold with_attrs_hdl. rewrite inner_rehdl', (with_attrs_told std f f').
    2: { rewrite X. specialize (A [] ops l eq_refl). cbn in A. rewrite app_nil_r in A. exact A. }
    2: exact U.
    unfold with_attrs. destruct (add_attributes _ _ _ _ _) as [[c ok]|]; cbn [option_map]; [|reflexivity].
    match goal with |- derive _ _ (HBase (rehandle _ ?h')) _ = _ => apply (IH (HBase h')); auto end.
    intros pre post l' E. cbn [inner h_groups]. subst ops. apply (A (WithAttrs l :: pre) post l' eq_refl).
  - replace (with_group_hdl (rehdl' f' g) name) with (rehdl' f' (with_group_hdl g name)).
    + apply IH; try (destruct name; cbn; auto; fail).
      intros pre post l E. subst ops. specialize (A (WithGroup name :: pre) post l eq_refl).
      destruct name as [|c nm]; cbn [with_group_hdl inner]; [exact A|].
      cbn [with_group h_groups]. rewrite U. cbn in A. rewrite <- app_assoc. exact A.
    + destruct name; cbn [with_group_hdl rehdl']; rewrite inner_rehdl'; [reflexivity|].
      f_equal. unfold with_group, rehandle. cbn [h_options h_extras h_prefix h_suffix h_groups o_replace].
      rewrite U. reflexivity.
Qed.

Lemma sderive_told n ops : forall g, o_replace (sh_options (sinner g)) = Some f ->
  (forall pre post l, ops = pre ++ WithAttrs l :: post -> sagree_at f f' (sh_groups (sinner g) ++ names pre)) ->
  sderive std n (srehdl f' g) ops = option_map (srehdl f') (sderive std n g ops).
Proof.
  induction ops as [|[l|name] ops IH]; intros g U A; cbn [sderive sstep]; [reflexivity| |].
  - assert (I : sinner (srehdl f' g) = srehandle f' (sinner g)) by (destruct g; reflexivity).
    rewrite I, (swith_attrs_told std f f').
    2: { specialize (A [] ops l eq_refl). cbn in A. rewrite app_nil_r in A. exact A. }
    2: exact U.
    rewrite swith_attrs_eq. destruct (ems _ _ _ _ _ l) as [[[ch s] ok]|]; cbn [option_map]; [|reflexivity].
    apply (IH (SBase (sextend (sinner g) (concat ch)))); auto.
    intros pre post l' E. cbn [sinner sextend sh_groups]. subst ops. apply (A (WithAttrs l :: pre) post l' eq_refl).
  - assert (I : sinner (srehdl f' g) = srehandle f' (sinner g)) by (destruct g; reflexivity).
    destruct name as [|c nm]; rewrite I.
    + apply (IH (SBase (sinner g))); auto. intros pre post l E. subst ops. apply (A (WithGroup [] :: pre) post l eq_refl).
    + apply (IH (SGroup (swith_group (sinner g) (c :: nm)) (c :: nm) g)); auto.
      intros pre post l E. subst ops. specialize (A (WithGroup (c :: nm) :: pre) post l eq_refl).
      cbn [sinner swith_group sh_groups]. cbn in A. rewrite <- app_assoc. exact A.
Qed.

End Chain.
