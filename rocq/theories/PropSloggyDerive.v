(** Property C67: deriving sloggy handlers while others derive and log. *)

From Coq Require Import Ascii String List ZArith NArith Bool Arith Lia.
From Verif Require Import Bytes Slog SpecLog SpecSloggy Samples History HistoryProofs Slices GroupSlices
  Sloggy SloggyProofs SloggyHandler SloggyLaws SloggyHeap SloggyHeapProofs FlashHeap FlashDerive SpecDerive Ledger
  FlashDeriveProofs PropSloggyRecord SloggyDerive SpecSloggyDerive SloggyDeriveProofs PropDerive PropFlashDerive.
Import ListNotations.

(** Whatever goroutines derive and log at the same time, every handler without
    ReplaceAttr that has been published logs, at any moment, what a handler derived
    alone the same way logs; with ReplaceAttr too if within the groups of a handler
    a group is opened at most once. *)
Theorem C67_published std grow n D T st x f :
  sgets_to std grow n D T st -> ss_slot st x = SPublished f ->
  exists p, path_of D x p /\ (group_safe D p -> forall d r out,
    qlogs std (sworld (ss_bytes st) (ss_names st)) f d r out <-> slogs std (p_options p) (p_ops p) d r out).
Proof.
  intros Ge Ex. destruct (sgets_inv std grow n D T st Ge) as (_ & _ & V & _). specialize (V x). unfold vslot in V. rewrite Ex in V.
  destruct V as (p & P & _ & Val). exists p. split; [exact P|]. intros S d r out. destruct (Val S) as (g & Og & Ng).
  apply (qlogs_of_path std n _ _ _ _ _ _ g Og). intros m d0 r0 w0.
  rewrite <- (shandle_norm_hdl std m r0 (qview_hdl _ f)), <- Ng. apply shandle_norm_hdl.
Qed.
Print Assumptions C67_published.

(** A log call that reads its handler byte by byte and name by name meanwhile has
    read the right handler: composing the record with what it has read makes the
    writes that logging through a handler derived alone makes. *)
Theorem C67_logged std grow n D T st l :
  sgets_to std grow n D T st -> In l (ss_log st) ->
  exists p, path_of D (sl_name l) p /\ (group_safe D p -> forall ws ok,
    slogs std (p_options p) (p_ops p) (sl_dead l) (sl_record l) (Done ws ok) <->
    exists n0, forall m, n0 <= m -> shandle log_write std m (sl_handler l) (sl_record l) [] = Some (ws, ok)).
Proof.
  intros Ge I. destruct (sgets_inv std grow n D T st Ge) as (_ & _ & _ & _ & L).
  rewrite Forall_forall in L. destruct (L l I) as (p & P & H). exists p. split; [exact P|]. intros S ws ok.
  destruct (H S) as (g & h0 & Og & V & Nh). unfold of_spath in Og.
  assert (Hd : forall m, shandle_hdl log_write std m (sl_dead l) g (sl_record l) [] =
                 sresult_of (shandle log_write std m (sl_handler l) (sl_record l) [])).
  { intros m. rewrite svtarget_handle, V, <- (shandle_norm std m h0), Nh, shandle_norm. reflexivity. }
  split.
  - intros (n0 & H0). exists (max n n0). intros m Lm. destruct (H0 m ltac:(lia)) as (g' & D' & Hh).
    rewrite (sderive_mono std n m ltac:(lia) _ _ _ Og) in D'. injection D' as <-. rewrite Hd in Hh.
    destruct (shandle log_write std m (sl_handler l) (sl_record l) []) as [[w b]|]; [|discriminate].
    cbn in Hh. congruence.
  - intros (n0 & H0). exists (max n n0). intros m Lm. exists g. split; [apply (sderive_mono std n); auto; lia|].
    rewrite Hd, H0 by lia. reflexivity.
Qed.
Print Assumptions C67_logged.

(** What is published stays, and stays the same. *)
Theorem C67_stable std grow n D T st sched st' x f p :
  sgets_to std grow n D T st -> srun std grow n D sched st = Some st' ->
  ss_slot st x = SPublished f -> path_of D x p -> group_safe D p ->
  ss_slot st' x = SPublished f /\
  forall d r out, qlogs std (sworld (ss_bytes st) (ss_names st)) f d r out <->
                  qlogs std (sworld (ss_bytes st') (ss_names st')) f d r out.
Proof.
  intros Ge Rn Ex P S. pose proof (srun_published std grow n D sched st st' x f Rn Ex) as Ex'. split; [exact Ex'|].
  assert (Ge' : sgets_to std grow n D T st').
  { destruct Ge as (s0 & E). exists (s0 ++ sched). rewrite srun_app, E. exact Rn. }
  destruct (C67_published std grow n D T st x f Ge Ex) as (p1 & P1 & H1).
  destruct (C67_published std grow n D T st' x f Ge' Ex') as (p2 & P2 & H2).
  rewrite (path_unique D x p p1 P P1) in H1. rewrite (path_unique D x p p2 P P2) in H2.
  intros d r out. rewrite (H1 S d r out), (H2 S d r out). reflexivity.
Qed.
Print Assumptions C67_stable.

(** The text stored in a published handler never changes, even where its groups do. *)
Theorem C67_text std grow n D T st sched st' x f :
  sgets_to std grow n D T st -> srun std grow n D sched st = Some st' -> ss_slot st x = SPublished f ->
  gread (ss_bytes st') (q_prefix (qinner f)) = gread (ss_bytes st) (q_prefix (qinner f)) /\
  gread (ss_bytes st') (q_suffix (qinner f)) = gread (ss_bytes st) (q_suffix (qinner f)).
Proof.
  intros Ge. pose proof (sgets_inv std grow n D T st Ge) as Inv. clear Ge. revert st Inv.
  induction sched as [|[i a] sched IH]; intros st Inv Rn Ex; cbn in Rn.
  - injection Rn as <-. auto.
  - destruct (sstep_by std grow n D i a st) as [st1|] eqn:A; [|discriminate].
    destruct (IH st1 (sstep_inv std grow n D i a st st1 Inv A) Rn (sstep_published std grow n D i a st st1 x f A Ex)) as [E1 E2].
    rewrite E1, E2.
    assert (K : forall sd s, bsl (ss_slot st x) sd = Some s -> gread (ss_bytes st1) s = gread (ss_bytes st) s)
      by (intros sd s Es; exact (sstep_bytes std grow n D i a st st1 x f sd s Inv A Ex Es)).
    split; [apply (K true)|apply (K false)]; rewrite Ex; reflexivity.
Qed.
Print Assumptions C67_text.

(** Nobody waits for anybody: a goroutine that is making a handler can finish it by
    its own steps, whatever the others are doing. *)
Theorem C67_finishes std grow n D st i x b :
  st_at (ss_thr st i) = SMaking x -> ss_slot st x = SBuilding b ->
  exists sched st' f, (forall j a, In (j, a) sched -> j = i) /\ srun std grow n D sched st = Some st' /\
    ss_slot st' x = SPublished f /\ st_at (ss_thr st' i) = SIdle.
Proof. intros Ti Ex. eapply smaking_finishes; eauto. Qed.
Print Assumptions C67_finishes.

(** And a goroutine that is logging can finish its call. *)
Theorem C67_log_finishes std grow n D T st i x d r h pre suf grp : sgets_to std grow n D T st ->
  st_at (ss_thr st i) = SReading x d r h pre suf grp ->
  exists sched st' l, (forall j a, In (j, a) sched -> j = i) /\ srun std grow n D sched st = Some st' /\
    st_at (ss_thr st' i) = SIdle /\ ss_log st' = ss_log st ++ [l] /\
    sl_name l = x /\ sl_dead l = d /\ sl_record l = r.
Proof.
  intros Ge Ti. destruct (sreading_bounds std grow n D T st i x d r h pre suf grp Ge Ti) as (L1 & L2 & L3).
  destruct (sreading_finishes std grow n D i x d r h _ st pre suf grp Ti L1 L2 L3 eq_refl) as (sched & st' & hv & O & Rn & Ti' & El).
  exists sched, st', (mkslogged x d r hv). auto 10.
Qed.
Print Assumptions C67_log_finishes.

(** ** Examples *)

(** One root with ReplaceAttr; a handler with an attribute, derived from three times
    (where flash would go wrong); below it one group. *)
Definition SD0 (x : nat) : def :=
  match x with
  | 1 => DFrom 0 (WithAttrs [(B "a", VInt64 1)])
  | 2 => DFrom 1 (WithGroup (B "g"))
  | 3 => DFrom 1 (WithAttrs [(B "b", VInt64 2)])
  | 4 => DFrom 1 (WithAttrs [(B "c", VInt64 3)])
  | 5 => DFrom 2 (WithGroup (B "h"))
  | _ => DNew (options1 (Some show_groups)) None
  end.

Definition ST0 (i : nat) : list task :=
  match i with
  | 0 => [Make 0; Make 1]
  | 1 => [Make 2; Make 5]
  | 2 => [Make 3]
  | 3 => [Make 4]
  | 4 => [Log 2 NoDead (record1 [(B "k", VInt64 7)]); Log 3 NoDead (record1 [])]
  | _ => []
  end.

Definition soften (k : nat) (s : nat * sact) : list (nat * sact) := repeat s k.

Definition ssched0 : list (nat * sact) :=
  [(0, SBegin); (0, SPublish); (0, SBegin)] ++ soften 3 (0, SPrefix) ++
  [(0, SPublish); (1, SBegin); (2, SBegin); (3, SBegin); (2, SCopyPrefix); (1, SGroups); (1, SCopyPrefix); (3, SCopyPrefix);
   (2, SPrefix); (3, SPrefix); (1, SPrefix); (1, SSuffix); (1, SPublish); (4, SStart)] ++
  soften 3 (4, SReadPrefix) ++ [(1, SBegin); (1, SGroups); (1, SCopyPrefix); (1, SPrefix); (1, SCopySuffix); (1, SSuffix); (1, SPublish)] ++
  soften 3 (2, SPrefix) ++ soften 3 (3, SPrefix) ++ [(2, SPublish); (3, SPublish)] ++
  soften 12 (4, SReadPrefix) ++ [(4, SReadSuffix); (4, SReadGroups); (4, SLogged); (4, SStart)] ++
  soften 16 (4, SReadPrefix) ++ [(4, SLogged)].

Definition spublished (s : sslot) : bool := match s with SPublished _ => true | _ => false end.

Definition slines (st : sstate) : list (nat * option bytes) :=
  map (fun l => (sl_name l, match shandle log_write std0 10 (sl_handler l) (sl_record l) [] with
                            | Some (ws, true) => Some (concat ws) | _ => None end)) (ss_log st).

Lemma SD0_once : opened_once SD0.
Proof.
  intros x x' y y' c n c' n' z p Ne E E' O O' P. exfalso.
  (* the groups are opened below 1, whose groups are those of 0, and below 2 *)
  assert (Y : forall w y0 c0 n0, SD0 w = DFrom y0 (WithGroup (c0 :: n0)) -> (w = 2 /\ y0 = 1) \/ (w = 5 /\ y0 = 2)).
  { intros w y0 c0 n0 H. destruct w as [|[|[|[|[|[|w]]]]]]; try discriminate; injection H as <- _ _; auto. }
  assert (Z : forall y0 z0, origin SD0 y0 z0 -> (y0 = 1 -> z0 = 0) /\ (y0 = 2 -> z0 = 2)).
  { intros y0 z0 H. split; intros ->.
    - inversion H as [? ? ? H1|? ? ? ? H1|? ? ? ? H1 H2|? ? ? H1 H2]; subst; cbn in H1; try discriminate. injection H1 as <- _.
      inversion H2 as [? ? ? H3|? ? ? ? H3|? ? ? ? H3 _|? ? ? H3 _]; subst; cbn in H3; try discriminate. reflexivity.
    - inversion H as [? ? ? H1|? ? ? ? H1|? ? ? ? H1 H2|? ? ? H1 H2]; subst; cbn in H1; try discriminate. reflexivity. }
  destruct (Y _ _ _ _ E) as [[-> ->]|[-> ->]], (Y _ _ _ _ E') as [[-> ->]|[-> ->]];
    destruct (Z _ _ O) as [Z1 Z2]; destruct (Z _ _ O') as [Z1' Z2']; try congruence.
  - rewrite Z1 in Z2' by reflexivity. specialize (Z2' eq_refl). discriminate.
  - rewrite Z1' in Z2 by reflexivity. specialize (Z2 eq_refl). discriminate.
Qed.

(** Three goroutines derive from the handler with the attribute at the same time,
    another logs through the group while a group is opened in it. *)
Example C67_ex : opened_once SD0 /\ exists st,
  srun std0 doubling 10 SD0 ssched0 (sstart ST0) = Some st /\
  map (fun x => spublished (ss_slot st x)) [0; 1; 2; 3; 4; 5] = [true; true; true; true; true; true] /\
  slines st = [(2, line0 """a"": """", ""g"": {""k"": ""g.""}"); (3, line0 """a"": """", ""b"": """"")].
Proof.
  split; [exact SD0_once|].
  assert (E : option_map (fun st => (map (fun x => spublished (ss_slot st x)) [0; 1; 2; 3; 4; 5], slines st))
      (srun std0 doubling 10 SD0 ssched0 (sstart ST0)) =
    Some ([true; true; true; true; true; true],
          [(2, line0 """a"": """", ""g"": {""k"": ""g.""}"); (3, line0 """a"": """", ""b"": """"")])) by (vm_compute; reflexivity).
  destruct (srun std0 doubling 10 SD0 ssched0 (sstart ST0)) as [st|]; [|discriminate].
  exists st. split; [reflexivity|]. cbn [option_map] in E. apply some_inj, pair_equal_spec in E. exact E.
Qed.

(** While goroutines are making handlers and logging (as in C67_finishes and C67_log_finishes). *)
Example C67_making_ex : exists st b h pre suf grp,
  srun std0 doubling 10 SD0 (firstn 25 ssched0) (sstart ST0) = Some st /\
  st_at (ss_thr st 2) = SMaking 3 /\ ss_slot st 3 = SBuilding b /\ length (sb_prest b) = 3 /\
  st_at (ss_thr st 4) = SReading 2 NoDead (record1 [(B "k", VInt64 7)]) h pre suf grp /\ length pre = 3.
Proof.
  assert (E : option_map (fun st => (st_at (ss_thr st 2), match ss_slot st 3 with SBuilding b => Some (length (sb_prest b)) | _ => None end,
        match st_at (ss_thr st 4) with SReading x d r _ pre _ _ => Some (x, d, r, length pre) | _ => None end))
      (srun std0 doubling 10 SD0 (firstn 25 ssched0) (sstart ST0)) =
    Some (SMaking 3, Some 3, Some (2, NoDead, record1 [(B "k", VInt64 7)], 3))) by (vm_compute; reflexivity).
  destruct (srun std0 doubling 10 SD0 _ (sstart ST0)) as [st|]; [|discriminate].
  cbn [option_map] in E. apply some_inj, pair_equal_spec in E as [E E3]. apply pair_equal_spec in E as [E1 E2].
  destruct (ss_slot st 3) as [|b|] eqn:Eb; try discriminate. apply some_inj in E2.
  destruct (st_at (ss_thr st 4)) as [| |x d r h pre suf grp] eqn:Et; try discriminate. apply some_inj in E3.
  apply pair_equal_spec in E3 as [E3 L]. apply pair_equal_spec in E3 as [E3 ->]. apply pair_equal_spec in E3 as [-> ->].
  exists st, b, h, pre, suf, grp. auto 10.
Qed.

(** With ReplaceAttr, and two groups opened below one open group.  Goroutine 0 makes
    a chain of four groups, 1 opens another group in the third while 2 logs through the
    fourth: ReplaceAttr is told of a group that the handler is not in. *)
Definition SD1 (x : nat) : def :=
  match x with
  | 1 => DFrom 0 (WithGroup (B "a"))
  | 2 => DFrom 1 (WithGroup (B "b"))
  | 3 => DFrom 2 (WithGroup (B "c"))
  | 4 => DFrom 3 (WithGroup (B "d"))
  | 5 => DFrom 3 (WithGroup (B "e"))
  | _ => DNew (options1 (Some show_groups)) None
  end.

Definition ST1 (i : nat) : list task :=
  match i with
  | 0 => [Make 0; Make 1; Make 2; Make 3; Make 4]
  | 1 => [Make 5]
  | 2 => [Log 4 NoDead (record1 [(B "x", VInt64 1)])]
  | _ => []
  end.

Definition ssched1 : list (nat * sact) :=
  [(0, SBegin); (0, SPublish); (0, SBegin); (0, SPrefix); (0, SSuffix); (0, SGroups); (0, SPublish)] ++
  concat (repeat [(0, SBegin); (0, SCopyPrefix); (0, SPrefix); (0, SCopySuffix); (0, SSuffix); (0, SGroups); (0, SPublish)] 3) ++
  [(2, SStart)] ++ soften 3 (2, SReadGroups) ++ [(1, SBegin); (1, SGroups)] ++ soften 1 (2, SReadGroups) ++
  soften 24 (2, SReadPrefix) ++ soften 4 (2, SReadSuffix) ++ [(2, SLogged)].

Theorem C67_told : exists st l p,
  srun std0 doubling 10 SD1 ssched1 (sstart ST1) = Some st /\ ss_log st = [l] /\
  path_of SD1 (sl_name l) p /\ ~ opened_once SD1 /\
  swritten std0 (p_options p) (p_ops p) (sl_dead l) (sl_record l)
    (B "{""level"": ""INFO"", ""msg"": ""m"", ""a"": {""b"": {""c"": {""d"": {""x"": ""a.b.c.d.""}}}}}" ++ [chr 13; newline]) true /\
  slines st = [(4, line0 """a"": {""b"": {""c"": {""d"": {""x"": ""a.b.c.e.""}}}}")].
Proof.
  assert (E : option_map (fun st => (slines st, map (fun l => (sl_name l, sl_dead l, sl_record l)) (ss_log st)))
      (srun std0 doubling 10 SD1 ssched1 (sstart ST1)) =
    Some ([(4, line0 """a"": {""b"": {""c"": {""d"": {""x"": ""a.b.c.e.""}}}}")],
          [(4, NoDead, record1 [(B "x", VInt64 1)])])) by (vm_compute; reflexivity).
  destruct (srun std0 doubling 10 SD1 ssched1 (sstart ST1)) as [st|]; [|discriminate].
  cbn [option_map] in E. apply some_inj, pair_equal_spec in E as [E El]. apply map_single in El as (l & El & E').
  apply pair_equal_spec in E' as [E' E3]. apply pair_equal_spec in E' as [E1 E2].
  assert (P3 : path_of SD1 3 {| p_options := options1 (Some show_groups); p_extras := None;
                 p_ops := [WithGroup (B "a"); WithGroup (B "b"); WithGroup (B "c")] |}).
  { exact (path_from SD1 3 2 (WithGroup (B "c")) _ eq_refl (path_from SD1 2 1 (WithGroup (B "b")) _ eq_refl
            (path_from SD1 1 0 (WithGroup (B "a")) _ eq_refl (path_new SD1 0 _ None eq_refl)))). }
  exists st, l. eexists. split; [reflexivity|]. split; [exact El|]. rewrite E1. split.
  { exact (path_from SD1 4 3 (WithGroup (B "d")) _ eq_refl P3). }
  split.
  { intros O. assert (Og : origin SD1 3 3) by (eapply origin_group; reflexivity).
    pose proof (O 4 5 3 3 _ _ _ _ 3 _ ltac:(discriminate) eq_refl eq_refl Og Og P3) as X. discriminate. }
  split; [|exact E]. rewrite E2, E3. apply (srun_written 10). vm_compute. reflexivity.
Qed.
Print Assumptions C67_told.
