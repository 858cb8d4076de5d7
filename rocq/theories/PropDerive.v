(** Properties C07, C08 and C22: handlers derived from common ancestors. *)

From Coq Require Import Ascii String List ZArith NArith Bool Arith Lia.
From Verif Require Import Bytes Slog SlogProofs SpecLog SpecFlash SpecSloggy Flash FlashProofs FlashCompose Samples
  Sloggy SloggyProofs SloggyHandler SloggyLaws History HistoryProofs Slices FlashHeap FlashHom FlashHeapProofs
  GroupSlices SloggyHeap SloggyHeapProofs Told PropSloggyRecord.
Import ListNotations.

(** ** C07 *)

Lemma flogs_of_path std n w f p d r out : of_path std n p = Some (fview_hdl w f) ->
  flogs std w f d r out <-> logs std (p_options p) (p_extras p) (p_ops p) d r out.
Proof.
  unfold of_path. intros D. split.
  - intros (n0 & H). apply (logs_intro std _ _ _ _ _ (max n n0) (fview_hdl w f)).
    + apply (derive_mono std n); auto; lia.
    + apply H. lia.
  - intros (n0 & H). exists (max n n0). intros m L. destruct (H m ltac:(lia)) as (g & D' & Hh).
    rewrite (derive_mono std n m ltac:(lia) _ _ _ D) in D'. injection D' as <-. exact Hh.
Qed.

(** After any history in which handlers with a non-empty prefix are derived from
    at most once, every handler logs what a handler derived alone the same way
    logs. *)
Theorem C07_flash_independent std grow n es w : once std es -> frun std grow n empty_world es = Some w ->
  forall i f p d r out, nth_error (w_tbl w) i = Some f -> nth_error (paths es) i = Some p ->
  (flogs std w f d r out <-> logs std (p_options p) (p_extras p) (p_ops p) d r out).
Proof.
  intros On R i f p d r out Nf Np. apply (flogs_of_path std n). eapply independent; eauto.
Qed.
Print Assumptions C07_flash_independent.

Lemma frun_app std grow n es1 : forall w es2, frun std grow n w (es1 ++ es2) =
  match frun std grow n w es1 with None => None | Some w' => frun std grow n w' es2 end.
Proof.
  induction es1 as [|e es1 IH]; intros w es2; cbn; [reflexivity|]. destruct (fstep std grow n w e); auto.
Qed.

Lemma paths_app es1 es2 i p : nth_error (paths es1) i = Some p -> nth_error (paths (es1 ++ es2)) i = Some p.
Proof.
  revert es1. induction es2 as [|e es2 IH]; intros es1 H; [rewrite app_nil_r; exact H|].
  replace (es1 ++ e :: es2) with ((es1 ++ [e]) ++ es2) by (rewrite <- app_assoc; reflexivity).
  apply IH, paths_kept, H.
Qed.

Lemma derivations_app i es1 es2 : derivations i (es1 ++ es2) = derivations i es1 + derivations i es2.
Proof. unfold derivations. rewrite filter_app, app_length. reflexivity. Qed.

(** So later derivations do not change what an existing handler logs. *)
Theorem C07_flash_later std grow n es1 es2 w1 w2 : once std (es1 ++ es2) ->
  frun std grow n empty_world es1 = Some w1 -> frun std grow n w1 es2 = Some w2 ->
  forall i f d r out, nth_error (w_tbl w1) i = Some f ->
  exists f2, nth_error (w_tbl w2) i = Some f2 /\ (flogs std w1 f d r out <-> flogs std w2 f2 d r out).
Proof.
  intros On R1 R2 i f d r out Nf.
  assert (On1 : once std es1).
  { intros j p Np L. apply (On j p); [apply paths_app; exact Np|]. rewrite derivations_app. lia. }
  assert (R : frun std grow n empty_world (es1 ++ es2) = Some w2) by (rewrite frun_app, R1; exact R2).
  pose proof (table_length std grow n es1 w1 On1 R1) as L1. pose proof (table_length std grow n _ w2 On R) as L2.
  assert (exists p, nth_error (paths es1) i = Some p) as (p & Np).
  { destruct (nth_error (paths es1) i) eqn:E; eauto. apply nth_error_None in E.
    assert (i < length (w_tbl w1)) by (apply nth_error_Some; congruence). lia. }
  pose proof (paths_app es1 es2 i p Np) as Np2.
  assert (exists f2, nth_error (w_tbl w2) i = Some f2) as (f2 & Nf2).
  { destruct (nth_error (w_tbl w2) i) eqn:E; eauto. apply nth_error_None in E.
    assert (i < length (paths (es1 ++ es2))) by (apply nth_error_Some; congruence). lia. }
  exists f2. split; auto.
  rewrite (C07_flash_independent std grow n es1 w1 On1 R1 i f p d r out Nf Np).
  symmetry. apply (C07_flash_independent std grow n (es1 ++ es2) w2 On R i f2 p d r out Nf2 Np2).
Qed.
Print Assumptions C07_flash_later.

(** A tree: three children of the root (two attributes, a group), a chain below
    the first and a second root. *)
Definition tree0 (f : attr_fn) : list event :=
  [ New (options1 None) None; From 0 (WithAttrs [(B "a", VInt64 1)]); From 0 (WithGroup (B "g"));
    From 1 (WithGroup (B "h")); From 0 (WithAttrs [(B "b", VInt64 2)]); New (options1 (Some f)) None;
    From 3 (WithAttrs [(B "c", VInt64 3)]) ].

Example C07_applies grow f :
  once std0 (tree0 f) /\
  option_map (fun w => length (w_tbl w)) (frun std0 grow 10 empty_world (tree0 f)) = Some 7 /\
  nth_error (paths (tree0 f)) 6 = Some {| p_options := options1 None; p_extras := None;
    p_ops := [WithAttrs [(B "a", VInt64 1)]; WithGroup (B "h"); WithAttrs [(B "c", VInt64 3)]] |}.
Proof.
  split; [|split; reflexivity].
  intros i p Np L. assert (i = 0) as ->.
  { destruct i as [|[|[|[|[|[|[|i]]]]]]]; [reflexivity|cbv in L; lia..|]. cbv in L. lia. }
  injection Np as <-. exists 1. eexists. split; reflexivity.
Qed.

(** The text WithGroup appends to the prefix. *)
Definition group_text (w : world) (f : fhdl) (name : bytes) : bytes :=
  match gread (w_prefix w) (f_prefix (finner f)) with
  | [] => []
  | _ => if ends_with (chr 123) (gread (w_prefix w) (f_prefix (finner f))) then [] else B ", "
  end ++ [quote] ++ name ++ [quote] ++ B ": {".

Lemma fwith_group_step grow w f name t p ps : 0 < sl_len (f_prefix (finner f)) -> name <> [] ->
  group_text w f name = t -> gappend NUL grow (w_prefix w) (f_prefix (finner f)) t = (p, ps) ->
  exists sh gh ss gs, fwith_group grow w f name =
    {| w_prefix := p; w_suffix := sh; w_groups := gh; w_tbl := w_tbl w ++
       [FGroup {| f_options := f_options (finner f); f_extras := f_extras (finner f); f_prefix := ps;
                  f_suffix := ss; f_groups := gs |} name f] |}.
Proof.
  intros L N T A. destruct name as [|c nm]; [congruence|]. unfold fwith_group.
  destruct (match o_replace (f_options (finner f)) with None => _ | Some _ => _ end) as [gh gs].
  unfold or_make at 1. destruct (Nat.ltb_spec 0 (sl_len (f_prefix (finner f)))); [|lia].
  unfold bapp. cbn [fst snd].
  destruct (gappend NUL grow _ (f_suffix (finner f)) (B "}")) as [sh ss].
  unfold group_text in T. cbn [fview h_prefix].
  rewrite T, A. repeat eexists.
Qed.

(** Two handlers derived from the same handler with a non-empty prefix.  The
    appended texts are of one length here, so that the older handler's prefix is
    replaced by the newer one's. *)
Theorem C07_flash_overwritten std grow n es w i f a b : frun std grow n empty_world es = Some w ->
  nth_error (w_tbl w) i = Some f -> wf (w_prefix w) (f_prefix (finner f)) ->
  0 < sl_len (f_prefix (finner f)) -> length a = length b -> a <> [] ->
  sl_len (f_prefix (finner f)) + length a + 7 <= sl_cap (f_prefix (finner f)) ->
  exists w1 w2 fa fb,
    frun std grow n empty_world (es ++ [From i (WithGroup a)]) = Some w1 /\
    frun std grow n empty_world (es ++ [From i (WithGroup a); From i (WithGroup b)]) = Some w2 /\
    nth_error (w_tbl w1) (length (w_tbl w)) = Some fa /\
    nth_error (w_tbl w2) (length (w_tbl w)) = Some fa /\
    nth_error (w_tbl w2) (S (length (w_tbl w))) = Some fb /\
    h_prefix (fview w1 (finner fa)) = h_prefix (with_group (fview w (finner f)) a) /\
    h_prefix (fview w2 (finner fa)) = h_prefix (with_group (fview w (finner f)) b) /\
    h_prefix (fview w2 (finner fb)) = h_prefix (with_group (fview w (finner f)) b).
Proof.
  intros R Nf W Ln Lab Na Lc. destruct a as [|ca a]; [congruence|]. destruct b as [|cb b]; [discriminate|].
  set (s := f_prefix (finner f)) in *.
  set (start := match gread (w_prefix w) s with [] => [] | _ => if ends_with (chr 123) (gread (w_prefix w) s) then [] else B ", " end).
  set (ta := start ++ [quote] ++ (ca :: a) ++ [quote] ++ B ": {").
  set (tb := start ++ [quote] ++ (cb :: b) ++ [quote] ++ B ": {").
  assert (Ls : length start <= 2).
  { subst start. destruct (gread (w_prefix w) s); [cbn; lia|]. destruct (ends_with _ _); cbn; lia. }
  assert (La : length ta = length start + length (ca :: a) + 5).
  { subst ta. rewrite !app_length. cbn [length B]. cbn. lia. }
  assert (Lb : length tb = length ta).
  { rewrite La. subst tb. rewrite !app_length. cbn [length B] in *. cbn in *. lia. }
  assert (Fit : forall (t : bytes) h, length t = length ta -> wf h s -> gread h s = gread (w_prefix w) s ->
    exists h', gappend NUL grow h s t = (h', {| sl_arr := sl_arr s; sl_len := sl_len s + length ta; sl_cap := sl_cap s |}) /\
      wf h' s /\ gread h' s = gread (w_prefix w) s /\
      gread h' {| sl_arr := sl_arr s; sl_len := sl_len s + length ta; sl_cap := sl_cap s |} = gread (w_prefix w) s ++ t).
  { intros t h Lt Wh Rh. pose proof (append_ok ascii NUL grow h s t Wh) as A. unfold gappend in *. rewrite Lt in *.
    cbn [length] in *. destruct (Nat.leb_spec (sl_len s + length ta) (sl_cap s)); [|lia].
    eexists. split; [reflexivity|]. destruct A as (W1 & R1 & K1 & _).
    split; [destruct W1 as [_ W1]; split; [destruct W; lia|exact W1]|]. rewrite <- Rh. split; [|exact R1].
    destruct Wh as [Lh [Z|[Wa _]]]; [lia|]. destruct K1 as [_ K1]. destruct (K1 _ Wa) as [_ K].
    unfold gread at 1, array at 1. apply K. left. lia. }
  destruct (Fit ta (w_prefix w) eq_refl W eq_refl) as (p1 & A1 & W1 & R1 & V1).
  destruct (Fit tb p1 Lb W1 R1) as (p2 & A2 & W2 & R2 & V2).
  destruct (fwith_group_step grow w f (ca :: a) ta p1 _ Ln ltac:(discriminate) eq_refl A1) as (sh & gh & ss & gs & E1).
  set (fa := FGroup _ (ca :: a) f) in E1. set (w1 := fwith_group grow w f (ca :: a)) in *.
  assert (Eb : group_text w1 f (cb :: b) = tb).
  { unfold group_text. rewrite E1. cbn [w_prefix]. fold s. rewrite R1. reflexivity. }
  assert (A2' : gappend NUL grow (w_prefix w1) s tb = (p2, {| sl_arr := sl_arr s; sl_len := sl_len s + length ta; sl_cap := sl_cap s |})).
  { rewrite E1. exact A2. }
  destruct (fwith_group_step grow w1 f (cb :: b) tb p2 _ Ln ltac:(discriminate) Eb A2') as (sh2 & gh2 & ss2 & gs2 & E2).
  set (fb := FGroup _ (cb :: b) f) in E2. set (w2 := fwith_group grow w1 f (cb :: b)) in *.
  exists w1, w2, fa, fb.
  assert (Nf1 : nth_error (w_tbl w1) i = Some f) by (rewrite E1; cbn [w_tbl]; apply nth_old; exact Nf).
  split. { rewrite frun_app, R. cbn [frun fstep]. rewrite Nf. reflexivity. }
  split. { rewrite frun_app, R. cbn [frun fstep]. rewrite Nf. fold w1. rewrite Nf1. reflexivity. }
  rewrite E2. cbn [w_tbl]. rewrite E1. cbn [w_tbl].
  split; [apply nth_last|]. split; [apply nth_old, nth_last|].
  split. { rewrite <- (nth_last (w_tbl w ++ [fa])). rewrite app_length, Nat.add_1_r. reflexivity. }
  cbn [fview h_prefix finner f_prefix fa fb w_prefix with_group]. fold s. fold start. auto.
Qed.
Print Assumptions C07_flash_overwritten.

(** The overwriting observed, whatever the growth policy: the handler with a=1
    logs b=2 once its sibling has been derived. *)
Definition siblings0 : list event :=
  [ New (options1 None) None; From 0 (WithAttrs [(B "u", VInt64 0)]); From 1 (WithAttrs [(B "a", VInt64 1)]) ].

Definition ffirst (std : stdlib) (grow : policy) (n : nat) (es : list event) (i : nat) (r : record) : option outcome :=
  match frun std grow n empty_world es with
  | Some w => match nth_error (w_tbl w) i with
              | Some f => handle_hdl std n NoDead (fview_hdl w f) r
              | None => None
              end
  | None => None
  end.

Lemma ffirst_flogs std grow n es i r out : ffirst std grow n es i r = Some out ->
  exists w f, frun std grow n empty_world es = Some w /\ nth_error (w_tbl w) i = Some f /\ flogs std w f NoDead r out.
Proof.
  unfold ffirst. destruct (frun std grow n empty_world es) as [w|] eqn:R; [|discriminate].
  destruct (nth_error (w_tbl w) i) as [f|] eqn:N; [|discriminate]. intros H. exists w, f. split; auto. split; auto.
  exists n. intros m L. apply (handle_hdl_mono std n); auto.
Qed.

Theorem C07_flash_siblings_fail grow : exists w f w2,
  frun std0 grow 10 empty_world siblings0 = Some w /\ nth_error (w_tbl w) 2 = Some f /\
  frun std0 grow 10 empty_world (siblings0 ++ [From 1 (WithAttrs [(B "b", VInt64 2)])]) = Some w2 /\
  nth_error (w_tbl w2) 2 = Some f /\
  flogs std0 w f NoDead (record1 []) (Done [B "{""level"": ""INFO"", ""msg"": ""m"", ""u"": 0, ""a"": 1}" ++ [newline]] true) /\
  flogs std0 w2 f NoDead (record1 []) (Done [B "{""level"": ""INFO"", ""msg"": ""m"", ""u"": 0, ""b"": 2}" ++ [newline]] true).
Proof.
  destruct (ffirst_flogs std0 grow 10 siblings0 2 (record1 [])
    (Done [B "{""level"": ""INFO"", ""msg"": ""m"", ""u"": 0, ""a"": 1}" ++ [newline]] true)) as (w & f & R & N & L).
  { vm_compute. reflexivity. }
  destruct (ffirst_flogs std0 grow 10 (siblings0 ++ [From 1 (WithAttrs [(B "b", VInt64 2)])]) 2 (record1 [])
    (Done [B "{""level"": ""INFO"", ""msg"": ""m"", ""u"": 0, ""b"": 2}" ++ [newline]] true)) as (w2 & f2 & R2 & N2 & L2).
  { vm_compute. reflexivity. }
  assert (f2 = f) as ->.
  { rewrite frun_app, R in R2. cbn [frun fstep] in R2.
    destruct (nth_error (w_tbl w) 1) as [f1|]; [|injection R2 as <-; congruence].
    unfold fwith_attrs in R2. destruct (or_make _ _ lenSuffix). destruct (add_attributes _ _ _ _ _) as [[c' ok]|]; [|discriminate].
    destruct (c_buffer c'). injection R2 as <-. cbn [w_tbl] in N2. rewrite (nth_old _ _ _ _ N) in N2. congruence. }
  exists w, f, w2. auto 10.
Qed.
Print Assumptions C07_flash_siblings_fail.

(** ** C22 *)

Lemma qlogs_of_path std n w f p d r out : forall g, of_spath std n p = Some g ->
  (forall m d r w0, shandle_hdl log_write std m d (qview_hdl w f) r w0 = shandle_hdl log_write std m d g r w0) ->
  (qlogs std w f d r out <-> slogs std (p_options p) (p_ops p) d r out).
Proof.
  intros g D E. unfold of_spath in D. split.
  - intros (n0 & H). exists (max n n0). intros m L. exists g. split; [apply (sderive_mono std n); auto; lia|].
    rewrite <- E. apply H. lia.
  - intros (n0 & H). exists (max n n0). intros m L. destruct (H m ltac:(lia)) as (g' & D' & Hh).
    rewrite (sderive_mono std n m ltac:(lia) _ _ _ D) in D'. injection D' as <-. rewrite E. exact Hh.
Qed.

(** After any history every sloggy handler without ReplaceAttr logs what a handler
    derived alone the same way logs. *)
Theorem C22_sloggy_independent std grow n es w : qrun std grow n empty_qworld es = Some w ->
  forall i f p d r out, nth_error (q_tbl w) i = Some f -> nth_error (paths es) i = Some p ->
  o_replace (p_options p) = None ->
  (qlogs std w f d r out <-> slogs std (p_options p) (p_ops p) d r out).
Proof.
  intros R i f p d r out Nf Np No.
  destruct (sindependent std grow n es w R i f p Nf Np (or_introl No)) as (g & D & E).
  apply (qlogs_of_path std n w f p d r out g D E).
Qed.
Print Assumptions C22_sloggy_independent.

(** With ReplaceAttr it does when no group list is extended twice (C08). *)
Theorem C22_sloggy_replaced std grow n es w : narrow es -> qrun std grow n empty_qworld es = Some w ->
  forall i f p d r out, nth_error (q_tbl w) i = Some f -> nth_error (paths es) i = Some p ->
  (qlogs std w f d r out <-> slogs std (p_options p) (p_ops p) d r out).
Proof.
  intros Nw R i f p d r out Nf Np.
  destruct (sindependent std grow n es w R i f p Nf Np (or_intror Nw)) as (g & D & E).
  apply (qlogs_of_path std n w f p d r out g D E).
Qed.
Print Assumptions C22_sloggy_replaced.

(** The handlers exist: one for every path. *)
Theorem C22_sloggy_handlers std grow n es w : qrun std grow n empty_qworld es = Some w ->
  length (q_tbl w) = length (paths es).
Proof. apply stable_length. Qed.
Print Assumptions C22_sloggy_handlers.

(** A history with siblings of siblings; [sloggy] is right where flash is not. *)
Definition bushy : list event :=
  siblings0 ++ [From 1 (WithAttrs [(B "b", VInt64 2)]); From 1 (WithGroup (B "g")); From 1 (WithGroup (B "h"));
                From 4 (WithAttrs [(B "c", VInt64 3)]); From 4 (WithGroup (B "k"))].

Example C22_applies :
  let grow := fun _ c n => c + n in
  option_map (fun w => length (q_tbl w)) (qrun std0 grow 10 empty_qworld bushy) = Some 8 /\
  nth_error (paths bushy) 2 = Some {| p_options := options1 None; p_extras := None;
    p_ops := [WithAttrs [(B "u", VInt64 0)]; WithAttrs [(B "a", VInt64 1)]] |} /\
  swritten std0 (options1 None) [WithAttrs [(B "u", VInt64 0)]; WithAttrs [(B "a", VInt64 1)]] NoDead (record1 [])
    (B "{""level"": ""INFO"", ""msg"": ""m"", ""u"": 0, ""a"": 1}" ++ [chr 13; newline]) true.
Proof.
  cbn zeta. split; [reflexivity|]. split; [reflexivity|]. apply (srun_written 10). vm_compute. reflexivity.
Qed.

(** ** C08 *)

(** ReplaceAttr functions agreeing where they are asked while handling a record:
    on basic fields with no groups, and otherwise with the groups [gs]. *)
Definition agree_when (basic : bytes -> bool) (gs : list bytes) (f f' : attr_fn) : Prop :=
  (forall a, basic (fst a) = true -> f [] a = f' [] a) /\
  (forall a, basic (fst a) = false -> f gs a = f' gs a).

(** ... and while making a handler by [ops]. *)
Definition agree_along (basic : bytes -> bool) (ops : list op) (f f' : attr_fn) : Prop :=
  forall pre post l, ops = pre ++ WithAttrs l :: post -> agree_when basic (names pre) f f'.

Lemma agree_when_at x gs f f' : agree_when (basic_field x) gs f f' -> agree_at f f' x gs.
Proof. intros [A1 A2] a. destruct (basic_field x (fst a)) eqn:E; auto. Qed.

Lemma agree_when_sat gs f f' : agree_when standard_key gs f f' -> sagree_at f f' gs.
Proof. intros [A1 A2] a. destruct (standard_key (fst a)) eqn:E; auto. Qed.

(** A record with content, or a handler that is not an open group. *)
Definition reaches (ops : list op) (r : record) : Prop :=
  grouped ops = true -> forallb is_empty (r_attrs r) = false.

Lemma open_names ops : open_groups ops = names ops.
Proof. reflexivity. Qed.

Lemma chain_half std src f f' x ops r out :
  reaches ops r -> agree_along (basic_field (fix_extras x)) ops f f' ->
  agree_when (basic_field (fix_extras x)) (names ops) f f' ->
  logs std {| o_add_source := src; o_replace := Some f |} x ops NoDead r out ->
  logs std {| o_add_source := src; o_replace := Some f' |} x ops NoDead r out.
Proof.
  intros Rr Aa Aw (n0 & H). exists n0. intros n L. destruct (H n L) as (g & D & Hh). exists (rehdl' f' g).
  set (g0 := HBase (new_handler {| o_add_source := src; o_replace := Some f |} x)) in D.
  change (HBase (new_handler {| o_add_source := src; o_replace := Some f' |} x)) with (rehdl' f' g0).
  destruct (derive_conf std n ops g0 g D) as (E1 & E2 & E3). specialize (E3 eq_refl). cbn in E1, E2, E3.
  rewrite open_names in E3. split.
  - rewrite (derive_told std f f' (fix_extras x) n src ops g0 eq_refl eq_refl eq_refl).
    + rewrite D. reflexivity.
    + intros pre post l E. apply agree_when_at. exact (Aa pre post l E).
  - rewrite <- Hh. apply (handle_hdl_told std f f').
    + destruct g as [h|h nm p]; [exact I|]. apply Rr.
      destruct (grouped ops) eqn:G; [reflexivity|].
      pose proof (derive_grouped std n ops g0 _ D G eq_refl). discriminate.
    + rewrite E2, E3. apply agree_when_at. exact Aw.
    + rewrite E1. reflexivity.
Qed.

Lemma agree_sym b gs f f' : agree_when b gs f f' -> agree_when b gs f' f.
Proof. intros [A1 A2]. split; intros; symmetry; auto. Qed.

(** Along a chain of derivations ReplaceAttr matters only through its answers
    with the names of the groups open at the time, in order, and none for basic
    fields. *)
Theorem C08_flash_chain std src x ops r f f' out : reaches ops r ->
  agree_along (basic_field (fix_extras x)) ops f f' ->
  agree_when (basic_field (fix_extras x)) (names ops) f f' ->
  (logs std {| o_add_source := src; o_replace := Some f |} x ops NoDead r out <->
   logs std {| o_add_source := src; o_replace := Some f' |} x ops NoDead r out).
Proof.
  intros Rr Aa Aw. split; apply chain_half; auto using agree_sym.
  intros pre post l E. apply agree_sym. exact (Aa pre post l E).
Qed.
Print Assumptions C08_flash_chain.

Lemma schain_half std src f f' ops r out :
  reaches ops r -> agree_along standard_key ops f f' -> agree_when standard_key (names ops) f f' ->
  slogs std {| o_add_source := src; o_replace := Some f |} ops NoDead r out ->
  slogs std {| o_add_source := src; o_replace := Some f' |} ops NoDead r out.
Proof.
  intros Rr Aa Aw (n0 & H). exists n0. intros n L. destruct (H n L) as (g & D & Hh). exists (srehdl f' g).
  set (g0 := SBase (snew_handler {| o_add_source := src; o_replace := Some f |})) in D.
  change (SBase (snew_handler {| o_add_source := src; o_replace := Some f' |})) with (srehdl f' g0).
  destruct (sderive_conf std n ops g0 g D) as (E1 & E2). cbn in E1, E2. rewrite open_names in E2. split.
  - rewrite (sderive_told std f f' n ops g0 eq_refl).
    + rewrite D. reflexivity.
    + intros pre post l E. apply agree_when_sat. exact (Aa pre post l E).
  - rewrite <- Hh. apply (shandle_hdl_told std f f').
    + destruct g as [h|h nm p]; [exact I|]. apply Rr.
      destruct (grouped ops) eqn:G; [reflexivity|].
      pose proof (sderive_grouped std n ops g0 _ D G eq_refl). discriminate.
    + rewrite E2. apply agree_when_sat. exact Aw.
    + rewrite E1. reflexivity.
Qed.

Theorem C08_sloggy_chain std src ops r f f' out : reaches ops r ->
  agree_along standard_key ops f f' -> agree_when standard_key (names ops) f f' ->
  (slogs std {| o_add_source := src; o_replace := Some f |} ops NoDead r out <->
   slogs std {| o_add_source := src; o_replace := Some f' |} ops NoDead r out).
Proof.
  intros Rr Aa Aw. split; apply schain_half; auto using agree_sym.
  intros pre post l E. apply agree_sym. exact (Aa pre post l E).
Qed.
Print Assumptions C08_sloggy_chain.

(** The hypotheses: a function that shows the groups it is told, and one that does
    so only where it is asked. *)
Definition join (gs : list bytes) : bytes := flat_map (fun g => g ++ B ".") gs.

Definition show_groups : attr_fn := fun gs a =>
  if standard_key (fst a) then a else (fst a, VString (join gs)).

Definition show_only (allowed : list (list bytes)) : attr_fn := fun gs a =>
  if standard_key (fst a) then a
  else if existsb (fun g => beq (join g) (join gs)) allowed then (fst a, VString (join gs)) else empty_attr.

Definition chain0 : list op :=
  [WithGroup (B "a"); WithAttrs [(B "x", VInt64 1)]; WithGroup []; WithGroup (B "b")].

Lemma show_agree b allowed gs : (forall k, b k = standard_key k) -> existsb (fun g => beq (join g) (join gs)) allowed = true ->
  agree_when b gs show_groups (show_only allowed).
Proof.
  intros Hb E. unfold agree_when, show_groups, show_only. split; intros a S; rewrite Hb in S; rewrite S; [reflexivity|].
  rewrite E. reflexivity.
Qed.

Example C08_chain_applies :
  reaches chain0 (record1 [(B "y", VInt64 2)]) /\
  agree_along standard_key chain0 show_groups (show_only [[B "a"]; [B "a"; B "b"]]) /\
  agree_when standard_key (names chain0) show_groups (show_only [[B "a"]; [B "a"; B "b"]]) /\
  swritten std0 (options1 (Some show_groups)) chain0 NoDead (record1 [(B "y", VInt64 2)])
    (B "{""level"": ""INFO"", ""msg"": ""m"", ""a"": {""x"": ""a."", ""b"": {""y"": ""a.b.""}}}" ++ [chr 13; newline]) true.
Proof.
  split; [intros _; reflexivity|]. split; [|split].
  - intros pre post l E. apply show_agree; [reflexivity|].
    destruct pre as [|o1 [|o2 [|o3 [|o4 [|o5 pre]]]]]; try discriminate E.
    injection E as <- _. reflexivity.
  - apply show_agree; reflexivity.
  - apply (srun_written 10). vm_compute. reflexivity.
Qed.

(** In a tree.  [swap f' g] is [g] with another ReplaceAttr function. *)
Fixpoint swap (f' : attr_fn) (g : fhdl) : fhdl :=
  let new h := {| f_options := {| o_add_source := o_add_source (f_options h); o_replace := Some f' |};
                  f_extras := f_extras h; f_prefix := f_prefix h; f_suffix := f_suffix h; f_groups := f_groups h |} in
  match g with
  | FBase h => FBase (new h)
  | FGroup h name p => FGroup (new h) name (swap f' p)
  end.

Lemma swap_view f' w g : fview_hdl w (swap f' g) = rehdl' f' (fview_hdl w g).
Proof. induction g as [h|h nm p IH]; cbn; [reflexivity|]. rewrite IH. reflexivity. Qed.

Definition keeps_groups (o : options) : bool := match o_replace o with Some _ => true | None => false end.

Definition fproj (w : world) : heap bytes * list (gslice * options) :=
  (w_groups w, map (fun f => (f_groups (finner f), f_options (finner f))) (w_tbl w)).

Lemma fproj_step std grow n w e w' : fstep std grow n w e = Some w' -> fproj w' = gstep grow keeps_groups (fproj w) e.
Proof.
  unfold fproj. destruct e as [o x|i op]; cbn [fstep gstep].
  - intros H. injection H as <-. unfold fnew. destruct (gmake _ _ lenPrefix). destruct (gmake _ _ lenSuffix).
    cbn. rewrite map_app. reflexivity.
  - rewrite nth_error_map. destruct (nth_error (w_tbl w) i) as [f|]; cbn [option_map]; [|intros H; injection H as <-; reflexivity].
    destruct op as [l|nm].
    + unfold fwith_attrs. destruct (or_make _ _ lenSuffix). destruct (add_attributes _ _ _ _ l) as [[c ok]|]; [|discriminate].
      destruct (c_buffer c). intros H. injection H as <-. cbn. rewrite map_app. reflexivity.
    + intros H. injection H as <-. destruct nm as [|c nm]; cbn [fwith_group].
      * cbn. rewrite map_app. reflexivity.
      * unfold keeps_groups. destruct (o_replace (f_options (finner f))) as [rf|].
        -- destruct (gappend (nil : bytes) grow (w_groups w) (f_groups (finner f)) (@cons bytes (c :: nm) nil)) as [gh gs].
           destruct (bapp grow _ _). destruct (gappend NUL grow _ _ (B "}")). cbn. rewrite map_app. reflexivity.
        -- destruct (bapp grow _ _). destruct (gappend NUL grow _ _ (B "}")). cbn. rewrite map_app. reflexivity.
Qed.

Lemma fproj_run std grow n es : forall w, frun std grow n empty_world es = Some w -> fproj w = grun grow keeps_groups es.
Proof.
  induction es as [|e es IH] using rev_ind; intros w R.
  - cbn in R. injection R as <-. reflexivity.
  - rewrite frun_app in R. destruct (frun std grow n empty_world es) as [w0|]; [|discriminate].
    rewrite grun_snoc, <- (IH w0 eq_refl). cbn [frun] in R.
    destruct (fstep std grow n w0 e) as [w1|] eqn:E; [|discriminate]. injection R as <-. eapply fproj_step; eauto.
Qed.

(** Options and extras are those of the path, groups are the names. *)
Lemma fgroups_right std grow n es w : narrow es -> frun std grow n empty_world es = Some w ->
  forall i f p, nth_error (w_tbl w) i = Some f -> nth_error (paths es) i = Some p ->
  o_replace (p_options p) <> None ->
  gread (w_groups w) (f_groups (finner f)) = names (p_ops p).
Proof.
  intros Nw R i f p Nf Np Hr. pose proof (groups_right grow keeps_groups es Nw i) as G.
  rewrite <- (fproj_run std grow n es w R) in G. unfold fproj in G. cbn [fst snd] in G.
  rewrite nth_error_map, Nf in G. rewrite (G _ _ p eq_refl Np). unfold keeps_groups.
  destruct (o_replace (p_options p)); [reflexivity|congruence].
Qed.

Lemma Forall2_length {A B} (R : A -> B -> Prop) l l' : Forall2 R l l' -> length l = length l'.
Proof. induction 1; cbn; auto. Qed.

(** Options, extras and shape follow the path. *)
Definition fits (f : fhdl) (p : path) : Prop :=
  f_options (finner f) = p_options p /\ f_extras (finner f) = fix_extras (p_extras p) /\
  match f with FBase _ => True | FGroup _ _ _ => grouped (p_ops p) = true end.

Lemma ffits std grow n es : forall w, frun std grow n empty_world es = Some w -> Forall2 fits (w_tbl w) (paths es).
Proof.
  induction es as [|e es IH] using rev_ind; intros w R.
  - cbn in R. injection R as <-. constructor.
  - rewrite frun_app in R. destruct (frun std grow n empty_world es) as [w0|]; [|discriminate].
    specialize (IH w0 eq_refl). cbn [frun] in R.
    destruct (fstep std grow n w0 e) as [w1|] eqn:E; [|discriminate]. injection R as <-.
    rewrite paths_snoc. destruct e as [o x|i op]; cbn [fstep add_path] in *.
    + injection E as <-. unfold fnew. destruct (gmake _ _ lenPrefix). destruct (gmake _ _ lenSuffix). cbn [w_tbl].
      apply Forall2_app; auto. constructor; [|constructor]. repeat split.
    + destruct (nth_error (w_tbl w0) i) as [f|] eqn:Nf.
      * assert (exists p, nth_error (paths es) i = Some p /\ fits f p) as (p & -> & F).
        { clear - IH Nf. revert i Nf. induction IH as [|a b l l' H IH IH']; intros [|i] N; try discriminate.
          - injection N as <-. exists b. auto.
          - apply IH'. exact N. }
        destruct F as (F1 & F2 & F3). destruct op as [l|nm].
        -- unfold fwith_attrs in E. destruct (or_make _ _ lenSuffix). destruct (add_attributes _ _ _ _ l) as [[c ok]|]; [|discriminate].
           destruct (c_buffer c). injection E as <-. cbn [w_tbl]. apply Forall2_app; auto. constructor; [|constructor].
           repeat split; auto.
        -- injection E as <-. destruct nm as [|c nm]; cbn [fwith_group].
           ++ cbn [w_tbl]. apply Forall2_app; auto. constructor; [|constructor]. repeat split; auto.
           ++ destruct (match o_replace (f_options (finner f)) with None => _ | Some _ => _ end).
              destruct (bapp grow _ _). destruct (gappend NUL grow _ _ (B "}")). cbn [w_tbl].
              apply Forall2_app; auto. constructor; [|constructor]. repeat split; auto.
              cbn. unfold grouped. rewrite rev_unit. reflexivity.
      * injection E as <-. destruct (nth_error (paths es) i) eqn:Np; [|exact IH].
        apply Forall2_length in IH. apply nth_error_None in Nf.
        assert (i < length (paths es)) by (apply nth_error_Some; congruence). lia.
Qed.

Lemma ffits_nth l l' i f p : Forall2 fits l l' -> nth_error l i = Some f -> nth_error l' i = Some p -> fits f p.
Proof.
  intros H. revert i. induction H as [|a b l l' F H IH]; intros [|i] N N'; try discriminate.
  - injection N as <-. injection N' as <-. exact F.
  - eapply IH; eauto.
Qed.

Theorem C08_flash_tree std grow n es w : narrow es -> frun std grow n empty_world es = Some w ->
  forall i g p f f' r out, nth_error (w_tbl w) i = Some g -> nth_error (paths es) i = Some p ->
  o_replace (p_options p) = Some f -> reaches (p_ops p) r ->
  agree_when (basic_field (fix_extras (p_extras p))) (names (p_ops p)) f f' ->
  (flogs std w g NoDead r out <-> flogs std w (swap f' g) NoDead r out).
Proof.
  intros Nw R i g p f f' r out Nf Np Hr Rr Aw.
  pose proof (fgroups_right std grow n es w Nw R i g p Nf Np ltac:(congruence)) as G.
  destruct (ffits_nth _ _ i g p (ffits std grow n es w R) Nf Np) as (F1 & F2 & F3).
  assert (E : forall m, handle_hdl std m NoDead (fview_hdl w (swap f' g)) r = handle_hdl std m NoDead (fview_hdl w g) r).
  { intros m. rewrite swap_view. assert (I : inner (fview_hdl w g) = fview w (finner g)) by (destruct g; reflexivity).
    apply (handle_hdl_told std f f').
    - destruct g; cbn; [exact Logic.I|]. apply Rr. exact F3.
    - rewrite I. cbn [fview h_extras h_groups]. rewrite F2, G. apply agree_when_at. exact Aw.
    - rewrite I. cbn [fview h_options]. rewrite F1. exact Hr. }
  unfold flogs. split; intros (n0 & H); exists n0; intros m L; [rewrite E|rewrite <- E]; auto.
Qed.
Print Assumptions C08_flash_tree.

(** sloggy. *)
Fixpoint qswap (f' : attr_fn) (g : qhdl) : qhdl :=
  let new h := {| q_options := {| o_add_source := o_add_source (q_options h); o_replace := Some f' |};
                  q_prefix := q_prefix h; q_suffix := q_suffix h; q_groups := q_groups h |} in
  match g with
  | QBase h => QBase (new h)
  | QGroup h name p => QGroup (new h) name (qswap f' p)
  end.

Lemma qswap_view f' w g : qview_hdl w (qswap f' g) = srehdl f' (qview_hdl w g).
Proof. induction g as [h|h nm p IH]; cbn; [reflexivity|]. rewrite IH. reflexivity. Qed.

Definition qfits (f : qhdl) (p : path) : Prop :=
  q_options (qinner f) = p_options p /\
  match f with QBase _ => True | QGroup _ _ _ => grouped (p_ops p) = true end.

Lemma qfits_run std grow n es : forall w, qrun std grow n empty_qworld es = Some w -> Forall2 qfits (q_tbl w) (paths es).
Proof.
  induction es as [|e es IH] using rev_ind; intros w R.
  - cbn in R. injection R as <-. constructor.
  - rewrite qrun_snoc in R. destruct (qrun std grow n empty_qworld es) as [w0|]; [|discriminate].
    specialize (IH w0 eq_refl). rename R into E.
    rewrite paths_snoc. destruct e as [o x|i op]; cbn [qstep add_path] in *.
    + injection E as <-. cbn [q_tbl qnew]. apply Forall2_app; auto. constructor; [|constructor]. split; reflexivity.
    + destruct (nth_error (q_tbl w0) i) as [f|] eqn:Nf.
      * assert (exists p, nth_error (paths es) i = Some p /\ qfits f p) as (p & -> & F).
        { clear - IH Nf. revert i Nf. induction IH as [|a b l l' H IH IH']; intros [|i] N; try discriminate.
          - injection N as <-. exists b. auto.
          - apply IH'. exact N. }
        destruct F as (F1 & F3). destruct op as [l|nm].
        -- unfold qwith_attrs in E. destruct (copied grow (q_bytes w0) _) as [b1 pb]. destruct (copied grow b1 _) as [b2 s].
           destruct (sadd_attributes _ _ _ _ l) as [[c ok]|]; [|discriminate].
           destruct (s_writer c). injection E as <-. cbn [q_tbl]. apply Forall2_app; auto. constructor; [|constructor].
           split; auto.
        -- injection E as <-. destruct nm as [|c nm]; cbn [qwith_group].
           ++ cbn [q_tbl]. apply Forall2_app; auto. constructor; [|constructor]. split; auto.
           ++ destruct (gappend (nil : bytes) grow (q_names w0) _ _). destruct (copied grow (q_bytes w0) _) as [b1 pb]. destruct (copied grow b1 _) as [b2 s].
              destruct (fst (qwrite grow (b2, pb) _)) as [b3 p']. destruct (fst (qwrite grow (b3, s) _)) as [b4 s'].
              cbn [q_tbl]. apply Forall2_app; auto. constructor; [|constructor]. split; auto.
              cbn. unfold grouped. rewrite rev_unit. reflexivity.
      * injection E as <-. destruct (nth_error (paths es) i) eqn:Np; [|exact IH].
        apply Forall2_length in IH. apply nth_error_None in Nf.
        assert (i < length (paths es)) by (apply nth_error_Some; congruence). lia.
Qed.

Lemma qfits_nth l l' i f p : Forall2 qfits l l' -> nth_error l i = Some f -> nth_error l' i = Some p -> qfits f p.
Proof.
  intros H. revert i. induction H as [|a b l l' F H IH]; intros [|i] N N'; try discriminate.
  - injection N as <-. injection N' as <-. exact F.
  - eapply IH; eauto.
Qed.

Theorem C08_sloggy_tree std grow n es w : narrow es -> qrun std grow n empty_qworld es = Some w ->
  forall i g p f f' r out, nth_error (q_tbl w) i = Some g -> nth_error (paths es) i = Some p ->
  o_replace (p_options p) = Some f -> reaches (p_ops p) r ->
  agree_when standard_key (names (p_ops p)) f f' ->
  (qlogs std w g NoDead r out <-> qlogs std w (qswap f' g) NoDead r out).
Proof.
  intros Nw R i g p f f' r out Nf Np Hr Rr Aw.
  pose proof (groups_right grow (fun _ => true) es Nw i) as G.
  rewrite <- (gproj_run std grow n es w R) in G. unfold gproj in G. cbn [fst snd] in G.
  rewrite nth_error_map, Nf in G. specialize (G _ _ p eq_refl Np).
  destruct (qfits_nth _ _ i g p (qfits_run std grow n es w R) Nf Np) as (F1 & F3).
  assert (E : forall m w0, shandle_hdl log_write std m NoDead (qview_hdl w (qswap f' g)) r w0 =
                        shandle_hdl log_write std m NoDead (qview_hdl w g) r w0).
  { intros m w0. rewrite qswap_view.
    apply (shandle_hdl_told std f f').
    - destruct g; cbn; [exact Logic.I|]. apply Rr. exact F3.
    - rewrite qinner_view. cbn [qview sh_groups]. rewrite G. apply agree_when_sat. exact Aw.
    - rewrite qinner_view. cbn [qview sh_options]. rewrite F1. exact Hr. }
  unfold qlogs. split; intros (n0 & H); exists n0; intros m L; [rewrite E|rewrite <- E]; auto.
Qed.
Print Assumptions C08_sloggy_tree.

(** A tree where only the root's group list is extended more than once. *)
Definition tree1 (f : attr_fn) : list event :=
  [ New (options1 (Some f)) None; From 0 (WithGroup (B "a")); From 0 (WithGroup (B "b"));
    From 1 (WithAttrs [(B "x", VInt64 1)]); From 3 (WithGroup (B "c")); From 3 (WithAttrs [(B "y", VInt64 1)]);
    From 2 (WithGroup (B "d")) ].

(** Go's growth of small slices. *)
Definition doubling : policy := fun _ c _ => 2 * c.

Example C08_tree_applies f :
  narrow (tree1 f) /\
  option_map (fun w => length (q_tbl w)) (qrun std0 doubling 10 empty_qworld (tree1 show_groups)) = Some 7 /\
  option_map (fun w => length (w_tbl w)) (frun std0 doubling 10 empty_world (tree1 show_groups)) = Some 7 /\
  option_map (fun p => names (p_ops p)) (nth_error (paths (tree1 f)) 4) = Some [B "a"; B "c"].
Proof.
  split; [|split; [|split]].
  - intros k p Np L. destruct k as [|[|[|[|[|[|[|k]]]]]]]; [injection Np as <-; reflexivity|cbv in L; lia..|]. cbv in L. lia.
  - vm_compute. reflexivity.
  - vm_compute. reflexivity.
  - reflexivity.
Qed.

(** Two groups opened within the same groups, with room in the slice: the earlier
    handler's groups become the later one's. *)
Theorem C08_sloggy_overwritten std grow n es w i f a b : qrun std grow n empty_qworld es = Some w ->
  nth_error (q_tbl w) i = Some f -> wf (q_names w) (q_groups (qinner f)) ->
  sl_len (q_groups (qinner f)) < sl_cap (q_groups (qinner f)) -> a <> [] -> b <> [] ->
  exists w1 w2 fa, qstep std grow n w (From i (WithGroup a)) = Some w1 /\ qstep std grow n w1 (From i (WithGroup b)) = Some w2 /\
    nth_error (q_tbl w1) (length (q_tbl w)) = Some fa /\ nth_error (q_tbl w2) (length (q_tbl w)) = Some fa /\
    sh_groups (qview w1 (qinner fa)) = sh_groups (qview w (qinner f)) ++ [a] /\
    sh_groups (qview w2 (qinner fa)) = sh_groups (qview w (qinner f)) ++ [b].
Proof.
  intros R Nf W L Na Nb. destruct a as [|ca a]; [congruence|]. destruct b as [|cb b]; [congruence|].
  pose proof (groups_overwritten grow (q_names w) (q_groups (qinner f)) (ca :: a) (cb :: b) W L) as O.
  cbn [qstep]. rewrite Nf. cbn [qwith_group].
  destruct (gappend (nil : bytes) grow (q_names w) (q_groups (qinner f)) (@cons bytes (ca :: a) nil)) as [g1 s1].
  destruct (copied grow (q_bytes w) _) as [b1 pb]. destruct (copied grow b1 _) as [b2 sb].
  destruct (fst (qwrite grow (b2, pb) _)) as [b3 p']. destruct (fst (qwrite grow (b3, sb) _)) as [b4 s'].
  do 2 eexists. exists (QGroup {| q_options := q_options (qinner f); q_prefix := p'; q_suffix := s'; q_groups := s1 |} (ca :: a) f).
  split; [reflexivity|]. cbn [q_tbl]. rewrite nth_error_app1 by (apply nth_error_Some; congruence). rewrite Nf.
  split; [reflexivity|]. cbn [q_names]. split; [apply nth_last|].
  destruct (gappend (nil : bytes) grow g1 (q_groups (qinner f)) (@cons bytes (cb :: b) nil)) as [g2 s2].
  destruct O as (O1 & O2 & _). cbn [q_bytes].
  destruct (copied grow b4 _) as [c1 pc]. destruct (copied grow c1 _) as [c2 sc].
  destruct (fst (qwrite grow (c2, pc) _)) as [c3 p2']. destruct (fst (qwrite grow (c3, sc) _)) as [c4 s2'].
  cbn [q_tbl]. split; [apply nth_old, nth_last|]. split; [exact O1|exact O2].
Qed.
Print Assumptions C08_sloggy_overwritten.

(** With Go's growth from capacity 0 to 1 to 2 to 4 this happens at depth three:
    the handler of group d is told of group e. *)
Definition deep (last : list event) : list event :=
  [ New (options1 (Some show_groups)) None; From 0 (WithGroup (B "a")); From 1 (WithGroup (B "b"));
    From 2 (WithGroup (B "c")); From 3 (WithGroup (B "d")) ] ++ last.

Definition qfirst (std : stdlib) (grow : policy) (n : nat) (es : list event) (i : nat) (r : record) : option bytes :=
  match qrun std grow n empty_qworld es with
  | Some w => match nth_error (q_tbl w) i with
              | Some f => match shandle_hdl log_write std n NoDead (qview_hdl w f) r [] with
                          | Some (SDone ws true) => Some (concat ws)
                          | _ => None
                          end
              | None => None
              end
  | None => None
  end.

Definition line0 (t : string) : option bytes :=
  Some (B "{""level"": ""INFO"", ""msg"": ""m"", " ++ B t ++ B "}" ++ [chr 13; newline]).

Example C08_sloggy_tree_fails :
  ~ narrow (deep [From 3 (WithGroup (B "e"))]) /\
  qfirst std0 doubling 10 (deep []) 4 (record1 [(B "x", VInt64 1)]) =
    line0 """a"": {""b"": {""c"": {""d"": {""x"": ""a.b.c.d.""}}}}" /\
  qfirst std0 doubling 10 (deep [From 3 (WithGroup (B "e"))]) 4 (record1 [(B "x", VInt64 1)]) =
    line0 """a"": {""b"": {""c"": {""d"": {""x"": ""a.b.c.e.""}}}}".
Proof.
  split; [|split; vm_compute; reflexivity].
  intros N. specialize (N 3 _ eq_refl). assert (L : 2 <= openings 3 (deep [From 3 (WithGroup (B "e"))])) by (vm_compute; lia).
  specialize (N L). discriminate.
Qed.

(** flash: both the name and the text before it are those of the later sibling. *)
Example C08_flash_tree_fails :
  ffirst std0 doubling 10 (deep []) 4 (record1 [(B "x", VInt64 1)]) =
    Some (Done [B "{""level"": ""INFO"", ""msg"": ""m"", ""a"": {""b"": {""c"": {""d"": {""x"": ""a.b.c.d.""}}}}}" ++ [newline]] true) /\
  ffirst std0 doubling 10 (deep [From 3 (WithAttrs []); From 5 (WithGroup (B "e"))]) 4 (record1 [(B "x", VInt64 1)]) =
    Some (Done [B "{""level"": ""INFO"", ""msg"": ""m"", ""a"": {""b"": {""c"": {""e"": {""x"": ""a.b.c.e.""}}}}}" ++ [newline]] true).
Proof. split; vm_compute; reflexivity. Qed.
