(** Derivation histories of flash handlers. *)

From Coq Require Import Ascii String List ZArith NArith Bool Arith Lia.
From Verif Require Import Bytes Slog SpecLog SpecFlash Flash FlashProofs History HistoryProofs Slices FlashHeap FlashHom.
Import ListNotations.

(** The handler a path stands for. *)
Definition of_path (std : stdlib) (n : nat) (p : path) : option hdl :=
  derive std n (HBase (new_handler (p_options p) (p_extras p))) (p_ops p).

(** The prefix stored by the handler of path [p] is empty. *)
Definition unstarted (std : stdlib) (p : path) : Prop :=
  exists n g, of_path std n p = Some g /\ h_prefix (inner g) = [].

(** Handlers with a non-empty prefix are derived from at most once. *)
Definition once (std : stdlib) (es : list event) : Prop :=
  forall i p, nth_error (paths es) i = Some p -> 2 <= derivations i es -> unstarted std p.

Section Proofs.
Variable std : stdlib.
Variable grow : policy.
Variable n : nat.

Lemma derive_snoc ops : forall g o,
  derive std n g (ops ++ [o]) = match derive std n g ops with None => None | Some g' => step std n g' o end.
Proof.
  induction ops as [|p ops IH]; intros g o; cbn.
  - destruct (step std n g o); reflexivity.
  - destruct (step std n g p); auto.
Qed.

Lemma of_path_extend p o g : of_path std n p = Some g -> of_path std n (extend_path p o) = step std n g o.
Proof. unfold of_path, extend_path. cbn. rewrite derive_snoc. intros ->. reflexivity. Qed.

Lemma unstarted_prefix p g : unstarted std p -> of_path std n p = Some g -> h_prefix (inner g) = [].
Proof.
  intros (m & g' & D & E) D'. unfold of_path in *.
  assert (H : Some g = Some g').
  { rewrite <- (derive_mono std n (max n m) ltac:(lia) _ _ _ D').
    apply (derive_mono std m (max n m) ltac:(lia) _ _ _ D). }
  injection H as ->. exact E.
Qed.

Fixpoint chain (f : fhdl) : list fhandler :=
  match f with FBase h => [h] | FGroup h _ p => h :: chain p end.

Lemma fview_same w w' f : (forall h, In h (chain f) -> fview w' h = fview w h) -> fview_hdl w' f = fview_hdl w f.
Proof.
  induction f as [h|h nm p IH]; cbn; intros H.
  - rewrite H; auto.
  - rewrite H by auto. rewrite IH; auto.
Qed.

Lemma inner_view w f : inner (fview_hdl w f) = fview w (finner f).
Proof. destruct f; reflexivity. Qed.

Definition brace : ascii := chr 125.

(** The [i]-th handler is fine. *)
Definition good (es : list event) (w : world) (pe : list (entry ascii)) (ge : list (entry bytes))
    (i : nat) (f : fhdl) (p : path) : Prop :=
  of_path std n p = Some (fview_hdl w f) /\
  (exists e, nth_error pe i = Some e /\ e_slice e = f_prefix (finner f) /\
             (e_used e = true -> 1 <= derivations i es)) /\
  (exists e, nth_error ge i = Some e /\ e_slice e = f_groups (finner f) /\
             (e_used e = true -> 1 <= derivations i es)) /\
  all_c _ brace (w_suffix w) (f_suffix (finner f)) /\
  (sl_len (f_groups (finner f)) > 0 -> sl_len (f_prefix (finner f)) > 0) /\
  (sl_len (f_groups (finner f)) = 0 -> f_groups (finner f) = nil_slice) /\
  (forall h, In h (chain f) -> In h (map finner (w_tbl w))).

Definition inv (es : list event) (w : world) : Prop :=
  length (w_tbl w) = length (paths es) /\
  exists pe ge, owned (w_prefix w) pe /\ owned (w_groups w) ge /\
    length pe = length (w_tbl w) /\ length ge = length (w_tbl w) /\
    forall i f p, nth_error (w_tbl w) i = Some f -> nth_error (paths es) i = Some p -> good es w pe ge i f p.

(** One more handler [f'] with path [p'], made by event [e] from handler [i]
    (or from nothing if there is no handler [i]). *)
Lemma inv_step es w e w' f' p' i s1 v1 s2 v2 pe ge :
  length (w_tbl w) = length (paths es) ->
  owned (w_prefix w) pe -> owned (w_groups w) ge ->
  length pe = length (w_tbl w) -> length ge = length (w_tbl w) ->
  (forall i f p, nth_error (w_tbl w) i = Some f -> nth_error (paths es) i = Some p -> good es w pe ge i f p) ->
  paths (es ++ [e]) = paths es ++ [p'] ->
  w_tbl w' = w_tbl w ++ [f'] ->
  (i < length (w_tbl w) -> is_from i e = true) ->
  owned (w_prefix w') (use pe i ++ [{| e_slice := s1; e_value := v1; e_used := false |}]) ->
  owned (w_groups w') (use ge i ++ [{| e_slice := s2; e_value := v2; e_used := false |}]) ->
  f_prefix (finner f') = s1 -> f_groups (finner f') = s2 ->
  (forall f, In f (w_tbl w) -> all_c _ brace (w_suffix w') (f_suffix (finner f))) ->
  all_c _ brace (w_suffix w') (f_suffix (finner f')) ->
  (sl_len s2 > 0 -> sl_len s1 > 0) -> (sl_len s2 = 0 -> s2 = nil_slice) ->
  (forall h, In h (chain f') -> h = finner f' \/ In h (map finner (w_tbl w))) ->
  ((forall f, In f (w_tbl w) -> fview_hdl w' f = fview_hdl w f) -> of_path std n p' = Some (fview_hdl w' f')) ->
  inv (es ++ [e]) w'.
Proof.
  intros L Op Og Lp Lg G P T Fr Op' Og' E1 E2 Sf Sf' Ne Nil Ch V.
  assert (Old : forall h, In h (map finner (w_tbl w)) -> fview w' h = fview w h).
  { intros h I. apply in_map_iff in I as (f & <- & I). apply In_nth_error in I as (k & N).
    assert (exists p, nth_error (paths es) k = Some p) as (p & Np).
    { destruct (nth_error (paths es) k) eqn:E; eauto. apply nth_error_None in E.
      assert (k < length (w_tbl w)) by (apply nth_error_Some; congruence). lia. }
    destruct (G k f p N Np) as (_ & (e1 & N1 & S1 & _) & (e2 & N2 & S2 & _) & Al & _).
    unfold fview. f_equal.
    - rewrite <- S1. rewrite (owned_read _ _ _ _ _ Op N1).
      assert (exists e1', nth_error (use pe i ++ [{| e_slice := s1; e_value := v1; e_used := false |}]) k = Some e1' /\
        e_slice e1' = e_slice e1 /\ e_value e1' = e_value e1) as (e1' & N1' & Q1 & Q2).
      { rewrite nth_error_app1 by (rewrite use_length; apply nth_error_Some; congruence).
        rewrite use_nth, N1. destruct (Nat.eqb i k); eauto. }
      rewrite <- Q1, <- Q2. exact (owned_read _ _ _ _ _ Op' N1').
    - destruct Al as [_ Al]. rewrite Al. apply (Sf f). eapply nth_error_In; eauto.
    - rewrite <- S2. rewrite (owned_read _ _ _ _ _ Og N2).
      assert (exists e2', nth_error (use ge i ++ [{| e_slice := s2; e_value := v2; e_used := false |}]) k = Some e2' /\
        e_slice e2' = e_slice e2 /\ e_value e2' = e_value e2) as (e2' & N2' & Q1 & Q2).
      { rewrite nth_error_app1 by (rewrite use_length; apply nth_error_Some; congruence).
        rewrite use_nth, N2. destruct (Nat.eqb i k); eauto. }
      rewrite <- Q1, <- Q2. exact (owned_read _ _ _ _ _ Og' N2'). }
  assert (OldH : forall f, In f (w_tbl w) -> fview_hdl w' f = fview_hdl w f).
  { intros f I. apply fview_same. intros h Ih. apply Old. apply In_nth_error in I as (k & N).
    assert (exists p, nth_error (paths es) k = Some p) as (p & Np).
    { destruct (nth_error (paths es) k) eqn:E; eauto. apply nth_error_None in E.
      assert (k < length (w_tbl w)) by (apply nth_error_Some; congruence). lia. }
    destruct (G k f p N Np) as (_ & _ & _ & _ & _ & _ & C). auto. }
  specialize (V OldH).
  split; [rewrite T, P, !app_length; cbn; lia|].
  exists (use pe i ++ [{| e_slice := s1; e_value := v1; e_used := false |}]),
         (use ge i ++ [{| e_slice := s2; e_value := v2; e_used := false |}]).
  split; [auto|]. split; [auto|]. split; [rewrite T, !app_length, use_length; cbn; lia|].
  split; [rewrite T, !app_length, use_length; cbn; lia|].
  intros k f p Nk Np. rewrite T in Nk. rewrite P in Np.
  apply nth_snoc in Nk as [Nk|[-> ->]].
  - assert (Lk : k < length (w_tbl w)) by (apply nth_error_Some; congruence).
    apply nth_snoc in Np as [Np|[-> _]]; [|lia].
    destruct (G k f p Nk Np) as (D & (e1 & N1 & S1 & U1) & (e2 & N2 & S2 & U2) & Al & Q & Q' & C).
    assert (Used : forall T0 (x : entry T0) l, nth_error l k = Some x -> (e_used x = true -> 1 <= derivations k es) ->
      exists x', nth_error (use l i ++ []) k = Some x' /\ e_slice x' = e_slice x /\
        (e_used x' = true -> 1 <= derivations k (es ++ [e]))).
    { intros T0 x l Nx Ux. rewrite app_nil_r, use_nth, Nx. rewrite derivations_snoc.
      destruct (Nat.eqb_spec i k) as [->|Ne']; eexists; split; try reflexivity; split; try reflexivity.
      - intros _. rewrite (Fr Lk). lia.
      - intros Hx. specialize (Ux Hx). lia. }
    split; [rewrite OldH by (eapply nth_error_In; eauto); exact D|].
    split; [destruct (Used _ e1 pe N1 U1) as (x & Nx & Sx & Ux); rewrite app_nil_r in Nx;
            exists x; split; [apply nth_old; exact Nx|split; [congruence|exact Ux]]|].
    split; [destruct (Used _ e2 ge N2 U2) as (x & Nx & Sx & Ux); rewrite app_nil_r in Nx;
            exists x; split; [apply nth_old; exact Nx|split; [congruence|exact Ux]]|].
    split; [apply Sf; eapply nth_error_In; eauto|]. split; [exact Q|]. split; [exact Q'|].
    intros h Ih. rewrite T, map_app. apply in_or_app. left. auto.
  - apply nth_snoc in Np as [Np|[_ ->]].
    { assert (length (w_tbl w) < length (paths es)) by (apply nth_error_Some; congruence). lia. }
    split; [exact V|].
    split; [eexists; split; [rewrite <- Lp, <- (use_length _ pe i); apply nth_last|split; [cbn; auto|cbn; discriminate]]|].
    split; [eexists; split; [rewrite <- Lg, <- (use_length _ ge i); apply nth_last|split; [cbn; auto|cbn; discriminate]]|].
    split; [auto|]. split; [rewrite E1, E2; auto|]. split; [rewrite E2; auto|].
    intros h Ih. rewrite T, map_app. apply in_or_app. destruct (Ch h Ih) as [->|I]; [right; left; reflexivity|left; exact I].
Qed.

Lemma use_out {T} (l : list (entry T)) : forall i, length l <= i -> use l i = l.
Proof. induction l as [|e l IH]; intros [|i] H; cbn in *; auto; [lia|]. rewrite IH by lia. reflexivity. Qed.

Lemma gread_len {T} (h : heap T) s : wf h s -> length (gread h s) = sl_len s.
Proof. intros [L A]. unfold gread. rewrite firstn_length. destruct A as [A|[_ A]]; lia. Qed.

Lemma read_zero {T} (h : heap T) s : sl_len s = 0 -> gread h s = (nil : list T).
Proof. intros Z. unfold gread. rewrite Z. reflexivity. Qed.

Lemma owned_last {T} (h : heap T) l e : owned h (l ++ [e]) -> wf h (e_slice e) /\ gread h (e_slice e) = e_value e.
Proof. intros [O _]. apply O. apply in_or_app. right. left. reflexivity. Qed.

Lemma prefix_extend h pe i e s xs :
  owned h pe -> nth_error pe i = Some e -> e_slice e = s -> (sl_len s > 0 -> e_used e = false) ->
  let (h', s') := gappends NUL grow (or_make h s lenPrefix) xs in
  owned h' (use pe i ++ [{| e_slice := s'; e_value := gread h s ++ concat xs; e_used := false |}]).
Proof.
  intros O N <- U. unfold or_make. destruct (Nat.ltb_spec 0 (sl_len (e_slice e))) as [L|L].
  - rewrite (owned_read _ _ _ _ _ O N). apply owned_extend; auto.
  - rewrite read_zero by lia. apply owned_make_extend. apply owned_use. exact O.
Qed.

Lemma groups_extend h ge i e s xs :
  owned h ge -> nth_error ge i = Some e -> e_slice e = s -> (sl_len s > 0 -> e_used e = false) ->
  (sl_len s = 0 -> s = nil_slice) ->
  let (h', s') := gappends (nil : bytes) grow (h, s) xs in
  owned h' (use ge i ++ [{| e_slice := s'; e_value := gread h s ++ concat xs; e_used := false |}]).
Proof.
  intros O N E U Z. destruct (Nat.eq_dec (sl_len s) 0) as [Z0|Z0].
  - rewrite (Z Z0). rewrite (read_zero h nil_slice) by reflexivity. apply owned_nil_extend. apply owned_use. exact O.
  - subst s. rewrite (owned_read _ _ _ _ _ O N). apply owned_extend; auto; [apply U|]; lia.
Qed.

Lemma or_make_all h s t : all_c _ brace h t -> all_c _ brace (fst (or_make h s lenSuffix)) t.
Proof.
  intros A. unfold or_make. destruct (0 <? sl_len s); [exact A|]. apply all_c_make. exact A.
Qed.

Lemma or_make_new h s : all_c _ brace h s ->
  all_c _ brace (fst (or_make h s lenSuffix)) (snd (or_make h s lenSuffix)) /\
  gread (fst (or_make h s lenSuffix)) (snd (or_make h s lenSuffix)) = gread h s.
Proof.
  intros A. unfold or_make. destruct (Nat.ltb_spec 0 (sl_len s)) as [L|L]; [auto|].
  pose proof (all_c_make_new _ NUL brace h lenSuffix) as N. split; [exact N|].
  rewrite (read_zero h s) by lia. apply read_zero. reflexivity.
Qed.

Lemma step_inv es w e w' : inv es w -> once std (es ++ [e]) -> fstep std grow n w e = Some w' -> inv (es ++ [e]) w'.
Proof.
  intros [L (pe & ge & Op & Og & Lp & Lg & G)] On S. destruct e as [o x|i o].
  { (* NewHandler *)
    cbn [fstep] in S. injection S as <-. unfold fnew.
    pose proof (owned_make_extend _ NUL grow (w_prefix w) pe lenPrefix [] Op) as Op'.
    cbn [gappends fold_left] in Op'.
    destruct (gmake NUL (w_prefix w) lenPrefix) as [ph ps] eqn:Ep.
    change (gappends NUL grow (ph, ps) []) with (ph, ps) in Op'. cbv iota beta in Op'.
    pose proof (make_ok _ NUL (w_prefix w) lenPrefix) as Mp. rewrite Ep in Mp. destruct Mp as (_ & Rp & _).
    pose proof (all_c_make_new _ NUL brace (w_suffix w) lenSuffix) as As.
    pose proof (fun t => all_c_make _ NUL brace (w_suffix w) lenSuffix t) as Ao.
    pose proof (make_ok _ NUL (w_suffix w) lenSuffix) as Ms.
    destruct (gmake NUL (w_suffix w) lenSuffix) as [sh ss] eqn:Es. cbn [fst snd] in As, Ao. destruct Ms as (_ & Rs & _).
    eapply (inv_step es w (New o x)
      _ (FBase {| f_options := o; f_extras := fix_extras x; f_prefix := ps; f_suffix := ss; f_groups := nil_slice |})
      {| p_options := o; p_extras := x; p_ops := [] |} (length (w_tbl w)) ps [] nil_slice [] pe ge); auto.
    - apply paths_snoc.
    - cbn. lia.
    - rewrite use_out by lia. exact Op'.
    - rewrite use_out by lia. cbn [w_groups]. apply owned_empty; auto. apply wf_nil.
    - intros f I. cbn [w_suffix]. apply Ao. apply In_nth_error in I as (k & N).
      assert (exists p, nth_error (paths es) k = Some p) as (p & Np).
      { destruct (nth_error (paths es) k) eqn:E; eauto. apply nth_error_None in E.
        assert (k < length (w_tbl w)) by (apply nth_error_Some; congruence). lia. }
      apply (G k f p N Np).
    - cbn. lia.
    - cbn. intros h [<-|[]]. auto.
    - intros _. cbn. unfold fview. cbn. rewrite Rp, Rs. reflexivity. }
  cbn [fstep] in S. destruct (nth_error (w_tbl w) i) as [f|] eqn:Nf.
  2: { (* no such handler *)
       injection S as <-. assert (Np : nth_error (paths es) i = None).
       { apply nth_error_None. apply nth_error_None in Nf. lia. }
       assert (P : paths (es ++ [From i o]) = paths es).
       { rewrite paths_snoc. cbn. rewrite Np. reflexivity. }
       split; [rewrite P; exact L|]. exists pe, ge. repeat (split; [assumption|]). rewrite P.
       intros k f p Nk Npk. destruct (G k f p Nk Npk) as (D & (e1 & N1 & S1 & U1) & (e2 & N2 & S2 & U2) & Rest).
       split; [exact D|]. split; [exists e1|split; [exists e2|exact Rest]]; repeat (split; [assumption|]);
       intros H; rewrite derivations_snoc; [specialize (U1 H)|specialize (U2 H)]; lia. }
  assert (Li : i < length (w_tbl w)) by (apply nth_error_Some; congruence).
  assert (exists p, nth_error (paths es) i = Some p) as (p & Np).
  { destruct (nth_error (paths es) i) eqn:E; eauto. apply nth_error_None in E. lia. }
  destruct (G i f p Nf Np) as (D & (e1 & N1 & S1 & U1) & (e2 & N2 & S2 & U2) & Al & Q & Q' & C).
  assert (P : paths (es ++ [From i o]) = paths es ++ [extend_path p o]).
  { rewrite paths_snoc. cbn. rewrite Np. reflexivity. }
  assert (W1 : wf (w_prefix w) (f_prefix (finner f))).
  { rewrite <- S1. apply Op. eapply nth_error_In; eauto. }
  assert (W2 : wf (w_groups w) (f_groups (finner f))).
  { rewrite <- S2. apply Og. eapply nth_error_In; eauto. }
  assert (Un : sl_len (f_prefix (finner f)) > 0 -> derivations i es = 0).
  { intros Pos. destruct (derivations i es) as [|k] eqn:E; [reflexivity|]. exfalso.
    assert (2 <= derivations i (es ++ [From i o])).
    { rewrite derivations_snoc, E. cbn. rewrite Nat.eqb_refl. lia. }
    assert (Np' : nth_error (paths (es ++ [From i o])) i = Some p) by (apply paths_kept; exact Np).
    pose proof (unstarted_prefix p _ (On i p Np' H) D) as Emp. rewrite inner_view in Emp. cbn in Emp.
    pose proof (gread_len _ _ W1) as Len. rewrite Emp in Len. cbn in Len. lia. }
  assert (U1' : sl_len (f_prefix (finner f)) > 0 -> e_used e1 = false).
  { intros Pos. specialize (Un Pos). destruct (e_used e1); [specialize (U1 eq_refl); lia|reflexivity]. }
  assert (U2' : sl_len (f_groups (finner f)) > 0 -> e_used e2 = false).
  { intros Pos. specialize (Un (Q Pos)). destruct (e_used e2); [specialize (U2 eq_refl); lia|reflexivity]. }
  assert (Fr : i < length (w_tbl w) -> is_from i (From i o) = true) by (intros _; cbn; apply Nat.eqb_refl).
  assert (AllS : forall f0, In f0 (w_tbl w) -> all_c _ brace (w_suffix w) (f_suffix (finner f0))).
  { intros f0 I. apply In_nth_error in I as (k & N).
    assert (exists p, nth_error (paths es) k = Some p) as (p0 & Np0).
    { destruct (nth_error (paths es) k) eqn:E; eauto. apply nth_error_None in E.
      assert (k < length (w_tbl w)) by (apply nth_error_Some; congruence). lia. }
    apply (G k f0 p0 N Np0). }
  destruct o as [l|name].
  - (* WithAttrs *)
    unfold fwith_attrs in S. cbn [h_prefix h_groups fview] in S.
    destruct (or_make (w_suffix w) (f_suffix (finner f)) lenSuffix) as [sh ss] eqn:Es.
    set (st := match gread (w_prefix w) (f_prefix (finner f)) with [] => false | _ => _ end) in S.
    pose proof (chunks_appended std grow n st (o_replace (f_options (finner f)))
                  (gread (w_groups w) (f_groups (finner f))) (f_extras (finner f)) l) as Ck.
    destruct (add_attributes lapp std n _ l) as [[c ok]|] eqn:El.
    2: { destruct Ck as [Ck _]. rewrite Ck in S. discriminate. }
    destruct Ck as [Ck1 Ck2]. destruct (Ck1 (or_make (w_prefix w) (f_prefix (finner f)) lenPrefix)) as (st1 & Ck).
    rewrite Ck in S. cbn [c_buffer new_composer] in S.
    pose proof (prefix_extend (w_prefix w) pe i e1 _ (c_buffer c) Op N1 S1 U1') as Op'.
    destruct (gappends NUL grow (or_make (w_prefix w) (f_prefix (finner f)) lenPrefix) (c_buffer c)) as [ph ps] eqn:Ep.
    injection S as <-.
    pose proof (groups_extend (w_groups w) ge i e2 _ [] Og N2 S2 U2' Q') as Og'.
    change (gappends (nil : bytes) grow (w_groups w, f_groups (finner f)) []) with (w_groups w, f_groups (finner f)) in Og'.
    cbv iota beta in Og'. cbn [concat] in Og'.
    pose proof (fun t => or_make_all (w_suffix w) (f_suffix (finner f)) t) as Ao.
    pose proof (or_make_new (w_suffix w) (f_suffix (finner f)) Al) as An.
    rewrite Es in Ao, An. cbn [fst snd] in Ao, An. destruct An as [An Rn].
    match goal with |- inv _ ?W =>
      eapply (inv_step es w (From i (WithAttrs l)) W _ (extend_path p (WithAttrs l)) i _ _ _ _ pe ge L Op Og Lp Lg G P eq_refl Fr Op' Og' eq_refl eq_refl) end.
    + intros f0 I. cbn [w_suffix]. apply Ao. auto.
    + exact An.
    + intros Pos. specialize (Q Pos).
      pose proof (proj1 Op' {| e_slice := ps; e_value := gread (w_prefix w) (f_prefix (finner f)) ++ concat (c_buffer c); e_used := false |}) as X.
      destruct X as [Wx Rx]; [apply in_or_app; right; left; reflexivity|]. cbn in Wx, Rx.
      apply gread_len in Wx. rewrite Rx, app_length, (gread_len _ _ W1) in Wx. lia.
    + exact Q'.
    + cbn. intros h [<-|[]]. auto.
    + intros Old. rewrite (of_path_extend p _ _ D). cbn [step with_attrs_hdl]. unfold with_attrs_hdl, with_attrs.
      rewrite inner_view. cbn [h_prefix h_groups h_options h_extras h_suffix fview]. fold st.
      destruct (Ck2 (gread (w_prefix w) (f_prefix (finner f)))) as (st2 & Ck'). rewrite Ck'. cbn [c_buffer new_composer].
      cbn [fview_hdl]. unfold fview. cbn [f_options f_extras f_prefix f_suffix f_groups w_prefix w_suffix w_groups].
      rewrite Rn. 
      pose proof (owned_read _ _ _ _ _ Op' (nth_last _ _)) as Rp. cbn [e_slice e_value] in Rp. rewrite Rp. reflexivity.
  - (* WithGroup *)
    injection S as <-. unfold fwith_group. destruct name as [|ch name].
    { (* no name: the handler itself *)
      pose proof (groups_extend (w_groups w) ge i e2 _ [] Og N2 S2 U2' Q') as Og'.
      change (gappends (nil : bytes) grow (w_groups w, f_groups (finner f)) []) with (w_groups w, f_groups (finner f)) in Og'.
      cbv iota beta in Og'. cbn [concat] in Og'.
      assert (Op' : owned (w_prefix w) (use pe i ++ [{| e_slice := f_prefix (finner f);
                 e_value := gread (w_prefix w) (f_prefix (finner f)); e_used := false |}])).
      { destruct (Nat.eq_dec (sl_len (f_prefix (finner f))) 0) as [Z|Z].
        - rewrite read_zero by auto. apply owned_empty; auto. apply owned_use. exact Op.
        - pose proof (owned_extend _ NUL grow (w_prefix w) pe i e1 [] Op N1 (U1' ltac:(lia))) as X.
          rewrite S1 in X. specialize (X ltac:(lia)).
          change (gappends NUL grow (w_prefix w, f_prefix (finner f)) []) with (w_prefix w, f_prefix (finner f)) in X.
          cbv iota beta in X. cbn [concat] in X. rewrite app_nil_r in X.
          rewrite <- S1 at 2. rewrite (owned_read _ _ _ _ _ Op N1). exact X. }
      match goal with |- inv _ ?W =>
      eapply (inv_step es w _ W _ (extend_path p (WithGroup [])) i _ _ _ _ pe ge L Op Og Lp Lg G P eq_refl Fr Op' Og' eq_refl eq_refl) end.
      - exact AllS.
      - exact Al.
      - exact Q.
      - exact Q'.
      - cbn. intros h [<-|[]]. auto.
      - intros Old. rewrite (of_path_extend p _ _ D). cbn [step with_group_hdl]. rewrite inner_view. reflexivity. }
    set (nm := ch :: name) in *. cbn [h_prefix fview].
    set (start := match gread (w_prefix w) (f_prefix (finner f)) with [] => [] | _ => _ end).
    pose proof (prefix_extend (w_prefix w) pe i e1 _ [start ++ [quote] ++ nm ++ [quote] ++ B ": {"] Op N1 S1 U1') as Op'.
    change (gappends NUL grow (or_make (w_prefix w) (f_prefix (finner f)) lenPrefix) [start ++ [quote] ++ nm ++ [quote] ++ B ": {"])
      with (bapp grow (or_make (w_prefix w) (f_prefix (finner f)) lenPrefix) (start ++ [quote] ++ nm ++ [quote] ++ B ": {")) in Op'.
    destruct (bapp grow (or_make (w_prefix w) (f_prefix (finner f)) lenPrefix) (start ++ [quote] ++ nm ++ [quote] ++ B ": {")) as [ph ps] eqn:Ep.
    cbn [concat] in Op'. rewrite app_nil_r in Op'.
    assert (Og' : exists v2, let (gh, gs) := match o_replace (f_options (finner f)) with
                    | None => (w_groups w, nil_slice)
                    | Some _ => gappend (nil : bytes) grow (w_groups w) (f_groups (finner f)) [nm]
                    end in
      owned gh (use ge i ++ [{| e_slice := gs; e_value := v2; e_used := false |}]) /\
      (sl_len gs = 0 -> gs = nil_slice) /\
      v2 = match o_replace (f_options (finner f)) with None => [] | Some _ => gread (w_groups w) (f_groups (finner f)) ++ [nm] end).
    { destruct (o_replace (f_options (finner f))) as [rep|].
      - eexists. pose proof (groups_extend (w_groups w) ge i e2 _ [[nm]] Og N2 S2 U2' Q') as X.
        change (gappends (nil : bytes) grow (w_groups w, f_groups (finner f)) [[nm]]) with
          (gappend (nil : bytes) grow (w_groups w) (f_groups (finner f)) [nm]) in X.
        destruct (gappend (nil : bytes) grow (w_groups w) (f_groups (finner f)) [nm]) as [gh gs]. cbn [concat] in X.
        rewrite app_nil_r in X. split; [exact X|]. split; [|reflexivity].
        intros Z. destruct (owned_last _ _ _ X) as [Wx Rx]. cbn in Wx, Rx.
        apply gread_len in Wx. rewrite Rx, app_length in Wx. cbn in Wx. lia.
      - exists []. split; [|auto]. apply owned_empty; [apply owned_use; exact Og|apply wf_nil|reflexivity]. }
    destruct Og' as (v2 & Og'). destruct (match o_replace (f_options (finner f)) with None => _ | Some _ => _ end) as [gh gs].
    destruct Og' as (Og' & Z' & V2).
    pose proof (fun t => or_make_all (w_suffix w) (f_suffix (finner f)) t) as Ao.
    set (sh0 := fst (or_make (w_suffix w) (f_suffix (finner f)) lenSuffix)) in *.
    pose proof (all_c_append _ NUL grow brace sh0 (f_suffix (finner f))) as Aa.
    pose proof (all_c_result _ NUL grow brace sh0 (f_suffix (finner f)) (Ao _ Al)) as Ar.
    change (B "}") with [brace].
    destruct (gappend NUL grow sh0 (f_suffix (finner f)) [brace]) as [sh ss] eqn:Es. cbn [fst] in Aa. destruct Ar as [Ar Rr].
    assert (Rs : gread sh0 (f_suffix (finner f)) = gread (w_suffix w) (f_suffix (finner f))).
    { destruct (Ao _ Al) as [_ X]. destruct Al as [_ Y]. congruence. }
    match goal with |- inv _ ?W =>
      eapply (inv_step es w _ W _ (extend_path p (WithGroup nm)) i _ _ _ _ pe ge L Op Og Lp Lg G P eq_refl Fr Op' Og' eq_refl eq_refl) end.
    + intros f0 I. cbn [w_suffix]. apply Aa; auto.
    + exact Ar.
    + intros _.
      destruct (owned_last _ _ _ Op') as [Wx Rx]. cbn [e_slice e_value] in Wx, Rx.
      apply gread_len in Wx. rewrite Rx, !app_length in Wx. cbn in Wx. lia.
    + exact Z'.
    + cbn [chain finner]. intros h [<-|I]; [auto|]. right. auto.
    + intros Old. rewrite (of_path_extend p _ _ D). cbn [step with_group_hdl]. unfold nm. cbn [with_group_hdl]. fold nm.
      cbn [fview_hdl]. rewrite Old by (eapply nth_error_In; eauto). f_equal. f_equal.
      unfold with_group. rewrite inner_view. cbn [h_prefix h_groups h_options h_extras h_suffix fview]. fold start.
      unfold fview. cbn [f_options f_extras f_prefix f_suffix f_groups w_prefix w_suffix w_groups].
      pose proof (owned_read _ _ _ _ _ Op' (nth_last _ _)) as Rp. cbn [e_slice e_value] in Rp. rewrite Rp.
      pose proof (owned_read _ _ _ _ _ Og' (nth_last _ _)) as Rg. cbn [e_slice e_value] in Rg. rewrite Rg, V2.
      rewrite Rr, Rs. reflexivity.
Qed.

Lemma frun_snoc es : forall w e, frun std grow n w (es ++ [e]) =
  match frun std grow n w es with None => None | Some w' => fstep std grow n w' e end.
Proof.
  induction es as [|e' es IH]; intros w e; cbn.
  - destruct (fstep std grow n w e); reflexivity.
  - destruct (fstep std grow n w e'); auto.
Qed.

Lemma once_earlier es e : once std (es ++ [e]) -> once std es.
Proof.
  intros On i p N H. apply (On i p); [apply paths_kept; exact N|]. rewrite derivations_snoc. lia.
Qed.

Theorem frun_inv es : forall w, once std es -> frun std grow n empty_world es = Some w -> inv es w.
Proof.
  induction es as [|e es IH] using rev_ind; intros w On R.
  - cbn in R. injection R as <-. split; [reflexivity|]. exists [], [].
    repeat (split; [first [apply owned_nil|reflexivity]|]). intros [|i] f p N; discriminate.
  - rewrite frun_snoc in R. destruct (frun std grow n empty_world es) as [w0|]; [|discriminate].
    apply (step_inv es w0); auto. apply IH; auto. eapply once_earlier; eauto.
Qed.

(** Every handler is as if it had been derived alone. *)
Theorem independent es w : once std es -> frun std grow n empty_world es = Some w ->
  forall i f p, nth_error (w_tbl w) i = Some f -> nth_error (paths es) i = Some p ->
  of_path std n p = Some (fview_hdl w f).
Proof.
  intros On R i f p N Np. destruct (frun_inv es w On R) as (_ & pe & ge & _ & _ & _ & _ & G).
  apply (G i f p N Np).
Qed.

Theorem table_length es w : once std es -> frun std grow n empty_world es = Some w ->
  length (w_tbl w) = length (paths es).
Proof. intros On R. apply (frun_inv es w On R). Qed.

End Proofs.
