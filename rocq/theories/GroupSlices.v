(** The groups slices of a history of derivations, common to flash and sloggy. *)

From Coq Require Import Ascii String List ZArith NArith Bool Arith Lia.
From Verif Require Import Bytes Slog Flash History HistoryProofs Slices.
Import ListNotations.

(** No group of a handler's groups is opened twice, except outermost ones. *)
Definition narrow (es : list event) : Prop :=
  forall k p, nth_error (paths es) k = Some p -> 2 <= openings k es -> names (p_ops p) = [].

Section Machine.
Variable grow : policy.
(** Whether handlers with these options keep group names. *)
Variable active : options -> bool.

(** [groups = append(h.groups, name)] (flash/handler.go 180-184,
    sloggy/handler.go 147) or nil, and [groups: h.groups]. *)
Definition gstep (m : heap bytes * list (gslice * options)) (e : event) : heap bytes * list (gslice * options) :=
  let (h, tbl) := m in
  match e with
  | New o _ => (h, tbl ++ [(nil_slice, o)])
  | From i op =>
    match nth_error tbl i with
    | None => (h, tbl)
    | Some (s, o) =>
      match op with
      | WithGroup (c :: n) =>
          if active o then
            let (h', s') := gappend (nil : bytes) grow h s (@cons bytes (c :: n) nil) in (h', tbl ++ [(s', o)])
          else (h, tbl ++ [(nil_slice, o)])
      | _ => (h, tbl ++ [(s, o)])
      end
    end
  end.

Definition grun (es : list event) : heap bytes * list (gslice * options) := fold_left gstep es ([], []).

Lemma grun_snoc es e : grun (es ++ [e]) = gstep (grun es) e.
Proof. unfold grun. rewrite fold_left_app. reflexivity. Qed.

Lemma opens_more os l k e : opens os k e = true -> opens (os ++ l) k e = true.
Proof.
  destruct e as [o x|i [a|[|c n]]]; cbn; auto. destruct (nth_error os i) eqn:E; [|discriminate].
  rewrite nth_error_app1, E; auto. apply nth_error_Some. congruence.
Qed.

Lemma filter_more {A} (f g : A -> bool) l : (forall x, f x = true -> g x = true) ->
  length (filter f l) <= length (filter g l).
Proof.
  intros H. induction l as [|x l IH]; cbn; [lia|]. specialize (H x).
  destruct (f x); [rewrite H by auto; cbn; lia|]. destruct (g x); cbn; lia.
Qed.

Lemma origins_more es e : exists l, origins (es ++ [e]) = origins es ++ l.
Proof.
  rewrite origins_snoc. destruct e as [o x|i o]; cbn; [eauto|].
  destruct (nth_error (origins es) i); [eauto|exists []; rewrite app_nil_r; reflexivity].
Qed.

Lemma openings_snoc k es e :
  openings k es + (if opens (origins es) k e then 1 else 0) <= openings k (es ++ [e]).
Proof.
  unfold openings. destruct (origins_more es e) as (l & ->). rewrite filter_app, app_length.
  pose proof (filter_more _ _ es (fun x => opens_more (origins es) l k x)).
  assert ((if opens (origins es) k e then 1 else 0) <= length (filter (opens (origins es ++ l) k) [e])).
  { destruct (opens (origins es) k e) eqn:E; [|lia]. cbn. rewrite (opens_more _ _ _ _ E). cbn. lia. }
  lia.
Qed.

Lemma narrow_earlier es e : narrow (es ++ [e]) -> narrow es.
Proof.
  intros N k p H L. apply (N k p); [apply paths_kept; exact H|]. pose proof (openings_snoc k es e). lia.
Qed.

Definition kept_names (p : path) : list bytes :=
  if active (p_options p) then names (p_ops p) else [].

Definition ginv (es : list event) (m : heap bytes * list (gslice * options)) : Prop :=
  let (h, tbl) := m in
  length tbl = length (paths es) /\ length (origins es) = length (paths es) /\
  exists ge, owned h ge /\ length ge = length tbl /\
  forall i s o p, nth_error tbl i = Some (s, o) -> nth_error (paths es) i = Some p ->
    o = p_options p /\ gread h s = kept_names p /\ (sl_len s = 0 -> s = nil_slice) /\
    exists k e, nth_error (origins es) i = Some k /\ nth_error (origins es) k = Some k /\
      (exists p', nth_error (paths es) k = Some p' /\ kept_names p' = kept_names p /\ p_options p' = p_options p) /\
      nth_error ge k = Some e /\ e_slice e = s /\
      (exists ei, nth_error ge i = Some ei /\ e_slice ei = s) /\
      (e_used e = true -> 1 <= openings k es).

Lemma gread_length {T} (h : heap T) s : wf h s -> length (gread h s) = sl_len s.
Proof. intros [L A]. unfold gread. rewrite firstn_length. destruct A as [A|[_ A]]; lia. Qed.

Lemma names_snoc ops o : names (ops ++ [o]) = names ops ++ match o with WithGroup (c :: n) => [c :: n] | _ => [] end.
Proof. unfold names. rewrite flat_map_app. cbn. rewrite app_nil_r. reflexivity. Qed.

(** Adding handler number [length tbl]. *)
Lemma ginv_add es e h tbl h' s' o' p' u k' (ge ge' : list (entry bytes)) en :
  ginv es (h, tbl) -> owned h ge -> length ge = length tbl ->
  (forall i s o p, nth_error tbl i = Some (s, o) -> nth_error (paths es) i = Some p ->
    o = p_options p /\ gread h s = kept_names p /\ (sl_len s = 0 -> s = nil_slice) /\
    exists k e, nth_error (origins es) i = Some k /\ nth_error (origins es) k = Some k /\
      (exists p', nth_error (paths es) k = Some p' /\ kept_names p' = kept_names p /\ p_options p' = p_options p) /\
      nth_error ge k = Some e /\ e_slice e = s /\
      (exists ei, nth_error ge i = Some ei /\ e_slice ei = s) /\
      (e_used e = true -> 1 <= openings k es)) ->
  paths (es ++ [e]) = paths es ++ [p'] ->
  origins (es ++ [e]) = origins es ++ [k'] ->
  ge' = use ge u ++ [en] -> owned h' ge' ->
  (u < length tbl -> nth_error (origins es) u = Some u -> opens (origins es) u e = true) ->
  e_slice en = s' -> e_value en = kept_names p' -> o' = p_options p' -> (sl_len s' = 0 -> s' = nil_slice) ->
  (k' = length tbl /\ e_used en = false \/
   exists e0, nth_error (origins es) k' = Some k' /\ nth_error ge k' = Some e0 /\ e_slice e0 = s' /\
     (exists pk, nth_error (paths es) k' = Some pk /\ kept_names pk = kept_names p' /\ p_options pk = p_options p') /\
     (e_used e0 = true -> 1 <= openings k' es)) ->
  ginv (es ++ [e]) (h', tbl ++ [(s', o')]).
Proof.
  intros [L [Lo _]] Ow Lg G P Or -> Ow' Op Es Ev Eo Z K.
  assert (Lu : length (use ge u) = length tbl) by (rewrite use_length; exact Lg).
  cbn. split; [rewrite P, !app_length; cbn; lia|]. split; [rewrite P, Or, !app_length; cbn; lia|].
  exists (use ge u ++ [en]). split; [exact Ow'|]. split; [rewrite !app_length; cbn; lia|].
  assert (Used : forall k x, nth_error ge k = Some x -> nth_error (origins es) k = Some k ->
    (e_used x = true -> 1 <= openings k es) ->
    exists x', nth_error (use ge u ++ [en]) k = Some x' /\ e_slice x' = e_slice x /\ e_value x' = e_value x /\
      (e_used x' = true -> 1 <= openings k (es ++ [e]))).
  { intros k x Nx Ok Ux. rewrite nth_error_app1 by (rewrite use_length; apply nth_error_Some; congruence).
    rewrite use_nth, Nx. pose proof (openings_snoc k es e) as Sn.
    assert (k < length tbl) by (rewrite <- Lg; apply nth_error_Some; congruence).
    destruct (Nat.eqb_spec u k) as [->|Ne]; eexists; (split; [reflexivity|]); repeat (split; [reflexivity|]).
    - intros _. rewrite (Op H Ok) in Sn. lia.
    - intros Hx. specialize (Ux Hx). lia. }
  intros i s o p Ni Np. rewrite P in Np. apply nth_snoc in Ni as [Ni|[-> E]].
  - assert (Li : i < length tbl) by (apply nth_error_Some; congruence).
    apply nth_snoc in Np as [Np|[-> _]]; [|lia].
    destruct (G i s o p Ni Np) as (Q1 & Q2 & Q3 & k & x & O1 & O2 & (pk & P1 & P2) & N1 & S1 & (ei & N2 & S2) & U1).
    destruct (Used k x N1 O2 U1) as (x' & Nx' & Sx' & Vx' & Ux').
    assert (N2' : exists ei', nth_error (use ge u ++ [en]) i = Some ei' /\ e_slice ei' = e_slice ei).
    { rewrite nth_error_app1 by lia. rewrite use_nth, N2. destruct (Nat.eqb u i); eauto. }
    destruct N2' as (ei' & N2' & S2').
    split; [exact Q1|]. split.
    { (* the contents are unchanged *)
      rewrite <- Q2. assert (Hv : gread h s = e_value x).
      { rewrite <- S1. apply (owned_read _ _ _ _ _ Ow N1). }
      rewrite Hv, <- Vx'. replace s with (e_slice x') by congruence. apply (owned_read _ _ _ _ _ Ow' Nx'). }
    split; [exact Q3|]. exists k, x'. rewrite Or, P.
    split; [apply nth_old; exact O1|]. split; [apply nth_old; exact O2|].
    split; [exists pk; split; [apply nth_old; exact P1|exact P2]|].
    split; [exact Nx'|]. split; [congruence|]. split; [exists ei'; split; [exact N2'|congruence]|exact Ux'].
  - injection E as -> ->. apply nth_snoc in Np as [Np|[_ ->]].
    { assert (length tbl < length (paths es)) by (apply nth_error_Some; congruence). lia. }
    split; [exact Eo|]. split.
    { rewrite <- Ev, <- Es. apply (owned_read _ _ (use ge u ++ [en]) (length tbl)); auto. rewrite <- Lu. apply nth_last. }
    split; [exact Z|]. rewrite Or, P.
    assert (Last : nth_error (use ge u ++ [en]) (length tbl) = Some en) by (rewrite <- Lu; apply nth_last).
    destruct K as [[-> Un]|(e0 & O1 & N0 & S0 & (pk & P1 & P2) & U0)].
    + exists (length tbl), en. assert (X : nth_error (origins es ++ [length tbl]) (length tbl) = Some (length tbl)).
      { rewrite L, <- Lo. apply nth_last. }
      split; [exact X|]. split; [exact X|].
      split; [exists p'; split; [rewrite L; apply nth_last|auto]|].
      split; [exact Last|]. split; [exact Es|]. split; [exists en; auto|]. rewrite Un. discriminate.
    + destruct (Used k' e0 N0 O1 U0) as (x' & Nx' & Sx' & _ & Ux'). exists k', x'.
      split; [rewrite L, <- Lo; apply nth_last|]. split; [apply nth_old; exact O1|].
      split; [exists pk; split; [apply nth_old; exact P1|exact P2]|].
      split; [exact Nx'|]. split; [congruence|]. split; [exists en; auto|exact Ux'].
Qed.

Lemma use_outside {T} (l : list (entry T)) : forall i, length l <= i -> use l i = l.
Proof. induction l as [|e l IH]; intros [|i] H; cbn in *; auto; [lia|]. rewrite IH by lia. reflexivity. Qed.

Lemma gstep_inv es e m : ginv es m -> narrow (es ++ [e]) -> ginv (es ++ [e]) (gstep m e).
Proof.
  destruct m as [h tbl]. intros I N. pose proof I as (L & Lo & ge & Ow & Lg & G). destruct e as [o x|i op]; cbn [gstep].
  { eapply (ginv_add es (New o x) h tbl h nil_slice o {| p_options := o; p_extras := x; p_ops := [] |} (length tbl) (length tbl) ge _
      {| e_slice := nil_slice; e_value := []; e_used := false |} I Ow Lg G); try reflexivity.
    - apply paths_snoc.
    - rewrite origins_snoc. cbn. congruence.
    - rewrite use_outside by lia. apply owned_empty; auto. apply wf_nil.
    - lia.
    - unfold kept_names. cbn. destruct (active o); reflexivity.
    - left. auto. }
  destruct (nth_error tbl i) as [[s o]|] eqn:Ni.
  2: { assert (Np : nth_error (paths es) i = None).
       { apply nth_error_None. apply nth_error_None in Ni. lia. }
       assert (No : nth_error (origins es) i = None).
       { apply nth_error_None. apply nth_error_None in Np. lia. }
       assert (P : paths (es ++ [From i op]) = paths es) by (rewrite paths_snoc; cbn; rewrite Np; reflexivity).
       assert (O : origins (es ++ [From i op]) = origins es) by (rewrite origins_snoc; cbn; rewrite No; reflexivity).
       split; [rewrite P; exact L|]. split; [rewrite P, O; exact Lo|]. exists ge. split; [exact Ow|]. split; [exact Lg|].
       rewrite P, O. intros i0 s o p Ni0 Np0.
       destruct (G i0 s o p Ni0 Np0) as (Q1 & Q2 & Q3 & k & x & O1 & O2 & Q4 & N1 & S1 & Q5 & U1).
       split; [exact Q1|]. split; [exact Q2|]. split; [exact Q3|]. exists k, x. repeat (split; [assumption|]).
       intros U. specialize (U1 U). pose proof (openings_snoc k es (From i op)). lia. }
  assert (Li : i < length tbl) by (apply nth_error_Some; congruence).
  assert (exists p, nth_error (paths es) i = Some p) as (p & Np).
  { destruct (nth_error (paths es) i) eqn:E; eauto. apply nth_error_None in E. lia. }
  destruct (G i s o p Ni Np) as (Q1 & Q2 & Q3 & k & x & O1 & O2 & (pk & P1 & P2 & P3) & N1 & S1 & (ei & N2 & S2) & U1).
  assert (P : paths (es ++ [From i op]) = paths es ++ [extend_path p op]).
  { rewrite paths_snoc. cbn. rewrite Np. reflexivity. }
  assert (O : origins (es ++ [From i op]) = origins es ++
              [match op with WithGroup (_ :: _) => length (origins es) | _ => k end]).
  { rewrite origins_snoc. cbn. rewrite O1. reflexivity. }
  (* a handler with the same groups *)
  assert (Same : names (p_ops (extend_path p op)) = names (p_ops p) ->
    match op with WithGroup (_ :: _) => length (origins es) | _ => k end = k ->
    ginv (es ++ [From i op]) (h, tbl ++ [(s, o)])).
  { intros En Ek. rewrite Ek in O.
    assert (Kn : kept_names (extend_path p op) = kept_names p).
    { unfold kept_names. rewrite En. reflexivity. }
    eapply (ginv_add es (From i op) h tbl h s o (extend_path p op) (length tbl) k ge _
      {| e_slice := e_slice x; e_value := e_value x; e_used := true |} I Ow Lg G P O); try reflexivity.
    - rewrite use_outside by lia. apply (owned_copy _ _ _ _ _ Ow N1).
    - lia.
    - exact S1.
    - cbn. rewrite Kn, <- Q2, <- S1. symmetry. apply (owned_read _ _ _ _ _ Ow N1).
    - exact Q1.
    - exact Q3.
    - right. exists x. split; [exact O2|]. split; [exact N1|]. split; [exact S1|]. split; [|exact U1].
      exists pk. split; [exact P1|]. split; [congruence|exact P3]. }
  destruct op as [l|[|c nm]].
  - apply Same; [|reflexivity]. cbn [p_ops extend_path]. rewrite names_snoc, app_nil_r. reflexivity.
  - apply Same; [|reflexivity]. cbn [p_ops extend_path]. rewrite names_snoc, app_nil_r. reflexivity.
  - clear Same. destruct (active o) eqn:Ac.
    + assert (Opn : opens (origins es) k (From i (WithGroup (c :: nm))) = true).
      { cbn. rewrite O1. apply Nat.eqb_refl. }
      assert (Wx : wf h s) by (rewrite <- S1; apply Ow; eapply nth_error_In; eauto).
      assert (Kp : kept_names p = names (p_ops p)) by (unfold kept_names; rewrite <- Q1, Ac; reflexivity).
      assert (Ux : sl_len s > 0 -> e_used x = false).
      { intros Pos. destruct (e_used x) eqn:E; [|reflexivity]. exfalso. specialize (U1 eq_refl).
        pose proof (openings_snoc k es (From i (WithGroup (c :: nm)))) as Sn. rewrite Opn in Sn.
        assert (En : names (p_ops pk) = []).
        { apply (N k pk); [rewrite P; apply nth_old; exact P1|lia]. }
        assert (Kk : kept_names pk = []) by (unfold kept_names; rewrite En; destruct (active (p_options pk)); reflexivity).
        apply gread_length in Wx. rewrite Q2, <- P2, Kk in Wx. cbn in Wx. lia. }
      assert (Ow' : let (h', s') := gappend (nil : bytes) grow h s (@cons bytes (c :: nm) nil) in
        owned h' (use ge k ++ [{| e_slice := s'; e_value := gread h s ++ [c :: nm]; e_used := false |}])).
      { destruct (Nat.eq_dec (sl_len s) 0) as [Zs|Zs].
        - assert (Rn : gread h s = (nil : list bytes)) by (unfold gread; rewrite Zs; reflexivity).
          rewrite Rn, (Q3 Zs).
          pose proof (owned_nil_extend _ (nil : bytes) grow h (use ge k) (@cons (list bytes) (@cons bytes (c :: nm) nil) nil) (owned_use _ _ _ _ Ow)) as X.
          change (gappends (nil : bytes) grow (h, nil_slice) (@cons (list bytes) (@cons bytes (c :: nm) nil) nil)) with (gappend (nil : bytes) grow h nil_slice (@cons bytes (c :: nm) nil)) in X.
          cbn [concat] in X. rewrite app_nil_r in X. exact X.
        - pose proof (owned_extend _ (nil : bytes) grow h ge k x (@cons (list bytes) (@cons bytes (c :: nm) nil) nil) Ow N1 (Ux ltac:(lia))) as X.
          rewrite S1 in X. specialize (X ltac:(lia)).
          change (gappends (nil : bytes) grow (h, s) (@cons (list bytes) (@cons bytes (c :: nm) nil) nil)) with (gappend (nil : bytes) grow h s (@cons bytes (c :: nm) nil)) in X.
          cbn [concat] in X. rewrite app_nil_r in X.
          rewrite <- (owned_read _ _ _ _ _ Ow N1), S1 in X. exact X. }
      destruct (gappend (nil : bytes) grow h s (@cons bytes (c :: nm) nil)) as [h' s'].
      eapply (ginv_add es (From i (WithGroup (c :: nm))) h tbl h' s' o (extend_path p (WithGroup (c :: nm))) k _ ge _ _ I Ow Lg G P O eq_refl Ow');
        try reflexivity; auto.
      * cbn [e_value]. rewrite Q2. unfold kept_names. cbn [p_options extend_path p_ops]. rewrite <- Q1, Ac, names_snoc. reflexivity.
      * intros Z. exfalso. destruct Ow' as [Ow' _].
        destruct (Ow' {| e_slice := s'; e_value := gread h s ++ [c :: nm]; e_used := false |}) as [W R].
        { apply in_or_app. right. left. reflexivity. }
        cbn in W, R. apply gread_length in W. rewrite R, app_length in W. cbn in W. lia.
      * left. split; [lia|reflexivity].
    + eapply (ginv_add es (From i (WithGroup (c :: nm))) h tbl h nil_slice o (extend_path p (WithGroup (c :: nm))) (length tbl) _ ge _
        {| e_slice := nil_slice; e_value := []; e_used := false |} I Ow Lg G P O eq_refl); try reflexivity; auto.
      * rewrite use_outside by lia. apply owned_empty; auto. apply wf_nil.
      * lia.
      * cbn [e_value]. unfold kept_names. cbn [p_options extend_path]. rewrite <- Q1, Ac. reflexivity.
      * left. split; [lia|reflexivity].
Qed.

Lemma grun_inv es : narrow es -> ginv es (grun es).
Proof.
  induction es as [|e es IH] using rev_ind; intros N.
  - cbn. split; [reflexivity|]. split; [reflexivity|]. exists []. split; [apply owned_nil|]. split; [reflexivity|].
    intros [|i] s o p H; discriminate.
  - rewrite grun_snoc. apply gstep_inv; auto. apply IH. eapply narrow_earlier; eauto.
Qed.

Theorem groups_right es : narrow es -> forall i s o p,
  nth_error (snd (grun es)) i = Some (s, o) -> nth_error (paths es) i = Some p ->
  gread (fst (grun es)) s = if active (p_options p) then names (p_ops p) else [].
Proof.
  intros N i s o p Ni Np. pose proof (grun_inv es N) as I. destruct (grun es) as [h tbl].
  destruct I as (_ & _ & ge & _ & _ & G). apply (G i s o p Ni Np).
Qed.

(** ** Siblings *)

(** If there is room behind the groups of a handler, opening a second group in
    it changes the name of the first. *)
Theorem groups_overwritten (h : heap bytes) s a b : wf h s -> sl_len s < sl_cap s ->
  let (h1, s1) := gappend (nil : bytes) grow h s [a] in
  let (h2, s2) := gappend (nil : bytes) grow h1 s [b] in
  gread h1 s1 = gread h s ++ [a] /\ gread h2 s1 = gread h s ++ [b] /\ gread h2 s2 = gread h s ++ [b].
Proof.
  intros W L. pose proof (append_ok bytes [] grow h s [a] W) as H1.
  assert (E1 : snd (gappend (nil : bytes) grow h s [a]) = {| sl_arr := sl_arr s; sl_len := sl_len s + 1; sl_cap := sl_cap s |}).
  { unfold gappend. cbn [length]. destruct (Nat.leb_spec (sl_len s + 1) (sl_cap s)); [reflexivity|lia]. }
  destruct (gappend (nil : bytes) grow h s [a]) as [h1 s1]. cbn in E1. destruct H1 as (W1 & R1 & K1 & A1).
  assert (W' : wf h1 s).
  { destruct W1 as [_ W1]. subst s1. cbn in *. split; [lia|exact W1]. }
  pose proof (append_ok bytes [] grow h1 s [b] W') as H2.
  assert (E2 : snd (gappend (nil : bytes) grow h1 s [b]) = {| sl_arr := sl_arr s; sl_len := sl_len s + 1; sl_cap := sl_cap s |}).
  { unfold gappend. cbn [length]. destruct (Nat.leb_spec (sl_len s + 1) (sl_cap s)); [reflexivity|lia]. }
  destruct (gappend (nil : bytes) grow h1 s [b]) as [h2 s2]. cbn in E2. destruct H2 as (W2 & R2 & K2 & A2).
  assert (Rs : gread h1 s = gread h s).
  { unfold gread, array. destruct W as [Lw W]. destruct W as [W|[Wa _]]; [lia|].
    destruct K1 as [_ K1]. destruct (K1 _ Wa) as [_ K]. apply K. left. lia. }
  split; [exact R1|]. rewrite Rs in R2. split; [|exact R2]. subst s1 s2. exact R2.
Qed.

End Machine.
