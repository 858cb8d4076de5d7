(** Rules for the preferred match of a pattern, where several are possible. *)

From Coq Require Import Ascii String List Bool Arith Lia.
From Verif Require Import Bytes BytesProofs Regex RegexProofs.
Import ListNotations.

Definition St (caps : list (nat * bytes)) (prev : option ascii) (rest : bytes) : mstate :=
  {| m_caps := caps; m_prev := prev; m_rest := rest |}.

(** The preferred match of [b], whatever came before: submatches and rest. *)
Definition best (b : re) (caps : list (nat * bytes)) (rest : bytes) (o : option (list (nat * bytes) * bytes)) : Prop :=
  forall prev,
    match o with
    | Some (c', r') => exists p' l, ms b (St caps prev rest) = St c' p' r' :: l
    | None => ms b (St caps prev rest) = []
    end.

Lemma best_done caps s : best REmpty caps s (Some (caps, s)).
Proof. intros prev. exists prev, []. reflexivity. Qed.

Lemma best_eol caps o : best REmpty caps [] o -> best (RSeq REol REmpty) caps [] o.
Proof. intros H prev. specialize (H prev). cbn in *. exact H. Qed.

Lemma best_not_eol caps c t : best (RSeq REol REmpty) caps (c :: t) None.
Proof. intros prev. reflexivity. Qed.

Lemma St_eq s : s = St (m_caps s) (m_prev s) (m_rest s).
Proof. destruct s; reflexivity. Qed.

(** A run in front of something that cannot start inside it. *)
Lemma best_run p b caps s o : rejects p b -> best b caps (skip p s) o -> best (RSeq (rstar (RChr p)) b) caps s o.
Proof.
  intros R H prev. rewrite ms_run_seq by exact R. rewrite (St_eq (eaten p _)), eaten_caps, eaten_rest.
  apply H.
Qed.

Lemma best_run1 p b caps s o : rejects p b ->
  (match s with c :: _ => if p c then best b caps (skip p s) o else o = None | [] => o = None end) ->
  best (RSeq (rplus (RChr p)) b) caps s o.
Proof.
  intros R H prev. rewrite ms_run1_seq by exact R. cbn [m_rest St]. destruct s as [|c t].
  - subst. reflexivity.
  - destruct (p c) eqn:E.
    + rewrite (St_eq (eaten p _)), eaten_caps, eaten_rest. apply H.
    + subst. reflexivity.
Qed.

(** A greedy run takes all it can if the rest then fits. *)
Lemma best_longest p b caps s x : best b caps (skip p s) (Some x) -> best (RSeq (rstar (RChr p)) b) caps s (Some x).
Proof.
  intros H prev. rewrite ms_seq, ms_run. destruct (hd_runs p caps s prev) as [l E].
  cbn [m_caps m_prev m_rest St]. rewrite E. cbn [flat_map].
  rewrite (St_eq (eat p caps prev s)), eat_caps, eat_rest. specialize (H (m_prev (eat p caps prev s))).
  destruct x as [c' r']. destruct H as (p' & l' & ->). exists p'. eexists. reflexivity.
Qed.

Lemma best_lit w b caps s o :
  (match strip_lit w s with Some r => best b caps r o | None => o = None end) -> best (RSeq (rlit w) b) caps s o.
Proof.
  intros H prev. rewrite ms_lit. cbn [m_rest St]. destruct (strip_lit w s) as [r|].
  - apply H.
  - subst. reflexivity.
Qed.

Lemma strip_app w r : strip_lit w (w ++ r) = Some r.
Proof. apply strip_lit_iff. reflexivity. Qed.

Lemma best_lit_app w b caps r o : best b caps r o -> best (RSeq (rlit w) b) caps (w ++ r) o.
Proof. intros H. apply best_lit. rewrite strip_app. exact H. Qed.

Lemma best_assoc a b c caps s o : best (RSeq a (RSeq b c)) caps s o -> best (RSeq (RSeq a b) c) caps s o.
Proof. intros H prev. rewrite ms_assoc. apply H. Qed.

Lemma best_opt_none a b caps s o : best (RSeq a b) caps s None -> best b caps s o -> best (RSeq (ropt a) b) caps s o.
Proof.
  intros H1 H2 prev. unfold ropt. rewrite ms_alt, ms_empty, (H1 prev). apply H2.
Qed.

Lemma best_opt_some a b caps s x : best (RSeq a b) caps s (Some x) -> best (RSeq (ropt a) b) caps s (Some x).
Proof.
  intros H prev. unfold ropt. rewrite ms_alt. specialize (H prev). destruct x as [c r]. destruct H as (p' & l & ->).
  exists p'. eexists. reflexivity.
Qed.

Lemma captured_St n t0 t caps prev prev' caps' :
  captured n (St caps prev (t0 ++ t)) (St caps' prev' t) = St ((n, t0) :: caps') prev' t.
Proof.
  unfold captured, St. cbn [m_rest m_caps m_prev]. do 3 f_equal.
  rewrite app_length, Nat.add_sub, firstn_app, Nat.sub_diag, firstn_O, app_nil_r. apply firstn_all.
Qed.

(** A lazy run takes the least with which the rest fits. *)
Lemma lazy_first p n b caps prev0 x r : forall t t0 prev,
  forallb p t = true -> best b ((n, t0 ++ t) :: caps) r (Some x) ->
  (forall t1 t2, t = t1 ++ t2 -> t2 <> [] -> best b ((n, t0 ++ t1) :: caps) (t2 ++ r) None) ->
  exists p' l, flat_map (fun s' => ms b (captured n (St caps prev0 (t0 ++ t ++ r)) s')) (lazy_runs p caps prev (t ++ r))
             = St (fst x) p' (snd x) :: l.
Proof.
  induction t as [|c t IH]; intros t0 prev F H1 H2.
  - cbn [app]. rewrite app_nil_r in H1. specialize (H1 prev). destruct x as [c' r']. destruct H1 as (p' & l & E).
    destruct r; cbn [lazy_runs flat_map]; fold (St caps prev []) in *.
    + rewrite (captured_St n t0 [] caps prev0 prev caps), E. exists p'. eexists. reflexivity.
    + match goal with |- context [captured n ?a {| m_caps := caps; m_prev := prev; m_rest := ?y |}] =>
        change {| m_caps := caps; m_prev := prev; m_rest := y |} with (St caps prev y) end.
      rewrite (captured_St n t0 _ caps prev0 prev caps), E. exists p'. eexists. reflexivity.
  - cbn [forallb] in F. apply andb_true_iff in F. destruct F as [Fc F].
    cbn [app lazy_runs flat_map]. rewrite Fc.
    change {| m_caps := caps; m_prev := prev; m_rest := c :: t ++ r |} with (St caps prev (c :: t ++ r)).
    rewrite captured_St.
    pose proof (H2 [] (c :: t) eq_refl ltac:(discriminate) prev) as E. rewrite app_nil_r in E. cbn [app] in E.
    rewrite E. cbn [app].
    specialize (IH (t0 ++ [c]) (Some c) F). rewrite <- app_assoc in IH. cbn [app] in IH.
    rewrite <- app_assoc in IH. cbn [app] in IH.
    apply IH; [exact H1|]. intros t1 t2 -> N. rewrite <- app_assoc. cbn [app].
    apply (H2 (c :: t1) t2); [reflexivity|exact N].
Qed.

Lemma best_lazy p n b caps t r x : forallb p t = true -> best b ((n, t) :: caps) r (Some x) ->
  (forall t1 t2, t = t1 ++ t2 -> t2 <> [] -> best b ((n, t1) :: caps) (t2 ++ r) None) ->
  best (RSeq (RGroup n (RStar false (RChr p))) b) caps (t ++ r) (Some x).
Proof.
  intros F H1 H2 prev. rewrite ms_group, ms_lazy. destruct x as [c' r'].
  exact (lazy_first p n b caps prev (c', r') r t [] prev F H1 H2).
Qed.

(** A lazy run with which nothing fits. *)
Lemma lazy_none p n b caps prev0 : forall s t0 prev,
  (forall t1 t2, s = t1 ++ t2 -> best b ((n, t0 ++ t1) :: caps) t2 None) ->
  flat_map (fun s' => ms b (captured n (St caps prev0 (t0 ++ s)) s')) (lazy_runs p caps prev s) = [].
Proof.
  induction s as [|c s IH]; intros t0 prev H.
  - cbn [lazy_runs flat_map]. fold (St caps prev []). rewrite captured_St.
    specialize (H [] [] eq_refl prev). rewrite app_nil_r in H. rewrite H. reflexivity.
  - cbn [lazy_runs flat_map].
    change {| m_caps := caps; m_prev := prev; m_rest := c :: s |} with (St caps prev (c :: s)).
    rewrite captured_St. pose proof (H [] (c :: s) eq_refl prev) as E. rewrite app_nil_r in E. rewrite E. cbn [app].
    destruct (p c); [|reflexivity].
    specialize (IH (t0 ++ [c]) (Some c)). rewrite <- app_assoc in IH. cbn [app] in IH. apply IH.
    intros t1 t2 ->. rewrite <- app_assoc. apply (H (c :: t1) t2). reflexivity.
Qed.

(** A greedy run in a group takes the most with which the rest fits. *)
Lemma greedy_none p n b caps prev0 : forall r t0 prev,
  (forall t1 t2, r = t1 ++ t2 -> forallb p t1 = true -> best b ((n, t0 ++ t1) :: caps) t2 None) ->
  flat_map (fun s' => ms b (captured n (St caps prev0 (t0 ++ r)) s')) (runs p caps prev r) = [].
Proof.
  induction r as [|c r IH]; intros t0 prev H.
  - cbn [runs flat_map]. fold (St caps prev []). rewrite captured_St.
    pose proof (H [] [] eq_refl eq_refl prev) as E. rewrite app_nil_r in E. rewrite E. reflexivity.
  - assert (E : forall q, ms b (St ((n, t0) :: caps) q (c :: r)) = []).
    { intros q. pose proof (H [] (c :: r) eq_refl eq_refl q) as E. rewrite app_nil_r in E. exact E. }
    cbn [runs]. change {| m_caps := caps; m_prev := prev; m_rest := c :: r |} with (St caps prev (c :: r)).
    destruct (p c) eqn:Pc.
    + rewrite flat_map_app. cbn [flat_map]. rewrite captured_St, E.
      specialize (IH (t0 ++ [c]) (Some c)). rewrite <- app_assoc in IH. cbn [app] in IH. rewrite IH; [reflexivity|].
      intros t1 t2 -> F. rewrite <- app_assoc. apply (H (c :: t1) t2); [reflexivity|]. cbn. rewrite Pc. exact F.
    + cbn [flat_map]. rewrite captured_St, E. reflexivity.
Qed.

Lemma greedy_first p n b caps prev0 x r : forall t t0 prev,
  forallb p t = true -> best b ((n, t0 ++ t) :: caps) r (Some x) ->
  (forall t1 t2, r = t1 ++ t2 -> t1 <> [] -> forallb p t1 = true -> best b ((n, t0 ++ t ++ t1) :: caps) t2 None) ->
  exists p' l, flat_map (fun s' => ms b (captured n (St caps prev0 (t0 ++ t ++ r)) s')) (runs p caps prev (t ++ r))
             = St (fst x) p' (snd x) :: l.
Proof.
  induction t as [|c t IH]; intros t0 prev F H1 H2.
  - cbn [app] in *. rewrite app_nil_r in H1. pose proof (H1 prev) as E. destruct x as [c' r'].
    destruct E as (p' & l & E). exists p'. destruct r as [|c r]; cbn [runs].
    + cbn [flat_map]. fold (St caps prev []). rewrite captured_St, E. eexists. reflexivity.
    + change {| m_caps := caps; m_prev := prev; m_rest := c :: r |} with (St caps prev (c :: r)).
      destruct (p c) eqn:Pc.
      * rewrite flat_map_app. cbn [flat_map]. rewrite captured_St, E.
        pose proof (greedy_none p n b caps prev0 r (t0 ++ [c]) (Some c)) as G.
        rewrite <- app_assoc in G. cbn [app] in G. rewrite G.
        -- eexists. reflexivity.
        -- intros t1 t2 -> F1. rewrite <- app_assoc. apply (H2 (c :: t1) t2); [reflexivity|discriminate|].
           cbn. rewrite Pc. exact F1.
      * cbn [flat_map]. rewrite captured_St, E. eexists. reflexivity.
  - cbn [forallb] in F. apply andb_true_iff in F. destruct F as [Fc F]. cbn [app runs]. rewrite Fc.
    specialize (IH (t0 ++ [c]) (Some c) F). rewrite <- !app_assoc in IH. cbn [app] in IH.
    destruct IH as (p' & l & E); [exact H1| |].
    + intros t1 t2 -> N F1. rewrite <- app_assoc. cbn [app]. apply H2; auto.
    + rewrite flat_map_app, E. exists p'. eexists. reflexivity.
Qed.

Lemma best_greedy p n b caps t r x : forallb p t = true -> best b ((n, t) :: caps) r (Some x) ->
  (forall t1 t2, r = t1 ++ t2 -> t1 <> [] -> forallb p t1 = true -> best b ((n, t ++ t1) :: caps) t2 None) ->
  best (RSeq (RGroup n (rstar (RChr p))) b) caps (t ++ r) (Some x).
Proof.
  intros F H1 H2 prev. rewrite ms_group, ms_run. destruct x as [c' r'].
  exact (greedy_first p n b caps prev (c', r') r t [] prev F H1 H2).
Qed.

Lemma best_greedy1 p n b caps t r x : t <> [] -> forallb p t = true -> best b ((n, t) :: caps) r (Some x) ->
  (forall t1 t2, r = t1 ++ t2 -> t1 <> [] -> forallb p t1 = true -> best b ((n, t ++ t1) :: caps) t2 None) ->
  best (RSeq (RGroup n (rplus (RChr p))) b) caps (t ++ r) (Some x).
Proof.
  intros N F H1 H2 prev. destruct t as [|c t]; [congruence|]. cbn [forallb] in F. apply andb_true_iff in F.
  destruct F as [Fc F]. rewrite ms_group. unfold rplus. rewrite ms_chr. cbn [m_rest St app]. rewrite Fc.
  change (RStar true (RChr p)) with (rstar (RChr p)). rewrite ms_run. cbn [adv m_caps m_prev m_rest St].
  destruct x as [c' r']. pose proof (greedy_first p n b caps prev (c', r') r t [c] (Some c) F H1 H2) as G.
  cbn [app fst snd] in G. exact G.
Qed.

Lemma best_greedy1_none p n b caps s : 
  (forall t1 t2, s = t1 ++ t2 -> t1 <> [] -> forallb p t1 = true -> best b ((n, t1) :: caps) t2 None) ->
  best (RSeq (RGroup n (rplus (RChr p))) b) caps s None.
Proof.
  intros H prev. rewrite ms_group. unfold rplus. rewrite ms_chr. cbn [m_rest St]. destruct s as [|c s]; [reflexivity|].
  destruct (p c) eqn:Pc; [|reflexivity]. change (RStar true (RChr p)) with (rstar (RChr p)). rewrite ms_run.
  cbn [adv m_caps m_prev m_rest St]. apply (greedy_none p n b caps prev s [c] (Some c)).
  intros t1 t2 -> F. apply (H (c :: t1) t2); [reflexivity|discriminate|]. cbn. rewrite Pc. exact F.
Qed.

(** Whitespace up to the end. *)
Definition tail : re := RSeq ws (RSeq REol REmpty).

Lemma rejects_space_eol : rejects is_space (RSeq REol REmpty).
Proof. intros s H. destruct s as [c p r]. cbn in *. destruct r; [destruct H|reflexivity]. Qed.

Lemma skip_all p s : skip p s = [] <-> forallb p s = true.
Proof.
  induction s as [|c s IH]; cbn; [tauto|]. destruct (p c); cbn; [exact IH|]. split; discriminate.
Qed.

Lemma best_tail caps s : best tail caps s (if forallb is_space s then Some (caps, []) else None).
Proof.
  unfold tail, ws. apply best_run; [apply rejects_space_eol|]. destruct (forallb is_space s) eqn:E.
  - apply skip_all in E. rewrite E. apply best_eol, best_done.
  - destruct (skip is_space s) eqn:E'; [|apply best_not_eol]. apply skip_all in E'. congruence.
Qed.

(** Patterns anchored at the beginning. *)
Lemma find_best b s o : best b [] s o ->
  find (RSeq RBol b) s =
  match o with
  | Some (c, r) => Some {| f_before := []; f_text := firstn (length s - length r) s; f_caps := c; f_after := r |}
  | None => None
  end.
Proof.
  intros H. rewrite find_bol. specialize (H None). change (init s) with (St [] None s).
  destruct o as [[c r]|].
  - destruct H as (p' & l & ->). reflexivity.
  - rewrite H. reflexivity.
Qed.

Lemma matches_best b s o : best b [] s o -> matches (RSeq RBol b) s = match o with Some _ => true | None => false end.
Proof. intros H. unfold matches. rewrite (find_best b s o H). destruct o as [[c r]|]; reflexivity. Qed.
