(** Laws of sloggy derivations. *)

From Coq Require Import Ascii String List ZArith NArith Bool Lia.
From Verif Require Import Bytes BytesProofs Json JsonProofs Slog SlogProofs SpecLog SpecText GoQuote
  EscapeProofs TextProofs QuoteProofs SpecSloggy Sloggy SloggyProofs SloggyHandler SloggyMeaning FlashRecord FlashCompose.
Import ListNotations.

Section Laws.
Variable std : stdlib.

(** ** What is written does not depend on [started], but for the separator *)

Definition uniform (f : bool -> option (list bytes * bool * bool)) : Prop :=
  (forall st, f st = None) \/
  (exists ok, forall st, f st = Some ([], st, ok)) \/
  (exists c ok, forall st, f st = Some (sep_chunks st ++ c, true, ok)).

Lemma loop_uniform (f : bool -> attr -> option (list bytes * bool * bool)) :
  (forall a, uniform (fun st => f st a)) -> forall l, uniform (fun st => ems_loop f st l).
Proof.
  intros H. induction l as [|a l IH].
  { right. left. exists true. reflexivity. }
  cbn [ems_loop]. destruct (H a) as [N|[(ok & E)|(c & ok & E)]].
  - left. intros st. rewrite N. reflexivity.
  - destruct ok.
    + destruct IH as [N|[(ok & E2)|(c & ok & E2)]].
      * left. intros st. rewrite E, N. reflexivity.
      * right. left. exists ok. intros st. rewrite E, E2. reflexivity.
      * right. right. exists c, ok. intros st. rewrite E, E2. reflexivity.
    + right. left. exists false. intros st. rewrite E. reflexivity.
  - destruct ok.
    + destruct IH as [N|[(ok & E2)|(c2 & ok & E2)]].
      * left. intros st. rewrite E, N. reflexivity.
      * right. right. exists c, ok. intros st. rewrite E, E2, app_nil_r. reflexivity.
      * right. right. exists (c ++ sep_chunks true ++ c2), ok. intros st. rewrite E, E2, <- app_assoc. reflexivity.
    + right. right. exists c, false. intros st. rewrite E. reflexivity.
Qed.

Lemma em_uniform rep n : forall gs a, uniform (fun st => em std rep n gs st a).
Proof.
  induction n as [|n IH]; intros gs a; [left; reflexivity|].
  cbn [em]. destruct (is_empty a); [right; left; exists true; reflexivity|].
  destruct (sloggy_effective rep gs a) as [a' v].
  destruct (is_empty a'); [right; left; exists true; reflexivity|].
  assert (Lf : uniform (fun st => let (c, ok) := leaf_chunks std v in Some (field_chunks std st (fst a') ++ c, true, ok))).
  { right. right. destruct (leaf_chunks std v) as [c ok]. exists ([quoted std (fst a'); B ": "] ++ c), ok.
    intros st. unfold field_chunks. rewrite <- app_assoc. reflexivity. }
  destruct v; try exact Lf.
  destruct (empty_group l); [right; left; exists true; reflexivity|].
  destruct (fst a') as [|kc k]; [apply loop_uniform; intros; apply IH|].
  destruct (ems_loop (em std rep n gs) false l) as [[[c s] ok]|]; [|left; reflexivity].
  right. right. eexists ([quoted std (kc :: k); B ": "] ++ B "{" :: c ++ (if ok then [B "}"] else [])), ok.
  intros st. unfold field_chunks. rewrite <- app_assoc. reflexivity.
Qed.

Lemma ems_uniform rep n gs l : uniform (fun st => ems std rep n gs st l).
Proof. apply loop_uniform. intros. apply em_uniform. Qed.

Lemma concat_sep st : concat (sep_chunks st) = sep st.
Proof. destruct st; reflexivity. Qed.

(** ** Configuration along a derivation *)

Lemma sderive_conf n ops : forall g g', sderive std n g ops = Some g' ->
  sh_options (sinner g') = sh_options (sinner g) /\
  sh_groups (sinner g') = sh_groups (sinner g) ++ open_groups ops.
Proof.
  induction ops as [|[l|[|c name]] ops IH]; intros g g'; cbn [sderive sstep open_groups flat_map].
  - intros [= <-]. rewrite app_nil_r. auto.
  - rewrite swith_attrs_eq. destruct (ems _ _ _ _ _ _) as [[[ch s] ok]|]; [|discriminate].
    intros D. apply IH in D. exact D.
  - intros D. apply IH in D. exact D.
  - intros D. apply IH in D. cbn [sinner swith_group sh_options sh_groups] in D.
    destruct D as (D1 & D2). split; auto. rewrite D2, <- app_assoc. reflexivity.
Qed.

Lemma sderive_grouped n ops : forall g g', sderive std n g ops = Some g' ->
  grouped ops = false -> sis_base g = true -> sis_base g' = true.
Proof.
  induction ops as [|o ops IH] using rev_ind; intros g g' D G B0.
  - injection D as <-. exact B0.
  - rewrite sderive_app in D. destruct (sderive std n g ops) as [g1|]; [|discriminate].
    unfold grouped in G. rewrite rev_unit in G. cbn [sderive] in D.
    destruct o as [l|[|c nm]]; cbn [sstep named_group] in *; try discriminate.
    + destruct (swith_attrs std n (sinner g1) l); [|discriminate]. injection D as <-. reflexivity.
    + injection D as <-. reflexivity.
Qed.

(** Replacing a middle part of a derivation by an equivalent one. *)
Lemma slogs_replace o ops1 ops2 m1 m2 d r out :
  (forall k g, sderive std k (SBase (snew_handler o)) ops1 = Some g ->
     exists n0, forall n, n0 <= n -> sderive std n g m1 = sderive std n g m2) ->
  slogs std o (ops1 ++ m1 ++ ops2) d r out -> slogs std o (ops1 ++ m2 ++ ops2) d r out.
Proof.
  intros H L. apply slogs_iff in L as (n1 & g & D & Hh). apply slogs_iff.
  rewrite sderive_app in D. destruct (sderive std n1 (SBase (snew_handler o)) ops1) as [g1|] eqn:D1; [|discriminate].
  destruct (H n1 g1 D1) as (n0 & E). exists (max n0 n1), g. split.
  - rewrite sderive_app, (sderive_mono std n1 (max n0 n1) ltac:(lia) ops1 _ _ D1).
    rewrite sderive_app in *. rewrite <- E by lia.
    destruct (sderive std n1 g1 m1) as [g2|] eqn:D2; [|discriminate].
    rewrite (sderive_mono std n1 (max n0 n1) ltac:(lia) m1 _ _ D2).
    apply (sderive_mono std n1); auto. lia.
  - destruct (schosen d g r) as [h|]; auto. destruct out as [ws ok|]; auto.
    apply (hchunks_mono std n1); auto. lia.
Qed.

Local Notation dens_of o gs := (dens (sloggy_view std (o_replace o)) (sstr std) true gs).

Lemma sdens_of o ops l fs n g :
  sderive std n (SBase (snew_handler o)) ops = Some g -> dens_of o (open_groups ops) l fs ->
  o_replace (sh_options (sinner g)) = o_replace o /\
  dens (sloggy_view std (o_replace (sh_options (sinner g)))) (sstr std) true (sh_groups (sinner g)) l fs.
Proof.
  intros D Hd. destruct (sderive_conf n ops _ _ D) as (E1 & E2).
  cbn [sinner snew_handler sh_options sh_groups app] in *. rewrite E1, E2. auto.
Qed.

Lemma sattrs_twice o ops1 ops2 l1 l2 d r out fs :
  dens_of o (open_groups ops1) l1 fs ->
  slogs std o (ops1 ++ [WithAttrs l1; WithAttrs l2] ++ ops2) d r out <->
  slogs std o (ops1 ++ [WithAttrs (l1 ++ l2)] ++ ops2) d r out.
Proof.
  intros Hd.
  assert (K : forall k g, sderive std k (SBase (snew_handler o)) ops1 = Some g ->
     exists n0, forall n, n0 <= n -> sderive std n g [WithAttrs l1; WithAttrs l2] = sderive std n g [WithAttrs (l1 ++ l2)]).
  { intros k g D. destruct (sdens_of o ops1 l1 fs k g D Hd) as (_ & D1).
    apply (proj2 (emit_den std _ _)) in D1 as (n0 & H). exists n0. intros n L. cbn [sderive sstep].
    rewrite !swith_attrs_eq. unfold ems at 2. rewrite ems_loop_app.
    destruct (H n L (started_of (sh_prefix (sinner g)) false)) as (c1 & E1 & F1).
    unfold ems in E1. unfold ems at 1. rewrite E1. cbn [sinner]. rewrite swith_attrs_eq.
    cbn [sextend sh_options sh_groups sh_prefix].
    rewrite (started_app _ _ _ false _ F1) by (intros ->; reflexivity). unfold ems.
    destruct (ems_loop _ _ l2) as [[[c2 s2] ok2]|]; [|reflexivity].
    unfold sextend. cbn [sh_options sh_prefix sh_suffix sh_groups]. rewrite concat_app, app_assoc. reflexivity. }
  split; apply slogs_replace; intros k g D; destruct (K k g D) as (n0 & H); exists n0; intros n L;
    [|symmetry]; auto.
Qed.

Lemma sattrs_nothing o ops1 ops2 d r out : grouped ops1 = false ->
  (slogs std o (ops1 ++ [WithAttrs []] ++ ops2) d r out <-> slogs std o (ops1 ++ ops2) d r out) /\
  (slogs std o (ops1 ++ [WithGroup []] ++ ops2) d r out <-> slogs std o (ops1 ++ ops2) d r out).
Proof.
  intros G.
  assert (B0 : forall k g, sderive std k (SBase (snew_handler o)) ops1 = Some g -> exists h, g = SBase h).
  { intros k g D. apply sderive_grouped in D; auto. destruct g; [eauto|discriminate]. }
  assert (K1 : forall k g, sderive std k (SBase (snew_handler o)) ops1 = Some g ->
     exists n0, forall n, n0 <= n -> sderive std n g [WithAttrs []] = sderive std n g []).
  { intros k g D. destruct (B0 k g D) as (h & ->). exists 0. intros n _. cbn [sderive sstep]. rewrite swith_attrs_eq.
    cbn [ems ems_loop sinner concat]. unfold sextend. rewrite app_nil_r. destruct h; reflexivity. }
  assert (K2 : forall k g, sderive std k (SBase (snew_handler o)) ops1 = Some g ->
     exists n0, forall n, n0 <= n -> sderive std n g [WithGroup []] = sderive std n g []).
  { intros k g D. destruct (B0 k g D) as (h & ->). exists 0. intros n _. reflexivity. }
  change (ops1 ++ ops2) with (ops1 ++ [] ++ ops2).
  split; split; apply slogs_replace; intros k g D;
    [destruct (K1 k g D) as (n0 & H)|destruct (K1 k g D) as (n0 & H)
    |destruct (K2 k g D) as (n0 & H)|destruct (K2 k g D) as (n0 & H)];
    exists n0; intros n L; rewrite (H n L); reflexivity.
Qed.

(** *** Attributes come first *)

Lemma basics_start o gs r :
  (o_replace o = None \/ exists bs, dens_of o gs (sloggy_basics std (o_add_source o) r) bs /\ bs <> []) ->
  forall n c s, ems std (o_replace o) n gs false (sloggy_basics std (o_add_source o) r) = Some (c, s, true) -> s = true.
Proof.
  intros [No|(bs & D & N)] n c s E.
  - rewrite No in E. unfold ems, sloggy_basics, basics in E. rewrite ems_loop_app in E.
    destruct n as [|n].
    { destruct (t_zero (r_time r)); cbn [ems_loop em] in E; discriminate. }
    match type of E with (match ?m with _ => _ end) = _ => destruct m as [[[c1 s1] []]|]; try discriminate end.
    cbn [app] in E. cbn [ems_loop] in E.
    match type of E with context [em std None (S n) gs s1 ?a] =>
      replace (em std None (S n) gs s1 a) with
       (Some (field_chunks std s1 (B "level") ++ [quoted std (level_string (r_level r))], true, true)) in E by reflexivity end.
    cbv iota in E.
    match type of E with context [em std None (S n) gs true ?a] =>
      replace (em std None (S n) gs true a) with
       (Some (field_chunks std true (B "msg") ++ [quoted std (r_msg r)], true, true)) in E by reflexivity end.
    cbv iota in E.
    match type of E with context [ems_loop ?f true ?l] => pose proof (ems_uniform None (S n) gs l) as U end.
    destruct U as [U|[(ok & U)|(c2 & ok & U)]]; unfold ems in U; rewrite U in E; try discriminate;
      injection E as _ <- _; reflexivity.
  - apply (proj2 (emit_den std _ _)) in D as (n0 & H).
    destruct (H (max n n0) ltac:(lia) false) as (ch & E2 & _).
    apply (ems_mono std _ n (max n n0)) in E; [|lia]. rewrite E in E2. injection E2 as _ ->.
    destruct bs; [congruence|reflexivity].
Qed.

Lemma shandle_preceded h l r fs :
  dens (sloggy_view std (o_replace (sh_options h))) (sstr std) true (sh_groups h) l fs ->
  (forall n c s, ems std (o_replace (sh_options h)) n (sh_groups h) false
     (sloggy_basics std (o_add_source (sh_options h)) r) = Some (c, s, true) -> s = true) ->
  exists n0, forall n, n0 <= n -> exists h', swith_attrs std n h l = Some h' /\
    match hchunks std n h' r, hchunks std n h (with_record_attrs r (l ++ r_attrs r)) with
    | None, None => True
    | Some (ws, ok), Some (ws', ok') => ok = ok' /\ concat ws = concat ws'
    | _, _ => False
    end.
Proof.
  intros D Hb. apply (proj2 (emit_den std _ _)) in D as (n0 & H). exists n0. intros n L.
  specialize (H n L). set (rep := o_replace (sh_options h)) in *. set (gs := sh_groups h) in *.
  set (p := sh_prefix h) in *.
  destruct (H (started_of p false)) as (c0 & E0 & F0).
  exists (sextend h (concat c0)). split.
  { rewrite swith_attrs_eq. fold rep gs p. rewrite E0. reflexivity. }
  unfold hchunks. cbn [sextend sh_options sh_groups sh_prefix sh_suffix]. fold rep gs p.
  change (sbasics std (sextend h (concat c0)) r) with (sbasics std h r).
  change (sbasics std h (with_record_attrs r (l ++ r_attrs r))) with (sbasics std h r).
  pose proof (Hb n) as Hb'. rewrite <- sbasics_eq in Hb'. fold rep gs in Hb'.
  destruct (ems std rep n gs false (sbasics std h r)) as [[[c1 s1] []]|]; auto.
  rewrite (Hb' c1 s1 eq_refl). clear s1 Hb'. cbn [with_record_attrs r_attrs].
  unfold ems. rewrite ems_loop_app. fold (ems std rep n gs).
  destruct (ems_uniform rep n gs l) as [U|[(ok & U)|(c & ok & U)]].
  - rewrite U in E0. discriminate.
  - rewrite U in E0. injection E0 as <- _ ->. rewrite !U. cbn [concat app]. rewrite app_nil_r.
    destruct (ems std rep n gs (sstarted p true) (r_attrs r)) as [[[c2 s2] []]|]; auto.
  - rewrite U in E0. injection E0 as <- Es ->. rewrite !U.
    assert (Nf : fs <> []).
    { intros ->. cbn [nonempty] in Es. rewrite orb_false_r in Es. rewrite <- Es in F0.
      destruct F0 as [_ [(_ & F)|(F & _)]]; [discriminate|congruence]. }
    destruct (FT_end _ _ _ F0 Nf) as [Nt Et].
    assert (Pe : p ++ concat (sep_chunks (started_of p false) ++ c) <> []).
    { intros E. apply app_eq_nil in E as [_ E]. congruence. }
    set (p' := p ++ concat (sep_chunks (started_of p false) ++ c)) in *.
    assert (Ss : sstarted p' true = true).
    { unfold sstarted. destruct p' eqn:E; [congruence|]. rewrite <- E. unfold p'. rewrite ends_with_app_ne, Et by auto. reflexivity. }
    rewrite Ss.
    assert (Ec : concat (prefix_chunks p') = concat (prefix_chunks p) ++ concat (sep_chunks (sstarted p true) ++ c)).
    { assert (X : concat (prefix_chunks p') = B ", " ++ p').
      { unfold prefix_chunks. destruct p'; [congruence|]. cbn [concat]. rewrite app_nil_r. reflexivity. }
      rewrite X. unfold p'. rewrite !concat_app, !concat_sep.
      unfold prefix_chunks, sstarted, started_of. destruct p as [|pc p0]; [reflexivity|].
      destruct (ends_with brace (pc :: p0)); cbn [negb sep concat]; rewrite app_nil_r, <- app_assoc; reflexivity. }
    destruct (ems std rep n gs true (r_attrs r)) as [[[c2 s2] []]|]; auto; split; auto; cbn [concat];
      rewrite !concat_app in *; rewrite Ec, <- ?app_assoc; reflexivity.
Qed.

Lemma sattrs_preceded o ops l r fs :
  dens_of o (open_groups ops) l fs ->
  (o_replace o = None \/
   exists bs, dens_of o (open_groups ops) (sloggy_basics std (o_add_source o) r) bs /\ bs <> []) ->
  grouped ops = false \/ forallb is_empty (l ++ r_attrs r) = false ->
  let r' := with_record_attrs r (l ++ r_attrs r) in
  forall ok t, (exists ws, slogs std o (ops ++ [WithAttrs l]) NoDead r (Done ws ok) /\ concat ws = t) <->
               (exists ws, slogs std o ops NoDead r' (Done ws ok) /\ concat ws = t).
Proof.
  intros Hd Hb Hg r' ok t.
  assert (K : forall k g, sderive std k (SBase (snew_handler o)) ops = Some g ->
    exists n0, forall n, n0 <= n -> exists h', swith_attrs std n (sinner g) l = Some h' /\
      match hchunks std n h' r, hchunks std n (sinner g) r' with
      | None, None => True
      | Some (ws, ok), Some (ws', ok') => ok = ok' /\ concat ws = concat ws'
      | _, _ => False
      end).
  { intros k g D. destruct (sdens_of o ops l fs k g D Hd) as (_ & D1).
    apply (shandle_preceded (sinner g) l r fs D1).
    destruct (sderive_conf k ops _ _ D) as (E1 & E2). rewrite E1, E2.
    cbn [sinner snew_handler sh_options sh_groups app]. apply basics_start. exact Hb. }
  assert (C : forall k g, sderive std k (SBase (snew_handler o)) ops = Some g -> schosen NoDead g r' = Some (sinner g)).
  { intros k g D. destruct g as [h|h nm p]; [reflexivity|]. cbn [schosen sinner].
    destruct (sfirst_attr (r_attrs r')) as [[kk v]|] eqn:F; [reflexivity|].
    apply sfirst_none in F. cbn [r' with_record_attrs r_attrs] in F.
    destruct Hg as [Hg|Hg]; [|congruence]. apply sderive_grouped in D; auto. discriminate. }
  split; intros (ws & Lg & Et); apply slogs_iff in Lg as (n1 & g & D & Hh).
  - rewrite sderive_app in D. destruct (sderive std n1 (SBase (snew_handler o)) ops) as [g1|] eqn:D1; [|discriminate].
    destruct (K n1 g1 D1) as (n0 & H). destruct (H (max n0 n1) ltac:(lia)) as (h' & Wt & M).
    apply (sderive_mono std n1 (max n0 n1) ltac:(lia)) in D. cbn [sderive sstep] in D. rewrite Wt in D.
    injection D as <-. cbn [schosen] in Hh.
    apply (hchunks_mono std n1 (max n0 n1)) in Hh; [|lia]. rewrite Hh in M.
    destruct (hchunks std (max n0 n1) (sinner g1) r') as [[ws' ok']|] eqn:E'; [|contradiction].
    destruct M as [-> M]. exists ws'. split; [|congruence]. apply slogs_iff. exists (max n0 n1), g1.
    split; [apply (sderive_mono std n1); auto; lia|]. rewrite (C n1 g1 D1). exact E'.
  - destruct (K n1 g D) as (n0 & H). destruct (H (max n0 n1) ltac:(lia)) as (h' & Wt & M).
    rewrite (C n1 g D) in Hh. apply (hchunks_mono std n1 (max n0 n1)) in Hh; [|lia]. rewrite Hh in M.
    destruct (hchunks std (max n0 n1) h' r) as [[ws' ok']|] eqn:E'; [|contradiction].
    destruct M as [-> M]. exists ws'. split; [|congruence]. apply slogs_iff. exists (max n0 n1), (SBase h').
    split; [|exact E']. rewrite sderive_app, (sderive_mono std n1 (max n0 n1) ltac:(lia) ops _ _ D).
    cbn [sderive sstep]. rewrite Wt. reflexivity.
Qed.

(** ** Groups without attributes *)

Lemma schosen_empty g r : forallb is_empty (r_attrs r) = true -> forall d, d <> DeadOther ->
  schosen d g r = Some (sground g).
Proof.
  intros E. apply sfirst_none in E.
  induction g as [h|h nm p IH]; intros d Hd; cbn [schosen sground]; auto.
  rewrite E. destruct d; try congruence; apply IH; discriminate.
Qed.

Lemma sgroups_elided o ops names r out :
  forallb is_empty (r_attrs r) = true -> Forall (fun name => name <> []) names ->
  slogs std o ops NoDead r out <-> slogs std o (ops ++ map WithGroup names) NoDead r out.
Proof.
  intros E N.
  assert (Hn : forallb named_group (map WithGroup names) = true).
  { induction N as [|x l Hx N IH]; [reflexivity|]. cbn [map forallb]. rewrite IH. destruct x; [congruence|reflexivity]. }
  rewrite !slogs_iff. split; intros (n & g & D & H).
  - destruct (selided_chain std n _ g Hn) as (g' & D' & G). exists n, g'. split.
    + rewrite sderive_app, D. exact D'.
    + rewrite schosen_empty in * by (auto; discriminate). rewrite G. exact H.
  - rewrite sderive_app in D. destruct (sderive std n (SBase (snew_handler o)) ops) as [g0|] eqn:D0; [|discriminate].
    destruct (selided_chain std n _ g0 Hn) as (g' & D' & G). rewrite D' in D. injection D as <-.
    exists n, g0. split; auto. rewrite schosen_empty in * by (auto; discriminate). rewrite G in H. exact H.
Qed.

(** ** Failures *)

Lemma leaf_fails v : match v with VGroup _ => False | _ => True end ->
  snd (leaf_chunks std v) = negb match v with
    | VAny (AnyObj o) | VLogValuer _ o => smarshal_fails o
    | _ => false
    end.
Proof.
  assert (G : forall o, snd (any_chunks std o) = negb (smarshal_fails o)).
  { intros o. unfold any_chunks, smarshal_fails.
    destruct (ao_net o), (ao_error o), (ao_stringer o), (ao_jsonm o), (ao_textm o), (ao_marshal o); reflexivity. }
  destruct v as [[|o]| | | | | | | | |]; intros H; try reflexivity; try contradiction; apply G.
Qed.

Lemma loop_fails rep gs (f : bool -> attr -> option (list bytes * bool * bool)) :
  (forall st a c s ok, f st a = Some (c, s, ok) -> (ok = false <-> sbroken rep gs a)) ->
  forall l st c s ok, ems_loop f st l = Some (c, s, ok) -> (ok = false <-> Exists (sbroken rep gs) l).
Proof.
  intros H. induction l as [|a l IH]; intros st c s ok; cbn [ems_loop].
  - intros [= <- <- <-]. split; [discriminate|]. intros X. inversion X.
  - destruct (f st a) as [[[c1 s1] ok1]|] eqn:E; [|discriminate]. destruct ok1.
    + destruct (ems_loop f s1 l) as [[[c2 s2] ok2]|] eqn:E2; [|discriminate]. intros [= <- <- <-].
      apply IH in E2. split.
      * intros X. right. tauto.
      * intros X. inversion X; subst; [|tauto]. apply H in E. destruct E as [_ E]. specialize (E H1). discriminate.
    + intros [= <- <- <-]. split; auto. intros _. left. apply (H _ _ _ _ _ E). reflexivity.
Qed.

Lemma em_fails rep n : forall gs st a c s ok, em std rep n gs st a = Some (c, s, ok) ->
  (ok = false <-> sbroken rep gs a).
Proof.
  induction n as [|n IH]; intros gs st a c s ok; [discriminate|]. cbn [em].
  destruct (is_empty a) eqn:E1.
  { intros [= <- <- <-]. split; [discriminate|]. intros X. inversion X; congruence. }
  destruct (sloggy_effective rep gs a) as [a' v] eqn:E2.
  destruct (is_empty a') eqn:E3.
  { intros [= <- <- <-]. split; [discriminate|]. intros X. inversion X; congruence. }
  assert (Lf : match v with VGroup _ => False | _ => True end ->
    (let (c0, ok0) := leaf_chunks std v in Some (field_chunks std st (fst a') ++ c0, true, ok0)) = Some (c, s, ok) ->
    (ok = false <-> sbroken rep gs a)).
  { intros Hv. pose proof (leaf_fails v Hv) as F. destruct (leaf_chunks std v) as [c0 ok0]. cbn [snd] in F.
    intros [= <- <- <-]. rewrite F, negb_false_iff. split.
    - intros X. eapply sb_object; eauto.
    - intros X. inversion X; subst.
      + rewrite E2 in H0. injection H0 as <- <-. assumption.
      + rewrite E2 in H0. injection H0 as _ ->. contradiction. }
  destruct v; try (apply Lf; exact I). clear Lf.
  assert (G : sbroken rep gs a <-> empty_group l = false /\ Exists (sbroken rep gs) l).
  { split.
    - intros X. inversion X; subst.
      + rewrite E2 in H0. injection H0 as <- <-. discriminate.
      + rewrite E2 in H0. injection H0 as _ ->. auto.
    - intros [X1 X2]. eapply sb_group; eauto. }
  rewrite G. destruct (empty_group l).
  { intros [= <- <- <-]. split; [discriminate|]. intros [X _]. discriminate. }
  destruct (fst a') as [|kc k].
  - intros X. apply (loop_fails rep gs (em std rep n gs)) in X; [|apply IH]. tauto.
  - destruct (ems_loop (em std rep n gs) false l) as [[[c1 s1] ok1]|] eqn:E4; [|discriminate].
    intros [= <- <- <-]. apply (loop_fails rep gs (em std rep n gs)) in E4; [|apply IH]. tauto.
Qed.

Lemma hchunks_fails n h r ch ok : hchunks std n h r = Some (ch, ok) ->
  (ok = false <-> Exists (sbroken (o_replace (sh_options h)) (sh_groups h))
                    (sloggy_basics std (o_add_source (sh_options h)) r ++ r_attrs r)).
Proof.
  unfold hchunks. rewrite sbasics_eq.
  set (rep := o_replace (sh_options h)). set (gs := sh_groups h). set (bs := sloggy_basics _ _ r).
  assert (F : forall st l c s ok, ems std rep n gs st l = Some (c, s, ok) -> (ok = false <-> Exists (sbroken rep gs) l)).
  { intros st l c s ok0 E. eapply loop_fails; [|exact E]. apply em_fails. }
  rewrite Exists_app.
  destruct (ems std rep n gs false bs) as [[[c1 s1] ok1]|] eqn:E1; [|discriminate]. apply F in E1.
  destruct ok1.
  - destruct (ems std rep n gs (sstarted (sh_prefix h) s1) (r_attrs r)) as [[[c2 s2] ok2]|] eqn:E2; [|discriminate].
    apply F in E2. destruct ok2; intros [= <- <-]; intuition discriminate.
  - intros [= <- <-]. tauto.
Qed.

(** ** LogValuers without ReplaceAttr *)

Lemma slv_ind' (P : attr -> attr -> Prop) :
  (forall a, P a a) ->
  (forall (k : bytes) w w' v o, resolve (VLogValuer v o) = w' -> slv_unfold (k, w) (k, w') -> P (k, w) (k, w') ->
    is_empty (k, w) = false -> empty_value w = false -> P (k, w) (k, VLogValuer v o)) ->
  (forall (k : bytes) l l', Forall2 slv_unfold l l' -> Forall2 P l l' -> P (k, VGroup l) (k, VGroup l')) ->
  forall a b, slv_unfold a b -> P a b.
Proof.
  intros H1 H2 H3. fix IH 3. intros a b [a0|k w w' v o R U E1 E2|k l l' F].
  - apply H1.
  - apply (H2 k w w' v o R U (IH _ _ U) E1 E2).
  - apply H3; auto. induction F; constructor; auto.
Qed.

Lemma slv_key a b : slv_unfold a b -> fst a = fst b.
Proof. destruct 1; reflexivity. Qed.

Lemma slv_empty a b : slv_unfold a b -> is_empty a = is_empty b.
Proof.
  destruct 1 as [a|k w w' v o R U E1 E2|k l l' F]; auto.
  - rewrite E1. destruct k; reflexivity.
Qed.

Lemma slv_tree a b : slv_unfold a b -> empty_value (snd a) = empty_value (snd b).
Proof.
  revert a b. apply slv_ind'; auto.
  intros k l l' F IH. cbn [snd]. change (empty_group l = empty_group l').
  revert IH. induction F as [|a b l l' U F IHF]; intros IH; [reflexivity|]. inversion_clear IH.
  rewrite !empty_group_cons, (slv_empty a b U). rewrite H, IHF by auto. reflexivity.
Qed.

Lemma em_unfold n gs : forall a b st, slv_unfold a b -> em std None n gs st a = em std None n gs st b.
Proof.
  induction n as [|n IHn]; intros a b st U; [reflexivity|].
  assert (Loop : forall l l' st, Forall2 slv_unfold l l' -> ems_loop (em std None n gs) st l = ems_loop (em std None n gs) st l').
  { intros l l' st0 F. revert st0. induction F as [|x y l l' Ux F IH]; intros st0; [reflexivity|].
    cbn [ems_loop]. rewrite (IHn x y st0 Ux). destruct (em std None n gs st0 y) as [[[c s] []]|]; auto.
    rewrite IH. reflexivity. }
  revert a b U. 
  assert (G : forall (k : bytes) w w', is_empty (k, w) = false -> is_empty (k, w') = false ->
     (resolve w = resolve w' \/ exists l l', resolve w = VGroup l /\ resolve w' = VGroup l' /\ Forall2 slv_unfold l l') ->
     em std None (S n) gs st (k, w) = em std None (S n) gs st (k, w')).
  { intros k w w' E1 E2 H. cbn [em]. unfold sloggy_effective. rewrite E1, E2, ?E1, ?E2. cbn [snd fst].
    destruct H as [->|(l & l' & -> & -> & F)]; [reflexivity|].
    pose proof (slv_tree (k, VGroup l) (k, VGroup l') (su_group k l l' F)) as T. cbn [snd] in T.
    change (empty_group l = empty_group l') in T. rewrite T.
    destruct (empty_group l'); [reflexivity|]. destruct k; [apply Loop; auto|]. rewrite (Loop l l' false F). reflexivity. }
  intros a b U. destruct (is_empty a) eqn:Ea.
  { pose proof (slv_empty a b U) as E. rewrite Ea in E. cbn [em]. rewrite Ea, <- E. reflexivity. }
  pose proof (slv_empty a b U) as Eb. rewrite Ea in Eb. symmetry in Eb.
  destruct U as [a|k w w' v o R U E1 E2|k l l' F]; [reflexivity| |].
  - apply G; auto. clear Eb Ea E1. rewrite R.
    assert (NR : match w' with VLogValuer _ _ => False | _ => True end).
    { rewrite <- R. pose proof (resolve_not_lv (VLogValuer v o)) as X.
      destruct (resolve (VLogValuer v o)); auto. discriminate. }
    inversion U; subst.
    + left. destruct (resolve (VLogValuer v o)); try contradiction; reflexivity.
    + match goal with H : VLogValuer _ _ = _ |- _ => rewrite <- H in NR; contradiction end.
    + right. exists l, l'. auto.
  - apply G; auto. right. exists l, l'. auto.
Qed.

(** ** Attribute trees that are written alike *)

Section Alike.
Variable rep : option attr_fn.
Variable R : attr -> attr -> Prop.
Hypothesis R_empty : forall a b, R a b -> is_empty a = is_empty b.
Hypothesis R_em : forall n gs st a b, R a b -> em std rep n gs st a = em std rep n gs st b.

Lemma ems_alike n gs l l' : Forall2 R l l' -> forall st, ems std rep n gs st l = ems std rep n gs st l'.
Proof.
  induction 1 as [|a b l l' U F IH]; intros st; [reflexivity|]. unfold ems in *. cbn [ems_loop].
  rewrite (R_em n gs st a b U). destruct (em std rep n gs st b) as [[[c s] []]|]; auto. rewrite IH. reflexivity.
Qed.

Lemma sderive_alike n ops ops' : Forall2 (op_related R) ops ops' -> forall g, o_replace (sh_options (sinner g)) = rep ->
  sderive std n g ops = sderive std n g ops'.
Proof.
  induction 1 as [|x y ops ops' U F IH]; intros g No; [reflexivity|]. cbn [sderive].
  assert (E : sstep std n g x = sstep std n g y).
  { destruct U as [l l' Fl|name]; [|reflexivity]. cbn [sstep]. rewrite !swith_attrs_eq, No, (ems_alike n _ l l' Fl). reflexivity. }
  rewrite E. destruct (sstep std n g y) as [g'|] eqn:Y; [|reflexivity]. apply IH.
  destruct y as [l|[|c nm]]; cbn [sstep] in Y.
  - rewrite swith_attrs_eq in Y. destruct (ems _ _ _ _ _ _) as [[[ch s] ok]|]; [|discriminate]. injection Y as <-. exact No.
  - injection Y as <-. exact No.
  - injection Y as <-. exact No.
Qed.

Lemma first_alike l l' : Forall2 R l l' -> sfirst_attr l = None <-> sfirst_attr l' = None.
Proof.
  induction 1 as [|a b l l' U F IH]; [tauto|]. cbn [sfirst_attr]. rewrite (R_empty a b U).
  destruct (is_empty b); auto. split; discriminate.
Qed.

Theorem slogs_alike o ops ops' r attrs' out : o_replace o = rep ->
  Forall2 (op_related R) ops ops' -> Forall2 R (r_attrs r) attrs' ->
  slogs std o ops NoDead r out <-> slogs std o ops' NoDead (with_record_attrs r attrs') out.
Proof.
  intros No Fo Fa. set (r' := with_record_attrs r attrs').
  assert (D : forall n, sderive std n (SBase (snew_handler o)) ops = sderive std n (SBase (snew_handler o)) ops').
  { intros n. apply sderive_alike; auto. }
  assert (C : forall g, schosen NoDead g r = schosen NoDead g r').
  { assert (X : forall g r0, schosen NoDead g r0 = Some (match sfirst_attr (r_attrs r0) with None => sground g | _ => sinner g end)).
    { intros g r0. destruct (sfirst_attr (r_attrs r0)) as [[k v]|] eqn:E.
      - destruct g; [reflexivity|]. cbn [schosen sinner]. rewrite E. reflexivity.
      - apply schosen_empty; [apply sfirst_none; auto|discriminate]. }
    intros g. rewrite !X. cbn [r' with_record_attrs r_attrs]. pose proof (first_alike _ _ Fa) as S1.
    destruct (sfirst_attr (r_attrs r)), (sfirst_attr attrs'); auto; exfalso; [apply proj2 in S1|apply proj1 in S1];
      specialize (S1 eq_refl); discriminate. }
  assert (Hc : forall n h, o_replace (sh_options h) = rep -> hchunks std n h r = hchunks std n h r').
  { intros n h Nh. unfold hchunks. change (sbasics std h r') with (sbasics std h r). rewrite Nh.
    destruct (ems std rep n (sh_groups h) false (sbasics std h r)) as [[[c1 s1] []]|]; auto.
    rewrite (ems_alike n _ _ _ Fa). reflexivity. }
  assert (Op : forall n g, sderive std n (SBase (snew_handler o)) ops = Some g ->
     forall h, schosen NoDead g r = Some h -> o_replace (sh_options h) = rep).
  { intros n g Dg h Ch.
    assert (All : forall ops g0 g1, sderive std n g0 ops = Some g1 ->
      o_replace (sh_options (sinner g0)) = rep /\ o_replace (sh_options (sground g0)) = rep ->
      o_replace (sh_options (sinner g1)) = rep /\ o_replace (sh_options (sground g1)) = rep).
    { clear. induction ops as [|x ops IH]; intros g0 g1 D N; [injection D as <-; auto|]. cbn [sderive] in D.
      destruct (sstep std n g0 x) as [g2|] eqn:E; [|discriminate]. apply (IH g2 g1 D).
      destruct x as [l|[|c nm]]; cbn [sstep] in E.
      - rewrite swith_attrs_eq in E. destruct (ems _ _ _ _ _ _) as [[[ch s] ok]|]; [|discriminate]. injection E as <-. cbn. tauto.
      - injection E as <-. cbn. tauto.
      - injection E as <-. cbn [sinner sground swith_group sh_options]. tauto. }
    destruct (All ops _ _ Dg (conj No No)) as [A1 A2].
    destruct (sfirst_attr (r_attrs r)) as [[k v]|] eqn:E.
    - destruct g; cbn [schosen] in Ch; [injection Ch as <-; auto|]. rewrite E in Ch. injection Ch as <-. exact A1.
    - rewrite schosen_empty in Ch; [|apply sfirst_none; auto|discriminate]. injection Ch as <-. exact A2. }
  rewrite !slogs_iff. split; intros (n & g & Dg & H); exists n, g.
  - rewrite <- D. split; auto. rewrite <- C. destruct (schosen NoDead g r) as [h|] eqn:Ch; auto.
    destruct out; auto. rewrite <- Hc; auto. eapply Op; eauto.
  - rewrite D. split; auto. rewrite C. destruct (schosen NoDead g r') as [h|] eqn:Ch; auto.
    destruct out; auto. rewrite Hc; auto. rewrite <- C in Ch. eapply Op; eauto. rewrite D. exact Dg.
Qed.

End Alike.

Theorem slogs_unfold o ops ops' r attrs' out : o_replace o = None ->
  Forall2 (op_related slv_unfold) ops ops' -> Forall2 slv_unfold (r_attrs r) attrs' ->
  slogs std o ops NoDead r out <-> slogs std o ops' NoDead (with_record_attrs r attrs') out.
Proof.
  intros No. apply (slogs_alike None slv_unfold); auto.
  - apply slv_empty.
  - intros n gs st a b U. apply em_unfold. exact U.
Qed.

(** ** LogValuers under the identity *)

Lemma lo_empty a b : lv_object a b -> is_empty a = is_empty b.
Proof. destruct 1; auto; destruct k; reflexivity. Qed.

Lemma lo_tree : forall a b, lv_object a b -> empty_value (snd a) = empty_value (snd b).
Proof.
  fix IH 3. intros a b [k v o|a0 H|k l l' F]; try reflexivity.
  cbn [snd]. change (empty_group l = empty_group l').
  induction F as [|x y l l' U F IHF]; [reflexivity|]. rewrite !empty_group_cons, IHF, (IH x y U), (lo_empty x y U). reflexivity.
Qed.

Lemma em_object n : forall gs st a b, lv_object a b ->
  em std (Some (fun _ x => x)) n gs st a = em std (Some (fun _ x => x)) n gs st b.
Proof.
  induction n as [|n IHn]; intros gs st a b U; [reflexivity|].
  cbn [em]. rewrite (lo_empty a b U). destruct (is_empty b) eqn:E; [reflexivity|].
  unfold sloggy_effective. rewrite (lo_empty a b U), E.
  destruct U as [k v o|a H|k l l' F]; [reflexivity|reflexivity|]. cbn [snd fst].
  assert (Loop : forall st, ems_loop (em std (Some (fun _ x => x)) n gs) st l =
                            ems_loop (em std (Some (fun _ x => x)) n gs) st l').
  { clear E. induction F as [|x y l l' Ux F IH]; intros st0; [reflexivity|].
    cbn [ems_loop]. rewrite (IHn gs st0 x y Ux).
    destruct (em std (Some (fun _ x => x)) n gs st0 y) as [[[c s] []]|]; auto. rewrite IH. reflexivity. }
  pose proof (lo_tree (k, VGroup l) (k, VGroup l') (lo_group k l l' F)) as T. cbn [snd] in T.
  change (empty_group l = empty_group l') in T. rewrite T.
  destruct (empty_group l'); [reflexivity|]. destruct k; rewrite Loop; reflexivity.
Qed.

Theorem slogs_object src ops ops' r attrs' out :
  let o := {| o_add_source := src; o_replace := Some (fun _ a => a) |} in
  Forall2 (op_related lv_object) ops ops' -> Forall2 lv_object (r_attrs r) attrs' ->
  slogs std o ops NoDead r out <-> slogs std o ops' NoDead (with_record_attrs r attrs') out.
Proof.
  intros o. apply (slogs_alike (o_replace o) lv_object); auto.
  - apply lo_empty.
  - intros n gs st a b U. apply em_object. exact U.
Qed.

(** ** Prefixes only grow *)

Fixpoint chain_all (P : shandler -> Prop) (g : shdl) : Prop :=
  match g with SBase h => P h | SGroup h _ p => P h /\ chain_all P p end.

Lemma chain_inner P g : chain_all P g -> P (sinner g).
Proof. destruct g; cbn; tauto. Qed.

Lemma chain_chosen P g r : chain_all P g -> forall d h, schosen d g r = Some h -> P h.
Proof.
  induction g as [h0|h0 nm p IH]; cbn [chain_all schosen]; intros H d h E.
  - injection E as <-. exact H.
  - destruct H as [H1 H2]. repeat match type of E with
      | context [match ?m with _ => _ end] => destruct m; try discriminate
      end; try (injection E as <-; auto); eauto.
Qed.

Lemma chain_prefix n ops : forall g g', sderive std n g ops = Some g' ->
  chain_all (fun h => sh_prefix h <> []) g -> chain_all (fun h => sh_prefix h <> []) g'.
Proof.
  induction ops as [|x ops IH]; intros g g' D H; [injection D as <-; auto|]. cbn [sderive] in D.
  destruct (sstep std n g x) as [g2|] eqn:E; [|discriminate]. apply (IH g2 g' D).
  pose proof (chain_inner _ _ H) as Hi.
  destruct x as [l|[|c nm]]; cbn [sstep] in E.
  - rewrite swith_attrs_eq in E. destruct (ems _ _ _ _ _ _) as [[[ch s] ok]|]; [|discriminate]. injection E as <-.
    cbn [chain_all sextend sh_prefix]. intros Z. apply app_eq_nil in Z as [Z _]. exact (Hi Z).
  - injection E as <-. exact Hi.
  - injection E as <-. cbn [chain_all]. split; auto. cbn [swith_group sh_prefix].
    intros Z. apply app_eq_nil in Z as [Z _]. exact (Hi Z).
Qed.

Lemma chain_options (P : options -> Prop) n ops : forall g g', sderive std n g ops = Some g' ->
  chain_all (fun h => P (sh_options h)) g -> chain_all (fun h => P (sh_options h)) g'.
Proof.
  induction ops as [|x ops IH]; intros g g' D H; [injection D as <-; auto|]. cbn [sderive] in D.
  destruct (sstep std n g x) as [g2|] eqn:E; [|discriminate]. apply (IH g2 g' D).
  pose proof (chain_inner _ _ H) as Hi.
  destruct x as [l|[|c nm]]; cbn [sstep] in E.
  - rewrite swith_attrs_eq in E. destruct (ems _ _ _ _ _ _) as [[[ch s] ok]|]; [|discriminate]. injection E as <-. exact Hi.
  - injection E as <-. exact Hi.
  - injection E as <-. cbn [chain_all swith_group sh_options]. auto.
Qed.

End Laws.
