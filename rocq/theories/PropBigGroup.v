(** C56: the big group of the benchmark suite: what bigGroupCheck accepts, what
    bigGroupBuilder builds, and that flash's output of it passes. *)

From Coq Require Import Ascii String List ZArith NArith Bool Arith Lia Permutation Sorted QArith Qcanon.
From Verif Require Import Bytes BytesProofs GoSort Json JsonProofs Slog SpecLog SpecFlash Flash FlashProofs FlashCompose EscapeProofs PropFlashRecord Samples
  Replace PropReplace Warnings BenchChecks SpecChecks ChecksProofs ChecksSamples PropFinder.
Import ListNotations.
Local Open Scope nat_scope.
Local Open Scope list_scope.

(** ** Specification *)

(** Every group below is named after the group it is in, all other fields have one
    of three names. *)
Definition well_named (stem : bytes) (g : dmap) : Prop := forall p k v, at_path (p ++ [k]) (DMap g) = Some v ->
  (is_map v -> exists t, k = last p stem ++ t) /\ (~ is_map v -> In k [B "count"; B "depth"; B "limit"]).

(** The groups are nested [h] deep. *)
Definition height (g : dmap) (h : nat) : Prop :=
  (exists p, length p = h /\ exists l, at_path p (DMap g) = Some (DMap l)) /\
  (forall p l, at_path p (DMap g) = Some (DMap l) -> length p <= h).

(** ** bigGroupCheck *)

Lemma starts_with_iff p s : starts_with p s = true <-> exists t, s = p ++ t.
Proof.
  revert s. induction p as [|c p IH]; intros s; cbn.
  - split; [eauto|reflexivity].
  - destruct s as [|d s]; [split; [discriminate|intros [t X]; discriminate]|].
    rewrite andb_true_iff, IH, Ascii.eqb_eq. split.
    + intros [-> [t ->]]. eauto.
    + intros [t [= -> ->]]. eauto.
Qed.

Lemma is_map_dec v : is_map v \/ ~ is_map v.
Proof. destruct v; try (right; intros [? X]; discriminate X). left. eexists. reflexivity. Qed.

Lemma in_names k : existsb (beq k) non_group_fields = true <-> In k [B "count"; B "depth"; B "limit"].
Proof.
  rewrite existsb_exists. split.
  - intros [x [I X]]. apply beq_eq in X. now subst.
  - intros I. exists k. split; [exact I|apply beq_refl].
Qed.

(** One level of the tree. *)
Lemma well_named_step stem g : wf g -> well_named stem g <->
  forall k v, In (k, v) g -> (~ is_map v -> In k [B "count"; B "depth"; B "limit"]) /\
    (forall l, v = DMap l -> (exists t, k = stem ++ t) /\ well_named k l).
Proof.
  intros WF. split.
  - intros H k v I. apply (get_in k v g WF) in I. split.
    + intros M. apply (H [] k v); [cbn; now rewrite I|exact M].
    + intros l ->. split.
      * apply (H [] k (DMap l)); [cbn; now rewrite I|eexists; reflexivity].
      * intros p x u A. assert (A' : at_path ((k :: p) ++ [x]) (DMap g) = Some u) by (cbn [app at_path]; now rewrite I).
        apply H in A'. rewrite last_cons in A'. exact A'.
  - intros H p k v A. destruct p as [|x p].
    + cbn in A. destruct (get k g) as [u|] eqn:G; [|discriminate]. injection A as ->. apply (get_in k v g WF) in G.
      destruct (H k v G) as [H1 H2]. split; [|exact H1]. intros [l ->]. now apply (H2 l).
    + cbn [app at_path] in A. destruct (get x g) as [u|] eqn:G; [|discriminate]. apply (get_in x u g WF) in G.
      destruct (H x u G) as [_ H2]. destruct u as [| | | | |l]; try (destruct p; discriminate A).
      destruct (H2 l eq_refl) as [_ W]. rewrite last_cons. apply W. exact A.
Qed.

Lemma height_unique g h h' : height g h -> height g h' -> h = h'.
Proof.
  intros [[p [L [l A]]] M] [[p' [L' [l' A']]] M']. pose proof (M _ _ A') as X. pose proof (M' _ _ A) as Y. lia.
Qed.

Section Check.
Variable E : env.

Definition big_entries (depth : N) (stem : bytes) (l : list (bytes * dyn)) (max : N) : N + bytes :=
  (fix go (l : list (bytes * dyn)) (max : N) : N + bytes :=
     match l with
     | [] => inl max
     | (k, w) :: l' =>
         match w with
         | DMap _ =>
             if negb (starts_with stem k) then inr (B "bad field '" ++ k ++ B "' prefix '" ++ stem ++ B "'")
             else match big_group_value E w (depth + 1) k with
                  | inr e => inr e
                  | inl d => go l' (if N.ltb max d then d else max)
                  end
         | _ =>
             if existsb (beq k) non_group_fields then go l' max
             else inr (B "non-group field " ++ k ++ B ": " ++ e_show E w)
         end
     end) l max.

Lemma big_entries_map depth stem k m l max : big_entries depth stem ((k, DMap m) :: l) max =
  if negb (starts_with stem k) then inr (B "bad field '" ++ k ++ B "' prefix '" ++ stem ++ B "'")
  else match big_group_value E (DMap m) (depth + 1) k with
       | inr e => inr e
       | inl d => big_entries depth stem l (if N.ltb max d then d else max)
       end.
Proof. reflexivity. Qed.
Lemma big_entries_leaf depth stem k w l max : ~ is_map w -> big_entries depth stem ((k, w) :: l) max =
  if existsb (beq k) non_group_fields then big_entries depth stem l max
  else inr (B "non-group field " ++ k ++ B ": " ++ e_show E w).
Proof. intros M. destruct w; try reflexivity. destruct M. eexists. reflexivity. Qed.

Definition right_answer (stem : bytes) (depth : N) (g : dmap) (r : N + bytes) : Prop :=
  match r with
  | inl d => well_named stem g /\ exists h, height g h /\ d = (depth + N.of_nat h)%N
  | inr _ => ~ well_named stem g
  end.

Lemma big_value_ok v : valid v -> forall g depth stem, v = DMap g -> right_answer stem depth g (big_group_value E v depth stem).
Proof.
  induction v using dyn_rect'; intros V g depth stem; try discriminate. intros [= <-].
  change (right_answer stem depth l (big_entries depth stem l depth)).
  pose proof (valid_wf _ V) as WF. inversion V; subst. rename H1 into ND. rename H2 into FV.
  (* the loop over a part of the entries *)
  assert (L : forall l' max, incl l' l -> (depth <= max)%N ->
    match big_entries depth stem l' max with
    | inl d => (max <= d)%N /\
        (forall k v, In (k, v) l' -> (~ is_map v -> In k [B "count"; B "depth"; B "limit"]) /\
           (forall m, v = DMap m -> (exists t, k = stem ++ t) /\ well_named k m /\
              exists h, height m h /\ (depth + 1 + N.of_nat h <= d)%N)) /\
        (d = max \/ exists k m h, In (k, DMap m) l' /\ height m h /\ d = (depth + 1 + N.of_nat h)%N)
    | inr _ => exists k v, In (k, v) l' /\
        ((~ is_map v /\ ~ In k [B "count"; B "depth"; B "limit"]) \/
         (exists m, v = DMap m /\ ~ ((exists t, k = stem ++ t) /\ well_named k m)))
    end).
  { induction l' as [|[k w] l' IH]; intros max I LE.
    - cbn. split; [lia|]. split; [intros k v []|now left].
    - assert (IW : In (k, w) l) by (apply I; now left).
      assert (I' : incl l' l) by (intros x X; apply I; now right).
      destruct (is_map_dec w) as [[m ->]|M].
      + rewrite big_entries_map. destruct (starts_with stem k) eqn:SW; cbn [negb].
        * rewrite Forall_forall in H, FV. pose proof (H _ IW (FV _ IW) m (depth + 1)%N k eq_refl) as R. cbn [snd] in R.
          destruct (big_group_value E (DMap m) (depth + 1) k) as [d|e]; cbn [right_answer] in R.
          -- destruct R as [WN [h [HH ->]]].
             specialize (IH (if N.ltb max (depth + 1 + N.of_nat h) then (depth + 1 + N.of_nat h)%N else max) I').
             destruct (N.ltb_spec max (depth + 1 + N.of_nat h)) as [LT|GE].
             ++ specialize (IH ltac:(lia)).
                destruct (big_entries depth stem l' (depth + 1 + N.of_nat h)) as [d|e].
                ** destruct IH as [B1 [B2 B3]]. split; [lia|]. split.
                   --- intros k' v' [[= <- <-]|J].
                       +++ split; [intros NM; destruct NM; eexists; reflexivity|]. intros m' [= <-].
                           split; [now apply starts_with_iff|]. split; [exact WN|]. exists h. split; [exact HH|lia].
                       +++ apply B2, J.
                   --- right. destruct B3 as [->|[k' [m' [h' [J X]]]]].
                       +++ exists k, m, h. split; [now left|auto].
                       +++ exists k', m', h'. split; [now right|exact X].
                ** destruct IH as [k' [v' [J X]]]. exists k', v'. split; [now right|exact X].
             ++ specialize (IH LE). destruct (big_entries depth stem l' max) as [d|e].
                ** destruct IH as [B1 [B2 B3]]. split; [exact B1|]. split.
                   --- intros k' v' [[= <- <-]|J].
                       +++ split; [intros NM; destruct NM; eexists; reflexivity|]. intros m' [= <-].
                           split; [now apply starts_with_iff|]. split; [exact WN|]. exists h. split; [exact HH|lia].
                       +++ apply B2, J.
                   --- destruct B3 as [->|[k' [m' [h' [J X]]]]]; [now left|]. right.
                       exists k', m', h'. split; [now right|exact X].
                ** destruct IH as [k' [v' [J X]]]. exists k', v'. split; [now right|exact X].
          -- exists k, (DMap m). split; [now left|]. right. exists m. split; [reflexivity|]. tauto.
        * exists k, (DMap m). split; [now left|]. right. exists m. split; [reflexivity|]. intros [X _].
          apply starts_with_iff in X. congruence.
      + rewrite (big_entries_leaf _ _ _ _ _ _ M). destruct (existsb (beq k) non_group_fields) eqn:NG.
        * apply in_names in NG. specialize (IH max I' LE). destruct (big_entries depth stem l' max) as [d|e].
          -- destruct IH as [B1 [B2 B3]]. split; [exact B1|]. split.
             ++ intros k' v' [[= <- <-]|J]; [|apply B2, J]. split; [auto|]. intros m ->. destruct M. eexists. reflexivity.
             ++ destruct B3 as [->|[k' [m' [h' [J X]]]]]; [now left|]. right. exists k', m', h'. split; [now right|exact X].
          -- destruct IH as [k' [v' [J X]]]. exists k', v'. split; [now right|exact X].
        * exists k, w. split; [now left|]. left. split; [exact M|]. intros X. apply in_names in X. congruence. }
  specialize (L l depth (incl_refl _) (N.le_refl _)).
  destruct (big_entries depth stem l depth) as [d|e]; cbn [right_answer].
  - destruct L as [B1 [B2 B3]]. split.
    + apply (well_named_step stem l WF). intros k v I. destruct (B2 k v I) as [X Y]. split; [exact X|].
      intros m Z. destruct (Y m Z) as [Y1 [Y2 _]]. auto.
    + exists (N.to_nat (d - depth)). split; [|lia]. split.
      * destruct B3 as [->|[k [m [h [I [[[p [LP [u A]]] _] ->]]]]]].
        -- exists []. split; [cbn; lia|]. exists l. reflexivity.
        -- exists (k :: p). split; [cbn [length]; lia|]. exists u. cbn [at_path].
           apply (get_in k (DMap m) l WF) in I. now rewrite I.
      * intros p u A. destruct p as [|k p]; [cbn; lia|]. cbn [at_path] in A. destruct (get k l) as [v|] eqn:G; [|discriminate].
        apply (get_in k v l WF) in G. destruct v as [| | | | |m]; try (destruct p; discriminate A).
        destruct (B2 k _ G) as [_ Y]. destruct (Y m eq_refl) as [_ [_ [h [[_ HM] LE]]]]. pose proof (HM _ _ A). cbn [length]. lia.
  - intros W. destruct L as [k [v [I [[M N0]|[m [-> N0]]]]]]; destruct (proj1 (well_named_step stem l WF) W k _ I) as [W1 W2]; auto.
Qed.

End Check.

(** bigGroupCheck answers with the depth of a well-named tree, and rejects every
    other. *)
Theorem C56_check E g depth stem : valid (DMap g) ->
  (well_named stem g -> exists h, height g h /\ big_group_check E g depth stem = inl (depth + N.of_nat h)%N) /\
  (~ well_named stem g -> exists err, big_group_check E g depth stem = inr err).
Proof.
  intros V. pose proof (big_value_ok E (DMap g) V g depth stem eq_refl) as R. unfold big_group_check.
  destruct (big_group_value E (DMap g) depth stem) as [d|e]; cbn [right_answer] in R.
  - destruct R as [W [h [H ->]]]. split; [eauto|]. intros N0. now destruct N0.
  - split; [intros W; now destruct R|eauto].
Qed.

Lemma well_named_same stem g g' : same (DMap g) (DMap g') -> well_named stem g -> well_named stem g'.
Proof.
  intros SS W p k v A. pose proof (at_same (p ++ [k]) _ _ SS) as X. rewrite A in X. inversion X; subst.
  symmetry in H. destruct (W p k _ H) as [W1 W2]. split.
  - intros M. apply W1. eapply same_is_map; [apply same_sym|]; eauto.
  - intros M. apply W2. intros M'. apply M. eapply same_is_map; eauto.
Qed.

Lemma height_same g g' h : same (DMap g) (DMap g') -> height g h -> height g' h.
Proof.
  intros S0.
  assert (AP : forall a b p l, same (DMap a) (DMap b) -> at_path p (DMap a) = Some (DMap l) -> exists l', at_path p (DMap b) = Some (DMap l')).
  { intros a b p l SS A. pose proof (at_same p _ _ SS) as X. rewrite A in X. inversion X; subst. inversion H1; subst. eauto. }
  intros [[p [L [l A]]] M]. split.
  - exists p. split; [exact L|]. eapply AP; eauto.
  - intros q u X. destruct (AP g' g q u (same_sym _ _ S0) X) as [u' X']. eauto.
Qed.

(** In any order of the maps. *)
Theorem C56_order E g g' depth stem : valid (DMap g) -> valid (DMap g') -> same (DMap g) (DMap g') ->
  match big_group_check E g depth stem, big_group_check E g' depth stem with
  | inl d, inl d' => d = d'
  | inr _, inr _ => True
  | _, _ => False
  end.
Proof.
  intros V V' S0. pose proof (well_named_same stem) as WN. pose proof (fun h => height_same g g' h S0) as HT.
  pose proof (big_value_ok E (DMap g) V g depth stem eq_refl) as R.
  pose proof (big_value_ok E (DMap g') V' g' depth stem eq_refl) as R'. unfold big_group_check.
  destruct (big_group_value E (DMap g) depth stem) as [d|e], (big_group_value E (DMap g') depth stem) as [d'|e']; cbn [right_answer] in *; auto.
  - destruct R as [W [h [H ->]]]. destruct R' as [W' [h' [H' ->]]]. rewrite (height_unique g' h h'); auto.
  - destruct R as [W _]. apply R'. now apply (WN g g').
  - destruct R' as [W _]. apply R. apply (WN g' g); auto using same_sym.
Qed.

(** ** bigGroupChecker *)

(** Passes exactly if there is no group, or one that is well named and has the
    full depth; else one warning and the error. *)
Definition big_fine (actual : dmap) : Prop :=
  get (B "group") actual = None \/
  exists g, get (B "group") actual = Some (DMap g) /\ well_named (B "group") g /\ height g 5.

Theorem C56_checker E test actual captured lm m : valid (DMap actual) -> looks_at E captured lm actual ->
  exists m' err, big_group_checker E test captured lm m = (lm, m', err) /\
    (big_fine actual -> m' = m /\ err = None) /\
    (~ big_fine actual -> added [mismatch] m m' /\ exists text,
       err = Some (B "Required [Mismatch] Logged record does not match expected: " ++ test ++ B ": " ++ text)).
Proof.
  intros V LK. unfold big_group_checker. rewrite (looks_get _ _ _ _ _ LK), (looks_passed _ _ _ _ LK). cbn [lookup].
  assert (FAIL : ~ big_fine actual -> forall text,
    exists m' err, (lm, add_warning mismatch (e_fn E) (test ++ B ": " ++ text) [] m, Some (error_extra mismatch (test ++ B ": " ++ text))) = (lm, m', err) /\
    (big_fine actual -> m' = m /\ err = None) /\
    (~ big_fine actual -> added [mismatch] m m' /\ exists text,
       err = Some (B "Required [Mismatch] Logged record does not match expected: " ++ test ++ B ": " ++ text))).
  { intros NF text. eexists _, _. split; [reflexivity|]. split; [intros F; now destruct NF|]. intros _. split; [apply added_one|].
    exists text. reflexivity. }
  assert (PASS : big_fine actual -> exists m' err, (lm, m, None) = (lm, m', err) /\
    (big_fine actual -> m' = m /\ err = None) /\
    (~ big_fine actual -> added [mismatch] m m' /\ exists text,
       err = Some (B "Required [Mismatch] Logged record does not match expected: " ++ test ++ B ": " ++ text))).
  { intros F. exists m, None. split; [reflexivity|]. split; [auto|]. intros N0. now destruct N0. }
  change group_name with (B "group").
  assert (LEAF : forall v, get (B "group") actual = Some v -> ~ is_map v -> ~ big_fine actual).
  { intros v G M [X|[g [X _]]]; [congruence|]. apply M. rewrite G in X. injection X as ->. eexists. reflexivity. }
  destruct (get (B "group") actual) as [v|] eqn:G; [|apply PASS; now left].
  destruct (is_map_dec v) as [[g ->]|M].
  - assert (VG : valid (DMap g)) by (eapply valid_get; eauto).
    pose proof (big_value_ok E (DMap g) VG g 0%N (B "group") eq_refl) as R. unfold big_group_check.
    destruct (big_group_value E (DMap g) 0 (B "group")) as [d|e]; cbn [right_answer] in R.
    + destruct R as [W [h [H ->]]]. destruct (N.eqb_spec (0 + N.of_nat h) big_group_limit) as [EQ|NE]; cbn [negb].
      * apply PASS. right. exists g. split; [exact G|]. split; [exact W|]. replace 5 with h; [exact H|]. unfold big_group_limit in EQ. lia.
      * apply FAIL. intros [X|[g' [X [_ H']]]]; [congruence|]. rewrite G in X. injection X as <-.
        pose proof (height_unique _ _ _ H H'). subst h. now apply NE.
    + apply FAIL. intros [X|[g' [X [W' _]]]]; [congruence|]. rewrite G in X. injection X as <-. auto.
  - specialize (LEAF v eq_refl M). destruct v; try (apply FAIL; exact LEAF). destruct M. eexists. reflexivity.
Qed.

(** ** bigGroupBuilder *)

Scheme built_ind' := Minimality for built Sort Prop
with kids_ind' := Minimality for built_kids Sort Prop.
Combined Scheme built_kids_ind from built_ind', kids_ind'.

Section Built.
Variable std : stdlib.
Variable layout : bytes.
Variable num : bytes -> option Qc.
Hypothesis NUM : num_ok num.
Variable limit : N.
Hypothesis LIM : (limit < 2 ^ 53)%N.

Local Notation mean := (meaning flash_any (flash_time layout) str (flash_resolved std)).
Local Notation means := (flash_meanings std layout).

Lemma mean_group k l : k <> [] -> valid_utf8 k = true -> mean k (VGroup l) =
  match means l with
  | Some [] => if empty_group l then Some [] else None
  | Some fs => Some [(k, JObj fs)]
  | None => None
  end.
Proof.
  intros K U. cbn [meaning].
  match goal with |- match k with [] => ?f l | _ => _ end = _ => set (go := f) end.
  assert (G : forall l, go l = means l).
  { clear l. induction l as [|[k' v'] l IH]; [reflexivity|]. cbn. cbn in IH. fold go in IH |- *. rewrite IH. reflexivity. }
  rewrite G. destruct k as [|c k]; [now destruct K|]. destruct (means l) as [[|f fs]|]; try reflexivity.
  unfold one, str. now rewrite U.
Qed.

Definition ok_stem (s : bytes) : Prop := s <> [] /\ forallb (fun c => N.ltb (code c) 128) s = true.

Lemma ok_utf8 s : ok_stem s -> valid_utf8 s = true.
Proof. intros [_ H]. now apply valid_ascii. Qed.

Lemma ok_kid s i : ok_stem s -> ok_stem (kid_name s i).
Proof.
  intros [H1 H2]. unfold kid_name. split; [destruct s; [now destruct H1|discriminate]|].
  rewrite !forallb_app, H2. cbn [forallb andb B]. apply forallb_forall. intros c I.
  pose proof (dec_of_N_digits i) as D. rewrite forallb_forall in D. specialize (D c I).
  unfold is_digit, btw in D. apply andb_true_iff in D. destruct D as [_ D]. apply N.leb_le in D. apply N.ltb_lt. lia.
Qed.

(** The entries of a decoded group. *)
Definition inv (stem : bytes) (h : nat) (m : dmap) : Prop := wf m /\ forall k v, In (k, v) m ->
  (~ is_map v -> In k [B "count"; B "depth"; B "limit"]) /\
  (forall l, v = DMap l -> (exists t, k = stem ++ t) /\ well_named k l /\ exists h', h = S h' /\ height l h').

Lemma inv_put stem h k v m : inv stem h m ->
  (~ is_map v -> In k [B "count"; B "depth"; B "limit"]) ->
  (forall l, v = DMap l -> (exists t, k = stem ++ t) /\ well_named k l /\ exists h', h = S h' /\ height l h') ->
  inv stem h (put k v m).
Proof.
  intros [W H] H1 H2. split; [now apply wf_put|]. intros k' v' I.
  apply (get_in k' v' (put k v m) (wf_put k v m W)) in I. rewrite get_put in I.
  destruct (beq k k') eqn:X; [|now apply H, get_in]. apply beq_eq in X. subst k'. injection I as <-. auto.
Qed.

Lemma height_of stem h m : inv stem h m -> (h = 0 \/ exists k l, In (k, DMap l) m) -> well_named stem m /\ height m h.
Proof.
  intros [W H] X. split.
  - apply (well_named_step stem m W). intros k v I. destruct (H k v I) as [H1 H2]. split; [exact H1|].
    intros l Y. destruct (H2 l Y) as [A [C _]]. auto.
  - split.
    + destruct X as [->|[k [l I]]]; [exists []; split; [reflexivity|exists m; reflexivity]|].
      destruct (H k _ I) as [_ H2]. destruct (H2 l eq_refl) as [_ [_ [h' [-> [[p [L [u A]]] _]]]]].
      exists (k :: p). split; [cbn; now rewrite L|]. exists u. cbn [at_path]. apply (get_in k (DMap l) m W) in I. now rewrite I.
    + intros p u A. destruct p as [|k p]; [cbn; lia|]. cbn [at_path] in A. destruct (get k m) as [v|] eqn:G; [|discriminate].
      apply (get_in k v m W) in G. destruct v as [| | | | |l]; try (destruct p; discriminate A).
      destruct (H k _ G) as [_ H2]. destruct (H2 l eq_refl) as [_ [_ [h' [-> [_ M]]]]]. pose proof (M _ _ A). cbn [length]. lia.
Qed.

Lemma num_N n : (n < 2 ^ 64)%N -> exists q, num (dec_of_N n) = Some q.
Proof.
  intros L. pose proof (num_some num NUM (Z.of_N n)) as X. rewrite Z.abs_eq in X by lia.
  assert (dec_of_Z (Z.of_N n) = dec_of_N n) as R by (destruct n; reflexivity). rewrite R in X.
  destruct (num (dec_of_N n)) as [q|]; [eauto|]. destruct X; [lia|reflexivity].
Qed.

Lemma built_ok :
  (forall depth stem a, built limit depth stem a ->
     ((limit < depth)%N -> a = empty_attr) /\
     ((depth <= limit)%N -> ok_stem stem -> exists l fs m, a = (stem, VGroup l) /\
        mean stem (VGroup l) = Some [(stem, JObj fs)] /\ decode num (JObj fs) = Some (DMap m) /\
        well_named stem m /\ height m (N.to_nat (limit - depth)))) /\
  (forall depth stem i count kids, built_kids limit depth stem i count kids ->
     (depth <= limit)%N -> ok_stem stem -> (i <= count)%N /\ exists fs, means kids = Some fs /\
       forall m, inv stem (N.to_nat (limit - depth)) m ->
         exists m', decode_fields num fs m = Some m' /\ inv stem (N.to_nat (limit - depth)) m' /\
           ((depth < limit)%N -> (i < count)%N \/ (exists k l, In (k, DMap l) m) -> exists k l, In (k, DMap l) m')).
Proof.
  apply built_kids_ind.
  - intros depth stem L. split; [reflexivity|]. intros L'. lia.
  - intros depth stem count kids L C _ IH. split; [lia|]. intros _ OK.
    destruct (IH L OK) as [_ [fs [M K]]].
    pose proof (num_some num NUM (Z.of_N count)) as NC.
    destruct (num (dec_of_Z (Z.of_N count))) as [qc|] eqn:QC.
    2: { exfalso. apply NC; [unfold big_group_rand in C; rewrite Z.abs_eq by lia; lia|reflexivity]. }
    destruct (num_N depth) as [qd QD]; [lia|]. destruct (num_N limit) as [ql QL]; [lia|].
    set (m0 := put (B "limit") (DNum ql) (put (B "depth") (DNum qd) (put (B "count") (DNum qc) []))).
    assert (I0 : inv stem (N.to_nat (limit - depth)) m0).
    { unfold m0. repeat apply inv_put; try (intros ? X; discriminate X); try (intros _; cbn; tauto).
      split; [constructor|intros k v []]. }
    destruct (K m0 I0) as [m [D [I X]]].
    exists ([(B "count", VInt64 (Z.of_N count)); (B "depth", VUint64 depth); (B "limit", VUint64 limit)] ++ kids).
    exists ([(B "count", JNum (dec_of_Z (Z.of_N count))); (B "depth", JNum (dec_of_N depth)); (B "limit", JNum (dec_of_N limit))] ++ fs), m.
    split; [reflexivity|]. split.
    + rewrite mean_group; [|apply OK|now apply ok_utf8].
      assert (means ([(B "count", VInt64 (Z.of_N count)); (B "depth", VUint64 depth); (B "limit", VUint64 limit)] ++ kids) =
        Some ([(B "count", JNum (dec_of_Z (Z.of_N count))); (B "depth", JNum (dec_of_N depth)); (B "limit", JNum (dec_of_N limit))] ++ fs)) as ->.
      { unfold flash_meanings in *. cbn [app meanings fst snd]. rewrite M. reflexivity. }
      reflexivity.
    + split.
      * rewrite decode_obj. cbn [app decode_fields decode]. rewrite QC, QD, QL.
        change (match decode_fields num fs m0 with Some m1 => Some (DMap m1) | None => None end = Some (DMap m)). now rewrite D.
      * apply (height_of stem); [exact I|]. destruct (N.eq_dec depth limit) as [->|NE].
        -- left. rewrite N.sub_diag. reflexivity.
        -- right. apply X; [lia|left; lia].
  - intros depth stem count L OK. split; [lia|]. exists []. split; [reflexivity|]. intros m I. exists m. split; [reflexivity|].
    split; [exact I|]. intros _ [X|X]; [lia|exact X].
  - intros depth stem i count other kids LT _ IH1 _ IH2 L OK. destruct (IH2 L OK) as [_ [fs [M K]]]. split; [lia|].
    destruct IH1 as [E1 E2]. destruct (N.eq_dec depth limit) as [->|NE].
    + rewrite E1 by lia. cbn [is_empty empty_attr app]. exists fs. split; [exact M|]. intros m I.
      destruct (K m I) as [m' [D [I' X]]]. exists m'. split; [exact D|]. split; [exact I'|]. intros ?; lia.
    + destruct E2 as [l [gs [g [-> [MG [DG [WG HG]]]]]]]; [lia|now apply ok_kid|].
      assert (is_empty (kid_name stem i, VGroup l) = false) as -> by (unfold kid_name; destruct stem; [now destruct OK|reflexivity]).
      exists ((kid_name stem i, JObj gs) :: fs). split.
      { unfold flash_meanings in *. cbn [app meanings fst snd]. rewrite MG, M. reflexivity. }
      intros m I. assert (I1 : inv stem (N.to_nat (limit - depth)) (put (kid_name stem i) (DMap g) m)).
      { apply inv_put; [exact I|intros NM; destruct NM; eexists; reflexivity|]. intros u [= <-].
        split; [eexists; reflexivity|]. split; [exact WG|]. exists (N.to_nat (limit - (depth + 1))). split; [lia|exact HG]. }
      destruct (K _ I1) as [m' [D [I' X]]]. exists m'. split; [|split; [exact I'|]].
      * cbn [decode_fields]. rewrite (ok_utf8 (kid_name stem i)) by now apply ok_kid. rewrite DG. exact D.
      * intros LD _. apply X; [exact LD|]. right. exists (kid_name stem i), g.
        apply get_in; [apply wf_put, I|apply get_put_same].
Qed.

End Built.

(** A big group is logged by flash as an object that is well named and exactly
    as deep as the limit says. *)
Theorem C56_built std layout num limit g : num_ok num -> (limit < 2 ^ 53)%N -> built limit 0 (B "group") g ->
  exists fs m, flash_meanings std layout [g] = Some [(B "group", JObj fs)] /\
    decode num (JObj fs) = Some (DMap m) /\ well_named (B "group") m /\ height m (N.to_nat limit).
Proof.
  intros NUM LIM H. destruct (proj1 (built_ok std layout num NUM limit LIM) 0%N (B "group") g H) as [_ X].
  destruct X as [l [fs [m [-> [M [D [W HH]]]]]]]; [lia|split; [discriminate|reflexivity]|].
  rewrite N.sub_0_r in HH. exists fs, m. split; [|auto]. unfold flash_meanings. cbn [meanings fst snd]. rewrite M. reflexivity.
Qed.

(** ** End to end: the benchmark BigGroup accepts flash *)

Lemma decode_last num bs k j v m0 m : decode_fields num (bs ++ [(k, j)]) m0 = Some m -> decode num j = Some v -> get k m = Some v.
Proof.
  rewrite decode_app. destruct (decode_fields num bs m0) as [m1|]; [|discriminate]. cbn. intros X D. rewrite D in X.
  destruct (valid_utf8 k); [|discriminate]. injection X as <-. apply get_put_same.
Qed.

Lemma parse_newline line v : parse_json line = Some v -> parse_json (line ++ [newline]) = Some v.
Proof.
  intros H. apply parse_json_iff in H. destruct H as [w1 [b [w2 [-> [W1 [J W2]]]]]].
  apply parse_json_iff. exists w1, b, (w2 ++ [newline]). rewrite <- !app_assoc. split; [reflexivity|]. split; [exact W1|].
  split; [exact J|]. unfold ws in *. rewrite forallb_app, W2. reflexivity.
Qed.

Lemma means_app std layout l1 l2 : flash_meanings std layout (l1 ++ l2) =
  match flash_meanings std layout l1, flash_meanings std layout l2 with Some a, Some b => Some (a ++ b) | _, _ => None end.
Proof.
  unfold flash_meanings. induction l1 as [|x l1 IH]; cbn [app meanings].
  - destruct (meanings _ _ _ _ l2); reflexivity.
  - rewrite IH. destruct (meaning _ _ _ _ (fst x) (snd x)); [|reflexivity].
    destruct (meanings _ _ _ _ l1); [|reflexivity]. destruct (meanings _ _ _ _ l2); [|reflexivity]. now rewrite app_assoc.
Qed.

Theorem C56_flash std num E : stdlib_ok std -> num_ok num -> unmarshal_ok num E -> forall o ex r bs fs m0 l g test m,
  o_replace o = None ->
  flash_header (FlashProofs.keys (fix_extras ex)) (x_time_format (fix_extras ex)) (x_level_names (fix_extras ex)) (o_add_source o) r = Some bs ->
  r_attrs r = l ++ [g] -> flash_meanings std (x_time_format (fix_extras ex)) l = Some fs ->
  decode num (JObj (bs ++ fs)) = Some m0 ->
  built 5 0 (B "group") g ->
  exists line, logs std o ex [] NoDead r (Done [line ++ [newline]] true) /\
    big_group_checker E test (line ++ [newline]) None m = (None, m, None).
Proof.
  intros SO NUM UN o ex r bs fs m0 l g test m NR HD RA ML D BG.
  destruct (C56_built std (x_time_format (fix_extras ex)) num 5 g NUM ltac:(reflexivity) BG) as [gs [gm [MG [DG [WG HG]]]]].
  assert (NE : nest (flash_meanings std (x_time_format (fix_extras ex))) [] (r_attrs r) = Some (fs ++ [(B "group", JObj gs)])).
  { cbn [nest]. rewrite RA, means_app, ML, MG. reflexivity. }
  destruct (C03_flash_record_json std SO o ex [] r bs _ NR HD NE) as [line [LG PJ]]. exists line. split; [exact LG|].
  apply parse_newline in PJ. rewrite app_assoc in PJ. rewrite decode_obj in D.
  destruct (decode_fields num (bs ++ fs) []) as [m1|] eqn:D1; [|discriminate].
  assert (D2 : decode num (JObj ((bs ++ fs) ++ [(B "group", JObj gs)])) = Some (DMap (put (B "group") (DMap gm) m1))).
  { rewrite decode_obj, decode_app, D1. cbn [decode_fields]. now rewrite DG. }
  destruct (UN _ _ _ PJ D2) as [m' [U [V S0]]].
  assert (LK : looks_at E (line ++ [newline]) None (fix_map (e_casing E) m')) by (right; eauto).
  destruct (C56_checker E test _ _ None m (valid_fix _ _ V) LK) as [m2 [err [-> [OK _]]]].
  destruct OK as [-> ->]; [|reflexivity]. right.
  inversion S0 as [| | | | |x y SG]; subst. specialize (SG (B "group")). rewrite get_put_same in SG. inversion SG as [|x y SX X1 X2]; subst.
  inversion SX; subst. exists m3. split; [|split].
  - rewrite C55_fixed. change (beq (B "group") TimeKey || beq (B "group") (B "message")) with false.
    change (beq (B "group") MessageKey) with false. cbv iota.
    assert (X3 : get (B "group") m' = Some (DMap m3)) by (symmetry; exact X2). now rewrite X3.
  - eapply well_named_same; eauto.
  - eapply height_same; eauto.
Qed.

(** ** Examples *)

(** Groups with one group each, down to the limit. *)
Fixpoint chain (limit : N) (n : nat) (depth : N) (stem : bytes) : attr :=
  match n with
  | O => empty_attr
  | S n' => (stem, VGroup ([(B "count", VInt64 1); (B "depth", VUint64 depth); (B "limit", VUint64 limit)] ++
                     (let o := chain limit n' (depth + 1) (kid_name stem 0) in if is_empty o then [] else [o]) ++ []))
  end.
Lemma chain_built limit n : forall depth stem, (depth + N.of_nat n = limit + 1)%N -> built limit depth stem (chain limit n depth stem).
Proof.
  induction n as [|n IH]; intros depth stem L.
  - apply built_deep. lia.
  - cbn [chain]. change 1%Z with (Z.of_N 1). apply built_group; [lia|unfold big_group_rand; lia|].
    apply (kids_next limit depth stem 0 1); [lia|apply IH; lia|]. apply kids_done.
Qed.

(** One with two groups in the first. *)
Definition group1 : attr :=
  let kid i := chain 5 5 1 (kid_name (B "group") i) in
  (B "group", VGroup ([(B "count", VInt64 2); (B "depth", VUint64 0); (B "limit", VUint64 5)] ++ [kid 0%N; kid 1%N])).
Lemma group1_built : built 5 0 (B "group") group1.
Proof.
  change 2%Z with (Z.of_N 2). apply (built_group 5 0 (B "group") 2); [lia|unfold big_group_rand; lia|].
  apply (kids_next 5 0 (B "group") 0 2 (chain 5 5 1 (kid_name (B "group") 0)) [chain 5 5 1 (kid_name (B "group") 1)]); [lia|apply chain_built; lia|].
  apply (kids_next 5 0 (B "group") 1 2 (chain 5 5 1 (kid_name (B "group") 1)) []); [lia|apply chain_built; lia|].
  apply kids_done.
Qed.

Definition logged1 (l : list attr) : bytes :=
  match run std0 40 (options1 None) None [] NoDead (record1 l) with
  | Some (Done [line] _) => line
  | _ => []
  end.

Definition checked1 (captured : bytes) : option bytes * list bytes :=
  let '(_, m, err) := big_group_checker (env0 true) (B "BigGroup") captured None (manager0 []) in (err, map fst (m_warnings m)).

(** The group passes; without a group too; a group cut off or misnamed does not. *)
Example C56_flash_ex :
  checked1 (logged1 [(B "n", VInt64 3); group1]) = (None, []) /\
  checked1 (logged1 []) = (None, []) /\
  checked1 (logged1 [chain 4 5 0 (B "group")]) = (Some (B "Required [Mismatch] Logged record does not match expected: BigGroup: maxDepth 4 != 5 limit"), [B "Mismatch"]) /\
  checked1 (logged1 [(B "group", VGroup [chain 5 5 1 (B "other")])]) =
    (Some (B "Required [Mismatch] Logged record does not match expected: BigGroup: bad field 'other' prefix 'group'"), [B "Mismatch"]) /\
  checked1 (logged1 [(B "group", VGroup [(B "x", VInt64 1)])]) =
    (Some (B "Required [Mismatch] Logged record does not match expected: BigGroup: non-group field x: ?"), [B "Mismatch"]) /\
  checked1 (logged1 [(B "group", VInt64 1)]) =
    (Some (B "Required [Mismatch] Logged record does not match expected: BigGroup: not a group"), [B "Mismatch"]).
Proof. vm_compute. repeat split. Qed.

Example C56_check_ex : exists g, valid (DMap g) /\ well_named (B "group") g /\ height g 5 /\
  big_group_check (env0 true) g 2 (B "group") = inl 7%N.
Proof.
  destruct (C56_built std0 [] num0 5 group1 num0_ok ltac:(reflexivity) group1_built) as [fs [m [_ [D [W H]]]]].
  exists m. pose proof (decode_valid num0 _ _ D) as V. split; [exact V|]. split; [exact W|]. split; [exact H|].
  destruct (C56_check (env0 true) m 2 (B "group") V) as [X _]. destruct (X W) as [h [H' ->]].
  rewrite (height_unique m h 5 H' H). reflexivity.
Qed.

Print Assumptions C56_check.
Print Assumptions C56_order.
Print Assumptions C56_checker.
Print Assumptions C56_built.
Print Assumptions C56_flash.
