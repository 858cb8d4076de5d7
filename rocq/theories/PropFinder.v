(** C55: what the checks finder and matcher of the benchmark suite accept, what
    they list and what they record. *)

From Coq Require Import Ascii String List ZArith NArith Bool Arith Lia Permutation Sorted QArith Qcanon.
From Verif Require Import Bytes BytesProofs GoSort Slog Replace PropReplace Warnings BenchChecks SpecChecks ChecksProofs ChecksSamples.
Import ListNotations.
Local Open Scope nat_scope.

(** ** finderDeep *)

Theorem C55_listed E expected actual : valid (DMap expected) -> valid (DMap actual) ->
  match finder_deep E expected actual with
  | Some (bad, strs) =>
      ~ stuck E expected actual /\
      StronglySorted (fun a b => blt b a = false) bad /\ StronglySorted (fun a b => blt b a = false) strs /\
      exists pb ps, NoDup pb /\ NoDup ps /\
        (forall p, In p pb <-> exists v w, wrong expected actual p v w /\ ~ as_text E v w) /\
        (forall p, In p ps <-> exists v w, wrong expected actual p v w /\ as_text E v w) /\
        Permutation bad (map (fun p => last p []) pb) /\ Permutation strs (map (fun p => last p []) ps)
  | None => stuck E expected actual
  end.
Proof.
  intros VE VA. unfold finder_deep. pose proof (find_field_ok E (DMap expected) [] (Some (DMap actual)) VE VA) as R.
  cbn [or_null] in R. remember (find_field E (DMap expected) [] (Some (DMap actual))) as o eqn:O.
  destruct o as [[bad strs]|].
  - destruct R as [pb [ps [[N1 L1] [[N2 L2] [P1 [P2 M]]]]]]. split.
    { intros [p [v [s [X Y]]]]. apply wrong_off in X. now apply (M _ _ _ X). }
    cbn [find_field] in O. destruct (entries E actual expected) as [[b s]|] eqn:EN; unfold entries in EN; rewrite EN in O; [|discriminate].
    injection O as -> ->.
    split; [apply sort_by_ok, blt_weak|]. split; [apply sort_by_ok, blt_weak|].
    exists pb, ps. split; [exact N1|]. split; [exact N2|]. split; [|split; [|split; assumption]].
    + intros p. rewrite L1. split; intros [v [w [X Y]]]; exists v, w; (split; [now apply wrong_off|exact Y]).
    + intros p. rewrite L2. split; intros [v [w [X Y]]]; exists v, w; (split; [now apply wrong_off|exact Y]).
  - destruct R as [p [x [t [X Y]]]]. exists p, x, t. split; [now apply wrong_off|exact Y].
Qed.

Lemma text_dec E v w : as_text E v w \/ ~ as_text E v w.
Proof.
  unfold as_text. destruct w as [| | |s| |]; try (right; intros [t [X _]]; discriminate X).
  destruct (e_marshal E v) as [t|] eqn:M; [|right; intros [t [_ X]]; congruence].
  destruct (beq s t) eqn:X; [left; apply beq_eq in X; subst; eauto|].
  right. apply beq_neq in X. intros [u [Y Z]]. congruence.
Qed.

Lemma no_names {A} (l : list (list A)) (f : list A -> A) names : Permutation names (map f l) -> (names = [] <-> l = []).
Proof.
  intros P. split; intros ->.
  - apply Permutation_nil in P. destruct l; [reflexivity|discriminate].
  - apply Permutation_sym, Permutation_nil in P. exact P.
Qed.

Lemma empty_list {A} (l : list A) : l = [] <-> forall x, ~ In x l.
Proof.
  split; [intros -> x []|]. intros H. destruct l as [|x l]; [reflexivity|]. destruct (H x). now left.
Qed.

(** Nothing is listed exactly if the record has everything expected. *)
Theorem C55_contained E expected actual : valid (DMap expected) -> valid (DMap actual) ->
  finder_deep E expected actual = Some ([], []) <-> contained expected actual.
Proof.
  intros VE VA. pose proof (C55_listed E expected actual VE VA) as R. split.
  - intros F. rewrite F in R. destruct R as [_ [_ [_ [pb [ps [_ [_ [L1 [L2 [P1 P2]]]]]]]]]].
    apply Permutation_nil in P1, P2. intros p v w X.
    destruct (text_dec E v w) as [T|T].
    + assert (I : In p ps) by (apply L2; eauto). destruct ps; [destruct I|discriminate].
    + assert (I : In p pb) by (apply L1; eauto). destruct pb; [destruct I|discriminate].
  - intros C. destruct (finder_deep E expected actual) as [[bad strs]|].
    + destruct R as [_ [_ [_ [pb [ps [_ [_ [L1 [L2 [P1 P2]]]]]]]]]].
      assert (pb = []) as -> by (apply empty_list; intros p I; apply L1 in I; destruct I as [v [w [X _]]]; now apply (C p v w)).
      assert (ps = []) as -> by (apply empty_list; intros p I; apply L2 in I; destruct I as [v [w [X _]]]; now apply (C p v w)).
      apply Permutation_sym, Permutation_nil in P1, P2. now subst.
    + destruct R as [p [v [s [X _]]]]. now destruct (C _ _ _ X).
Qed.

(** The order in which Go ranges over the maps does not matter. *)
Theorem C55_order E expected actual expected' actual' : marshal_ok E ->
  valid (DMap expected) -> valid (DMap actual) -> valid (DMap expected') -> valid (DMap actual') ->
  same (DMap expected) (DMap expected') -> same (DMap actual) (DMap actual') ->
  finder_deep E expected actual = finder_deep E expected' actual'.
Proof.
  intros MO VE VA VE' VA' SE SA.
  pose proof (C55_listed E expected actual VE VA) as R. pose proof (C55_listed E expected' actual' VE' VA') as R'.
  assert (TX : forall v v' w w', same v v' -> same w w' -> as_text E v w -> as_text E v' w').
  { intros v v' w w' S1 S2 [s [-> M]]. inversion S2; subst. exists s. split; [reflexivity|]. now rewrite <- (MO v v'). }
  assert (ST : forall e a e' a', same (DMap e) (DMap e') -> same (DMap a) (DMap a') -> stuck E e a -> stuck E e' a').
  { intros e a e' a' S1 S2 [p [v [s [X M]]]]. destruct (wrong_same _ _ _ _ _ _ _ S1 S2 X) as [v' [w' [X' [Q1 Q2]]]].
    inversion Q2; subst. exists p, v', s. split; [exact X'|]. now rewrite <- (MO v v'). }
  assert (EQ : forall l l' (n n' : list bytes), NoDup l -> NoDup l' -> (forall p, In p l <-> In p l') ->
    Permutation n (map (fun p => last p []) l) -> Permutation n' (map (fun p => last p []) l') ->
    StronglySorted (fun a b => blt b a = false) n -> StronglySorted (fun a b => blt b a = false) n' -> n = n').
  { intros l l' n n' N1 N2 I P1 P2 S1 S2. apply (sorted_unique blt n n'); auto.
    - rewrite P1, P2. apply Permutation_map. now apply NoDup_Permutation.
    - intros a b _ _. apply blt_antisym. }
  destruct (finder_deep E expected actual) as [[bad strs]|] eqn:F1, (finder_deep E expected' actual') as [[bad' strs']|] eqn:F2; auto.
  - destruct R as [_ [S1 [S2 [pb [ps [N1 [N2 [L1 [L2 [P1 P2]]]]]]]]]].
    destruct R' as [_ [S1' [S2' [pb' [ps' [N1' [N2' [L1' [L2' [P1' P2']]]]]]]]]].
    f_equal. f_equal.
    + apply (EQ pb pb'); auto. intros p. rewrite L1, L1'. split; intros [v [w [X T]]].
      * destruct (wrong_same _ _ _ _ _ _ _ SE SA X) as [v' [w' [X' [Q1 Q2]]]]. exists v', w'. split; [exact X'|].
        intros T'. apply T. apply (TX v' v w' w); auto using same_sym.
      * destruct (wrong_same _ _ _ _ _ _ _ (same_sym _ _ SE) (same_sym _ _ SA) X) as [v' [w' [X' [Q1 Q2]]]]. exists v', w'. split; [exact X'|].
        intros T'. apply T. apply (TX v' v w' w); auto using same_sym.
    + apply (EQ ps ps'); auto. intros p. rewrite L2, L2'. split; intros [v [w [X T]]].
      * destruct (wrong_same _ _ _ _ _ _ _ SE SA X) as [v' [w' [X' [Q1 Q2]]]]. exists v', w'. split; [exact X'|].
        apply (TX v v' w w'); auto.
      * destruct (wrong_same _ _ _ _ _ _ _ (same_sym _ _ SE) (same_sym _ _ SA) X) as [v' [w' [X' [Q1 Q2]]]]. exists v', w'. split; [exact X'|].
        apply (TX v v' w w'); auto.
  - destruct R as [R _]. destruct R. apply (ST expected' actual'); auto using same_sym.
  - destruct R' as [R' _]. destruct R'. apply (ST expected actual); auto.
Qed.

(** ** The map a check looks at *)

(** The map passed in, or what json.Unmarshal makes of the output, put right. *)
Definition looks_at (E : env) (captured : bytes) (lm : log_map) (a : dmap) : Prop :=
  lm = Some a \/ (lm = None /\ exists b, e_unmarshal E captured = (Some b, None) /\ a = fix_map (e_casing E) b).

Lemma looks_get E captured lm a m : looks_at E captured lm a -> get_log_map E captured lm m = (Some a, m).
Proof. intros [->|[-> [b [U ->]]]]; cbn; [reflexivity|]. now rewrite U. Qed.

Lemma looks_passed E captured lm a : looks_at E captured lm a -> passed lm (Some a) = lm.
Proof. intros [->|[-> _]]; reflexivity. Qed.

Lemma beq_sym a b : beq a b = beq b a.
Proof.
  destruct (beq b a) eqn:X; [apply beq_eq in X; subst; apply beq_refl|]. apply beq_neq in X. apply beq_neq. congruence.
Qed.

(** Putting right: no time, the level in upper case, message for msg. *)
Theorem C55_fixed cs a k : get k (fix_map cs a) =
  if beq k TimeKey || beq k (B "message") then None
  else if beq k MessageKey then match get (B "message") a with Some v => Some v | None => get MessageKey a end
  else match get k a with
       | Some (DStr s) => Some (DStr (if beq k LevelKey then map_runes (cs_upper cs) s else s))
       | o => o
       end.
Proof.
  rewrite get_fix, (beq_sym TimeKey), (beq_sym (B "message")), (beq_sym MessageKey), (beq_sym LevelKey).
  destruct (beq k TimeKey); [reflexivity|]. destruct (beq k (B "message")); [reflexivity|]. cbn [orb].
  destruct (beq k MessageKey); [reflexivity|]. destruct (beq k LevelKey) eqn:L.
  - apply beq_eq in L. subst k. reflexivity.
  - destruct (get k a) as [[]|]; reflexivity.
Qed.

(** ** finder *)

(** Without a mark for SkipDedup (or in other tests): the error and the recorded
    warnings, for all marks. *)
Theorem C55_finder E test expected actual captured lm m :
  valid (DMap expected) -> valid (DMap actual) -> looks_at E captured lm actual ->
  has_warning (e_use E) skip_dedup m && existsb (beq test) skip_dedup_tests = false ->
  ~ stuck E expected actual ->
  let use_str := has_warning (e_use E) string_any m in
  let use_mis := has_warning (e_use E) mismatch m in
  exists (texts failing : bool) m' err, finder E test expected captured lm m = (lm, m', err) /\
    (texts = true <-> exists p v w, wrong expected actual p v w /\ as_text E v w) /\
    (failing = true <-> exists p v w, wrong expected actual p v w /\ (as_text E v w -> use_str = false)) /\
    (err <> None <-> failing = true /\ use_mis = false) /\
    added ((if use_str then [if texts then string_any else unused] else []) ++
           (if use_mis then [if failing then mismatch else unused] else [])) m m'.
Proof.
  intros VE VA LK NS NT use_str use_mis. unfold finder. rewrite NS, (looks_get _ _ _ _ _ LK), (looks_passed _ _ _ _ LK).
  pose proof (C55_listed E expected actual VE VA) as R.
  destruct (finder_deep E expected actual) as [[bad strs]|]; [|now destruct NT].
  destruct R as [_ [_ [_ [pb [ps [_ [_ [L1 [L2 [P1 P2]]]]]]]]]]. fold use_str.
  assert (TX : (match strs with [] => false | _ => true end) = true <-> exists p v w, wrong expected actual p v w /\ as_text E v w).
  { destruct strs as [|s strs].
    - split; [discriminate|]. intros [p [v [w [X T]]]]. apply Permutation_nil in P2.
      assert (I : In p ps) by (apply L2; eauto). destruct ps; [destruct I|discriminate].
    - split; [|reflexivity]. intros _. destruct ps as [|p ps]; [apply Permutation_sym, Permutation_nil in P2; discriminate|].
      destruct (proj1 (L2 p) (or_introl eq_refl)) as [v [w X]]. eauto. }
  assert (BD : (match bad with [] => false | _ => true end) = true <-> exists p v w, wrong expected actual p v w /\ ~ as_text E v w).
  { destruct bad as [|s bad].
    - split; [discriminate|]. intros [p [v [w [X T]]]]. apply Permutation_nil in P1.
      assert (I : In p pb) by (apply L1; eauto). destruct pb; [destruct I|discriminate].
    - split; [|reflexivity]. intros _. destruct pb as [|p pb]; [apply Permutation_sym, Permutation_nil in P1; discriminate|].
      destruct (proj1 (L1 p) (or_introl eq_refl)) as [v [w X]]. eauto. }
  set (texts := match strs with [] => false | _ => true end) in *.
  set (failing := (match bad with [] => false | _ => true end) || (texts && negb use_str)).
  assert (FL : failing = true <-> exists p v w, wrong expected actual p v w /\ (as_text E v w -> use_str = false)).
  { unfold failing. rewrite orb_true_iff, BD, andb_true_iff, negb_true_iff, TX. split.
    - intros [[p [v [w [X T]]]]|[[p [v [w [X T]]]] U]]; exists p, v, w; (split; [exact X|]); [intros Y; now destruct T|auto].
    - intros [p [v [w [X T]]]]. destruct (text_dec E v w) as [D|D]; [right; split; [eauto 8|auto]|left; eauto 8]. }
  (* the part about strings *)
  assert (S1 : exists m2 bad', (match strs with
          | [] => (if use_str then add_unused string_any (e_fn E) captured m else m, bad)
          | _ => if use_str then (add_warning string_any (test ++ B ": " ++ join_with (B ",") strs) [] captured m, bad)
                 else (m, bad ++ map (fun f => quote :: f ++ [quote]) strs)
          end) = (m2, bad') /\ (match bad' with [] => false | _ => true end) = failing /\
          added (if use_str then [if texts then string_any else unused] else []) m m2 /\
          has_warning (e_use E) mismatch m2 = use_mis).
  { unfold failing, texts. destruct strs as [|s strs]; [|destruct use_str].
    - eexists _, _. split; [reflexivity|]. split; [now rewrite andb_false_l, orb_false_r|].
      destruct use_str; (split; [first [apply added_one|apply added_nil]|reflexivity]).
    - eexists _, _. split; [reflexivity|]. split; [now rewrite andb_false_r, orb_false_r|].
      split; [apply added_one|reflexivity].
    - eexists _, _. split; [reflexivity|]. split; [|split; [apply added_nil|reflexivity]].
      cbn [negb andb map]. rewrite orb_true_r. now destruct bad. }
  destruct S1 as [m2 [bad' [-> [FB [A1 HM]]]]]. rewrite HM.
  exists texts, failing. rewrite <- FB in *. clear FB BD. destruct bad' as [|b bad'].
  - exists (if use_mis then add_unused mismatch (e_fn E) captured m2 else m2), None.
    split; [reflexivity|]. split; [exact TX|]. split; [exact FL|].
    split; [split; [intros H; now destruct H|intros [H _]; discriminate]|].
    destruct use_mis; [|rewrite app_nil_r; exact A1]. eapply added_app; [exact A1|apply added_one].
  - set (text := test ++ B ": " ++ join_with (B ",") (b :: bad')).
    exists (if use_mis then add_warning mismatch text [] captured m2 else m2), (if use_mis then None else Some (B "mismatch " ++ text ++ B ": %!w(<nil>)")).
    split; [now destruct use_mis|]. split; [exact TX|]. split; [exact FL|].
    split; [destruct use_mis; split; try discriminate; auto; [intros H; now destruct H|intros [_ H]; discriminate]|].
    destruct use_mis; [|rewrite app_nil_r; exact A1]. eapply added_app; [exact A1|apply added_one].
Qed.

Lemma unheeded_has use m w : unheeded m -> In (w_name w) heeded -> has_warning use w m = false.
Proof.
  intros U I. unfold has_warning, marked. destruct (existsb (beq (w_name w)) (m_only m)) eqn:X; [|apply andb_false_r].
  apply existsb_exists in X. destruct X as [n [J Q]]. apply beq_eq in Q. subst n. now destruct (U _ I).
Qed.

(** With none of these marks a check passes, silently, exactly if the record has everything
    that is expected. *)
Theorem C55_finder_unmarked E test expected actual captured lm m :
  valid (DMap expected) -> valid (DMap actual) -> looks_at E captured lm actual -> unheeded m ->
  (exists m', finder E test expected captured lm m = (lm, m', None) /\ m' = m) <-> contained expected actual.
Proof.
  intros VE VA LK NM. assert (HN : forall w, In (w_name w) heeded -> has_warning (e_use E) w m = false) by (intros w; now apply unheeded_has).
  unfold finder. rewrite (HN skip_dedup (or_introl eq_refl)). cbn [andb]. rewrite (looks_get _ _ _ _ _ LK), (looks_passed _ _ _ _ LK).
  rewrite <- (C55_contained E expected actual VE VA).
  destruct (finder_deep E expected actual) as [[bad strs]|].
  - rewrite (HN string_any (or_intror (or_introl eq_refl))). split.
    + intros [m' [H _]]. destruct strs as [|s strs].
      * cbn zeta in H. destruct bad as [|b bad]; [reflexivity|]. rewrite (HN mismatch (or_intror (or_intror (or_introl eq_refl)))) in H. discriminate.
      * destruct (bad ++ map (fun f => quote :: f ++ [quote]) (s :: strs)) as [|b bad'] eqn:X.
        { destruct bad; discriminate. }
        rewrite (HN mismatch (or_intror (or_intror (or_introl eq_refl)))) in H. discriminate.
    + intros [= -> ->]. exists m. rewrite (HN mismatch (or_intror (or_intror (or_introl eq_refl)))). auto.
  - split; [intros [m' [H _]]; discriminate|discriminate].
Qed.

(** The mark SkipDedup switches four checks off altogether. *)
Theorem C55_skip E test expected captured lm m :
  has_warning (e_use E) skip_dedup m = true ->
  In test [B "WithAttrsAttributes:All"; B "WithAttrsAttributes:With"; B "WithAttrsKeyValues:All"; B "WithAttrsKeyValues:With"] ->
  finder E test expected captured lm m = (lm, m, None).
Proof.
  intros H I. unfold finder. rewrite H.
  assert (existsb (beq test) skip_dedup_tests = true) as ->; [|reflexivity].
  apply existsb_exists. exists test. split; [exact I|apply beq_refl].
Qed.

(** What is not checked: a null is expected and nothing is there; and a name says
    nothing about where. *)
Theorem C55_blind E test k captured m : unheeded m -> e_unmarshal E captured = (Some [], None) ->
  finder E test [(k, DNull)] captured None m = (None, m, None).
Proof.
  intros NM U. assert (LK : looks_at E captured None []).
  { right. split; [reflexivity|]. exists []. auto. }
  assert (V : valid (DMap [(k, DNull)])) by (repeat constructor; intros []).
  assert (V0 : valid (DMap [])) by repeat constructor.
  destruct (proj2 (C55_finder_unmarked E test [(k, DNull)] [] captured None m V V0 LK NM)) as [m' [H ->]]; [|exact H].
  intros p v w [D X _ A _ Q]. destruct p as [|x p]; [now destruct D|]. cbn in X, A.
  destruct (beq k x); [|discriminate]. destruct A as [A|[_ ->]]; [discriminate|].
  destruct p; cbn in X; [|discriminate]. injection X as <-. apply Q. constructor.
Qed.

Theorem C55_unqualified E k x y u v w : x <> y -> x <> k -> y <> k -> ~ same (DNum v) (DNum w) ->
  let expected := [(x, DMap [(k, DNum v)]); (y, DMap [(k, DNum v)]); (k, DNum u)] in
  let actual := [(x, DMap [(k, DNum w)]); (y, DMap [(k, DNum w)]); (k, DNum u)] in
  finder_deep E expected actual = Some ([k; k], []).
Proof.
  intros XY XK YK NS expected actual. unfold finder_deep, expected, actual. cbn [find_field].
  assert (D : deep_equal (DNum v) (DNum w) = false).
  { destruct (deep_equal (DNum v) (DNum w)) eqn:D; [|reflexivity]. apply deep_equal_same in D; [now destruct NS|constructor|constructor]. }
  assert (D' : deep_equal (DNum u) (DNum u) = true) by (apply deep_equal_same; constructor).
  apply beq_neq in XY, XK, YK.
  cbn [get]. rewrite !beq_refl, XY, XK, YK. cbn [get]. rewrite !beq_refl. cbv iota. rewrite D, D'. cbn. rewrite blt_irrefl. reflexivity.
Qed.

(** ** matcher *)

Theorem C55_matcher E test expected actual captured lm m :
  valid (DMap expected) -> valid (DMap actual) -> looks_at E captured lm actual ->
  let agree := same (DMap expected) (DMap (fix_map (e_casing E) actual)) in
  exists lm' m' err, matcher E test expected captured lm m = (lm', m', err) /\
    (err = None <-> agree) /\
    (agree -> m' = m) /\ (~ agree -> added [mismatch] m m' /\ err = Some (B "Required [Mismatch] Logged record does not match expected: " ++ test)).
Proof.
  intros VE VA LK agree. unfold matcher. rewrite (looks_get _ _ _ _ _ LK). cbn [fix_log_map option_map].
  pose proof (deep_equal_same (DMap expected) (DMap (fix_map (e_casing E) actual)) VE (valid_fix _ _ VA)) as D.
  destruct (deep_equal (DMap expected) (DMap (fix_map (e_casing E) actual))).
  - eexists _, _, _. split; [reflexivity|]. split; [split; [intros _; now apply D|reflexivity]|].
    split; [reflexivity|]. intros N. destruct N. now apply D.
  - eexists _, _, _. split; [reflexivity|]. split; [split; [discriminate|intros H; apply D in H; discriminate]|].
    split; [intros H; apply D in H; discriminate|]. intros _. split; [apply added_one|reflexivity].
Qed.

(** ** Examples *)

Definition expected1 : dmap :=
  [(B "level", DStr (B "INFO")); (B "msg", DStr (B "hi")); (B "flag", DBool true); (B "gone", DNum (Q2Qc 5));
   (B "nested", DMap [(B "b", DStr (B "y")); (B "a", DStr (B "x"))])].
Definition captured1 : bytes :=
  B "{""time"":""now"",""level"":""info"",""message"":""hi"",""flag"":""true"",""nested"":{""a"":""x"",""b"":""z""},""extra"":1}" ++ [newline].
Definition actual1 : dmap := match fst (unmarshal0 captured1) with Some b => fix_map casing0 b | None => [] end.

Lemma looks1 use : looks_at (env0 use) captured1 None actual1.
Proof. right. split; [reflexivity|]. eexists. split; [vm_compute; reflexivity|]. vm_compute. reflexivity. Qed.
Lemma expected1_valid : valid (DMap expected1). Proof. apply validb_ok. vm_compute. reflexivity. Qed.
Lemma actual1_valid : valid (DMap actual1). Proof. apply validb_ok. vm_compute. reflexivity. Qed.

(** The paths nested.b and gone are wrong, flag is there as text. *)
Example C55_listed_ex : finder_deep (env0 true) expected1 actual1 = Some ([B "b"; B "gone"], [B "flag"]).
Proof. vm_compute. reflexivity. Qed.

Example C55_wrong_ex : wrong expected1 actual1 [B "nested"; B "b"] (DStr (B "y")) (DStr (B "z")) /\
  wrong expected1 actual1 [B "gone"] (DNum (Q2Qc 5)) DNull /\
  (wrong expected1 actual1 [B "flag"] (DBool true) (DStr (B "true")) /\ as_text (env0 true) (DBool true) (DStr (B "true"))) /\
  ~ stuck (env0 true) expected1 actual1.
Proof.
  assert (M : forall v, ~ is_map v -> forall w, ~ (is_map v /\ is_map w)) by tauto.
  split; [|split; [|split; [split|]]].
  - constructor; try discriminate; try reflexivity; [vm_compute; eauto|left; reflexivity|apply M; intros [l X]; discriminate|].
    intros X. inversion X.
  - constructor; try discriminate; try reflexivity; [vm_compute; eauto|right; split; reflexivity|apply M; intros [l X]; discriminate|].
    intros X. inversion X.
  - constructor; try discriminate; try reflexivity; [vm_compute; eauto|left; reflexivity|apply M; intros [l X]; discriminate|].
    intros X. inversion X.
  - exists (B "true"). split; reflexivity.
  - pose proof (C55_listed (env0 true) expected1 actual1 expected1_valid actual1_valid) as R.
    rewrite C55_listed_ex in R. apply R.
Qed.

(** The four combinations of marks: error and warnings. *)
Example C55_finder_ex :
  map (fun marks => let '(_, m, err) := finder (env0 true) (B "T") expected1 captured1 None (manager0 marks) in
                    (err, map fst (m_warnings m)))
      [[]; [mismatch]; [string_any]; [string_any; mismatch]] =
  [(Some (B "mismatch T: b,gone,""flag"": %!w(<nil>)"), []);
   (None, [B "Mismatch"]);
   (Some (B "mismatch T: b,gone: %!w(<nil>)"), [B "StringAny"]);
   (None, [B "StringAny"; B "Mismatch"])].
Proof. vm_compute. reflexivity. Qed.

(** What is expected is there: silence, or the marks are not used. *)
Definition expected2 : dmap := [(B "msg", DStr (B "hi")); (B "nested", DMap [(B "a", DStr (B "x"))]); (B "level", DStr (B "INFO"))].
Example C55_contained_ex : contained expected2 actual1 /\
  finder (env0 true) (B "T") expected2 captured1 None (manager0 []) = (None, manager0 [], None).
Proof.
  split; [|vm_compute; reflexivity].
  apply (C55_contained (env0 true)); [apply validb_ok; vm_compute; reflexivity|exact actual1_valid|vm_compute; reflexivity].
Qed.
Example C55_unused_ex : map (fun e => (fst e, r_count (snd e)))
  (m_warnings (snd (fst (finder (env0 true) (B "T") expected2 captured1 None (manager0 [string_any; mismatch]))))) = [(B "Unused", 2%N)].
Proof. vm_compute. reflexivity. Qed.

Example C55_order_ex : same (DMap expected1) (DMap (rev expected1)) /\ valid (DMap (rev expected1)).
Proof.
  split; [|apply validb_ok; vm_compute; reflexivity].
  apply deep_equal_same; [exact expected1_valid|apply validb_ok; vm_compute; reflexivity|vm_compute; reflexivity].
Qed.

Example C55_skip_ex :
  finder (env0 true) (B "WithAttrsKeyValues:All") expected1 captured1 None (manager0 [skip_dedup]) = (None, manager0 [skip_dedup], None) /\
  snd (finder (env0 true) (B "KeyValues:All") expected1 captured1 None (manager0 [skip_dedup])) <> None.
Proof. split; [vm_compute; reflexivity|vm_compute; discriminate]. Qed.

Example C55_matcher_ex :
  let e := [(B "msg", DStr (B "hi")); (B "level", DStr (B "INFO"))] in
  matcher (env0 true) (B "T") e (B "{""time"":1,""level"":""info"",""message"":""hi""}") None (manager0 []) = (None, manager0 [], None) /\
  snd (matcher (env0 true) (B "T") e (B "{""level"":""info"",""message"":""hi"",""more"":null}") None (manager0 [])) =
    Some (B "Required [Mismatch] Logged record does not match expected: T").
Proof. vm_compute. split; reflexivity. Qed.

Print Assumptions C55_listed.
Print Assumptions C55_contained.
Print Assumptions C55_order.
Print Assumptions C55_fixed.
Print Assumptions C55_finder.
Print Assumptions C55_finder_unmarked.
Print Assumptions C55_skip.
Print Assumptions C55_blind.
Print Assumptions C55_unqualified.
Print Assumptions C55_matcher.
