(** Proofs about the comparison of decoded values in the benchmark suite. *)

From Coq Require Import Ascii String List NArith Bool Arith Lia Permutation Sorted QArith Qcanon.
From Verif Require Import Bytes BytesProofs GoSort Json Slog Warnings Replace BenchChecks SpecChecks.
Import ListNotations.
Local Open Scope nat_scope.

Section DynInd.
Variable P : dyn -> Prop.
Hypothesis Hnull : P DNull.
Hypothesis Hbool : forall b, P (DBool b).
Hypothesis Hnum : forall q, P (DNum q).
Hypothesis Hstr : forall s, P (DStr s).
Hypothesis Harr : forall l, Forall P l -> P (DArr l).
Hypothesis Hmap : forall l, Forall (fun e => P (snd e)) l -> P (DMap l).

Fixpoint dyn_rect' (v : dyn) : P v :=
  match v with
  | DNull => Hnull
  | DBool b => Hbool b
  | DNum q => Hnum q
  | DStr s => Hstr s
  | DArr l => Harr l ((fix go (l : list dyn) : Forall P l :=
                         match l with [] => Forall_nil _ | x :: l' => Forall_cons _ (dyn_rect' x) (go l') end) l)
  | DMap l => Hmap l ((fix go (l : list (bytes * dyn)) : Forall (fun e => P (snd e)) l :=
                         match l with [] => Forall_nil _ | x :: l' => Forall_cons _ (dyn_rect' (snd x)) (go l') end) l)
  end.
End DynInd.

Lemma get_some_in k (v : dyn) (l : dmap) : get k l = Some v -> In (k, v) l.
Proof.
  induction l as [|[x w] l IH]; cbn [get]; [discriminate|]. destruct (beq x k) eqn:X.
  - intros [= ->]. apply beq_eq in X. subst. now left.
  - intros H. right. now apply IH.
Qed.

Lemma valid_get k v (l : dmap) : valid (DMap l) -> get k l = Some v -> valid v.
Proof.
  intros H G. inversion H; subst. apply get_some_in in G.
  rewrite Forall_forall in H2. now apply (H2 _ G).
Qed.

Lemma valid_wf (l : dmap) : valid (DMap l) -> wf l.
Proof. intros H. now inversion H. Qed.

(** ** same is an equivalence *)

Lemma same_refl v : same v v.
Proof.
  induction v using dyn_rect'; try constructor.
  - induction H; constructor; auto.
  - intros k. destruct (get k l) as [v|] eqn:G; constructor.
    rewrite Forall_forall in H. apply get_some_in in G. apply (H _ G).
Qed.

Lemma same_sym v : forall w, same v w -> same w v.
Proof.
  induction v using dyn_rect'; intros w S0; inversion S0; subst; try constructor.
  - clear S0. revert m H1. induction H; intros m H1; inversion H1; subst; constructor; auto.
  - intros k. specialize (H1 k). inversion H1; subst; constructor.
    symmetry in H0. apply get_some_in in H0. rewrite Forall_forall in H. now apply (H _ H0).
Qed.

Lemma same_trans v : forall w x, same v w -> same w x -> same v x.
Proof.
  induction v using dyn_rect'; intros w x S0 S1; inversion S0; subst; inversion S1; subst; try constructor.
  - clear S0 S1. revert m m0 H1 H2. induction H; intros m m0 H1 H2; inversion H1; subst; inversion H2; subst; constructor; eauto.
  - intros k. specialize (H1 k). specialize (H2 k). inversion H1; subst.
    + rewrite <- H4 in H2. inversion H2; subst. constructor.
    + rewrite <- H3 in H2. inversion H2; subst. constructor.
      symmetry in H0. apply get_some_in in H0. rewrite Forall_forall in H. eapply (H _ H0); eauto.
Qed.

(** ** reflect.DeepEqual *)

Lemma same_keys (l m : dmap) : (forall k, same_option (get k l) (get k m)) -> forall k, In k (keys l) <-> In k (keys m).
Proof.
  intros H k. rewrite <- !get_keys. specialize (H k). inversion H; subst; split; intros [v V]; try congruence; eauto.
Qed.

Definition deep_list (l m : list dyn) : bool :=
  (fix go (l m : list dyn) : bool :=
     match l, m with
     | [], [] => true
     | x :: l', y :: m' => deep_equal x y && go l' m'
     | _, _ => false
     end) l m.
Definition deep_entries (m l : dmap) : bool :=
  (fix go (l : list (bytes * dyn)) : bool :=
     match l with
     | [] => true
     | (k, v) :: l' => match get k m with Some w => deep_equal v w | None => false end && go l'
     end) l.

Lemma deep_entries_all m l : deep_entries m l = true <-> forall k v, In (k, v) l -> exists w, get k m = Some w /\ deep_equal v w = true.
Proof.
  induction l as [|[x u] l IH]; cbn.
  - split; [intros _ k v []|reflexivity].
  - rewrite andb_true_iff, IH. split.
    + intros [H T] k v [[= -> ->]|I]; [|auto]. destruct (get k m) as [w|]; [eauto|discriminate].
    + intros H. split; [|intros k v I; apply H; now right].
      destruct (H x u (or_introl eq_refl)) as [w [-> D]]. exact D.
Qed.

Lemma deep_equal_same v : forall w, valid v -> valid w -> deep_equal v w = true <-> same v w.
Proof.
  induction v using dyn_rect'; intros w V W;
    destruct w; cbn [deep_equal]; try (split; [discriminate|intros X; inversion X; fail]).
  - split; [constructor|reflexivity].
  - split; intros X; [apply eqb_prop in X; subst; constructor|inversion X; apply eqb_reflx].
  - split; intros X; [apply Qc_eq_bool_correct in X; subst; constructor|].
    inversion X; subst. unfold Qc_eq_bool. now destruct (Qc_eq_dec q0 q0).
  - split; intros X; [apply beq_eq in X; subst; constructor|inversion X; apply beq_refl].
  - transitivity (same_list l l0).
    + inversion V; subst. inversion W; subst. clear V W. revert l0 H2 H1.
      induction H; intros [|y l0] W V; cbn; try (split; [discriminate|intros X; inversion X; fail]).
      * split; [constructor|reflexivity].
      * inversion W; subst. inversion V; subst. rewrite andb_true_iff, (H y), (IHForall l0); auto.
        split; [intros [A B]; now constructor|intros X; inversion X; subst; auto].
    + split; [now constructor|intros X; now inversion X].
  - transitivity (forall k, same_option (get k l) (get k l0)); [|split; [now constructor|intros X; now inversion X]].
    change (Nat.eqb (length l) (length l0) && deep_entries l0 l = true <-> forall k, same_option (get k l) (get k l0)).
    rewrite andb_true_iff, Nat.eqb_eq, deep_entries_all.
    pose proof (valid_wf _ V) as NV. pose proof (valid_wf _ W) as NW. rewrite Forall_forall in H.
    assert (D : forall k v w, get k l = Some v -> get k l0 = Some w -> deep_equal v w = true <-> same v w).
    { intros k v w G1 G2. apply (H (k, v)); [now apply get_some_in|now apply (valid_get k _ l)|now apply (valid_get k _ l0)]. }
    split.
    + intros [L A] k. destruct (get k l) as [v|] eqn:G1.
      * destruct (A k v) as [w [G2 X]]; [now apply get_some_in|]. rewrite G2. constructor. apply (D k); auto.
      * destruct (get k l0) as [w|] eqn:G2; [exfalso|constructor].
        assert (I : incl (keys l0) (keys l)).
        { apply NoDup_length_incl; [exact NV|unfold keys; rewrite !map_length; lia|].
          intros x X. apply get_keys in X. destruct X as [u U]. apply get_some_in in U. destruct (A _ _ U) as [w' [G _]].
          apply get_keys. eauto. }
        apply get_none in G1. apply G1, I, get_keys. eauto.
    + intros A. split.
      * pose proof (same_keys _ _ A) as K.
        assert (PK : Permutation (keys l) (keys l0)) by now apply NoDup_Permutation.
        apply Permutation_length in PK. unfold keys in PK. now rewrite !map_length in PK.
      * intros k v I. apply (get_in k v l NV) in I. specialize (A k). rewrite I in A. inversion A; subst.
        exists b. split; [reflexivity|]. apply (D k); auto.
Qed.

(** ** Paths *)

Lemma at_same p : forall v v', same v v' -> same_option (at_path p v) (at_path p v').
Proof.
  induction p as [|k p IH]; intros v v' S0; cbn [at_path]; [now constructor|].
  inversion S0; subst; try constructor.
  specialize (H k). inversion H; subst; [constructor|now apply IH].
Qed.

Lemma at_valid p : forall v w, valid v -> at_path p v = Some w -> valid w.
Proof.
  induction p as [|k p IH]; intros v w V; cbn [at_path]; [intros [= <-]; exact V|].
  destruct v; try discriminate. destruct (get k l) as [u|] eqn:G; [|discriminate].
  intros A. eapply IH; [|exact A]. eapply valid_get; eauto.
Qed.

Lemma at_snoc p k v : at_path (p ++ [k]) v =
  match at_path p v with Some (DMap l) => get k l | _ => None end.
Proof.
  revert v. induction p as [|x p IH]; intros v; cbn [at_path app].
  - destruct v; try reflexivity. now destruct (get k l).
  - destruct v; try reflexivity. destruct (get x l); [apply IH|reflexivity].
Qed.

Lemma wrong_det e a p v w v' w' : wrong e a p v w -> wrong e a p v' w' -> v = v' /\ w = w'.
Proof.
  intros [_ E1 _ A1 _ _] [_ E2 _ A2 _ _]. split; [congruence|].
  destruct A1 as [A1|[A1 ->]], A2 as [A2|[A2 ->]]; congruence.
Qed.

Lemma same_is_map v w : same v w -> is_map v -> is_map w.
Proof. intros S0 [l ->]. inversion S0; subst. now exists m. Qed.

Lemma wrong_same e a e' a' p v w : same (DMap e) (DMap e') -> same (DMap a) (DMap a') -> wrong e a p v w ->
  exists v' w', wrong e' a' p v' w' /\ same v v' /\ same w w'.
Proof.
  intros SE SA [D X [l PA] A K Q].
  pose proof (at_same p _ _ SE) as AE. rewrite X in AE. inversion AE as [|? v' SV Y1 Y2]; subst.
  pose proof (at_same (removelast p) _ _ SA) as AP. rewrite PA in AP. inversion AP as [|? u SU Z1 Z2]; subst.
  inversion SU; subst. pose proof (at_same p _ _ SA) as AA.
  assert (Wx : exists w', same w w' /\ (at_path p (DMap a') = Some w' \/ at_path p (DMap a') = None /\ w' = DNull)).
  { destruct A as [A|[A ->]]; rewrite A in AA; inversion AA; subst; [eauto|].
    exists DNull. split; [constructor|auto]. }
  destruct Wx as [w' [SW A']]. exists v', w'. repeat split; auto.
  - eauto.
  - intros [M1 M2]. apply K. split; [apply (same_is_map v')|apply (same_is_map w')]; auto using same_sym.
  - intros SVW. apply Q. eapply same_trans; [exact SV|]. eapply same_trans; [exact SVW|]. now apply same_sym.
Qed.

(** ** finderDeep *)

Definition or_null (o : option dyn) : dyn := match o with Some x => x | None => DNull end.

(** [wrong], at and below any value. *)
Definition off (v A : dyn) (p : list bytes) (x w : dyn) : Prop :=
  at_path p v = Some x /\ (p = [] \/ exists l, at_path (removelast p) A = Some (DMap l)) /\
  (at_path p A = Some w \/ (at_path p A = None /\ w = DNull)) /\ ~ (is_map x /\ is_map w) /\ ~ same x w.

Lemma wrong_off e a p v w : wrong e a p v w <-> off (DMap e) (DMap a) p v w.
Proof.
  split.
  - intros [D X PA A K Q]. unfold off. auto.
  - intros [X [PA [A [K Q]]]].
    assert (D : p <> []).
    { intros ->. cbn in X, A. destruct A as [A|[A _]]; [|discriminate]. injection X as <-. injection A as <-.
      apply K. split; eexists; reflexivity. }
    constructor; auto. destruct PA as [->|PA]; [now destruct D|exact PA].
Qed.

Lemma off_leaf v A p x w : ~ (is_map v /\ is_map A) -> off v A p x w <-> p = [] /\ x = v /\ w = A /\ ~ same v A.
Proof.
  intros NM. split.
  - intros [X [PA [W [K Q]]]]. destruct p as [|k p].
    + cbn in X, W. destruct W as [W|[W _]]; [|discriminate]. injection X as <-. injection W as <-. auto.
    + exfalso. apply NM. split.
      * cbn in X. destruct v; try discriminate. eexists; reflexivity.
      * destruct PA as [PA|[l PA]]; [discriminate|]. destruct p as [|k' p].
        -- cbn in PA. injection PA as ->. eexists; reflexivity.
        -- cbn in PA. destruct A; try discriminate. eexists; reflexivity.
  - intros [-> [-> [-> Q]]]. unfold off. cbn. auto 6.
Qed.

Lemma off_map e a p x w : off (DMap e) (DMap a) p x w <->
  exists k v p', p = k :: p' /\ get k e = Some v /\ off v (or_null (get k a)) p' x w.
Proof.
  split.
  - intros [X [PA [W [K Q]]]]. destruct p as [|k p].
    + cbn in X, W. destruct W as [W|[W _]]; [|discriminate]. injection X as <-. injection W as <-.
      exfalso. apply K. split; eexists; reflexivity.
    + cbn [at_path] in X, W. destruct (get k e) as [v|] eqn:G; [|discriminate]. exists k, v, p. repeat split; auto.
      * destruct p as [|k' p]; [now left|right]. destruct PA as [PA|[l PA]]; [discriminate|].
        cbn [removelast at_path] in PA. destruct (get k a) as [u|]; [|discriminate].
        exists l. exact PA.
      * destruct (get k a) as [u|]; cbn [or_null]; [exact W|]. destruct W as [W|[_ ->]]; [discriminate|].
        destruct p; cbn; auto.
  - intros [k [v [p' [-> [G [X [PA [W [K Q]]]]]]]]]. unfold off. cbn [at_path]. rewrite G. repeat split; auto.
    + right. destruct p' as [|k' p'].
      * cbn. eexists; reflexivity.
      * destruct PA as [PA|[l PA]]; [discriminate|]. exists l. cbn [removelast at_path] in *.
        destruct (get k a) as [u|]; cbn [or_null] in PA; [exact PA|]. destruct p'; cbn in PA; discriminate.
    + destruct (get k a) as [u|]; cbn [or_null] in W; [exact W|]. right. split; [reflexivity|].
      destruct W as [W|[_ ->]]; [|reflexivity]. destruct p'; cbn in W; [now injection W|discriminate].
Qed.

Section Find.
Variable E : env.

(** The names of the paths in a list, sorted. *)
Definition listing (v A : dyn) (Q : dyn -> dyn -> Prop) (pl : list (list bytes)) : Prop :=
  NoDup pl /\ forall p, In p pl <-> exists x w, off v A p x w /\ Q x w.

Definition plain (x w : dyn) : Prop := ~ as_text E x w.

Definition entries (a : dmap) (l : list (bytes * dyn)) : option (list bytes * list bytes) :=
  (fix go (l : list (bytes * dyn)) : option (list bytes * list bytes) :=
     match l with
     | [] => Some ([], [])
     | (k, w) :: l' =>
         match find_field E w k (get k a) with
         | None => None
         | Some (b1, s1) =>
             match go l' with
             | None => None
             | Some (b2, s2) => Some (b1 ++ b2, s1 ++ s2)
             end
         end
     end) l.

Definition field_ok (v : dyn) : Prop := forall field act, valid v -> valid (or_null act) ->
  match find_field E v field act with
  | Some (b, s) => exists pb ps, listing v (or_null act) plain pb /\ listing v (or_null act) (as_text E) ps /\
      Permutation b (map (fun p => last p field) pb) /\ Permutation s (map (fun p => last p field) ps) /\
      (forall p x t, off v (or_null act) p x (DStr t) -> e_marshal E x <> None)
  | None => exists p x t, off v (or_null act) p x (DStr t) /\ e_marshal E x = None
  end.

Lemma last_cons (k : bytes) p d : last (k :: p) d = last p k.
Proof. revert k. induction p as [|x p IH]; intros k; [reflexivity|]. cbn [last] in *. destruct p; [reflexivity|]. apply (IH k). Qed.

Definition under (a : dmap) (l : list (bytes * dyn)) (Q : dyn -> dyn -> Prop) (pl : list (list bytes)) : Prop :=
  NoDup pl /\ forall p, In p pl <-> exists k v p', p = k :: p' /\ In (k, v) l /\ exists x w, off v (or_null (get k a)) p' x w /\ Q x w.

Lemma under_cons a k v l Q pl1 pl2 : ~ In k (map fst l) ->
  listing v (or_null (get k a)) Q pl1 -> under a l Q pl2 -> under a ((k, v) :: l) Q (map (cons k) pl1 ++ pl2).
Proof.
  intros NI [N1 H1] [N2 H2]. split.
  - assert (NM : NoDup (map (cons k) pl1)).
    { apply FinFun.Injective_map_NoDup; [intros x y [= ->]; reflexivity|exact N1]. }
    revert NM. generalize (fun p => proj1 (in_map_iff (cons k) pl1 p)). generalize (map (cons k) pl1) as L. clear - NI N2 H2.
    induction L as [|x L IH]; intros HL NM; [exact N2|]. inversion NM; subst. cbn. constructor.
    + rewrite in_app_iff. intros [I|I]; [auto|]. destruct (HL x (or_introl eq_refl)) as [p [<- _]].
      apply H2 in I. destruct I as [k' [v' [p' [[= <- _] [I _]]]]]. apply NI. now apply (in_map fst) in I.
    + apply IH; auto. intros p I. apply HL. now right.
  - intros p. rewrite in_app_iff, in_map_iff, H2. split.
    + intros [[p' [<- I]]|[k' [v' [p' [-> [I X]]]]]].
      * apply H1 in I. exists k, v, p'. split; [reflexivity|]. split; [now left|exact I].
      * exists k', v', p'. split; [reflexivity|]. split; [now right|exact X].
    + intros [k' [v' [p' [-> [[[= <- <-]|I] X]]]]].
      * left. exists p'. split; [reflexivity|]. now apply H1.
      * right. exists k', v', p'. auto.
Qed.

Lemma names_cons (k : bytes) (pl : list (list bytes)) (d : bytes) : map (fun p => last p d) (map (cons k) pl) = map (fun p => last p k) pl.
Proof. rewrite map_map. apply map_ext. intros p. apply last_cons. Qed.

Lemma entries_ok a l d : valid (DMap a) -> NoDup (map fst l) -> Forall (fun e => valid (snd e)) l -> Forall (fun e => field_ok (snd e)) l ->
  match entries a l with
  | Some (b, s) => exists pb ps, under a l plain pb /\ under a l (as_text E) ps /\
      Permutation b (map (fun p => last p d) pb) /\ Permutation s (map (fun p => last p d) ps) /\
      (forall k v p x t, In (k, v) l -> off v (or_null (get k a)) p x (DStr t) -> e_marshal E x <> None)
  | None => exists k v p x t, In (k, v) l /\ off v (or_null (get k a)) p x (DStr t) /\ e_marshal E x = None
  end.
Proof.
  intros VA. induction l as [|[k v] l IH]; intros ND VL OK; cbn.
  - exists [], []. split; [split; [constructor|intros p; split; [intros []|intros [k [v [p' [_ [[] _]]]]]]]|].
    split; [split; [constructor|intros p; split; [intros []|intros [k [v [p' [_ [[] _]]]]]]]|].
    split; [constructor|]. split; [constructor|]. intros k v p x t [].
  - inversion ND; subst. inversion VL; subst. inversion OK; subst.
    assert (VG : valid (or_null (get k a))).
    { destruct (get k a) as [u|] eqn:G; [eapply valid_get; eauto|constructor]. }
    specialize (H5 k (get k a) H3 VG). cbn [snd] in H5.
    fold (entries a l). destruct (find_field E v k (get k a)) as [[b1 s1]|].
    + destruct H5 as [pb1 [ps1 [L1 [L2 [P1 [P2 M1]]]]]].
      specialize (IH H2 H4 H6). destruct (entries a l) as [[b2 s2]|].
      * destruct IH as [pb2 [ps2 [U1 [U2 [P3 [P4 M2]]]]]].
        exists (map (cons k) pb1 ++ pb2), (map (cons k) ps1 ++ ps2).
        split; [now apply under_cons|]. split; [now apply under_cons|].
        rewrite !map_app, !names_cons. split; [now apply Permutation_app|]. split; [now apply Permutation_app|].
        intros k' v' p x t [[= <- <-]|I] O; eauto.
      * destruct IH as [k' [v' [p [x [t [I X]]]]]]. exists k', v', p, x, t. split; [now right|exact X].
    + destruct H5 as [p [x [t X]]]. exists k, v, p, x, t. split; [now left|exact X].
Qed.

Lemma find_field_leaf v field act : ~ (is_map v /\ is_map (or_null act)) ->
  find_field E v field act =
  if deep_equal v (or_null act) then Some ([], [])
  else match or_null act with
       | DStr s => match e_marshal E v with
                   | None => None
                   | Some t => if beq s t then Some ([], [field]) else Some ([field], [])
                   end
       | _ => Some ([field], [])
       end.
Proof.
  intros NM. destruct v; try reflexivity. destruct act as [[]|]; try reflexivity.
  exfalso. apply NM. split; eexists; reflexivity.
Qed.

Lemma under_listing e a Q pl : wf e -> under a e Q pl -> listing (DMap e) (DMap a) Q pl.
Proof.
  intros WF [N H]. split; [exact N|]. intros p. rewrite H. split.
  - intros [k [v [p' [-> [I [x [w [O X]]]]]]]]. exists x, w. split; [|exact X].
    apply off_map. exists k, v, p'. split; [reflexivity|]. split; [now apply get_in|exact O].
  - intros [x [w [O X]]]. apply off_map in O. destruct O as [k [v [p' [-> [G O]]]]].
    exists k, v, p'. split; [reflexivity|]. split; [now apply get_some_in|]. eauto.
Qed.

Lemma listing_nil v A Q : ~ (is_map v /\ is_map A) -> (same v A \/ ~ Q v A) -> listing v A Q [].
Proof.
  intros NM H. split; [constructor|]. intros p. split; [intros []|]. intros [x [w [O X]]].
  apply off_leaf in O; [|exact NM]. destruct O as [_ [-> [-> O]]]. tauto.
Qed.
Lemma listing_one v A (Q : dyn -> dyn -> Prop) : ~ (is_map v /\ is_map A) -> ~ same v A -> Q v A -> listing v A Q [[]].
Proof.
  intros NM H X. split; [constructor; [intros []|constructor]|]. intros p. split.
  - intros [<-|[]]. exists v, A. split; [|exact X]. apply off_leaf; auto.
  - intros [x [w [O Y]]]. apply off_leaf in O; [|exact NM]. destruct O as [-> _]. now left.
Qed.

Lemma find_field_ok v : field_ok v.
Proof.
  assert (LEAF : forall v field act, valid v -> valid (or_null act) -> ~ (is_map v /\ is_map (or_null act)) ->
    match find_field E v field act with
    | Some (b, s) => exists pb ps, listing v (or_null act) plain pb /\ listing v (or_null act) (as_text E) ps /\
        Permutation b (map (fun p => last p field) pb) /\ Permutation s (map (fun p => last p field) ps) /\
        (forall p x t, off v (or_null act) p x (DStr t) -> e_marshal E x <> None)
    | None => exists p x t, off v (or_null act) p x (DStr t) /\ e_marshal E x = None
    end).
  { clear v. intros v field act V W NM. rewrite find_field_leaf by exact NM.
    destruct (deep_equal v (or_null act)) eqn:D.
    - apply deep_equal_same in D; auto. exists [], [].
      split; [apply listing_nil; auto|]. split; [apply listing_nil; auto|]. split; [constructor|]. split; [constructor|].
      intros p x t O. apply off_leaf in O; [|exact NM]. destruct O as [_ [_ [_ O]]]. now destruct O.
    - assert (NS : ~ same v (or_null act)).
      { intros S0. apply deep_equal_same in S0; auto. congruence. }
      assert (BAD : (~ as_text E v (or_null act)) ->
        (forall t, or_null act = DStr t -> e_marshal E v <> None) ->
        exists pb ps, listing v (or_null act) plain pb /\ listing v (or_null act) (as_text E) ps /\
        Permutation [field] (map (fun p => last p field) pb) /\ Permutation [] (map (fun p => last p field) ps) /\
        (forall p x t, off v (or_null act) p x (DStr t) -> e_marshal E x <> None)).
      { intros NT MM. exists [[]], []. split; [now apply listing_one|]. split; [apply listing_nil; auto|].
        split; [apply Permutation_refl|]. split; [constructor|].
        intros p x t O. apply off_leaf in O; [|exact NM]. destruct O as [_ [-> [O _]]]. apply (MM t). auto. }
      destruct (or_null act) as [| | |s| |] eqn:A; try (apply BAD; [intros [s [X _]]; discriminate|intros t X; discriminate]).
      destruct (e_marshal E v) as [t|] eqn:M.
      + destruct (beq s t) eqn:X.
        * apply beq_eq in X. subst t. exists [], [[]].
          split; [apply listing_nil; [exact NM|]; right; intros H; apply H; exists s; auto|].
          split; [apply listing_one; auto; exists s; auto|]. split; [constructor|]. split; [apply Permutation_refl|].
          intros p x t O. apply off_leaf in O; [|exact NM]. destruct O as [_ [-> _]]. congruence.
        * apply beq_neq in X. apply BAD; [|intros; congruence].
          intros [s' [Y1 Y2]]. congruence.
      + exists [], v, s. split; [|exact M]. apply off_leaf; auto. }
  induction v using dyn_rect'; intros field act V W; try (apply LEAF; [exact V|exact W|intros [[l0 X] _]; discriminate X]).
  assert (C : (exists a, act = Some (DMap a)) \/ ~ is_map (or_null act)).
  { destruct act as [x|]; [|right; intros [l0 X]; discriminate X].
    destruct x; try (right; intros [? X]; discriminate X). left. eauto. }
  destruct C as [[a ->]|C]; [|apply LEAF; [exact V|exact W|tauto]].
  cbn [or_null find_field] in *. fold (entries a l).
  pose proof (entries_ok a l field W) as R. inversion V; subst. specialize (R H1 H2 H).
  destruct (entries a l) as [[b s]|].
  - destruct R as [pb [ps [U1 [U2 [P1 [P2 M]]]]]]. exists pb, ps.
    split; [now apply under_listing|]. split; [now apply under_listing|].
    split; [rewrite <- P1; symmetry; apply sort_by_perm|]. split; [rewrite <- P2; symmetry; apply sort_by_perm|].
    intros p x t O. apply off_map in O. destruct O as [k [v [p' [-> [G O]]]]]. apply get_some_in in G. eauto.
  - destruct R as [k [v [p [x [t [I [O M]]]]]]]. exists (k :: p), x, t. split; [|exact M].
    apply off_map. exists k, v, p. split; [reflexivity|]. split; [now apply get_in|exact O].
Qed.
End Find.

(** ** Recorded warnings *)

Lemma added_nil m : added [] m m.
Proof. intros n. cbn. lia. Qed.

Lemma added_one w fn text log m : added [w] m (add_warning w fn text log m).
Proof.
  intros n. unfold tally, add_warning, occurs. cbn [m_warnings with_warnings filter]. rewrite get_put.
  destruct (beq (w_name w) n) eqn:X; [|cbn; lia]. apply beq_eq in X. subst n.
  destruct (get (w_name w) (m_warnings m)); cbn; lia.
Qed.

Lemma added_app l1 l2 m1 m2 m3 : added l1 m1 m2 -> added l2 m2 m3 -> added (l1 ++ l2) m1 m3.
Proof.
  intros H1 H2 n. rewrite H2, H1. unfold occurs. rewrite filter_app, app_length. lia.
Qed.

Lemma has_added use w w' fn text log m : has_warning use w (add_warning w' fn text log m) = has_warning use w m.
Proof. reflexivity. Qed.

(** ** fixLogMap *)

Lemma valid_of (l : dmap) : wf l -> (forall k v, get k l = Some v -> valid v) -> valid (DMap l).
Proof.
  intros WF H. constructor; [exact WF|]. rewrite Forall_forall. intros [k v] I. cbn. apply (H k). now apply get_in.
Qed.

Lemma get_fix cs a k : get k (fix_map cs a) =
  if beq TimeKey k then None
  else if beq (B "message") k then None
  else if beq MessageKey k then match get (B "message") a with Some v => Some v | None => get MessageKey a end
  else if beq LevelKey k then match get LevelKey a with Some (DStr s) => Some (DStr (map_runes (cs_upper cs) s)) | o => o end
  else get k a.
Proof.
  unfold fix_map.
  set (a1 := drop TimeKey a).
  assert (G1 : forall x, get x a1 = if beq TimeKey x then None else get x a) by (intros x; apply get_drop).
  set (a2 := match get LevelKey a1 with Some (DStr s) => _ | _ => _ end).
  assert (G2 : forall x, get x a2 = if beq LevelKey x then
            match get LevelKey a with Some (DStr s) => Some (DStr (map_runes (cs_upper cs) s)) | o => o end else get x a1).
  { intros x. subst a2. rewrite (G1 LevelKey). change (beq TimeKey LevelKey) with false. cbv iota.
    destruct (beq LevelKey x) eqn:X.
    - apply beq_eq in X. subst x.
      destruct (get LevelKey a) as [[]|] eqn:L; rewrite ?get_put_same, ?G1; try exact L; reflexivity.
    - apply beq_neq in X. destruct (get LevelKey a) as [[]|]; rewrite ?(get_put_other _ _ _ _ X); reflexivity. }
  assert (GM : get (B "message") a2 = get (B "message") a).
  { rewrite G2. change (beq LevelKey (B "message")) with false. cbv iota. rewrite G1. reflexivity. }
  rewrite GM. destruct (beq TimeKey k) eqn:KT.
  { apply beq_eq in KT. subst k. destruct (get (B "message") a).
    - rewrite get_drop. change (beq (B "message") TimeKey) with false. cbv iota.
      rewrite get_put_other by discriminate. rewrite G2. change (beq LevelKey TimeKey) with false. cbv iota. now rewrite G1.
    - rewrite G2. change (beq LevelKey TimeKey) with false. cbv iota. now rewrite G1. }
  destruct (beq (B "message") k) eqn:KM.
  { apply beq_eq in KM. subst k. destruct (get (B "message") a) eqn:M; [now rewrite get_drop|]. now rewrite GM. }
  destruct (beq MessageKey k) eqn:KG.
  { apply beq_eq in KG. subst k. destruct (get (B "message") a) eqn:M.
    - rewrite get_drop. change (beq (B "message") MessageKey) with false. cbv iota. now rewrite get_put_same.
    - rewrite G2. change (beq LevelKey MessageKey) with false. cbv iota. now rewrite G1. }
  assert (R : get k a2 = if beq LevelKey k then match get LevelKey a with Some (DStr s) => Some (DStr (map_runes (cs_upper cs) s)) | o => o end
            else get k a).
  { rewrite G2. destruct (beq LevelKey k); [reflexivity|]. rewrite G1, KT. reflexivity. }
  destruct (get (B "message") a); [|exact R]. rewrite get_drop, KM. apply beq_neq in KG. rewrite get_put_other by exact KG. exact R.
Qed.

Lemma wf_fix cs a : wf a -> wf (fix_map cs a).
Proof.
  intros WF. unfold fix_map. set (a1 := drop TimeKey a). assert (W1 : wf a1) by now apply wf_drop.
  set (a2 := match get LevelKey a1 with Some (DStr s) => _ | _ => _ end).
  assert (W2 : wf a2) by (subst a2; destruct (get LevelKey a1) as [[]|]; auto using wf_put).
  destruct (get (B "message") a2); auto using wf_put, wf_drop.
Qed.

Lemma valid_fix cs a : valid (DMap a) -> valid (DMap (fix_map cs a)).
Proof.
  intros V. apply valid_of; [apply wf_fix, valid_wf, V|]. intros k v. rewrite get_fix.
  destruct (beq TimeKey k); [discriminate|]. destruct (beq (B "message") k); [discriminate|].
  destruct (beq MessageKey k).
  { destruct (get (B "message") a) eqn:M; [intros [= <-]; eapply valid_get; eauto|intros G; eapply valid_get; eauto]. }
  destruct (beq LevelKey k); [|intros G; eapply valid_get; eauto].
  destruct (get LevelKey a) as [u|] eqn:L; [|discriminate].
  destruct u; intros [= <-]; first [solve [constructor]|eapply valid_get; eauto].
Qed.

(** ** Decoding *)

Section JsonInd.
Variable P : json -> Prop.
Hypothesis Hnull : P JNull.
Hypothesis Hbool : forall b, P (JBool b).
Hypothesis Hnum : forall t, P (JNum t).
Hypothesis Hstr : forall s, P (JStr s).
Hypothesis Harr : forall l, Forall P l -> P (JArr l).
Hypothesis Hobj : forall l, Forall (fun e => P (snd e)) l -> P (JObj l).

Fixpoint json_rect' (v : json) : P v :=
  match v with
  | JNull => Hnull
  | JBool b => Hbool b
  | JNum q => Hnum q
  | JStr s => Hstr s
  | JArr l => Harr l ((fix go (l : list json) : Forall P l :=
                         match l with [] => Forall_nil _ | x :: l' => Forall_cons _ (json_rect' x) (go l') end) l)
  | JObj l => Hobj l ((fix go (l : list (bytes * json)) : Forall (fun e => P (snd e)) l :=
                         match l with [] => Forall_nil _ | x :: l' => Forall_cons _ (json_rect' (snd x)) (go l') end) l)
  end.
End JsonInd.

Section Decoding.
Variable num : bytes -> option Qc.

Fixpoint decode_fields (l : fields) (m : dmap) : option dmap :=
  match l with
  | [] => Some m
  | (k, j) :: l' => match (if valid_utf8 k then decode num j else None) with Some v => decode_fields l' (put k v m) | None => None end
  end.

Lemma decode_obj l : decode num (JObj l) = match decode_fields l [] with Some m => Some (DMap m) | None => None end.
Proof. reflexivity. Qed.

Lemma decode_app l1 l2 m : decode_fields (l1 ++ l2) m =
  match decode_fields l1 m with Some m' => decode_fields l2 m' | None => None end.
Proof.
  revert m. induction l1 as [|[k j] l1 IH]; intros m; [reflexivity|]. cbn [app decode_fields].
  destruct (if valid_utf8 k then decode num j else None); [apply IH|reflexivity].
Qed.

Lemma decode_valid j : forall v, decode num j = Some v -> valid v.
Proof.
  induction j using json_rect'; intros v; cbn [decode].
  - intros [= <-]. constructor.
  - intros [= <-]. constructor.
  - destruct (num t); [intros [= <-]; constructor|discriminate].
  - destruct (valid_utf8 s); [intros [= <-]; constructor|discriminate].
  - match goal with |- match ?f l with _ => _ end = _ -> _ => set (go := f) end.
    assert (G : forall r, go l = Some r -> Forall valid r).
    { clear v. induction H; cbn.
      - intros r [= <-]. constructor.
      - fold go. destruct (decode num x) as [v|] eqn:D; [|discriminate]. fold go in IHForall.
        destruct (go l) as [r'|]; [|discriminate]. intros r [= <-]. constructor; auto. }
    destruct (go l) as [r|]; [|discriminate]. intros [= <-]. constructor. auto.
  - fold (decode_fields l). fold decode_fields. intros X.
    assert (G : forall m m', valid (DMap m) -> decode_fields l m = Some m' -> valid (DMap m')).
    { clear X v. induction H as [|[k j] l Hj Hl IH]; intros m m' V; cbn [decode_fields].
      - now intros [= <-].
      - destruct (valid_utf8 k); [|discriminate]. destruct (decode num j) as [v|] eqn:D; [|discriminate]. apply IH. apply valid_of; [apply wf_put, valid_wf, V|].
        intros x u. rewrite get_put. destruct (beq k x); [intros [= <-]; now apply Hj|apply (valid_get x u m V)]. }
    change (match decode_fields l [] with Some m => Some (DMap m) | None => None end = Some v) in X.
    destruct (decode_fields l []) as [m|] eqn:D; [|discriminate]. injection X as <-. apply (G [] m); [repeat constructor|exact D].
Qed.
End Decoding.
