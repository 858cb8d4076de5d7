(** What the writers have received, in every reachable state of the concurrent
    machine. *)

From Coq Require Import Ascii String List ZArith NArith Bool Arith Lia.
From Verif Require Import Bytes Slog Flash Slices FlashHeap FlashConc FlashConcProofs.
Import ListNotations.

(** The line of a call. *)
Definition line (c : call) : bytes := concat (k_chunks c).

(** The lines that calls are to write to [q], in order. *)
Definition lines (q : nat) (l : list call) : list bytes :=
  map line (filter (fun c => k_ok c && Nat.eqb (k_sink c) q) l).

(** The entries of goroutine [i] in a log of writes. *)
Definition writes_of (i : nat) (log : list (nat * bytes)) : list bytes :=
  map snd (filter (fun e => Nat.eqb (fst e) i) log).

Lemma lines_app q l1 l2 : lines q (l1 ++ l2) = lines q l1 ++ lines q l2.
Proof. unfold lines. rewrite filter_app, map_app. reflexivity. Qed.

Lemma writes_app i l1 l2 : writes_of i (l1 ++ l2) = writes_of i l1 ++ writes_of i l2.
Proof. unfold writes_of. rewrite filter_app, map_app. reflexivity. Qed.

(** What a Write made of a line. *)
Definition piece (fails : bool) (t l : bytes) : Prop := t = l \/ fails = true /\ exists n, t = firstn n l.

Definition current (p : phase) : list call :=
  match p with
  | Idle => []
  | Got c _ | Composing c _ _ | Writing c _ _ _ _ | Wrote c _ _ | Reusing c _ _ | Putting c _ => [c]
  end.

Definition wrote (p : phase) : list call :=
  match p with
  | Wrote c _ _ | Reusing c _ _ | Putting c _ => [c]
  | _ => []
  end.

(** How far the current Write to [q] got. *)
Definition under_way (st : state) (q : nat) : bytes :=
  match s_lock st q with
  | None => []
  | Some i => match t_phase (s_thr st i) with
              | Writing c _ _ _ m => firstn m (line c)
              | _ => []
              end
  end.

Section Log.
Variable grow : policy.
Variable fails : bool.

Record linv (T : nat -> list call) (st : state) (L : nat -> list (nat * bytes)) : Prop := {
  linv_out : forall q, s_out st q = concat (map snd (L q)) ++ under_way st q;
  linv_thr : forall i, exists did,
    T i = did ++ current (t_phase (s_thr st i)) ++ t_todo (s_thr st i) /\
    forall q, Forall2 (piece fails) (writes_of i (L q)) (lines q (did ++ wrote (t_phase (s_thr st i))))
}.

Lemma piece_refl l : Forall2 (piece fails) l l.
Proof. induction l; constructor; auto. left. reflexivity. Qed.

Lemma nth_firstn_snoc (l : bytes) m : m < length l -> firstn (S m) l = firstn m l ++ [nth m l NUL].
Proof. revert m. induction l as [|x l IH]; intros [|m] H; cbn in *; try lia; auto. rewrite IH by lia. reflexivity. Qed.

Lemma nth_firstn_in (l : bytes) n m : m < n -> nth m (firstn n l) NUL = nth m l NUL.
Proof. revert n m. induction l as [|x l IH]; intros [|n] [|m] H; cbn; try lia; auto. apply IH. lia. Qed.

(** A step that changes nothing but where goroutine [i] is, not in a Write. *)
Lemma linv_quiet T L st st' i c p' :
  linv T st L -> s_out st' = s_out st ->
  (forall q, under_way st' q = under_way st q) ->
  (forall j, j <> i -> s_thr st' j = s_thr st j) ->
  s_thr st' i = at_phase p' (t_todo (s_thr st i)) ->
  current (t_phase (s_thr st i)) = [c] -> current p' = [c] ->
  (forall q did, lines q (did ++ wrote p') = lines q (did ++ wrote (t_phase (s_thr st i)))) ->
  linv T st' L.
Proof.
  intros [O H] Eo Et Ej Ei C C' W. split.
  - intros q. rewrite Eo, Et. apply O.
  - intros j. destruct (Nat.eq_dec j i) as [->|Ne].
    + destruct (H i) as (did & E & F). exists did. rewrite Ei. cbn. rewrite C', C in *. split; auto.
      intros q. rewrite W. apply F.
    + rewrite Ej by auto. apply H.
Qed.

(** Steps outside the critical section do not change what is under way. *)
Lemma under_way_same h bp cs nx cp lk o th h' bp' cs' nx' cp' i p todo o' :
  inv (mkst h bp cs nx cp lk o th) -> (forall q, ~ inside q (th i)) ->
  forall q, under_way (mkst h' bp' cs' nx' cp' lk o' (upd th i (at_phase p todo))) q =
            under_way (mkst h bp cs nx cp lk o th) q.
Proof.
  intros I N q. unfold under_way. cbn. destruct (lk q) as [j|] eqn:E; auto.
  destruct (Nat.eq_dec j i) as [->|Ne]; [|rewrite upd_other by auto; reflexivity].
  exfalso. exact (N q (inv_lock _ I q i E)).
Qed.

Local Arguments firstn : simpl never.

Theorem step_linv T L a st st' : inv st -> linv T st L -> cstep grow fails a st st' ->
  exists L', linv T st' L'.
Proof.
  intros I J S. pose proof (step_inv _ _ _ _ _ I S) as I'. destruct S.
  - (* get_pooled *)
    exists L. destruct J as [O F]. split.
    + intros q. rewrite (under_way_same h (l1 ++ b :: l2) cs nx cp lk o th); auto; [apply O|]. cbn. intros q'. rewrite H. exact (fun x => x).
    + intros j. specialize (F j). cbn in *. at_thread j i; auto. rewrite H in F. exact F.
  - (* get_new *)
    exists L. destruct J as [O F]. split.
    + intros q. rewrite (under_way_same h bp cs nx cp lk o th); auto; [apply O|]. cbn. intros q'. rewrite H. exact (fun x => x).
    + intros j. specialize (F j). cbn in *. at_thread j i; auto. rewrite H in F. exact F.
  - exists L. apply (linv_quiet T L _ _ i c (Composing c b k) J); cbn; rewrite ?upd_same, ?H; auto.
    + apply under_way_same; auto. intros q. rewrite H. exact (fun x => x).
    + intros j Ne. apply upd_other, Ne.
  - exists L. apply (linv_quiet T L _ _ i c (Composing c b nx) J); cbn; rewrite ?upd_same, ?H; auto.
    + apply under_way_same; auto. intros q. rewrite H. exact (fun x => x).
    + intros j Ne. apply upd_other, Ne.
  - (* append *)
    exists L. destruct J as [O F]. split; auto.
  - (* fail *)
    exists L. apply (linv_quiet T L _ _ i c (Reusing c b k) J); cbn; rewrite ?upd_same, ?H; auto.
    + apply under_way_same; auto. intros q. rewrite H. exact (fun x => x).
    + intros j Ne. apply upd_other, Ne.
    + intros q did. cbn. rewrite !lines_app. unfold lines at 2. cbn. rewrite H1. reflexivity.
  - (* lock *)
    exists L. apply (linv_quiet T L _ _ i c (Writing c b k (k_buffer (cs k)) 0) J); cbn; rewrite ?upd_same, ?H; auto.
    + intros q. unfold under_way. cbn. destruct (Nat.eq_dec q (k_sink c)) as [->|Nq].
      * rewrite upd_same, upd_same, H2. reflexivity.
      * rewrite upd_other by auto. destruct (lk q) as [j|] eqn:E; auto.
        destruct (Nat.eq_dec j i) as [->|Ne]; [|rewrite upd_other by auto; reflexivity].
        pose proof (inv_lock _ I q i E) as Q. cbn in Q. rewrite H in Q. destruct Q.
    + intros j Ne. apply upd_other, Ne.
  - (* write *)
    pose proof (inv_thr _ I i) as Ci. cbn in Ci. rewrite H in Ci. cbn in Ci.
    destruct Ci as (C1 & C2 & C3 & C4 & C5 & C6).
    exists L. destruct J as [O F]. split.
    + intros q. specialize (O q). unfold under_way in *. cbn in *. destruct (Nat.eq_dec q (k_sink c)) as [->|Nq].
      * rewrite upd_same, C6 in *. rewrite upd_same. rewrite H in O. cbn in *. rewrite O, <- app_assoc. f_equal.
        fold (line c) in C5. rewrite <- C5. rewrite nth_firstn_snoc by (rewrite good_len; auto).
        f_equal. f_equal. unfold gread. rewrite nth_firstn_in by auto. reflexivity.
      * rewrite upd_other by auto. rewrite O. f_equal. destruct (lk q) as [j|] eqn:E; auto.
        destruct (Nat.eq_dec j i) as [->|Ne]; [|rewrite upd_other by auto; reflexivity].
        pose proof (inv_lock _ I q i E) as Q. cbn in Q. rewrite H in Q. cbn in Q. congruence.
    + intros j. specialize (F j). cbn in *. at_thread j i; auto. rewrite H in F. exact F.
  - (* written *)
    pose proof (inv_thr _ I i) as Ci. cbn in Ci. rewrite H in Ci. cbn in Ci.
    destruct Ci as (C1 & C2 & C3 & C4 & C5 & C6).
    exists (upd L (k_sink c) (L (k_sink c) ++ [(i, firstn m (line c))])).
    assert (Pm : piece fails (firstn m (line c)) (line c)).
    { destruct H0 as [ -> | -> ]; [left|right; eauto]. fold (line c) in C5. rewrite <- C5 at 1.
      rewrite <- (good_len h s C2), firstn_all. exact C5. }
    destruct J as [O F]. split.
    + intros q. specialize (O q). unfold under_way in *. cbn in *. destruct (Nat.eq_dec q (k_sink c)) as [->|Nq].
      * rewrite upd_same, C6 in *. rewrite upd_same. rewrite H in O. cbn in *. rewrite O, map_app, concat_app. cbn.
        rewrite !app_nil_r. reflexivity.
      * rewrite upd_other by auto. rewrite O. f_equal. destruct (lk q) as [j|] eqn:E; auto.
        destruct (Nat.eq_dec j i) as [->|Ne]; [|rewrite upd_other by auto; reflexivity].
        pose proof (inv_lock _ I q i E) as Q. cbn in Q. rewrite H in Q. cbn in Q. congruence.
    + intros j. destruct (F j) as (did & E & P). exists did. cbn in *. at_thread j i.
      * rewrite H in E, P. cbn in *. split; auto. intros q. specialize (P q). rewrite app_nil_r in P.
        rewrite lines_app. unfold lines at 2. cbn [filter map]. rewrite C3. cbn [andb].
        destruct (Nat.eq_dec q (k_sink c)) as [->|Nq].
        -- rewrite upd_same, writes_app, Nat.eqb_refl. unfold writes_of at 2. cbn. rewrite Nat.eqb_refl. cbn.
           apply Forall2_app; auto.
        -- rewrite upd_other by auto. destruct (Nat.eqb_spec (k_sink c) q); [congruence|]. cbn. rewrite app_nil_r. exact P.
      * split; auto. intros q. specialize (P q). destruct (Nat.eq_dec q (k_sink c)) as [->|Nq].
        -- rewrite upd_same, writes_app. unfold writes_of at 2. cbn. destruct (Nat.eqb_spec i j); [congruence|]. cbn. rewrite app_nil_r. exact P.
        -- rewrite upd_other by auto. exact P.
  - (* unlock *)
    pose proof (inv_thr _ I i) as Ci. cbn in Ci. rewrite H in Ci. cbn in Ci. destruct Ci as (C1 & C2 & C3).
    exists L. apply (linv_quiet T L _ _ i c (Reusing c b k) J); cbn; rewrite ?upd_same, ?H; auto.
    + intros q. unfold under_way. cbn. destruct (Nat.eq_dec q (k_sink c)) as [->|Nq].
      * rewrite upd_same, C3, H. reflexivity.
      * rewrite upd_other by auto. destruct (lk q) as [j|] eqn:E; auto.
        destruct (Nat.eq_dec j i) as [->|Ne]; [|rewrite upd_other by auto; reflexivity].
        rewrite upd_same, H. reflexivity.
    + intros j Ne. apply upd_other, Ne.
  - (* reuse *)
    exists L. apply (linv_quiet T L _ _ i c (Putting c b) J); cbn; rewrite ?upd_same, ?H; auto.
    + apply under_way_same; auto. intros q. rewrite H. exact (fun x => x).
    + intros j Ne. apply upd_other, Ne.
  - (* put *)
    exists L. destruct J as [O F]. split.
    + intros q. rewrite (under_way_same h bp cs nx cp lk o th); auto; [apply O|]. cbn. intros q'. rewrite H. exact (fun x => x).
    + intros j. destruct (F j) as (did & E & P). cbn in *. at_thread j i; [|exists did; auto].
      exists (did ++ [c]). rewrite H in E, P. cbn in *. rewrite <- app_assoc. split; auto.
      intros q. rewrite app_nil_r. apply P.
  - exists L. destruct J as [O F]. split; auto.
  - exists L. destruct J as [O F]. split; auto.
Qed.

Theorem reach_linv T st : reaches_state grow fails (start T) st -> exists L, linv T st L.
Proof.
  induction 1 as [|st st' a R [L J] S].
  - exists (fun _ => []). split; [reflexivity|]. intros i. exists []. split; [reflexivity|]. intros q. constructor.
  - eapply step_linv; eauto. eapply reach_inv; eauto.
Qed.

(** Somebody can always go on. *)
Theorem progress st i c todo : inv st ->
  s_thr st i = at_phase Idle (c :: todo) \/ t_phase (s_thr st i) <> Idle ->
  exists j st', cstep grow fails (Some j) st st'.
Proof.
  intros I H. destruct st as [h bp cs nx cp lk o th]. cbn in H.
  assert (Run : forall j, match t_phase (th j) with
                          | Idle => False
                          | Composing c _ k => k_rest (cs k) <> [] \/ k_ok c = false \/ lk (k_sink c) = None
                          | _ => True end ->
                exists j st', cstep grow fails (Some j) (mkst h bp cs nx cp lk o th) st').
  { intros j Q. exists j. destruct (th j) as [p td] eqn:E. cbn in Q.
    change {| t_phase := p; t_todo := td |} with (at_phase p td) in E. destruct p as [|d b|d b k|d b k s m|d b k|d b k|d b].
    - destruct Q.
    - eexists. eapply comp_new; eauto.
    - destruct (k_rest (cs k)) as [|x xs] eqn:Er.
      + destruct (k_ok d) eqn:Ek.
        * destruct Q as [Q|[Q|Q]]; try congruence. eexists. eapply lock; eauto.
        * eexists. eapply fail; eauto.
      + destruct (gappend NUL grow h (k_buffer (cs k)) x) as [h' s] eqn:Eg. eexists. eapply append; eauto.
    - pose proof (inv_thr _ I j) as Cj. cbn in Cj. rewrite E in Cj. cbn in Cj. destruct Cj as (_ & _ & _ & L & _).
      apply Nat.lt_eq_cases in L as [L|L].
      + eexists. eapply write; eauto.
      + eexists. eapply written; eauto.
    - eexists. eapply unlock; eauto.
    - eexists. eapply reuse; eauto.
    - eexists. eapply put; eauto. }
  destruct H as [H|H].
  { exists i. destruct (gmake NUL h lenLog) as [h' b] eqn:G. eexists. eapply get_new; eauto. }
  destruct (t_phase (th i)) as [|d b|d b k|d b k s m|d b k|d b k|d b] eqn:E;
    try (apply (Run i); rewrite E; exact Logic.I); [congruence|].
  destruct (lk (k_sink d)) as [j|] eqn:El; [|apply (Run i); rewrite E; auto].
  apply (Run j). pose proof (inv_lock _ I _ _ El) as Q. unfold inside in Q. cbn in Q.
  destruct (t_phase (th j)); auto; destruct Q.
Qed.

End Log.
