(** Schedules: every execution can be completed, and a function that runs given
    schedules. *)

From Coq Require Import Ascii String List ZArith NArith Bool Arith Lia.
From Verif Require Import Bytes Slog Flash Slices FlashHeap FlashConc FlashConcProofs FlashConcLog.
Import ListNotations.

(** ** How much is left to do *)

Definition cost (c : call) : nat := 7 + length (k_chunks c) + length (line c).

Definition left_now (cs : nat -> cell) (p : phase) : nat :=
  match p with
  | Idle => 0
  | Got c _ => 6 + length (k_chunks c) + length (line c)
  | Composing c _ k => 5 + length (k_rest (cs k)) + length (line c)
  | Writing _ _ _ s m => 4 + (sl_len s - m)
  | Wrote _ _ _ => 3
  | Reusing _ _ _ => 2
  | Putting _ _ => 1
  end.

Definition left (cs : nat -> cell) (t : thread) : nat :=
  left_now cs (t_phase t) + fold_right (fun c n => cost c + n) 0 (t_todo t).

Fixpoint total (f : nat -> nat) (n : nat) : nat :=
  match n with O => 0 | S n' => f n' + total f n' end.

Lemma total_less f g i n : i < n -> (forall j, j <> i -> g j = f j) -> g i < f i -> total g n < total f n.
Proof.
  intros L O D. induction n as [|n IH]; [lia|]. cbn.
  destruct (Nat.eq_dec n i) as [->|Ne].
  - assert (E : forall m, m <= i -> total g m = total f m).
    { induction m as [|m IHm]; intros Lm; cbn; auto. rewrite IHm, O by lia. reflexivity. }
    rewrite E by lia. lia.
  - rewrite (O n Ne). specialize (IH ltac:(lia)). lia.
Qed.

Section Run.
Variable grow : policy.
Variable fails : bool.

Lemma composer_apart st i j k : inv st -> j <> i -> In k (heldC (s_thr st i)) -> ~ In k (heldC (s_thr st j)).
Proof. intros I Ne H Q. exact (proj2 (proj2 (proj2 (inv_cmp _ I))) i j k (not_eq_sym Ne) H Q). Qed.

Lemma left_frame cs cs' t : (forall k, In k (heldC t) -> cs' k = cs k) -> left cs' t = left cs t.
Proof.
  intros H. unfold left, heldC in *. f_equal. destruct (t_phase t); cbn in *; auto. rewrite H; auto.
Qed.

Lemma step_less st st' i : inv st -> cstep grow fails (Some i) st st' ->
  left (s_cells st') (s_thr st' i) < left (s_cells st) (s_thr st i) /\
  forall j, j <> i -> left (s_cells st') (s_thr st' j) = left (s_cells st) (s_thr st j).
Proof.
  intros I S. remember (Some i) as a eqn:Ea. destruct S; try discriminate; injection Ea as ->;
    pose proof (inv_thr _ I i) as Ci; cbn [s_cells s_thr s_heap s_lock] in *.
  all: try (split; [rewrite upd_same, H; unfold left, cost; cbn; lia|intros j Ne; rewrite upd_other by auto; reflexivity]).
  - (* comp_pooled *)
    split; [rewrite upd_same, H; unfold left; cbn; rewrite upd_same; cbn; lia|].
    intros j Ne. rewrite upd_other by auto. apply left_frame. intros k' Ik. apply upd_other. intros ->.
    apply (proj1 (proj2 (proj2 (inv_cmp _ I))) j k Ik). cbn. apply in_or_app. cbn. auto.
  - (* comp_new *)
    split; [rewrite upd_same, H; unfold left; cbn; rewrite upd_same; cbn; lia|].
    intros j Ne. rewrite upd_other by auto. apply left_frame. intros k' Ik. apply upd_other. intros ->.
    pose proof (proj1 (proj1 (proj2 (proj2 (inv_cmp _ I))) j nx Ik)) as Q. cbn in Q. lia.
  - (* append *)
    split; [rewrite H; unfold left; cbn; rewrite upd_same, H0; cbn; lia|].
    intros j Ne. apply left_frame. intros k' Ik. apply upd_other. intros ->.
    apply (composer_apart _ i j k I Ne); cbn; [rewrite H; cbn; auto|exact Ik].
  - (* lock *)
    split; [|intros j Ne; rewrite upd_other by auto; reflexivity].
    rewrite H in Ci. destruct Ci as (_ & G & did & E1 & E2).
    rewrite upd_same, H. unfold left. cbn. rewrite H0 in *. rewrite app_nil_r in E1.
    apply (f_equal (@length ascii)) in E2. rewrite good_len in E2 by auto. unfold line. rewrite E1, E2. lia.
Qed.

Lemma reaches_trans st0 st st' : reaches_state grow fails st0 st -> reaches_state grow fails st st' ->
  reaches_state grow fails st0 st'.
Proof. intros R H. induction H; auto. eapply one_more; eauto. Qed.

(** From every reachable state the calls can all be completed. *)
Theorem completes n T : (forall i, n <= i -> T i = []) ->
  forall st, reaches_state grow fails (start T) st ->
  exists st', reaches_state grow fails st st' /\ finished st'.
Proof.
  intros F st R.
  remember (total (fun i => left (s_cells st) (s_thr st i)) n) as w eqn:Ew.
  revert st R Ew. induction w as [w IH] using (well_founded_induction Wf_nat.lt_wf). intros st R Ew.
  pose proof (reach_inv _ _ _ _ R) as I. destruct (reach_linv _ _ _ _ R) as [L J].
  assert (Out : forall i, n <= i -> s_thr st i = at_phase Idle []).
  { intros i Li. destruct (linv_thr _ _ _ _ J i) as (did & E & _). rewrite (F i Li) in E.
    destruct (s_thr st i) as [p td]. cbn in E. symmetry in E. apply app_eq_nil in E as [_ E].
    apply app_eq_nil in E as [E1 E2]. subst td. destruct p; try discriminate. reflexivity. }
  assert (Dec : (forall i, i < n -> s_thr st i = at_phase Idle []) \/
    exists i, i < n /\ (t_phase (s_thr st i) <> Idle \/ exists c td, s_thr st i = at_phase Idle (c :: td))).
  { clear. induction n as [|m IHm]; [left; lia|]. destruct IHm as [A|(i & Li & A)]; [|right; exists i; split; auto].
    destruct (s_thr st m) as [p td] eqn:E. destruct p.
    - destruct td as [|c td]; [|right; exists m; rewrite E; split; eauto].
      left. intros i Li. destruct (Nat.eq_dec i m) as [->|Ne]; [auto|apply A; lia].
    - right. exists m. rewrite E. split; [lia|]. left. discriminate.
    - right. exists m. rewrite E. split; [lia|]. left. discriminate.
    - right. exists m. rewrite E. split; [lia|]. left. discriminate.
    - right. exists m. rewrite E. split; [lia|]. left. discriminate.
    - right. exists m. rewrite E. split; [lia|]. left. discriminate.
    - right. exists m. rewrite E. split; [lia|]. left. discriminate. }
  destruct Dec as [D|(i & Li & D)].
  { exists st. split; [apply at_start|]. intros i. destruct (Nat.lt_ge_cases i n); auto. }
  assert (P : exists j st', cstep grow fails (Some j) st st').
  { destruct D as [D|(c & td & D)].
    - apply (progress grow fails st i {| k_sink := 0; k_chunks := []; k_ok := true |} [] I). auto.
    - apply (progress grow fails st i c td I). auto. }
  destruct P as (j & st' & S). pose proof (step_less st st' j I S) as [S1 S2].
  assert (Lj : j < n).
  { destruct (Nat.lt_ge_cases j n) as [Q|Q]; auto. rewrite (Out j Q) in S1. unfold left in S1. cbn in S1. lia. }
  pose proof (one_more _ _ _ _ _ _ R S) as R'.
  destruct (IH _ ltac:(rewrite Ew; apply (total_less _ _ j n Lj S2 S1)) st' R' eq_refl) as (st2 & R2 & F2).
  exists st2. split; auto. apply (reaches_trans st st' st2); auto. apply (one_more _ _ _ st _ _ (at_start _ _ _) S).
Qed.

(** ** Running a schedule *)

(** The step of goroutine [i], taking from the pools if there is something. *)
Definition exec (i : nat) (st : state) : option state :=
  match st with
  | mkst h bp cs nx cp lk o th =>
    let todo := t_todo (th i) in
    match t_phase (th i) with
    | Idle =>
      match todo with
      | [] => None
      | c :: td =>
        match bp with
        | b :: bp' => Some (mkst h bp' cs nx cp lk o (upd th i (at_phase (Got c (reset_len b)) td)))
        | [] => let (h', b) := gmake NUL h lenLog in
                Some (mkst h' bp cs nx cp lk o (upd th i (at_phase (Got c (reset_len b)) td)))
        end
      end
    | Got c b =>
      match cp with
      | k :: cp' => Some (mkst h bp (upd cs k {| k_buffer := b; k_rest := k_chunks c |}) nx cp' lk o
                            (upd th i (at_phase (Composing c b k) todo)))
      | [] => Some (mkst h bp (upd cs nx {| k_buffer := b; k_rest := k_chunks c |}) (S nx) cp lk o
                      (upd th i (at_phase (Composing c b nx) todo)))
      end
    | Composing c b k =>
      match k_rest (cs k) with
      | x :: xs => let (h', s) := gappend NUL grow h (k_buffer (cs k)) x in
                   Some (mkst h' bp (upd cs k {| k_buffer := s; k_rest := xs |}) nx cp lk o th)
      | [] =>
        if k_ok c then
          match lk (k_sink c) with
          | Some _ => None
          | None => Some (mkst h bp cs nx cp (upd lk (k_sink c) (Some i)) o
                            (upd th i (at_phase (Writing c b k (k_buffer (cs k)) 0) todo)))
          end
        else Some (mkst h bp cs nx cp lk o (upd th i (at_phase (Reusing c b k) todo)))
      end
    | Writing c b k s m =>
      if Nat.ltb m (sl_len s)
      then Some (mkst h bp cs nx cp lk (upd o (k_sink c) (o (k_sink c) ++ [nth m (array h s) NUL]))
                   (upd th i (at_phase (Writing c b k s (S m)) todo)))
      else if Nat.eqb m (sl_len s)
      then Some (mkst h bp cs nx cp lk o (upd th i (at_phase (Wrote c b k) todo)))
      else None
    | Wrote c b k => Some (mkst h bp cs nx cp (upd lk (k_sink c) None) o (upd th i (at_phase (Reusing c b k) todo)))
    | Reusing c b k => Some (mkst h bp cs nx (k :: cp) lk o (upd th i (at_phase (Putting c b) todo)))
    | Putting c b => Some (mkst h (b :: bp) cs nx cp lk o (upd th i (at_phase Idle todo)))
    end
  end.

Lemma exec_step i st st' : exec i st = Some st' -> cstep grow fails (Some i) st st'.
Proof.
  destruct st as [h bp cs nx cp lk o th]. unfold exec. destruct (th i) as [p todo] eqn:E.
  change {| t_phase := p; t_todo := todo |} with (at_phase p todo) in E. cbn [t_phase t_todo].
  destruct p as [|c b|c b k|c b k s m|c b k|c b k|c b].
  - destruct todo as [|c td]; [discriminate|]. destruct bp as [|b bp'].
    + destruct (gmake NUL h lenLog) as [h' b] eqn:G. intros Q. injection Q as <-. eapply get_new; eauto.
    + intros Q. injection Q as <-. apply (get_pooled grow fails i c td [] b bp'). exact E.
  - destruct cp as [|k cp']; intros Q; injection Q as <-.
    + eapply comp_new; eauto.
    + apply (comp_pooled grow fails i c b todo h bp cs nx [] k cp'). exact E.
  - destruct (k_rest (cs k)) as [|x xs] eqn:Er.
    + destruct (k_ok c) eqn:Ek.
      * destruct (lk (k_sink c)) eqn:El; [discriminate|]. intros Q. injection Q as <-. eapply lock; eauto.
      * intros Q. injection Q as <-. eapply fail; eauto.
    + destruct (gappend NUL grow h (k_buffer (cs k)) x) as [h' s] eqn:G. intros Q. injection Q as <-. eapply append; eauto.
  - destruct (Nat.ltb_spec m (sl_len s)).
    + intros Q. injection Q as <-. eapply write; eauto.
    + destruct (Nat.eqb_spec m (sl_len s)); [|discriminate]. intros Q. injection Q as <-. eapply written; eauto.
  - intros Q. injection Q as <-. eapply unlock; eauto.
  - intros Q. injection Q as <-. eapply reuse; eauto.
  - intros Q. injection Q as <-. eapply put; eauto.
Qed.

(** Goroutines that cannot move are passed over. *)
Fixpoint schedule (l : list nat) (st : state) : state :=
  match l with
  | [] => st
  | i :: l' => schedule l' (match exec i st with Some st' => st' | None => st end)
  end.

Lemma schedule_reaches l : forall st0 st, reaches_state grow fails st0 st -> reaches_state grow fails st0 (schedule l st).
Proof.
  induction l as [|i l IH]; intros st0 st R; cbn; auto. apply IH. destruct (exec i st) as [st'|] eqn:E; auto.
  eapply one_more; eauto. apply exec_step with (1 := E).
Qed.

End Run.
