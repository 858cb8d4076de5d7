(** Invariants of the concurrent machine of FlashConc.v. *)

From Coq Require Import Ascii String List ZArith NArith Bool Arith Lia.
From Verif Require Import Bytes Slog Flash Slices FlashHeap FlashHom FlashConc.
Import ListNotations.

Lemma upd_same {A} (f : nat -> A) i x : upd f i x i = x.
Proof. unfold upd. rewrite Nat.eqb_refl. reflexivity. Qed.

Lemma upd_other {A} (f : nat -> A) i x j : j <> i -> upd f i x j = f j.
Proof. intros H. unfold upd. apply Nat.eqb_neq in H. rewrite H. reflexivity. Qed.

(** ** Resources: in the pool, or held by one goroutine *)

Definition res_ok (pool : list nat) (held : nat -> list nat) (bound : nat) : Prop :=
  NoDup pool /\
  (forall a, In a pool -> a < bound) /\
  (forall i a, In a (held i) -> a < bound /\ ~ In a pool) /\
  (forall i j a, i <> j -> In a (held i) -> ~ In a (held j)).

Lemma res_step pool held bound pool' held' bound' i :
  res_ok pool held bound -> bound <= bound' ->
  (forall j, j <> i -> held' j = held j) ->
  NoDup pool' ->
  (forall a, In a pool' -> ~ In a (held' i)) ->
  (forall a, In a pool' -> In a pool \/ In a (held i) \/ bound <= a < bound') ->
  (forall a, In a (held' i) -> In a pool \/ In a (held i) \/ bound <= a < bound') ->
  res_ok pool' held' bound'.
Proof.
  intros (N & Bp & Hh & D) Lb Oth N' Dis Fp Fh.
  assert (Sep : forall j a, j <> i -> In a (held j) ->
    ~ (In a pool \/ In a (held i) \/ bound <= a < bound')).
  { intros j a Ne I [P|[P|P]]; [apply (Hh j a I); auto|apply (D j i a Ne I P)|pose proof (proj1 (Hh j a I)); lia]. }
  split; [auto|]. split; [|split].
  - intros a I. destruct (Fp a I) as [P|[P|P]]; [specialize (Bp a P); lia|pose proof (proj1 (Hh i a P)); lia|lia].
  - intros j a I. destruct (Nat.eq_dec j i) as [->|Ne].
    + split; [|intros P; exact (Dis a P I)].
      destruct (Fh a I) as [P|[P|P]]; [specialize (Bp a P); lia|pose proof (proj1 (Hh i a P)); lia|lia].
    + rewrite (Oth j Ne) in I. split; [pose proof (proj1 (Hh j a I)); lia|].
      intros P. exact (Sep j a Ne I (Fp a P)).
  - intros j k a Ne I J. destruct (Nat.eq_dec j i) as [->|Nj].
    + rewrite (Oth k) in J by auto. exact (Sep k a ltac:(auto) J (Fh a I)).
    + rewrite (Oth j Nj) in I. destruct (Nat.eq_dec k i) as [->|Nk].
      * exact (Sep j a Nj I (Fh a J)).
      * rewrite (Oth k Nk) in J. exact (D j k a Ne I J).
Qed.

(** Same pool: only what is held changes. *)
Lemma res_hold pool held bound held' bound' i :
  res_ok pool held bound -> bound <= bound' ->
  (forall j, j <> i -> held' j = held j) ->
  (forall a, In a (held' i) -> In a (held i) \/ bound <= a < bound') ->
  res_ok pool held' bound'.
Proof.
  intros R L O F. eapply (res_step _ _ _ _ _ _ i R L O); [apply R| | |].
  - intros a P I. destruct (F a I) as [H|H].
    + apply (proj1 (proj2 (proj2 R)) i a H); auto.
    + apply (proj1 (proj2 R)) in P. lia.
  - auto.
  - intros a I. right. auto.
Qed.

(** Taking from the pool. *)
Lemma res_take l1 x l2 held bound held' i :
  res_ok (l1 ++ x :: l2) held bound ->
  (forall j, j <> i -> held' j = held j) ->
  (forall a, In a (held' i) -> a = x \/ In a (held i)) ->
  res_ok (l1 ++ l2) held' bound.
Proof.
  intros R O F. pose proof (NoDup_remove _ _ _ (proj1 R)) as [N1 N2].
  eapply (res_step _ _ _ _ _ _ i R (le_n _) O N1).
  - intros a P I. destruct (F a I) as [->|H]; [auto|].
    apply (proj1 (proj2 (proj2 R)) i a H). apply in_app_or in P. apply in_or_app. cbn. tauto.
  - intros a P. left. apply in_app_or in P. apply in_or_app. cbn. tauto.
  - intros a I. destruct (F a I) as [->|H]; [|auto]. left. apply in_or_app. cbn. auto.
Qed.

(** Giving back. *)
Lemma res_give pool x held bound held' i :
  res_ok pool held bound ->
  (forall j, j <> i -> held' j = held j) ->
  In x (held i) -> (forall a, In a (held' i) -> In a (held i) /\ a <> x) ->
  res_ok (x :: pool) held' bound.
Proof.
  intros R O X F. eapply (res_step _ _ _ _ _ _ i R (le_n _) O).
  - constructor; [apply (proj1 (proj2 (proj2 R)) i x X)|apply R].
  - intros a [<-|P] I; destruct (F _ I) as [H1 H2]; [auto|].
    apply (proj1 (proj2 (proj2 R)) i a H1); auto.
  - intros a [<-|P]; auto.
  - intros a I. right. left. apply F. exact I.
Qed.

Lemma res_drop l1 x l2 held bound : res_ok (l1 ++ x :: l2) held bound -> res_ok (l1 ++ l2) held bound.
Proof. intros R. apply (res_take l1 x l2 held bound held 0 R); auto. Qed.

Lemma res_same pool held held' bound : res_ok pool held bound -> (forall j, held' j = held j) -> res_ok pool held' bound.
Proof. intros R H. apply (res_hold pool held bound held' bound 0 R (le_n _)); auto. intros a. rewrite H. auto. Qed.

(** ** Slices with an array *)

Definition good (h : heap ascii) (s : gslice) : Prop :=
  sl_len s <= sl_cap s /\ 0 < sl_cap s /\ sl_arr s < length h /\ length (array h s) = sl_cap s.

Lemma good_len h s : good h s -> length (gread h s) = sl_len s.
Proof. intros (L & _ & _ & A). unfold gread. rewrite firstn_length. lia. Qed.

Lemma good_reset h s : good h s -> good h (reset_len s) /\ gread h (reset_len s) = [].
Proof. intros (L & P & A & E). unfold good, reset_len, gread, array in *. cbn. repeat split; auto. lia. Qed.

Lemma append_good grow h s x h' s' : good h s -> gappend NUL grow h s x = (h', s') ->
  good h' s' /\ gread h' s' = gread h s ++ x /\ length h <= length h' /\
  (forall a, a < length h -> length (nth a h' []) = length (nth a h [])) /\
  (forall a, a < length h -> a <> sl_arr s -> nth a h' [] = nth a h []) /\
  (sl_arr s' = sl_arr s \/ length h <= sl_arr s' < length h').
Proof.
  intros (L & P & A & E) G. pose proof (append_ok _ NUL grow h s x) as H. rewrite G in H.
  destruct H as (W & R & (K1 & K2) & F).
  { split; auto. }
  assert (C : 0 < sl_cap s').
  { unfold gappend in G. destruct (sl_len s + length x <=? sl_cap s) eqn:Q; injection G as <- <-; cbn; auto.
    apply Nat.leb_gt in Q. lia. }
  destruct W as [W1 [W2|[W2 W3]]]; [lia|].
  split; [repeat split; auto|]. split; [auto|]. split; [auto|]. split; [|split].
  - intros a La. apply K2. exact La.
  - intros a La Ne. destruct (K2 a La) as [Q1 Q2].
    specialize (Q2 (max (length (nth a h' [])) (length (nth a h []))) ltac:(auto)).
    rewrite !firstn_all2 in Q2 by lia. exact Q2.
  - destruct F as [F|F]; [left; apply F|right; lia].
Qed.

Lemma make_good h cap h' s : 0 < cap -> gmake NUL h cap = (h', s) ->
  good h' s /\ gread h' s = [] /\ length h <= length h' /\ sl_len s = 0 /\ length h <= sl_arr s < length h' /\
  (forall a, a < length h -> nth a h' [] = nth a h []).
Proof.
  intros P G. pose proof (make_ok _ NUL h cap) as H. rewrite G in H.
  destruct H as ([W1 W2] & R & Z & A & C & L & K). destruct W2 as [W2|[W2 W3]]; [lia|].
  repeat split; auto; lia.
Qed.

Lemma good_frame h h' s : good h s -> length h <= length h' ->
  length (nth (sl_arr s) h' []) = length (nth (sl_arr s) h []) -> good h' s.
Proof. intros (L & P & A & E) Le F. unfold good, array in *. repeat split; auto; lia. Qed.

(** ** The invariant *)

(** Arrays a goroutine relies on. *)
Definition heldA (cs : nat -> cell) (t : thread) : list nat :=
  match t_phase t with
  | Idle => []
  | Got _ b => [sl_arr b]
  | Composing _ b k => [sl_arr b; sl_arr (k_buffer (cs k))]
  | Writing _ b k s _ => [sl_arr b; sl_arr s]
  | Wrote _ b _ | Reusing _ b _ | Putting _ b => [sl_arr b]
  end.

(** Composers a goroutine has. *)
Definition heldC (t : thread) : list nat :=
  match t_phase t with
  | Composing _ _ k | Writing _ _ k _ _ | Wrote _ _ k | Reusing _ _ k => [k]
  | _ => []
  end.

Definition content (h : heap ascii) (cs : nat -> cell) (lk : nat -> option nat) (i : nat) (t : thread) : Prop :=
  match t_phase t with
  | Idle => True
  | Got c b => good h b /\ sl_len b = 0
  | Composing c b k =>
      good h b /\ good h (k_buffer (cs k)) /\
      exists did, k_chunks c = did ++ k_rest (cs k) /\ gread h (k_buffer (cs k)) = concat did
  | Writing c b k s m =>
      good h b /\ good h s /\ k_ok c = true /\ m <= sl_len s /\
      gread h s = concat (k_chunks c) /\ lk (k_sink c) = Some i
  | Wrote c b k => good h b /\ k_ok c = true /\ lk (k_sink c) = Some i
  | Reusing c b _ => good h b
  | Putting c b => good h b
  end.

(** In the critical section of mutex [q]. *)
Definition inside (q : nat) (t : thread) : Prop :=
  match t_phase t with
  | Writing c _ _ _ _ | Wrote c _ _ => k_sink c = q
  | _ => False
  end.

Record inv (st : state) : Prop := {
  inv_arr : res_ok (map sl_arr (s_bpool st)) (fun i => heldA (s_cells st) (s_thr st i)) (length (s_heap st));
  inv_cmp : res_ok (s_cpool st) (fun i => heldC (s_thr st i)) (s_next st);
  inv_good : forall b, In b (s_bpool st) -> good (s_heap st) b;
  inv_thr : forall i, content (s_heap st) (s_cells st) (s_lock st) i (s_thr st i);
  inv_lock : forall q i, s_lock st q = Some i -> inside q (s_thr st i)
}.

(** What one goroutine relies on survives changes elsewhere. *)
Lemma content_frame h cs lk h' cs' lk' i t :
  content h cs lk i t -> length h <= length h' ->
  (forall a, a < length h -> length (nth a h' []) = length (nth a h [])) ->
  (forall a, In a (heldA cs t) -> nth a h' [] = nth a h []) ->
  (forall k, In k (heldC t) -> cs' k = cs k) ->
  (forall q, inside q t -> lk' q = lk q) ->
  content h' cs' lk' i t /\ heldA cs' t = heldA cs t.
Proof.
  intros C L Le Ar Ce Lk. unfold content, heldA, heldC, inside in *.
  destruct (t_phase t) as [|c b|c b k|c b k s m|c b k|c b k|c b]; cbn in *.
  - auto.
  - destruct C as [C1 C2]. split; auto. split; auto. apply (good_frame h); auto. apply Le, C1.
  - rewrite (Ce k) by auto. split; auto. destruct C as (C1 & C2 & did & C3 & C4).
    split; [apply (good_frame h); auto; apply Le, C1|].
    split; [apply (good_frame h); auto; apply Le, C2|]. exists did. split; auto.
    rewrite <- C4. unfold gread, array. rewrite Ar by auto. reflexivity.
  - destruct C as (C1 & C2 & C3 & C4 & C5 & C6). split; auto.
    split; [apply (good_frame h); auto; apply Le, C1|].
    split; [apply (good_frame h); auto; apply Le, C2|]. repeat split; auto.
    + rewrite <- C5. unfold gread, array. rewrite Ar by auto. reflexivity.
    + rewrite Lk; auto.
  - destruct C as (C1 & C2 & C3). split; auto. split; [apply (good_frame h); auto; apply Le, C1|].
    split; auto. rewrite Lk; auto.
  - split; auto. apply (good_frame h); auto. apply Le, C.
  - split; auto. apply (good_frame h); auto. apply Le, C.
Qed.

Lemma start_inv T : inv (start T).
Proof.
  split; cbn; auto; try discriminate.
  - split; [apply NoDup_nil|]. cbn. repeat split; tauto.
  - split; [apply NoDup_nil|]. cbn. repeat split; tauto.
  - tauto.
Qed.

Ltac at_thread j i := destruct (Nat.eq_dec j i) as [->|Ne]; [rewrite ?upd_same|rewrite ?upd_other by assumption].

Section Steps.
Variable grow : policy.
Variable fails : bool.

(** Others are not disturbed: arrays held by others are not changed, composers
    held by others neither, nor mutexes. *)
Lemma others i h bp cs nx cp lk o th h' cs' lk' :
  inv (mkst h bp cs nx cp lk o th) ->
  length h <= length h' ->
  (forall a, a < length h -> length (nth a h' []) = length (nth a h [])) ->
  (forall a, a < length h -> ~ In a (heldA cs (th i)) -> nth a h' [] = nth a h []) ->
  (forall k j, j <> i -> In k (heldC (th j)) -> cs' k = cs k) ->
  (forall q j, j <> i -> inside q (th j) -> lk' q = lk q) ->
  forall j, j <> i -> content h' cs' lk' j (th j) /\ heldA cs' (th j) = heldA cs (th j).
Proof.
  intros I L Le Ar Ce Lk j Ne. destruct I as [R1 R2 G C K]; cbn in *.
  apply (content_frame h cs lk); auto.
  - intros a Ia. destruct R1 as (_ & _ & R1 & R1'). destruct (R1 j a Ia) as [B _].
    apply Ar; auto. intros Q. exact (R1' j i a Ne Ia Q).
  - intros k Ik. exact (Ce k j Ne Ik).
  - intros q Q. exact (Lk q j Ne Q).
Qed.

Ltac solve_held :=
  let j := fresh "j" in let N := fresh "N" in
  intros j N; cbn; rewrite ?upd_other by assumption; reflexivity.

Theorem step_inv a st st' : inv st -> cstep grow fails a st st' -> inv st'.
Proof.
  intros I S. destruct S.
  - (* get_pooled *)
    pose proof (others i h _ cs nx cp lk o th h cs lk I (le_n _) ltac:(auto) ltac:(auto) ltac:(auto) ltac:(auto)) as Oth.
    destruct I as [R1 R2 G C K]; cbn in *.
    destruct (good_reset h b (G b ltac:(apply in_or_app; cbn; auto))) as [Gb _].
    split; cbn.
    + rewrite map_app in *. cbn in R1. apply (res_take _ _ _ _ _ _ i R1); [solve_held|].
      rewrite upd_same. cbn. intros a [<-|[]]. auto.
    + apply (res_same _ _ _ _ R2). intros j. at_thread j i; auto. rewrite H. reflexivity.
    + intros b0 Ib. apply G. apply in_app_or in Ib. apply in_or_app. cbn. tauto.
    + intros j. at_thread j i; [|apply C]. cbn. auto.
    + intros q j Q. specialize (K q j Q). at_thread j i; auto. rewrite H in K. exact K.
  - (* get_new *)
    destruct (make_good h lenLog h' b ltac:(unfold lenLog; lia) H0) as (Gb & Rb & Lh & Zb & Ab & Kb).
    assert (Le : forall a, a < length h -> length (nth a h' []) = length (nth a h [])) by (intros a La; rewrite Kb; auto).
    pose proof (others i h bp cs nx cp lk o th h' cs lk I Lh Le ltac:(auto) ltac:(auto) ltac:(auto)) as Oth.
    destruct I as [R1 R2 G C K]; cbn in *.
    destruct (good_reset h' b Gb) as [Gr _].
    split; cbn.
    + apply (res_hold _ _ _ _ _ i R1 Lh); [solve_held|].
      rewrite upd_same. cbn. intros a [<-|[]]. auto.
    + apply (res_same _ _ _ _ R2). intros j. at_thread j i; auto. rewrite H. reflexivity.
    + intros b0 Ib. apply (good_frame h); auto. apply Le, G, Ib.
    + intros j. at_thread j i; [cbn; auto|]. apply Oth. exact Ne.
    + intros q j Q. specialize (K q j Q). at_thread j i; auto. rewrite H in K. exact K.
  - (* comp_pooled *)
    set (e := {| k_buffer := b; k_rest := k_chunks c |}).
    assert (Ce : forall k' j, j <> i -> In k' (heldC (th j)) -> upd cs k e k' = cs k').
    { intros k' j Ne Ik. apply upd_other. intros ->. apply (proj1 (proj2 (proj2 (inv_cmp _ I))) j k Ik).
      cbn. apply in_or_app. cbn. auto. }
    pose proof (others i h bp cs nx _ lk o th h (upd cs k e) lk I (le_n _) ltac:(auto) ltac:(auto) Ce ltac:(auto)) as Oth.
    destruct I as [R1 R2 G C K]; cbn in *. pose proof (C i) as Ci. rewrite H in Ci. cbn in Ci. destruct Ci as [Gb Zb].
    split; cbn.
    + apply (res_hold _ _ _ _ _ i R1 (le_n _)).
      * intros j Ne. rewrite upd_other by auto. apply Oth. exact Ne.
      * rewrite H, upd_same. cbn. rewrite upd_same. cbn. tauto.
    + apply (res_take _ _ _ _ _ _ i R2); [solve_held|]. rewrite upd_same. cbn. intros a [<-|[]]. auto.
    + exact G.
    + intros j. at_thread j i; [|apply Oth; exact Ne]. cbn. rewrite upd_same. cbn. split; auto. split; auto.
      exists []. split; auto. unfold gread. rewrite Zb. reflexivity.
    + intros q j Q. specialize (K q j Q). at_thread j i; auto. rewrite H in K. exact K.
  - (* comp_new *)
    set (e := {| k_buffer := b; k_rest := k_chunks c |}).
    assert (Ce : forall k' j, j <> i -> In k' (heldC (th j)) -> upd cs nx e k' = cs k').
    { intros k' j Ne Ik. apply upd_other. intros ->. pose proof (proj1 (proj1 (proj2 (proj2 (inv_cmp _ I))) j nx Ik)) as Q.
      cbn in Q. lia. }
    pose proof (others i h bp cs nx cp lk o th h (upd cs nx e) lk I (le_n _) ltac:(auto) ltac:(auto) Ce ltac:(auto)) as Oth.
    destruct I as [R1 R2 G C K]; cbn in *. pose proof (C i) as Ci. rewrite H in Ci. cbn in Ci. destruct Ci as [Gb Zb].
    split; cbn.
    + apply (res_hold _ _ _ _ _ i R1 (le_n _)).
      * intros j Ne. rewrite upd_other by auto. apply Oth. exact Ne.
      * rewrite H, upd_same. cbn. rewrite upd_same. cbn. tauto.
    + apply (res_hold _ _ _ _ _ i R2); [lia|solve_held|]. rewrite upd_same. cbn. intros a [<-|[]]. right. lia.
    + exact G.
    + intros j. at_thread j i; [|apply Oth; exact Ne]. cbn. rewrite upd_same. cbn. split; auto. split; auto.
      exists []. split; auto. unfold gread. rewrite Zb. reflexivity.
    + intros q j Q. specialize (K q j Q). at_thread j i; auto. rewrite H in K. exact K.
  - (* append *)
    pose proof (inv_thr _ I i) as Ci. cbn in Ci. rewrite H in Ci. cbn in Ci. destruct Ci as (Gb & Gk & did & E1 & E2).
    destruct (append_good grow h _ x h' s Gk H1) as (Gs & Rs & Lh & Le & Ar & As).
    set (e := {| k_buffer := s; k_rest := xs |}).
    assert (Ce : forall k' j, j <> i -> In k' (heldC (th j)) -> upd cs k e k' = cs k').
    { intros k' j Ne Ik. apply upd_other. intros ->.
      apply (proj2 (proj2 (proj2 (inv_cmp _ I))) j i k Ne Ik). cbn. rewrite H. cbn. auto. }
    assert (Ar' : forall a, a < length h -> ~ In a (heldA cs (th i)) -> nth a h' [] = nth a h []).
    { intros a La N. apply Ar; auto. intros ->. apply N. rewrite H. cbn. auto. }
    pose proof (others i h bp cs nx cp lk o th h' (upd cs k e) lk I Lh Le Ar' Ce ltac:(auto)) as Oth.
    destruct I as [R1 R2 G C K]; cbn in *.
    split; cbn.
    + apply (res_hold _ _ _ _ _ i R1 Lh).
      * intros j Ne. apply Oth. exact Ne.
      * rewrite H. cbn. rewrite upd_same. cbn. intros a [<-|[<-|[]]]; [auto|]. destruct As as [->|As]; auto.
    + exact R2.
    + intros b0 Ib. apply (good_frame h); auto. apply Le, G, Ib.
    + intros j. destruct (Nat.eq_dec j i) as [->|Ne]; [|apply Oth; exact Ne]. rewrite H. cbn. rewrite upd_same. cbn.
      split; [apply (good_frame h); auto; apply Le, Gb|]. split; auto. exists (did ++ [x]). split.
      * rewrite E1, H0, <- app_assoc. reflexivity.
      * rewrite Rs, E2, concat_app. cbn. rewrite app_nil_r. reflexivity.
    + exact K.
  - (* fail *)
    destruct I as [R1 R2 G C K]; cbn in *. pose proof (C i) as Ci. rewrite H in Ci. cbn in Ci.
    split; cbn; auto.
    + apply (res_hold _ _ _ _ _ i R1 (le_n _)); [solve_held|]. rewrite H, upd_same. cbn. tauto.
    + apply (res_same _ _ _ _ R2). intros j. at_thread j i; auto. rewrite H. reflexivity.
    + intros j. at_thread j i; [|apply C]. cbn. apply Ci.
    + intros q j Q. specialize (K q j Q). at_thread j i; auto. rewrite H in K. destruct K.
  - (* lock *)
    assert (Lk : forall q j, j <> i -> inside q (th j) -> upd lk (k_sink c) (Some i) q = lk q).
    { intros q j Ne In. apply upd_other. intros ->. pose proof (inv_thr _ I j) as Cj. cbn in Cj.
      unfold content, inside in *. destruct (t_phase (th j)); try tauto.
      - destruct Cj as (_ & _ & _ & _ & _ & Cj). congruence.
      - destruct Cj as (_ & _ & Cj). congruence. }
    pose proof (others i h bp cs nx cp lk o th h cs _ I (le_n _) ltac:(auto) ltac:(auto) ltac:(auto) Lk) as Oth.
    destruct I as [R1 R2 G C K]; cbn in *. pose proof (C i) as Ci. rewrite H in Ci. cbn in Ci.
    destruct Ci as (Gb & Gk & did & E1 & E2).
    split; cbn; auto.
    + apply (res_hold _ _ _ _ _ i R1 (le_n _)); [solve_held|]. rewrite H, upd_same. cbn. tauto.
    + apply (res_same _ _ _ _ R2). intros j. at_thread j i; auto. rewrite H. reflexivity.
    + intros j. at_thread j i; [|apply Oth; exact Ne]. cbn. rewrite upd_same.
      rewrite H0, app_nil_r in E1. rewrite E1. repeat split; auto; try apply Gk; try apply Gb. lia.
    + intros q j Q. destruct (Nat.eq_dec q (k_sink c)) as [->|Nq].
      * rewrite upd_same in Q. injection Q as <-. rewrite upd_same. reflexivity.
      * rewrite upd_other in Q by auto. specialize (K q j Q). at_thread j i; auto. rewrite H in K. destruct K.
  - (* write *)
    destruct I as [R1 R2 G C K]; cbn in *. pose proof (C i) as Ci. rewrite H in Ci. cbn in Ci.
    split; cbn; auto.
    + apply (res_hold _ _ _ _ _ i R1 (le_n _)); [solve_held|]. rewrite H, upd_same. cbn. tauto.
    + apply (res_same _ _ _ _ R2). intros j. at_thread j i; auto. rewrite H. reflexivity.
    + intros j. at_thread j i; [|apply C]. cbn. destruct Ci as (C1 & C2 & C3 & C4 & C5 & C6). repeat split; auto; apply C1 || apply C2.
    + intros q j Q. specialize (K q j Q). at_thread j i; auto. rewrite H in K. exact K.
  - (* written *)
    destruct I as [R1 R2 G C K]; cbn in *. pose proof (C i) as Ci. rewrite H in Ci. cbn in Ci.
    split; cbn; auto.
    + apply (res_hold _ _ _ _ _ i R1 (le_n _)); [solve_held|]. rewrite H, upd_same. cbn. tauto.
    + apply (res_same _ _ _ _ R2). intros j. at_thread j i; auto. rewrite H. reflexivity.
    + intros j. at_thread j i; [|apply C]. cbn. destruct Ci as (C1 & C2 & C3 & C4 & C5 & C6). repeat split; auto; apply C1.
    + intros q j Q. specialize (K q j Q). at_thread j i; auto. rewrite H in K. exact K.
  - (* unlock *)
    pose proof (inv_thr _ I i) as Ci. cbn in Ci. rewrite H in Ci. cbn in Ci. destruct Ci as (C1 & C2 & C3).
    assert (Lk : forall q j, j <> i -> inside q (th j) -> upd lk (k_sink c) None q = lk q).
    { intros q j Ne In. apply upd_other. intros ->. pose proof (inv_thr _ I j) as Cj. cbn in Cj.
      unfold content, inside in *. destruct (t_phase (th j)); try tauto.
      - destruct Cj as (_ & _ & _ & _ & _ & Cj). congruence.
      - destruct Cj as (_ & _ & Cj). congruence. }
    pose proof (others i h bp cs nx cp lk o th h cs _ I (le_n _) ltac:(auto) ltac:(auto) ltac:(auto) Lk) as Oth.
    destruct I as [R1 R2 G C K]; cbn in *.
    split; cbn; auto.
    + apply (res_hold _ _ _ _ _ i R1 (le_n _)); [solve_held|]. rewrite H, upd_same. cbn. tauto.
    + apply (res_same _ _ _ _ R2). intros j. at_thread j i; auto. rewrite H. reflexivity.
    + intros j. at_thread j i; [|apply Oth; exact Ne]. exact C1.
    + intros q j Q. destruct (Nat.eq_dec q (k_sink c)) as [->|Nq]; [rewrite upd_same in Q; discriminate|].
      rewrite upd_other in Q by auto. specialize (K q j Q). at_thread j i; auto. rewrite H in K. cbn in K. congruence.
  - (* reuse *)
    destruct I as [R1 R2 G C K]; cbn in *. pose proof (C i) as Ci. rewrite H in Ci. cbn in Ci.
    split; cbn; auto.
    + apply (res_hold _ _ _ _ _ i R1 (le_n _)); [solve_held|]. rewrite H, upd_same. cbn. tauto.
    + apply (res_give _ _ _ _ _ i R2); [solve_held|rewrite H; cbn; auto|]. rewrite upd_same. cbn. tauto.
    + intros j. at_thread j i; [|apply C]. exact Ci.
    + intros q j Q. specialize (K q j Q). at_thread j i; auto. rewrite H in K. destruct K.
  - (* put *)
    destruct I as [R1 R2 G C K]; cbn in *. pose proof (C i) as Ci. rewrite H in Ci. cbn in Ci.
    split; cbn; auto.
    + apply (res_give _ _ _ _ _ i R1); [solve_held|rewrite H; cbn; auto|]. rewrite upd_same. cbn. tauto.
    + apply (res_same _ _ _ _ R2). intros j. at_thread j i; auto. rewrite H. reflexivity.
    + intros b0 [<-|Ib]; auto.
    + intros j. at_thread j i; [|apply C]. cbn. exact Logic.I.
    + intros q j Q. specialize (K q j Q). at_thread j i; auto. rewrite H in K. destruct K.
  - (* drop_buffer *)
    destruct I as [R1 R2 G C K]; cbn in *. split; cbn; auto.
    + rewrite map_app in *. exact (res_drop _ _ _ _ _ R1).
    + intros b0 Ib. apply G. apply in_app_or in Ib. apply in_or_app. cbn. tauto.
  - destruct I as [R1 R2 G C K]; cbn in *. split; cbn; auto. exact (res_drop _ _ _ _ _ R2).
Qed.

Theorem reach_inv T st : reaches_state grow fails (start T) st -> inv st.
Proof. induction 1; [apply start_inv|eapply step_inv; eauto]. Qed.

End Steps.
