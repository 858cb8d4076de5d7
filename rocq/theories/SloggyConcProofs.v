(** Sequential and interleaved executions of the sloggy machine. *)

From Coq Require Import Ascii String List ZArith NArith Bool Arith Lia.
From Verif Require Import Bytes Slog Sloggy FlashConc FlashConcProofs FlashConcLog SloggyConc.
Import ListNotations.

(** All a call writes. *)
Definition stext (c : scall) : bytes := concat (sk_chunks c).

Definition scurrent (p : sphase) : list scall :=
  match p with SIdle => [] | SRun c _ | SLast c _ | SWrote c => [c] end.

(** What remains to be written. *)
Definition sremains (p : sphase) : bytes :=
  match p with SRun _ rest => concat rest | SLast _ x => x | _ => [] end.

Record sinv (T : nat -> list scall) (st : sstate) (log : list (nat * bytes)) (part : bytes) : Prop := {
  sinv_out : ss_out st = concat (map snd log) ++ part;
  sinv_one : (forall i, st_phase (ss_thr st i) = SIdle) /\ part = [] \/
    exists i c, scurrent (st_phase (ss_thr st i)) = [c] /\ part ++ sremains (st_phase (ss_thr st i)) = stext c /\
      forall j, j <> i -> st_phase (ss_thr st j) = SIdle;
  sinv_thr : forall i, exists did,
    T i = did ++ scurrent (st_phase (ss_thr st i)) ++ st_todo (ss_thr st i) /\
    writes_of i log = map stext did
}.

Lemma sstart_inv T : sinv T (sstart T) [] [].
Proof.
  split; [reflexivity| |].
  - left. split; auto.
  - intros i. exists []. split; reflexivity.
Qed.

(** The call under way is the one that moves. *)
Lemma sole T st log part i : sinv T st log part -> st_phase (ss_thr st i) <> SIdle ->
  exists c, scurrent (st_phase (ss_thr st i)) = [c] /\ part ++ sremains (st_phase (ss_thr st i)) = stext c /\
      forall j, j <> i -> st_phase (ss_thr st j) = SIdle.
Proof.
  intros [_ [[A _]|(k & c & C & R & O)] _] N; [destruct (N (A i))|].
  destruct (Nat.eq_dec i k) as [->|Ne]; [exists c; auto|]. destruct (N (O i Ne)).
Qed.

Theorem sstep_inv T st st' i log part : sinv T st log part -> scstep true i st st' ->
  exists log' part', sinv T st' log' part'.
Proof.
  intros J S. destruct S.
  - (* begin *)
    specialize (H0 eq_refl). exists log, []. destruct J as [O [[A ->]|(k & c' & C & _)] F].
    2:{ cbn in C. rewrite H0 in C. discriminate. }
    split; cbn in *; auto.
    + right. exists i, c. rewrite upd_same. cbn. repeat split; auto. intros j Ne. rewrite upd_other by auto. auto.
    + intros j. specialize (F j). at_thread j i; auto. rewrite H in F. exact F.
  - (* write *)
    destruct (sole _ _ _ _ i J) as (c' & C & R & Oth); cbn in *; [rewrite H; discriminate|].
    rewrite H in C, R. cbn in C, R. injection C as <-.
    exists log, (part ++ x). destruct J as [O _ F]. split; cbn in *.
    + rewrite O, <- app_assoc. reflexivity.
    + right. exists i, c. rewrite upd_same. cbn. repeat split; auto.
      * rewrite <- app_assoc. exact R.
      * intros j Ne. rewrite upd_other by auto. auto.
    + intros j. specialize (F j). at_thread j i; auto. rewrite H in F. exact F.
  - (* fail *)
    destruct (sole _ _ _ _ i J) as (c' & C & R & Oth); cbn in *; [rewrite H; discriminate|].
    rewrite H in C, R. cbn in C, R. injection C as <-. rewrite app_nil_r in R. subst part.
    exists (log ++ [(i, stext c)]), []. destruct J as [O _ F]. split; cbn in *.
    + rewrite O, map_app, concat_app. cbn. rewrite !app_nil_r. reflexivity.
    + left. split; auto. intros j. at_thread j i; auto.
    + intros j. destruct (F j) as (did & E & W). rewrite writes_app. unfold writes_of at 2. cbn. at_thread j i.
      * rewrite H in E. cbn in E. rewrite Nat.eqb_refl. exists (did ++ [c]). cbn. split.
        -- rewrite E, <- app_assoc. reflexivity.
        -- rewrite W, map_app. reflexivity.
      * destruct (Nat.eqb_spec i j); [congruence|]. cbn. rewrite app_nil_r. eauto.
  - (* lock *)
    destruct (sole _ _ _ _ i J) as (c' & C & R & Oth); cbn in *; [rewrite H; discriminate|].
    rewrite H in C, R. cbn in C, R. injection C as <-. rewrite app_nil_r in R.
    exists log, part. destruct J as [O _ F]. split; cbn in *; auto.
    + right. exists i, c. rewrite upd_same. cbn. repeat split; auto.
      intros j Ne. rewrite upd_other by auto. auto.
    + intros j. specialize (F j). at_thread j i; auto. rewrite H in F. exact F.
  - (* last *)
    destruct (sole _ _ _ _ i J) as (c' & C & R & Oth); cbn in *; [rewrite H; discriminate|].
    rewrite H in C, R. cbn in C, R. injection C as <-.
    exists log, (part ++ x). destruct J as [O _ F]. split; cbn in *.
    + rewrite O, <- app_assoc. reflexivity.
    + right. exists i, c. rewrite upd_same. cbn. rewrite app_nil_r. repeat split; auto.
      intros j Ne. rewrite upd_other by auto. auto.
    + intros j. specialize (F j). at_thread j i; auto. rewrite H in F. exact F.
  - (* unlock *)
    destruct (sole _ _ _ _ i J) as (c' & C & R & Oth); cbn in *; [rewrite H; discriminate|].
    rewrite H in C, R. cbn in C, R. injection C as <-. rewrite app_nil_r in R. subst part.
    exists (log ++ [(i, stext c)]), []. destruct J as [O _ F]. split; cbn in *.
    + rewrite O, map_app, concat_app. cbn. rewrite !app_nil_r. reflexivity.
    + left. split; auto. intros j. at_thread j i; auto.
    + intros j. destruct (F j) as (did & E & W). rewrite writes_app. unfold writes_of at 2. cbn. at_thread j i.
      * rewrite H in E. cbn in E. rewrite Nat.eqb_refl. exists (did ++ [c]). cbn. split.
        -- rewrite E, <- app_assoc. reflexivity.
        -- rewrite W, map_app. reflexivity.
      * destruct (Nat.eqb_spec i j); [congruence|]. cbn. rewrite app_nil_r. eauto.
Qed.

Theorem sreach_inv T st : sreaches true (sstart T) st -> exists log part, sinv T st log part.
Proof.
  induction 1 as [|st st' i R (log & part & J) S]; [exists [], []; apply sstart_inv|eapply sstep_inv; eauto].
Qed.

(** A single goroutine is sequential. *)
Lemma single_serial T st : (forall i, i <> 0 -> T i = []) -> sreaches false (sstart T) st -> sreaches true (sstart T) st.
Proof.
  intros A R. assert (P : sreaches true (sstart T) st /\ forall i, i <> 0 -> ss_thr st i = sat_phase SIdle []).
  { induction R as [|st st' i R [IH O] S].
    - split; [apply s_at_start|]. intros i Ne. cbn. rewrite A; auto.
    - assert (Z : i = 0).
      { destruct (Nat.eq_dec i 0) as [|Ne]; auto. specialize (O i Ne). destruct S; cbn in O; rewrite H in O; discriminate. }
      subst i. assert (Q : forall j, j <> 0 -> ss_thr st' j = sat_phase SIdle []).
      { intros j Ne. specialize (O j Ne). destruct S; cbn in *; rewrite upd_other; auto. }
      split; auto. apply (s_one_more _ _ st st' 0); auto.
      remember 0 as i eqn:Ei. destruct S; [|econstructor; eauto..]. apply sc_begin; auto. intros _ j. destruct (Nat.eq_dec j i) as [->|Ne].
      + cbn. rewrite H. reflexivity.
      + cbn in O. rewrite O by congruence. reflexivity. }
  apply P.
Qed.

(** ** An interleaving *)

Lemma sreaches_trans b st0 st st' : sreaches b st0 st -> sreaches b st st' -> sreaches b st0 st'.
Proof. intros R H. induction H; auto. eapply s_one_more; eauto. Qed.

(** A call that has begun can run to its end. *)
Lemma run_to_end i c todo : forall rest o th,
  th i = sat_phase (SRun c rest) todo -> rest <> [] \/ sk_ok c = false ->
  exists th', sreaches false (mksst None o th) (mksst None (o ++ concat rest) th') /\
    th' i = sat_phase SIdle todo /\ forall j, j <> i -> th' j = th j.
Proof.
  induction rest as [|x rest IH]; intros o th E H.
  - exists (upd th i (sat_phase SIdle todo)). cbn. rewrite app_nil_r. split.
    + eapply s_one_more; [apply s_at_start|]. apply (sc_fail false i c). exact E.
    + split; [apply upd_same|]. intros j Ne. apply upd_other, Ne.
  - destruct (sk_ok c) eqn:K, rest as [|y rest].
    + eexists. split.
      * eapply s_one_more; [eapply s_one_more; [eapply s_one_more; [apply s_at_start|]|]|].
        -- eapply (sc_lock false i c x); eauto.
        -- eapply sc_last. apply upd_same.
        -- cbn. rewrite app_nil_r. eapply sc_unlock. apply upd_same.
      * split; [apply upd_same|]. intros j Ne. rewrite !upd_other by auto. reflexivity.
    + destruct (IH (o ++ x) (upd th i (sat_phase (SRun c (y :: rest)) todo)) (upd_same _ _ _)
        ltac:(left; discriminate)) as (th' & R & E' & Oth).
      exists th'. cbn [concat] in *. rewrite <- app_assoc in R. split.
      * eapply sreaches_trans; [|exact R]. eapply s_one_more; [apply s_at_start|].
        eapply (sc_write false i c x); eauto. left. discriminate.
      * split; auto. intros j Ne. rewrite Oth, upd_other by auto. reflexivity.
    + destruct (IH (o ++ x) (upd th i (sat_phase (SRun c []) todo)) (upd_same _ _ _)
        ltac:(auto)) as (th' & R & E' & Oth).
      exists th'. cbn [concat] in *. rewrite <- app_assoc in R. split.
      * eapply sreaches_trans; [|exact R]. eapply s_one_more; [apply s_at_start|].
        eapply (sc_write false i c x); eauto.
      * split; auto. intros j Ne. rewrite Oth, upd_other by auto. reflexivity.
    + destruct (IH (o ++ x) (upd th i (sat_phase (SRun c (y :: rest)) todo)) (upd_same _ _ _)
        ltac:(auto)) as (th' & R & E' & Oth).
      exists th'. cbn [concat] in *. rewrite <- app_assoc in R. split.
      * eapply sreaches_trans; [|exact R]. eapply s_one_more; [apply s_at_start|].
        eapply (sc_write false i c x); eauto.
      * split; auto. intros j Ne. rewrite Oth, upd_other by auto. reflexivity.
Qed.

(** One call within another: after its first write. *)
Theorem nested c1 c2 x y rest : sk_chunks c1 = x :: y :: rest -> sk_chunks c2 <> [] ->
  exists st, sreaches false (sstart (fun i => match i with 0 => [c1] | 1 => [c2] | _ => [] end)) st /\
    sfinished st /\ ss_out st = x ++ stext c2 ++ concat (y :: rest).
Proof.
  intros E1 E2. set (T := fun i => match i with 0 => [c1] | 1 => [c2] | _ => [] end).
  set (th0 := fun i => sat_phase SIdle (T i)).
  set (th1 := upd th0 0 (sat_phase (SRun c1 (sk_chunks c1)) [])).
  set (th2 := upd th1 0 (sat_phase (SRun c1 (y :: rest)) [])).
  set (th3 := upd th2 1 (sat_phase (SRun c2 (sk_chunks c2)) [])).
  destruct (run_to_end 1 c2 [] (sk_chunks c2) x th3 (upd_same _ _ _) (or_introl E2)) as (th4 & R4 & D4 & O4).
  destruct (run_to_end 0 c1 [] (y :: rest) (x ++ concat (sk_chunks c2)) th4) as (th5 & R5 & D5 & O5).
  { rewrite O4 by discriminate. reflexivity. }
  { left. discriminate. }
  exists (mksst None ((x ++ concat (sk_chunks c2)) ++ concat (y :: rest)) th5). split; [|split].
  - eapply sreaches_trans; [|exact R5]. eapply sreaches_trans; [|exact R4].
    eapply s_one_more; [eapply s_one_more; [eapply s_one_more; [apply s_at_start|]|]|].
    + apply (sc_begin false 0 c1 [] None [] th0); [reflexivity|discriminate].
    + apply (sc_write false 0 c1 x (y :: rest) [] None [] th1); [unfold th1; rewrite upd_same, E1; reflexivity|].
      left. discriminate.
    + apply (sc_begin false 1 c2 [] None ([] ++ x) th2); [reflexivity|discriminate].
  - intros i. cbn. destruct (Nat.eq_dec i 0) as [->|N0]; [exact D5|]. rewrite O5 by auto.
    destruct (Nat.eq_dec i 1) as [->|N1]; [exact D4|]. rewrite O4 by auto.
    unfold th3, th2, th1. rewrite !upd_other by auto. unfold th0, T. destruct i as [|[|i]]; congruence.
  - cbn [ss_out]. unfold stext. rewrite <- app_assoc. reflexivity.
Qed.
