(** Properties C09, C10 and C20. *)

From Coq Require Import Ascii String List ZArith NArith Bool Arith Lia.
From Verif Require Import Bytes BytesProofs Json JsonProofs Slog SpecLog Flash TextProofs FlashProofs FlashRecord Samples
  Slices FlashHeap FlashConc FlashConcProofs FlashConcLog FlashConcCall FlashConcRun
  Sloggy SloggyProofs SloggyHandler PropSloggyRecord SloggyConc SloggyConcProofs PropDerive.
Import ListNotations.

(** ** C09 *)

(** A Handle call to be made: on a handler with certain contents, with a mutex
    and writer (those of the handler it is derived from). *)
Record job : Type := { j_sink : nat; j_hdl : hdl; j_dead : dead; j_record : record }.

(** What Handle by itself writes: at most one text. *)
Definition job_writes (std : stdlib) (j : job) (ws : list bytes) : Prop :=
  exists ok n0, forall n, n0 <= n ->
    handle_hdl std n (j_dead j) (j_hdl j) (j_record j) = Some (Done ws ok).

(** What the jobs, one after the other, write to [q]. *)
Inductive jobs_write (std : stdlib) (q : nat) : list job -> list bytes -> Prop :=
| jobs_none : jobs_write std q [] []
| jobs_here j js ws l : j_sink j = q -> job_writes std j ws -> jobs_write std q js l ->
    jobs_write std q (j :: js) (ws ++ l)
| jobs_elsewhere j js l : j_sink j <> q -> jobs_write std q js l -> jobs_write std q (j :: js) l.

(** The call in the machine for a job. *)
Definition job_call (std : stdlib) (j : job) (c : call) : Prop :=
  exists n, call_hdl std n (j_sink j) (j_dead j) (j_hdl j) (j_record j) = Some c.

Lemma job_call_writes std j c : job_call std j c -> job_writes std j (if k_ok c then [line c] else []) /\ k_sink c = j_sink j.
Proof.
  intros (n & E). split; [|eapply call_hdl_sink; eauto].
  exists (k_ok c), n. intros m L. apply (handle_hdl_mono std n m); auto.
  apply (call_hdl_handle std n (j_sink j)). exists c. auto.
Qed.

Lemma jobs_lines std q js cs : Forall2 (job_call std) js cs -> jobs_write std q js (lines q cs).
Proof.
  induction 1 as [|j c js cs H F IH]; [constructor|].
  destruct (job_call_writes std j c H) as [W S]. unfold lines in *. cbn [filter].
  destruct (Nat.eqb_spec (k_sink c) q) as [E|E].
  - rewrite andb_true_r. assert (G : map line (if k_ok c then c :: filter (fun c0 => k_ok c0 && (k_sink c0 =? q)) cs
        else filter (fun c0 => k_ok c0 && (k_sink c0 =? q)) cs) =
      (if k_ok c then [line c] else []) ++ map line (filter (fun c0 => k_ok c0 && (k_sink c0 =? q)) cs))
      by (destruct (k_ok c); reflexivity).
    rewrite G. apply jobs_here; auto; congruence.
  - rewrite andb_false_r. apply jobs_elsewhere; auto; congruence.
Qed.

Lemma pieces_whole l1 l2 : Forall2 (piece false) l1 l2 -> l1 = l2.
Proof. induction 1 as [|x y l1 l2 [->|[E _]] F ->]; auto. discriminate. Qed.

Theorem C09_lines_whole std grow J T st : (forall i, Forall2 (job_call std) (J i) (T i)) ->
  reaches_state grow false (start T) st -> forall q, exists log rest,
  s_out st q = concat (map snd log) ++ rest /\
  (rest = [] \/ exists i j l more, In j (J i) /\ j_sink j = q /\ job_writes std j [l] /\ l = rest ++ more) /\
  (forall i, exists did todo, J i = did ++ todo /\
     jobs_write std q did (map snd (filter (fun e => Nat.eqb (fst e) i) log))) /\
  (finished st -> rest = [] /\
     forall i, jobs_write std q (J i) (map snd (filter (fun e => Nat.eqb (fst e) i) log))).
Proof.
  intros F R q. pose proof (reach_inv _ _ _ _ R) as I. destruct (reach_linv _ _ _ _ R) as [L [O H]].
  exists (L q), (under_way st q). split; [apply O|]. split; [|split].
  - unfold under_way. destruct (s_lock st q) as [i|] eqn:E; auto.
    pose proof (inv_lock _ I q i E) as In1. pose proof (inv_thr _ I i) as Ci. destruct (H i) as (did & Et & _).
    unfold inside, content in *. destruct (t_phase (s_thr st i)) as [|c b|c b k|c b k s m|c b k|c b k|c b]; auto.
    right. destruct Ci as (_ & _ & Ok & _). cbn [current] in Et.
    assert (Ic : In c (T i)) by (rewrite Et; apply in_or_app; right; cbn; auto).
    specialize (F i). apply In_nth_error in Ic as (n & Nc).
    assert (Ex : exists j, nth_error (J i) n = Some j /\ job_call std j c).
    { clear - F Nc. revert n Nc. induction F as [|j c' js cs Q F IH]; intros [|n] Nc; try discriminate.
      - injection Nc as ->. exists j. auto.
      - apply IH, Nc. }
    destruct Ex as (j & Nj & Q). destruct (job_call_writes std j c Q) as [W S]. rewrite Ok in W.
    exists i, j, (line c), (skipn m (line c)). split; [eapply nth_error_In; eauto|]. split; [congruence|].
    split; auto. symmetry. apply firstn_skipn.
  - intros i. destruct (H i) as (did & Et & P). specialize (P q). apply pieces_whole in P.
    specialize (F i). rewrite Et in F.
    assert (Ex : exists cs', did ++ current (t_phase (s_thr st i)) ++ t_todo (s_thr st i) =
      (did ++ wrote (t_phase (s_thr st i))) ++ cs').
    { destruct (t_phase (s_thr st i)); eexists; rewrite <- !app_assoc; cbn; reflexivity. }
    destruct Ex as (cs' & Ecs). rewrite Ecs in F. apply Forall2_app_inv_r in F as (d1 & d2 & F1 & F2 & E).
    exists d1, d2. split; auto. change (jobs_write std q d1 (writes_of i (L q))). rewrite P. apply jobs_lines. exact F1.
  - intros Fin. split.
    + unfold under_way. destruct (s_lock st q) as [i|] eqn:E; auto. rewrite Fin. reflexivity.
    + intros i. destruct (H i) as (did & Et & P). specialize (P q). apply pieces_whole in P.
      rewrite (Fin i) in *. cbn in *. rewrite app_nil_r in *. subst did.
      change (jobs_write std q (J i) (writes_of i (L q))). rewrite P. apply jobs_lines, F.
Qed.
Print Assumptions C09_lines_whole.

(** Even when Writes fail having taken only part, the stream is a sequence of
    pieces, each from the beginning of one line. *)
Theorem C09_failing_writer std grow J T st : (forall i, Forall2 (job_call std) (J i) (T i)) ->
  reaches_state grow true (start T) st -> finished st -> forall q, exists log,
  s_out st q = concat (map snd log) /\
  forall i, exists ls, jobs_write std q (J i) ls /\
    Forall2 (fun t l => exists more, l = t ++ more) (map snd (filter (fun e => Nat.eqb (fst e) i) log)) ls.
Proof.
  intros F R Fin q. destruct (reach_linv _ _ _ _ R) as [L [O H]].
  exists (L q). split.
  - rewrite O. unfold under_way. destruct (s_lock st q) as [i|]; rewrite ?Fin; cbn; apply app_nil_r.
  - intros i. destruct (H i) as (did & Et & P). specialize (P q). rewrite (Fin i) in *. cbn in *. rewrite app_nil_r in *.
    subst did. exists (lines q (T i)). split; [apply jobs_lines, F|].
    change (map snd _) with (writes_of i (L q)). induction P as [|t l ts ls [->|[_ [n ->]]] P IH]; constructor; auto.
    + exists []. rewrite app_nil_r. reflexivity.
    + exists (skipn n l). symmetry. apply firstn_skipn.
Qed.
Print Assumptions C09_failing_writer.

(** No deadlock: whatever has happened, all calls can still be completed. *)
Theorem C09_completes std grow fails n J T st : (forall i, Forall2 (job_call std) (J i) (T i)) ->
  (forall i, n <= i -> J i = []) -> reaches_state grow fails (start T) st ->
  exists st', reaches_state grow fails st st' /\ finished st'.
Proof.
  intros F Z R. apply (completes grow fails n T); auto. intros i L. specialize (F i). rewrite (Z i L) in F. inversion F. reflexivity.
Qed.
Print Assumptions C09_completes.

(** Two goroutines, three records, taking turns step by step; a third logs to
    another writer through the same pools. *)
Definition jobs0 (i : nat) : list job :=
  let h := HBase (new_handler (options1 None) None) in
  match i with
  | 0 => [ {| j_sink := 0; j_hdl := h; j_dead := NoDead; j_record := record1 [(B "a", VInt64 1)] |};
           {| j_sink := 0; j_hdl := with_group_hdl h (B "g"); j_dead := NoDead; j_record := record1 [(B "b", VInt64 2)] |} ]
  | 1 => [ {| j_sink := 0; j_hdl := h; j_dead := NoDead; j_record := record1 [(B "c", VAny (AnyObj bad_obj))] |};
           {| j_sink := 0; j_hdl := h; j_dead := NoDead; j_record := record1 [(B "c", VInt64 3)] |} ]
  | 2 => [ {| j_sink := 1; j_hdl := h; j_dead := NoDead; j_record := record1 [(B "d", VInt64 4)] |} ]
  | _ => []
  end.

Definition calls0 (i : nat) : list call :=
  flat_map (fun j => match call_hdl std0 10 (j_sink j) (j_dead j) (j_hdl j) (j_record j) with
                     | Some c => [c] | None => [] end) (jobs0 i).

Fixpoint round_robin (n : nat) : list nat := match n with O => [] | S n' => 0 :: 1 :: 2 :: round_robin n' end.

Example C09_applies :
  (forall i, Forall2 (job_call std0) (jobs0 i) (calls0 i)) /\
  let st := schedule doubling (round_robin 400) (start calls0) in
  s_out st 0 = B "{""level"": ""INFO"", ""msg"": ""m"", ""a"": 1}" ++ [newline] ++
               B "{""level"": ""INFO"", ""msg"": ""m"", ""c"": 3}" ++ [newline] ++
               B "{""level"": ""INFO"", ""msg"": ""m"", ""g"": {""b"": 2}}" ++ [newline] /\
  s_out st 1 = B "{""level"": ""INFO"", ""msg"": ""m"", ""d"": 4}" ++ [newline] /\
  length (s_bpool st) = 3.
Proof.
  split.
  - assert (G : forall l, Forall (fun j => exists c, call_hdl std0 10 (j_sink j) (j_dead j) (j_hdl j) (j_record j) = Some c) l ->
      Forall2 (job_call std0) l (flat_map (fun j => match call_hdl std0 10 (j_sink j) (j_dead j) (j_hdl j) (j_record j) with
                     | Some c => [c] | None => [] end) l)).
    { induction 1 as [|j l (c & E) F IH]; cbn; [constructor|]. rewrite E. constructor; auto. exists 10. exact E. }
    intros i. apply G. destruct i as [|[|[|i]]]; cbn [jobs0]; repeat constructor; eexists; vm_compute; reflexivity.
  - vm_compute. auto.
Qed.

(** ** C10 *)

(** The arrays a call in flight uses: that of the buffer it took from the pool,
    until it puts it back, and, until it has written, that of its composer's buffer. *)
Definition uses (st : state) (i : nat) (a : nat) : Prop :=
  match t_phase (s_thr st i) with
  | Idle => False
  | Got _ b | Wrote _ b _ | Reusing _ b _ | Putting _ b => a = sl_arr b
  | Composing _ b k => a = sl_arr b \/ a = sl_arr (k_buffer (s_cells st k))
  | Writing _ b _ s _ => a = sl_arr b \/ a = sl_arr s
  end.

(** The composer it has. *)
Definition has (st : state) (i : nat) (k : nat) : Prop :=
  match t_phase (s_thr st i) with
  | Composing _ _ k' | Writing _ _ k' _ _ | Wrote _ _ k' | Reusing _ _ k' => k = k'
  | _ => False
  end.

(** What it has composed so far. *)
Definition composed (st : state) (i : nat) : bytes :=
  match t_phase (s_thr st i) with
  | Composing _ _ k => gread (s_heap st) (k_buffer (s_cells st k))
  | Writing _ _ _ s _ => gread (s_heap st) s
  | _ => []
  end.

Lemma uses_held st i a : uses st i a <-> In a (heldA (s_cells st) (s_thr st i)).
Proof.
  unfold uses, heldA. destruct (t_phase (s_thr st i)); cbn; intuition congruence.
Qed.

Lemma has_held st i k : has st i k <-> In k (heldC (s_thr st i)).
Proof. unfold has, heldC. destruct (t_phase (s_thr st i)); cbn; intuition congruence. Qed.

Theorem C10_exclusive grow fails T st : reaches_state grow fails (start T) st ->
  (forall i j a, i <> j -> uses st i a -> uses st j a -> False) /\
  (forall i a b, uses st i a -> In b (s_bpool st) -> sl_arr b <> a) /\
  NoDup (map sl_arr (s_bpool st)) /\
  (forall i j k, i <> j -> has st i k -> has st j k -> False) /\
  (forall i k, has st i k -> ~ In k (s_cpool st)) /\
  NoDup (s_cpool st).
Proof.
  intros R. pose proof (reach_inv _ _ _ _ R) as I.
  destruct (inv_arr _ I) as (A1 & A2 & A3 & A4). destruct (inv_cmp _ I) as (C1 & C2 & C3 & C4).
  split; [|split; [|split; [|split; [|split]]]]; auto.
  - intros i j a Ne H1 H2. apply uses_held in H1, H2. exact (A4 i j a Ne H1 H2).
  - intros i a b H1 H2 E. apply uses_held in H1. apply (A3 i a H1). rewrite <- E. apply in_map. exact H2.
  - intros i j k Ne H1 H2. apply has_held in H1, H2. exact (C4 i j k Ne H1 H2).
  - intros i k H. apply has_held in H. apply (C3 i k H).
Qed.
Print Assumptions C10_exclusive.

(** Nothing another goroutine or the collector does changes what a call has
    composed. *)
Theorem C10_untouched grow fails T st st' a i : reaches_state grow fails (start T) st ->
  cstep grow fails a st st' -> a <> Some i ->
  s_thr st' i = s_thr st i /\ composed st' i = composed st i.
Proof.
  intros R S Na. pose proof (reach_inv _ _ _ _ R) as I.
  assert (K : s_thr st' i = s_thr st i).
  { destruct S; cbn; auto; rewrite upd_other; auto; congruence. }
  split; auto. unfold composed. rewrite K.
  destruct (inv_cmp _ I) as (C1 & C2 & C3 & C4). destruct (inv_arr _ I) as (A1 & A2 & A3 & A4).
  destruct S as [j c todo l1 b l2 h cs nx cp lk o th H|j c todo h h' b bp cs nx cp lk o th H H0
    |j c b todo h bp cs nx l1 k l2 lk o th H|j c b todo h bp cs nx cp lk o th H
    |j c b k todo h h' s x xs bp cs nx cp lk o th H H0 H1| | | | | | | | | ]; cbn in *; auto.
  - (* get_new *)
    destruct (make_good h lenLog h' b ltac:(unfold lenLog; lia) H0) as (_ & _ & _ & _ & _ & Kb).
    destruct (t_phase (th i)) as [|d e|d e k|d e k s m|d e k|d e k|d e] eqn:E; auto.
    + unfold gread, array. rewrite Kb; auto. apply (A3 i). unfold heldA. rewrite E. cbn. auto.
    + unfold gread, array. rewrite Kb; auto. apply (A3 i). unfold heldA. rewrite E. cbn. auto.
  - (* comp_pooled *)
    destruct (t_phase (th i)) as [|d e|d e k0|d e k0 s m|d e k0|d e k0|d e] eqn:E; auto.
    rewrite upd_other; auto. intros ->. apply (C3 i k).
    + unfold heldC. rewrite E. cbn. auto.
    + apply in_or_app. cbn. auto.
  - (* comp_new *)
    destruct (t_phase (th i)) as [|d e|d e k0|d e k0 s m|d e k0|d e k0|d e] eqn:E; auto.
    rewrite upd_other; auto. intros ->. assert (nx < nx); [|lia]. apply (C3 i nx). unfold heldC. rewrite E. cbn. auto.
  - (* append *)
    assert (Ne : j <> i) by congruence.
    pose proof (inv_thr _ I j) as Cj. cbn in Cj. rewrite H in Cj. destruct Cj as (_ & Gk & _).
    destruct (append_good grow h _ x h' s Gk H1) as (_ & _ & _ & _ & Ar & _).
    assert (Hj : forall a0, In a0 (heldA cs (th i)) -> nth a0 h' [] = nth a0 h []).
    { intros a0 Ia. apply Ar; [apply (A3 i a0 Ia)|]. intros ->. apply (A4 i j _ ltac:(auto) Ia). rewrite H. cbn. auto. }
    destruct (t_phase (th i)) as [|d e|d e k0|d e k0 s0 m|d e k0|d e k0|d e] eqn:E; auto.
    + assert (Nk : k0 <> k).
      { intros ->. apply (C4 i j k ltac:(auto)); [unfold heldC; rewrite E; cbn; auto|rewrite H; cbn; auto]. }
      rewrite upd_other by auto. unfold gread, array. rewrite Hj; auto. unfold heldA. rewrite E. cbn. auto.
    + unfold gread, array. rewrite Hj; auto. unfold heldA. rewrite E. cbn. auto.
Qed.
Print Assumptions C10_untouched.

(** What a call gives to the writer is what it composed, throughout the Write. *)
Theorem C10_written grow fails T st i c b k s m : reaches_state grow fails (start T) st ->
  t_phase (s_thr st i) = Writing c b k s m ->
  gread (s_heap st) s = concat (k_chunks c) /\ k_ok c = true /\
  forall j, j <> i -> match t_phase (s_thr st j) with Writing d _ _ _ _ | Wrote d _ _ => k_sink d <> k_sink c | _ => True end.
Proof.
  intros R E. pose proof (reach_inv _ _ _ _ R) as I. pose proof (inv_thr _ I i) as Ci. unfold content in Ci. rewrite E in Ci.
  destruct Ci as (_ & _ & C1 & _ & C2 & C3). split; auto. split; auto. intros j Ne.
  pose proof (inv_thr _ I j) as Cj. unfold content in Cj. destruct (t_phase (s_thr st j)); auto.
  - destruct Cj as (_ & _ & _ & _ & _ & Cj). congruence.
  - destruct Cj as (_ & _ & Cj). congruence.
Qed.
Print Assumptions C10_written.

(** A state with three calls under way, one of them in a buffer that another call
    has used before. *)
Example C10_applies :
  let st := schedule doubling (repeat 0 100 ++ [1; 1; 1; 2; 2; 2; 2; 0; 0; 0; 0]) (start calls0) in
  (forall i, i < 3 -> exists a, uses st i a) /\ length (s_heap st) = 3 /\
  map (fun i => length (composed st i)) [0; 1; 2] = [45; 1; 2].
Proof.
  split; [|vm_compute; auto].
  intros i L. destruct i as [|[|[|i]]]; [| | |lia]; vm_compute; eauto.
Qed.

(** ** C20 *)

Local Notation crlf := [chr 13; newline].

(** A sloggy Handle call on a handler derived by some operations. *)
Record sjob : Type := { sj_ops : list op; sj_dead : dead; sj_record : record }.

Definition sjob_call (std : stdlib) (o : options) (j : sjob) (c : scall) : Prop :=
  slogs std o (sj_ops j) (sj_dead j) (sj_record j) (Done (sk_chunks c) (sk_ok c)).

Definition sjob_text (std : stdlib) (o : options) (j : sjob) (t : bytes) : Prop :=
  exists ok, swritten std o (sj_ops j) (sj_dead j) (sj_record j) t ok.

Lemma sjobs_text std o js cs : Forall2 (sjob_call std o) js cs -> Forall2 (sjob_text std o) js (map stext cs).
Proof.
  induction 1 as [|j c js cs H F IH]; [constructor|]. constructor; auto. exists (sk_ok c), (sk_chunks c). auto.
Qed.

(** Calls that do not overlap: the stream is what the calls write, one call after
    the other. *)
Theorem C20_sequential std o J T st : (forall i, Forall2 (sjob_call std o) (J i) (T i)) ->
  sreaches true (sstart T) st -> exists log rest,
  ss_out st = concat (map snd log) ++ rest /\
  (rest = [] \/ exists i j t more, In j (J i) /\ sjob_text std o j t /\ t = rest ++ more) /\
  (forall i, exists did todo, J i = did ++ todo /\
     Forall2 (sjob_text std o) did (map snd (filter (fun e => Nat.eqb (fst e) i) log))) /\
  (sfinished st -> rest = [] /\
     forall i, Forall2 (sjob_text std o) (J i) (map snd (filter (fun e => Nat.eqb (fst e) i) log))).
Proof.
  intros F R. destruct (sreach_inv _ _ R) as (log & part & [O One H]).
  exists log, part. split; auto. split; [|split].
  - destruct One as [[_ ->]|(i & c & C & P & _)]; auto. right.
    destruct (H i) as (did & Et & _). rewrite C in Et.
    assert (Ic : In c (T i)) by (rewrite Et; apply in_or_app; right; cbn; auto).
    specialize (F i). apply In_nth_error in Ic as (n & Nc).
    assert (Ex : exists j, nth_error (J i) n = Some j /\ sjob_call std o j c).
    { clear - F Nc. revert n Nc. induction F as [|j c' js cs Q F IH]; intros [|n] Nc; try discriminate.
      - injection Nc as ->. exists j. auto.
      - apply IH, Nc. }
    destruct Ex as (j & Nj & Q). exists i, j, (stext c), (sremains (st_phase (ss_thr st i))).
    split; [eapply nth_error_In; eauto|]. split; auto. exists (sk_ok c), (sk_chunks c). auto.
  - intros i. destruct (H i) as (did & Et & P). specialize (F i). rewrite Et in F.
    apply Forall2_app_inv_r in F as (d1 & d2 & F1 & F2 & E). exists d1, d2. split; auto.
    change (Forall2 (sjob_text std o) d1 (writes_of i log)). rewrite P. apply sjobs_text, F1.
  - intros Fin. split.
    + destruct One as [[_ ->]|(i & c & C & _)]; auto. rewrite Fin in C. discriminate.
    + intros i. destruct (H i) as (did & Et & P). rewrite (Fin i) in Et. cbn in Et. rewrite app_nil_r in Et. subst did.
      change (Forall2 (sjob_text std o) (J i) (writes_of i log)). rewrite P. apply sjobs_text, F.
Qed.
Print Assumptions C20_sequential.

(** In particular for a single goroutine. *)
Theorem C20_single std o js cs st : Forall2 (sjob_call std o) js cs ->
  sreaches false (sstart (fun i => match i with 0 => cs | _ => [] end)) st -> sfinished st ->
  exists ts, Forall2 (sjob_text std o) js ts /\ ss_out st = concat ts.
Proof.
  intros F R Fin. apply single_serial in R; [|intros [|i] N; congruence].
  destruct (sreach_inv _ _ R) as (log & part & [O One H]). exists (map stext cs). split; [apply sjobs_text, F|].
  assert (part = []) by (destruct One as [[_ ->]|(i & c & C & _)]; auto; rewrite Fin in C; discriminate). subst part.
  rewrite O, app_nil_r. f_equal.
  assert (A : forall i, writes_of i log = map stext (match i with 0 => cs | _ => [] end)).
  { intros i. destruct (H i) as (did & Et & P). rewrite (Fin i) in Et. cbn in Et. rewrite app_nil_r in Et. subst did. exact P. }
  change (match 0 with 0 => cs | _ => [] end) with cs in A. rewrite <- (A 0). unfold writes_of. f_equal.
  assert (Z : forall e, In e log -> fst e = 0).
  { intros [i t] Ie. destruct i as [|i]; auto. specialize (A (S i)). cbn [map] in A.
    assert (Q : In (S i, t) (filter (fun e => Nat.eqb (fst e) (S i)) log)).
    { apply filter_In. split; auto. cbn. apply Nat.eqb_refl. }
    unfold writes_of in A. apply map_eq_nil in A. rewrite A in Q. destruct Q. }
  clear - Z. induction log as [|e log IH]; cbn; auto. rewrite (Z e) by (cbn; auto). cbn. f_equal. apply IH. intros; apply Z; cbn; auto.
Qed.
Print Assumptions C20_single.

Lemma double_brace t : parse_json (brace :: brace :: t) = None.
Proof. reflexivity. Qed.

Lemma json_then_ws l w : ws w -> parse_json l <> None -> parse_json (l ++ w) = parse_json l.
Proof.
  intros W N. destruct (parse_json l) as [v|] eqn:E; [|congruence]. apply parse_json_iff in E as (w1 & b & w2 & -> & H1 & H & H2).
  apply parse_json_iff. exists w1, b, (w2 ++ w). rewrite <- !app_assoc. repeat split; auto.
  unfold ws in *. rewrite forallb_app, H2, W. reflexivity.
Qed.

(** An object without its opening brace is not JSON. *)
Lemma object_tail t v : parse_json (brace :: t) = Some v -> parse_json t = None.
Proof.
  intros H. unfold parse_json in *. cbn [skip_ws] in H. change (is_ws brace) with false in H. cbv iota in H.
  cbn [pval length] in H. change (Ascii.eqb brace quote) with false in H. cbv iota in H.
  change (Ascii.eqb brace (chr 123)) with true in H. cbv iota in H.
  pose proof (skip_ws_idem t) as Id.
  destruct (skip_ws t) as [|d r] eqn:Et; [discriminate|].
  destruct (Ascii.eqb_spec d (chr 125)) as [->|Nd].
  - cbn [pval]. reflexivity.
  - replace (2 * S (length t)) with (S (S (2 * length t))) in H by lia. cbn [pmembers] in H. rewrite Id in H.
    destruct (Ascii.eqb_spec d quote) as [->|Nq]; [|discriminate].
    cbn [pval]. change (Ascii.eqb quote quote) with true. cbv iota.
    destruct (parse_body r) as [[k r1]|]; [|reflexivity].
    destruct (skip_ws r1); [discriminate|reflexivity].
Qed.

Lemma hchunks_shape std n h r ch : hchunks std n h r = Some (ch, true) -> exists y rest, ch = B "{" :: y :: rest.
Proof.
  unfold hchunks. destruct (ems _ _ _ _ _ _) as [[[c1 s1] []]|]; try discriminate.
  destruct (ems _ _ _ _ _ _) as [[[c2 s2] []]|]; try discriminate. intros [= <-].
  destruct c1; [|cbn; eauto]. destruct (prefix_chunks (sh_prefix h)); [|cbn; eauto]. destruct c2; cbn; eauto.
Qed.

(** For any two records whose lines are JSON there is an interleaving of their
    Handle calls that makes two lines neither of which is JSON. *)
Theorem C20_interleaves std o ops1 d1 r1 ws1 l1 v1 ops2 d2 r2 ws2 l2 v2 :
  slogs std o ops1 d1 r1 (Done ws1 true) -> concat ws1 = l1 ++ crlf -> parse_json l1 = Some v1 -> ~ In newline l1 ->
  slogs std o ops2 d2 r2 (Done ws2 true) -> concat ws2 = l2 ++ crlf -> parse_json l2 = Some v2 -> ~ In newline l2 ->
  exists st a b,
    sreaches false (sstart (fun i => match i with
                                     | 0 => [{| sk_chunks := ws1; sk_ok := true |}]
                                     | 1 => [{| sk_chunks := ws2; sk_ok := true |}]
                                     | _ => [] end)) st /\
    sfinished st /\ split_lines (ss_out st) = ([a; b], []) /\
    parse_json a = None /\ parse_json b = None /\
    ss_out st <> (l1 ++ crlf) ++ (l2 ++ crlf) /\ ss_out st <> (l2 ++ crlf) ++ (l1 ++ crlf).
Proof.
  intros L1 E1 P1 N1 L2 E2 P2 N2.
  assert (Sh : forall ops d r ws, slogs std o ops d r (Done ws true) -> exists y rest, ws = B "{" :: y :: rest).
  { intros ops d r ws L. apply slogs_iff in L as (n & g & D & H). destruct (schosen d g r); [|destruct H]. eapply hchunks_shape; eauto. }
  destruct (Sh _ _ _ _ L1) as (y1 & t1 & W1). destruct (Sh _ _ _ _ L2) as (y2 & t2 & W2).
  destruct (nested {| sk_chunks := ws1; sk_ok := true |} {| sk_chunks := ws2; sk_ok := true |} (B "{") y1 t1 W1) as (st & R & Fin & Out).
  { cbn. rewrite W2. discriminate. }
  unfold stext in Out. cbn [sk_chunks] in Out. rewrite E2 in Out.
  rewrite W1 in E1. rewrite W2 in E2. cbn [concat] in E1, E2, Out.
  destruct l1 as [|c1 l1]; [discriminate|]. destruct l2 as [|c2 l2]; [discriminate|].
  injection E1 as <- E1. injection E2 as <- E2. cbn [app] in E1, E2. rewrite E1 in Out. change (B "{") with [brace] in *.
  change "{"%char with brace in *.
  assert (Nb : newline <> brace) by discriminate.
  assert (X1 : parse_json (l1 ++ [chr 13]) = None).
  { apply (object_tail (l1 ++ [chr 13]) v1). transitivity (parse_json (brace :: l1)); [|exact P1].
    apply (json_then_ws (brace :: l1) [chr 13] eq_refl). intros Q. pose proof (eq_trans (eq_sym Q) P1). discriminate. }
  assert (Sp : split_lines (ss_out st) = ([brace :: (brace :: l2) ++ [chr 13]; l1 ++ [chr 13]], [])).
  { rewrite Out. replace ([brace] ++ ((brace :: l2) ++ crlf) ++ l1 ++ crlf)
      with ((brace :: (brace :: l2) ++ [chr 13]) ++ newline :: (l1 ++ [chr 13]) ++ newline :: []).
    2:{ cbn [app]. do 2 f_equal. rewrite <- !app_assoc. reflexivity. }
    rewrite split_line.
    - rewrite split_line.
      + reflexivity.
      + intros I. apply in_app_or in I as [I|[I|[]]]; [apply N1; right; exact I|discriminate].
    - intros [I|I]; [congruence|]. apply in_app_or in I as [I|[I|[]]]; [apply N2; exact I|discriminate]. }
  assert (Two : forall l v rest, parse_json (brace :: l) = Some v -> [brace] ++ ((brace :: l2) ++ crlf) ++ l1 ++ crlf <>
      ((brace :: l) ++ crlf) ++ rest).
  { intros l v rest P E. cbn [app] in E. injection E as E. destruct l as [|c l]; [discriminate|]. injection E as <- _.
    rewrite double_brace in P. discriminate. }
  eexists st, _, _. split; [exact R|]. split; auto. split; [exact Sp|]. split; [apply double_brace|]. split; [exact X1|].
  rewrite Out. split; [exact (Two l1 v1 _ P1)|exact (Two l2 v2 _ P2)].
Qed.
Print Assumptions C20_interleaves.

(** Records of the kind [C18_sloggy_record_json] speaks of meet the hypotheses. *)
Example C20_applies : exists ws1 ws2,
  slogs std0 (options1 None) [] NoDead (record1 [(B "a", VInt64 1)]) (Done ws1 true) /\
  concat ws1 = B "{""level"": ""INFO"", ""msg"": ""m"", ""a"": 1}" ++ crlf /\
  slogs std0 (options1 None) [WithGroup (B "g")] NoDead (record1 [(B "b", VInt64 2)]) (Done ws2 true) /\
  concat ws2 = B "{""level"": ""INFO"", ""msg"": ""m"", ""g"": {""b"": 2}}" ++ crlf.
Proof.
  assert (A : swritten std0 (options1 None) [] NoDead (record1 [(B "a", VInt64 1)]) (B "{""level"": ""INFO"", ""msg"": ""m"", ""a"": 1}" ++ crlf) true)
    by (apply (srun_written 10); vm_compute; reflexivity).
  assert (A' : swritten std0 (options1 None) [WithGroup (B "g")] NoDead (record1 [(B "b", VInt64 2)])
    (B "{""level"": ""INFO"", ""msg"": ""m"", ""g"": {""b"": 2}}" ++ crlf) true)
    by (apply (srun_written 10); vm_compute; reflexivity).
  destruct A as (ws1 & L1 & E1), A' as (ws2 & L2 & E2). exists ws1, ws2. auto.
Qed.
