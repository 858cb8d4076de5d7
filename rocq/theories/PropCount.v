(** C52: the counting writer. *)

From Coq Require Import Ascii String List ZArith NArith Bool Arith Lia.
From Verif Require Import Bytes BytesProofs Json JsonProofs Slog SpecLog Flash TextProofs GoQuote Samples Slices FlashHeap
  FlashConc FlashConcProofs FlashConcLog FlashConcCall FlashConcRun Sloggy SpecSloggy SloggyProofs SloggyHandler SloggyLaws SloggyConc PropConcurrent PropDerive CountWriter.
Import ListNotations.

(** ** Specification *)

(** The number of writes whose last byte is a newline. *)
Inductive tally : list bytes -> N -> Prop :=
| t_none : tally [] 0
| t_line p ws n : tally ws n -> tally ((p ++ [newline]) :: ws) (n + 1)
| t_other p ws n : (forall q, p <> q ++ [newline]) -> tally ws n -> tally (p :: ws) n.

(** Sums over the first [n] goroutines. *)
Fixpoint total (n : nat) (f : nat -> N) : N := match n with O => 0%N | S n' => (f n' + total n' f)%N end.

(** The number of jobs for the writer [q] that log a record without an error. *)
Inductive logged (std : stdlib) (q : nat) : list job -> N -> Prop :=
| lg_none : logged std q [] 0
| lg_line j js l n : j_sink j = q -> job_writes std j [l] -> logged std q js n -> logged std q (j :: js) (n + 1)
| lg_error j js n : j_sink j = q -> job_writes std j [] -> logged std q js n -> logged std q (j :: js) n
| lg_elsewhere j js n : j_sink j <> q -> logged std q js n -> logged std q (j :: js) n.

Inductive slogged (std : stdlib) (o : options) : list sjob -> N -> Prop :=
| sl_none : slogged std o [] 0
| sl_line j js ws n : slogs std o (sj_ops j) (sj_dead j) (sj_record j) (Done ws true) -> slogged std o js n -> slogged std o (j :: js) (n + 1)
| sl_error j js ws n : slogs std o (sj_ops j) (sj_dead j) (sj_record j) (Done ws false) -> slogged std o js n -> slogged std o (j :: js) n.

(** The texts json.Marshal and strconv give for the values do not end in a newline.
    (They never do; a value of the model carries these texts.) *)
Definition quiet_text (t : bytes) : Prop := forall q, t <> q ++ [newline].
Definition quiet_obs (o : any_obs) : Prop := forall t, ao_marshal o = MOk t -> quiet_text t.
Inductive quiet : value -> Prop :=
| q_nil : quiet (VAny AnyNil)
| q_obj o : quiet_obs o -> quiet (VAny (AnyObj o))
| q_bool b : quiet (VBool b)
| q_dur d : quiet (VDuration d)
| q_float f : quiet_text (float_text f) -> quiet (VFloat64 f)
| q_int i : quiet (VInt64 i)
| q_str s : quiet (VString s)
| q_time t : quiet (VTime t)
| q_uint u : quiet (VUint64 u)
| q_group l : Forall (fun a => quiet (snd a)) l -> quiet (VGroup l)
| q_lv w o : quiet w -> quiet_obs o -> quiet (VLogValuer w o).
Definition quiet_attrs (l : list attr) : Prop := Forall (fun a => quiet (snd a)) l.
Definition quiet_replace (rep : option attr_fn) : Prop :=
  match rep with None => True | Some f => forall gs a, quiet (snd a) -> quiet (snd (f gs a)) end.
Definition quiet_op (x : op) : Prop := match x with WithAttrs l => quiet_attrs l | WithGroup _ => True end.
Definition quiet_source (std : stdlib) : Prop := forall s t, sl_source_map std s = MOk t -> quiet_text t.

(** ** Lemmas *)

Lemma counts_iff p : cw_counts p = true <-> exists q, p = q ++ [newline].
Proof.
  unfold cw_counts. split.
  - destruct p as [|c p] using rev_ind; [discriminate|]. rewrite ends_with_app. intros E. apply Ascii.eqb_eq in E. subst. eauto.
  - intros [q ->]. rewrite ends_with_app. apply Ascii.eqb_refl.
Qed.

Lemma counts_not p : cw_counts p = false <-> quiet_text p.
Proof.
  unfold quiet_text. split.
  - intros E q Q. assert (X : cw_counts p = true) by (apply counts_iff; eauto). congruence.
  - intros H. destruct (cw_counts p) eqn:E; [|reflexivity]. apply counts_iff in E. destruct E as [q E]. destruct (H q E).
Qed.

Definition cnt (ws : list bytes) : N := N.of_nat (length (filter cw_counts ws)).

Lemma cnt_app a b : cnt (a ++ b) = (cnt a + cnt b)%N.
Proof. unfold cnt. rewrite filter_app, app_length. lia. Qed.
Lemma cnt_one p : cnt [p] = if cw_counts p then 1%N else 0%N.
Proof. unfold cnt. cbn. destruct (cw_counts p); reflexivity. Qed.

Lemma tally_cnt ws : tally ws (cnt ws).
Proof.
  induction ws as [|p ws IH]; [constructor|]. change (p :: ws) with ([p] ++ ws). rewrite cnt_app, cnt_one. destruct (cw_counts p) eqn:E.
  - apply counts_iff in E. destruct E as [q ->]. rewrite N.add_comm. apply t_line, IH.
  - apply counts_not in E. apply t_other; assumption.
Qed.
Lemma tally_is ws n : tally ws n -> n = cnt ws.
Proof.
  induction 1 as [|p ws n H IH|p ws n Q H IH]; [reflexivity| |].
  - change ((p ++ [newline]) :: ws) with ([p ++ [newline]] ++ ws). rewrite cnt_app, cnt_one.
    rewrite (proj2 (counts_iff (p ++ [newline])) (ex_intro _ p eq_refl)). lia.
  - change (p :: ws) with ([p] ++ ws). rewrite cnt_app, cnt_one. rewrite (proj2 (counts_not p) Q). lia.
Qed.

Lemma total_ext n f g : (forall i, i < n -> f i = g i) -> total n f = total n g.
Proof. induction n as [|n IH]; intros H; [reflexivity|]. cbn. rewrite (H n) by lia. f_equal. apply IH. intros; apply H; lia. Qed.
Lemma total_upd n f i (x : N) : i < n -> (total n (upd f i x) + f i = total n f + x)%N.
Proof.
  induction n as [|n IH]; intros L; [lia|]. cbn [total]. destruct (Nat.eq_dec i n) as [->|D].
  - rewrite upd_same. rewrite (total_ext n (upd f n x) f); [lia|]. intros j Lj. rewrite upd_other by lia. reflexivity.
  - rewrite upd_other by lia. specialize (IH ltac:(lia)). lia.
Qed.
Lemma total_add n f g i d : i < n -> g i = (f i + d)%N -> (forall j, j <> i -> g j = f j) -> total n g = (total n f + d)%N.
Proof.
  intros L E O. pose proof (total_upd n f i (g i) L) as X. rewrite (total_ext n g (upd f i (g i))); [lia|].
  intros j _. destruct (Nat.eq_dec j i) as [->|D]; [rewrite upd_same; reflexivity|rewrite upd_other by exact D; apply O, D].
Qed.
Lemma total_same n f g : (forall i, g i = f i) -> total n g = total n f.
Proof. intros H. apply total_ext. auto. Qed.

Lemma add_mod a : cw_add (N.modulo a two64) = N.modulo (a + 1) two64.
Proof. unfold cw_add. apply N.add_mod_idemp_l. discriminate. Qed.

Lemma write_mod a p : cw_write (N.modulo a two64) p = N.modulo (a + cnt [p]) two64.
Proof. unfold cw_write. rewrite cnt_one. destruct (cw_counts p); [apply add_mod|rewrite N.add_0_r; reflexivity]. Qed.

(** ** The writer by itself *)

(** Whatever the interleaving, the count is the number of writes ending in a newline
    whose calls have taken effect, each goroutine's in its order; in the end, of all. *)
Theorem C52_counter n T st : (forall i, n <= i -> T i = []) -> wreaches (wstart T) st ->
  exists did k, (forall i, exists rest, T i = did i ++ rest /\ (length rest <= length (snd (w_thr st i)))) /\
    (forall i, tally (did i) (k i)) /\ w_count st = N.modulo (total n k) two64 /\ (wfinished st -> forall i, did i = T i).
Proof.
  intros Z R.
  assert (I : exists did, (forall i, T i = did i ++ snd (w_thr st i)) /\
    (forall i p todo, w_thr st i = (true, p :: todo) -> cw_counts p = true) /\
    w_count st = N.modulo (total n (fun i => cnt (did i))) two64).
  { induction R as [|st st' j R (did & H & F & C) S].
    - exists (fun _ => []). split; [reflexivity|]. split; [intros i p todo; discriminate|]. cbn. clear. assert (E : total n (fun _ => 0%N) = 0%N) by (induction n; cbn; lia).
      change (fun _ : nat => cnt []) with (fun _ : nat => 0%N). rewrite E. reflexivity.
    - assert (Lt : forall i p b todo, w_thr st i = (b, p :: todo) -> i < n).
      { intros i p b todo E. destruct (le_lt_dec n i) as [L|L]; [|exact L]. specialize (H i). rewrite (Z i L), E in H. destruct (did i); discriminate. }
      destruct S as [i c th p todo E Q|i c th p todo E Q|i c th p todo E]; cbn [w_thr w_count] in *.
      + exists did. split; [|split; [|exact C]].
        * intros x. destruct (Nat.eq_dec x i) as [->|D]; [rewrite upd_same; specialize (H i); rewrite E in H; exact H|rewrite upd_other by exact D; apply H].
        * intros x p' todo'. destruct (Nat.eq_dec x i) as [->|D]; [rewrite upd_same; intros X; injection X as <- <-; exact Q|rewrite upd_other by exact D; apply F].
      + exists (upd did i (did i ++ [p])). split; [|split].
        * intros x. destruct (Nat.eq_dec x i) as [->|D]; [rewrite !upd_same; specialize (H i); rewrite E in H; rewrite H; cbn [snd]; rewrite <- app_assoc; reflexivity|rewrite !upd_other by exact D; apply H].
        * intros x p' todo'. destruct (Nat.eq_dec x i) as [->|D]; [rewrite upd_same; discriminate|rewrite upd_other by exact D; apply F].
        * rewrite C. f_equal. symmetry. apply total_same. intros x. destruct (Nat.eq_dec x i) as [->|D]; [rewrite upd_same, cnt_app, cnt_one, Q; lia|rewrite upd_other by exact D; reflexivity].
      + exists (upd did i (did i ++ [p])). split; [|split].
        * intros x. destruct (Nat.eq_dec x i) as [->|D]; [rewrite !upd_same; specialize (H i); rewrite E in H; rewrite H; cbn [snd]; rewrite <- app_assoc; reflexivity|rewrite !upd_other by exact D; apply H].
        * intros x p' todo'. destruct (Nat.eq_dec x i) as [->|D]; [rewrite upd_same; discriminate|rewrite upd_other by exact D; apply F].
        * rewrite C, add_mod. f_equal. symmetry. apply (total_add n _ _ i); [eapply Lt; exact E| |].
          -- rewrite upd_same, cnt_app, cnt_one, (F i p todo E). reflexivity.
          -- intros x D. rewrite upd_other by exact D. reflexivity. }
  destruct I as (did & H & F & C). exists did, (fun i => cnt (did i)). split; [|split; [|split; [exact C|]]].
  - intros i. exists (snd (w_thr st i)). split; [apply H|lia].
  - intros i. apply tally_cnt.
  - intros Fin i. rewrite H, (Fin i). cbn. rewrite app_nil_r. reflexivity.
Qed.

(** ** As the writer of flash handlers *)

Lemma then_ok {Buf} (m : option (composer Buf * bool)) k c : gandthen Buf m k = Some (c, true) -> exists c', m = Some (c', true) /\ k c' = Some (c, true).
Proof. unfold gandthen. destruct m as [[c' []]|]; intros H; [eauto|discriminate|discriminate]. Qed.

Lemma call_of_newline std n q h r c : call_of std n q h r = Some c -> k_ok c = true -> exists l, concat (k_chunks c) = l ++ [newline].
Proof.
  unfold call_of. destruct (gcompose _ _ _ _ _ _ _) as [[x ok]|] eqn:E; [|discriminate]. intros X. injection X as <-. cbn [k_ok k_chunks]. intros ->.
  unfold gcompose in E. cbv zeta in E.
  do 5 (apply then_ok in E; destruct E as (? & _ & E)). injection E as <-. unfold add_bytes. cbn [c_buffer with_buffer].
  rewrite concat_app. cbn [concat]. rewrite app_nil_r. change [chr 125; newline] with ([chr 125] ++ [newline]). rewrite app_assoc. eauto.
Qed.

Lemma call_newline std n q d g r c : call_hdl std n q d g r = Some c -> k_ok c = true -> exists l, concat (k_chunks c) = l ++ [newline].
Proof.
  revert d. induction g as [h|h name p IH]; intros d; cbn [call_hdl]; [apply call_of_newline|].
  destruct d; try discriminate; match goal with |- context [if ?b then _ else _] => destruct b end; (apply IH || apply call_of_newline).
Qed.

Definition good (q : nat) (cs : list call) : N := N.of_nat (length (filter (fun c => k_ok c && Nat.eqb (k_sink c) q) cs)).
Lemma good_app q a b : good q (a ++ b) = (good q a + good q b)%N.
Proof. unfold good. rewrite filter_app, app_length. lia. Qed.

Lemma logged_good std q js cs n : Forall2 (job_call std) js cs -> logged std q js n -> n = good q cs.
Proof.
  intros F. revert n. induction F as [|j c js cs H F IH]; intros n L; [inversion L; reflexivity|].
  destruct (job_call_writes std j c H) as [W S]. assert (U : forall ws, job_writes std j ws -> ws = if k_ok c then [line c] else []).
  { intros ws (ok' & n' & W'). destruct W as (ok & n0 & W). specialize (W (max n0 n') ltac:(lia)). specialize (W' (max n0 n') ltac:(lia)). congruence. }
  unfold good. cbn [filter]. inversion L as [|? ? l m S' W' L'|? ? m S' W' L'|? ? m S' L']; subst.
  - apply U in W'. destruct (k_ok c); [|discriminate]. rewrite S, Nat.eqb_refl. cbn. rewrite (IH _ L'). unfold good. lia.
  - apply U in W'. destruct (k_ok c); [discriminate|]. cbn. apply IH, L'.
  - replace (Nat.eqb (k_sink c) q) with false by (symmetry; apply Nat.eqb_neq; congruence). rewrite andb_false_r. apply IH, L'.
Qed.

Lemma good_logged std q js cs : Forall2 (job_call std) js cs -> logged std q js (good q cs).
Proof.
  induction 1 as [|j c js cs H F IH]; [constructor|]. destruct (job_call_writes std j c H) as [W S]. unfold good. cbn [filter].
  destruct (Nat.eqb_spec (k_sink c) q) as [E|E].
  - rewrite andb_true_r. destruct (k_ok c); [|apply lg_error; [congruence|assumption..]]. cbn [length]. rewrite Nat2N.inj_succ, <- N.add_1_r. eapply lg_line; [congruence|eassumption|exact IH].
  - rewrite andb_false_r. apply lg_elsewhere; [congruence|exact IH].
Qed.

(** The call a goroutine has not written yet. *)
Definition unwritten (p : phase) : list call :=
  match p with Got c _ | Composing c _ _ | Writing c _ _ _ _ => [c] | _ => [] end.

Lemma counts_reaches grow q st0 st n : flash_counts grow q st0 st n -> reaches_state grow false st0 st.
Proof. induction 1; econstructor; eauto. Qed.

Lemma flash_inv grow q n T st m : (forall i, n <= i -> T i = []) ->
  (forall i c, In c (T i) -> k_ok c = true -> exists l, concat (k_chunks c) = l ++ [newline]) ->
  flash_counts grow q (start T) st m ->
  exists did, (forall i, T i = did i ++ unwritten (t_phase (s_thr st i)) ++ t_todo (s_thr st i)) /\ m = N.modulo (total n (fun i => good q (did i))) two64.
Proof.
  intros Z NL R. induction R as [|st st' a m R (did & H & C) S].
  - exists (fun _ => []). split; [reflexivity|]. assert (E : total n (fun _ => 0%N) = 0%N) by (clear; induction n; cbn; lia).
    change (fun _ : nat => good q []) with (fun _ : nat => 0%N). rewrite E. reflexivity.
  - pose proof (counts_reaches _ _ _ _ _ R) as RS.
    assert (Same : forall i th', s_thr st' = upd (s_thr st) i th' ->
      unwritten (t_phase th') ++ t_todo th' = unwritten (t_phase (s_thr st i)) ++ t_todo (s_thr st i) -> fold_left cw_write (flash_writes q a st st') m = m ->
      exists did', (forall i, T i = did' i ++ unwritten (t_phase (s_thr st' i)) ++ t_todo (s_thr st' i)) /\
        fold_left cw_write (flash_writes q a st st') m = N.modulo (total n (fun i => good q (did' i))) two64).
    { intros i th' E U W. exists did. split; [|congruence]. intros x. rewrite E.
      destruct (Nat.eq_dec x i) as [->|D]; [rewrite upd_same, U; apply H|rewrite upd_other by exact D; apply H]. }
    assert (Did : forall i c th', s_thr st' = upd (s_thr st) i th' -> unwritten (t_phase (s_thr st i)) = [c] ->
      unwritten (t_phase th') = [] -> t_todo th' = t_todo (s_thr st i) ->
      fold_left cw_write (flash_writes q a st st') m = N.modulo (total n (fun i => good q (did i)) + good q [c]) two64 ->
      exists did', (forall i, T i = did' i ++ unwritten (t_phase (s_thr st' i)) ++ t_todo (s_thr st' i)) /\
        fold_left cw_write (flash_writes q a st st') m = N.modulo (total n (fun i => good q (did' i))) two64).
    { intros i c th' E U U' Td W. exists (upd did i (did i ++ [c])). split.
      - intros x. rewrite E. destruct (Nat.eq_dec x i) as [->|D]; [rewrite !upd_same, U', Td, H, U, <- app_assoc; reflexivity|rewrite !upd_other by exact D; apply H].
      - rewrite W. f_equal. symmetry. assert (L : i < n).
        { destruct (le_lt_dec n i) as [L|L]; [|exact L]. specialize (H i). rewrite (Z i L), U in H. destruct (did i); discriminate. }
        apply (total_add n _ _ i _ L); [rewrite upd_same, good_app; reflexivity|]. intros x D. rewrite upd_other by exact D. reflexivity. }
    destruct S as [i c todo l1 b l2 h cs nx cp lk o th E|i c todo h h' b bp cs nx cp lk o th E G
      |i c b todo h bp cs nx l1 k l2 lk o th E|i c b todo h bp cs nx cp lk o th E
      |i c b k todo h h' s x xs bp cs nx cp lk o th E K G
      |i c b k todo h bp cs nx cp lk o th E K Ok
      |i c b k todo h bp cs nx cp lk o th E K Ok Lk
      |i c b k s x todo h bp cs nx cp lk o th E Lx
      |i c b k s x todo h bp cs nx cp lk o th E Lx
      |i c b k todo h bp cs nx cp lk o th E
      |i c b k todo h bp cs nx cp lk o th E
      |i c b todo h bp cs nx cp lk o th E
      |l1 b l2 h cs nx cp lk o th
      |l1 k l2 h bp cs nx lk o th]; cbn [s_thr s_heap] in *.
    all: try (eapply Same; [reflexivity|rewrite E; reflexivity|unfold flash_writes; cbn [s_thr]; rewrite E, ?upd_same; reflexivity]).
    all: try (exists did; split; [exact H|exact C]).
    + (* append *) exists did. split; [exact H|]. unfold flash_writes. cbn [s_thr]. rewrite E. exact C.
    + (* fail *) eapply (Did i c); [reflexivity|rewrite E; reflexivity|reflexivity|rewrite E; reflexivity|].
      unfold flash_writes. cbn [s_thr]. rewrite E, upd_same. cbn [fold_left at_phase t_phase].
      unfold good. cbn [filter]. rewrite Ok. cbn. rewrite N.add_0_r. exact C.
    + (* written *) eapply (Did i c); [reflexivity|rewrite E; reflexivity|reflexivity|rewrite E; reflexivity|].
      assert (Ep : t_phase (s_thr (mkst h bp cs nx cp lk o th) i) = Writing c b k s x) by (cbn; rewrite E; reflexivity).
      destruct (C10_written _ _ _ _ _ _ _ _ _ _ RS Ep) as (Rd & Ok & _). cbn [s_heap] in Rd.
      assert (Ic : In c (T i)). { rewrite H, E. cbn. apply in_or_app. right. left. reflexivity. }
      unfold flash_writes. cbn [s_thr]. rewrite E, upd_same. cbn [at_phase t_phase s_heap].
      unfold good. cbn [filter]. rewrite Ok. cbn [andb]. destruct (Nat.eqb (k_sink c) q); cbn [fold_left length]; [|rewrite N.add_0_r; exact C].
      rewrite Rd, C, write_mod, cnt_one. destruct (NL i c Ic Ok) as (l & El). rewrite El. rewrite (proj2 (counts_iff (l ++ [newline])) (ex_intro _ l eq_refl)). reflexivity.
Qed.

(** With flash, the count is the number of records whose calls have written, and in the
    end of all records logged without an error, whatever the interleaving. *)
Theorem C52_flash std grow n q J T st m : (forall i, Forall2 (job_call std) (J i) (T i)) -> (forall i, n <= i -> J i = []) ->
  flash_counts grow q (start T) st m -> exists did k,
  (forall i, exists todo, J i = did i ++ todo) /\ (forall i, logged std q (did i) (k i)) /\
  m = N.modulo (total n k) two64 /\ (finished st -> forall i, did i = J i).
Proof.
  intros F Z R. assert (ZT : forall i, n <= i -> T i = []) by (intros i L; specialize (F i); rewrite (Z i L) in F; inversion F; reflexivity).
  assert (NL : forall i c, In c (T i) -> k_ok c = true -> exists l, concat (k_chunks c) = l ++ [newline]).
  { intros i c I Ok. specialize (F i). clear -F I Ok. induction F as [|j c' js cs [m E] F IH]; [destruct I|]. destruct I as [->|I]; [eapply call_newline; eauto|auto]. }
  destruct (flash_inv grow q n T st m ZT NL R) as (did & H & C).
  assert (X : forall i, exists dj, (exists todo, J i = dj ++ todo) /\ Forall2 (job_call std) dj (did i) /\ (did i = T i -> dj = J i)).
  { intros i. specialize (F i). rewrite (H i) in F. apply Forall2_app_inv_r in F. destruct F as (d1 & d2 & F1 & F2 & E). exists d1. split; [eauto|]. split; [exact F1|].
    intros Q. rewrite E. rewrite (H i) in Q. assert (E2 : unwritten (t_phase (s_thr st i)) ++ t_todo (s_thr st i) = []) by (apply (app_inv_head (did i)); rewrite app_nil_r; symmetry; exact Q).
    rewrite E2 in F2. inversion F2. rewrite app_nil_r. reflexivity. }
  assert (Y : exists dj : nat -> list job, forall i, i < n -> (exists todo, J i = dj i ++ todo) /\ Forall2 (job_call std) (dj i) (did i) /\ (did i = T i -> dj i = J i)).
  { clear -X. induction n as [|n [dj IH]]; [exists (fun _ => []); intros i L; lia|]. destruct (X n) as (d & D). exists (upd dj n d). intros i L.
    destruct (Nat.eq_dec i n) as [->|Ne]; [rewrite upd_same; exact D|rewrite upd_other by exact Ne; apply IH; lia]. }
  destruct Y as (dj & Y). exists (fun i => if i <? n then dj i else []), (fun i => if i <? n then good q (did i) else 0%N). split; [|split; [|split]].
  - intros i. destruct (Nat.ltb_spec i n) as [L|L]; [apply Y, L|rewrite (Z i L); exists []; reflexivity].
  - intros i. destruct (Nat.ltb_spec i n) as [L|L]; [apply good_logged, Y, L|constructor].
  - rewrite C. f_equal. apply total_ext. intros i L. apply Nat.ltb_lt in L. rewrite L. reflexivity.
  - intros Fin i. destruct (Nat.ltb_spec i n) as [L|L]; [|rewrite (Z i L); reflexivity]. apply Y; [exact L|]. rewrite (H i), (Fin i). cbn. rewrite app_nil_r. reflexivity.
Qed.

(** ** As the writer of sloggy handlers *)

Definition unsent (p : sphase) : list bytes := match p with SRun _ rest => rest | SLast _ x => [x] | _ => [] end.
Definition all_chunks (cs : list scall) : list bytes := flat_map sk_chunks cs.

Lemma sloggy_inv n T st m : (forall i, n <= i -> T i = []) -> sloggy_counts (sstart T) st m ->
  exists did, (forall i, all_chunks (T i) = did i ++ unsent (st_phase (ss_thr st i)) ++ all_chunks (st_todo (ss_thr st i))) /\
    m = N.modulo (total n (fun i => cnt (did i))) two64.
Proof.
  intros Z R. induction R as [|st st' a m R (did & H & C) S].
  - exists (fun _ => []). split; [reflexivity|]. assert (E : total n (fun _ => 0%N) = 0%N) by (clear; induction n; cbn; lia).
    change (fun _ : nat => cnt []) with (fun _ : nat => 0%N). rewrite E. reflexivity.
  - assert (Same : forall i th', ss_thr st' = upd (ss_thr st) i th' ->
      unsent (st_phase th') ++ all_chunks (st_todo th') = unsent (st_phase (ss_thr st i)) ++ all_chunks (st_todo (ss_thr st i)) ->
      sloggy_writes a st st' = [] ->
      exists did', (forall i, all_chunks (T i) = did' i ++ unsent (st_phase (ss_thr st' i)) ++ all_chunks (st_todo (ss_thr st' i))) /\
        fold_left cw_write (sloggy_writes a st st') m = N.modulo (total n (fun i => cnt (did' i))) two64).
    { intros i th' E U ->. exists did. split; [|exact C]. intros x. rewrite E.
      destruct (Nat.eq_dec x i) as [->|D]; [rewrite upd_same, U; apply H|rewrite upd_other by exact D; apply H]. }
    assert (Did : forall i x th', ss_thr st' = upd (ss_thr st) i th' ->
      unsent (st_phase (ss_thr st i)) = x :: unsent (st_phase th') -> st_todo th' = st_todo (ss_thr st i) ->
      sloggy_writes a st st' = [x] ->
      exists did', (forall i, all_chunks (T i) = did' i ++ unsent (st_phase (ss_thr st' i)) ++ all_chunks (st_todo (ss_thr st' i))) /\
        fold_left cw_write (sloggy_writes a st st') m = N.modulo (total n (fun i => cnt (did' i))) two64).
    { intros i x th' E U Td W. exists (upd did i (did i ++ [x])). split.
      - intros y. rewrite E. destruct (Nat.eq_dec y i) as [->|D]; [rewrite !upd_same, Td, H, U, <- app_assoc; reflexivity|rewrite !upd_other by exact D; apply H].
      - rewrite W. cbn [fold_left]. rewrite C, write_mod. f_equal. symmetry. assert (L : i < n).
        { destruct (le_lt_dec n i) as [L|L]; [|exact L]. specialize (H i). rewrite (Z i L), U in H. destruct (did i); discriminate. }
        apply (total_add n _ _ i _ L); [rewrite upd_same, cnt_app; reflexivity|]. intros y D. rewrite upd_other by exact D. reflexivity. }
    destruct S as [i c todo lk o th E Sr|i c x rest todo lk o th E Q|i c todo lk o th E|i c x todo o th E Ok|i c x todo lk o th E|i c todo lk o th E]; cbn [ss_thr] in *.
    + eapply Same; [reflexivity|rewrite E; reflexivity|]. unfold sloggy_writes. cbn [ss_thr]. rewrite E, upd_same. reflexivity.
    + eapply (Did i x); [reflexivity|rewrite E; reflexivity|rewrite E; reflexivity|]. unfold sloggy_writes. cbn [ss_thr]. rewrite E, upd_same. reflexivity.
    + eapply Same; [reflexivity|rewrite E; reflexivity|]. unfold sloggy_writes. cbn [ss_thr]. rewrite E, upd_same. reflexivity.
    + eapply Same; [reflexivity|rewrite E; reflexivity|]. unfold sloggy_writes. cbn [ss_thr]. rewrite E, upd_same. reflexivity.
    + eapply (Did i x); [reflexivity|rewrite E; reflexivity|rewrite E; reflexivity|]. unfold sloggy_writes. cbn [ss_thr]. rewrite E, upd_same. reflexivity.
    + eapply Same; [reflexivity|rewrite E; reflexivity|]. unfold sloggy_writes. cbn [ss_thr]. rewrite E, upd_same. reflexivity.
Qed.

(** With sloggy every write counts that ends in a newline. *)
Lemma sloggy_total n T st m : (forall i, n <= i -> T i = []) -> sloggy_counts (sstart T) st m -> sfinished st ->
  m = N.modulo (total n (fun i => cnt (all_chunks (T i)))) two64.
Proof.
  intros Z R Fin. destruct (sloggy_inv n T st m Z R) as (did & H & C). rewrite C. f_equal. apply total_ext. intros i _.
  rewrite H, (Fin i). cbn. rewrite app_nil_r. reflexivity.
Qed.

Section Chunks.
Variable std : stdlib.
Variable rep : option attr_fn.
Hypothesis Qr : quiet_replace rep.

Definition silent (ws : list bytes) : Prop := Forall quiet_text ws.

Lemma silent_app a b : silent (a ++ b) <-> silent a /\ silent b.
Proof. apply Forall_app. Qed.
Lemma silent_cnt ws : silent ws -> cnt ws = 0%N.
Proof.
  induction 1 as [|p ws H S IH]; [reflexivity|]. change (p :: ws) with ([p] ++ ws). rewrite cnt_app, cnt_one, (proj2 (counts_not p) H), IH. reflexivity.
Qed.
Lemma silent_concat ws : silent ws -> quiet_text (concat ws).
Proof.
  induction 1 as [|p ws H S IH]; [intros q X; destruct q; discriminate|]. cbn [concat]. apply counts_not. unfold cw_counts.
  apply counts_not in H, IH. unfold cw_counts in *. destruct (concat ws) as [|c r]; [rewrite app_nil_r; exact H|]. rewrite ends_with_app_ne by discriminate. exact IH.
Qed.

Lemma quiet_end t c : c <> newline -> quiet_text (t ++ [c]).
Proof. intros H q E. apply app_inj_tail in E. destruct E. congruence. Qed.
Lemma quiet_check t : ends_with newline t = false -> quiet_text t.
Proof. apply counts_not. Qed.
Lemma quiet_quoted s : quiet_text (quoted std s).
Proof. unfold quoted, go_quote. rewrite app_comm_cons. apply quiet_end. discriminate. Qed.
Lemma quiet_digits n : quiet_text (dec_of_N n).
Proof.
  intros q E. pose proof (dec_of_N_digits n) as D. rewrite E, forallb_app in D. apply andb_true_iff in D. destruct D as [_ D]. discriminate.
Qed.
Lemma quiet_int z : quiet_text (dec_of_Z z).
Proof.
  unfold dec_of_Z. destruct z as [|p|p]; try apply quiet_digits. intros [|c q] E; [discriminate|]. injection E as _ E. exact (quiet_digits _ q E).
Qed.
Lemma quiet_any o : quiet_obs o -> silent (fst (any_chunks std o)).
Proof.
  intros Q. unfold any_chunks. destruct (ao_net o), (ao_error o), (ao_stringer o), (ao_jsonm o), (ao_textm o); cbn [fst];
    try (constructor; [apply quiet_quoted|constructor]).
  destruct (ao_marshal o) eqn:E; cbn [fst]; [constructor; [apply Q, E|constructor]|constructor].
Qed.
Lemma quiet_leaf v : quiet v -> match v with VGroup _ => True | _ => silent (fst (leaf_chunks std v)) end.
Proof.
  intros Q. destruct Q; cbn [leaf_chunks any_of_value fst]; try exact I;
    try (constructor; [|constructor]); try apply quiet_quoted; try apply quiet_int; try apply quiet_digits; try assumption; try (apply quiet_any; assumption).
  - apply quiet_check. reflexivity.
  - destruct b; apply quiet_check; reflexivity.
Qed.

Lemma quiet_resolve n v : quiet v -> quiet (resolve_n n v).
Proof.
  revert v. induction n as [|n IH]; intros v Q; cbn [resolve_n].
  - constructor. intros t E. injection E as <-. apply quiet_check. reflexivity.
  - destruct Q; try (constructor; assumption). apply IH. assumption.
Qed.

Lemma quiet_effective gs a : quiet (snd a) -> quiet (snd (sloggy_effective rep gs a)).
Proof.
  intros Q. unfold sloggy_effective. destruct rep as [f|]; [apply Qr, Q|]. apply quiet_resolve, Q.
Qed.

Lemma quiet_em n : forall gs,
  (forall st a r, quiet (snd a) -> em std rep n gs st a = Some r -> silent (fst (fst r))) /\
  (forall l st r, quiet_attrs l -> ems std rep n gs st l = Some r -> silent (fst (fst r))).
Proof.
  assert (Lift : forall f, (forall st a r, quiet (snd a) -> f st a = Some r -> silent (fst (fst r))) ->
    forall l st r, quiet_attrs l -> ems_loop f st l = Some r -> silent (fst (fst r))).
  { intros f Hf. induction l as [|a l IH]; intros st r Q E; cbn [ems_loop] in E; [injection E as <-; constructor|]. inversion Q as [|? ? Qa Ql]; subst.
    destruct (f st a) as [[[c1 s1] []]|] eqn:F; [| |discriminate].
    - destruct (ems_loop f s1 l) as [[[c2 s2] ok]|] eqn:G; [|discriminate]. injection E as <-. cbn. apply silent_app. split; [apply (Hf _ _ _ Qa F)|apply (IH _ _ Ql G)].
    - injection E as <-. apply (Hf _ _ _ Qa F). }
  assert (Fd : forall st k, silent (field_chunks std st k)).
  { intros st k. unfold field_chunks, sep_chunks. apply silent_app. split; [destruct st; [constructor; [apply quiet_check; reflexivity|constructor]|constructor]|].
    constructor; [apply quiet_quoted|]. constructor; [apply quiet_check; reflexivity|constructor]. }
  induction n as [|n IH]; intros gs.
  - split; [discriminate|]. apply Lift. discriminate.
  - assert (M : forall st a r, quiet (snd a) -> em std rep (S n) gs st a = Some r -> silent (fst (fst r))).
    { intros st a r Q E. cbn [em] in E. destruct (is_empty a); [injection E as <-; constructor|].
      pose proof (quiet_effective gs a Q) as Qv. destruct (sloggy_effective rep gs a) as [a' v]. cbn [snd] in Qv.
      destruct (is_empty a'); [injection E as <-; constructor|]. pose proof (quiet_leaf v Qv) as L.
      assert (Leaf : (let (c, ok) := leaf_chunks std v in Some (field_chunks std st (fst a') ++ c, true, ok)) = Some r ->
        silent (fst (leaf_chunks std v)) -> silent (fst (fst r))).
      { destruct (leaf_chunks std v) as [c ok]. intros X Y. injection X as <-. cbn in *. apply silent_app. auto. }
      destruct v; try (apply Leaf; assumption). inversion Qv as [| | | | | | | | |? Ql|]; subst.
      destruct (empty_group l); [injection E as <-; constructor|]. destruct (fst a') as [|kc k].
      - exact (proj2 (IH gs) _ _ _ Ql E).
      - destruct (ems_loop (em std rep n gs) false l) as [[[c s1] ok]|] eqn:G; [|discriminate]. injection E as <-. cbn [fst].
        apply silent_app. split; [apply Fd|]. constructor; [apply quiet_check; reflexivity|]. apply silent_app.
        split; [exact (proj2 (IH gs) _ _ _ Ql G)|]. destruct ok; [constructor; [apply quiet_check; reflexivity|constructor]|constructor]. }
    split; [exact M|]. apply Lift, M.
Qed.
End Chunks.

(** Derived handlers: the prefix does not end in a newline, the suffix is closing braces. *)
Definition quiet_handler (o : options) (h : shandler) : Prop :=
  sh_options h = o /\ quiet_text (sh_prefix h) /\ quiet_text (sh_suffix h).

Lemma quiet_derive std o n ops : quiet_replace (o_replace o) -> Forall quiet_op ops ->
  forall g g', sderive std n g ops = Some g' -> chain_all (quiet_handler o) g -> chain_all (quiet_handler o) g'.
Proof.
  intros Qr. induction 1 as [|x ops Qx Q IH]; intros g g' D H; [injection D as <-; exact H|]. cbn [sderive] in D.
  destruct (sstep std n g x) as [g2|] eqn:E; [|discriminate]. apply (IH g2 g' D). pose proof (chain_inner _ _ H) as (Ho & Hp & Hs).
  destruct x as [l|[|c nm]]; cbn [sstep] in E.
  - rewrite swith_attrs_eq in E. destruct (ems _ _ _ _ _ _) as [[[ch s] ok]|] eqn:Em; [|discriminate]. injection E as <-. cbn.
    unfold quiet_handler. cbn. split; [exact Ho|]. split; [|exact Hs]. rewrite Ho in Em.
    pose proof (proj2 (quiet_em std _ Qr n _) _ _ _ Qx Em) as Sc. cbn in Sc.
    change (sh_prefix (sinner g) ++ concat ch) with (concat (sh_prefix (sinner g) :: ch)). apply silent_concat. constructor; assumption.
  - injection E as <-. cbn. repeat split; assumption.
  - injection E as <-. cbn. split; [|exact H]. unfold quiet_handler. cbn. split; [exact Ho|]. split.
    + match goal with |- quiet_text ?t => replace t with ((sh_prefix (sinner g) ++ match sh_prefix (sinner g) with [] => [] | _ :: _ => if ends_with (chr 123) (sh_prefix (sinner g)) then [] else B ", " end ++ [quote] ++ c :: nm ++ [quote] ++ B ": ") ++ B "{") end;
        [|rewrite <- !app_assoc; cbn; rewrite <- !app_assoc; reflexivity]. apply quiet_end. discriminate.
    + apply quiet_end. discriminate.
Qed.

(** A Handle call makes one write ending in a newline if it succeeds and none if not. *)
Lemma quiet_call std o j c : quiet_source std -> quiet_replace (o_replace o) -> Forall quiet_op (sj_ops j) -> quiet_attrs (r_attrs (sj_record j)) ->
  sjob_call std o j c -> cnt (sk_chunks c) = if sk_ok c then 1%N else 0%N.
Proof.
  intros Qs Qr Qo Qa L. apply slogs_iff in L. destruct L as (n & g & D & H).
  destruct (schosen (sj_dead j) g (sj_record j)) as [h|] eqn:Ch; [|destruct H].
  assert (G : chain_all (quiet_handler o) g).
  { eapply quiet_derive; eauto. cbn. split; [reflexivity|]. split; apply quiet_check; reflexivity. }
  destruct (chain_chosen _ _ _ G _ _ Ch) as (Ho & Hp & Hs). unfold hchunks in H. rewrite Ho in H.
  assert (Qb : quiet_attrs (sbasics std h (sj_record j))).
  { unfold sbasics, quiet_attrs. rewrite !Forall_app. split; [destruct (t_zero _); repeat constructor|]. split; [repeat constructor|]. split; [repeat constructor|].
    destruct (o_add_source (sh_options h)); [|constructor]. destruct (r_source _); [|constructor]. constructor; [|constructor]. constructor. intros t. apply Qs. }
  destruct (ems std (o_replace o) n (sh_groups h) false (sbasics std h (sj_record j))) as [[[c1 s1] []]|] eqn:E1; [| |discriminate].
  - pose proof (proj2 (quiet_em std _ Qr n _) _ _ _ Qb E1) as S1. cbn in S1.
    assert (P : silent (prefix_chunks (sh_prefix h))).
    { unfold prefix_chunks. destruct (sh_prefix h); [constructor|]. constructor; [apply quiet_check; reflexivity|]. constructor; [exact Hp|constructor]. }
    assert (Br : quiet_text (B "{")) by (apply quiet_check; reflexivity).
    destruct (ems std (o_replace o) n (sh_groups h) _ (r_attrs (sj_record j))) as [[[c2 s2] []]|] eqn:E2; [| |discriminate];
      pose proof (proj2 (quiet_em std _ Qr n _) _ _ _ Qa E2) as S2; cbn in S2; injection H as <- <-.
    + match goal with |- cnt ?l = _ => replace l with ((B "{" :: c1 ++ prefix_chunks (sh_prefix h) ++ c2 ++ [sh_suffix h; B "}"]) ++ [[chr 13; newline]]) end;
        [|cbn; rewrite <- !app_assoc; reflexivity].
      rewrite cnt_app, silent_cnt; [reflexivity|]. constructor; [exact Br|]. rewrite !silent_app. split; [exact S1|]. split; [exact P|]. split; [exact S2|].
      constructor; [exact Hs|]. constructor; [apply quiet_check; reflexivity|constructor].
    + apply silent_cnt. constructor; [exact Br|]. rewrite !silent_app. auto.
  - pose proof (proj2 (quiet_em std _ Qr n _) _ _ _ Qb E1) as S1. cbn in S1. injection H as <- <-. apply silent_cnt.
    constructor; [apply quiet_check; reflexivity|exact S1].
Qed.

(** With sloggy, too, the count is in the end the number of records logged without an
    error, though the lines themselves may be interleaved. *)
Theorem C52_sloggy std o n J T st m : quiet_source std -> quiet_replace (o_replace o) ->
  (forall i j, In j (J i) -> Forall quiet_op (sj_ops j) /\ quiet_attrs (r_attrs (sj_record j))) ->
  (forall i, Forall2 (sjob_call std o) (J i) (T i)) -> (forall i, n <= i -> J i = []) ->
  sloggy_counts (sstart T) st m -> sfinished st ->
  exists k, (forall i, slogged std o (J i) (k i)) /\ m = N.modulo (total n k) two64.
Proof.
  intros Qs Qr Qj F Z R Fin. assert (ZT : forall i, n <= i -> T i = []) by (intros i L; specialize (F i); rewrite (Z i L) in F; inversion F; reflexivity).
  exists (fun i => cnt (all_chunks (T i))). split; [|eapply sloggy_total; eauto].
  intros i. specialize (F i). specialize (Qj i). induction F as [|j c js cs H F IH]; [constructor|].
  destruct (Qj j (or_introl eq_refl)) as [Q1 Q2]. pose proof (quiet_call std o j c Qs Qr Q1 Q2 H) as E.
  specialize (IH (fun j' I => Qj j' (or_intror I))). unfold all_chunks in *. cbn [flat_map]. rewrite cnt_app, E. unfold sjob_call in H.
  destruct (sk_ok c).
  - rewrite N.add_comm. eapply sl_line; eauto.
  - cbn. eapply sl_error; eauto.
Qed.

(** ** The check after a benchmark *)

Lemma total_le n f g : (forall i, i < n -> (f i <= g i)%N) -> (total n f <= total n g)%N.
Proof. induction n as [|n IH]; intros H; cbn; [lia|]. pose proof (H n ltac:(lia)). pose proof (IH ltac:(intros; apply H; lia)). lia. Qed.
Lemma total_eq n f g : (forall i, i < n -> (f i <= g i)%N) -> total n f = total n g -> forall i, i < n -> f i = g i.
Proof.
  induction n as [|n IH]; intros H E i L; [lia|]. cbn in E. pose proof (H n ltac:(lia)). pose proof (total_le n f g ltac:(intros; apply H; lia)).
  destruct (Nat.eq_dec i n) as [->|D]; [lia|]. apply IH; try lia. intros; apply H; lia.
Qed.

(** The number of records to be logged to [q]. *)
Definition records (q : nat) (js : list job) : N := N.of_nat (length (filter (fun j => Nat.eqb (j_sink j) q) js)).

(** With flash the check passes exactly if every record was logged without an error,
    for any number of records an int can hold. *)
Theorem C52_bench std grow n q J T st m : (forall i, Forall2 (job_call std) (J i) (T i)) -> (forall i, n <= i -> J i = []) ->
  flash_counts grow q (start T) st m -> finished st -> let b_n := total n (fun i => records q (J i)) in (b_n < 9223372036854775808)%N ->
  (bench_passes false (Z.of_N b_n) m = true <-> forall i j, In j (J i) -> j_sink j = q -> exists l, job_writes std j [l]).
Proof.
  intros F Z R Fin b_n Lt. destruct (C52_flash std grow n q J T st m F Z R) as (did & k & _ & Lg & M & Dn). specialize (Dn Fin).
  assert (Le : forall js c, logged std q js c -> (c <= records q js)%N /\ (c = records q js <-> forall j, In j js -> j_sink j = q -> exists l, job_writes std j [l])).
  { unfold records. induction 1 as [|j js l c S W L [IH1 IH2]|j js c S W L [IH1 IH2]|j js c S L [IH1 IH2]]; cbn [filter].
    - cbn. split; [lia|]. split; [intros _ j []|reflexivity].
    - rewrite S, Nat.eqb_refl. cbn [length]. split; [lia|]. split.
      + intros E j' [<-|I'] Sj; [eauto|]. apply IH2; [lia|exact I'|exact Sj].
      + intros H. assert (E : c = N.of_nat (length (filter (fun j => Nat.eqb (j_sink j) q) js))) by (apply IH2; intros; apply H; [right; assumption|assumption]). lia.
    - rewrite S, Nat.eqb_refl. cbn [length]. split; [lia|]. split; [lia|]. intros H. destruct (H j (or_introl eq_refl) S) as [l (ok & n1 & W1)]. destruct W as (ok' & n2 & W2).
      specialize (W1 (max n1 n2) ltac:(lia)). specialize (W2 (max n1 n2) ltac:(lia)). congruence.
    - replace (Nat.eqb (j_sink j) q) with false by (symmetry; apply Nat.eqb_neq, S). split; [exact IH1|]. rewrite IH2. split.
      + intros H j' [<-|I'] Sj; [contradiction|auto].
      + intros H j' I'. apply H. right. exact I'. }
  assert (Lk : forall i, (k i <= records q (J i))%N) by (intros i; rewrite <- (Dn i); apply Le, Lg).
  assert (Lm : (total n k <= b_n)%N) by (apply total_le; intros; apply Lk).
  assert (Em : m = total n k) by (rewrite M; apply N.mod_small; unfold two64; lia).
  unfold bench_passes, as_int. cbn [orb]. replace (N.ltb m 9223372036854775808) with true by (symmetry; apply N.ltb_lt; lia).
  rewrite Z.eqb_eq, N2Z.inj_iff, Em. split.
  - intros E i j I Sj. destruct (le_lt_dec n i) as [L|L]; [rewrite (Z i L) in I; destruct I|].
    pose proof (total_eq n k (fun i => records q (J i)) (fun i _ => Lk i) (eq_sym E) i L) as Ei. cbn in Ei. rewrite <- (Dn i) in Ei, I.
    apply (proj2 (Le _ _ (Lg i))); assumption.
  - intros H. unfold b_n. apply total_ext. intros i L. symmetry. rewrite <- (Dn i). apply (proj2 (Le _ _ (Lg i))). rewrite (Dn i). intros j. apply H.
Qed.

Print Assumptions C52_counter.
Print Assumptions C52_flash.
Print Assumptions C52_sloggy.
Print Assumptions C52_bench.

(** ** Examples *)

(** Two goroutines that both test before either adds. *)
Example C52_counter_ex :
  let T i := match i with 0 => [B "a" ++ [newline]; B "b"] | 1 => [[newline]] | _ => [] end in
  exists st, wreaches (wstart T) st /\ wfinished st /\ w_count st = 2%N.
Proof.
  cbv zeta. eexists. split; [|split].
  - eapply w_more; [eapply w_more; [eapply w_more; [eapply w_more; [eapply w_more; [apply w_start|]|]|]|]|].
    + apply (w_found 0 _ _ (B "a" ++ [newline]) [B "b"]); reflexivity.
    + apply (w_found 1 _ _ [newline] []); reflexivity.
    + apply (w_added 1 _ _ [newline] []); reflexivity.
    + apply (w_added 0 _ _ (B "a" ++ [newline]) [B "b"]); reflexivity.
    + apply (w_other 0 _ _ (B "b") []); reflexivity.
  - intros [|[|i]]; reflexivity.
  - reflexivity.
Qed.

Lemma counts_exist grow q st0 st : reaches_state grow false st0 st -> exists m, flash_counts grow q st0 st m.
Proof. induction 1 as [|st st' a R [m IH] S]; [eexists; constructor|]. eexists. econstructor; eauto. Qed.

(** The goroutines of [C09_applies]: one of four records for the first writer fails. *)
Example C52_bench_ex : exists st m, flash_counts doubling 0 (start calls0) st m /\ finished st /\
  (forall i, Forall2 (job_call std0) (jobs0 i) (calls0 i)) /\ total 3 (fun i => records 0 (jobs0 i)) = 4%N /\
  bench_passes false 4 m = false /\
  exists m', flash_counts doubling 1 (start calls0) st m' /\ bench_passes false 1 m' = true.
Proof.
  destruct C09_applies as [F _].
  assert (Z : forall i, 3 <= i -> jobs0 i = []) by (intros [|[|[|i]]] L; try lia; reflexivity).
  destruct (C09_completes std0 doubling false 3 jobs0 calls0 (start calls0) F Z (at_start _ _ _)) as (st & R & Fin).
  destruct (counts_exist doubling 0 _ _ R) as [m M]. destruct (counts_exist doubling 1 _ _ R) as [m' M'].
  exists st, m. split; [exact M|]. split; [exact Fin|]. split; [exact F|]. split; [reflexivity|]. split.
  - destruct (bench_passes false 4 m) eqn:E; [exfalso|reflexivity].
    destruct (proj1 (C52_bench std0 doubling 3 0 jobs0 calls0 st m F Z M Fin ltac:(reflexivity)) E 1
      {| j_sink := 0; j_hdl := HBase (new_handler (options1 None) None); j_dead := NoDead; j_record := record1 [(B "c", VAny (AnyObj bad_obj))] |}
      (or_introl eq_refl) eq_refl) as (l & ok & n & W).
    specialize (W (10 + n) ltac:(lia)). vm_compute in W. discriminate.
  - exists m'. split; [exact M'|]. apply (C52_bench std0 doubling 3 1 jobs0 calls0 st m' F Z M' Fin ltac:(reflexivity)).
    intros i j I S. destruct i as [|[|[|i]]]; cbn [jobs0 In] in I.
    + destruct I as [<-|[<-|[]]]; discriminate.
    + destruct I as [<-|[<-|[]]]; discriminate.
    + destruct I as [<-|[]]. specialize (F 2). cbn [jobs0] in F. match type of F with Forall2 _ (?j :: _) _ => assert (X : exists c, job_call std0 j c) by (inversion F; eauto) end.
      destruct X as (c & Jc). destruct (job_call_writes _ _ _ Jc) as [W _]. destruct (k_ok c) eqn:Ok; [eexists; exact W|exfalso].
      destruct W as (ok & n0 & W). specialize (W (10 + n0) ltac:(lia)). vm_compute in W. discriminate.
    + destruct I.
Qed.

(** Sloggy: the hypotheses hold for the sample library and values, and are needed: a
    text ending in a newline would be counted a second time. *)
Definition noisy_obj : any_obs := plain_obs (MOk (B "1" ++ [newline])).

Example C52_sloggy_ex :
  let j := {| sj_ops := [WithGroup (B "g" ++ [newline])]; sj_dead := NoDead; sj_record := record1 [(B "a", VAny (AnyObj obj0)); (B "b", VString [newline])] |} in
  let noisy := {| sj_ops := []; sj_dead := NoDead; sj_record := record1 [(B "a", VAny (AnyObj noisy_obj))] |} in
  quiet_source std0 /\ Forall quiet_op (sj_ops j) /\ quiet_attrs (r_attrs (sj_record j)) /\
  (exists c, sjob_call std0 (options1 None) j c /\ sk_ok c = true /\ tally (sk_chunks c) 1) /\
  (exists c, sjob_call std0 (options1 None) noisy c /\ sk_ok c = true /\ tally (sk_chunks c) 2).
Proof.
  intros j noisy. split; [|split; [|split; [|split]]].
  - intros s t E. cbn in E. injection E as <-. unfold object3. rewrite app_comm_cons. apply quiet_end. discriminate.
  - repeat constructor.
  - constructor; [|constructor; [|constructor]]; cbn; constructor. intros t E. injection E as <-. apply quiet_check. reflexivity.
  - assert (X : exists ws, hchunks std0 10 (swith_group (snew_handler (options1 None)) (B "g" ++ [newline])) (sj_record j) = Some (ws, true) /\ cnt ws = 1%N)
      by (eexists; split; vm_compute; reflexivity).
    destruct X as (ws & E & C). exists {| sk_chunks := ws; sk_ok := true |}. split; [|split; [reflexivity|cbn; rewrite <- C; apply tally_cnt]].
    apply slogs_iff. exists 10. eexists. split; [reflexivity|]. cbn [sk_chunks sk_ok]. exact E.
  - assert (X : exists ws, hchunks std0 10 (snew_handler (options1 None)) (sj_record noisy) = Some (ws, true) /\ cnt ws = 2%N)
      by (eexists; split; vm_compute; reflexivity).
    destruct X as (ws & E & C). exists {| sk_chunks := ws; sk_ok := true |}. split; [|split; [reflexivity|cbn; rewrite <- C; apply tally_cnt]].
    apply slogs_iff. exists 10. eexists. split; [reflexivity|]. cbn [sk_chunks sk_ok]. exact E.
Qed.
