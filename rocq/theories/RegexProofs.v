(** Lemmas about the matcher of Regex.v: agreement with a declarative meaning,
    and rules that compute the matches of the shapes of pattern used. *)

From Coq Require Import Ascii String List ZArith NArith Bool Arith Lia.
From Verif Require Import Bytes BytesProofs Regex.
Import ListNotations.

(** ** Declarative meaning *)

Inductive derives : re -> mstate -> mstate -> Prop :=
| d_chr p s c t : m_rest s = c :: t -> p c = true ->
    derives (RChr p) s {| m_caps := m_caps s; m_prev := Some c; m_rest := t |}
| d_empty s : derives REmpty s s
| d_seq a b s s1 s2 : derives a s s1 -> derives b s1 s2 -> derives (RSeq a b) s s2
| d_left a b s s' : derives a s s' -> derives (RAlt a b) s s'
| d_right a b s s' : derives b s s' -> derives (RAlt a b) s s'
| d_star0 g a s : derives (RStar g a) s s
| d_star1 g a s s1 s2 : derives a s s1 -> length (m_rest s1) < length (m_rest s) ->
    derives (RStar g a) s1 s2 -> derives (RStar g a) s s2
| d_group n a s s' : derives a s s' -> derives (RGroup n a) s (captured n s s')
| d_bol s : m_prev s = None -> derives RBol s s
| d_eol s : m_rest s = [] -> derives REol s s
| d_word s : xorb (word_at (m_prev s)) (word_at (hd_error (m_rest s))) = true -> derives RWord s s.

(** The loop of a repetition. *)
Fixpoint loop (g : bool) (a : re) (n : nat) (s : mstate) : list mstate :=
  match n with
  | O => [s]
  | S n' =>
      let more := flat_map (loop g a n')
        (filter (fun s' => Nat.ltb (length (m_rest s')) (length (m_rest s))) (ms a s)) in
      if g then more ++ [s] else s :: more
  end.

Lemma ms_star g a s : ms (RStar g a) s = loop g a (length (m_rest s)) s.
Proof.
  cbn [ms]. generalize (length (m_rest s)). intros n. revert s.
  induction n as [|n IH]; intros s; cbn [loop]; [reflexivity|].
  rewrite (flat_map_ext _ _ IH). reflexivity.
Qed.

Lemma loop_in g a n : forall s s', In s' (loop g a (S n) s) <->
  s' = s \/ exists s1, In s1 (ms a s) /\ length (m_rest s1) < length (m_rest s) /\ In s' (loop g a n s1).
Proof.
  intros s s'. cbn [loop].
  assert (A : In s' (flat_map (loop g a n)
    (filter (fun s' => Nat.ltb (length (m_rest s')) (length (m_rest s))) (ms a s))) <->
    exists s1, In s1 (ms a s) /\ length (m_rest s1) < length (m_rest s) /\ In s' (loop g a n s1)).
  { rewrite in_flat_map. split.
    - intros (x & H1 & H2). apply filter_In in H1. destruct H1 as [H1 H3]. apply Nat.ltb_lt in H3. eauto.
    - intros (x & H1 & H2 & H3). exists x. split; [|exact H3]. apply filter_In. split; [exact H1|].
      apply Nat.ltb_lt, H2. }
  destruct g.
  - rewrite in_app_iff, A. cbn [In]. intuition.
  - cbn [In]. rewrite A. intuition.
Qed.

Theorem ms_iff r : forall s s', In s' (ms r s) <-> derives r s s'.
Proof.
  induction r; intros s s'.
  - cbn [ms]. destruct (m_rest s) as [|c t] eqn:E; [split; [contradiction|]|].
    + intros H. inversion H; subst. congruence.
    + destruct (p c) eqn:P; split; intros H.
      * destruct H as [<-|[]]. econstructor; eauto.
      * inversion H; subst. rewrite E in *. injection H1 as <- <-. left. reflexivity.
      * destruct H.
      * inversion H; subst. rewrite E in *. injection H1 as <- <-. congruence.
  - cbn. split; [intros [<-|[]]; constructor|inversion 1; auto].
  - cbn [ms]. rewrite in_flat_map. split.
    + intros (x & H1 & H2). apply IHr1 in H1. apply IHr2 in H2. econstructor; eauto.
    + inversion 1; subst. eexists. split; [apply IHr1|apply IHr2]; eassumption.
  - cbn [ms]. rewrite in_app_iff, IHr1, IHr2. split.
    + intros [H|H]; [apply d_left|apply d_right]; exact H.
    + inversion 1; auto.
  - rewrite ms_star.
    assert (A : forall n s, length (m_rest s) <= n -> (In s' (loop greedy r n s) <-> derives (RStar greedy r) s s')).
    { induction n as [|n IHn]; intros s0 L.
      - cbn [loop In]. split; [intros [<-|[]]; constructor|].
        inversion 1; subst; [auto|lia].
      - rewrite loop_in. split.
        + intros [->|(s1 & H1 & H2 & H3)]; [constructor|].
          apply IHr in H1. apply IHn in H3; [|lia]. econstructor; eauto.
        + inversion 1; subst; [auto|]. right. eexists. split; [apply IHr; eassumption|].
          split; [assumption|]. apply IHn; [lia|assumption]. }
    apply A. lia.
  - cbn [ms]. rewrite in_map_iff. split.
    + intros (x & <- & H). apply IHr in H. constructor. exact H.
    + inversion 1; subst. eexists. split; [reflexivity|]. apply IHr. assumption.
  - cbn. destruct (m_prev s) eqn:E; split; try contradiction.
    + inversion 1; congruence.
    + intros [<-|[]]. constructor. exact E.
    + inversion 1; left; reflexivity.
  - cbn. destruct (m_rest s) eqn:E; split; try contradiction.
    + intros [<-|[]]. constructor. exact E.
    + inversion 1; left; reflexivity.
    + inversion 1; congruence.
  - cbn [ms]. destruct (xorb _ _) eqn:E; split; try contradiction.
    + intros [<-|[]]. constructor. exact E.
    + inversion 1; subst. left. reflexivity.
    + inversion 1; congruence.
Qed.

(** What a match leaves is a suffix. *)
Lemma derives_suffix r s s' : derives r s s' -> exists pre, m_rest s = pre ++ m_rest s'.
Proof.
  induction 1; try (exists []; reflexivity); cbn [m_rest captured] in *.
  - exists [c]. exact H.
  - destruct IHderives1 as [x Hx], IHderives2 as [y Hy]. exists (x ++ y). rewrite Hx, Hy, app_assoc. reflexivity.
  - exact IHderives.
  - exact IHderives.
  - destruct IHderives1 as [x Hx], IHderives2 as [y Hy]. exists (x ++ y). rewrite Hx, Hy, app_assoc. reflexivity.
  - exact IHderives.
Qed.

(** ** Rules *)

Definition init (s : bytes) : mstate := {| m_caps := []; m_prev := None; m_rest := s |}.
Definition adv (c : ascii) (t : bytes) (s : mstate) : mstate :=
  {| m_caps := m_caps s; m_prev := Some c; m_rest := t |}.

(** The longest prefix in a class, and what follows it. *)
Fixpoint span (p : ascii -> bool) (s : bytes) : bytes :=
  match s with c :: t => if p c then c :: span p t else [] | [] => [] end.
Fixpoint skip (p : ascii -> bool) (s : bytes) : bytes :=
  match s with c :: t => if p c then skip p t else s | [] => [] end.

Lemma span_skip p s : span p s ++ skip p s = s.
Proof. induction s as [|c t IH]; cbn; [reflexivity|]. destruct (p c); cbn; congruence. Qed.

Lemma span_all p s : forallb p (span p s) = true.
Proof. induction s as [|c t IH]; cbn; [reflexivity|]. destruct (p c) eqn:E; cbn; [rewrite E|]; auto. Qed.

Lemma skip_head p s : match skip p s with c :: _ => p c = false | [] => True end.
Proof. induction s as [|c t IH]; cbn; [exact I|]. destruct (p c) eqn:E; auto. Qed.

Lemma skip_app p a b : forallb p a = true -> skip p (a ++ b) = skip p b.
Proof.
  induction a as [|c a IH]; cbn; [reflexivity|]. intros H. apply andb_true_iff in H.
  destruct H as [-> H]. auto.
Qed.

Lemma span_app p a b : forallb p a = true -> span p (a ++ b) = a ++ span p b.
Proof.
  induction a as [|c a IH]; cbn; [reflexivity|]. intros H. apply andb_true_iff in H.
  destruct H as [-> H]. f_equal. auto.
Qed.

Lemma skip_none p s : match s with c :: _ => p c = false | [] => True end -> skip p s = s /\ span p s = [].
Proof. destruct s as [|c t]; cbn; [auto|]. intros ->. auto. Qed.

Lemma skip_length p s : length (skip p s) <= length s.
Proof. induction s as [|c t IH]; cbn; [lia|]. destruct (p c); cbn; lia. Qed.

(** The states along a run of a class. *)
Fixpoint eat (p : ascii -> bool) (caps : list (nat * bytes)) (prev : option ascii) (s : bytes) : mstate :=
  match s with
  | c :: t => if p c then eat p caps (Some c) t else {| m_caps := caps; m_prev := prev; m_rest := s |}
  | [] => {| m_caps := caps; m_prev := prev; m_rest := [] |}
  end.
Definition eaten (p : ascii -> bool) (s : mstate) : mstate := eat p (m_caps s) (m_prev s) (m_rest s).

Lemma eat_rest p caps s : forall prev, m_rest (eat p caps prev s) = skip p s.
Proof. induction s as [|c t IH]; intros prev; cbn; [reflexivity|]. destruct (p c); auto. Qed.

Lemma eat_caps p caps s : forall prev, m_caps (eat p caps prev s) = caps.
Proof. induction s as [|c t IH]; intros prev; cbn; [reflexivity|]. destruct (p c); auto. Qed.

Lemma eaten_rest p s : m_rest (eaten p s) = skip p (m_rest s).
Proof. apply eat_rest. Qed.

Lemma eaten_caps p s : m_caps (eaten p s) = m_caps s.
Proof. apply eat_caps. Qed.

Fixpoint runs (p : ascii -> bool) (caps : list (nat * bytes)) (prev : option ascii) (s : bytes) : list mstate :=
  let here := {| m_caps := caps; m_prev := prev; m_rest := s |} in
  match s with
  | c :: t => if p c then runs p caps (Some c) t ++ [here] else [here]
  | [] => [here]
  end.

Lemma ms_run p s : ms (rstar (RChr p)) s = runs p (m_caps s) (m_prev s) (m_rest s).
Proof.
  unfold rstar. rewrite ms_star. destruct s as [caps prev rest]. cbn [m_caps m_prev m_rest].
  revert prev. induction rest as [|c t IH]; intros prev; [reflexivity|].
  cbn [length loop runs ms m_rest m_caps m_prev]. destruct (p c) eqn:E; [|reflexivity].
  cbn [filter m_rest length]. replace (Nat.ltb (length t) (S (length t))) with true
    by (symmetry; apply Nat.ltb_lt; lia).
  cbn [flat_map]. rewrite app_nil_r, IH. reflexivity.
Qed.

(** The lazy repetition: the shortest first. *)
Fixpoint lazy_runs (p : ascii -> bool) (caps : list (nat * bytes)) (prev : option ascii) (s : bytes) : list mstate :=
  {| m_caps := caps; m_prev := prev; m_rest := s |} ::
  match s with c :: t => if p c then lazy_runs p caps (Some c) t else [] | [] => [] end.

Lemma ms_lazy p s : ms (RStar false (RChr p)) s = lazy_runs p (m_caps s) (m_prev s) (m_rest s).
Proof.
  rewrite ms_star. destruct s as [caps prev rest]. cbn [m_caps m_prev m_rest].
  revert prev. induction rest as [|c t IH]; intros prev; [reflexivity|].
  cbn [length loop lazy_runs ms m_rest m_caps m_prev]. f_equal. destruct (p c) eqn:E; [|reflexivity].
  cbn [filter m_rest length]. replace (Nat.ltb (length t) (S (length t))) with true
    by (symmetry; apply Nat.ltb_lt; lia).
  cbn [flat_map]. rewrite app_nil_r, IH. reflexivity.
Qed.

Lemma ms_seq a b s : ms (RSeq a b) s = flat_map (ms b) (ms a s).
Proof. reflexivity. Qed.

Lemma flat_map_flat_map {A B C} (f : A -> list B) (g : B -> list C) l :
  flat_map g (flat_map f l) = flat_map (fun x => flat_map g (f x)) l.
Proof. induction l as [|x l IH]; cbn; [reflexivity|]. rewrite flat_map_app, IH. reflexivity. Qed.

Lemma ms_assoc a b c s : ms (RSeq (RSeq a b) c) s = ms (RSeq a (RSeq b c)) s.
Proof. cbn [ms]. rewrite flat_map_flat_map. reflexivity. Qed.

Lemma ms_chr p b s : ms (RSeq (RChr p) b) s =
  match m_rest s with c :: t => if p c then ms b (adv c t s) else [] | [] => [] end.
Proof.
  cbn [ms]. destruct (m_rest s) as [|c t]; [reflexivity|]. destruct (p c); cbn; [|reflexivity].
  apply app_nil_r.
Qed.

Lemma ms_empty b s : ms (RSeq REmpty b) s = ms b s.
Proof. cbn. apply app_nil_r. Qed.

Lemma ms_unit a s : ms (RSeq a REmpty) s = ms a s.
Proof.
  cbn [ms]. induction (ms a s) as [|x l IH]; cbn; [reflexivity|]. f_equal. exact IH.
Qed.

Lemma ms_alt a a' b s : ms (RSeq (RAlt a a') b) s = ms (RSeq a b) s ++ ms (RSeq a' b) s.
Proof. cbn [ms]. apply flat_map_app. Qed.

Lemma flat_map_map {A B C} (f : A -> B) (g : B -> list C) l :
  flat_map g (map f l) = flat_map (fun x => g (f x)) l.
Proof. induction l; cbn; congruence. Qed.

Lemma ms_group n a b s : ms (RSeq (RGroup n a) b) s = flat_map (fun s' => ms b (captured n s s')) (ms a s).
Proof. cbn [ms]. apply flat_map_map. Qed.

(** A pattern that fails in front of every character of a class. *)
Definition rejects (p : ascii -> bool) (b : re) : Prop :=
  forall s, match m_rest s with c :: _ => p c = true | [] => False end -> ms b s = [].

Definition apart (p q : ascii -> bool) : Prop := forall c, p c = true -> q c = false.

Lemma rejects_chr p q b : apart p q -> rejects p (RSeq (RChr q) b).
Proof.
  intros H s Hs. rewrite ms_chr. destruct (m_rest s); [reflexivity|]. rewrite (H _ Hs). reflexivity.
Qed.

Lemma rejects_eol p : rejects p REol.
Proof. intros s Hs. cbn. destruct (m_rest s); [destruct Hs|reflexivity]. Qed.

Lemma rejects_assoc p a b c : rejects p (RSeq a (RSeq b c)) -> rejects p (RSeq (RSeq a b) c).
Proof. intros H s Hs. rewrite ms_assoc. auto. Qed.

Lemma runs_flat p q caps b : rejects p b -> forall s prev, q = p ->
  flat_map (ms b) (runs q caps prev s) = ms b (eat p caps prev s).
Proof.
  intros H s. induction s as [|c t IH]; intros prev ->; cbn [runs eat].
  - cbn. apply app_nil_r.
  - destruct (p c) eqn:E.
    + rewrite flat_map_app, IH by reflexivity. cbn [flat_map].
      rewrite (H {| m_caps := caps; m_prev := prev; m_rest := c :: t |}) by exact E.
      cbn. apply app_nil_r.
    + cbn. apply app_nil_r.
Qed.

(** A greedy run in front of something that cannot start inside it. *)
Lemma ms_run_seq p b s : rejects p b -> ms (RSeq (rstar (RChr p)) b) s = ms b (eaten p s).
Proof. intros H. rewrite ms_seq, ms_run. apply runs_flat; auto. Qed.

Lemma ms_run1_seq p b s : rejects p b ->
  ms (RSeq (rplus (RChr p)) b) s =
  match m_rest s with c :: _ => if p c then ms b (eaten p s) else [] | [] => [] end.
Proof.
  intros H. unfold rplus. rewrite ms_assoc, ms_chr. destruct (m_rest s) as [|c t] eqn:E; [reflexivity|].
  destruct (p c) eqn:P; [|reflexivity]. change (RStar true (RChr p)) with (rstar (RChr p)).
  rewrite ms_run_seq by exact H. f_equal. unfold eaten, adv. cbn [m_caps m_prev m_rest].
  rewrite E. cbn [eat]. rewrite P. reflexivity.
Qed.

Lemma rejects_run p q b : apart p q -> rejects p b -> rejects q b -> rejects p (RSeq (rstar (RChr q)) b).
Proof.
  intros H Hb Hq s Hs. rewrite ms_run_seq by exact Hq. apply Hb. rewrite eaten_rest.
  destruct (m_rest s) as [|c t]; [destruct Hs|]. cbn. rewrite (H _ Hs). exact Hs.
Qed.

(** The same in a group. *)
Lemma rejects_capture p n b s s' : rejects p b ->
  match m_rest s' with c :: _ => p c = true | [] => False end -> ms b (captured n s s') = [].
Proof. intros H Hs. apply H. exact Hs. Qed.

Lemma runs_group p n caps b s0 : rejects p b -> forall s prev,
  flat_map (fun s' => ms b (captured n s0 s')) (runs p caps prev s)
  = ms b (captured n s0 (eat p caps prev s)).
Proof.
  intros H s. induction s as [|c t IH]; intros prev; cbn [runs eat].
  - cbn. apply app_nil_r.
  - destruct (p c) eqn:E.
    + rewrite flat_map_app, IH. cbn [flat_map].
      rewrite (rejects_capture p n b s0 {| m_caps := caps; m_prev := prev; m_rest := c :: t |} H) by exact E.
      cbn. apply app_nil_r.
    + cbn. apply app_nil_r.
Qed.

Lemma ms_run1_group p n b s : rejects p b ->
  ms (RSeq (RGroup n (rplus (RChr p))) b) s =
  match m_rest s with c :: _ => if p c then ms b (captured n s (eaten p s)) else [] | [] => [] end.
Proof.
  intros H. rewrite ms_group. unfold rplus. rewrite ms_chr. destruct (m_rest s) as [|c t] eqn:E; [reflexivity|].
  destruct (p c) eqn:P; [|reflexivity]. change (RStar true (RChr p)) with (rstar (RChr p)).
  rewrite ms_run. cbn [adv m_caps m_prev m_rest]. rewrite runs_group by exact H.
  do 2 f_equal. unfold eaten. rewrite E. cbn [eat]. rewrite P. reflexivity.
Qed.

(** The text of a captured run. *)
Lemma captured_run p n s : m_caps (captured n s (eaten p s)) = (n, span p (m_rest s)) :: m_caps s.
Proof.
  unfold captured. cbn [m_caps]. rewrite eaten_caps, eaten_rest. do 2 f_equal.
  pose proof (span_skip p (m_rest s)) as H. rewrite <- H at 1 3. rewrite app_length, Nat.add_sub.
  rewrite firstn_app, Nat.sub_diag, firstn_O, app_nil_r. apply firstn_all.
Qed.

(** Literal text. *)
Fixpoint strip_lit (w s : bytes) : option bytes :=
  match w, s with
  | [], _ => Some s
  | c :: w', d :: s' => if Ascii.eqb c d then strip_lit w' s' else None
  | _ :: _, [] => None
  end.

Lemma strip_lit_iff w : forall s r, strip_lit w s = Some r <-> s = w ++ r.
Proof.
  induction w as [|c w IH]; intros s r; cbn.
  - split; congruence.
  - destruct s as [|d s]; [split; discriminate|].
    destruct (Ascii.eqb c d) eqn:E.
    + apply Ascii.eqb_eq in E. subst d. rewrite IH. split; [congruence|]. intros H; injection H; auto.
    + apply Ascii.eqb_neq in E. split; [discriminate|]. intros H; injection H; congruence.
Qed.

Fixpoint after_lit (w : bytes) (prev : option ascii) : option ascii :=
  match w with [] => prev | c :: w' => after_lit w' (Some c) end.

Lemma ms_lit w b : forall s, ms (RSeq (rlit w) b) s =
  match strip_lit w (m_rest s) with
  | Some r => ms b {| m_caps := m_caps s; m_prev := after_lit w (m_prev s); m_rest := r |}
  | None => []
  end.
Proof.
  induction w as [|c w IH]; intros s; cbn [rlit strip_lit].
  - rewrite ms_empty. destruct s; reflexivity.
  - rewrite ms_assoc, ms_chr. destruct (m_rest s) as [|d t]; [reflexivity|].
    unfold is_char. destruct (Ascii.eqb c d) eqn:E; [|reflexivity].
    rewrite IH. cbn [adv m_rest m_caps m_prev after_lit]. apply Ascii.eqb_eq in E. subst. reflexivity.
Qed.

Lemma rejects_lit p c w b : p c = false -> rejects p (RSeq (rlit (c :: w)) b).
Proof.
  intros H. cbn [rlit]. apply rejects_assoc, rejects_chr. intros d Hd. unfold is_char.
  apply Ascii.eqb_neq. congruence.
Qed.

(** ** Searching for a pattern anchored at the beginning *)

Lemma search_not_start b : forall s before c, search (RSeq RBol b) before (Some c) s = None.
Proof. induction s as [|d t IH]; intros before c; cbn [search ms]; cbn; [reflexivity|]. apply IH. Qed.

Lemma find_bol b s : find (RSeq RBol b) s =
  match ms b (init s) with
  | s' :: _ => Some {| f_before := []; f_text := firstn (length s - length (m_rest s')) s;
                       f_caps := m_caps s'; f_after := m_rest s' |}
  | [] => None
  end.
Proof.
  unfold find. assert (A : ms (RSeq RBol b) (init s) = ms b (init s)).
  { cbn. apply app_nil_r. }
  unfold init in A. destruct s as [|c t]; cbn [search]; rewrite A; unfold init.
  - destruct (ms b _); reflexivity.
  - destruct (ms b _); [apply search_not_start|reflexivity].
Qed.

(** The match is followed by the rest. *)
Lemma find_bol_after b s s' l : ms b (init s) = s' :: l ->
  skipn (length (firstn (length s - length (m_rest s')) s)) s = m_rest s'.
Proof.
  intros H. assert (I : In s' (ms b (init s))) by (rewrite H; left; reflexivity).
  apply ms_iff, derives_suffix in I. destruct I as [pre E]. cbn in E. rewrite E.
  rewrite app_length, Nat.add_sub, firstn_app, Nat.sub_diag, firstn_O, app_nil_r, firstn_all.
  rewrite skipn_app, skipn_all, Nat.sub_diag. reflexivity.
Qed.

Lemma hd_runs p caps s : forall prev, exists l, runs p caps prev s = eat p caps prev s :: l.
Proof.
  induction s as [|c t IH]; intros prev; cbn [runs eat]; [eauto|].
  destruct (p c); [|eauto]. destruct (IH (Some c)) as [l ->]. cbn. eauto.
Qed.

(** ** strings.Split, Trim *)

Lemma split_on_not_nil c s : split_on c s <> [].
Proof. destruct s as [|x t]; cbn; [discriminate|]. destruct (Ascii.eqb x c); [discriminate|]. destruct (split_on c t); discriminate. Qed.

Fixpoint join_with (c : ascii) (l : list bytes) : bytes :=
  match l with [] => [] | [p] => p | p :: ps => p ++ c :: join_with c ps end.

Lemma split_join c s : join_with c (split_on c s) = s.
Proof.
  induction s as [|x t IH]; [reflexivity|]. cbn [split_on]. destruct (Ascii.eqb x c) eqn:E.
  - apply Ascii.eqb_eq in E. subst. pose proof (split_on_not_nil c t) as N.
    destruct (split_on c t) as [|p ps]; [congruence|]. cbn [join_with app]. cbn in IH. f_equal. exact IH.
  - pose proof (split_on_not_nil c t) as N. destruct (split_on c t) as [|p ps]; [congruence|].
    cbn [join_with] in *. destruct ps; cbn [app]; f_equal; exact IH.
Qed.

Definition without (c : ascii) (s : bytes) : bool := forallb (fun x => negb (Ascii.eqb x c)) s.

Lemma split_without c s : Forall (fun p => without c p = true) (split_on c s).
Proof.
  induction s as [|x t IH]; [repeat constructor|]. cbn [split_on]. destruct (Ascii.eqb x c) eqn:E.
  - constructor; [reflexivity|exact IH].
  - destruct (split_on c t) as [|p ps]; [repeat constructor; cbn; rewrite E; reflexivity|].
    inversion IH; subst. constructor; [|assumption]. cbn. rewrite E. exact H1.
Qed.

Lemma split_plain c p : without c p = true -> split_on c p = [p].
Proof.
  induction p as [|x t IH]; intros H; [reflexivity|]. cbn in H. apply andb_true_iff in H. destruct H as [H1 H2].
  cbn. apply negb_true_iff in H1. rewrite H1, (IH H2). reflexivity.
Qed.

Lemma split_app c p s : without c p = true -> split_on c (p ++ c :: s) = p :: split_on c s.
Proof.
  induction p as [|x t IH]; intros H; cbn in *.
  - rewrite Ascii.eqb_refl. reflexivity.
  - apply andb_true_iff in H. destruct H as [H1 H2]. apply negb_true_iff in H1. rewrite H1, (IH H2). reflexivity.
Qed.

Lemma trim_left_all c a s : forallb (fun x => Ascii.eqb x c) a = true -> trim_left c (a ++ s) = trim_left c s.
Proof.
  induction a as [|x a IH]; cbn; [reflexivity|]. intros H. apply andb_true_iff in H. destruct H as [-> H]. auto.
Qed.

Lemma forallb_rev {A} (p : A -> bool) l : forallb p (rev l) = forallb p l.
Proof.
  induction l as [|x l IH]; cbn; [reflexivity|]. rewrite forallb_app, IH. cbn. rewrite andb_true_r.
  apply andb_comm.
Qed.

Lemma trim_right_all c a s : forallb (fun x => Ascii.eqb x c) a = true -> trim_right c (s ++ a) = trim_right c s.
Proof.
  intros H. unfold trim_right. rewrite rev_app_distr, trim_left_all; [reflexivity|]. rewrite forallb_rev. exact H.
Qed.

Lemma trim_left_none c s : (forall t, s <> c :: t) -> trim_left c s = s.
Proof.
  destruct s as [|x t]; [reflexivity|]. intros H. cbn. destruct (Ascii.eqb x c) eqn:E; [|reflexivity].
  apply Ascii.eqb_eq in E. subst. exfalso. apply (H t). reflexivity.
Qed.

Lemma trim_right_none c s : (forall t, s <> t ++ [c]) -> trim_right c s = s.
Proof.
  intros H. unfold trim_right. rewrite trim_left_none; [apply rev_involutive|].
  intros t E. apply (H (rev t)). rewrite <- (rev_involutive s), E. reflexivity.
Qed.

(** Neither begins nor ends with a character. *)
Definition bare (c : ascii) (s : bytes) : Prop := (forall t, s <> c :: t) /\ (forall t, s <> t ++ [c]).

Lemma trim_bare c s : bare c s -> trim c s = s.
Proof. intros [H1 H2]. unfold trim. rewrite trim_left_none, trim_right_none by assumption. reflexivity. Qed.

Lemma trim_left_dec c s : exists a, s = a ++ trim_left c s /\ forallb (fun x => Ascii.eqb x c) a = true /\
  (forall t, trim_left c s <> c :: t).
Proof.
  induction s as [|x s IH].
  - exists []. repeat split; discriminate.
  - cbn. destruct (Ascii.eqb x c) eqn:E.
    + destruct IH as (a & H1 & H2 & H3). exists (x :: a). cbn. rewrite E, <- H1. auto.
    + exists []. repeat split. intros t H. injection H as -> _. rewrite Ascii.eqb_refl in E. discriminate.
Qed.

Lemma trim_right_dec c s : exists a, s = trim_right c s ++ a /\ forallb (fun x => Ascii.eqb x c) a = true /\
  (forall t, trim_right c s <> t ++ [c]).
Proof.
  destruct (trim_left_dec c (rev s)) as (a & H1 & H2 & H3). exists (rev a). repeat split.
  - unfold trim_right. rewrite <- rev_app_distr, <- H1. symmetry. apply rev_involutive.
  - rewrite forallb_rev. exact H2.
  - intros t H. apply (H3 (rev t)). unfold trim_right in H.
    rewrite <- (rev_involutive (trim_left c (rev s))), H, rev_app_distr. reflexivity.
Qed.

(** Trim takes the padding off. *)
Lemma trim_iff c s x : trim c s = x <->
  bare c x /\ exists a b, s = a ++ x ++ b /\ forallb (fun y => Ascii.eqb y c) a = true /\
                         forallb (fun y => Ascii.eqb y c) b = true.
Proof.
  split.
  - intros <-. unfold trim. destruct (trim_left_dec c s) as (a & H1 & H2 & H3).
    destruct (trim_right_dec c (trim_left c s)) as (b & H4 & H5 & H6). split; [split; [|exact H6]|].
    + intros t H. rewrite H in H4. apply (H3 (t ++ b)). rewrite H4. reflexivity.
    + exists a, b. rewrite <- H4. auto.
  - intros [[B1 B2] (a & b & -> & Ha & Hb)]. unfold trim. rewrite trim_left_all by exact Ha.
    destruct x as [|y x].
    + cbn [app]. assert (E : trim_left c b = []).
      { rewrite <- (app_nil_r b). rewrite trim_left_all by exact Hb. reflexivity. }
      rewrite E. reflexivity.
    + rewrite (trim_left_none c ((y :: x) ++ b)), trim_right_all, trim_right_none by
        (try assumption; intros t H; injection H as -> _; apply (B1 x); reflexivity). reflexivity.
Qed.

(** ** Chains of runs and single characters *)

Inductive step : Type := Run (p : ascii -> bool) | Run1 (p : ascii -> bool) | One (c : ascii).

Definition step_re (x : step) : re :=
  match x with Run p => rstar (RChr p) | Run1 p => rplus (RChr p) | One c => rlit [c] end.

Fixpoint chain (l : list step) (b : re) : re :=
  match l with [] => b | x :: l' => RSeq (step_re x) (chain l' b) end.

(** What is left after the steps. *)
Fixpoint consume (l : list step) (s : bytes) : option bytes :=
  match l with
  | [] => Some s
  | Run p :: l' => consume l' (skip p s)
  | Run1 p :: l' => match s with c :: _ => if p c then consume l' (skip p s) else None | [] => None end
  | One c :: l' => match s with d :: t => if Ascii.eqb c d then consume l' t else None | [] => None end
  end.

(** Every run is followed by something that cannot start inside it. *)
Fixpoint definite (l : list step) (b : re) : Prop :=
  match l with
  | [] => True
  | Run p :: l' | Run1 p :: l' => rejects p (chain l' b) /\ definite l' b
  | One _ :: l' => definite l' b
  end.

Lemma ms_chain b l : definite l b -> forall s,
  match consume l (m_rest s) with
  | Some r => exists prev, ms (chain l b) s = ms b {| m_caps := m_caps s; m_prev := prev; m_rest := r |}
  | None => ms (chain l b) s = []
  end.
Proof.
  induction l as [|x l IH]; intros D s.
  - cbn. exists (m_prev s). destruct s; reflexivity.
  - destruct x as [p|p|c]; cbn [definite] in D; cbn [chain consume step_re].
    + destruct D as [R D]. rewrite ms_run_seq by exact R. specialize (IH D (eaten p s)).
      rewrite eaten_rest, eaten_caps in IH. exact IH.
    + destruct D as [R D]. rewrite ms_run1_seq by exact R. specialize (IH D (eaten p s)).
      rewrite eaten_rest, eaten_caps in IH. destruct (m_rest s) as [|c t]; [reflexivity|].
      destruct (p c); [exact IH|reflexivity].
    + rewrite ms_lit. cbn [strip_lit]. destruct (m_rest s) as [|d t]; [reflexivity|].
      destruct (Ascii.eqb c d); [|reflexivity].
      match goal with |- context [ms (chain l b) ?st] => exact (IH D st) end.
Qed.

(** The pieces consumed. *)
Fixpoint pieces (l : list step) (ps : list bytes) : Prop :=
  match l, ps with
  | [], [] => True
  | Run p :: l', x :: ps' => forallb p x = true /\ pieces l' ps'
  | Run1 p :: l', x :: ps' => forallb p x = true /\ x <> [] /\ pieces l' ps'
  | One c :: l', x :: ps' => x = [c] /\ pieces l' ps'
  | _, _ => False
  end.

Lemma consume_pieces l : forall s r, consume l s = Some r -> exists ps, pieces l ps /\ s = concat ps ++ r.
Proof.
  induction l as [|x l IH]; intros s r H; cbn in H.
  - injection H as <-. exists []. cbn. auto.
  - destruct x as [p|p|c].
    + apply IH in H. destruct H as (ps & H1 & H2). exists (span p s :: ps). cbn.
      rewrite <- app_assoc, <- H2, span_skip. auto using span_all.
    + destruct s as [|c t]; [discriminate|]. destruct (p c) eqn:E; [|discriminate].
      apply IH in H. destruct H as (ps & H1 & H2). exists (span p (c :: t) :: ps).
      cbn [pieces concat]. rewrite <- app_assoc, <- H2, span_skip. repeat split; auto using span_all.
      cbn. rewrite E. discriminate.
    + destruct s as [|d t]; [discriminate|]. destruct (Ascii.eqb c d) eqn:E; [|discriminate].
      apply Ascii.eqb_eq in E. subst d. apply IH in H. destruct H as (ps & H1 & H2).
      exists ([c] :: ps). cbn. rewrite <- H2. auto.
Qed.

(** Conversely, where each run ends: the next piece begins outside the class.
    [first_class l] is what may come first after the step. *)
Fixpoint outside (p : ascii -> bool) (l : list step) (r : bytes) : Prop :=
  match l with
  | [] => match r with c :: _ => p c = false | [] => True end
  | Run q :: l' => apart q p /\ outside p l' r
  | Run1 q :: _ => apart q p
  | One c :: _ => p c = false
  end.

Lemma outside_head p l : forall ps r, pieces l ps -> outside p l r ->
  match concat ps ++ r with c :: _ => p c = false | [] => True end.
Proof.
  induction l as [|x l IH]; intros ps r H O; destruct ps as [|y ps]; cbn in H.
  - exact O.
  - destruct H.
  - destruct x; destruct H.
  - destruct x as [q|q|c]; cbn in O.
    + destruct H as [H1 H2]. destruct O as [O1 O2]. cbn. destruct y as [|c y]; [apply IH; assumption|].
      cbn in *. apply andb_true_iff in H1. apply O1, H1.
    + destruct H as (H1 & H2 & H3). cbn. destruct y as [|c y]; [congruence|].
      cbn in *. apply andb_true_iff in H1. apply O, H1.
    + destruct H as [-> _]. exact O.
Qed.

Fixpoint bounded (l : list step) (r : bytes) : Prop :=
  match l with
  | [] => True
  | Run p :: l' | Run1 p :: l' => outside p l' r /\ bounded l' r
  | One _ :: l' => bounded l' r
  end.

Lemma pieces_consume l : forall ps r, pieces l ps -> bounded l r -> consume l (concat ps ++ r) = Some r.
Proof.
  induction l as [|x l IH]; intros ps r H O; destruct ps as [|y ps]; cbn in H.
  - reflexivity.
  - destruct H.
  - destruct x; destruct H.
  - destruct x as [q|q|c]; cbn [bounded] in O.
    + destruct H as [H1 H2]. destruct O as [O1 O2]. cbn [consume concat]. rewrite <- app_assoc, skip_app by exact H1.
      destruct (skip_none q (concat ps ++ r)) as [-> _]; [eapply outside_head; eauto|]. auto.
    + destruct H as (H1 & H2 & H3). destruct O as [O1 O2]. cbn [consume concat].
      destruct y as [|c y]; [congruence|].
      rewrite <- app_assoc. change ((c :: y) ++ concat ps ++ r) with (c :: (y ++ concat ps ++ r)) at 1.
      cbn in H1. apply andb_true_iff in H1 as H1'. destruct H1' as [Hc _].
      cbn iota beta. rewrite Hc. rewrite skip_app by exact H1.
      destruct (skip_none q (concat ps ++ r)) as [-> _]; [eapply outside_head; eauto|]. auto.
    + destruct H as [-> H]. cbn. rewrite Ascii.eqb_refl. auto.
Qed.
