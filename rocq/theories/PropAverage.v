(** C43: the weighted averages of score/average.go, in exact numbers. *)

From Coq Require Import List NArith ZArith QArith Qcanon Bool Lia Lqa Permutation.
From Verif Require Import Num NumProofs Scoring.
Import ListNotations.
Local Open Scope Qc_scope.

(** ** Specification *)

(** What may be done to an Average. *)
Inductive op : Type := Once (v : xnum) | Times (v : xnum) (n : N).
Definition op_value (o : op) : xnum := match o with Once v => v | Times v _ => v end.
Definition op_times (o : op) : N := match o with Once _ => 1%N | Times _ n => n end.

Definition run (os : list op) : average exact :=
  fold_left (fun a o => match o with Once v => avg_add exact v a | Times v n => avg_add_multiple exact v n a end) os (no_average exact).
Definition result (os : list op) : xnum := avg_average exact (run os).

Definition multiplicity (os : list op) : N := fold_right (fun o a => (op_times o + a)%N) 0%N os.

(** The values with their number of times; only numbers, no NaN. *)
Definition finite (o : op) : Prop := exists q, op_value o = Fin q.
Definition ordinary (o : op) : Prop := finite o \/ op_value o = NaN.

(** ** Proofs *)

Lemma xadd_comm a b : xadd a b = xadd b a.
Proof. destruct a as [p|[]|], b as [q|[]|]; cbn; try reflexivity. f_equal. ring. Qed.
Lemma xadd_assoc a b c : xadd a (xadd b c) = xadd (xadd a b) c.
Proof. destruct a as [p|[]|], b as [q|[]|], c as [r|[]|]; cbn; try reflexivity. f_equal. ring. Qed.
Lemma xadd_0 a : xadd (Fin 0) a = a.
Proof. destruct a; cbn; try reflexivity. f_equal. ring. Qed.
Lemma xmul_1 a : xmul a (Fin 1) = a.
Proof. destruct a as [p|[]|]; cbn; try reflexivity. f_equal. ring. Qed.

(** What an operation adds. *)
Definition part (o : op) : xnum := match o with Once v => v | Times v n => xmul v (Fin (Qc_of_N n)) end.
Definition total (os : list op) : xnum := fold_right (fun o a => xadd (part o) a) (Fin 0) os.

Lemma run_from os : forall a, fold_left (fun a o => match o with Once v => avg_add exact v a | Times v n => avg_add_multiple exact v n a end) os a
  = Build_average exact (xadd (a_value exact a) (total os)) (a_count exact a + multiplicity os).
Proof.
  induction os as [|o os IH]; intros a; cbn [fold_left total multiplicity fold_right].
  - destruct a as [x c]. f_equal; cbn [a_value a_count]; [|lia]. rewrite xadd_comm, xadd_0. reflexivity.
  - rewrite IH. destruct o as [v|v n]; cbn [avg_add avg_add_multiple a_value a_count op_times part exact nadd nmul of_N];
      (f_equal; [symmetry; apply xadd_assoc|change (fold_right _ 0%N os) with (multiplicity os); lia]).
Qed.

Lemma run_is os : run os = Build_average exact (total os) (multiplicity os).
Proof. unfold run. rewrite run_from. cbn. f_equal. rewrite of_N_0. apply xadd_0. Qed.

Lemma result_is os : result os = if N.eqb (multiplicity os) 0 then NaN else xdiv (total os) (Fin (Qc_of_N (multiplicity os))).
Proof.
  unfold result. rewrite run_is. unfold avg_average. cbn [a_count a_value exact ndiv of_N nnan].
  destruct (N.ltb_spec 1 (multiplicity os)), (N.eqb_spec (multiplicity os) 0), (N.eqb_spec (multiplicity os) 1); try lia; try reflexivity.
  rewrite e, of_N_1. destruct (total os) as [p|[]|]; try reflexivity.
  rewrite xdiv_fin by discriminate. f_equal. field. discriminate.
Qed.

(** The sum of the values, each as often as it was added. *)
Fixpoint sum (l : list (Qc * N)) : Qc := match l with [] => 0 | (v, n) :: l' => v * Qc_of_N n + sum l' end.
Definition numbers (l : list (Qc * N)) (os : list op) : Prop := Forall2 (fun e o => op_value o = Fin (fst e) /\ op_times o = snd e) l os.

Lemma total_numbers l os : numbers l os -> total os = Fin (sum l).
Proof.
  induction 1 as [|[v n] o l os [E1 E2] H IH]; [reflexivity|]. cbn [total fold_right sum fst snd] in *. change (fold_right _ _ os) with (total os).
  rewrite IH. assert (P : part o = Fin (v * Qc_of_N n)).
  { destruct o as [x|x k]; cbn in *; subst.
    - f_equal. rewrite of_N_1. ring.
    - reflexivity. }
  rewrite P. reflexivity.
Qed.

Lemma finite_numbers os : Forall finite os -> exists l, numbers l os.
Proof.
  induction 1 as [|o os [q E] H [l IH]]; [exists []; constructor|].
  exists ((q, op_times o) :: l). constructor; auto.
Qed.

Lemma sum_bounds lo hi l : (forall v n, In (v, n) l -> (0 < n)%N -> lo <= v /\ v <= hi) ->
  lo * Qc_of_N (fold_right (fun e a => (snd e + a)%N) 0%N l) <= sum l /\
  sum l <= hi * Qc_of_N (fold_right (fun e a => (snd e + a)%N) 0%N l).
Proof.
  induction l as [|[v n] l IH]; intros H.
  - cbn. rewrite of_N_0. split; qcl.
  - cbn [fold_right sum snd]. specialize (IH (fun v n I => H v n (or_intror I))). set (m := fold_right _ _ l) in *. destruct IH as [I1 I2].
    rewrite of_N_add. pose proof (of_N_pos n) as P. destruct (N.eq_dec n 0) as [ -> |Z].
    + rewrite of_N_0. split; qcl.
    + destruct (H v n (or_introl eq_refl) ltac:(lia)) as [H1 H2]. split; qcn.
Qed.

Lemma multiplicity_numbers l os : numbers l os -> multiplicity os = fold_right (fun e a => (snd e + a)%N) 0%N l.
Proof. induction 1 as [|e o l os [E1 E2] H IH]; [reflexivity|]. cbn [multiplicity fold_right]. rewrite <- E2, <- IH. reflexivity. Qed.

(** ** The theorems *)

(** The average is the mean of the values, counted with their multiples; so it is
    between the smallest and the largest of those that count. *)
Theorem C43_mean os l : numbers l os -> (0 < multiplicity os)%N ->
  exists m, result os = Fin m /\ m * Qc_of_N (multiplicity os) = sum l /\
    forall lo hi, (forall v n, In (v, n) l -> (0 < n)%N -> lo <= v /\ v <= hi) -> lo <= m /\ m <= hi.
Proof.
  intros H M. rewrite result_is. destruct (N.eqb_spec (multiplicity os) 0); [lia|]. rewrite (total_numbers l os H).
  pose proof (of_N_nonzero _ M) as Z. rewrite xdiv_fin by exact Z. eexists. split; [reflexivity|]. split; [field; exact Z|].
  intros lo hi K. destruct (sum_bounds lo hi l K) as [H1 H2]. rewrite <- (multiplicity_numbers l os H) in H1, H2.
  apply div_bounds; [rewrite <- of_N_0; apply of_N_lt, M|assumption|assumption].
Qed.
Print Assumptions C43_mean.

(** Adding a number with a multiple is adding it that many times. *)
Theorem C43_times os q n rest :
  run (os ++ Times (Fin q) n :: rest) = run (os ++ repeat (Once (Fin q)) (N.to_nat n) ++ rest).
Proof.
  assert (T : forall os rest, total (os ++ rest) = xadd (total os) (total rest)).
  { intros l r. induction l as [|o l IH]; [symmetry; apply xadd_0|]. cbn [app total fold_right]. change (fold_right _ _ (l ++ r)) with (total (l ++ r)).
    rewrite IH. apply xadd_assoc. }
  assert (M : forall os rest, multiplicity (os ++ rest) = (multiplicity os + multiplicity rest)%N).
  { intros l r. induction l as [|o l IH]; [reflexivity|]. cbn [app multiplicity fold_right]. change (fold_right _ _ (l ++ r)) with (multiplicity (l ++ r)).
    rewrite IH. cbn [multiplicity fold_right]. change (fold_right _ _ l) with (multiplicity l). lia. }
  assert (C1 : forall o l, total (o :: l) = xadd (part o) (total l)) by reflexivity.
  assert (C2 : forall o l, multiplicity (o :: l) = (op_times o + multiplicity l)%N) by reflexivity.
  rewrite !run_is, !T, !M, C1, C2.
  assert (R : forall k, total (repeat (Once (Fin q)) k) = Fin (q * Qc_of_N (N.of_nat k)) /\ multiplicity (repeat (Once (Fin q)) k) = N.of_nat k).
  { induction k as [|k [I1 I2]]; [split; [cbn; f_equal; rewrite of_N_0; ring|reflexivity]|]. cbn [repeat].
    rewrite C1, C2, I1, I2. cbn [part op_times xadd]. split; [|lia]. f_equal.
    replace (N.of_nat (S k)) with (N.of_nat k + 1)%N by lia. rewrite of_N_add, of_N_1. ring. }
  destruct (R (N.to_nat n)) as [-> ->]. rewrite N2Nat.id. cbn [part op_times xmul]. f_equal.
Qed.
Print Assumptions C43_times.

(** The order does not matter, whatever was added. *)
Theorem C43_order os os' : Permutation os os' -> run os = run os'.
Proof.
  intros P. rewrite !run_is. f_equal.
  - induction P; cbn [total fold_right]; [reflexivity|change (fold_right _ _ l) with (total l); change (fold_right _ _ l') with (total l'); congruence| |congruence].
    rewrite !xadd_assoc. f_equal. apply xadd_comm.
  - induction P; unfold multiplicity in *; cbn [fold_right]; lia.
Qed.
Print Assumptions C43_order.

(** There is no average exactly when nothing counts or a NaN was added, even with
    the multiple zero. *)
Theorem C43_nan os : Forall ordinary os ->
  (result os = NaN <-> multiplicity os = 0%N \/ exists o, In o os /\ op_value o = NaN).
Proof.
  intros F. rewrite result_is.
  assert (T : (exists o, In o os /\ op_value o = NaN) /\ total os = NaN \/ (~ exists o, In o os /\ op_value o = NaN) /\ exists q, total os = Fin q).
  { induction F as [|o os [[q E]|E] F IH].
    - right. split; [intros (o & [] & _)|]. exists 0. reflexivity.
    - assert (P : exists p, part o = Fin p) by (destruct o; cbn in *; subst; cbn; eauto). destruct P as [p P]. cbn [total fold_right].
      change (fold_right _ _ os) with (total os). destruct IH as [[(x & I & X) ->]|[N [r ->]]].
      + left. rewrite P. split; [exists x; split; [right; exact I|exact X]|reflexivity].
      + right. rewrite P. split; [|cbn; eauto]. intros (x & [ <- |I] & X); [congruence|]. apply N. eauto.
    - left. split; [exists o; split; [left; reflexivity|exact E]|]. cbn [total fold_right].
      assert (P : part o = NaN) by (destruct o; cbn in *; subst; reflexivity). rewrite P. reflexivity. }
  destruct (N.eqb_spec (multiplicity os) 0) as [E|E]; [tauto|]. destruct T as [[X ->]|[X [q ->]]].
  - cbn. tauto.
  - rewrite xdiv_fin by (apply of_N_nonzero; lia). split; [discriminate|]. intros [K|K]; contradiction.
Qed.
Print Assumptions C43_nan.

(** ** Examples *)

Definition os0 : list op := [Times (Fin (Q2Qc 60)) 3; Once (Fin (Q2Qc 100)); Times (Fin (Q2Qc 1000)) 0; Times (Fin (Q2Qc 25)) 2].
Example C43_ex : numbers [(Q2Qc 60, 3%N); (Q2Qc 100, 1%N); (Q2Qc 1000, 0%N); (Q2Qc 25, 2%N)] os0 /\ multiplicity os0 = 6%N /\
  result os0 = Fin (Q2Qc (165 # 3)).
Proof.
  split; [repeat (constructor; [split; reflexivity|]); constructor|]. split; [reflexivity|].
  rewrite result_is. cbn [multiplicity fold_right os0 op_times N.add N.eqb].
  rewrite (total_numbers [(Q2Qc 60, 3%N); (Q2Qc 100, 1%N); (Q2Qc 1000, 0%N); (Q2Qc 25, 2%N)])
    by (repeat (constructor; [split; reflexivity|]); constructor).
  rewrite xdiv_fin by (apply of_N_nonzero; reflexivity). f_equal. apply Qc_is_canon. vm_compute. reflexivity.
Qed.
Example C43_nan_ex : result [Once (Fin (Q2Qc 50)); Times NaN 0] = NaN /\ result [Times (Fin (Q2Qc 50)) 0] = NaN.
Proof. split; reflexivity. Qed.
