(** Lemmas about byte strings. *)

From Coq Require Import Ascii String List ZArith NArith Bool Lia.
From Verif Require Import Bytes Json.
Import ListNotations.

Lemma ascii_eqb_refl c : Ascii.eqb c c = true.
Proof. apply Ascii.eqb_refl. Qed.

Lemma beq_refl a : beq a a = true.
Proof. induction a; simpl; auto. rewrite Ascii.eqb_refl; auto. Qed.

Lemma beq_eq a b : beq a b = true <-> a = b.
Proof.
  split; [|intros ->; apply beq_refl].
  revert b; induction a; destruct b; simpl; intros H; try discriminate; auto.
  apply andb_prop in H as [H1 H2]. apply Ascii.eqb_eq in H1. f_equal; auto.
Qed.

Lemma beq_neq a b : beq a b = false <-> a <> b.
Proof.
  split.
  - intros H ->. rewrite beq_refl in H. discriminate.
  - intros H. destruct (beq a b) eqn:E; auto. apply beq_eq in E. contradiction.
Qed.

Lemma bytes_eq_dec (a b : bytes) : {a = b} + {a <> b}.
Proof. apply list_eq_dec. apply ascii_dec. Qed.

(** Properties of all 256 bytes decided by computation. *)
Definition all_bytes (P : ascii -> bool) : bool :=
  let bs := [false; true] in
  forallb (fun a => forallb (fun b => forallb (fun c => forallb (fun d =>
  forallb (fun e => forallb (fun f => forallb (fun g => forallb (fun h =>
    P (Ascii a b c d e f g h)) bs) bs) bs) bs) bs) bs) bs) bs.

Lemma all_bytes_spec P : all_bytes P = true -> forall c, P c = true.
Proof.
  intros H [a b c d e f g h]. unfold all_bytes in H.
  assert (I : forall x : bool, In x [false; true]) by (intros []; simpl; auto).
  pose proof (proj1 (forallb_forall _ _) H _ (I a)) as H1.
  pose proof (proj1 (forallb_forall _ _) H1 _ (I b)) as H2.
  pose proof (proj1 (forallb_forall _ _) H2 _ (I c)) as H3.
  pose proof (proj1 (forallb_forall _ _) H3 _ (I d)) as H4.
  pose proof (proj1 (forallb_forall _ _) H4 _ (I e)) as H5.
  pose proof (proj1 (forallb_forall _ _) H5 _ (I f)) as H6.
  pose proof (proj1 (forallb_forall _ _) H6 _ (I g)) as H7.
  exact (proj1 (forallb_forall _ _) H7 _ (I h)).
Qed.

Lemma all_bytes_impl (P Q : ascii -> bool) :
  all_bytes (fun c => implb (P c) (Q c)) = true -> forall c, P c = true -> Q c = true.
Proof.
  intros H c HP. pose proof (all_bytes_spec _ H c) as E. cbv beta in E.
  rewrite HP in E. exact E.
Qed.

(** Case analysis over the 256 bytes. *)
Ltac bytecase c :=
  destruct c as [[] [] [] [] [] [] [] []]; try reflexivity; try discriminate;
  try (intros; reflexivity).

Lemma ends_with_app c a x : ends_with c (a ++ [x]) = Ascii.eqb x c.
Proof.
  induction a as [|y a IH]; simpl; auto.
  destruct (a ++ [x]) eqn:E; auto. destruct a; discriminate.
Qed.

Lemma ends_with_app_ne c a b : b <> [] -> ends_with c (a ++ b) = ends_with c b.
Proof.
  intros H. destruct (exists_last H) as (b' & x & ->).
  rewrite app_assoc, !ends_with_app. reflexivity.
Qed.

Lemma code_lt c : (code c < 256)%N.
Proof. unfold code. destruct c as [[] [] [] [] [] [] [] []]; vm_compute; reflexivity. Qed.

Lemma chr_code c : chr (code c) = c.
Proof. apply ascii_N_embedding. Qed.

Lemma code_chr n : (n < 256)%N -> code (chr n) = n.
Proof. apply N_ascii_embedding. Qed.

Lemma code_inj a b : code a = code b -> a = b.
Proof. intros H. rewrite <- (chr_code a), <- (chr_code b), H. reflexivity. Qed.

(** ** Decimal text *)

Definition dec_value (s : bytes) : N :=
  fold_left (fun acc c => (acc * 10 + (code c - 48))%N) s 0%N.

Lemma digit_code n : (n < 10)%N -> code (digit n) = (48 + n)%N.
Proof. intros H. unfold digit. apply code_chr. lia. Qed.

Lemma digit_is_digit n : (n < 10)%N -> is_digit (digit n) = true.
Proof.
  intros H. unfold is_digit. rewrite digit_code by auto.
  apply andb_true_intro; split; apply N.leb_le; lia.
Qed.

Lemma fold_dec_app s : forall a,
  fold_left (fun acc c => (acc * 10 + (code c - 48))%N) s a =
  (a * 10 ^ N.of_nat (length s) + dec_value s)%N.
Proof.
  unfold dec_value. induction s as [|c s IH]; intros a.
  - simpl. lia.
  - simpl fold_left. rewrite IH, (IH (code c - 48)%N).
    simpl length. rewrite Nat2N.inj_succ, N.pow_succ_r'. lia.
Qed.

Lemma dec_value_cons c s :
  dec_value (c :: s) = ((code c - 48) * 10 ^ N.of_nat (length s) + dec_value s)%N.
Proof. unfold dec_value at 1. simpl. rewrite fold_dec_app. lia. Qed.

Lemma dec_aux_value fuel : forall n acc,
  (n < 10 ^ N.of_nat fuel)%N ->
  dec_value (dec_aux fuel n acc) = (n * 10 ^ N.of_nat (length acc) + dec_value acc)%N.
Proof.
  induction fuel as [|f IH]; intros n acc H.
  - simpl in *. assert (n = 0%N) by lia. subst. lia.
  - cbn [dec_aux]. pose proof (N.mod_lt n 10 ltac:(lia)).
    pose proof (N.div_mod n 10 ltac:(lia)).
    destruct (N.ltb_spec n 10).
    + rewrite dec_value_cons, digit_code by auto.
      rewrite (N.mod_small n 10) by auto. lia.
    + rewrite IH.
      * rewrite dec_value_cons, digit_code by auto. cbn [length].
        rewrite Nat2N.inj_succ, N.pow_succ_r'.
        generalize dependent (N.modulo n 10); intros r; intros. generalize dependent (N.div n 10); intros q; intros.
        set (p := N.pow 10 (N.of_nat (length acc))).
        replace (48 + r - 48)%N with r by lia. rewrite H1. ring.
      * rewrite Nat2N.inj_succ, N.pow_succ_r' in H.
        apply N.div_lt_upper_bound; lia.
Qed.

Lemma size_nat_size n : N.of_nat (N.size_nat n) = N.size n.
Proof.
  destruct n as [|p]; [reflexivity|]. simpl.
  induction p as [p IH|p IH|]; cbn [Pos.size_nat Pos.size]; auto;
    rewrite Nat2N.inj_succ, IH; reflexivity.
Qed.

Lemma size_nat_bound n : (n < 10 ^ N.of_nat (S (N.size_nat n)))%N.
Proof.
  rewrite Nat2N.inj_succ, N.pow_succ_r', size_nat_size.
  pose proof (N.size_gt n).
  pose proof (N.pow_le_mono_l 2 10 (N.size n) ltac:(lia)).
  pose proof (N.pow_nonzero 10 (N.size n) ltac:(lia)). lia.
Qed.

(** The decimal text denotes the number. *)
Lemma dec_of_N_value n : dec_value (dec_of_N n) = n.
Proof.
  unfold dec_of_N. rewrite dec_aux_value by apply size_nat_bound.
  simpl. unfold dec_value. simpl. lia.
Qed.

Lemma dec_aux_digits fuel : forall n acc,
  forallb is_digit acc = true -> forallb is_digit (dec_aux fuel n acc) = true.
Proof.
  induction fuel as [|f IH]; intros n acc H; cbn [dec_aux]; auto.
  assert (forallb is_digit (digit (n mod 10) :: acc) = true).
  { simpl. rewrite digit_is_digit; auto. apply N.mod_lt. lia. }
  destruct (n <? 10)%N; auto.
Qed.

Lemma dec_of_N_digits n : forallb is_digit (dec_of_N n) = true.
Proof. apply dec_aux_digits. reflexivity. Qed.

(** No leading zero unless the number is zero. *)
Lemma dec_aux_head fuel : forall n acc,
  (n < 10 ^ N.of_nat fuel)%N -> (0 < n)%N ->
  exists d r, dec_aux fuel n acc = digit d :: r /\ (0 < d < 10)%N.
Proof.
  induction fuel as [|f IH]; intros n acc H Hp; cbn [dec_aux].
  - simpl in H. lia.
  - destruct (N.ltb_spec n 10).
    + exists (n mod 10)%N, acc. rewrite N.mod_small by auto. auto.
    + apply IH.
      * rewrite Nat2N.inj_succ, N.pow_succ_r' in H. apply N.div_lt_upper_bound; lia.
      * apply N.div_str_pos. lia.
Qed.

Lemma dec_of_N_shape n :
  dec_of_N n = [chr 48] \/ exists d r, dec_of_N n = digit d :: r /\ (0 < d < 10)%N.
Proof.
  destruct (N.eq_dec n 0) as [->|H]; [left; reflexivity|right].
  unfold dec_of_N. apply dec_aux_head; [apply size_nat_bound|lia].
Qed.

Lemma drop_digits_all s : forallb is_digit s = true -> drop_digits s = [].
Proof.
  induction s as [|c s IH]; simpl; auto. destruct (is_digit c); simpl; auto; discriminate.
Qed.

Lemma dec_of_N_num n : num_int (dec_of_N n) = true.
Proof.
  pose proof (dec_of_N_digits n) as D.
  destruct (dec_of_N_shape n) as [->|(d & r & E & Hd)]; [reflexivity|].
  rewrite E in *. cbn [forallb] in D. apply andb_prop in D as [D1 D2].
  unfold num_int. rewrite D1. rewrite (drop_digits_all _ D2).
  destruct (Ascii.eqb _ _) eqn:E0; [|reflexivity].
  apply Ascii.eqb_eq in E0. apply (f_equal code) in E0.
  rewrite digit_code in E0 by lia. rewrite code_chr in E0 by lia. lia.
Qed.

Lemma dec_of_N_not_minus n : match dec_of_N n with c :: _ => Ascii.eqb c (chr 45) = false | [] => False end.
Proof.
  destruct (dec_of_N_shape n) as [->|(d & r & E & Hd)]; [reflexivity|].
  rewrite E. apply Ascii.eqb_neq. intros E0. apply (f_equal code) in E0.
  rewrite digit_code in E0 by lia. rewrite code_chr in E0 by lia. lia.
Qed.

Lemma is_num_dec_N n : is_num (dec_of_N n) = true.
Proof.
  pose proof (dec_of_N_not_minus n). pose proof (dec_of_N_num n).
  unfold is_num. destruct (dec_of_N n); [contradiction|]. rewrite H. auto.
Qed.

Lemma is_num_dec_Z z : is_num (dec_of_Z z) = true.
Proof.
  destruct z; simpl dec_of_Z; try apply is_num_dec_N.
  unfold is_num. cbn. apply dec_of_N_num.
Qed.

(** Distinct integers have distinct texts. *)
Lemma dec_of_N_inj a b : dec_of_N a = dec_of_N b -> a = b.
Proof. intros H. rewrite <- (dec_of_N_value a), <- (dec_of_N_value b), H. reflexivity. Qed.

Lemma dec_of_Z_inj a b : dec_of_Z a = dec_of_Z b -> a = b.
Proof.
  pose proof (fun n => dec_of_N_not_minus n) as NM.
  assert (P : forall p n, chr 45 :: dec_of_N (Npos p) = dec_of_N n -> False).
  { intros p n E. specialize (NM n). rewrite <- E in NM. discriminate. }
  destruct a, b; simpl; intros H; auto;
    try (exfalso; eapply P; eassumption);
    try (exfalso; eapply P; symmetry; eassumption);
    try (apply dec_of_N_inj in H; discriminate).
  - apply dec_of_N_inj in H. congruence.
  - injection H as H. apply dec_of_N_inj in H. congruence.
Qed.
