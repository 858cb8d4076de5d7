(** Properties of the field counter: C30 (counts of well-formed objects), C31
    (arbitrary input), C32 (the duplicate check of the benchmarks). *)

From Coq Require Import Ascii String List NArith Bool Arith Lia Permutation Sorted.
From Verif Require Import Bytes BytesProofs Json GoQuote SpecText QuoteProofs Replace PropReplace FieldCounter SpecFields
  FieldProofs FieldGrammar FieldInput.
Import ListNotations.

(** ** Counts *)

Definition the_count (k : bytes) (c : counts) : nat :=
  match count_of k c with Some n => N.to_nat n | None => 0 end.

(** Names distinct, counts positive. *)
Definition proper (c : counts) : Prop := NoDup (map fst c) /\ Forall (fun e => (0 < snd e)%N) c.

Lemma beq_refl k : beq k k = true.
Proof. apply beq_eq. reflexivity. Qed.
Lemma beq_neq a b : beq a b = false <-> a <> b.
Proof.
  split; intros H.
  - intros ->. rewrite beq_refl in H. discriminate.
  - destruct (beq a b) eqn:E; [|reflexivity]. apply beq_eq in E. congruence.
Qed.

Lemma bump_count k k' c : the_count k (bump k' c) = the_count k c + (if beq k k' then 1 else 0).
Proof.
  unfold the_count. induction c as [|[x n] c IH]; cbn [bump count_of].
  - destruct (beq k' k) eqn:E.
    + apply beq_eq in E. subst. rewrite beq_refl. reflexivity.
    + apply beq_neq in E. replace (beq k k') with false by (symmetry; apply beq_neq; congruence). reflexivity.
  - destruct (beq x k') eqn:E; cbn [count_of].
    + apply beq_eq in E. subst x. destruct (beq k' k) eqn:E2.
      * apply beq_eq in E2. subst. rewrite beq_refl. lia.
      * apply beq_neq in E2. replace (beq k k') with false by (symmetry; apply beq_neq; congruence). lia.
    + destruct (beq x k) eqn:E2; [|exact IH]. apply beq_eq in E2. subst x. rewrite E. lia.
Qed.

Lemma bump_in k x c : In x (map fst (bump k c)) <-> x = k \/ In x (map fst c).
Proof.
  induction c as [|[y n] c IH]; cbn [bump].
  - cbn. intuition.
  - destruct (beq y k) eqn:E; cbn [map fst In].
    + apply beq_eq in E. subst. intuition.
    + rewrite IH. intuition.
Qed.

Lemma bump_proper k c : proper c -> proper (bump k c).
Proof.
  unfold proper. intros [H1 H2]. induction c as [|[x n] c IH]; cbn [bump].
  - split; [repeat constructor; auto|constructor; [cbn; lia|constructor]].
  - inversion H1; inversion H2; subst. cbn in *. destruct (beq x k) eqn:E; cbn [map fst].
    + split; [constructor; assumption|constructor; [cbn; lia|assumption]].
    + destruct IH as [I1 I2]; [assumption|assumption|]. split; [|constructor; [cbn; lia|assumption]].
      constructor; [|assumption]. rewrite bump_in. intros [ -> |K]; [rewrite beq_refl in E; discriminate|auto].
Qed.

Lemma delete_in k x c : In x (map fst (delete k c)) -> In x (map fst c).
Proof.
  unfold delete. intros H. apply in_map_iff in H. destruct H as (e & <- & H). apply filter_In in H. apply in_map. apply H.
Qed.

Lemma delete_proper k c : proper c -> proper (delete k c).
Proof.
  unfold proper, delete. intros [H1 H2]. split.
  - induction c as [|[x n] c IH]; [constructor|]. inversion H1; inversion H2; subst. cbn [filter fst].
    destruct (negb (beq x k)); [|auto]. cbn [map fst]. constructor; [|auto].
    intros K. apply (delete_in k) in K. auto.
  - rewrite Forall_forall in *. intros e He. apply filter_In in He. apply H2, He.
Qed.

Lemma delete_count k k' c : the_count k (delete k' c) = if beq k k' then 0 else the_count k c.
Proof.
  unfold the_count, delete. induction c as [|[x n] c IH]; cbn [filter fst].
  - destruct (beq k k'); reflexivity.
  - destruct (beq x k') eqn:E; cbn [negb count_of].
    + rewrite IH. apply beq_eq in E. subst x. destruct (beq k k') eqn:E2; [reflexivity|].
      apply beq_neq in E2. replace (beq k' k) with false by (symmetry; apply beq_neq; congruence). reflexivity.
    + destruct (beq x k) eqn:E2; [|exact IH]. apply beq_eq in E2. subst x. rewrite E. reflexivity.
Qed.

Lemma count_in k n c : proper c -> (In (k, n) c <-> count_of k c = Some n).
Proof.
  intros [H _]. induction c as [|[x m] c IH]; cbn [count_of].
  - split; [intros []|discriminate].
  - inversion H; subst. destruct (beq x k) eqn:E.
    + apply beq_eq in E. subst x. split.
      * intros [K|K]; [congruence|]. exfalso. apply H2. apply (in_map fst) in K. exact K.
      * intros K. injection K as ->. left. reflexivity.
    + split.
      * intros [K|K]; [injection K as -> ->; rewrite beq_refl in E; discriminate|]. apply IH; assumption.
      * intros K. right. apply IH; assumption.
Qed.

Lemma count_positive k c : proper c -> (In k (map fst c) <-> 0 < the_count k c).
Proof.
  intros H. unfold the_count. split.
  - intros K. apply in_map_iff in K. destruct K as ([x n] & <- & K). cbn [fst].
    pose proof K as K'. apply count_in in K; [|exact H]. rewrite K. destruct H as [_ H]. rewrite Forall_forall in H.
    apply H in K'. cbn in K'. lia.
  - destruct (count_of k c) as [n|] eqn:E; [|lia]. intros _. apply count_in in E; [|exact H].
    apply (in_map fst) in E. exact E.
Qed.

Lemma count_none k c : proper c -> the_count k c = 0 -> count_of k c = None.
Proof.
  intros H E. destruct (count_of k c) as [n|] eqn:En; [|reflexivity]. exfalso.
  pose proof En as K. apply count_in in K; [|exact H]. apply (in_map fst) in K. apply count_positive in K; [|exact H].
  cbn [fst] in K. lia.
Qed.

Lemma occurrences_app k a b : occurrences k (a ++ b) = occurrences k a + occurrences k b.
Proof. unfold occurrences. rewrite filter_app, app_length. reflexivity. Qed.

Lemma occurrences_cons k x l : occurrences k (x :: l) = (if beq k x then 1 else 0) + occurrences k l.
Proof. unfold occurrences. cbn [filter]. destruct (beq k x); reflexivity. Qed.

Lemma occurrences_in k l : In k l <-> 0 < occurrences k l.
Proof.
  induction l as [|x l IH]; [cbn; lia|]. rewrite occurrences_cons. cbn [In]. destruct (beq k x) eqn:E.
  - apply beq_eq in E. subst. split; [lia|auto].
  - apply beq_neq in E. rewrite IH. cbn. split; [intros [K|K]; [congruence|exact K]|auto].
Qed.

(** ** What is counted where no member is a "fields" object *)

Section LayoutInd.
Variable P : layout -> Prop.
Hypothesis Hs : P LScalar.
Hypothesis Ha : forall l, Forall P l -> P (LArr l).
Hypothesis Ho : forall ms, Forall (fun m => P (snd m)) ms -> P (LObj ms).
Fixpoint layout_ind' (l : layout) : P l :=
  match l with
  | LScalar => Hs
  | LArr vs => Ha vs ((fix go vs : Forall P vs := match vs with [] => Forall_nil _ | v :: vs' => Forall_cons v (layout_ind' v) (go vs') end) vs)
  | LObj ms => Ho ms ((fix go ms : Forall (fun m => P (snd m)) ms := match ms with [] => Forall_nil _ | m :: ms' => Forall_cons m (layout_ind' (snd m)) (go ms') end) ms)
  end.
End LayoutInd.

Definition free_member (m : bytes * layout) : bool :=
  no_fields (snd m) && negb (beq (fst m) (B "fields") && match snd m with LObj _ => true | _ => false end).

Lemma value_free k v c : no_fields v && negb (beq k (B "fields") && match v with LObj _ => true | _ => false end) = true ->
  (no_fields v = true -> tally false v c = c) -> tally_value tally k v c = c.
Proof.
  rewrite andb_true_iff. intros [H1 H2] IH. specialize (IH H1). unfold tally_value. destruct v; [exact IH|exact IH|].
  rewrite andb_true_r, negb_true_iff in H2. rewrite H2. exact IH.
Qed.

Lemma tally_free v : no_fields v = true -> forall c, tally false v c = c.
Proof.
  induction v as [|l IH|ms IH] using layout_ind'; intros H c; [reflexivity| |].
  - cbn [no_fields tally] in *. revert c. induction IH as [|v l Hv _ IHl]; intros c; [reflexivity|].
    cbn [forallb] in H. apply andb_true_iff in H. cbn [tally_elems]. rewrite Hv by apply H. apply IHl, H.
  - cbn [no_fields tally] in *. revert c. induction IH as [|[k v] ms Hv _ IHl]; intros c; [reflexivity|].
    cbn [forallb fst snd] in H. apply andb_true_iff in H. destruct H as [H1 H2].
    cbn [tally_members]. rewrite (value_free k v c H1); [apply IHl, H2|]. intros Hn. apply Hv. exact Hn.
Qed.

Lemma members_free ms : forallb free_member ms = true -> forall c k,
  the_count k (tally_members tally true ms c) = the_count k c + occurrences k (map fst ms).
Proof.
  induction ms as [|[x v] ms IH]; intros H c k; [cbn; lia|].
  cbn [forallb] in H. apply andb_true_iff in H. destruct H as [H1 H2]. cbn [tally_members map fst].
  rewrite IH by exact H2. unfold free_member in H1. cbn [fst snd] in H1.
  rewrite (value_free x v (bump x c) H1) by (intros Hn; apply tally_free, Hn).
  rewrite bump_count, occurrences_cons. lia.
Qed.

Lemma tally_proper v : forall b c, proper c -> proper (tally b v c).
Proof.
  induction v as [|l IH|ms IH] using layout_ind'; intros b c H; [exact H| |]; cbn [tally].
  - revert c H. induction IH as [|v l Hv _ IHl]; intros c H; [exact H|]. cbn [tally_elems]. auto.
  - revert c H. induction IH as [|[k v] ms Hv _ IHl]; intros c H; [exact H|]. cbn [tally_members]. apply IHl.
    assert (P : proper (if b then bump k c else c)) by (destruct b; [apply bump_proper, H|exact H]).
    unfold tally_value. cbn [snd] in Hv. destruct v; [auto|auto|].
    destruct (beq k (B "fields")); [apply Hv, delete_proper, P|auto].
Qed.

Lemma members_app b m1 m2 c : tally_members tally b (m1 ++ m2) c = tally_members tally b m2 (tally_members tally b m1 c).
Proof. revert c. induction m1 as [|[k v] m1 IH]; intros c; [reflexivity|]. cbn [app tally_members]. apply IH. Qed.

(** ** Parsing *)

Lemma runes_app_valid a b : valid_utf8 a = true -> runes (a ++ b) = runes a ++ runes b.
Proof.
  intros V. apply valid_text in V. destruct V as (rs & H & ->). rewrite runes_text by exact H.
  induction rs as [|r rs IH]; [reflexivity|]. cbn [forallb] in H. apply andb_true_iff in H. destruct H as [H1 H2].
  rewrite text_cons, <- app_assoc, runes_rune by exact H1. cbn [app]. rewrite IH by exact H2. reflexivity.
Qed.

Lemma input_app_valid a b : valid_utf8 a = true -> input (a ++ b) = input a ++ input b.
Proof. intros V. unfold input. rewrite runes_app_valid, map_app by exact V. reflexivity. Qed.

Definition top_run u c s r := exists n, parse_top n u (c, s) = Some r.

Lemma top_ws u w c t r : classes_ok u -> rws w -> top_run u c t r -> top_run u c (w ++ t) r.
Proof.
  intros ok. unfold rws. induction w as [|x w IH]; intros H R; [exact R|]. cbn [forallb] in H. apply andb_true_iff in H.
  destruct H as [H1 H2]. destruct (IH H2 R) as [n Rn]. exists (S n). cbn [app parse_top].
  rewrite (ws_space u ok x H1). exact Rn.
Qed.

Lemma top_object u c t c' s' : classes_ok u -> object_run u true false c t (Ok (c', s')) ->
  top_run u c (123%N :: t) (Ok (c', s')).
Proof.
  intros ok [n R]. exists (S n). cbn [parse_top]. destruct (ok 123%N eq_refl) as (-> & _).
  change (ascii_space 123) with false. cbn [N.eqb Pos.eqb]. rewrite R. reflexivity.
Qed.

Lemma top_stops u c t c' : classes_ok u -> object_run u true false c t (Err true (c', [])) ->
  top_run u c (123%N :: t) (Ok (c', [])).
Proof.
  intros ok [n R]. exists (S (S n)). cbn [parse_top]. destruct (ok 123%N eq_refl) as (-> & _).
  change (ascii_space 123) with false. cbn [N.eqb Pos.eqb]. rewrite (fuel_object _ _ (S n) _ _ _ _ R) by lia. reflexivity.
Qed.

(** The counter of a well-formed text. *)
Lemma count_text u w l t rest : classes_ok u -> ws w -> ltext (LObj l) t -> valid_utf8 t = true ->
  count_fields u (w ++ t ++ rest) = Some (Ok (tally true (LObj l) [], input rest)).
Proof.
  intros ok Hw Ht V. assert (R : rtext u (LObj l) (input t)).
  { pose proof (proj1 (texts_runes u ok) _ _ Ht) as R. rewrite (proj1 texts_valid _ _ Ht V) in R. exact R. }
  pose proof (text_head _ _ Ht) as Hh.
  assert (E : input (w ++ t ++ rest) = input w ++ input t ++ input rest).
  { rewrite input_app.
    - rewrite input_app_valid by exact V. reflexivity.
    - destruct t as [|x t]; [inversion Ht; discriminate|exact Hh]. }
  destruct (proj2 (proj2 (proj1 (texts_full u ok) _ _ R)) l eq_refl true [] (input rest)) as (t' & Et & O).
  assert (T : top_run u [] (input (w ++ t ++ rest)) (Ok (tally true (LObj l) [], input rest))).
  { rewrite E. apply top_ws; [exact ok|apply ws_input, Hw|]. rewrite Et. cbn [app]. apply top_object; assumption. }
  destruct T as [n T]. eapply count_run, T.
Qed.

(** ** Sorting *)

Lemma insert_perm x l : Permutation (x :: l) (insert_name x l).
Proof.
  induction l as [|y l IH]; [reflexivity|]. cbn [insert_name]. destruct (blt y x); [|reflexivity].
  rewrite perm_swap. constructor. exact IH.
Qed.

Lemma sort_perm l : Permutation l (sort_names l).
Proof. induction l as [|x l IH]; [reflexivity|]. cbn. rewrite <- insert_perm. constructor. exact IH. Qed.

(** ** C30 *)

(** For every object text without a "fields" object: the counter accepts it, with
    anything behind it, and counts every top-level key. *)
Theorem C30_counts u w ms t rest :
  classes_ok u -> ws w -> ltext (LObj ms) t -> valid_utf8 t = true -> no_fields (LObj ms) = true ->
  exists c, count_fields u (w ++ t ++ rest) = Some (Ok (c, input rest)) /\
  (forall k, count_of k c = match occurrences k (map fst ms) with 0 => None | n => Some (N.of_nat n) end) /\
  (forall k n, In (k, n) (duplicates c) <->
     n = N.of_nat (occurrences k (map fst ms)) /\ 1 < occurrences k (map fst ms)) /\
  NoDup (map fst (duplicates c)) /\
  Permutation (fields_of c) (nodup (list_eq_dec ascii_dec) (map fst ms)) /\
  num_fields c = length (nodup (list_eq_dec ascii_dec) (map fst ms)).
Proof.
  intros ok Hw Ht V F. exists (tally true (LObj ms) []). split; [apply count_text; assumption|].
  assert (P : proper (tally true (LObj ms) [])) by (apply tally_proper; split; constructor).
  assert (C : forall k, the_count k (tally true (LObj ms) []) = occurrences k (map fst ms)).
  { intros k. cbn [tally]. rewrite members_free by exact F. reflexivity. }
  set (c := tally true (LObj ms) []) in *. clearbody c.
  assert (K : forall k, count_of k c = match occurrences k (map fst ms) with 0 => None | n => Some (N.of_nat n) end).
  { intros k. generalize (C k). destruct (occurrences k (map fst ms)) as [|n]; intros Ck; [apply count_none; assumption|].
    unfold the_count in Ck. destruct (count_of k c) as [m|]; [|discriminate]. rewrite <- Ck, N2Nat.id. reflexivity. }
  assert (Pm : Permutation (map fst c) (nodup (list_eq_dec ascii_dec) (map fst ms))).
  { apply NoDup_Permutation; [apply P|apply NoDup_nodup|]. intros k. rewrite nodup_In, (occurrences_in k (map fst ms)), <- C.
    apply count_positive, P. }
  split; [exact K|]. split; [|split; [|split]].
  - intros k n. unfold duplicates. rewrite filter_In, (count_in k n c P), K. cbn [snd]. rewrite N.ltb_lt.
    destruct (occurrences k (map fst ms)) as [|m].
    + split; [intros [H _]; discriminate|lia].
    + split; [intros [H L]; injection H as <-; lia|]. intros [-> L]. split; [reflexivity|lia].
  - unfold duplicates. destruct P as [P _]. clear -P. induction c as [|[x n] c IH]; [constructor|].
    inversion P; subst. cbn [filter snd]. destruct (N.ltb 1 n); [|auto]. cbn [map fst]. constructor; [|auto].
    intros H. apply H1. apply in_map_iff in H. destruct H as (e & <- & H). apply in_map. apply filter_In in H. apply H.
  - unfold fields_of. rewrite <- sort_perm. exact Pm.
  - unfold num_fields. rewrite <- (map_length fst c). apply Permutation_length, Pm.
Qed.
Print Assumptions C30_counts.

(** The list of names is sorted. *)
Lemma blt_total a b : blt a b = true \/ a = b \/ blt b a = true.
Proof.
  revert b. induction a as [|x a IH]; intros [|y b]; cbn; auto.
  destruct (N.ltb_spec (code x) (code y)); [auto|].
  destruct (N.ltb_spec (code y) (code x)); [right; right; reflexivity|].
  assert (x = y) as -> by (rewrite <- (code_chr_id x), <- (code_chr_id y); f_equal; lia).
  destruct (IH b) as [H1|[->|H1]]; rewrite ?H1; auto.
Qed.

Theorem C30_sorted c : Sorted (fun a b => blt b a = false) (fields_of c).
Proof.
  unfold fields_of. assert (A : forall a b, blt a b = true -> blt b a = false).
  { clear. induction a as [|x a IH]; intros [|y b]; cbn; try discriminate; auto.
    destruct (N.ltb_spec (code x) (code y)); destruct (N.ltb_spec (code y) (code x)); try lia; auto; discriminate. }
  induction (map fst c) as [|x l IH]; [constructor|]. cbn [sort_names].
  assert (G : forall l, Sorted (fun a b => blt b a = false) l -> Sorted (fun a b => blt b a = false) (insert_name x l)).
  { clear -A. induction l as [|y l IH]; intros H; cbn [insert_name]; [repeat constructor|].
    inversion H; subst. destruct (blt y x) eqn:E.
    - constructor; [auto|]. destruct l as [|z l]; cbn [insert_name]; [constructor; apply A, E|].
      inversion H3; subst. destruct (blt z x); constructor; auto.
    - constructor; [exact H|]. constructor. exact E. }
  apply G, IH.
Qed.
Print Assumptions C30_sorted.

(** ** JSON values *)

Lemma text_layout :
  (forall v b, jtext v b -> exists l, ltext l b /\ spells v l) /\
  (forall vs b, jelems vs b -> exists l, lelems l b /\ spells_all vs l) /\
  (forall fs b, jmembers fs b -> exists l, lmembers l b /\ spells_members fs l).
Proof.
  apply json_grammar_ind.
  - exists LScalar. split; constructor.
  - exists LScalar. split; constructor.
  - exists LScalar. split; constructor.
  - intros t H. exists LScalar. split; constructor; assumption.
  - intros s b H. exists LScalar. split; econstructor; eassumption.
  - intros w H. exists (LArr []). split; repeat constructor; assumption.
  - intros l b _ (l' & H & S0). exists (LArr l'). split; constructor; assumption.
  - intros w H. exists (LObj []). split; repeat constructor; assumption.
  - intros l b _ (l' & H & S0). exists (LObj l'). split; constructor; assumption.
  - intros v w1 b w2 H1 _ (l & H & S0) H2. exists [l]. split; [constructor; assumption|repeat constructor; assumption].
  - intros v w1 b w2 l t H1 _ (lv & H & S0) H2 _ (ll & Hl & Sl). exists (lv :: ll). split; constructor; assumption.
  - intros k kb v w1 w2 w3 b w4 H1 Hk H2 H3 _ (l & H & S0) H4. exists [(kb, l)]. split.
    + eapply lm_one; eassumption.
    + constructor; [assumption|assumption|constructor].
  - intros k kb v w1 w2 w3 b w4 fs t H1 Hk H2 H3 _ (l & H & S0) H4 _ (ll & Hl & Sl). exists ((kb, l) :: ll). split.
    + eapply lm_cons; eassumption.
    + constructor; assumption.
Qed.

Definition no_escape (s : bytes) : bool := forallb (fun c => negb (Ascii.eqb c backslash)) s.

Lemma body_plain s b : jbody s b -> no_escape b = true -> s = b.
Proof.
  induction 1; intros N; try discriminate; [reflexivity|]. unfold no_escape in N. cbn [forallb] in N.
  apply andb_true_iff in N. rewrite IHjbody by apply N. reflexivity.
Qed.

Lemma members_plain ms t : lmembers ms t -> no_escape t = true -> Forall (fun m => no_escape (fst m) = true) ms.
Proof.
  unfold no_escape. induction 1; intros N; repeat (rewrite ?forallb_app in N; cbn [forallb] in N);
    rewrite ?andb_true_iff in N; constructor; cbn [fst]; try apply N; try constructor.
  apply IHlmembers. apply N.
Qed.

Lemma spells_keys fs ms : spells_members fs ms -> Forall (fun m => no_escape (fst m) = true) ms -> map fst fs = map fst ms.
Proof.
  induction 1; intros F; [reflexivity|]. inversion F; subst. cbn [map fst] in *.
  rewrite (body_plain k kb) by assumption. rewrite IHspells_members by assumption. reflexivity.
Qed.

(** The keys as JSON means them: every object text is covered, and where no
    escapes are used the names counted are the names of the members. *)
Theorem C30_json u w fs t rest :
  classes_ok u -> ws w -> jtext (JObj fs) t -> valid_utf8 t = true -> no_escape t = true ->
  exists ms, ltext (LObj ms) t /\ spells (JObj fs) (LObj ms) /\
  (no_fields (LObj ms) = true ->
   exists c, count_fields u (w ++ t ++ rest) = Some (Ok (c, input rest)) /\
   forall k, the_count k c = occurrences k (map fst fs)).
Proof.
  intros ok Hw Ht V N. destruct (proj1 text_layout _ _ Ht) as (l & L & S0). inversion S0; subst.
  exists l'. split; [exact L|]. split; [exact S0|]. intros F.
  destruct (C30_counts u w l' t rest ok Hw L V F) as (c & R & K & _). exists c. split; [exact R|].
  intros k. unfold the_count. rewrite K.
  assert (Fm : Forall (fun m => no_escape (fst m) = true) l').
  { inversion L; subst; [constructor|]. eapply members_plain; [eassumption|].
    unfold no_escape in *. cbn [forallb] in N. rewrite forallb_app in N. rewrite !andb_true_iff in N. apply N. }
  rewrite (spells_keys fs l') by assumption.
  destruct (occurrences k (map fst l')); [reflexivity|apply Nat2N.id].
Qed.
Print Assumptions C30_json.

(** ** C31 *)

(** The counter always comes to an end, after a number of steps linear in the
    length of the input. *)
Theorem C31_terminates u src : exists r, parse_top (2 * length src + 3) u ([], input src) = Some r /\
  forall n, 2 * length src + 3 <= n -> parse_top n u ([], input src) = Some r.
Proof.
  destruct (parse_top (2 * length src + 3) u ([], input src)) as [r|] eqn:E; [|exfalso; eapply count_total, E].
  exists r. split; [reflexivity|]. intros n L. eapply fuel_top; eassumption.
Qed.
Print Assumptions C31_terminates.

Lemma letters_input p q a : valid_utf8 p = true -> input p = q ++ a -> forallb ascii_letter a = true ->
  exists p', p = p' ++ map chr a.
Proof.
  intros V E H. apply valid_text in V. destruct V as (rs & S0 & ->). unfold input in E. rewrite runes_text in E by exact S0.
  apply map_eq_app in E. destruct E as (r1 & r2 & -> & _ & E). exists (text r1). unfold text. rewrite map_app, concat_app. f_equal.
  clear S0. revert a E H. induction r2 as [|r r2 IH]; intros a E H; cbn [map] in E; subst a; [reflexivity|].
  cbn [forallb map concat] in *. apply andb_true_iff in H. destruct H as [H1 H2].
  assert (L : (r < 128)%N /\ (if N.eqb r 10 then 32%N else r) = r).
  { destruct (N.eqb_spec r 10) as [->|N]; [discriminate|]. split; [|reflexivity].
    unfold ascii_letter in H1. rewrite orb_true_iff, !andb_true_iff, !N.leb_le in H1. lia. }
  destruct L as [L ->]. rewrite (IH _ eq_refl H2). unfold utf8_encode. apply N.ltb_lt in L. rewrite L. reflexivity.
Qed.

Lemma cut_key_keyword p : valid_utf8 p = true -> cut_key (input p) -> cut_keyword p.
Proof.
  intros V (q & a & b & E & Na & Nb & K).
  assert (L : forallb ascii_letter a = true).
  { assert (L : forallb ascii_letter (a ++ b) = true) by (destruct K as [<-|[<-|[<-|[]]]]; reflexivity).
    rewrite forallb_app in L. apply andb_true_iff in L. apply L. }
  destruct (letters_input p q a V E L) as [p' ->]. exists p', (map chr a), (map chr b).
  split; [reflexivity|]. split; [destruct a; [congruence|discriminate]|]. split; [destruct b; [congruence|discriminate]|].
  rewrite <- map_app. destruct K as [<-|[<-|[<-|[]]]]; cbn; auto.
Qed.

(** Every beginning of an object text is accepted, unless it ends inside a keyword. *)
Theorem C31_prefix u w ms p q :
  classes_ok u -> ws w -> ltext (LObj ms) (p ++ q) -> valid_utf8 p = true -> ~ cut_keyword p ->
  exists c rest, count_fields u (w ++ p) = Some (Ok (c, rest)).
Proof.
  intros ok Hw Ht V Nc.
  assert (T : exists c rest, top_run u [] (input (w ++ p)) (Ok (c, rest))).
  2:{ destruct T as (c & rest & n & T). exists c, rest. eapply count_run, T. }
  pose proof (text_head _ _ Ht) as Hh.
  assert (Hp : ascii_head p) by (destruct p; [exact I|exact Hh]).
  rewrite input_app by exact Hp.
  assert (G : exists c rest, top_run u [] (input p) (Ok (c, rest))).
  2:{ destruct G as (c & rest & G). exists c, rest. apply top_ws; [exact ok|apply ws_input, Hw|exact G]. }
  assert (R : rtext u (relabel (LObj ms)) (input p ++ input q)).
  { rewrite <- input_app_valid by exact V. apply (proj1 (texts_runes u ok) _ _ Ht). }
  assert (Ncr : ~ cut_key (input p)) by (intros K; apply Nc, cut_key_keyword; assumption).
  destruct (input p) as [|x p'] eqn:Ep.
  { exists [], []. exists 1. reflexivity. }
  assert (x = 123%N) as ->.
  { inversion R; subst; reflexivity. }
  destruct (input q) as [|y q'] eqn:Eq.
  - rewrite app_nil_r in R.
    destruct (proj2 (proj2 (proj1 (texts_full u ok) _ _ R)) _ eq_refl true [] []) as (t' & Et & O).
    injection Et as <-. rewrite app_nil_r in O. eexists _, _. apply top_object; [exact ok|exact O].
  - destruct (proj1 (texts_cut u ok) _ _ R (123%N :: p') (y :: q') eq_refl ltac:(discriminate) Ncr) as (_ & _ & O).
    destruct (O _ eq_refl true [] p' eq_refl) as (r & Rr & c' & [-> | ->]).
    + exists c', []. apply top_object; assumption.
    + exists c', []. apply top_stops; assumption.
Qed.
Print Assumptions C31_prefix.

(** Members of an object called "fields" are counted with those of the object
    around it, and the counts of "fields" so far are forgotten. *)
Theorem C31_fields u w m1 inner m2 t rest :
  classes_ok u -> ws w -> ltext (LObj (m1 ++ (B "fields", LObj inner) :: m2)) t -> valid_utf8 t = true ->
  forallb free_member m1 = true -> forallb free_member inner = true -> forallb free_member m2 = true ->
  exists c, count_fields u (w ++ t ++ rest) = Some (Ok (c, input rest)) /\
  (forall k, k <> B "fields" ->
     the_count k c = occurrences k (map fst m1 ++ map fst inner ++ map fst m2)) /\
  the_count (B "fields") c = occurrences (B "fields") (map fst inner ++ map fst m2).
Proof.
  intros ok Hw Ht V F1 Fi F2. eexists. split; [apply count_text; eassumption|].
  assert (G : forall k, the_count k (tally true (LObj (m1 ++ (B "fields", LObj inner) :: m2)) []) =
    (if beq k (B "fields") then 0 else occurrences k (map fst m1)) + occurrences k (map fst inner) + occurrences k (map fst m2)).
  { intros k. cbn [tally]. rewrite members_app. cbn [tally_members tally_value].
    rewrite beq_refl. rewrite members_free by exact F2. cbn [tally]. rewrite members_free by exact Fi.
    rewrite delete_count, bump_count, members_free by exact F1. change (the_count k []) with 0.
    destruct (beq k (B "fields")); lia. }
  split.
  - intros k Nk. rewrite G. apply beq_neq in Nk. rewrite Nk, !occurrences_app. lia.
  - rewrite G, beq_refl, occurrences_app. lia.
Qed.
Print Assumptions C31_fields.

(** ** C32 *)

(** The check accepts every line; in particular any object text with a key that
    occurs twice, where the counter, had it been run, would have reported it. *)
Theorem C32_vacuous captured : no_duplicates_fails captured = false.
Proof. reflexivity. Qed.
Print Assumptions C32_vacuous.

Theorem C32_missed u ms t k :
  classes_ok u -> ltext (LObj ms) t -> valid_utf8 t = true -> no_fields (LObj ms) = true ->
  1 < occurrences k (map fst ms) ->
  no_duplicates_fails t = false /\
  exists c, count_fields u t = Some (Ok (c, [])) /\ In (k, N.of_nat (occurrences k (map fst ms))) (duplicates c).
Proof.
  intros ok Ht V F O. split; [reflexivity|].
  destruct (C30_counts u [] ms t [] ok eq_refl Ht V F) as (c & R & _ & D & _). cbn [app] in R. rewrite app_nil_r in R.
  exists c. split; [exact R|]. apply D. auto.
Qed.
Print Assumptions C32_missed.

(** ** Examples *)

Definition classes0 : classes := {| u_space := ascii_space; u_letter := ascii_letter; u_digit := ascii_digit;
                                    u_lower := FieldGrammar.ascii_lower |}.
Lemma classes0_ok : classes_ok classes0.
Proof. intros r _. repeat split; reflexivity. Qed.

Definition q1 (s : string) : bytes := quote :: B s ++ [quote].
Definition sample : bytes :=
  B "{" ++ q1 "a" ++ B ": {" ++ q1 "a" ++ B ":1}, " ++ q1 "b" ++ B ":[true, -1.5e+3],"
  ++ newline :: q1 "a" ++ B ":" ++ q1 "x" ++ B "}".

Example C30_ex : count_fields classes0 sample = Some (Ok ([(B "a", 2%N); (B "b", 1%N)], [])).
Proof. vm_compute. reflexivity. Qed.

Example C30_ex_layout : exists ms, ltext (LObj ms) sample /\ no_fields (LObj ms) = true /\
  map fst ms = [B "a"; B "b"; B "a"].
Proof.
  exists [(B "a", LObj [(B "a", LScalar)]); (B "b", LArr [LScalar; LScalar]); (B "a", LScalar)].
  split; [|split; reflexivity].
  assert (Body : forall c, plain_char c = true -> jbody [c] [c]) by (intros; repeat constructor; assumption).
  assert (Ba : jbody (B "a") (B "a")) by (apply Body; reflexivity).
  assert (Bb : jbody (B "b") (B "b")) by (apply Body; reflexivity).
  assert (Bx : jbody (B "x") (B "x")) by (apply Body; reflexivity).
  assert (W0 : ws []) by reflexivity. assert (W1 : ws (B " ")) by reflexivity. assert (Wn : ws [newline]) by reflexivity.
  pose proof (lt_num (B "1") eq_refl) as T1. pose proof (lt_num (B "-1.5e+3") eq_refl) as T2.
  pose proof (lt_obj _ _ (lm_one _ _ _ _ _ _ _ _ W0 Ba W0 W0 T1 W0)) as Ti.
  pose proof (lt_arr _ _ (le_cons _ _ _ _ _ _ W0 lt_true W0 (le_one _ _ _ _ W1 T2 W0))) as Ta.
  pose proof (lt_str _ _ Bx) as Tx.
  exact (lt_obj _ _ (lm_cons _ _ _ _ _ _ _ _ _ _ W0 Ba W0 W1 Ti W0
          (lm_cons _ _ _ _ _ _ _ _ _ _ W1 Bb W0 W0 Ta W0
            (lm_one _ _ _ _ _ _ _ _ Wn Ba W0 W0 Tx W0)))).
Qed.

(** Distinct spellings are distinct names, and what follows is not looked at. *)
Example C30_ex_spelling : count_fields classes0 (B "{" ++ q1 "a" ++ B ":1," ++ q1 "\u0061" ++ B ":2} garbage")
  = Some (Ok ([(B "a", 1%N); (B "\u0061", 1%N)], input (B " garbage"))).
Proof. vm_compute. reflexivity. Qed.

(** Beginnings of texts: cut in a string, after a backslash, in a number; cut in
    a keyword it fails. *)
Example C31_ex_cut :
  count_fields classes0 (B "{" ++ q1 "a" ++ B ":" ++ quote :: B "x") = Some (Ok ([(B "a", 1%N)], [])) /\
  count_fields classes0 (B "{" ++ q1 "a" ++ B ":" ++ quote :: B "x\") = Some (Ok ([(B "a", 1%N)], [])) /\
  count_fields classes0 (B "{" ++ q1 "a" ++ B ":1e") = Some (Ok ([(B "a", 1%N)], [])) /\
  count_fields classes0 (B "{" ++ quote :: B "k") = Some (Ok ([(B "k", 1%N)], [])) /\
  count_fields classes0 (B "{" ++ q1 "a" ++ B ":tr") = Some (Err false ([(B "a", 1%N)], [])).
Proof. vm_compute. repeat split; reflexivity. Qed.

(** It is no validator. *)
Example C31_ex_invalid :
  count_fields classes0 (B "{" ++ q1 "a" ++ B ":-,}") = Some (Ok ([(B "a", 1%N)], [])) /\
  count_fields classes0 (B "{" ++ q1 "a" ++ B ":NULL,}") = Some (Ok ([(B "a", 1%N)], [])) /\
  count_fields classes0 [] = Some (Ok ([], [])).
Proof. vm_compute. repeat split; reflexivity. Qed.

Example C31_ex_fields : count_fields classes0
   (B "{" ++ q1 "x" ++ B ":1," ++ q1 "fields" ++ B ":{" ++ q1 "x" ++ B ":2," ++ q1 "y" ++ B ":3}}")
  = Some (Ok ([(B "x", 2%N); (B "y", 1%N)], [])).
Proof. vm_compute. reflexivity. Qed.

Example C32_ex : duplicates (match count_fields classes0 sample with Some (Ok (c, _)) => c | _ => [] end) = [(B "a", 2%N)] /\
  no_duplicates_fails sample = false.
Proof. vm_compute. split; reflexivity. Qed.
