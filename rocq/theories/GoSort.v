(** The contracts of Go's sort.Slice and of maps ranged over, as far as used. *)

From Coq Require Import Ascii String List NArith Bool Arith Lia Permutation Sorted.
From Verif Require Import Bytes BytesProofs.
Import ListNotations.

(** ** sort.Slice, sort.Strings

    The result is some rearrangement without a pair in the wrong order; for
    elements that compare equal nothing is promised.  [less] has to be a strict
    weak ordering. *)

Record weak_order {A} (less : A -> A -> bool) : Prop := {
  wo_asym : forall a b, less a b = true -> less b a = false;
  wo_neg : forall a b c, less a b = false -> less b c = false -> less a c = false
}.

Definition sort_slice {A} (less : A -> A -> bool) (l l' : list A) : Prop :=
  Permutation l l' /\ StronglySorted (fun a b => less b a = false) l'.

(** One such rearrangement. *)
Fixpoint insert_by {A} (less : A -> A -> bool) (x : A) (l : list A) : list A :=
  match l with
  | [] => [x]
  | y :: l' => if less y x then y :: insert_by less x l' else x :: l
  end.
Fixpoint sort_by {A} (less : A -> A -> bool) (l : list A) : list A :=
  match l with [] => [] | x :: l' => insert_by less x (sort_by less l') end.

Section Sort.
Context {A : Type} (less : A -> A -> bool).

Lemma insert_by_perm x l : Permutation (x :: l) (insert_by less x l).
Proof.
  induction l as [|y l IH]; [reflexivity|]. cbn [insert_by]. destruct (less y x); [|reflexivity].
  rewrite perm_swap. constructor. exact IH.
Qed.

Lemma sort_by_perm l : Permutation l (sort_by less l).
Proof. induction l as [|x l IH]; [reflexivity|]. cbn. rewrite <- insert_by_perm. constructor. exact IH. Qed.

Hypothesis W : weak_order less.

Lemma insert_by_sorted x l : StronglySorted (fun a b => less b a = false) l ->
  StronglySorted (fun a b => less b a = false) (insert_by less x l).
Proof.
  induction l as [|y l IH]; intros H; cbn [insert_by]; [repeat constructor|].
  inversion H; subst. destruct (less y x) eqn:E.
  - constructor; [auto|]. rewrite <- insert_by_perm. constructor; [apply (wo_asym _ W), E|assumption].
  - constructor; [exact H|]. constructor; [exact E|]. rewrite Forall_forall in *. intros z Hz.
    eapply (wo_neg _ W); [apply H3, Hz|exact E].
Qed.

Lemma sort_by_ok l : sort_slice less l (sort_by less l).
Proof.
  split; [apply sort_by_perm|]. induction l as [|x l IH]; [constructor|]. apply insert_by_sorted, IH.
Qed.

(** Where different elements are ordered, there is only one result. *)
Lemma sorted_unique l1 : forall l2, Permutation l1 l2 ->
  StronglySorted (fun a b => less b a = false) l1 -> StronglySorted (fun a b => less b a = false) l2 ->
  (forall a b, In a l1 -> In b l1 -> less a b = false -> less b a = false -> a = b) -> l1 = l2.
Proof.
  induction l1 as [|x l1 IH]; intros l2 P S1 S2 T.
  { apply Permutation_nil in P. congruence. }
  destruct l2 as [|y l2]; [symmetry in P; apply Permutation_nil in P; discriminate|].
  inversion S1; inversion S2; subst. rewrite Forall_forall in *.
  assert (x = y).
  { assert (Hx : In x (y :: l2)) by (eapply Permutation_in; [exact P|left; reflexivity]).
    assert (Hy : In y (x :: l1)) by (eapply Permutation_in; [symmetry; exact P|left; reflexivity]).
    destruct Hx as [Hx|Hx]; [congruence|]. destruct Hy as [Hy|Hy]; [congruence|].
    apply T; [left; reflexivity|right; exact Hy|apply H6, Hx|apply H2, Hy]. }
  subst y. f_equal. apply IH; [eapply Permutation_cons_inv, P|assumption|assumption|].
  intros a b Ha Hb. apply T; right; assumption.
Qed.

Lemma sort_slice_unique l l0 l1 l2 : sort_slice less l l1 -> sort_slice less l0 l2 -> Permutation l l0 ->
  (forall a b, In a l -> In b l -> less a b = false -> less b a = false -> a = b) -> l1 = l2.
Proof.
  intros [P1 S1] [P2 S2] P T. apply sorted_unique; [|assumption|assumption|].
  - rewrite <- P1, P. exact P2.
  - intros a b Ha Hb. apply T; (eapply Permutation_in; [symmetry; exact P1|assumption]).
Qed.

Lemma sort_slice_is l l' : sort_slice less l l' ->
  (forall a b, In a l -> In b l -> less a b = false -> less b a = false -> a = b) -> l' = sort_by less l.
Proof. intros S T. eapply sort_slice_unique; [exact S|apply sort_by_ok|reflexivity|exact T]. Qed.

Lemma sort_by_perm_eq l l' : Permutation l l' ->
  (forall a b, In a l -> In b l -> less a b = false -> less b a = false -> a = b) -> sort_by less l = sort_by less l'.
Proof. intros P T. eapply sort_slice_unique; [apply sort_by_ok|apply sort_by_ok|exact P|exact T]. Qed.

Lemma sort_by_id l : StronglySorted (fun a b => less b a = false) l ->
  (forall a b, In a l -> In b l -> less a b = false -> less b a = false -> a = b) -> sort_by less l = l.
Proof.
  intros S T. apply sorted_unique; [symmetry; apply sort_by_perm|apply sort_by_ok|exact S|].
  intros a b Ha Hb. apply T; (eapply Permutation_in; [symmetry; apply sort_by_perm|assumption]).
Qed.
End Sort.

(** ** Byte strings *)

Lemma blt_asym a : forall b, blt a b = true -> blt b a = false.
Proof.
  induction a as [|x a IH]; intros [|y b]; cbn; try discriminate; auto.
  destruct (N.ltb_spec (code x) (code y)); destruct (N.ltb_spec (code y) (code x)); try lia; auto; discriminate.
Qed.

Lemma blt_antisym a : forall b, blt a b = false -> blt b a = false -> a = b.
Proof.
  induction a as [|x a IH]; intros [|y b]; cbn; try discriminate; auto.
  destruct (N.ltb_spec (code x) (code y)); [discriminate|]. destruct (N.ltb_spec (code y) (code x)); [discriminate|].
  intros H1 H2. f_equal; [apply code_inj; lia|auto].
Qed.

Lemma blt_irrefl a : blt a a = false.
Proof. induction a as [|x a IH]; [reflexivity|]. cbn. rewrite N.ltb_irrefl. exact IH. Qed.

Lemma blt_neg a : forall b c, blt a b = false -> blt b c = false -> blt a c = false.
Proof.
  induction a as [|x a IH]; intros [|y b] [|z c]; cbn; try discriminate; auto.
  destruct (N.ltb_spec (code x) (code y)); destruct (N.ltb_spec (code y) (code x)); destruct (N.ltb_spec (code y) (code z));
  destruct (N.ltb_spec (code z) (code y)); destruct (N.ltb_spec (code x) (code z)); destruct (N.ltb_spec (code z) (code x));
  try lia; try discriminate; eauto.
Qed.

Lemma blt_weak : weak_order blt.
Proof. split; [apply blt_asym|apply blt_neg]. Qed.

(** Ordering by a key. *)
Definition on {A B} (key : A -> B) (less : B -> B -> bool) (a b : A) : bool := less (key a) (key b).

Lemma on_weak {A B} (key : A -> B) less : weak_order less -> weak_order (on key less).
Proof. intros [H1 H2]. unfold on. split; eauto. Qed.

(** ** Maps

    A Go map with string keys as an association list.  Its order is that of
    insertion here; a [range] loop may use any other. *)

Section Map.
Context {A : Type}.
Definition gomap := list (bytes * A).

Fixpoint get (k : bytes) (m : gomap) : option A :=
  match m with [] => None | (k', v) :: m' => if beq k' k then Some v else get k m' end.
Fixpoint put (k : bytes) (v : A) (m : gomap) : gomap :=
  match m with
  | [] => [(k, v)]
  | (k', v') :: m' => if beq k' k then (k, v) :: m' else (k', v') :: put k v m'
  end.
Definition drop (k : bytes) (m : gomap) : gomap := filter (fun e => negb (beq (fst e) k)) m.
Definition keys (m : gomap) : list bytes := map fst m.
Definition wf (m : gomap) : Prop := NoDup (keys m).

Lemma get_put k v m k' : get k' (put k v m) = if beq k k' then Some v else get k' m.
Proof.
  induction m as [|[x w] m IH]; cbn [put get]; [reflexivity|].
  destruct (beq x k) eqn:E; cbn [get].
  - apply beq_eq in E. subst x. destruct (beq k k'); reflexivity.
  - destruct (beq x k') eqn:E2; [|exact IH]. apply beq_eq in E2. subst x.
    destruct (beq k k') eqn:E3; [|reflexivity]. apply beq_eq in E3. subst. rewrite beq_refl in E. discriminate.
Qed.
Lemma get_put_same k v m : get k (put k v m) = Some v.
Proof. rewrite get_put, beq_refl. reflexivity. Qed.
Lemma get_put_other k v m k' : k <> k' -> get k' (put k v m) = get k' m.
Proof. intros H. rewrite get_put. apply beq_neq in H. rewrite H. reflexivity. Qed.

Lemma get_drop k m k' : get k' (drop k m) = if beq k k' then None else get k' m.
Proof.
  unfold drop. induction m as [|[x w] m IH]; cbn [filter get fst]; [destruct (beq k k'); reflexivity|].
  destruct (beq x k) eqn:E; cbn [negb get].
  - rewrite IH. apply beq_eq in E. subst x. destruct (beq k k'); reflexivity.
  - destruct (beq x k') eqn:E2; [|exact IH]. apply beq_eq in E2. subst x.
    destruct (beq k k') eqn:E3; [|reflexivity]. apply beq_eq in E3. subst. rewrite beq_refl in E. discriminate.
Qed.

Lemma keys_put k v m x : In x (keys (put k v m)) <-> x = k \/ In x (keys m).
Proof.
  unfold keys. induction m as [|[y n] m IH]; cbn [put].
  - cbn. intuition.
  - destruct (beq y k) eqn:E; cbn [map fst In].
    + apply beq_eq in E. subst. intuition.
    + rewrite IH. intuition.
Qed.

Lemma put_new k v m : get k m = None -> put k v m = m ++ [(k, v)].
Proof.
  induction m as [|[x w] m IH]; [reflexivity|]. cbn [get put]. destruct (beq x k); [discriminate|].
  intros H. rewrite IH by exact H. reflexivity.
Qed.

Lemma wf_nil : wf [].
Proof. constructor. Qed.

Lemma wf_put k v m : wf m -> wf (put k v m).
Proof.
  unfold wf, keys. intros H. induction m as [|[x n] m IH]; cbn [put].
  - repeat constructor. intros [].
  - inversion H; subst. destruct (beq x k) eqn:E; cbn [map fst].
    + apply beq_eq in E. subst. constructor; assumption.
    + constructor; [|auto]. intros K. apply (keys_put k v m) in K. destruct K as [ -> |K]; [rewrite beq_refl in E; discriminate|auto].
Qed.

Lemma keys_drop k m x : In x (keys (drop k m)) <-> x <> k /\ In x (keys m).
Proof.
  unfold keys, drop. rewrite !in_map_iff. split.
  - intros (e & <- & H). apply filter_In in H. destruct H as [H1 H2]. apply negb_true_iff, beq_neq in H2. eauto.
  - intros (N & e & <- & H). exists e. split; [reflexivity|]. apply filter_In. split; [exact H|].
    apply negb_true_iff, beq_neq, N.
Qed.

Lemma wf_filter p m : wf m -> wf (filter p m).
Proof.
  unfold wf, keys. intros H. induction m as [|[x n] m IH]; [constructor|]. inversion H; subst. cbn [filter].
  destruct (p (x, n)); [|auto]. cbn [map fst]. constructor; [|auto]. intros K. apply H2.
  apply in_map_iff in K. destruct K as (e & <- & K). apply in_map. apply filter_In in K. apply K.
Qed.
Lemma wf_drop k m : wf m -> wf (drop k m).
Proof. apply wf_filter. Qed.

Lemma get_in k v m : wf m -> (get k m = Some v <-> In (k, v) m).
Proof.
  unfold wf, keys. induction m as [|[x w] m IH]; intros H; cbn [get In]; [split; [discriminate|intros []]|].
  inversion H; subst. destruct (beq x k) eqn:E.
  - apply beq_eq in E. subst x. split; [intros K; injection K as ->; left; reflexivity|].
    intros [K|K]; [congruence|]. exfalso. apply H2. apply (in_map fst) in K. exact K.
  - rewrite IH by assumption. split; [auto|]. intros [K|K]; [|exact K]. injection K as -> ->. rewrite beq_refl in E. discriminate.
Qed.

Lemma get_keys k m : (exists v, get k m = Some v) <-> In k (keys m).
Proof.
  unfold keys. induction m as [|[x w] m IH]; cbn [get map fst In]; [split; [intros [v H]; discriminate|intros []]|].
  destruct (beq x k) eqn:E.
  - apply beq_eq in E. subst. split; [auto|]. eauto.
  - rewrite IH. split; [auto|]. intros [H|H]; [|exact H]. subst. rewrite beq_refl in E. discriminate.
Qed.

Lemma get_none k m : get k m = None <-> ~ In k (keys m).
Proof.
  rewrite <- get_keys. destruct (get k m) as [v|]; split; [discriminate| |intros _ [v H]; discriminate|reflexivity].
  intros H. exfalso. apply H. eauto.
Qed.
End Map.
Arguments gomap : clear implicits.
