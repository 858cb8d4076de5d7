(** What the field counter and the map of a well spelled line come to. *)

From Coq Require Import Ascii String List ZArith NArith Bool Arith Lia Permutation.
From Verif Require Import Bytes BytesProofs GoSort Json SpecLog TextProofs FieldCounter SpecFields FieldInput FieldGrammar PropFields.
Import ListNotations.
Local Open Scope nat_scope.
Local Open Scope list_scope.

(** No member anywhere is called "fields". *)
Fixpoint unfielded (j : json) : bool :=
  match j with
  | JArr l => forallb unfielded l
  | JObj l => forallb (fun m => unfielded (snd m) && negb (beq (fst m) (B "fields"))) l
  | _ => true
  end.

Lemma body_fields k : jbody k (B "fields") -> k = B "fields".
Proof. intros H. apply body_plain in H; [exact H|reflexivity]. Qed.

Scheme spells_ind' := Minimality for spells Sort Prop
with spells_all_ind' := Minimality for spells_all Sort Prop
with spells_members_ind' := Minimality for spells_members Sort Prop.
Combined Scheme spells_grammar_ind from spells_ind', spells_all_ind', spells_members_ind'.

Lemma unfielded_layout :
  (forall j l, spells j l -> unfielded j = true -> no_fields l = true) /\
  (forall js ls, spells_all js ls -> forallb unfielded js = true -> forallb no_fields ls = true) /\
  (forall fs ms, spells_members fs ms -> unfielded (JObj fs) = true -> no_fields (LObj ms) = true).
Proof.
  apply spells_grammar_ind; try reflexivity; try (intros; assumption); try (intros; now auto).
  - intros v v' l l' _ IH1 _ IH2 U. cbn [forallb] in *. apply andb_true_iff in U. destruct U as [U1 U2]. now rewrite IH1, IH2.
  - intros k kb v v' l l' J _ IH1 _ IH2 U. cbn [unfielded forallb fst snd] in U. apply andb_true_iff in U. destruct U as [U1 U2].
    apply andb_true_iff in U1. destruct U1 as [U1 U3]. cbn [no_fields forallb fst snd] in *. rewrite IH1 by exact U1.
    rewrite IH2 by exact U2. destruct (beq kb (B "fields")) eqn:E; [|reflexivity]. apply beq_eq in E. subst kb.
    apply body_fields in J. subst k. discriminate.
Qed.

(** The layout of well spelled members has their names. *)
Lemma smembers_layout fs t : smembers fs t -> forallb ordinary (map fst fs) = true ->
  exists ms, lmembers ms t /\ spells_members fs ms /\ map fst ms = map fst fs.
Proof.
  induction 1 as [k kb v w1 w2 w3 b w4 W1 K W2 W3 V W4 O|k kb v w1 w2 w3 b w4 l t W1 K W2 W3 V W4 O M IH]; cbn [map forallb fst]; intros A;
    apply andb_true_iff in A; destruct A as [A1 A2]; specialize (O A1); subst kb; destruct (proj1 text_layout _ _ V) as (lv & L & S0).
  - exists [(k, lv)]. split; [eapply lm_one; eassumption|]. split; [|reflexivity]. repeat constructor; assumption.
  - destruct (IH A2) as (ms & L' & S' & E). exists ((k, lv) :: ms). split; [eapply lm_cons; eassumption|]. split; [constructor; assumption|].
    cbn [map fst]. now rewrite E.
Qed.

Definition keys_of (fs : fields) : list bytes := map fst fs.
Definition distinct (l : list bytes) : nat := length (nodup (list_eq_dec ascii_dec) l).

Lemma spelled_counts u fs line rest : classes_ok u -> spelled fs line -> forallb ordinary (keys_of fs) = true -> unfielded (JObj fs) = true ->
  exists c, count_fields u (line ++ rest) = Some (Ok (c, input rest)) /\
    num_fields c = distinct (keys_of fs) /\
    NoDup (map fst (duplicates c)) /\
    (forall k n, In (k, n) (duplicates c) <-> n = N.of_nat (occurrences k (keys_of fs)) /\ 1 < occurrences k (keys_of fs)).
Proof.
  intros CL SP O U. destruct (spelled_parses _ _ SP) as [_ C]. unfold clean in C. apply andb_true_iff in C. destruct C as [_ V].
  destruct SP as (t & F & E).
  assert (L : exists ms, ltext (LObj ms) line /\ spells_members fs ms /\ map fst ms = keys_of fs).
  { destruct F as [_ [[-> ->]|(_ & u0 & -> & M)]].
    - exists []. subst line. split; [apply (lt_obj0 []); reflexivity|]. split; constructor.
    - destruct (smembers_layout _ _ M O) as (ms & LM & S0 & K). exists ms. subst line. split; [|now split].
      cbn [sep app]. now apply lt_obj. }
  destruct L as (ms & L & S0 & K). pose proof (proj2 (proj2 unfielded_layout) _ _ S0 U) as N.
  destruct (C30_counts u [] ms line rest CL eq_refl L V N) as (c & R & _ & D & ND & _ & NF). exists c.
  rewrite <- K. split; [exact R|]. split; [exact NF|]. split; [exact ND|]. exact D.
Qed.

Lemma occurrences_once k l : NoDup l -> occurrences k l <= 1.
Proof.
  unfold occurrences. induction 1 as [|x l NI ND IH]; [cbn; lia|]. cbn [filter]. destruct (beq k x) eqn:E; [|exact IH].
  apply beq_eq in E. subst x. cbn [length]. replace (filter (beq k) l) with (@nil bytes); [cbn; lia|]. symmetry.
  clear - NI. induction l as [|y l IH]; [reflexivity|]. cbn [filter]. destruct (beq k y) eqn:E.
  - apply beq_eq in E. subst. destruct NI. now left.
  - apply IH. intros I. apply NI. now right.
Qed.

Lemma spelled_distinct u fs line rest : classes_ok u -> spelled fs line -> forallb ordinary (keys_of fs) = true -> unfielded (JObj fs) = true ->
  NoDup (keys_of fs) ->
  exists c, count_fields u (line ++ rest) = Some (Ok (c, input rest)) /\ num_fields c = length fs /\ duplicates c = [].
Proof.
  intros CL SP O U ND. destruct (spelled_counts u fs line rest CL SP O U) as (c & R & NF & _ & D). exists c. split; [exact R|]. split.
  - rewrite NF. unfold distinct. rewrite nodup_fixed_point by exact ND. apply map_length.
  - destruct (duplicates c) as [|[k n] l]; [reflexivity|]. exfalso. destruct (proj1 (D k n) (or_introl eq_refl)) as [_ L].
    pose proof (occurrences_once k _ ND). lia.
Qed.

(** The duplicates, by the list of those that are expected. *)
Lemma spelled_duplicates u fs line rest ds : classes_ok u -> spelled fs line -> forallb ordinary (keys_of fs) = true -> unfielded (JObj fs) = true ->
  NoDup ds -> (forall k, In k ds <-> 1 < occurrences k (keys_of fs)) ->
  exists c, count_fields u (line ++ rest) = Some (Ok (c, input rest)) /\ num_fields c = distinct (keys_of fs) /\
    Permutation (duplicates c) (map (fun k => (k, N.of_nat (occurrences k (keys_of fs)))) ds).
Proof.
  intros CL SP O U ND I. destruct (spelled_counts u fs line rest CL SP O U) as (c & R & NF & NDD & D). exists c. split; [exact R|]. split; [exact NF|].
  apply NoDup_Permutation.
  - exact (NoDup_map_inv _ _ NDD).
  - apply (NoDup_map_inv fst). rewrite map_map. cbn [fst]. now rewrite map_id.
  - intros [k n]. rewrite D, in_map_iff. split.
    + intros [-> L]. exists k. split; [reflexivity|now apply I].
    + intros (x & E & IX). injection E as -> <-. split; [reflexivity|now apply I].
Qed.
