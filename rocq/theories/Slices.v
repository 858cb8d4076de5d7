(** Go slices over a heap of arrays.

    Every slice of the modelled code starts at the beginning of its array, so a
    slice is an array, a length and a capacity.  Arrays have as many cells as
    their capacity.  How much [append] over-allocates is left open: the growth
    policy is an arbitrary function. *)

From Coq Require Import List Arith Lia Bool.
Import ListNotations.

Record gslice : Type := { sl_arr : nat; sl_len : nat; sl_cap : nat }.

Definition nil_slice : gslice := {| sl_arr := 0; sl_len := 0; sl_cap := 0 |}.

(** Number of the new array, old capacity and needed length give a capacity;
    anything smaller than needed counts as the needed length. *)
Definition policy : Type := nat -> nat -> nat -> nat.

Section Heap.
Variable T : Type.
Variable zero : T.
Variable grow : policy.

Definition heap : Type := list (list T).

Definition array (h : heap) (s : gslice) : list T := nth (sl_arr s) h [].

(** The elements of a slice. *)
Definition gread (h : heap) (s : gslice) : list T := firstn (sl_len s) (array h s).

Fixpoint update (h : heap) (i : nat) (a : list T) : heap :=
  match h, i with
  | [], _ => []
  | _ :: h', O => a :: h'
  | b :: h', S i' => b :: update h' i' a
  end.

(** [make([]T, 0, cap)]. *)
Definition gmake (h : heap) (cap : nat) : heap * gslice :=
  (h ++ [repeat zero cap], {| sl_arr := length h; sl_len := 0; sl_cap := cap |}).

(** [append(s, x...)]: in place if the capacity suffices, else into a new array. *)
Definition gappend (h : heap) (s : gslice) (x : list T) : heap * gslice :=
  let n := sl_len s + length x in
  if n <=? sl_cap s then
    (update h (sl_arr s) (firstn (sl_len s) (array h s) ++ x ++ skipn n (array h s)),
     {| sl_arr := sl_arr s; sl_len := n; sl_cap := sl_cap s |})
  else
    let cap := max n (grow (length h) (sl_cap s) n) in
    (h ++ [gread h s ++ x ++ repeat zero (cap - n)],
     {| sl_arr := length h; sl_len := n; sl_cap := cap |}).

(** Several appends. *)
Definition gappends (hs : heap * gslice) (xs : list (list T)) : heap * gslice :=
  fold_left (fun hs x => gappend (fst hs) (snd hs) x) xs hs.

(** ** Facts *)

(** The array exists and has the right size. *)
Definition wf (h : heap) (s : gslice) : Prop :=
  sl_len s <= sl_cap s /\
  (sl_cap s = 0 \/ sl_arr s < length h /\ length (array h s) = sl_cap s).

Lemma wf_nil h : wf h nil_slice.
Proof. split; [apply le_n|left; reflexivity]. Qed.

Lemma update_length h : forall i a, length (update h i a) = length h.
Proof. induction h as [|b h IH]; intros [|i] a; cbn; auto. Qed.

Lemma update_same h : forall i a, i < length h -> nth i (update h i a) [] = a.
Proof. induction h as [|b h IH]; intros [|i] a L; cbn in *; try lia; auto. apply IH. lia. Qed.

Lemma update_other h : forall i j a, i <> j -> nth j (update h i a) [] = nth j h [].
Proof. induction h as [|b h IH]; intros [|i] [|j] a L; cbn; try congruence; auto. Qed.

(** What happens to old arrays: [s] is where appending started. *)
Definition kept (h : heap) (s : gslice) (h' : heap) : Prop :=
  length h <= length h' /\
  forall i, i < length h ->
    length (nth i h' []) = length (nth i h []) /\
    forall n, n <= sl_len s \/ i <> sl_arr s \/ sl_cap s = 0 -> firstn n (nth i h' []) = firstn n (nth i h []).

(** Where the result is: after [s] in the same array, or in a new one. *)
Definition after (h : heap) (s s' : gslice) : Prop :=
  sl_arr s' = sl_arr s /\ sl_len s <= sl_len s' /\ sl_cap s' = sl_cap s \/ length h <= sl_arr s'.

Lemma append_ok h s x : wf h s ->
  let (h', s') := gappend h s x in
  wf h' s' /\ gread h' s' = gread h s ++ x /\ kept h s h' /\ after h s s'.
Proof.
  intros [L A]. unfold gappend. destruct (sl_len s + length x <=? sl_cap s) eqn:E.
  - apply Nat.leb_le in E. destruct (Nat.eq_dec (sl_cap s) 0) as [Z|Z].
    { (* no capacity: nothing is appended *)
      assert (sl_len s = 0) by lia. assert (x = []) by (destruct x; [auto|cbn in E; lia]). subst x.
      cbn [length app]. rewrite H, Z. cbn [firstn app]. rewrite Nat.add_0_r.
      assert (U : update h (sl_arr s) (skipn 0 (array h s)) = h).
      { unfold array. cbn [skipn]. generalize (sl_arr s). clear. induction h as [|b h IH]; intros [|i]; cbn; auto.
        rewrite IH. reflexivity. }
      rewrite U. split; [split; [apply le_n|left; reflexivity]|].
      unfold gread. rewrite H. cbn. split; [reflexivity|]. split.
      - split; auto.
      - left. cbn. repeat split; lia. }
    destruct A as [A|[A1 A2]]; [lia|].
    set (a := firstn (sl_len s) (array h s) ++ x ++ skipn (sl_len s + length x) (array h s)).
    assert (La : length a = sl_cap s).
    { unfold a. rewrite !app_length, firstn_length, skipn_length, A2. lia. }
    assert (Ra : nth (sl_arr s) (update h (sl_arr s) a) [] = a) by (apply update_same; auto).
    split; [|split; [|split]].
    + split; cbn; [lia|]. right. rewrite update_length. split; auto. unfold array. cbn. rewrite Ra. exact La.
    + unfold gread, array. cbn. rewrite Ra. unfold a.
      rewrite app_assoc, firstn_app.
      assert (X : length (firstn (sl_len s) (array h s) ++ x) = sl_len s + length x).
      { rewrite app_length, firstn_length. lia. }
      rewrite X, Nat.sub_diag, <- X, firstn_all. cbn [firstn]. rewrite app_nil_r. reflexivity.
    + split; [rewrite update_length; auto|]. intros i Li.
      destruct (Nat.eq_dec (sl_arr s) i) as [<-|Ne].
      * rewrite Ra. split; [unfold array in A2; congruence|]. intros n [Ln|[Hn|Hn]]; [|congruence|lia].
        unfold a. rewrite firstn_app, firstn_firstn, firstn_length.
        replace (n - min (sl_len s) (length (array h s))) with 0 by lia.
        cbn [firstn]. rewrite app_nil_r. replace (min n (sl_len s)) with n by lia. reflexivity.
      * rewrite update_other by auto. auto.
    + left. cbn. repeat split; lia.
  - apply Nat.leb_gt in E. cbv zeta.
    set (cap := max (sl_len s + length x) (grow (length h) (sl_cap s) (sl_len s + length x))).
    assert (Lr : length (gread h s) = sl_len s).
    { unfold gread. rewrite firstn_length. destruct A as [A|[A1 A2]]; lia. }
    assert (Rn : forall z, nth (length h) (h ++ [z]) [] = z).
    { intros z. rewrite app_nth2, Nat.sub_diag by lia. reflexivity. }
    split; [|split; [|split]].
    + split; cbn; [lia|]. right. rewrite app_length. cbn. split; [lia|].
      unfold array. cbn. rewrite Rn, !app_length, repeat_length, Lr. lia.
    + unfold gread at 1, array. cbn. rewrite Rn, app_assoc, firstn_app.
      assert (X : length (gread h s ++ x) = sl_len s + length x) by (rewrite app_length; lia).
      rewrite X, Nat.sub_diag, <- X, firstn_all. cbn [firstn]. rewrite app_nil_r. reflexivity.
    + split; [rewrite app_length; lia|]. intros i Li. rewrite app_nth1 by auto. auto.
    + right. cbn. lia.
Qed.

Lemma kept_refl h s : kept h s h.
Proof. split; auto. Qed.

Lemma kept_trans h s h1 s1 h2 : kept h s h1 -> after h s s1 -> kept h1 s1 h2 -> kept h s h2.
Proof.
  intros [L1 K1] A [L2 K2]. split; [lia|]. intros i Li.
  destruct (K1 i Li) as [E1 F1]. destruct (K2 i ltac:(lia)) as [E2 F2]. split; [congruence|].
  intros n H. rewrite F2; [auto|]. destruct A as [(A1 & A2 & A3)|A]; [|right; left; lia].
  destruct H as [H|[H|H]]; [left; lia|right; left; congruence|right; right; congruence].
Qed.

Lemma after_trans h s h1 s1 s2 : length h <= length h1 -> after h s s1 -> after h1 s1 s2 -> after h s s2.
Proof.
  intros L [(A1 & A2 & A3)|A] [(B1 & B2 & B3)|B']; unfold after.
  - left. repeat split; congruence || lia.
  - right. lia.
  - right. lia.
  - right. lia.
Qed.

Theorem appends_ok xs : forall h s, wf h s ->
  let (h', s') := gappends (h, s) xs in
  wf h' s' /\ gread h' s' = gread h s ++ concat xs /\ kept h s h' /\ after h s s'.
Proof.
  induction xs as [|x xs IH]; intros h s W.
  - cbn. split; auto. split; [rewrite app_nil_r; reflexivity|]. split; [apply kept_refl|]. left. auto.
  - unfold gappends. cbn [fold_left fst snd concat]. pose proof (append_ok h s x W) as H.
    destruct (gappend h s x) as [h1 s1]. destruct H as (W1 & R1 & K1 & A1).
    specialize (IH h1 s1 W1). unfold gappends in IH. destruct (fold_left _ xs (h1, s1)) as [h2 s2].
    destruct IH as (W2 & R2 & K2 & A2). split; auto. split; [rewrite R2, R1, app_assoc; reflexivity|].
    split; [exact (kept_trans h s h1 s1 h2 K1 A1 K2)|]. exact (after_trans h s h1 s1 s2 (proj1 K1) A1 A2).
Qed.

Lemma make_ok h cap : let (h', s) := gmake h cap in
  wf h' s /\ gread h' s = [] /\ sl_len s = 0 /\ sl_arr s = length h /\ sl_cap s = cap /\
  length h <= length h' /\ forall i, i < length h -> nth i h' [] = nth i h [].
Proof.
  cbn. assert (Rn : nth (length h) (h ++ [repeat zero cap]) [] = repeat zero cap).
  { rewrite app_nth2, Nat.sub_diag by lia. reflexivity. }
  repeat split; cbn; auto; try lia.
  - right. rewrite app_length. cbn. split; [lia|]. unfold array. cbn. rewrite Rn, repeat_length. reflexivity.
  - rewrite app_length. lia.
  - intros i L. apply app_nth1. exact L.
Qed.

(** ** Slices that are extended at most once

    Ghost entries: a slice, its intended contents, and whether it has been
    extended. *)
Record entry : Type := { e_slice : gslice; e_value : list T; e_used : bool }.

(** Nobody else may rely on the cells after an unused non-empty entry. *)
Definition owned (h : heap) (es : list entry) : Prop :=
  (forall e, In e es -> wf h (e_slice e) /\ gread h (e_slice e) = e_value e) /\
  (forall i j ei ej, nth_error es i = Some ei -> nth_error es j = Some ej -> i <> j ->
     e_used ei = false -> sl_len (e_slice ei) > 0 -> sl_len (e_slice ej) > 0 ->
     sl_arr (e_slice ej) = sl_arr (e_slice ei) ->
     e_used ej = true /\ sl_len (e_slice ej) <= sl_len (e_slice ei)).

Fixpoint use (es : list entry) (i : nat) : list entry :=
  match es, i with
  | [], _ => []
  | e :: es', O => {| e_slice := e_slice e; e_value := e_value e; e_used := true |} :: es'
  | e :: es', S i' => e :: use es' i'
  end.

Lemma use_length es : forall i, length (use es i) = length es.
Proof. induction es as [|e es IH]; intros [|i]; cbn; auto. Qed.

Lemma use_nth es : forall i k, nth_error (use es i) k =
  match nth_error es k with
  | Some e => Some (if Nat.eqb i k then {| e_slice := e_slice e; e_value := e_value e; e_used := true |} else e)
  | None => None
  end.
Proof.
  induction es as [|e es IH]; intros [|i] [|k]; cbn; auto.
  destruct (nth_error es k); reflexivity.
Qed.

Lemma owned_kept h es s h' :
  owned h es -> kept h s h' ->
  (forall e, In e es -> sl_len (e_slice e) > 0 -> sl_arr (e_slice e) = sl_arr s ->
     sl_len (e_slice e) <= sl_len s \/ sl_cap s = 0) ->
  forall e, In e es -> wf h' (e_slice e) /\ gread h' (e_slice e) = e_value e.
Proof.
  intros [O1 _] [L K] Hs e I. destruct (O1 e I) as [[W1 W2] R].
  destruct (sl_cap (e_slice e)) as [|c] eqn:Ec.
  { assert (Z : sl_len (e_slice e) = 0) by lia. split.
    - split; [lia|left; auto].
    - rewrite <- R. unfold gread. rewrite Z. reflexivity. }
  destruct W2 as [W2|[W2 W3]]; [lia|]. destruct (K _ W2) as [K1 K2]. split.
  - split; [lia|]. right. split; [lia|]. unfold array in *. congruence.
  - rewrite <- R. unfold gread, array. apply K2.
    destruct (sl_len (e_slice e)) as [|n] eqn:En; [left; lia|].
    destruct (Nat.eq_dec (sl_arr (e_slice e)) (sl_arr s)) as [E|E]; [|right; left; exact E].
    destruct (Hs e I ltac:(lia) E); [left; lia|right; right; auto].
Qed.

(** Extending an unused entry. *)
Theorem owned_extend h es i e xs :
  owned h es -> nth_error es i = Some e -> e_used e = false -> sl_len (e_slice e) > 0 ->
  let (h', s') := gappends (h, e_slice e) xs in
  owned h' (use es i ++ [{| e_slice := s'; e_value := e_value e ++ concat xs; e_used := false |}]).
Proof.
  intros O N U P. pose proof (nth_error_In _ _ N) as I. destruct (proj1 O e I) as [W R].
  pose proof (appends_ok xs h (e_slice e) W) as A. destruct (gappends (h, e_slice e) xs) as [h' s'].
  destruct A as (W' & R' & K & A).
  assert (Hs : forall e0, In e0 es -> sl_len (e_slice e0) > 0 -> sl_arr (e_slice e0) = sl_arr (e_slice e) ->
    sl_len (e_slice e0) <= sl_len (e_slice e)).
  { intros e0 I0 P0 E0. apply In_nth_error in I0 as (j & Nj). destruct (Nat.eq_dec j i) as [->|Ne]; [assert (e0 = e) by congruence; subst; auto|].
    destruct (proj2 O i j e e0 N Nj ltac:(auto) U P P0 E0) as [_ L]. exact L. }
  pose proof (owned_kept h es (e_slice e) h' O K (fun e0 a b c => or_introl (Hs e0 a b c))) as V. split.
  - intros e0 I0. apply in_app_or in I0 as [I0|[<-|[]]].
    + apply In_nth_error in I0 as (j & Nj). rewrite use_nth in Nj.
      destruct (nth_error es j) as [e1|] eqn:E1; [|discriminate]. apply nth_error_In in E1. specialize (V e1 E1).
      destruct (Nat.eqb i j); injection Nj as <-; exact V.
    + cbn. split; auto. rewrite R', R. reflexivity.
  - assert (New : forall j ej, nth_error es j = Some ej -> sl_len (e_slice ej) > 0 -> sl_arr (e_slice ej) = sl_arr s' ->
      e_used (if Nat.eqb i j then {| e_slice := e_slice ej; e_value := e_value ej; e_used := true |} else ej) = true /\
      sl_len (e_slice ej) <= sl_len s').
    { intros j ej Nj Pj Ej. destruct A as [(A1 & A2 & _)|A].
      - destruct (Nat.eqb_spec i j) as [<-|Ne].
        + split; [reflexivity|]. assert (ej = e) by congruence. subst. exact A2.
        + destruct (proj2 O i j e ej N Nj Ne U P Pj ltac:(congruence)) as [Uj Lj]. split; auto. lia.
      - destruct (proj1 O ej (nth_error_In _ _ Nj)) as [[Q1 Q2] _]. destruct Q2 as [Q2|[Q2 _]]; lia. }
    assert (Len : length (use es i) = length es) by apply use_length.
    intros j k ej ek Nj Nk Ne Uj Pj Pk E.
    destruct (Nat.lt_trichotomy j (length es)) as [Lj|[Lj|Lj]].
    2: { (* j is the new entry *)
         rewrite nth_error_app2 in Nj by lia. rewrite Lj, Len, Nat.sub_diag in Nj. injection Nj as <-. cbn in *.
         assert (Lk : k < length es).
         { assert (k < length (use es i ++ [{| e_slice := s'; e_value := e_value e ++ concat xs; e_used := false |}]))
             by (apply nth_error_Some; congruence).
           rewrite app_length in H. cbn in H. lia. }
         rewrite nth_error_app1 in Nk by lia. rewrite use_nth in Nk.
         destruct (nth_error es k) as [e1|] eqn:E1; [|discriminate].
         assert (Q := New k e1 E1). destruct (Nat.eqb i k); injection Nk as <-; cbn in *; auto. }
    2: { exfalso. assert (j < length (use es i ++ [{| e_slice := s'; e_value := e_value e ++ concat xs; e_used := false |}]))
           by (apply nth_error_Some; congruence). rewrite app_length in H. cbn in H. lia. }
    rewrite nth_error_app1 in Nj by lia. rewrite use_nth in Nj.
    destruct (nth_error es j) as [e1|] eqn:E1; [|discriminate].
    destruct (Nat.eqb_spec i j) as [Eij|Nij]; [injection Nj as <-; discriminate|]. injection Nj as <-.
    destruct (Nat.lt_trichotomy k (length es)) as [Lk|[Lk|Lk]].
    + rewrite nth_error_app1 in Nk by lia. rewrite use_nth in Nk.
      destruct (nth_error es k) as [e2|] eqn:E2; [|discriminate].
      destruct (Nat.eqb_spec i k) as [Eik|Nik]; injection Nk as <-; cbn in *.
      * destruct (proj2 O j k e1 e2 E1 E2 Ne Uj Pj Pk E) as [_ L]. auto.
      * exact (proj2 O j k e1 e2 E1 E2 Ne Uj Pj Pk E).
    + rewrite nth_error_app2 in Nk by lia. rewrite Lk, Len, Nat.sub_diag in Nk. injection Nk as <-. cbn in *.
      (* the new slice cannot be in the array of another unused entry *)
      exfalso. destruct A as [(A1 & A2 & _)|A].
      * destruct (proj2 O j i e1 e E1 N ltac:(auto) Uj Pj P ltac:(congruence)) as [Ue _]. congruence.
      * destruct (proj1 O e1 (nth_error_In _ _ E1)) as [[Q1 Q2] _]. destruct Q2 as [Q2|[Q2 _]]; lia.
    + exfalso. assert (k < length (use es i ++ [{| e_slice := s'; e_value := e_value e ++ concat xs; e_used := false |}]))
        by (apply nth_error_Some; congruence). rewrite app_length in H. cbn in H. lia.
Qed.

(** Starting afresh: from a slice with no elements in an array of its own, or
    without capacity. *)
Theorem owned_fresh h es s xs :
  owned h es -> wf h s -> sl_len s = 0 ->
  sl_cap s = 0 \/ (forall e, In e es -> sl_len (e_slice e) > 0 -> sl_arr (e_slice e) <> sl_arr s) ->
  let (h', s') := gappends (h, s) xs in
  owned h' (es ++ [{| e_slice := s'; e_value := concat xs; e_used := false |}]).
Proof.
  intros O W Z F.
  pose proof (appends_ok xs h s W) as A. destruct (gappends (h, s) xs) as [h' s'].
  destruct A as (W' & R' & K & A).
  assert (V : forall e, In e es -> wf h' (e_slice e) /\ gread h' (e_slice e) = e_value e).
  { apply (owned_kept h es s h' O K). intros e I P E. destruct F as [F|F]; [right; exact F|].
    exfalso. exact (F e I P E). }
  assert (Sep : forall e, In e es -> sl_len (e_slice e) > 0 -> sl_len s' > 0 -> sl_arr (e_slice e) <> sl_arr s').
  { intros e I P P' E. destruct A as [(A1 & A2 & A3)|A].
    - destruct F as [F|F]; [destruct W'; lia|]. apply (F e I P). congruence.
    - destruct (proj1 O e I) as [[Q1 Q2] _]. destruct Q2 as [Q2|[Q2 _]]; lia. }
  split.
  - intros e0 I0. apply in_app_or in I0 as [I0|[<-|[]]]; [auto|]. cbn. split; auto.
    rewrite R'. unfold gread. rewrite Z. reflexivity.
  - intros j k ej ek Nj Nk Ne Uj Pj Pk E.
    destruct (Nat.lt_ge_cases j (length es)) as [Lj|Lj].
    + rewrite nth_error_app1 in Nj by lia. destruct (Nat.lt_ge_cases k (length es)) as [Lk|Lk].
      * rewrite nth_error_app1 in Nk by lia. exact (proj2 O j k ej ek Nj Nk Ne Uj Pj Pk E).
      * rewrite nth_error_app2 in Nk by lia. destruct (k - length es) as [|m]; [|destruct m; discriminate].
        injection Nk as <-. cbn in *. exfalso. eapply Sep; eauto using nth_error_In.
    + rewrite nth_error_app2 in Nj by lia. destruct (j - length es) as [|m] eqn:Ej; [|destruct m; discriminate].
      injection Nj as <-. cbn in *.
      destruct (Nat.lt_ge_cases k (length es)) as [Lk|Lk].
      * rewrite nth_error_app1 in Nk by lia. exfalso. eapply Sep; eauto using nth_error_In.
      * rewrite nth_error_app2 in Nk by lia. destruct (k - length es) as [|m] eqn:Ek; [lia|destruct m; discriminate].
Qed.

Lemma owned_nil h : owned h [].
Proof. split; [intros e []|]. intros [|i] j ei ej H; discriminate. Qed.

(** Allocating does not disturb. *)
Lemma owned_make h es cap : owned h es -> owned (fst (gmake h cap)) es.
Proof.
  intros O. pose proof (make_ok h cap) as M. destruct (gmake h cap) as [h' s]. cbn.
  destruct M as (_ & _ & _ & _ & _ & L & K). split; [|apply O].
  intros e I. destruct (proj1 O e I) as [[W1 W2] R].
  destruct W2 as [W2|[W2 W3]].
  - split; [split; auto|]. rewrite <- R. unfold gread. replace (sl_len (e_slice e)) with 0 by lia. reflexivity.
  - unfold gread, array, wf in *. unfold array in *. rewrite K by auto. split; [|exact R]. split; auto. right. split; auto. lia.
Qed.

End Heap.

Arguments array {T} _ _.
Arguments gread {T} _ _.
Arguments gmake {T} _ _ _.
Arguments gappend {T} _ _ _ _ _.
Arguments gappends {T} _ _ _ _.
Arguments wf {T} _ _.
Arguments owned {T} _ _.
Arguments use {T} _ _.
Arguments e_slice {T} _.
Arguments e_value {T} _.
Arguments e_used {T} _.
Arguments kept {T} _ _ _.
Arguments after {T} _ _ _.
