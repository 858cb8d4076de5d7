(** Facts about histories and about slices of equal elements. *)

From Coq Require Import Ascii String List ZArith NArith Bool Arith Lia.
From Verif Require Import Bytes Slog Flash History Slices.
Import ListNotations.

Lemma paths_snoc es e : paths (es ++ [e]) = add_path (paths es) e.
Proof. unfold paths. rewrite fold_left_app. reflexivity. Qed.

Lemma origins_snoc es e : origins (es ++ [e]) = add_origin (origins es) e.
Proof. unfold origins. rewrite fold_left_app. reflexivity. Qed.

Lemma derivations_snoc i es e :
  derivations i (es ++ [e]) = derivations i es + (if is_from i e then 1 else 0).
Proof. unfold derivations. rewrite filter_app, app_length. cbn. destruct (is_from i e); reflexivity. Qed.

Lemma origins_length es : length (origins es) = length (paths es).
Proof.
  induction es as [|e es IH] using rev_ind; [reflexivity|]. rewrite paths_snoc, origins_snoc.
  destruct e as [o x|i o]; cbn.
  - rewrite !app_length. cbn. lia.
  - destruct (nth_error (origins es) i) eqn:E1, (nth_error (paths es) i) eqn:E2;
      rewrite ?app_length; cbn; auto; exfalso.
    + apply nth_error_None in E2. assert (i < length (origins es)) by (apply nth_error_Some; congruence). lia.
    + apply nth_error_None in E1. assert (i < length (paths es)) by (apply nth_error_Some; congruence). lia.
Qed.

(** Later events do not change the paths of earlier handlers. *)
Lemma paths_kept es es' i p : nth_error (paths es) i = Some p -> nth_error (paths (es ++ es')) i = Some p.
Proof.
  intros H. induction es' as [|e es' IH] using rev_ind; [rewrite app_nil_r; exact H|].
  rewrite app_assoc, paths_snoc. destruct e as [o x|j o]; cbn.
  - rewrite nth_error_app1; auto. apply nth_error_Some. congruence.
  - destruct (nth_error (paths (es ++ es')) j); auto. rewrite nth_error_app1; auto. apply nth_error_Some. congruence.
Qed.

Lemma nth_snoc {A} (l : list A) x i y : nth_error (l ++ [x]) i = Some y ->
  nth_error l i = Some y \/ i = length l /\ y = x.
Proof.
  destruct (Nat.lt_ge_cases i (length l)) as [L|L].
  - rewrite nth_error_app1 by auto. auto.
  - rewrite nth_error_app2 by auto. destruct (i - length l) as [|k] eqn:E.
    + cbn. intros H. injection H as <-. right. split; [lia|reflexivity].
    + destruct k; discriminate.
Qed.

Lemma nth_last {A} (l : list A) x : nth_error (l ++ [x]) (length l) = Some x.
Proof. rewrite nth_error_app2, Nat.sub_diag by lia. reflexivity. Qed.

Lemma nth_old {A} (l : list A) x i y : nth_error l i = Some y -> nth_error (l ++ [x]) i = Some y.
Proof. intros H. rewrite nth_error_app1; auto. apply nth_error_Some. congruence. Qed.

(** ** Slices *)

Section Slices.
Variable T : Type.
Variable zero : T.
Variable grow : policy.

Lemma owned_use (h : heap T) es i : owned h es -> owned h (use es i).
Proof.
  intros [O1 O2]. split.
  - intros e I. apply In_nth_error in I as (j & N). rewrite use_nth in N.
    destruct (nth_error es j) as [e1|] eqn:E; [|discriminate]. apply nth_error_In in E.
    destruct (Nat.eqb i j); injection N as <-; apply (O1 e1 E).
  - intros j k ej ek Nj Nk Ne Uj Pj Pk E. rewrite use_nth in Nj, Nk.
    destruct (nth_error es j) as [e1|] eqn:E1; [|discriminate].
    destruct (nth_error es k) as [e2|] eqn:E2; [|discriminate].
    destruct (Nat.eqb i j); injection Nj as <-; [discriminate|].
    assert (Q : forall a b : entry T, e_slice a = e_slice b -> e_slice (if Nat.eqb i k then a else b) = e_slice b)
      by (intros; destruct (Nat.eqb i k); auto).
    injection Nk as <-.
    rewrite Q in * by reflexivity.
    destruct (O2 j k e1 e2 E1 E2 Ne Uj Pj Pk E) as [U L]. split; auto. destruct (Nat.eqb i k); auto.
Qed.

(** A further reference to a slice that promises not to extend it. *)
Lemma owned_copy (h : heap T) es i e : owned h es -> nth_error es i = Some e ->
  owned h (es ++ [{| e_slice := e_slice e; e_value := e_value e; e_used := true |}]).
Proof.
  intros [O1 O2] N. split.
  - intros e1 I. apply in_app_or in I as [I|[<-|[]]]; [apply (O1 e1 I)|]. apply (O1 e (nth_error_In _ _ N)).
  - intros j k ej ek Nj Nk Ne Uj Pj Pk E.
    apply nth_snoc in Nj as [Nj|[_ ->]]; [|discriminate].
    apply nth_snoc in Nk as [Nk|[-> ->]]; [exact (O2 j k ej ek Nj Nk Ne Uj Pj Pk E)|].
    cbn in *. split; [reflexivity|]. destruct (Nat.eq_dec j i) as [->|Nji].
    + assert (ej = e) by congruence. subst. lia.
    + exact (proj2 (O2 j i ej e Nj N Nji Uj Pj Pk E)).
Qed.

(** A slice without elements needs nothing. *)
Lemma owned_empty (h : heap T) es s u : owned h es -> wf h s -> sl_len s = 0 ->
  owned h (es ++ [{| e_slice := s; e_value := []; e_used := u |}]).
Proof.
  intros [O1 O2] W Z. split.
  - intros e1 I. apply in_app_or in I as [I|[<-|[]]]; [apply (O1 e1 I)|]. cbn. split; auto.
    unfold gread. rewrite Z. reflexivity.
  - intros j k ej ek Nj Nk Ne Uj Pj Pk E.
    apply nth_snoc in Nj as [Nj|[-> ->]]; [|cbn in Pj; lia].
    apply nth_snoc in Nk as [Nk|[-> ->]]; [|cbn in Pk; lia].
    exact (O2 j k ej ek Nj Nk Ne Uj Pj Pk E).
Qed.

(** Appending to a new array. *)
Lemma owned_make_extend (h : heap T) es cap xs : owned h es ->
  let (h', s') := gappends zero grow (gmake zero h cap) xs in
  owned h' (es ++ [{| e_slice := s'; e_value := concat xs; e_used := false |}]).
Proof.
  intros O. pose proof (owned_make T zero h es cap O) as O'. pose proof (make_ok T zero h cap) as M.
  destruct (gmake zero h cap) as [h1 s1]. cbn in O'. destruct M as (W & _ & Z & A & _).
  apply owned_fresh; auto. right. intros e I P E.
  destruct (proj1 O e I) as [[Q1 Q2] _]. destruct Q2 as [Q2|[Q2 _]]; lia.
Qed.

(** Appending to the nil slice. *)
Lemma owned_nil_extend (h : heap T) es xs : owned h es ->
  let (h', s') := gappends zero grow (h, nil_slice) xs in
  owned h' (es ++ [{| e_slice := s'; e_value := concat xs; e_used := false |}]).
Proof. intros O. apply owned_fresh; auto. apply wf_nil. Qed.

(** What the entries say is independent of the heap they are owned in. *)
Lemma owned_read (h : heap T) es i e : owned h es -> nth_error es i = Some e -> gread h (e_slice e) = e_value e.
Proof. intros [O _] N. exact (proj2 (O e (nth_error_In _ _ N))). Qed.

(** ** Slices of one repeated element *)

Variable c : T.

Definition all_c (h : heap T) (s : gslice) : Prop :=
  wf h s /\ gread h s = repeat c (sl_len s).

Lemma all_c_cells h s : wf h s ->
  (gread h s = repeat c (sl_len s) <-> forall j, j < sl_len s -> nth_error (array h s) j = Some c).
Proof.
  intros [L A]. assert (Le : sl_len s <= length (array h s)) by (destruct A as [A|[_ A]]; lia).
  unfold gread. split.
  - intros E j H. rewrite <- (firstn_skipn (sl_len s) (array h s)), E, nth_error_app1 by (rewrite repeat_length; auto).
    clear - H. revert j H. induction (sl_len s) as [|n IH]; intros [|j] H; cbn; try lia; auto. apply IH. lia.
  - clear L A. intros H. revert H Le. generalize (array h s). induction (sl_len s) as [|n IH]; intros l H Le; cbn; [reflexivity|].
    destruct l as [|x l]; cbn in Le; [lia|]. cbn. pose proof (H 0 ltac:(lia)) as H0. cbn in H0. injection H0 as ->.
    f_equal. apply IH; [|lia]. intros j Hj. exact (H (S j) ltac:(lia)).
Qed.

Lemma all_c_append h s t : all_c h s -> all_c h t -> all_c (fst (gappend zero grow h s [c])) t.
Proof.
  intros [Ws Es] [Wt Et]. pose proof (proj1 (all_c_cells h t Wt) Et) as Ct.
  pose proof (append_ok T zero grow h s [c] Ws) as A.
  destruct (gappend zero grow h s [c]) as [h' s'] eqn:G. cbn [fst]. destruct A as (W' & R' & [KL K] & _).
  assert (Wt' : wf h' t).
  { destruct Wt as [L A]. split; auto. destruct A as [A|[A1 A2]]; [left; auto|]. right. split; [lia|].
    unfold array in *. rewrite (proj1 (K _ A1)). exact A2. }
  split; auto. apply (all_c_cells h' t Wt'). intros j Hj.
  destruct Wt as [L A]. destruct A as [A|[A1 A2]]; [lia|].
  destruct (Nat.eq_dec (sl_arr t) (sl_arr s)) as [E|E].
  2: { (* another array *)
       specialize (Ct j Hj). unfold array in *. destruct (K _ A1) as [Kl Kf].
       specialize (Kf (S j) (or_intror (or_introl E))).
       rewrite <- (firstn_skipn (S j) (nth (sl_arr t) h' [])), Kf, nth_error_app1.
       - rewrite <- (firstn_skipn (S j) (nth (sl_arr t) h [])), nth_error_app1 in Ct; auto.
         rewrite firstn_length. lia.
       - rewrite firstn_length. lia. }
  unfold gappend in G. cbn [length] in G. destruct (Nat.leb_spec (sl_len s + 1) (sl_cap s)) as [Lc|Lc].
  - injection G as <- <-. unfold array at 1. rewrite E, update_same by (rewrite <- E; auto).
    destruct Ws as [Ls As]. destruct As as [As|[As1 As2]]; [lia|].
    specialize (Ct j Hj). unfold array in Ct. rewrite E in Ct. fold (array h s) in Ct.
    destruct (Nat.lt_trichotomy j (sl_len s)) as [H|[H|H]].
    + rewrite nth_error_app1 by (rewrite firstn_length; lia).
      rewrite <- (firstn_skipn (sl_len s) (array h s)), nth_error_app1 in Ct by (rewrite firstn_length; lia). exact Ct.
    + rewrite nth_error_app2 by (rewrite firstn_length; lia). rewrite firstn_length, Nat.min_l by lia.
      subst j. rewrite Nat.sub_diag. reflexivity.
    + rewrite nth_error_app2 by (rewrite firstn_length; lia). rewrite firstn_length, Nat.min_l by lia.
      destruct (j - sl_len s) as [|k] eqn:Ek; [lia|]. cbn [app nth_error].
      rewrite <- (firstn_skipn (sl_len s + 1) (array h s)), nth_error_app2 in Ct by (rewrite firstn_length; lia).
      rewrite firstn_length, Nat.min_l in Ct by lia. replace (j - (sl_len s + 1)) with k in Ct by lia. exact Ct.
  - injection G as <- <-. specialize (Ct j Hj). unfold array in *. rewrite app_nth1 by auto. exact Ct.
Qed.

Lemma all_c_result h s : all_c h s ->
  let (h', s') := gappend zero grow h s [c] in all_c h' s' /\ gread h' s' = gread h s ++ [c].
Proof.
  intros [W E]. pose proof (append_ok T zero grow h s [c] W) as A.
  assert (Ls : sl_len (snd (gappend zero grow h s [c])) = sl_len s + 1).
  { unfold gappend. cbn [length]. destruct (_ <=? _); reflexivity. }
  destruct (gappend zero grow h s [c]) as [h' s']. cbn in Ls. destruct A as (W' & R & _).
  split; [|exact R]. split; auto. rewrite R, E, Ls. clear. rewrite Nat.add_comm. cbn.
  induction (sl_len s) as [|n IH]; cbn; [reflexivity|]. rewrite IH. reflexivity.
Qed.

Lemma all_c_make h cap t : all_c h t -> all_c (fst (gmake zero h cap)) t.
Proof.
  intros [W E]. cbn. assert (A : sl_cap t = 0 \/ array (h ++ [repeat zero cap]) t = array h t).
  { destruct W as [_ [W|[W _]]]; [left; auto|right]. unfold array. apply app_nth1. exact W. }
  destruct W as [L W]. destruct W as [W|[W1 W2]].
  - split; [split; auto|]. unfold gread in *. replace (sl_len t) with 0 by lia. reflexivity.
  - destruct A as [A|A].
    + split; [split; auto|]. unfold gread in *. replace (sl_len t) with 0 by lia. reflexivity.
    + split.
      * split; auto. right. rewrite app_length, A. split; [lia|auto].
      * unfold gread in *. rewrite A. exact E.
Qed.

Lemma all_c_make_new h cap : all_c (fst (gmake zero h cap)) (snd (gmake zero h cap)).
Proof. pose proof (make_ok T zero h cap) as M. destruct (gmake zero h cap) as [h' s]. destruct M as (W & R & Z & _).
  split; auto. cbn. cbn in *. rewrite R, Z. reflexivity.
Qed.

End Slices.
