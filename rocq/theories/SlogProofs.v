(** Lemmas about slog values and their meaning. *)

From Coq Require Import Ascii String List ZArith NArith Bool Lia.
From Verif Require Import Bytes BytesProofs Json Slog SpecLog.
Import ListNotations.

(** Induction over values with the members of groups. *)
Lemma value_rect' (P : value -> Prop) :
  (forall a, P (VAny a)) -> (forall b, P (VBool b)) -> (forall d, P (VDuration d)) ->
  (forall f, P (VFloat64 f)) -> (forall i, P (VInt64 i)) -> (forall s, P (VString s)) ->
  (forall t, P (VTime t)) -> (forall u, P (VUint64 u)) ->
  (forall l, Forall (fun a => P (snd a)) l -> P (VGroup l)) ->
  (forall v o, P v -> P (VLogValuer v o)) ->
  forall v, P v.
Proof.
  intros H1 H2 H3 H4 H5 H6 H7 H8 HG HL. fix IH 1. intros v. destruct v.
  - apply H1. - apply H2. - apply H3. - apply H4. - apply H5. - apply H6. - apply H7. - apply H8.
  - apply HG. induction l as [|[k w] l IHl]; constructor; [apply IH|exact IHl].
  - apply HL. apply IH.
Qed.

Lemma empty_group_cons a l : empty_group (a :: l) =
  if is_empty a then empty_group l else empty_value (snd a) && empty_group l.
Proof.
  unfold empty_group. destruct a as [k w]. cbn [snd].
  change (empty_value (VGroup ((k, w) :: l))) with
    (if is_empty (k, w) then empty_value (VGroup l)
     else match w with VGroup _ => if empty_value w then empty_value (VGroup l) else false | _ => false end).
  destruct (is_empty (k, w)); auto. destruct w; reflexivity.
Qed.

Section Meaning.
Variable any_json : any_obs -> option json.
Variable time_json : gotime -> option json.
Variable text_json : bytes -> option json.
Variable resolved_json : value -> option json.

Notation mean := (meaning any_json time_json text_json resolved_json).
Notation means := (meanings any_json time_json text_json resolved_json).

Lemma meaning_group k l : mean k (VGroup l) =
  match k with
  | [] => means l
  | _ :: _ => match means l with
              | Some [] => if empty_group l then Some [] else None
              | Some fs => one text_json k (Some (JObj fs))
              | None => None
              end
  end.
Proof.
  assert (E : (fix go (l : list (bytes * value)) : option fields :=
           match l with
           | [] => Some []
           | (k', v') :: l' =>
               match mean k' v', go l' with
               | Some a, Some b => Some (a ++ b)
               | _, _ => None
               end
           end) l = means l).
  { induction l as [|[k' v'] l IH]; [reflexivity|]. cbn [meanings fst snd]. rewrite <- IH. reflexivity. }
  rewrite <- E. reflexivity.
Qed.

Lemma means_cons a l fs : means (a :: l) = Some fs ->
  exists f1 f2, mean (fst a) (snd a) = Some f1 /\ means l = Some f2 /\ fs = f1 ++ f2.
Proof.
  cbn [meanings]. destruct (mean _ _) as [f1|]; [|discriminate].
  destruct (means l) as [f2|]; [|discriminate]. intros [= <-]. eauto.
Qed.

Lemma means_app l1 l2 : means (l1 ++ l2) =
  match means l1, means l2 with Some a, Some b => Some (a ++ b) | _, _ => None end.
Proof.
  induction l1 as [|a l1 IH]; cbn [app meanings].
  - destruct (means l2); reflexivity.
  - rewrite IH. destruct (mean _ _), (means l1), (means l2); try reflexivity. rewrite app_assoc. reflexivity.
Qed.

(** An empty tree means nothing. *)
Lemma empty_means l : empty_group l = true -> means l = Some [].
Proof.
  assert (G : forall v, empty_value v = true -> forall k, mean k v = Some []).
  { apply (value_rect' (fun v => empty_value v = true -> forall k, mean k v = Some []));
      try (intros; discriminate).
    intros l0 F E k. rewrite meaning_group. change (empty_group l0 = true) in E.
    assert (M : means l0 = Some []).
    { revert E. clear k. induction F as [|a l' Ha F IH]; [reflexivity|]; intros E; cbn beta in Ha.
      rewrite empty_group_cons in E.
      destruct (is_empty a) eqn:Em.
      - cbn [meanings]. rewrite IH by auto. destruct a as [[|? ?] [[|]| | | | | | | | |]]; try discriminate. reflexivity.
      - apply andb_prop in E as [E1 E2]. cbn [meanings]. rewrite Ha, IH by auto. reflexivity. }
    rewrite M, E. destruct k; reflexivity. }
  intros E. specialize (G (VGroup l) E []). rewrite meaning_group in G. exact G.
Qed.

Lemma all_empty_means l : forallb is_empty l = true -> means l = Some [].
Proof.
  induction l as [|a l IH]; [reflexivity|]. cbn [forallb]. intros H. apply andb_prop in H as [H1 H2].
  cbn [meanings]. rewrite IH by auto.
  destruct a as [[|? ?] [[|]| | | | | | | | |]]; try discriminate. reflexivity.
Qed.

(** The functional meaning is an instance of the relation. *)
Variable view : list bytes -> attr -> shown.
Variable gs0 : list bytes.
Hypothesis text_ok : forall k j, text_json k = Some j -> j = JStr k.
Hypothesis view_group : forall gs k l, view gs (k, VGroup l) = Node k l.
Hypothesis view_lv : forall gs k v o j,
  (is_empty (k, resolve (VLogValuer v o)) = true -> view gs (k, VLogValuer v o) = Gone) /\
  (is_empty (k, resolve (VLogValuer v o)) = false -> resolved_json (resolve (VLogValuer v o)) = Some j ->
   view gs (k, VLogValuer v o) = Leaf k (Some j)).
Hypothesis view_leaf : forall gs k v, (forall l, v <> VGroup l) -> (forall w o, v <> VLogValuer w o) ->
  view gs (k, v) = if is_empty (k, v) then Gone else Leaf k (leaf any_json time_json text_json v).

Lemma one_some k j fs : one text_json k j = Some fs ->
  exists j', j = Some j' /\ fs = [(k, j')] /\ text_json k = Some (JStr k).
Proof.
  unfold one. destruct (text_json k) as [t|] eqn:T; [|discriminate]. destruct j as [j|]; [|discriminate].
  intros [= <-]. exists j. repeat split. f_equal. apply text_ok; auto.
Qed.

Lemma meaning_den may gs v : forall k fs, mean k v = Some fs -> den view text_json may gs (k, v) fs.
Proof.
  revert v.
  assert (Lf : forall v k fs, (forall l, v <> VGroup l) -> (forall w o, v <> VLogValuer w o) ->
    (if is_empty (k, v) then Some [] else one text_json k (leaf any_json time_json text_json v)) = Some fs ->
    den view text_json may gs (k, v) fs).
  { intros v k fs N1 N2 H. destruct (is_empty (k, v)) eqn:E.
    - injection H as <-. apply den_gone. rewrite view_leaf, E; auto.
    - apply one_some in H as (j & Hj & -> & T). apply den_leaf; auto.
      rewrite view_leaf, E, Hj; auto. }
  apply (value_rect' (fun v => forall k fs, mean k v = Some fs -> den view text_json may gs (k, v) fs));
    try (intros; apply Lf; [intros; discriminate|intros; discriminate|assumption]).
  - intros l F k fs H. rewrite meaning_group in H.
    assert (D : forall fs, means l = Some fs -> dens view text_json may gs l fs).
    { clear - F. induction F as [|a l Ha F IH]; intros fs H.
      - injection H as <-. constructor.
      - apply means_cons in H as (f1 & f2 & H1 & H2 & ->). constructor; auto.
        destruct a as [k v]. apply Ha. exact H1. }
    destruct (empty_group l) eqn:E.
    + rewrite (empty_means l E) in H. assert (fs = []) as -> by (destruct k; congruence).
      apply den_empty with (k := k) (l := l); auto.
    + destruct k as [|c k].
      * apply den_inline with (l := l); auto.
      * destruct (means l) as [[|f fs']|] eqn:M; try discriminate.
        apply one_some in H as (j & [= <-] & -> & T).
        apply den_group with (l := l); auto; discriminate.
  - intros v o _ k fs H. cbn [meaning] in H.
    destruct (is_empty (k, resolve (VLogValuer v o))) eqn:E.
    + injection H as <-. apply den_gone, (view_lv gs k v o JNull), E.
    + apply one_some in H as (j & Hj & -> & T). apply den_leaf; auto. apply view_lv; auto.
Qed.

Lemma meanings_dens may gs l : forall fs, means l = Some fs -> dens view text_json may gs l fs.
Proof.
  induction l as [|[k v] l IH]; intros fs H.
  - injection H as <-. constructor.
  - apply means_cons in H as (f1 & f2 & H1 & H2 & ->). constructor; auto. apply meaning_den; auto.
Qed.

Lemma nest_logged may ops attrs : forall gs fs, nest means ops attrs = Some fs ->
  exists gs', logged view text_json may attrs gs ops gs' fs.
Proof.
  induction ops as [|[l|[|c name]] ops IH]; intros gs fs H; cbn [nest] in H.
  - exists gs. constructor. apply meanings_dens; auto.
  - destruct (means l) as [f1|] eqn:E1; [|discriminate].
    destruct (nest means ops attrs) as [f2|] eqn:E2; [|discriminate]. injection H as <-.
    destruct (IH gs f2 eq_refl) as (gs' & L). exists gs'. constructor; auto. apply meanings_dens; auto.
  - destruct (IH gs fs H) as (gs' & L). exists gs'. constructor; auto.
  - destruct (plain (c :: name)) eqn:P; [|discriminate]. cbn [negb] in H.
    destruct (untouched attrs ops) eqn:U.
    + injection H as <-. exists gs. apply lg_elided; [discriminate|auto|].
      apply meanings_dens, all_empty_means. apply andb_prop in U as [U _]. exact U.
    + destruct (nest means ops attrs) as [b|] eqn:E; [|discriminate]. injection H as <-.
      destruct (IH (gs ++ [c :: name]) b eq_refl) as (gs' & L). exists gs'.
      apply lg_group; auto. discriminate.
Qed.

End Meaning.
