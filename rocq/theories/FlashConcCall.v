(** The appends of a Handle call, put together, are the line that Handle writes. *)

From Coq Require Import Ascii String List ZArith NArith Bool Arith Lia.
From Verif Require Import Bytes Slog Flash Slices FlashHeap FlashHom FlashConc FlashConcLog.
Import ListNotations.

Lemma gcompose_happ std n h r : gcompose _ happ std n h r [] = compose std n h r.
Proof. reflexivity. Qed.

Section Hom.
Variables (B1 B2 : Type) (app1 : B1 -> bytes -> B1) (app2 : B2 -> bytes -> B2) (phi : B1 -> B2).
Hypothesis phi_app : forall b x, phi (app1 b x) = app2 (phi b) x.
Variable std : stdlib.

Local Notation cm := (cmap B1 B2 phi).
Local Notation rm := (rmap B1 B2 phi).

Lemma gandthen_map m1 k1 m2 k2 :
  m2 = option_map rm m1 -> (forall c, k2 (cm c) = option_map rm (k1 c)) ->
  gandthen B2 m2 k2 = option_map rm (gandthen B1 m1 k1).
Proof. intros -> K. destruct m1 as [[c [|]]|]; cbn; auto. Qed.

Lemma gbasic_map n c d1 d2 a :
  (forall c, d2 (cm c) = rm (d1 c)) ->
  gbasic_attr B2 app2 std n (cm c) d2 a = option_map rm (gbasic_attr B1 app1 std n c d1 a).
Proof.
  intros D. unfold gbasic_attr. change (c_replace (cm c)) with (c_replace c). destruct (c_replace c).
  - apply add_attribute_map. exact phi_app.
  - cbn. rewrite (add_separator_map _ _ _ _ _ phi_app), (add_key_map _ _ _ _ _ phi_app), D. reflexivity.
Qed.

Theorem gcompose_map n h r b :
  gcompose B2 app2 std n h r (phi b) = option_map rm (gcompose B1 app1 std n h r b).
Proof.
  unfold gcompose.
  change (new_composer (phi b) false (o_replace (h_options h)) (h_groups h) (h_extras h))
    with (cm (new_composer b false (o_replace (h_options h)) (h_groups h) (h_extras h))).
  rewrite (add_bytes_map _ _ _ _ _ phi_app).
  apply gandthen_map; [|intros c1].
  { unfold ghandle_time. destruct (t_zero (r_time r)); [reflexivity|].
    apply gbasic_map. intros c. unfold rmap. cbn. rewrite (add_time_map _ _ _ _ _ phi_app). reflexivity. }
  apply gandthen_map; [|intros c2].
  { apply gbasic_map. intros c. unfold rmap. cbn. rewrite (add_string_map _ _ _ _ _ phi_app). reflexivity. }
  apply gandthen_map; [|intros c3].
  { apply gbasic_map. intros c. unfold rmap. cbn. rewrite (add_string_map _ _ _ _ _ phi_app). reflexivity. }
  apply gandthen_map; [|intros c4].
  { unfold ghandle_source. destruct (o_add_source (h_options h)); [|reflexivity]. destruct (r_source r); [|reflexivity].
    apply gbasic_map. intros c. apply (add_any_map _ _ _ _ _ phi_app). }
  assert (P : ghandle_prefix B2 app2 h (cm c4) = cm (ghandle_prefix B1 app1 h c4)).
  { unfold ghandle_prefix. destruct (h_prefix h); [reflexivity|].
    rewrite (add_separator_map _ _ _ _ _ phi_app), (add_bytes_map _ _ _ _ _ phi_app).
    destruct (ends_with _ _); reflexivity. }
  cbv zeta. rewrite P. apply gandthen_map; [|intros c5].
  { apply (add_attributes_map _ _ _ _ _ phi_app). }
  destruct (h_suffix h); cbn; rewrite ?(add_bytes_map _ _ _ _ _ phi_app); reflexivity.
Qed.

End Hom.

Section Lines.
Variable std : stdlib.

Lemma chunks_line n h r :
  compose std n h r =
  option_map (rmap (list bytes) bytes (@concat ascii)) (gcompose _ lapp std n h r []).
Proof.
  rewrite <- gcompose_happ.
  rewrite <- (gcompose_map _ _ lapp happ (@concat ascii)); [reflexivity|].
  intros l x. unfold lapp, happ. apply concat_snoc.
Qed.

(** A call writes what Handle does. *)
Lemma call_of_handle n q h r :
  handle std n h r =
  match call_of std n q h r with
  | None => None
  | Some c => Some (if k_ok c then Done [line c] true else Done [] false)
  end.
Proof.
  unfold handle, call_of. rewrite chunks_line.
  change (fun (l : list bytes) (x : bytes) => l ++ [x]) with lapp.
  destruct (gcompose _ lapp std n h r []) as [[c [|]]|]; reflexivity.
Qed.

Theorem call_hdl_handle n q r : forall g d ws ok,
  handle_hdl std n d g r = Some (Done ws ok) <->
  exists c, call_hdl std n q d g r = Some c /\ ok = k_ok c /\ ws = if k_ok c then [line c] else [].
Proof.
  assert (Base : forall h ws ok, handle std n h r = Some (Done ws ok) <->
    exists c, call_of std n q h r = Some c /\ ok = k_ok c /\ ws = if k_ok c then [line c] else []).
  { intros h ws ok. rewrite (call_of_handle n q). destruct (call_of std n q h r) as [c|].
    - split.
      + intros E. exists c. split; auto. destruct (k_ok c); injection E as <- <-; auto.
      + intros (c' & E & -> & ->). injection E as <-. destruct (k_ok c); reflexivity.
    - split; [discriminate|]. intros (c & E & _). discriminate. }
  induction g as [h|h name parent IH]; intros d ws ok; cbn [handle_hdl call_hdl]; [apply Base|].
  destruct d as [|s|].
  - destruct (first_attr (r_attrs r)) as [[k v]|]; [|apply IH]. cbn. apply Base.
  - destruct (first_attr (r_attrs r)) as [[k v]|]; [|apply IH].
    destruct (negb (beq s []) && beq k s && _); [apply IH|apply Base].
  - split; [discriminate|]. intros (c & E & _). discriminate.
Qed.

Lemma call_hdl_sink n q r : forall g d c, call_hdl std n q d g r = Some c -> k_sink c = q.
Proof.
  assert (Base : forall h c, call_of std n q h r = Some c -> k_sink c = q).
  { intros h c. unfold call_of. destruct (gcompose _ _ _ _ _ _ _) as [[c' ok]|]; [|discriminate]. intros E. injection E as <-. reflexivity. }
  induction g as [h|h name parent IH]; intros d c; cbn [call_hdl]; [apply Base|].
  destruct d as [|s|].
  - destruct (first_attr (r_attrs r)) as [[k v]|]; [|apply IH]. cbn. apply Base.
  - destruct (first_attr (r_attrs r)) as [[k v]|]; [|apply IH].
    destruct (negb (beq s []) && beq k s && _); [apply IH|apply Base].
  - discriminate.
Qed.

End Lines.
