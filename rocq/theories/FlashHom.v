(** The flash composer treats its buffer abstractly: what it appends does not
    depend on how buffers are represented. *)

From Coq Require Import Ascii String List ZArith NArith Bool Arith.
From Verif Require Import Bytes Slog Flash Slices FlashHeap.
Import ListNotations.

Section Hom.
Variables (B1 B2 : Type) (app1 : B1 -> bytes -> B1) (app2 : B2 -> bytes -> B2) (phi : B1 -> B2).
Hypothesis phi_app : forall b x, phi (app1 b x) = app2 (phi b) x.
Variable std : stdlib.

Definition cmap (c : composer B1) : composer B2 :=
  new_composer (phi (c_buffer c)) (c_started c) (c_replace c) (c_groups c) (c_extras c).

Definition rmap (r : composer B1 * bool) : composer B2 * bool := (cmap (fst r), snd r).

Lemma flush_map b s i j : flush app2 (phi b) s i j = phi (flush app1 b s i j).
Proof. unfold flush. destruct (Nat.ltb i j); auto. Qed.

Lemma esc_loop_map s rest : forall idx beg uni more b,
  esc_loop app2 s rest idx beg uni more (phi b) =
  (phi (fst (esc_loop app1 s rest idx beg uni more b)), snd (esc_loop app1 s rest idx beg uni more b)).
Proof.
  induction rest as [|c rest IH]; intros; cbn [esc_loop]; [reflexivity|].
  destruct more as [|[|m]]; [|rewrite <- phi_app; apply IH|apply IH].
  repeat match goal with |- context [if ?x then _ else _] => destruct x end;
    rewrite ?flush_map, <- ?phi_app; apply IH.
Qed.

Lemma escape_map b s : escape_buf app2 (phi b) s = phi (escape_buf app1 b s).
Proof.
  unfold escape_buf. rewrite esc_loop_map. destruct (esc_loop app1 s s 0 0 [] 0 b) as [b' i]. cbn [fst snd].
  destruct (_ && _); auto.
Qed.

Lemma string_map b s : string_buf app2 (phi b) s = phi (string_buf app1 b s).
Proof. unfold string_buf. rewrite <- phi_app, escape_map, phi_app. reflexivity. Qed.

Lemma add_bytes_map c x : add_bytes app2 (cmap c) x = cmap (add_bytes app1 c x).
Proof. unfold add_bytes, cmap, with_buffer. cbn. rewrite phi_app. reflexivity. Qed.

Lemma add_string_map c x : add_string app2 (cmap c) x = cmap (add_string app1 c x).
Proof. unfold add_string, cmap, with_buffer. cbn. rewrite string_map. reflexivity. Qed.

Lemma add_key_map c k : add_key app2 (cmap c) k = cmap (add_key app1 c k).
Proof. unfold add_key. rewrite add_string_map, add_bytes_map. reflexivity. Qed.

Lemma add_separator_map c : add_separator app2 (cmap c) = cmap (add_separator app1 c).
Proof. unfold add_separator. cbn [c_started cmap new_composer]. destruct (c_started c); [apply add_bytes_map|reflexivity]. Qed.

Lemma add_time_map c t : add_time app2 (cmap c) t = cmap (add_time app1 c t).
Proof. unfold add_time. rewrite !add_bytes_map. reflexivity. Qed.

Lemma add_any_map c o : add_any app2 (cmap c) o = rmap (add_any app1 c o).
Proof.
  unfold add_any, add_marshaler, rmap.
  repeat match goal with |- context [match ?x with _ => _ end] => destruct x end;
    cbn [fst snd]; rewrite ?add_string_map, ?add_bytes_map; reflexivity.
Qed.

Lemma attrs_loop_map f1 f2 : (forall c a, f2 (cmap c) a = option_map rmap (f1 c a)) ->
  forall l c, attrs_loop f2 (cmap c) l = option_map rmap (attrs_loop f1 c l).
Proof.
  intros F. induction l as [|a l IH]; intros c; cbn [attrs_loop]; [reflexivity|].
  rewrite F. destruct (f1 c a) as [[c' [|]]|]; cbn; auto.
Qed.

Lemma add_attribute_map n : forall c a,
  add_attribute app2 std n (cmap c) a = option_map rmap (add_attribute app1 std n c a).
Proof.
  induction n as [|n IH]; intros c a; [reflexivity|]. cbn [add_attribute].
  change (c_replace (cmap c)) with (c_replace c).
  change (replace_groups (cmap c)) with (replace_groups c).
  destruct (match c_replace c with Some _ => _ | None => _ end) as [a' any].
  destruct (is_empty a'); [reflexivity|]. destruct a' as [key v].
  rewrite !add_separator_map, !add_key_map. destruct any.
  { rewrite add_any_map. reflexivity. }
  destruct v as [a0|b|d|f|z|s|t|u|l|v0 o]; cbn [option_map];
    rewrite ?add_bytes_map, ?add_string_map, ?add_time_map, ?add_any_map; try reflexivity.
  destruct (empty_group l); [reflexivity|]. destruct key as [|k0 key].
  - apply attrs_loop_map. exact IH.
  - change (reset (cmap ?c)) with (cmap (reset c)).
    rewrite (attrs_loop_map _ _ IH). destruct (attrs_loop _ _ l) as [[c' [|]]|]; cbn; auto.
    unfold rmap. cbn. rewrite add_bytes_map. reflexivity.
Qed.

Theorem add_attributes_map n c l :
  add_attributes app2 std n (cmap c) l = option_map rmap (add_attributes app1 std n c l).
Proof. apply attrs_loop_map. intros. apply add_attribute_map. Qed.

End Hom.

(** ** The appends made, as a list *)

Definition lapp (l : list bytes) (x : bytes) : list bytes := l ++ [x].

Section Logs.
Variable std : stdlib.
Variable grow : policy.

Lemma gappends_snoc b l x : gappends NUL grow b (l ++ [x]) = bapp grow (gappends NUL grow b l) x.
Proof. unfold gappends. rewrite fold_left_app. reflexivity. Qed.

Lemma concat_snoc (l : list bytes) x : concat (l ++ [x]) = concat l ++ x.
Proof. rewrite concat_app. cbn. rewrite app_nil_r. reflexivity. Qed.

(** For given attributes the same chunks are appended to every kind of buffer. *)
Theorem chunks_appended n st rep gs x l :
  match add_attributes lapp std n (new_composer [] st rep gs x) l with
  | None =>
      (forall b, add_attributes (bapp grow) std n (new_composer b st rep gs x) l = None) /\
      (forall b, add_attributes happ std n (new_composer b st rep gs x) l = None)
  | Some (c, ok) =>
      (forall b, exists st', add_attributes (bapp grow) std n (new_composer b st rep gs x) l =
         Some (new_composer (gappends NUL grow b (c_buffer c)) st' (c_replace c) (c_groups c) (c_extras c), ok)) /\
      (forall b, exists st', add_attributes happ std n (new_composer b st rep gs x) l =
         Some (new_composer (b ++ concat (c_buffer c)) st' (c_replace c) (c_groups c) (c_extras c), ok))
  end.
Proof.
  assert (H1 : forall b, add_attributes (bapp grow) std n (new_composer b st rep gs x) l =
    option_map (rmap _ _ (gappends NUL grow b)) (add_attributes lapp std n (new_composer [] st rep gs x) l)).
  { intros b. rewrite <- (add_attributes_map _ _ lapp (bapp grow) (gappends NUL grow b)).
    - reflexivity.
    - intros. apply gappends_snoc. }
  assert (H2 : forall b, add_attributes happ std n (new_composer b st rep gs x) l =
    option_map (rmap _ _ (fun l => b ++ concat l)) (add_attributes lapp std n (new_composer [] st rep gs x) l)).
  { intros b. rewrite <- (add_attributes_map _ _ lapp happ (fun l => b ++ concat l)).
    - unfold cmap. cbn [c_buffer new_composer concat c_started c_replace c_groups c_extras]. rewrite app_nil_r. reflexivity.
    - intros l0 y. unfold lapp, happ. rewrite concat_snoc, app_assoc. reflexivity. }
  destruct (add_attributes lapp std n (new_composer [] st rep gs x) l) as [[c ok]|]; cbn in *.
  - split; intros b; exists (c_started c); [rewrite H1|rewrite H2]; reflexivity.
  - auto.
Qed.

End Logs.
