(** Lemmas about the flash composer and handler (slices as values). *)

From Coq Require Import Ascii String List ZArith NArith Bool Lia.
From Verif Require Import Bytes BytesProofs Json JsonProofs Slog SpecLog SpecFlash
  Flash EscapeProofs TextProofs.
Import ListNotations.

(** ** Fuel *)

Section Fuel.
Variable Buf : Type.
Variable app : Buf -> bytes -> Buf.
Variable std : stdlib.

Lemma attrs_loop_mono (f g : composer Buf -> attr -> option (composer Buf * bool)) :
  (forall c a r, f c a = Some r -> g c a = Some r) ->
  forall l c r, attrs_loop f c l = Some r -> attrs_loop g c l = Some r.
Proof.
  intros H. induction l as [|a l IH]; intros c r; cbn [attrs_loop]; auto.
  destruct (f c a) as [[c' []]|] eqn:E; [| |discriminate]; rewrite (H _ _ _ E); auto.
Qed.

Lemma add_attribute_mono n : forall m c a r, n <= m ->
  add_attribute app std n c a = Some r -> add_attribute app std m c a = Some r.
Proof.
  induction n as [|n IH]; intros m c a r L H; [discriminate|].
  destruct m as [|m]; [lia|].
  assert (G : forall l c r, attrs_loop (add_attribute app std n) c l = Some r ->
                            attrs_loop (add_attribute app std m) c l = Some r).
  { apply attrs_loop_mono. intros. apply IH; auto. lia. }
  cbn [add_attribute] in *.
  match goal with H : (let (_, _) := ?e in _) = _ |- _ => destruct e as [[k v] as_any] end.
  destruct (is_empty (k, v)); auto. destruct as_any; auto.
  destruct v; auto. destruct (empty_group l); auto. destruct k as [|kc k]; auto.
  match goal with H : match attrs_loop _ ?c ?l with _ => _ end = _ |- _ =>
    destruct (attrs_loop (add_attribute app std n) c l) as [[c' []]|] eqn:E end;
  [| |discriminate]; rewrite (G _ _ _ E); auto.
Qed.

Lemma add_attributes_mono n m c l r : n <= m ->
  add_attributes app std n c l = Some r -> add_attributes app std m c l = Some r.
Proof. intros H. apply attrs_loop_mono. intros. eapply add_attribute_mono; eauto. Qed.

End Fuel.

Section Compose.

Variable std : stdlib.
Hypothesis std_ok : stdlib_ok std.
Variable rep : option attr_fn.
Variable x : extras.

Local Notation comp := (composer bytes).

(** A composer in the handler's configuration. *)
Definition mk (b : bytes) (s : bool) (gs : list bytes) : comp := new_composer b s rep gs x.

Definition layout := x_time_format x.
Definition view := flash_view std layout (basic_field x) rep.

Lemma add_string_text b s gs t : valid_utf8 t = true ->
  exists u, vtext (JStr t) u /\ add_string happ (mk b s gs) t = mk (b ++ u) s gs.
Proof.
  intros H. destruct (utf8_escapes t H) as (e & E & V).
  exists (quote :: e ++ [quote]). split.
  - apply vtext_str; [|apply escapes_body; auto].
    unfold clean. rewrite V, andb_true_r. exact (escapes_no_ctl t e E).
  - unfold add_string, mk, new_composer, with_buffer. cbn.
    rewrite string_buf_out, string_buf_escape, (escape_framed [] t e E). reflexivity.
Qed.

(** Separator and key. *)
Lemma add_key_text b s gs k : valid_utf8 k = true ->
  exists u, (forall j t, vtext j t -> FT s [(k, j)] (u ++ t)) /\
    add_key happ (add_separator happ (mk b s gs)) k = mk (b ++ u) true gs.
Proof.
  intros H. destruct (utf8_escapes k H) as (e & E & V).
  exists (sep s ++ quote :: e ++ quote :: B ": "). split.
  - intros j t Ht. rewrite <- app_assoc. cbn [app]. rewrite <- app_assoc. cbn [app].
    apply FT_one; auto; [|apply escapes_body; auto|apply escapes_ordinary; auto].
    unfold clean. rewrite V, andb_true_r. exact (escapes_no_ctl k e E).
  - unfold add_key, add_separator, add_bytes, add_string, mk, new_composer, with_buffer, with_started.
    destruct s; cbn; rewrite string_buf_out, string_buf_escape, (escape_framed [] k e E);
      unfold happ; rewrite <- ?app_assoc; cbn [app]; rewrite <- ?app_assoc; reflexivity.
Qed.

Lemma add_bytes_mk b s gs t : add_bytes happ (mk b s gs) t = mk (b ++ t) s gs.
Proof. reflexivity. Qed.

Lemma add_any_text b s gs o j : flash_any o = Some j ->
  exists u, vtext j u /\ add_any happ (mk b s gs) o = (mk (b ++ u) s gs, true).
Proof.
  unfold flash_any, add_any. intros H.
  assert (Str : forall t, str t = Some j ->
    exists u, vtext j u /\ (add_string happ (mk b s gs) t, true) = (mk (b ++ u) s gs, true)).
  { intros t Ht. apply str_some in Ht as [V ->].
    destruct (add_string_text b s gs t V) as (u & Hu & ->). eauto. }
  destruct (ao_stringer o) as [t|]; [auto|].
  destruct (ao_error o) as [t|]; [auto|].
  destruct (ao_jsonm o) as [[t|e]|]; [apply Str; auto|discriminate|].
  destruct (ao_textm o) as [[t|e]|]; [apply Str; auto|discriminate|].
  apply marshalled_some in H as (t & -> & C & P).
  exists t. split; [apply vtext_parse; auto|reflexivity].
Qed.

Lemma add_time_text b s gs t j : flash_time layout t = Some j ->
  exists u, vtext j u /\ add_time happ (mk b s gs) t = mk (b ++ u) s gs.
Proof.
  unfold flash_time, raw_str. destruct (plain _) eqn:P; [|discriminate]. intros [= <-].
  exists (quote :: t_format t layout ++ [quote]). split.
  - apply vtext_str; [apply plain_clean; auto|apply plain_body_self; auto].
  - unfold add_time, add_bytes, mk, new_composer, with_buffer, happ. cbn.
    rewrite <- !app_assoc. reflexivity.
Qed.

(** The switch of addAttribute on a value that is not a group. *)
Definition add_leaf (c : comp) (v : value) : comp * bool :=
  match v with
  | VBool b => (add_bytes happ c (if b then B "true" else B "false"), true)
  | VDuration d => (add_bytes happ c (dec_of_Z d), true)
  | VFloat64 f => (add_bytes happ c (float_text f), true)
  | VInt64 i => (add_bytes happ c (dec_of_Z i), true)
  | VString s => (add_string happ c s, true)
  | VTime t => (add_time happ c t, true)
  | VUint64 u => (add_bytes happ c (dec_of_N u), true)
  | _ => add_any happ c (any_of_value std v)
  end.

Lemma add_leaf_text b s gs v j : flash_leaf layout v = Some j ->
  exists u, vtext j u /\ add_leaf (mk b s gs) v = (mk (b ++ u) s gs, true).
Proof.
  unfold flash_leaf, leaf, add_leaf. intros H. destruct v; try discriminate.
  - destruct a as [|o].
    + injection H as <-. exists (B "null"). split; [|reflexivity].
      apply vtext_intro; [reflexivity|constructor].
    + apply add_any_text; auto.
  - injection H as <-. exists (if b0 then B "true" else B "false"). split; [|reflexivity].
    destruct b0; apply vtext_intro; try reflexivity; constructor.
  - injection H as <-. exists (dec_of_Z ns). split; [|reflexivity]. apply vtext_num, is_num_dec_Z.
  - destruct f as [t| | |]; try discriminate. destruct (is_num t) eqn:N; [|discriminate].
    injection H as <-. exists t. split; [|reflexivity]. apply vtext_num; auto.
  - injection H as <-. exists (dec_of_Z i). split; [|reflexivity]. apply vtext_num, is_num_dec_Z.
  - apply str_some in H as [V ->].
    destruct (add_string_text b s gs s0 V) as (u & Hu & ->). eauto.
  - destruct (add_time_text b s gs t j H) as (u & Hu & ->). eauto.
  - injection H as <-. exists (dec_of_N u). split; [|reflexivity]. apply vtext_num, is_num_dec_N.
Qed.

Lemma add_resolved_text b s gs v j : flash_resolved std v = Some j ->
  exists u, vtext j u /\ add_any happ (mk b s gs) (any_of_value std v) = (mk (b ++ u) s gs, true).
Proof.
  unfold flash_resolved, flash_leaf, leaf. intros H.
  assert (M : forall m, marshalled m = Some j ->
    exists u, vtext j u /\ add_any happ (mk b s gs) (plain_obs m) = (mk (b ++ u) s gs, true)).
  { intros m Hm. apply marshalled_some in Hm as (t & -> & C & P).
    exists t. split; [apply vtext_parse; auto|reflexivity]. }
  destruct v; try discriminate; cbn [any_of_value].
  - destruct a as [|o].
    + injection H as <-. apply M. reflexivity.
    + apply add_any_text; auto.
  - rewrite (so_bool _ std_ok). apply M. injection H as <-. destruct b0; reflexivity.
  - apply M; auto.
  - rewrite (so_int _ std_ok). apply M. injection H as <-. cbn [marshalled].
    pose proof (vtext_num _ (is_num_dec_Z i)) as V. rewrite (proj1 V). apply vtext_parses; auto.
  - apply M. apply str_some in H as [V ->]. apply (so_string _ std_ok); auto.
  - rewrite (so_uint _ std_ok). apply M. injection H as <-. cbn [marshalled].
    pose proof (vtext_num _ (is_num_dec_N u)) as V. rewrite (proj1 V). apply vtext_parses; auto.
Qed.

(** ** Attributes *)

Definition att (fuel : nat) := add_attribute happ std fuel : comp -> attr -> option (comp * bool).

(** The attribute after resolution and replacement, and whether it is shown as an
    object whatever its kind. *)
Notation is_lv := is_log_valuer.

Definition eff := flash_effective (basic_field x) rep.

Lemma resolve_plain v : is_lv v = false -> resolve v = v.
Proof. destruct v; try reflexivity. discriminate. Qed.

Definition att_body (n : nat) (gs : list bytes) (b : bytes) (s : bool) (r : attr * bool) :=
  let (a, as_any) := r in
  if is_empty a then Some (mk b s gs, true)
  else
    if as_any then Some (add_any happ (add_key happ (add_separator happ (mk b s gs)) (fst a))
                          (any_of_value std (snd a)))
    else match snd a with
    | VGroup l =>
      if empty_group l then Some (mk b s gs, true)
      else match fst a with
      | [] => attrs_loop (att n) (mk b s gs) l
      | _ :: _ =>
        match attrs_loop (att n) (reset (add_bytes happ (add_key happ (add_separator happ (mk b s gs)) (fst a)) (B "{"))) l with
        | Some (c', true) => Some (add_bytes happ c' (B "}"), true)
        | r => r
        end
      end
    | v => Some (add_leaf (add_key happ (add_separator happ (mk b s gs)) (fst a)) v)
    end.

Lemma att_eq n b s gs a : att (S n) (mk b s gs) a = att_body n gs b s (eff gs a).
Proof.
  unfold att, eff, flash_effective, att_body. cbn [add_attribute]. destruct a as [k v]. cbn [fst snd].
  unfold replace_groups.
  replace (c_replace (mk b s gs)) with rep by reflexivity.
  replace (c_extras (mk b s gs)) with x by reflexivity.
  replace (c_groups (mk b s gs)) with gs by reflexivity.
  change (match v with VLogValuer _ _ => true | _ => false end) with (is_lv v).
  destruct rep as [f|].
  - assert (E : (if is_lv v then (k, resolve v) else (k, v)) = (k, resolve v)).
    { destruct (is_lv v) eqn:L; auto. rewrite resolve_plain; auto. }
    rewrite E. cbn [fst].
    destruct (f _ _) as [k' v']. cbn [fst snd].
    destruct (is_empty (k', v')); [reflexivity|].
    destruct v'; reflexivity.
  - destruct (is_lv v) eqn:L.
    + destruct (is_empty (k, resolve v)); reflexivity.
    + destruct (is_empty (k, v)); [reflexivity|]. destruct v; reflexivity.
Qed.

Lemma view_eff gs a : view gs a =
  let (a', as_any) := eff gs a in
  if is_empty a' then Gone
  else if as_any then Leaf (fst a') (match snd a' with
                                     | VLogValuer _ o => flash_any o
                                     | w => flash_resolved std w end)
  else match snd a' with
       | VGroup l => Node (fst a') l
       | w => Leaf (fst a') (flash_leaf layout w)
       end.
Proof. reflexivity. Qed.

Definition den' := den view str false.
Definition dens' := dens view str false.

Lemma add_key_str b s gs k : str k = Some (JStr k) ->
  exists u, (forall j t, vtext j t -> FT s [(k, j)] (u ++ t)) /\
    add_key happ (add_separator happ (mk b s gs)) k = mk (b ++ u) true gs.
Proof. intros H. apply str_some in H as [V _]. apply add_key_text; auto. Qed.

(** Composing attributes writes their denotation. *)
Theorem compose_den :
  (forall gs a fs, den' gs a fs -> exists n0, forall n, n0 <= n -> forall b s,
     exists t, att n (mk b s gs) a = Some (mk (b ++ t) (s || nonempty fs) gs, true) /\ FT s fs t) /\
  (forall gs l fs, dens' gs l fs -> exists n0, forall n, n0 <= n -> forall b s,
     exists t, attrs_loop (att n) (mk b s gs) l = Some (mk (b ++ t) (s || nonempty fs) gs, true) /\ FT s fs t).
Proof.
  assert (G : forall gs,
    (forall a fs, den' gs a fs -> exists n0, forall n, n0 <= n -> forall b s,
       exists t, att n (mk b s gs) a = Some (mk (b ++ t) (s || nonempty fs) gs, true) /\ FT s fs t) /\
    (forall l fs, dens' gs l fs -> exists n0, forall n, n0 <= n -> forall b s,
       exists t, attrs_loop (att n) (mk b s gs) l = Some (mk (b ++ t) (s || nonempty fs) gs, true) /\ FT s fs t)).
  2:{ split; intros gs; apply (G gs). }
  intros gs. apply den_dens_ind.
  - (* gone *)
    intros a V. exists 1. intros n Hn b s. destruct n as [|n]; [lia|]. exists []. split; [|apply FT_nil].
    rewrite att_eq. rewrite view_eff in V. unfold att_body. destruct (eff gs a) as [a' any].
    rewrite app_nil_r, orb_false_r.
    destruct (is_empty a'); [reflexivity|]. destruct any; [discriminate|]. destruct (snd a'); discriminate.
  - (* empty tree *)
    intros a k l V E. exists 1. intros n Hn b s. destruct n as [|n]; [lia|]. exists []. split; [|apply FT_nil].
    rewrite att_eq. rewrite view_eff in V. unfold att_body. destruct (eff gs a) as [a' any].
    rewrite app_nil_r, orb_false_r.
    destruct (is_empty a'); [reflexivity|]. destruct any; [discriminate|].
    destruct (snd a'); try discriminate. injection V as _ ->. rewrite E. reflexivity.
  - (* inline *)
    intros a l fs V E _ (n0 & IH). exists (S n0). intros n Hn b s. destruct n as [|n]; [lia|].
    destruct (IH n ltac:(lia) b s) as (t & Ht & F). exists t. split; auto.
    rewrite att_eq. rewrite view_eff in V. unfold att_body. destruct (eff gs a) as [a' any].
    destruct (is_empty a'); [discriminate|]. destruct any; [discriminate|].
    destruct (snd a'); try discriminate. injection V as -> ->. rewrite E. exact Ht.
  - (* group *)
    intros a k l fs V Nk E K _ (n0 & IH) Nfs. exists (S n0). intros n Hn b s. destruct n as [|n]; [lia|].
    destruct (add_key_str b s gs k K) as (u & Hu & Ek).
    destruct (IH n ltac:(lia) ((b ++ u) ++ B "{") false) as (t & Ht & F).
    exists (u ++ (brace :: t ++ [chr 125])). split.
    + rewrite att_eq. rewrite view_eff in V. unfold att_body. destruct (eff gs a) as [a' any].
      destruct (is_empty a'); [discriminate|]. destruct any; [discriminate|].
      destruct (snd a'); try discriminate. injection V as -> ->. rewrite E.
      destruct k as [|kc k]; [congruence|]. rewrite Ek, add_bytes_mk.
      change (reset (mk ((b ++ u) ++ B "{") true gs)) with (mk ((b ++ u) ++ B "{") false gs).
      rewrite Ht, add_bytes_mk. destruct fs; [exfalso; apply Nfs; auto|]. cbn [nonempty orb].
      rewrite orb_true_r, <- !app_assoc. reflexivity.
    + apply Hu, FT_obj; auto.
  - (* leaf *)
    intros a k j V K. exists 1. intros n Hn b s. destruct n as [|n]; [lia|].
    destruct (add_key_str b s gs k K) as (u & Hu & Ek).
    rewrite att_eq. rewrite view_eff in V. unfold att_body. destruct (eff gs a) as [a' any].
    destruct (is_empty a'); [discriminate|]. destruct any.
    + injection V as Kk Hj. rewrite Kk, Ek.
      assert (R : exists w, vtext j w /\ add_any happ (mk (b ++ u) true gs) (any_of_value std (snd a'))
                    = (mk ((b ++ u) ++ w) true gs, true)).
      { destruct (snd a'); try (apply add_resolved_text; exact Hj). apply add_any_text; exact Hj. }
      destruct R as (w & Hw & ->). exists (u ++ w). rewrite app_assoc, orb_true_r. split; auto.
    + assert (R : Leaf (fst a') (flash_leaf layout (snd a')) = Leaf k (Some j)).
      { destruct (snd a'); try exact V. discriminate. }
      injection R as Kk Hj.
      destruct (add_leaf_text (b ++ u) true gs _ _ Hj) as (w & Hw & El).
      exists (u ++ w). rewrite app_assoc, orb_true_r. split; auto.
      rewrite <- Ek, <- Kk in El. rewrite <- El.
      destruct (snd a'); try reflexivity. discriminate.
  - (* nil *)
    exists 0. intros n _ b s. exists []. rewrite app_nil_r, orb_false_r. split; [reflexivity|apply FT_nil].
  - (* cons *)
    intros a l fs1 fs2 _ (n1 & IH1) _ (n2 & IH2). exists (max n1 n2). intros n Hn b s.
    destruct (IH1 n ltac:(lia) b s) as (t1 & E1 & F1).
    destruct (IH2 n ltac:(lia) (b ++ t1) (s || nonempty fs1)) as (t2 & E2 & F2).
    exists (t1 ++ t2). split; [|apply FT_app; auto].
    cbn [attrs_loop]. rewrite E1, E2. rewrite app_assoc.
    replace (s || nonempty (fs1 ++ fs2)) with (s || nonempty fs1 || nonempty fs2); [reflexivity|].
    destruct s, fs1; reflexivity.
Qed.

(** ** Handlers *)

(** The groups a handler keeps: none without a ReplaceAttr function. *)
Definition hg (gs : list bytes) : list bytes := match rep with None => [] | Some _ => gs end.

Lemma den_hg gs :
  (forall a fs, den' gs a fs -> den' (hg gs) a fs) /\
  (forall l fs, dens' gs l fs -> dens' (hg gs) l fs).
Proof.
  assert (V : forall a, view (hg gs) a = view gs a).
  { intros a. unfold view, hg, flash_view, flash_effective. destruct rep; reflexivity. }
  apply den_dens_ind.
  - intros a H. apply den_gone. rewrite V. auto.
  - intros a k l H E. eapply den_empty; eauto. rewrite V. eauto.
  - intros a l fs H E _ IH. eapply den_inline; eauto. rewrite V. eauto.
  - intros a k l fs H N E K _ IH F. eapply den_group; eauto. rewrite V. eauto.
  - intros a k j H K. eapply den_leaf; eauto. rewrite V. eauto.
  - apply dens_nil.
  - intros a l f1 f2 _ IH1 _ IH2. apply dens_cons; auto.
Qed.

Definition conf (h : handler) (gs : list bytes) : Prop :=
  o_replace (h_options h) = rep /\ h_extras h = x /\ h_groups h = hg gs.

Lemma handle_prefix_eq h b s gs :
  handle_prefix h (mk b s gs) = mk (b ++ emit (h_prefix h) s) (started_of (h_prefix h) s) gs.
Proof.
  unfold handle_prefix, emit, started_of. destruct (h_prefix h) as [|c p]; [rewrite app_nil_r; reflexivity|].
  unfold brace. destruct (ends_with (chr 123) (c :: p)); destruct s;
    unfold add_separator, add_bytes, mk, new_composer, with_buffer, with_started, reset, happ, sep;
    cbn [c_started c_buffer c_replace c_groups c_extras with_started negb app];
    rewrite <- ?app_assoc; reflexivity.
Qed.

Definition is_base (g : hdl) : bool := match g with HBase _ => true | _ => false end.

Definition logged' := logged view str false.

Lemma untouched_first attrs : forallb is_empty attrs = true -> first_attr attrs = None.
Proof.
  induction attrs as [|a l IH]; auto. cbn [forallb first_attr]. intros H.
  apply andb_prop in H as [-> H]. auto.
Qed.

Lemma touched_first attrs : forallb is_empty attrs = false -> exists a, first_attr attrs = Some a.
Proof.
  induction attrs as [|a l IH]; [discriminate|]. cbn [forallb first_attr].
  destruct (is_empty a); eauto.
Qed.

(** Groups opened around a record without attributes are skipped. *)
Lemma elided_chain n r : forallb is_empty (r_attrs r) = true ->
  forall ops g d, d <> DeadOther -> forallb named_group ops = true ->
  exists g' d', derive std n g ops = Some g' /\ d' <> DeadOther /\
    handle_hdl std n d g' r = handle_hdl std n d' g r.
Proof.
  intros He. induction ops as [|o ops IH]; intros g d Hd Hn.
  - exists g, d. auto.
  - cbn [forallb] in Hn. apply andb_prop in Hn as [Ho Hn].
    destruct o as [l|[|c name]]; try discriminate. cbn [derive step with_group_hdl].
    destruct (IH (HGroup (with_group (inner g) (c :: name)) (c :: name) g) d Hd Hn)
      as (g' & d' & E & Hd' & Eh).
    exists g', (DeadName (c :: name)). split; auto. split; [discriminate|].
    rewrite Eh. cbn [handle_hdl]. rewrite untouched_first by auto. destruct d'; congruence.
Qed.

Theorem derive_logged attrs gs ops gs' fs : logged' attrs gs ops gs' fs ->
  forall g, conf (inner g) gs -> is_base g = true \/ untouched attrs ops = false ->
  exists n0, forall n, n0 <= n ->
  exists g' h' m,
    derive std n g ops = Some g' /\
    (forall r, r_attrs r = attrs -> handle_hdl std n NoDead g' r = handle std n h' r) /\
    conf h' gs' /\ h_options h' = h_options (inner g) /\
    h_suffix h' = h_suffix (inner g) ++ closing m /\
    forall b s0, exists q t s1,
      emit (h_prefix h') s0 = emit (h_prefix (inner g)) s0 ++ q /\
      attrs_loop (att n) (mk b (started_of (h_prefix h') s0) (hg gs')) attrs =
        Some (mk (b ++ t) s1 (hg gs'), true) /\
      FT (started_of (h_prefix (inner g)) s0) fs (q ++ t ++ closing m).
Proof.
  induction 1 as [gs fs D|gs l ops gs' fa fb D _ IH|gs ops gs' fb _ IH
                 |gs name ops gs' fb Nn Pn U _ IH|gs name ops fs Nn U D]; intros g C Hg.
  - (* the record itself *)
    apply (proj2 (den_hg gs)) in D. apply (proj2 compose_den) in D as (n0 & Hn0).
    exists n0. intros n Hn. exists g, (inner g), 0. repeat split; auto; try apply C.
    + intros r Hr. destruct g as [h|h name parent]; [reflexivity|].
      destruct Hg as [Hg|Hg]; [discriminate|]. unfold untouched in Hg. cbn [forallb] in Hg.
      rewrite andb_true_r in Hg. cbn [handle_hdl inner]. rewrite Hr.
      destruct (touched_first _ Hg) as ([k v] & ->). reflexivity.
    + rewrite app_nil_r. reflexivity.
    + intros b s0. destruct (Hn0 n Hn b (started_of (h_prefix (inner g)) s0)) as (t & E & F).
      exists [], t. eexists. rewrite !app_nil_r. split; auto. split; [exact E|]. exact F.
  - (* WithAttrs *)
    apply (proj2 (den_hg gs)) in D. apply (proj2 compose_den) in D as (n1 & Hn1).
    destruct C as (C1 & C2 & C3).
    (* the derived handler does not depend on the fuel beyond n1 *)
    set (p := h_prefix (inner g)) in *.
    destruct (Hn1 n1 (le_n _) p (started_of p false)) as (t1 & E1 & F1).
    set (h1 := {| h_options := h_options (inner g); h_extras := h_extras (inner g);
                  h_prefix := p ++ t1; h_suffix := h_suffix (inner g); h_groups := h_groups (inner g) |}).
    destruct (IH (HBase h1)) as (n2 & Hn2).
    { repeat split; auto. }
    { left; reflexivity. }
    exists (max n1 n2). intros n Hn.
    destruct (Hn1 n ltac:(lia) p (started_of p false)) as (t1' & E1' & F1').
    assert (Et : t1' = t1).
    { assert (Ln : n1 <= n) by lia. pose proof (add_attributes_mono _ _ _ _ _ _ _ _ Ln E1) as E2.
      unfold add_attributes in E2. fold att in E2. unfold att in E1', E2. rewrite E1' in E2.
      injection E2 as E2. apply app_inv_head in E2. exact E2. }
    subst t1'.
    destruct (Hn2 n ltac:(lia)) as (g' & h' & m & Ed & Eh & Cc & Co & Cs & Ht).
    exists g', h', m.
    assert (Ew : with_attrs_hdl std n g l = Some (HBase h1)).
    { unfold with_attrs_hdl, with_attrs. rewrite C1, C2, C3. fold p.
      replace (match p with [] => false | _ :: _ => negb (ends_with (chr 123) p) end)
        with (started_of p false) by reflexivity.
      unfold add_attributes. unfold mk, att in E1'. rewrite E1'. cbn [c_buffer new_composer].
      unfold h1. rewrite C2, C3. reflexivity. }
    cbn [derive step]. rewrite Ew. repeat split; auto; try apply Cc.
    intros b s0. destruct (Ht b s0) as (q & t & s1 & Eq & Ea & Fq). cbn [inner h_prefix h1] in Eq, Fq.
    destruct (emit_app p t1 s0) as (q1 & Eq1 & Q1 & Q2).
    exists (q1 ++ q), t, s1. rewrite Eq, Eq1, app_assoc. split; auto. split; auto.
    rewrite <- app_assoc. apply FT_app.
    + destruct p as [|c p'].
      * rewrite Q2 by auto. cbn [started_of] in F1 |- *. unfold emit.
        destruct t1 as [|c1 t1]; [destruct F1 as [_ [(-> & _)|(N1 & u & Eu & M)]]; [apply FT_nil|]|].
        -- cbn [sep app] in Eu. subst u. apply smembers_jmembers, jmembers_end in M as [N _]. congruence.
        -- apply FT_sep; auto. intros ->. destruct F1 as [_ [(_ & ?)|(? & _)]]; congruence.
      * rewrite Q1 by discriminate. exact F1.
    + replace (started_of p s0 || nonempty fa) with (started_of (p ++ t1) s0); auto.
      destruct fa as [|f fa].
      * destruct F1 as [_ [(_ & ->)|(? & _)]]; [|congruence]. rewrite app_nil_r, orb_false_r. reflexivity.
      * cbn [nonempty]. rewrite orb_true_r.
        destruct (FT_end _ _ _ F1) as [Nt Et]; [discriminate|].
        unfold started_of. rewrite ends_with_app_ne by auto. rewrite Et.
        destruct (p ++ t1) eqn:Z; auto. destruct p; [|discriminate]. cbn [app] in Z. congruence.
  - (* WithGroup "" *)
    destruct (IH (HBase (inner g))) as (n2 & Hn2); [exact C|left; reflexivity|].
    exists n2. intros n Hn. destruct (Hn2 n Hn) as (g' & h' & m & R).
    exists g', h', m. exact R.
  - (* WithGroup name *)
    destruct C as (C1 & C2 & C3).
    destruct name as [|c name]; [congruence|]. set (nm := c :: name) in *.
    set (p := h_prefix (inner g)) in *.
    destruct (IH (HGroup (with_group (inner g) nm) nm g)) as (n2 & Hn2).
    { unfold conf, with_group. cbn. rewrite C1, C2, C3. repeat split; auto.
      unfold hg. destruct rep; reflexivity. }
    { right. auto. }
    exists n2. intros n Hn. destruct (Hn2 n Hn) as (g' & h' & m & Ed & Eh & Cc & Co & Cs & Ht).
    exists g', h', (S m). cbn [derive step with_group_hdl]. unfold nm at 1.
    split; [exact Ed|]. split; [exact Eh|]. split; [exact Cc|]. split; [exact Co|]. split.
    + rewrite Cs. cbn [inner with_group h_suffix]. rewrite <- app_assoc. reflexivity.
    + intros b s0. destruct (Ht b s0) as (q & t & s1 & Eq & Ea & Fq).
      cbn [inner] in Eq, Fq.
      assert (Ep : h_prefix (with_group (inner g) nm) =
                   p ++ sep (started_of p false) ++ quote :: nm ++ quote :: B ": {").
      { unfold with_group. cbn [h_prefix]. fold p. f_equal. f_equal.
        unfold started_of, brace, sep. destruct p; auto. destruct (ends_with _ _); reflexivity. }
      rewrite Ep in Eq, Fq.
      destruct (emit_app p (sep (started_of p false) ++ quote :: nm ++ quote :: B ": {") s0) as (q1 & Eq1 & Q1 & Q2).
      assert (Eq2 : q1 = sep (started_of p s0) ++ quote :: nm ++ quote :: B ": {").
      { destruct p as [|c' p']; [rewrite Q2 by auto; reflexivity|rewrite Q1 by discriminate; reflexivity]. }
      exists (q1 ++ q), t, s1. rewrite Eq, Eq1, app_assoc. split; auto. split; auto.
      rewrite Eq2.
      replace ((((sep (started_of p s0) ++ quote :: nm ++ quote :: B ": {") ++ q) ++ t ++ closing (S m)))
        with (sep (started_of p s0) ++ quote :: nm ++ quote :: B ": " ++ (brace :: (q ++ t ++ closing m) ++ [chr 125])).
      * apply FT_one; [apply plain_clean; auto|apply plain_body_self; auto|auto|].
        apply FT_obj.
        replace false with (started_of (p ++ sep (started_of p false) ++ quote :: nm ++ quote :: B ": {") s0); auto.
        unfold started_of at 1.
        assert (Z : forall a, ends_with brace (a ++ quote :: nm ++ quote :: B ": {") = true).
        { intros a. replace (a ++ quote :: nm ++ quote :: B ": {") with ((a ++ quote :: nm ++ quote :: B ": ") ++ [brace]).
          - rewrite ends_with_app. reflexivity.
          - rewrite <- !app_assoc. cbn [app]. rewrite <- !app_assoc. reflexivity. }
        rewrite (app_assoc p), Z.
        destruct ((p ++ sep (started_of p false)) ++ quote :: nm ++ quote :: B ": {") eqn:Y; auto.
        destruct (p ++ sep (started_of p false)); discriminate.
      * rewrite <- !app_assoc. cbn [app]. rewrite <- !app_assoc.
        rewrite <- closing_snoc. unfold brace. reflexivity.
  - (* elided *)
    destruct Hg as [Hg|Hg].
    2:{ unfold untouched in *. cbn [forallb] in Hg. destruct name; [congruence|]. cbn [named_group andb] in Hg. congruence. }
    destruct g as [h|]; [|discriminate]. cbn [inner] in *.
    unfold untouched in U. apply andb_prop in U as [U1 U2].
    apply (proj2 (den_hg gs)) in D. apply (proj2 compose_den) in D as (n0 & Hn0).
    exists n0. intros n Hn.
    set (r0 := {| r_time := {| t_zero := true; t_format := fun t => t; t_string := [] |};
                  r_level := 0; r_msg := []; r_source := None; r_attrs := attrs |}).
    assert (Hops : forallb named_group (WithGroup name :: ops) = true).
    { cbn [forallb]. rewrite U2. destruct name; [congruence|reflexivity]. }
    destruct (elided_chain n r0 U1 (WithGroup name :: ops) (HBase h) NoDead) as (g' & d' & Ed & _); [discriminate|auto|].
    exists g', h, 0. split; auto. split.
    + intros r Hr. assert (U1' : forallb is_empty (r_attrs r) = true) by (rewrite Hr; auto).
      destruct (elided_chain n r U1' (WithGroup name :: ops) (HBase h) NoDead) as (g2 & d2 & Ed2 & _ & Eh); [discriminate|auto|].
      rewrite Ed in Ed2. injection Ed2 as <-. rewrite Eh. reflexivity.
    + split; [exact C|]. split; auto. split; [rewrite app_nil_r; reflexivity|].
      intros b s0. destruct (Hn0 n Hn b (started_of (h_prefix h) s0)) as (t & E & F).
      exists [], t. eexists. rewrite !app_nil_r. split; auto. split; [exact E|]. exact F.
Qed.

(** ** Handle *)

Definition keys := (x_time_key x, x_level_key x, x_message_key x, x_source_key x).

Definition flash_basics' (h : handler) (r : record) : list attr :=
  flash_basics std keys (x_level_names x) (o_add_source (h_options h)) r.

Lemma basic_attr_eq n (c : comp) direct a :
  match snd a with VTime _ | VString _ | VAny (AnyObj _) => True | _ => False end ->
  (forall c, direct c = add_leaf c (snd a)) ->
  basic_attr std (S n) c direct a = att (S n) c a.
Proof.
  intros Hv Hd. unfold basic_attr, att. cbn [add_attribute].
  destruct (c_replace c) as [f|] eqn:R; [reflexivity|].
  destruct a as [k v]. cbn [fst snd] in *. rewrite Hd.
  destruct v as [[|o]| | | | | | | | |]; try contradiction; cbn [is_empty];
    destruct k; reflexivity.
Qed.

Lemma attrs_loop_app (f : comp -> attr -> option (comp * bool)) l1 l2 : forall c,
  attrs_loop f c (l1 ++ l2) = andthen (attrs_loop f c l1) (fun c => attrs_loop f c l2).
Proof.
  induction l1 as [|a l1 IH]; intros c; [reflexivity|]. cbn [app attrs_loop].
  destruct (f c a) as [[c' []]|]; auto.
Qed.

Lemma andthen_assoc m (f g : comp -> option (comp * bool)) :
  andthen (andthen m f) g = andthen m (fun c => andthen (f c) g).
Proof. destruct m as [[c []]|]; reflexivity. Qed.

Lemma attrs_loop_one (f : comp -> attr -> option (comp * bool)) c a :
  attrs_loop f c [a] = f c a.
Proof. cbn. destruct (f c a) as [[c' []]|]; reflexivity. Qed.

Lemma andthen_ext m (f g : comp -> option (comp * bool)) :
  (forall c, f c = g c) -> andthen m f = andthen m g.
Proof. intros H. destruct m as [[c []]|]; auto. apply H. Qed.

(** Everything up to the prefix is composing the built-in attributes. *)
Lemma basics_eq n h r c0 k : h_extras h = x ->
  andthen (handle_time std (S n) h r c0) (fun c =>
      andthen (handle_level std (S n) h r c) (fun c =>
      andthen (handle_message std (S n) h r c) (fun c => andthen (handle_source std (S n) h r c) k)))
      = andthen (attrs_loop (att (S n)) c0 (flash_basics' h r)) k.
Proof.
  intros C2.
  unfold flash_basics', flash_basics, basics, keys.
  rewrite !attrs_loop_app, !andthen_assoc.
  unfold handle_time, handle_level, handle_message, handle_source. rewrite C2.
  assert (T : (if t_zero (r_time r) then Some (c0, true)
     else basic_attr std (S n) c0 (fun c => (add_time happ c (r_time r), true)) (x_time_key x, VTime (r_time r)))
     = attrs_loop (att (S n)) c0 (if t_zero (r_time r) then [] else [(x_time_key x, VTime (r_time r))])).
  { destruct (t_zero (r_time r)); [reflexivity|]. rewrite attrs_loop_one. apply basic_attr_eq; simpl; auto. }
  rewrite T. apply andthen_ext. intros c. clear T.
  change [(x_level_key x, VString (x_level_names x (r_level r))); (x_message_key x, VString (r_msg r))]
    with ([(x_level_key x, VString (x_level_names x (r_level r)))] ++ [(x_message_key x, VString (r_msg r))]).
  rewrite !attrs_loop_app, !andthen_assoc, !attrs_loop_one.
  rewrite basic_attr_eq by (simpl; auto). apply andthen_ext. clear c. intros c.
  rewrite attrs_loop_one.
  rewrite basic_attr_eq by (simpl; auto). apply andthen_ext. clear c. intros c.
  f_equal. destruct (o_add_source (h_options h)), (r_source r) as [src|]; try reflexivity.
  rewrite attrs_loop_one. apply basic_attr_eq; simpl; auto.
Qed.

Lemma compose_eq n h r gs b1 s1 t s2 : conf h gs ->
  attrs_loop (att (S n)) (mk (B "{") false (hg gs)) (flash_basics' h r) = Some (mk b1 s1 (hg gs), true) ->
  attrs_loop (att (S n)) (mk (b1 ++ emit (h_prefix h) s1) (started_of (h_prefix h) s1) (hg gs)) (r_attrs r)
    = Some (mk (b1 ++ emit (h_prefix h) s1 ++ t) s2 (hg gs), true) ->
  handle std (S n) h r = Some (Done [b1 ++ emit (h_prefix h) s1 ++ t ++ h_suffix h ++ [chr 125; newline]] true).
Proof.
  intros (C1 & C2 & C3) Hb Ha. unfold handle, compose.
  rewrite C1, C2, C3.
  change (add_bytes happ (new_composer [] false rep (hg gs) x) (B "{")) with (mk (B "{") false (hg gs)).
  set (c0 := mk (B "{") false (hg gs)) in *.
  pose proof (fun k => basics_eq n h r c0 k C2) as E.
  rewrite E, Hb. cbn [andthen]. rewrite handle_prefix_eq.
  unfold add_attributes. fold att. change (add_attribute happ std (S n)) with (att (S n)). rewrite Ha. cbn [andthen].
  assert (Sf : match h_suffix h with [] => mk (b1 ++ emit (h_prefix h) s1 ++ t) s2 (hg gs)
               | _ :: _ => add_bytes happ (mk (b1 ++ emit (h_prefix h) s1 ++ t) s2 (hg gs)) (h_suffix h) end
             = mk ((b1 ++ emit (h_prefix h) s1 ++ t) ++ h_suffix h) s2 (hg gs)).
  { destruct (h_suffix h); [rewrite app_nil_r; reflexivity|apply add_bytes_mk]. }
  rewrite Sf. rewrite add_bytes_mk. cbn [c_buffer mk new_composer]. rewrite <- !app_assoc. reflexivity.
Qed.

(** The line flash writes denotes the record. *)
Theorem flash_logs_spelled g ops r gs' fs bs :
  (exists h, g = HBase h /\ conf h [] /\ h_prefix h = [] /\ h_suffix h = []) ->
  logged' (r_attrs r) [] ops gs' fs ->
  dens' gs' (flash_basics' (inner g) r) bs ->
  exists n0, forall n, n0 <= n -> exists g' line,
    derive std n g ops = Some g' /\
    handle_hdl std n NoDead g' r = Some (Done [line ++ [newline]] true) /\
    spelled (bs ++ fs) line.
Proof.
  intros (h & -> & C & Hp & Hs) L D. cbn [inner] in D.
  destruct (derive_logged _ _ _ _ _ L (HBase h) C (or_introl eq_refl)) as (n1 & H1).
  apply (proj2 (den_hg gs')) in D. apply (proj2 compose_den) in D as (n2 & H2).
  exists (S (max n1 n2)). intros n Hn. destruct n as [|n]; [lia|].
  destruct (H1 (S n) ltac:(lia)) as (g' & h' & m & Ed & Eh & Cc & Co & Cs & Ht).
  destruct (H2 (S n) ltac:(lia) (B "{") false) as (tb & Eb & Fb).
  cbn [inner] in *. rewrite Hs in Cs. rewrite Hp in Ht. cbn [emit app started_of orb] in Ht, Eb, Cs.
  destruct (Ht ((B "{" ++ tb) ++ emit (h_prefix h') (nonempty bs)) (nonempty bs)) as (q & t & s1 & Eq & Ea & Ft).
  exists g', (brace :: (tb ++ q ++ t ++ closing m) ++ [chr 125]). split; auto.
  split; [|eexists; split; [|reflexivity]; apply FT_app; auto].
  rewrite Eh by auto. rewrite <- app_assoc in Ea.
  assert (Eb' : attrs_loop (att (S n)) (mk (B "{") false (hg gs')) (flash_basics' h' r)
                = Some (mk (B "{" ++ tb) (nonempty bs) (hg gs'), true)).
  { unfold flash_basics'. rewrite Co. exact Eb. }

  pose proof (compose_eq n h' r gs' _ _ t s1 Cc Eb') as K. rewrite K.
  - rewrite Eq, Cs. cbn [app]. rewrite <- !app_assoc. reflexivity.
  - rewrite <- !app_assoc in *. exact Ea.
Qed.

Theorem flash_logs g ops r gs' fs bs :
  (exists h, g = HBase h /\ conf h [] /\ h_prefix h = [] /\ h_suffix h = []) ->
  logged' (r_attrs r) [] ops gs' fs ->
  dens' gs' (flash_basics' (inner g) r) bs ->
  exists n0, forall n, n0 <= n -> exists g' line,
    derive std n g ops = Some g' /\
    handle_hdl std n NoDead g' r = Some (Done [line ++ [newline]] true) /\
    parse_json line = Some (JObj (bs ++ fs)) /\ clean line = true.
Proof.
  intros G L D. destruct (flash_logs_spelled g ops r gs' fs bs G L D) as (n0 & H).
  exists n0. intros n Hn. destruct (H n Hn) as (g' & line & D' & H' & S).
  exists g', line. split; auto. split; auto. apply spelled_parses, S.
Qed.

(** ** Failure *)

Definition broken' := broken std (basic_field x) rep.

Lemma add_any_fails b s gs o : exists b',
  add_any happ (mk b s gs) o = (mk b' s gs, negb (marshal_fails o)).
Proof.
  unfold add_any, marshal_fails.
  assert (S : forall t, exists b', add_string happ (mk b s gs) t = mk b' s gs).
  { intros t. exists (string_buf happ b t). reflexivity. }
  destruct (ao_stringer o) as [t|]; [destruct (S t) as (b' & ->); eauto|].
  destruct (ao_error o) as [t|]; [destruct (S t) as (b' & ->); eauto|].
  destruct (ao_jsonm o) as [[t|e]|]; cbn [add_marshaler].
  - destruct (S t) as (b' & ->); eauto.
  - destruct (S (B "!ERROR:" ++ e)) as (b' & ->); eauto.
  - destruct (ao_textm o) as [[t|e]|]; cbn [add_marshaler].
    + destruct (S t) as (b' & ->); eauto.
    + destruct (S (B "!ERROR:" ++ e)) as (b' & ->); eauto.
    + destruct (ao_marshal o) as [t|e]; [rewrite add_bytes_mk|]; eauto.
Qed.

Lemma add_leaf_fails b s gs v : (forall l, v <> VGroup l) -> is_lv v = false -> exists b' ok,
  add_leaf (mk b s gs) v = (mk b' s gs, ok) /\
  (ok = false <-> exists o, v = VAny (AnyObj o) /\ marshal_fails o = true).
Proof.
  intros Hg Hl. destruct v as [[|o]| | | | | |t| |l|]; cbn [add_leaf any_of_value];
    try (exfalso; apply (Hg l); reflexivity); try discriminate;
    try (eexists; exists true; split; [reflexivity|]; split; [discriminate|intros (o & E & _); discriminate]).
  - destruct (add_any_fails b s gs o) as (b' & ->). exists b', (negb (marshal_fails o)). split; auto.
    destruct (marshal_fails o) eqn:F; cbn [negb]; split; intros; try discriminate; eauto.
    destruct H as (o' & [= <-] & F'). congruence.
Qed.

Lemma add_key_mk b s gs k : exists b', add_key happ (add_separator happ (mk b s gs)) k = mk b' true gs.
Proof. destruct s; eexists; reflexivity. Qed.

Lemma att_fails n : forall b s gs a c ok, att n (mk b s gs) a = Some (c, ok) ->
  (exists b' s', c = mk b' s' gs) /\ (ok = false <-> broken' gs a).
Proof.
  induction n as [|n IH]; intros b s gs a c ok H; [discriminate|].
  assert (Loop : forall l b s c ok, attrs_loop (att n) (mk b s gs) l = Some (c, ok) ->
    (exists b' s', c = mk b' s' gs) /\ (ok = false <-> Exists (broken' gs) l)).
  { clear - IH. induction l as [|a l IHl]; intros b s c ok H; cbn [attrs_loop] in H.
    - injection H as <- <-. split; eauto. split; [discriminate|inversion 1].
    - destruct (att n (mk b s gs) a) as [[c1 []]|] eqn:E; [| |discriminate];
        apply IH in E as ((b1 & s1 & ->) & F).
      + apply IHl in H as (Hc & Hf). split; auto. rewrite Hf. rewrite Exists_cons.
        split; auto. intros [Ha|]; auto. apply F in Ha. discriminate.
      + injection H as <- <-. split; eauto. split; auto. intros _. left. apply F. reflexivity. }
  rewrite att_eq in H. unfold att_body in H. destruct (eff gs a) as [a' any] eqn:E.
  assert (Nb : is_empty a' = true -> ~ broken' gs a).
  { intros Em Br. inversion Br as [? a2 E2 N F|? a2 o E2 V F|? a2 l E2 V Ne Ex]; subst;
      assert (X : a2 = a') by (unfold eff in E; congruence); subst a2; clear E2.
    - congruence.
    - destruct a' as [[|? ?] v]; cbn in V, Em; [|discriminate]. subst v. discriminate.
    - destruct a' as [[|? ?] v]; cbn in V, Em; [|discriminate]. subst v. discriminate. }
  destruct (is_empty a') eqn:Em.
  { injection H as <- <-. split; eauto. split; [discriminate|]. intros Br. destruct (Nb eq_refl Br). }
  clear Nb. destruct any.
  { destruct (add_key_mk b s gs (fst a')) as (b1 & Ek). rewrite Ek in H.
    destruct (add_any_fails b1 true gs (any_of_value std (snd a'))) as (b2 & Ea). rewrite Ea in H.
    injection H as <- <-. split; eauto.
    destruct (marshal_fails (any_of_value std (snd a'))) eqn:F; cbn [negb]; split; try discriminate.
    - intros _. eapply br_object; eauto.
    - reflexivity.
    - intros Br. inversion Br as [? a2 E2 N F2|? a2 o E2 V F2|? a2 l E2 V Ne Ex]; subst;
        unfold eff in E; rewrite E in E2; try discriminate. injection E2 as <-. congruence. }
  assert (L0 : is_lv (snd a') = false).
  { clear - E. unfold eff, flash_effective in E. destruct rep as [f|].
    - destruct (f _ _) as [k v]. cbn [snd] in E. injection E as <- E. exact E.
    - destruct (is_lv (snd a)) eqn:L0; [discriminate|]. injection E as <-. exact L0. }
  destruct (snd a') as [av|bv|d|f|i|st|t|u|l|next o] eqn:V;
  try (destruct (add_key_mk b s gs (fst a')) as (b1 & Ek); rewrite Ek in H;
       match type of H with Some (add_leaf _ ?v) = _ =>
         assert (Hg : forall l, v <> VGroup l) by (intros; discriminate);
         assert (L : is_lv v = false);
         [ exact L0
         | destruct (add_leaf_fails b1 true gs v Hg L) as (b2 & ok2 & El & F2); rewrite El in H;
           injection H as <- <-; split; [eauto|]; rewrite F2; split;
           [ intros (o' & Eo & Fo); eapply br_any; [exact E|rewrite V; exact Eo|exact Fo]
           | intros Br; inversion Br as [? a2 E2 N F3|? a2 o' E2 V2 F3|? a2 l E2 V2 Ne Ex]; subst;
             unfold eff in E; rewrite E in E2; try discriminate; injection E2 as <-;
             [ rewrite V in V2; eauto | congruence ] ] ] end).
  - (* group *)
    destruct (empty_group l) eqn:Eg.
    { injection H as <- <-. split; eauto. split; [discriminate|].
      intros Br. inversion Br as [? a2 E2 N F2|? a2 o E2 V2 F2|? a2 l2 E2 V2 Ne Ex]; subst;
        unfold eff in E; rewrite E in E2; try discriminate; injection E2 as <-; congruence. }
    assert (K : Exists (broken' gs) l <-> broken' gs a).
    { split; intros Br; [eapply br_group; eauto|].
      inversion Br as [? a2 E2 N F2|? a2 o E2 V2 F2|? a2 l2 E2 V2 Ne Ex]; subst;
        unfold eff in E; rewrite E in E2; try discriminate; injection E2 as <-; try congruence.
      rewrite V in V2. injection V2 as <-. exact Ex. }
    rewrite <- K. destruct (fst a') as [|kc k].
    + apply Loop in H. exact H.
    + destruct (add_key_mk b s gs (kc :: k)) as (b1 & Ek). rewrite Ek in H.
      rewrite add_bytes_mk in H. change (reset (mk (b1 ++ B "{") true gs)) with (mk (b1 ++ B "{") false gs) in H.
      destruct (attrs_loop (att n) (mk (b1 ++ B "{") false gs) l) as [[c1 []]|] eqn:El; [| |discriminate];
        apply Loop in El as ((b2 & s2 & ->) & F); injection H as <- <-; split; eauto.
      rewrite add_bytes_mk. eauto.
  - discriminate.
Qed.

Lemma attrs_fails n b s gs l c ok : attrs_loop (att n) (mk b s gs) l = Some (c, ok) ->
  (exists b' s', c = mk b' s' gs) /\ (ok = false <-> Exists (broken' gs) l).
Proof.
  revert b s c ok. induction l as [|a l IHl]; intros b s c ok H; cbn [attrs_loop] in H.
  - injection H as <- <-. split; eauto. split; [discriminate|inversion 1].
  - destruct (att n (mk b s gs) a) as [[c1 []]|] eqn:E; [| |discriminate];
      apply att_fails in E as ((b1 & s1 & ->) & F).
    + apply IHl in H as (Hc & Hf). split; auto. rewrite Hf. rewrite Exists_cons.
      split; auto. intros [Ha|]; auto. apply F in Ha. discriminate.
    + injection H as <- <-. split; eauto. split; auto. intros _. left. apply F. reflexivity.
Qed.

Lemma compose_outcome n h r c ok : o_replace (h_options h) = rep -> h_extras h = x -> compose std (S n) h r = Some (c, ok) ->
  (ok = false <-> Exists (broken' (h_groups h)) (flash_basics' h r ++ r_attrs r)) /\
  (ok = true -> exists line, c_buffer c = line ++ [newline] /\ ends_with (chr 125) line = true).
Proof.
  intros C1 C2 H. unfold compose in H. rewrite C1, C2 in H.
  change (add_bytes happ (new_composer [] false rep (h_groups h) x) (B "{")) with (mk (B "{") false (h_groups h)) in H.
  pose proof (fun k => basics_eq n h r (mk (B "{") false (h_groups h)) k C2) as E.
  rewrite E in H. clear E.
  rewrite Exists_app.
  destruct (attrs_loop (att (S n)) (mk (B "{") false (h_groups h)) (flash_basics' h r)) as [[c1 ok1]|] eqn:E1; [|discriminate].
  apply attrs_fails in E1 as ((b1 & s1 & ->) & F1). destruct ok1; cbn [andthen] in H.
  2:{ injection H as <- <-. split; [|discriminate]. split; auto. intros _. left. apply F1. reflexivity. }
  rewrite handle_prefix_eq in H. unfold add_attributes in H.
  change (add_attribute happ std (S n)) with (att (S n)) in H.
  destruct (attrs_loop (att (S n)) _ (r_attrs r)) as [[c2 ok2]|] eqn:E2; [|discriminate].
  apply attrs_fails in E2 as ((b2 & s2 & ->) & F2). destruct ok2; cbn [andthen] in H.
  2:{ injection H as <- <-. split; [|discriminate]. split; auto. intros _. right. apply F2. reflexivity. }
  injection H as <- <-. split.
  - split; [discriminate|]. intros [K|K]; [apply F1 in K|apply F2 in K]; discriminate.
  - intros _.
    exists ((b2 ++ h_suffix h) ++ [chr 125]). rewrite ends_with_app. split; [|reflexivity].
    destruct (h_suffix h); unfold mk, new_composer, add_bytes, with_buffer, happ;
      cbn [c_buffer]; rewrite <- ?app_assoc; reflexivity.
Qed.

End Compose.

(** ** More fuel does not change results *)

Section HandlerFuel.
Variable std : stdlib.

Lemma andthen_mono (m1 m2 : option (composer bytes * bool)) k1 k2 r :
  (forall r, m1 = Some r -> m2 = Some r) ->
  (forall c r, k1 c = Some r -> k2 c = Some r) ->
  andthen m1 k1 = Some r -> andthen m2 k2 = Some r.
Proof.
  intros Hm Hk H. destruct m1 as [[c []]|]; [| |discriminate].
  - rewrite (Hm _ eq_refl). apply Hk. exact H.
  - rewrite (Hm _ eq_refl). exact H.
Qed.

Lemma basic_attr_mono n m c d a r : n <= m ->
  basic_attr std n c d a = Some r -> basic_attr std m c d a = Some r.
Proof.
  intros L. unfold basic_attr. destruct (c_replace c); auto. apply add_attribute_mono; auto.
Qed.

Lemma compose_mono n m h r x : n <= m -> compose std n h r = Some x -> compose std m h r = Some x.
Proof.
  intros L. unfold compose. apply andthen_mono.
  { intros y. unfold handle_time. destruct (t_zero _); auto. apply basic_attr_mono; auto. }
  intros c y. apply andthen_mono.
  { intros z. apply basic_attr_mono; auto. }
  intros c' z. apply andthen_mono.
  { intros w. apply basic_attr_mono; auto. }
  intros c'' w. apply andthen_mono.
  { intros u. unfold handle_source. destruct (o_add_source _), (r_source r); auto. apply basic_attr_mono; auto. }
  intros c3 u. apply andthen_mono; auto.
  intros v. apply add_attributes_mono; auto.
Qed.

Lemma handle_mono n m h r x : n <= m -> handle std n h r = Some x -> handle std m h r = Some x.
Proof.
  intros L. unfold handle. destruct (compose std n h r) as [[c ok]|] eqn:E; [|discriminate].
  rewrite (compose_mono n m h r _ L E). auto.
Qed.

Lemma handle_hdl_mono n m : n <= m -> forall g d r x,
  handle_hdl std n d g r = Some x -> handle_hdl std m d g r = Some x.
Proof.
  intros L. induction g as [h|h name parent IH]; intros d r x; cbn [handle_hdl].
  - apply handle_mono; auto.
  - destruct d; auto;
      match goal with |- (if ?b then _ else _) = _ -> _ => destruct b end;
      auto; apply handle_mono; auto.
Qed.

Lemma derive_mono n m : n <= m -> forall ops g x,
  derive std n g ops = Some x -> derive std m g ops = Some x.
Proof.
  intros L. induction ops as [|o ops IH]; intros g x; cbn [derive]; auto.
  destruct (step std n g o) as [g'|] eqn:E; [|discriminate].
  assert (E' : step std m g o = Some g').
  { destruct o as [l|nm]; cbn [step] in *; auto. unfold with_attrs_hdl, with_attrs in *.
    destruct (add_attributes happ std n _ l) as [[c ok]|] eqn:A; [|discriminate].
    rewrite (add_attributes_mono _ _ _ _ _ _ _ _ L A). exact E. }
  rewrite E'. auto.
Qed.

Lemma logs_intro o x ops d r n g out :
  derive std n (HBase (new_handler o x)) ops = Some g -> handle_hdl std n d g r = Some out ->
  logs std o x ops d r out.
Proof.
  intros D H. exists n. intros m L. exists g. split.
  - eapply derive_mono; eauto.
  - eapply handle_hdl_mono; eauto.
Qed.

Lemma logs_fun o x ops d r out1 out2 :
  logs std o x ops d r out1 -> logs std o x ops d r out2 -> out1 = out2.
Proof.
  intros (n1 & H1) (n2 & H2).
  destruct (H1 (max n1 n2)) as (g1 & D1 & E1); [lia|].
  destruct (H2 (max n1 n2)) as (g2 & D2 & E2); [lia|]. congruence.
Qed.

End HandlerFuel.

(** ** Statements for the property files *)

Lemma flash_replaced_spelled std : stdlib_ok std -> forall o ex ops r gs' bs fs,
  let x := fix_extras ex in
  let view := flash_view std (x_time_format x) (basic_field x) (o_replace o) in
  logged view str false (r_attrs r) [] ops gs' fs ->
  dens view str false gs' (flash_basics std (keys x) (x_level_names x) (o_add_source o) r) bs ->
  exists line, logs std o ex ops NoDead r (Done [line ++ [newline]] true) /\
    spelled (bs ++ fs) line.
Proof.
  intros Hs o ex ops r gs' bs fs x view L D.
  destruct (flash_logs_spelled std Hs (o_replace o) x (HBase (new_handler o ex)) ops r gs' fs bs) as (n0 & H); auto.
  { exists (new_handler o ex). repeat split. unfold hg. destruct (o_replace o); reflexivity. }
  destruct (H n0 (le_n _)) as (g & line & D0 & H0 & P).
  exists line. split; auto. eapply logs_intro; eauto.
Qed.

Lemma flash_replaced_json std : stdlib_ok std -> forall o ex ops r gs' bs fs,
  let x := fix_extras ex in
  let view := flash_view std (x_time_format x) (basic_field x) (o_replace o) in
  logged view str false (r_attrs r) [] ops gs' fs ->
  dens view str false gs' (flash_basics std (keys x) (x_level_names x) (o_add_source o) r) bs ->
  exists line, logs std o ex ops NoDead r (Done [line ++ [newline]] true) /\
    parse_json line = Some (JObj (bs ++ fs)) /\ clean line = true.
Proof.
  intros Hs o ex ops r gs' bs fs x view L D.
  destruct (flash_replaced_spelled std Hs o ex ops r gs' bs fs L D) as (line & H & S).
  exists line. split; auto. apply spelled_parses, S.
Qed.

Lemma handle_outcome std n h r out :
  handle std n h r = Some out ->
  let bad := broken std (basic_field (h_extras h)) (o_replace (h_options h)) (h_groups h) in
  let attrs := flash_basics std (keys (h_extras h)) (x_level_names (h_extras h)) (o_add_source (h_options h)) r
               ++ r_attrs r in
  (out = Done [] false /\ Exists bad attrs) \/
  (exists line, out = Done [line ++ [newline]] true /\ ends_with (chr 125) line = true /\ ~ Exists bad attrs).
Proof.
  intros H bad attrs. apply (handle_mono std n (S n)) in H; [|lia]. unfold handle in H.
  destruct (compose std (S n) h r) as [[c ok]|] eqn:E; [|discriminate].
  apply (compose_outcome std (o_replace (h_options h)) (h_extras h) n h r) in E as [F L]; auto.
  destruct ok; injection H as <-.
  - right. destruct (L eq_refl) as (line & -> & En). exists line. repeat split; auto.
    intros K. assert (true = false) by (apply F; exact K). discriminate.
  - left. split; auto. apply F. reflexivity.
Qed.
