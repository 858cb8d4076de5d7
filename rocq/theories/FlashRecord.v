(** Consequences of FlashProofs.v: records without ReplaceAttr, totality,
    LogValuers, groups without attributes, composition of WithAttrs. *)

From Coq Require Import Ascii String List ZArith NArith Bool Lia.
From Verif Require Import Bytes BytesProofs Json JsonProofs Slog SlogProofs SpecLog SpecFlash
  Flash EscapeProofs TextProofs FlashProofs.
Import ListNotations.

(** ** Resolution *)

Lemma resolve_n_not_lv n : forall v, is_log_valuer (resolve_n n v) = false.
Proof. induction n as [|n IH]; intros v; [reflexivity|]. destruct v; try reflexivity. apply IH. Qed.

Lemma resolve_not_lv v : is_log_valuer (resolve v) = false.
Proof. apply resolve_n_not_lv. Qed.

(** ** C03 *)

Section NoReplace.
Variable std : stdlib.
Variable layout : bytes.
Variable basic : bytes -> bool.

Local Notation vw := (flash_view std layout basic None).

Lemma str_text k j : str k = Some j -> j = JStr k.
Proof. intros H. apply str_some in H. tauto. Qed.

Lemma vw_group gs k l : vw gs (k, VGroup l) = Node k l.
Proof. destruct k; reflexivity. Qed.

Lemma vw_lv gs k v o : vw gs (k, VLogValuer v o) =
  if is_empty (k, resolve (VLogValuer v o)) then Gone
  else Leaf k (flash_resolved std (resolve (VLogValuer v o))).
Proof.
  unfold flash_view, flash_effective. cbn [snd fst is_log_valuer].
  destruct (is_empty _); [reflexivity|]. f_equal.
  pose proof (resolve_not_lv (VLogValuer v o)) as H.
  destruct (resolve (VLogValuer v o)); try reflexivity. discriminate.
Qed.

Lemma vw_leaf gs k v : (forall l, v <> VGroup l) -> (forall w o, v <> VLogValuer w o) ->
  vw gs (k, v) = if is_empty (k, v) then Gone else Leaf k (leaf flash_any (flash_time layout) str v).
Proof.
  intros N1 N2. unfold flash_view, flash_effective. cbn [snd fst].
  destruct v; cbn [is_log_valuer]; try reflexivity;
    [exfalso; eapply N1; reflexivity|exfalso; eapply N2; reflexivity].
Qed.

Lemma flash_nest_logged ops attrs gs fs :
  nest (flash_meanings std layout) ops attrs = Some fs ->
  exists gs', logged vw str false attrs gs ops gs' fs.
Proof.
  apply nest_logged.
  - apply str_text.
  - apply vw_group.
  - intros gs0 k v o j. rewrite vw_lv. split; [intros ->; reflexivity|intros -> ->; reflexivity].
  - apply vw_leaf.
Qed.

Lemma flash_header_dens gs keys names src r bs : stdlib_ok std ->
  flash_header keys layout names src r = Some bs ->
  dens vw str false gs (flash_basics std keys names src r) bs.
Proof.
  intros Hs. unfold flash_header, flash_basics, basics. destruct keys as [[[tk lk] mk] sk].
  set (ok := _ && _ && _ && _). destruct ok eqn:Ok; [|discriminate]. unfold ok in Ok.
  apply andb_prop in Ok as [Ok O4]. apply andb_prop in Ok as [Ok O3]. apply andb_prop in Ok as [O1 O2].
  assert (Lf : forall k v j, valid_utf8 k = true ->
    (forall l, v <> VGroup l) -> (forall w o, v <> VLogValuer w o) ->
    is_empty (k, v) = false -> leaf flash_any (flash_time layout) str v = Some j ->
    den vw str false gs (k, v) [(k, j)]).
  { intros k v j V N1 N2 Em L. apply den_leaf.
    - rewrite vw_leaf by auto. rewrite Em, L. reflexivity.
    - unfold str. rewrite V. reflexivity. }
  assert (Ap : forall l1 l2 f1 f2, dens vw str false gs l1 f1 -> dens vw str false gs l2 f2 ->
    dens vw str false gs (l1 ++ l2) (f1 ++ f2)).
  { intros l1 l2 f1 f2 D1 D2. induction D1; cbn [app]; auto. rewrite <- app_assoc. constructor; auto. }
  assert (One : forall a f, den vw str false gs a f -> dens vw str false gs [a] f).
  { intros a f D. rewrite <- (app_nil_r f). constructor; [auto|constructor]. }
  set (time := if t_zero _ then _ else _). destruct time as [t|] eqn:Tm; [|discriminate].
  set (s := match r_source r with Some _ => _ | None => _ end). destruct s as [sf|] eqn:Sr; [|discriminate].
  intros [= <-]. apply Ap; [|apply (Ap [_; _] _ [_; _])].
  - subst time. destruct (t_zero (r_time r)).
    + injection Tm as <-. constructor.
    + destruct (valid_utf8 tk) eqn:Vt; [|discriminate]. cbn [andb] in Tm.
      destruct (plain _) eqn:P; [|discriminate]. injection Tm as <-.
      apply One, Lf; auto; try discriminate.
      * destruct tk; reflexivity.
      * cbn [leaf]. unfold flash_time, raw_str. rewrite P. reflexivity.
  - apply (Ap [_] [_] [_] [_]); apply One, Lf; auto; try discriminate; try (destruct lk; reflexivity);
      try (destruct mk; reflexivity); cbn [leaf]; unfold str.
    + rewrite O2. reflexivity.
    + rewrite O4. reflexivity.
  - subst s. destruct (r_source r) as [sr|].
    + destruct src; cbn [negb] in Sr.
      * destruct (valid_utf8 sk) eqn:V1; [|discriminate].
        destruct (valid_utf8 (src_function sr)) eqn:V2; [|discriminate].
        destruct (valid_utf8 (src_file sr)) eqn:V3; [|discriminate]. cbn [andb] in Sr.
        injection Sr as <-. apply One, Lf; auto; try discriminate.
        { destruct sk; reflexivity. }
        apply (so_source_struct std Hs); auto.
      * injection Sr as <-. constructor.
    + injection Sr as <-. constructor.
Qed.

End NoReplace.

Lemma flash_record_spelled std : stdlib_ok std -> forall o ex ops r bs fs,
  let x := fix_extras ex in
  o_replace o = None ->
  flash_header (keys x) (x_time_format x) (x_level_names x) (o_add_source o) r = Some bs ->
  nest (flash_meanings std (x_time_format x)) ops (r_attrs r) = Some fs ->
  exists line, logs std o ex ops NoDead r (Done [line ++ [newline]] true) /\
    spelled (bs ++ fs) line.
Proof.
  intros Hs o ex ops r bs fs x No Hd Hn.
  destruct (flash_nest_logged std (x_time_format x) (basic_field x) ops (r_attrs r) [] fs Hn) as (gs' & L).
  apply (flash_replaced_spelled std Hs o ex ops r gs' bs fs); fold x; rewrite No; auto.
  apply flash_header_dens; auto.
Qed.

Lemma flash_record_json std : stdlib_ok std -> forall o ex ops r bs fs,
  let x := fix_extras ex in
  o_replace o = None ->
  flash_header (keys x) (x_time_format x) (x_level_names x) (o_add_source o) r = Some bs ->
  nest (flash_meanings std (x_time_format x)) ops (r_attrs r) = Some fs ->
  exists line, logs std o ex ops NoDead r (Done [line ++ [newline]] true) /\
    parse_json line = Some (JObj (bs ++ fs)) /\ clean line = true.
Proof.
  intros Hs o ex ops r bs fs x No Hd Hn.
  destruct (flash_record_spelled std Hs o ex ops r bs fs No Hd Hn) as (line & H & S).
  exists line. split; auto. apply spelled_parses, S.
Qed.

(** ** Termination without ReplaceAttr *)

Fixpoint depth (v : value) : nat :=
  match v with
  | VGroup l => S (list_max (map (fun a => depth (snd a)) l))
  | _ => 0
  end.

Section Total.
Variable std : stdlib.

Lemma add_attribute_total n : forall c a, c_replace c = None -> depth (snd a) < n ->
  exists c' ok, add_attribute happ std n c a = Some (c', ok) /\ c_replace c' = None.
Proof.
  induction n as [|n IH]; intros c a Hr Hd; [lia|].
  assert (K : forall c k, c_replace c = None -> c_replace (add_key happ (add_separator happ c) k) = None).
  { intros c0 k H0. unfold add_separator. destruct (c_started c0); exact H0. }
  assert (A : forall c o, c_replace c = None -> c_replace (fst (add_any happ c o)) = None).
  { intros c0 o H0. unfold add_any, add_marshaler.
    destruct (ao_stringer o); [exact H0|]. destruct (ao_error o); [exact H0|].
    destruct (ao_jsonm o) as [[]|]; [exact H0..|]. destruct (ao_textm o) as [[]|]; [exact H0..|].
    destruct (ao_marshal o); exact H0. }
  assert (L : forall l c, c_replace c = None -> list_max (map (fun a : attr => depth (snd a)) l) < n ->
    exists c' ok, attrs_loop (add_attribute happ std n) c l = Some (c', ok) /\ c_replace c' = None).
  { clear - IH. induction l as [|a l IHl]; intros c Hr Hd; cbn [attrs_loop]; [eauto|].
    change (list_max (map (fun a : attr => depth (snd a)) (a :: l)))
      with (Nat.max (depth (snd a)) (list_max (map (fun a : attr => depth (snd a)) l))) in Hd.
    destruct (IH c a) as (c' & ok & E & Hr'); auto; [lia|]. rewrite E. destruct ok; eauto.
    apply IHl; auto. lia. }
  cbn [add_attribute]. rewrite Hr. destruct a as [k v]. cbn [fst snd] in *.
  set (is_lv := match v with VLogValuer _ _ => true | _ => false end).
  destruct (if is_lv then (k, resolve v) else (k, v)) as [k' v'] eqn:E.
  destruct (is_empty (k', v')); [eauto|].
  destruct is_lv eqn:Lv.
  - destruct (add_any happ (add_key happ (add_separator happ c) k') (any_of_value std v')) as [c' ok] eqn:Ea.
    exists c', ok. split; auto. change c' with (fst (c', ok)). rewrite <- Ea. auto.
  - injection E as <- <-. destruct v; try (eexists _, _; split; [reflexivity|]; apply K; auto).
    + destruct (add_any happ (add_key happ (add_separator happ c) k) (any_of_value std (VAny a))) as [c' ok] eqn:Ea.
      exists c', ok. split; auto. change c' with (fst (c', ok)). rewrite <- Ea. auto.
    + change (S (list_max (map (fun a : attr => depth (snd a)) l)) < S n) in Hd. destruct (empty_group l); [eauto|]. destruct k as [|kc k].
      * apply L; auto. lia.
      * destruct (L l (reset (add_bytes happ (add_key happ (add_separator happ c) (kc :: k)) (B "{")))) as (c' & ok & E & Hr').
        { apply (K c (kc :: k)); auto. } { lia. }
        rewrite E. destruct ok; eauto.
    + discriminate Lv.
Qed.

Lemma add_attributes_total l c : c_replace c = None ->
  exists n0, forall n, n0 <= n -> exists c' ok, add_attributes happ std n c l = Some (c', ok) /\ c_replace c' = None.
Proof.
  intros Hr. exists (S (list_max (map (fun a : attr => depth (snd a)) l))). intros n Hn. unfold add_attributes.
  revert c Hr. induction l as [|a l IH]; intros c Hr; cbn [attrs_loop]; [eauto|].
  change (list_max (map (fun a : attr => depth (snd a)) (a :: l)))
    with (Nat.max (depth (snd a)) (list_max (map (fun a : attr => depth (snd a)) l))) in Hn.
  destruct (add_attribute_total n c a) as (c' & ok & E & Hr'); auto; [lia|]. rewrite E. destruct ok; eauto.
  apply IH; auto. lia.
Qed.

Lemma handle_total h r : o_replace (h_options h) = None ->
  exists n0, forall n, n0 <= n -> exists out, handle std n h r = Some out.
Proof.
  intros Hr.
  (* the composer reached before the record's attributes does not depend on the fuel *)
  set (c0 := add_bytes happ (new_composer [] false (o_replace (h_options h)) (h_groups h) (h_extras h)) (B "{")).
  assert (K : forall c k, c_replace c = None -> c_replace (add_key happ (add_separator happ c) k) = None).
  { intros c k H0. unfold add_separator. destruct (c_started c); exact H0. }
  assert (BA : forall c d a n, c_replace c = None -> basic_attr std n c d a = Some (d (add_key happ (add_separator happ c) (fst a)))).
  { intros c d a n H. unfold basic_attr. rewrite H. reflexivity. }
  assert (T : exists c ok, c_replace c = None /\ forall n, handle_time std n h r c0 = Some (c, ok)).
  { unfold handle_time. destruct (t_zero _). { exists c0, true. split; auto. }
    eexists _, true. split; [|intros n; rewrite BA by exact Hr; reflexivity]. apply (K c0). exact Hr. }
  destruct T as (c1 & ok1 & R1 & T).
  destruct ok1; [|exists 0; intros; unfold handle, compose; fold c0; rewrite T; cbn [andthen]; eauto].
  assert (T2 : exists c ok, c_replace c = None /\ forall n, handle_level std n h r c1 = Some (c, ok)).
  { unfold handle_level. eexists _, true. split; [|intros n; rewrite BA by exact R1; reflexivity]. apply (K c1). exact R1. }
  destruct T2 as (c2 & ok2 & R2 & T2).
  destruct ok2; [|exists 0; intros; unfold handle, compose; fold c0; rewrite T; cbn [andthen]; rewrite T2; cbn [andthen]; eauto].
  assert (T3 : exists c ok, c_replace c = None /\ forall n, handle_message std n h r c2 = Some (c, ok)).
  { unfold handle_message. eexists _, true. split; [|intros n; rewrite BA by exact R2; reflexivity]. apply (K c2). exact R2. }
  destruct T3 as (c3 & ok3 & R3 & T3).
  destruct ok3; [|exists 0; intros; unfold handle, compose; fold c0; rewrite T; cbn [andthen]; rewrite T2; cbn [andthen]; rewrite T3; cbn [andthen]; eauto].
  assert (T4 : exists c ok, c_replace c = None /\ forall n, handle_source std n h r c3 = Some (c, ok)).
  { unfold handle_source. destruct (o_add_source (h_options h)); [destruct (r_source r) as [s|]|].
    - set (o := plain_obs (sl_source_struct std s)).
      destruct (add_any happ (add_key happ (add_separator happ c3) (x_source_key (h_extras h))) o) as [c ok] eqn:Ea.
      exists c, ok. split; [|intros n; rewrite BA by exact R3; cbn [fst]; rewrite Ea; reflexivity].
      change c with (fst (c, ok)). rewrite <- Ea. subst o. unfold add_any, plain_obs. cbn. destruct (sl_source_struct std s);
      apply (K c3); exact R3.
    - exists c3, true. split; auto.
    - exists c3, true. split; auto. }
  destruct T4 as (c4 & ok4 & R4 & T4).
  destruct ok4; [|exists 0; intros; unfold handle, compose; fold c0; rewrite T; cbn [andthen]; rewrite T2; cbn [andthen]; rewrite T3; cbn [andthen]; rewrite T4; cbn [andthen]; eauto].
  destruct (add_attributes_total (r_attrs r) (handle_prefix h c4)) as (n0 & Hn).
  { unfold handle_prefix. destruct (h_prefix h); auto. unfold add_separator.
    destruct (c_started c4), (ends_with _ _); exact R4. }
  exists n0. intros n L. destruct (Hn n L) as (c' & ok & E & _).
  unfold handle, compose. fold c0. rewrite T. cbn [andthen]. rewrite T2. cbn [andthen]. rewrite T3.
  cbn [andthen]. rewrite T4. cbn [andthen]. rewrite E. destruct ok; cbn [andthen]; eauto.
Qed.

Definition all_none (g : hdl) : Prop :=
  (fix go (g : hdl) : Prop :=
     match g with
     | HBase h => o_replace (h_options h) = None
     | HGroup h _ p => o_replace (h_options h) = None /\ go p
     end) g.

Lemma all_none_inner g : all_none g -> o_replace (h_options (inner g)) = None.
Proof. destruct g; cbn; tauto. Qed.

Lemma handle_hdl_total g : all_none g -> forall d r,
  exists n0, forall n, n0 <= n -> exists out, handle_hdl std n d g r = Some out.
Proof.
  induction g as [h|h name p IH]; intros Hn d r; cbn [handle_hdl].
  - apply handle_total. exact Hn.
  - destruct Hn as [Hh Hp]. fold (all_none p) in Hp.
    destruct d; try (exists 0; intros; eauto; fail);
      match goal with |- context [if ?b then _ else _] => destruct b end;
      solve [apply IH; auto | apply handle_total; auto].
Qed.

Lemma derive_total ops : forall g, all_none g ->
  exists n0, forall n, n0 <= n -> exists g', derive std n g ops = Some g' /\ all_none g'.
Proof.
  induction ops as [|[l|name] ops IH]; intros g Hg.
  - exists 0. intros. exists g. auto.
  - pose proof (all_none_inner g Hg) as Hi.
    set (c := new_composer (h_prefix (inner g)) 
      match h_prefix (inner g) with [] => false | _ => negb (ends_with (chr 123) (h_prefix (inner g))) end
      (o_replace (h_options (inner g))) (h_groups (inner g)) (h_extras (inner g))).
    destruct (add_attributes_total l c) as (n1 & H1); [exact Hi|].
    destruct (H1 n1 (le_n _)) as (c1 & ok1 & E1 & _).
    set (g1 := HBase {| h_options := h_options (inner g); h_extras := h_extras (inner g); h_prefix := c_buffer c1;
                  h_suffix := h_suffix (inner g); h_groups := h_groups (inner g) |}).
    destruct (IH g1 Hi) as (n2 & H2).
    exists (max n1 n2). intros n L. cbn [derive step]. unfold with_attrs_hdl, with_attrs. fold c.
    rewrite (add_attributes_mono _ happ std n1 n c l _ ltac:(lia) E1). fold g1. apply H2. lia.
  - destruct (IH (with_group_hdl g name)) as (n0 & H0).
    { destruct name; cbn [with_group_hdl]; [apply all_none_inner; auto|].
      cbn. split; [|exact Hg]. apply all_none_inner; auto. }
    exists n0. intros n L. cbn [derive step]. apply H0; auto.
Qed.

Lemma logs_total o x ops d r : o_replace o = None -> exists out, logs std o x ops d r out.
Proof.
  intros No. destruct (derive_total ops (HBase (new_handler o x))) as (n1 & H1); [exact No|].
  destruct (H1 n1 (le_n _)) as (g & D & Hg).
  destruct (handle_hdl_total g Hg d r) as (n2 & H2).
  destruct (H2 (max n1 n2)) as (out & Ho); [lia|].
  exists out. apply logs_intro with (n := max n1 n2) (g := g); auto.
  apply derive_mono with (n := n1); auto. lia.
Qed.

End Total.
