(** Laws of flash handlers: contexts, groups without attributes, LogValuers,
    composition of WithAttrs. *)

From Coq Require Import Ascii String List ZArith NArith Bool Lia.
From Verif Require Import Bytes BytesProofs Json JsonProofs Slog SlogProofs SpecLog SpecFlash
  Flash EscapeProofs TextProofs FlashProofs FlashRecord.
Import ListNotations.

(** ** Which handler does the work *)

(** The handlers a handler can hand a record to: itself and those below its groups. *)
Fixpoint lineage (g : hdl) : list handler :=
  match g with
  | HBase h => [h]
  | HGroup h _ p => h :: lineage p
  end.

(** The handler below all groups opened directly on it. *)
Fixpoint ground (g : hdl) : handler :=
  match g with
  | HBase h => h
  | HGroup _ _ p => ground p
  end.

Lemma first_attr_none l : first_attr l = None <-> forallb is_empty l = true.
Proof.
  induction l as [|a l IH]; cbn [first_attr forallb]; [tauto|].
  destruct (is_empty a); cbn [andb]; auto. split; discriminate.
Qed.

Section Laws.
Variable std : stdlib.

Lemma handle_hdl_in n d g r out : handle_hdl std n d g r = Some out ->
  out = Panic \/ exists h, In h (lineage g) /\ handle std n h r = Some out.
Proof.
  revert d. induction g as [h|h name p IH]; intros d; cbn [handle_hdl lineage].
  - intros H. right. exists h. cbn. auto.
  - destruct d; try (intros [= <-]; auto; fail);
      match goal with |- (if ?b then _ else _) = _ -> _ => destruct b end; intros H.
    all: try (apply IH in H as [->|(h' & I & H)]; [auto|right; exists h'; cbn; auto]).
    all: right; exists h; cbn; auto.
Qed.

Lemma handle_not_panic n h r : handle std n h r <> Some Panic.
Proof. unfold handle. destruct (compose std n h r) as [[c []]|]; discriminate. Qed.

(** Without a dead group in the context, the record goes to the handler below
    the groups when it has no attributes and to the handler itself otherwise. *)
Lemma handle_empty n g r : forallb is_empty (r_attrs r) = true -> forall d, d <> DeadOther ->
  handle_hdl std n d g r = handle std n (ground g) r.
Proof.
  intros E. apply first_attr_none in E.
  induction g as [h|h name p IH]; intros d Hd; cbn [handle_hdl ground]; auto.
  rewrite E. destruct d; try congruence; apply IH; discriminate.
Qed.

Lemma handle_nodead n g r : handle_hdl std n NoDead g r =
  handle std n (if forallb is_empty (r_attrs r) then ground g else inner g) r.
Proof.
  destruct (forallb is_empty (r_attrs r)) eqn:E.
  - apply handle_empty; auto. discriminate.
  - destruct g as [h|h name p]; cbn [handle_hdl inner]; auto.
    destruct (first_attr (r_attrs r)) as [[k v]|] eqn:F; [reflexivity|].
    apply first_attr_none in F. congruence.
Qed.

Lemma handle_dead_name n s g r : (forall k v, first_attr (r_attrs r) = Some (k, v) -> k <> s) ->
  handle_hdl std n (DeadName s) g r = handle_hdl std n NoDead g r.
Proof.
  intros H. rewrite handle_nodead. destruct (forallb is_empty (r_attrs r)) eqn:E.
  - apply handle_empty; auto. discriminate.
  - destruct g as [h|h name p]; cbn [handle_hdl inner]; auto.
    destruct (first_attr (r_attrs r)) as [[k v]|] eqn:F.
    + destruct (beq k s) eqn:Ek. { apply beq_eq in Ek. exfalso. apply (H k v); auto. }
      rewrite andb_false_r. reflexivity.
    + apply first_attr_none in F. congruence.
Qed.

Lemma derive_app n ops1 ops2 : forall g, derive std n g (ops1 ++ ops2) =
  match derive std n g ops1 with Some g' => derive std n g' ops2 | None => None end.
Proof.
  induction ops1 as [|o ops IH]; intros g; cbn [app derive]; auto.
  destruct (step std n g o); auto.
Qed.

(** Groups opened on top of a handler leave records without attributes alone. *)
Lemma groups_elided o x ops names r out :
  forallb is_empty (r_attrs r) = true -> Forall (fun name => name <> []) names ->
  logs std o x ops NoDead r out <-> logs std o x (ops ++ map WithGroup names) NoDead r out.
Proof.
  intros E N.
  assert (K : forall n g, exists g', derive std n g (map WithGroup names) = Some g' /\ ground g' = ground g).
  { intros n. induction N as [|name names Hn N IH]; intros g; cbn [map derive step]; [eauto|].
    destruct (IH (with_group_hdl g name)) as (g' & D & G). exists g'. split; auto.
    rewrite G. destruct name; [congruence|reflexivity]. }
  split; intros (n0 & H); exists n0; intros n L; destruct (H n L) as (g & D & Hh).
  - destruct (K n g) as (g' & D' & G). exists g'. split.
    + rewrite derive_app, D. exact D'.
    + rewrite handle_empty in * by (auto; discriminate). rewrite G. exact Hh.
  - rewrite derive_app in D. destruct (derive std n (HBase (new_handler o x)) ops) as [g0|] eqn:D0; [|discriminate].
    exists g0. split; auto. destruct (K n g0) as (g' & D' & G).
    rewrite handle_empty in * by (auto; discriminate). congruence.
Qed.

End Laws.

(** ** ReplaceAttr never sees a LogValuer *)

Section Unseen.
Variable std : stdlib.
Variables f f' : attr_fn.
Hypothesis agree : forall gs a, is_log_valuer (snd a) = false -> f gs a = f' gs a.

Definition retag (c : composer bytes) : composer bytes :=
  {| c_buffer := c_buffer c; c_started := c_started c; c_replace := Some f';
     c_groups := c_groups c; c_extras := c_extras c |}.

Definition lift (m : option (composer bytes * bool)) : option (composer bytes * bool) :=
  match m with Some (c, ok) => Some (retag c, ok) | None => None end.

Lemma retag_key c k : add_key happ (add_separator happ (retag c)) k = retag (add_key happ (add_separator happ c) k).
Proof. unfold add_separator. destruct c as [b [] rp gs x]; reflexivity. Qed.

Lemma retag_any c o : add_any happ (retag c) o = (retag (fst (add_any happ c o)), snd (add_any happ c o)).
Proof.
  unfold add_any, add_marshaler. destruct (ao_stringer o); [reflexivity|]. destruct (ao_error o); [reflexivity|].
  destruct (ao_jsonm o) as [[]|]; [reflexivity..|]. destruct (ao_textm o) as [[]|]; [reflexivity..|].
  destruct (ao_marshal o); reflexivity.
Qed.

Lemma add_key_replace (c : composer bytes) k : c_replace (add_key happ (add_separator happ c) k) = c_replace c.
Proof. unfold add_separator. destruct (c_started c); reflexivity. Qed.

Lemma add_any_replace (c : composer bytes) o : c_replace (fst (add_any happ c o)) = c_replace c.
Proof.
  unfold add_any, add_marshaler. destruct (ao_stringer o); [reflexivity|]. destruct (ao_error o); [reflexivity|].
  destruct (ao_jsonm o) as [[]|]; [reflexivity..|]. destruct (ao_textm o) as [[]|]; [reflexivity..|].
  destruct (ao_marshal o); reflexivity.
Qed.

Lemma attr_unseen n : forall c a, c_replace c = Some f ->
  add_attribute happ std n (retag c) a = lift (add_attribute happ std n c a) /\
  forall c' ok, add_attribute happ std n c a = Some (c', ok) -> c_replace c' = Some f.
Proof.
  induction n as [|n IH]; intros c a Hc; [split; [reflexivity|discriminate]|].
  assert (L : forall l c, c_replace c = Some f ->
    attrs_loop (add_attribute happ std n) (retag c) l = lift (attrs_loop (add_attribute happ std n) c l) /\
    forall c' ok, attrs_loop (add_attribute happ std n) c l = Some (c', ok) -> c_replace c' = Some f).
  { clear - IH. induction l as [|a l IHl]; intros c Hc; cbn [attrs_loop].
    - split; [reflexivity|]. intros c' ok [= <- <-]. exact Hc.
    - destruct (IH c a Hc) as [E R]. rewrite E.
      destruct (add_attribute happ std n c a) as [[c' []]|]; cbn [lift].
      + apply IHl. eapply R. reflexivity.
      + split; [reflexivity|]. intros c2 ok [= <- <-]. eapply R. reflexivity.
      + split; [reflexivity|discriminate]. }
  cbn [add_attribute]. destruct a as [k v]. cbn [fst snd].
  set (is_lv := match v with VLogValuer _ _ => true | _ => false end).
  assert (Ea : (if is_lv then (k, resolve v) else (k, v)) = (k, resolve v)).
  { subst is_lv. destruct v; reflexivity. }
  rewrite Ea. rewrite Hc. change (c_replace (retag c)) with (Some f'). cbn [fst].
  change (replace_groups (retag c) k) with (replace_groups c k).
  rewrite <- (agree (replace_groups c k) (k, resolve v)) by apply resolve_not_lv.
  destruct (f (replace_groups c k) (k, resolve v)) as [k' v'] eqn:Ef. cbn [snd].
  destruct (is_empty (k', v')).
  { split; [reflexivity|]. intros c' ok [= <- <-]. exact Hc. }
  assert (Any : forall o, Some (add_any happ (add_key happ (add_separator happ (retag c)) k') o) =
     lift (Some (add_any happ (add_key happ (add_separator happ c) k') o)) /\
     (forall c' ok, Some (add_any happ (add_key happ (add_separator happ c) k') o) = Some (c', ok) -> c_replace c' = Some f)).
  { intros o. rewrite retag_key, retag_any. split.
    - unfold lift. destruct (add_any happ (add_key happ (add_separator happ c) k') o); reflexivity.
    - intros c' ok [= H]. change c' with (fst (c', ok)). rewrite <- H, add_any_replace, add_key_replace. exact Hc. }
  destruct v' as [a'| | | | | | | |l|];
    try (rewrite retag_key; split; [reflexivity|]; intros c' ok [= <- <-]; 
         rewrite <- Hc, <- (add_key_replace c k'); reflexivity).
  - apply Any.
  - destruct (empty_group l).
    { split; [reflexivity|]. intros c' ok [= <- <-]. exact Hc. }
    destruct k' as [|kc k'].
    { apply L. exact Hc. }
    rewrite retag_key.
    change (reset (add_bytes happ (retag (add_key happ (add_separator happ c) (kc :: k'))) (B "{"))) with
      (retag (reset (add_bytes happ (add_key happ (add_separator happ c) (kc :: k')) (B "{")))).
    destruct (L l (reset (add_bytes happ (add_key happ (add_separator happ c) (kc :: k')) (B "{")))) as [E R].
    { rewrite <- Hc, <- (add_key_replace c (kc :: k')). reflexivity. }
    rewrite E. destruct (attrs_loop (add_attribute happ std n)
      (reset (add_bytes happ (add_key happ (add_separator happ c) (kc :: k')) (B "{"))) l) as [[c2 []]|]; cbn [lift].
    + split; [reflexivity|]. intros c' ok [= <- <-]. exact (R _ _ eq_refl).
    + split; [reflexivity|]. intros c' ok [= <- <-]. exact (R _ _ eq_refl).
    + split; [reflexivity|discriminate].
  - apply Any.
Qed.

Lemma attrs_unseen n l : forall c, c_replace c = Some f ->
  add_attributes happ std n (retag c) l = lift (add_attributes happ std n c l) /\
  forall c' ok, add_attributes happ std n c l = Some (c', ok) -> c_replace c' = Some f.
Proof.
  unfold add_attributes. induction l as [|a l IHl]; intros c Hc; cbn [attrs_loop].
  - split; [reflexivity|]. intros c' ok [= <- <-]. exact Hc.
  - destruct (attr_unseen n c a Hc) as [E R]. rewrite E.
    destruct (add_attribute happ std n c a) as [[c' []]|]; cbn [lift].
    + apply IHl. eapply R. reflexivity.
    + split; [reflexivity|]. intros c2 ok [= <- <-]. eapply R. reflexivity.
    + split; [reflexivity|discriminate].
Qed.

Definition reopt (o : options) : options := {| o_add_source := o_add_source o; o_replace := Some f' |}.

Definition rehandler (h : handler) : handler :=
  {| h_options := reopt (h_options h); h_extras := h_extras h; h_prefix := h_prefix h;
     h_suffix := h_suffix h; h_groups := h_groups h |}.

Lemma basic_unseen n c d a : c_replace c = Some f ->
  basic_attr std n (retag c) d a = lift (basic_attr std n c d a) /\
  forall c' ok, basic_attr std n c d a = Some (c', ok) -> c_replace c' = Some f.
Proof.
  intros Hc. unfold basic_attr. rewrite Hc. change (c_replace (retag c)) with (Some f').
  apply attr_unseen. exact Hc.
Qed.

Lemma andthen_lift m k k' :
  (forall c ok, m = Some (c, ok) -> c_replace c = Some f) ->
  (forall c, c_replace c = Some f -> k' (retag c) = lift (k c) /\ forall c' ok, k c = Some (c', ok) -> c_replace c' = Some f) ->
  andthen (lift m) k' = lift (andthen m k) /\
  forall c' ok, andthen m k = Some (c', ok) -> c_replace c' = Some f.
Proof.
  intros Hm Hk. destruct m as [[c []]|]; cbn [lift andthen].
  - apply Hk. eapply Hm. reflexivity.
  - split; [reflexivity|]. intros c' ok [= <- <-]. eapply Hm. reflexivity.
  - split; [reflexivity|discriminate].
Qed.

Lemma handle_unseen n h r : o_replace (h_options h) = Some f ->
  handle std n (rehandler h) r = handle std n h r.
Proof.
  intros Ho.
  assert (C : compose std n (rehandler h) r = lift (compose std n h r)).
  { unfold compose. rewrite Ho. cbn [rehandler h_options h_groups h_extras reopt o_replace].
    set (c0 := add_bytes happ (new_composer [] false (Some f) (h_groups h) (h_extras h)) (B "{")).
    change (add_bytes happ (new_composer [] false (Some f') (h_groups h) (h_extras h)) (B "{")) with (retag c0).
    assert (H0 : c_replace c0 = Some f) by reflexivity.
    assert (T : handle_time std n (rehandler h) r (retag c0) = lift (handle_time std n h r c0) /\
      forall c' ok, handle_time std n h r c0 = Some (c', ok) -> c_replace c' = Some f).
    { unfold handle_time. destruct (t_zero (r_time r)).
      - split; [reflexivity|]. intros c' ok [= <- <-]. exact H0.
      - apply (basic_unseen n c0 _ (x_time_key (h_extras h), VTime (r_time r)) H0). }
    destruct T as [-> T]. apply andthen_lift; auto. intros c1 H1.
    destruct (basic_unseen n c1 (fun c => (add_string happ c (x_level_names (h_extras h) (r_level r)), true))
      (x_level_key (h_extras h), VString (x_level_names (h_extras h) (r_level r))) H1) as [E1 R1].
    unfold handle_level. cbn [rehandler h_extras]. rewrite E1. apply andthen_lift; auto. intros c2 H2.
    destruct (basic_unseen n c2 (fun c => (add_string happ c (r_msg r), true))
      (x_message_key (h_extras h), VString (r_msg r)) H2) as [E2 R2].
    unfold handle_message. cbn [rehandler h_extras]. rewrite E2. apply andthen_lift; auto. intros c3 H3.
    assert (S : handle_source std n (rehandler h) r (retag c3) = lift (handle_source std n h r c3) /\
      forall c' ok, handle_source std n h r c3 = Some (c', ok) -> c_replace c' = Some f).
    { unfold handle_source. cbn [rehandler h_options reopt o_add_source h_extras].
      destruct (o_add_source (h_options h)); [destruct (r_source r) as [s|]|].
      - apply basic_unseen. exact H3.
      - split; [reflexivity|]. intros c' ok [= <- <-]. exact H3.
      - split; [reflexivity|]. intros c' ok [= <- <-]. exact H3. }
    destruct S as [-> S]. apply andthen_lift; auto. intros c4 H4.
    assert (P : handle_prefix (rehandler h) (retag c4) = retag (handle_prefix h c4) /\ c_replace (handle_prefix h c4) = Some f).
    { unfold handle_prefix. cbn [rehandler h_prefix]. destruct (h_prefix h); [auto|].
      unfold add_separator. change (c_started (retag c4)) with (c_started c4).
      destruct (c_started c4), (ends_with _ _); split; try exact H4; reflexivity. }
    destruct P as [-> P]. destruct (attrs_unseen n (r_attrs r) _ P) as [Ea Ra]. rewrite Ea.
    apply andthen_lift; auto. intros c5 H5. cbn [rehandler h_suffix].
    destruct (h_suffix h); (split; [reflexivity|]; intros c' ok [= <- <-]; exact H5). }
  unfold handle. rewrite C. destruct (compose std n h r) as [[c []]|]; reflexivity.
Qed.

Fixpoint rehdl (g : hdl) : hdl :=
  match g with
  | HBase h => HBase (rehandler h)
  | HGroup h n p => HGroup (rehandler h) n (rehdl p)
  end.

Fixpoint uses (g : hdl) : Prop :=
  match g with
  | HBase h => o_replace (h_options h) = Some f
  | HGroup h _ p => o_replace (h_options h) = Some f /\ uses p
  end.

Lemma inner_rehdl g : inner (rehdl g) = rehandler (inner g).
Proof. destruct g; reflexivity. Qed.

Lemma uses_inner g : uses g -> o_replace (h_options (inner g)) = Some f.
Proof. destruct g; cbn; tauto. Qed.

Lemma handle_hdl_unseen n g : uses g -> forall d r,
  handle_hdl std n d (rehdl g) r = handle_hdl std n d g r.
Proof.
  induction g as [h|h name p IH]; intros U d r; cbn [rehdl handle_hdl].
  - apply handle_unseen; auto.
  - destruct U as [U1 U2]. rewrite handle_unseen by auto. destruct d; rewrite ?IH by auto; reflexivity.
Qed.

Lemma derive_unseen n ops : forall g, uses g ->
  derive std n (rehdl g) ops = match derive std n g ops with Some g' => Some (rehdl g') | None => None end /\
  forall g', derive std n g ops = Some g' -> uses g'.
Proof.
  induction ops as [|[l|name] ops IH]; intros g U; cbn [derive step].
  - split; [reflexivity|]. intros g' [= <-]. exact U.
  - unfold with_attrs_hdl, with_attrs. rewrite inner_rehdl. pose proof (uses_inner g U) as Ui.
    set (h := inner g) in *. rewrite Ui.
    cbn [rehandler h_prefix h_options reopt o_replace h_groups h_extras h_suffix].
    set (c := new_composer (h_prefix h) _ (Some f) (h_groups h) (h_extras h)).
    set (c' := new_composer (h_prefix h) _ (Some f') (h_groups h) (h_extras h)).
    change c' with (retag c). destruct (attrs_unseen n l c eq_refl) as [E R]. rewrite E.
    destruct (add_attributes happ std n c l) as [[c1 ok]|]; cbn [lift]; [|split; [reflexivity|discriminate]].
    cbn [c_buffer retag].
    apply (IH (HBase {| h_options := h_options h; h_extras := h_extras h; h_prefix := c_buffer c1;
                         h_suffix := h_suffix h; h_groups := h_groups h |})). exact Ui.
  - replace (with_group_hdl (rehdl g) name) with (rehdl (with_group_hdl g name)).
    + apply IH. destruct name; cbn [with_group_hdl uses]; [apply uses_inner; auto|].
      split; [|exact U]. cbn [with_group h_options]. apply uses_inner; auto.
    + pose proof (uses_inner g U) as Ui. destruct name; cbn [with_group_hdl rehdl]; rewrite inner_rehdl; [reflexivity|].
      f_equal. unfold with_group, rehandler. cbn [h_options h_extras h_prefix h_suffix h_groups reopt o_replace].
      rewrite Ui. reflexivity.
Qed.

Lemma logs_unseen src x ops d r out :
  logs std {| o_add_source := src; o_replace := Some f |} x ops d r out ->
  logs std {| o_add_source := src; o_replace := Some f' |} x ops d r out.
Proof.
  intros (n0 & H). exists n0. intros n L. destruct (H n L) as (g & D & Hh).
  set (h := new_handler {| o_add_source := src; o_replace := Some f |} x) in D.
  change (new_handler {| o_add_source := src; o_replace := Some f' |} x) with (rehandler h).
  change (HBase (rehandler h)) with (rehdl (HBase h)).
  destruct (derive_unseen n ops (HBase h) eq_refl) as [E R]. rewrite D in E.
  exists (rehdl g). split; [exact E|]. rewrite handle_hdl_unseen; auto.
Qed.

End Unseen.

(** ** LogValuers and their values *)

Section Transparent.
Variable std : stdlib.
Variable layout : bytes.

Lemma simple_resolved w : simple w = true -> flash_resolved std w = flash_leaf layout w.
Proof. destruct w as [[|o]| | | | | | | | |]; try discriminate; reflexivity. Qed.

Lemma simple_not_empty k w : simple w = true -> is_empty (k, w) = false.
Proof. destruct k, w as [[|o]| | | | | | | | |]; try discriminate; reflexivity. Qed.

Local Notation mean := (meaning flash_any (flash_time layout) str (flash_resolved std)).

Lemma unfold_attr a b : lv_unfold a b ->
  fst a = fst b /\ is_empty a = is_empty b /\ empty_value (snd a) = empty_value (snd b) /\
  mean (fst a) (snd a) = mean (fst b) (snd b).
Proof.
  revert a b. fix IH 3. intros a b H. destruct H as [a|k v o w R S|k l l' F].
  - auto.
  - cbn [fst snd]. pose proof (simple_not_empty k w S) as Em.
    repeat split.
    + rewrite Em. destruct k; reflexivity.
    + destruct w; try discriminate; reflexivity.
    + change (mean k (VLogValuer v o)) with
        (if is_empty (k, resolve (VLogValuer v o)) then Some [] else one str k (flash_resolved std (resolve (VLogValuer v o)))).
      rewrite R, Em, simple_resolved by auto.
      destruct w as [[|ob]| | | | | | | | |]; try discriminate; cbn [meaning]; try rewrite Em; reflexivity.
  - cbn [fst snd]. split; [reflexivity|]. split; [destruct k; reflexivity|].
    assert (G : empty_group l = empty_group l' /\ flash_meanings std layout l = flash_meanings std layout l').
    { clear k. induction F as [|a b l l' Hab F IHF]; [auto|]. destruct IHF as [I1 I2].
      destruct (IH a b Hab) as (_ & E1 & E2 & E3). split.
      - rewrite !empty_group_cons, E1, E2, I1. reflexivity.
      - unfold flash_meanings in *. cbn [meanings]. rewrite E3, I2. reflexivity. }
    destruct G as [G1 G2]. split; [exact G1|]. unfold flash_meanings in G2. rewrite !meaning_group, G1, G2. reflexivity.
Qed.

Lemma unfold_list l l' : Forall2 lv_unfold l l' ->
  flash_meanings std layout l = flash_meanings std layout l' /\ forallb is_empty l = forallb is_empty l'.
Proof.
  induction 1 as [|a b l l' Hab F [I1 I2]]; [auto|].
  destruct (unfold_attr a b Hab) as (_ & E1 & E2 & E3). split.
  - unfold flash_meanings in *. cbn [meanings]. rewrite E3, I1. reflexivity.
  - cbn [forallb]. congruence.
Qed.

(** The same for derivations. *)
Inductive op_unfold : op -> op -> Prop :=
| ou_attrs l l' : Forall2 lv_unfold l l' -> op_unfold (WithAttrs l) (WithAttrs l')
| ou_group name : op_unfold (WithGroup name) (WithGroup name).

Lemma unfold_nest ops ops' attrs attrs' : Forall2 op_unfold ops ops' -> Forall2 lv_unfold attrs attrs' ->
  nest (flash_meanings std layout) ops attrs = nest (flash_meanings std layout) ops' attrs'.
Proof.
  intros Fo Fa. destruct (unfold_list _ _ Fa) as [A1 A2].
  assert (U : untouched attrs ops = untouched attrs' ops' /\ 
              nest (flash_meanings std layout) ops attrs = nest (flash_meanings std layout) ops' attrs').
  { induction Fo as [|o o' ops ops' Ho Fo [I1 I2]].
    - split; [|exact A1]. unfold untouched. rewrite A2. reflexivity.
    - destruct Ho as [l l' Fl|name].
      + split.
        * unfold untouched. cbn [forallb named_group]. rewrite !andb_false_r. reflexivity.
        * cbn [nest]. destruct (unfold_list _ _ Fl) as [-> _]. rewrite I2. reflexivity.
      + split.
        * unfold untouched in *. cbn [forallb]. destruct (named_group (WithGroup name)); cbn [andb]; [exact I1|].
          rewrite !andb_false_r. reflexivity.
        * destruct name; cbn [nest]; [exact I2|]. rewrite I1, I2. reflexivity. }
  apply U.
Qed.

End Transparent.

Lemma log_valuers_transparent std : stdlib_ok std -> forall o ex ops ops' r attrs' bs fs,
  let x := fix_extras ex in
  let r' := {| r_time := r_time r; r_level := r_level r; r_msg := r_msg r; r_source := r_source r; r_attrs := attrs' |} in
  o_replace o = None ->
  Forall2 op_unfold ops ops' -> Forall2 lv_unfold (r_attrs r) attrs' ->
  flash_header (keys x) (x_time_format x) (x_level_names x) (o_add_source o) r = Some bs ->
  nest (flash_meanings std (x_time_format x)) ops (r_attrs r) = Some fs ->
  exists line line' j,
    logs std o ex ops NoDead r (Done [line ++ [newline]] true) /\ parse_json line = Some j /\
    logs std o ex ops' NoDead r' (Done [line' ++ [newline]] true) /\ parse_json line' = Some j.
Proof.
  intros Hs o ex ops ops' r attrs' bs fs x r' No Fo Fa Hd Hn.
  destruct (flash_record_json std Hs o ex ops r bs fs No Hd Hn) as (line & L & P & _).
  rewrite (unfold_nest std (x_time_format x) ops ops' _ _ Fo Fa) in Hn.
  destruct (flash_record_json std Hs o ex ops' r' bs fs No Hd Hn) as (line' & L' & P' & _).
  exists line, line', (JObj (bs ++ fs)). auto.
Qed.
