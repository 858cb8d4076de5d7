(** Two flash handlers with different settings side by side: if the attributes
    they see after ReplaceAttr correspond, they write the same bytes. *)

From Coq Require Import Ascii String List ZArith NArith Bool.
From Verif Require Import Bytes BytesProofs Slog SlogProofs SpecFlash Flash FlashLaws.
Import ListNotations.

Definition is_group (v : value) : bool := match v with VGroup _ => true | _ => false end.

Section Sim.
Variable std : stdlib.
(** The first handler replaces with [f1], the second with [f2] or not at all. *)
Variable f1 : attr_fn.
Variable f2 : option attr_fn.
Variables x1 x2 : extras.
(** Attributes given to the one and to the other, where the first handler has
    these groups open. *)
Variable R : list bytes -> attr -> attr -> Prop.

Definition see1 (gs : list bytes) (a : attr) : attr :=
  f1 (if basic_field x1 (fst a) then [] else gs) (fst a, resolve (snd a)).
Definition see2 (gs : list bytes) (a : attr) : attr :=
  match f2 with
  | Some f => f (if basic_field x2 (fst a) then [] else gs) (fst a, resolve (snd a))
  | None => a
  end.

(** Attributes after replacement. *)
Definition post (gs : list bytes) (p1 p2 : attr) : Prop :=
  (p1 = p2 /\ is_group (snd p1) = false /\ (f2 = None -> is_log_valuer (snd p1) = false)) \/
  exists k l1 l2, p1 = (k, VGroup l1) /\ p2 = (k, VGroup l2) /\
    empty_group l1 = empty_group l2 /\ Forall2 (R gs) l1 l2.

Hypothesis seen : forall gs a1 a2, R gs a1 a2 ->
  (f2 = None -> is_log_valuer (snd a2) = false) /\ is_empty a1 = is_empty a2 /\ post gs (see1 gs a1) (see2 gs a2).
Hypothesis format : x_time_format x1 = x_time_format x2.

Definition gs2 (gs : list bytes) : list bytes := match f2 with None => [] | Some _ => gs end.

Definition to2 (c : composer bytes) : composer bytes :=
  {| c_buffer := c_buffer c; c_started := c_started c; c_replace := f2;
     c_groups := gs2 (c_groups c); c_extras := x2 |}.

Definition lift2 (m : option (composer bytes * bool)) : option (composer bytes * bool) :=
  match m with Some (c, ok) => Some (to2 c, ok) | None => None end.

Definition inv (gs : list bytes) (c : composer bytes) : Prop :=
  c_replace c = Some f1 /\ c_groups c = gs /\ c_extras c = x1.

Definition result (gs : list bytes) (m1 m2 : option (composer bytes * bool)) : Prop :=
  m2 = lift2 m1 /\ forall c ok, m1 = Some (c, ok) -> inv gs c.

Lemma to2_key c k : add_key happ (add_separator happ (to2 c)) k = to2 (add_key happ (add_separator happ c) k).
Proof. unfold add_separator. destruct c as [b [] rp gs x]; reflexivity. Qed.

Lemma inv_key gs c k : inv gs c -> inv gs (add_key happ (add_separator happ c) k).
Proof. unfold add_separator, inv. destruct (c_started c); cbn; tauto. Qed.

Lemma any_sim gs c o : inv gs c -> result gs (Some (add_any happ c o)) (Some (add_any happ (to2 c) o)).
Proof.
  intros I. assert (J : forall b, inv gs (with_buffer c b)) by (intros b; exact I).
  unfold result, add_any, add_marshaler.
  destruct (ao_stringer o); [split; [reflexivity|intros ? ? [= <- <-]; apply J]|].
  destruct (ao_error o); [split; [reflexivity|intros ? ? [= <- <-]; apply J]|].
  destruct (ao_jsonm o) as [[]|]; [split; [reflexivity|intros ? ? [= <- <-]; apply J]..|].
  destruct (ao_textm o) as [[]|]; [split; [reflexivity|intros ? ? [= <- <-]; apply J]..|].
  destruct (ao_marshal o); (split; [reflexivity|intros ? ? [= <- <-]]); [apply J|exact I].
Qed.

(** What addAttribute does after replacement. *)
Definition emit (n : nat) (c : composer bytes) (p : attr) : option (composer bytes * bool) :=
  if is_empty p then Some (c, true)
  else
    let (key, v) := p in
    let c' := add_key happ (add_separator happ c) key in
    match v with
    | VGroup l =>
      if empty_group l then Some (c, true)
      else match key with
      | [] => attrs_loop (add_attribute happ std n) c l
      | _ :: _ =>
        match attrs_loop (add_attribute happ std n) (reset (add_bytes happ c' (B "{"))) l with
        | Some (c', true) => Some (add_bytes happ c' (B "}"), true)
        | r => r
        end
      end
    | VBool b => Some (add_bytes happ c' (if b then B "true" else B "false"), true)
    | VDuration d => Some (add_bytes happ c' (dec_of_Z d), true)
    | VFloat64 f => Some (add_bytes happ c' (float_text f), true)
    | VInt64 i => Some (add_bytes happ c' (dec_of_Z i), true)
    | VString s => Some (add_string happ c' s, true)
    | VTime t => Some (add_time happ c' t, true)
    | VUint64 u => Some (add_bytes happ c' (dec_of_N u), true)
    | _ => Some (add_any happ c' (any_of_value std v))
    end.

Lemma resolved_attr (a : attr) :
  (if match snd a with VLogValuer _ _ => true | _ => false end then (fst a, resolve (snd a)) else a) =
  (fst a, resolve (snd a)).
Proof. destruct a as [k v], v; reflexivity. Qed.

Lemma attr_emit1 n gs c a : inv gs c ->
  add_attribute happ std (S n) c a = emit n c (see1 gs a).
Proof.
  intros (Hf & Hg & Hx). cbn [add_attribute]. rewrite resolved_attr, Hf. unfold replace_groups. rewrite Hx, Hg.
  cbn [fst]. unfold see1, emit.
  destruct (f1 _ _) as [k v]. destruct (is_empty (k, v)); [reflexivity|]. destruct v; reflexivity.
Qed.

Lemma attr_emit2 n c a : (f2 = None -> is_log_valuer (snd a) = false) ->
  add_attribute happ std (S n) (to2 c) a = emit n (to2 c) (see2 (c_groups c) a).
Proof.
  clear seen. intros L. cbn [add_attribute]. rewrite resolved_attr. cbn [to2 c_replace fst]. unfold see2.
  destruct f2 as [f|] eqn:E2.
  - unfold replace_groups. cbn [c_extras c_groups gs2 to2]. unfold gs2. rewrite E2. unfold emit.
    destruct (f _ _) as [k v]. destruct (is_empty (k, v)); [reflexivity|]. destruct v; reflexivity.
  - destruct a as [k v]. cbn [fst snd] in *. specialize (L eq_refl). unfold emit.
    destruct v; try discriminate L; cbn [resolve resolve_n];
      match goal with |- context [is_empty ?p] => destruct (is_empty p) end; reflexivity.
Qed.

Definition attr_ok (n : nat) : Prop := forall gs c a1 a2, inv gs c -> R gs a1 a2 ->
  result gs (add_attribute happ std n c a1) (add_attribute happ std n (to2 c) a2).

Lemma loop_sim n gs l1 l2 : attr_ok n -> Forall2 (R gs) l1 l2 -> forall c, inv gs c ->
  result gs (attrs_loop (add_attribute happ std n) c l1) (attrs_loop (add_attribute happ std n) (to2 c) l2).
Proof.
  intros A F. induction F as [|a1 a2 l1 l2 H F IH]; intros c I; cbn [attrs_loop].
  - split; [reflexivity|]. intros ? ? [= <- <-]. exact I.
  - destruct (A gs c a1 a2 I H) as [E K]. rewrite E.
    destruct (add_attribute happ std n c a1) as [[c' []]|]; cbn [lift2].
    + apply IH. eapply K. reflexivity.
    + split; [reflexivity|]. intros ? ? [= <- <-]. eapply K. reflexivity.
    + split; [reflexivity|discriminate].
Qed.

Lemma emit_sim n : attr_ok n -> forall gs c p1 p2, inv gs c -> post gs p1 p2 ->
  result gs (emit n c p1) (emit n (to2 c) p2).
Proof.
  intros A gs c p1 p2 I [(-> & G & V)|(k & l1 & l2 & -> & -> & Em & F)].
  + unfold emit. destruct (is_empty p2).
    { split; [reflexivity|]. intros ? ? [= <- <-]. exact I. }
    destruct p2 as [k v]. rewrite to2_key. pose proof (inv_key gs c k I) as J.
    destruct v; try discriminate G; try (apply any_sim; exact J);
      (split; [|intros ? ? [= <- <-]; exact J]); try reflexivity.
    cbn [lift2]. f_equal. f_equal. unfold add_time. cbn [c_extras to2].
    destruct J as (_ & _ & X). unfold add_bytes, with_buffer; cbn. f_equal. f_equal.
    cbn in X. rewrite X, format. reflexivity.
  + unfold emit. change (is_empty (k, VGroup l1)) with (is_empty (k, VGroup [])).
    change (is_empty (k, VGroup l2)) with (is_empty (k, VGroup [])).
    assert (Z : is_empty (k, VGroup []) = false) by (destruct k; reflexivity). rewrite Z, Em.
    destruct (empty_group l2).
    { split; [reflexivity|]. intros ? ? [= <- <-]. exact I. }
    pose proof (loop_sim n gs l1 l2 A F) as L.
    destruct k as [|kc k]; [apply L; exact I|]. rewrite to2_key.
    set (c1 := add_key happ (add_separator happ c) (kc :: k)).
    assert (J : inv gs (reset (add_bytes happ c1 (B "{")))) by (apply (inv_key gs c (kc :: k) I)).
    change (reset (add_bytes happ (to2 c1) (B "{"))) with (to2 (reset (add_bytes happ c1 (B "{")))).
    destruct (L _ J) as [E K]. rewrite E.
    destruct (attrs_loop (add_attribute happ std n) (reset (add_bytes happ c1 (B "{"))) l1) as [[c2 []]|]; cbn [lift2].
    * split; [reflexivity|]. intros ? ? [= <- <-]. exact (K _ _ eq_refl).
    * split; [reflexivity|]. intros ? ? [= <- <-]. exact (K _ _ eq_refl).
    * split; [reflexivity|discriminate].
Qed.

Lemma attr_sim n : attr_ok n.
Proof.
  induction n as [|n IH]; intros gs c a1 a2 I H; [split; [reflexivity|discriminate]|].
  destruct (seen gs a1 a2 H) as (L & _ & P).
  rewrite (attr_emit1 n gs c a1 I), (attr_emit2 n c a2 L).
  destruct I as (I1 & I2 & I3). rewrite I2. apply emit_sim; [exact IH|repeat split; auto|exact P].
Qed.

Lemma attrs_sim n gs l1 l2 c : Forall2 (R gs) l1 l2 -> inv gs c ->
  result gs (add_attributes happ std n c l1) (add_attributes happ std n (to2 c) l2).
Proof. intros F I. apply (loop_sim n gs l1 l2); auto. apply attr_sim. Qed.

(** ** Records *)

Definition head2 (a : attr) : attr := match f2 with Some f => f [] a | None => a end.

Hypothesis time_head : forall gs t, post gs (f1 [] (x_time_key x1, VTime t)) (head2 (x_time_key x2, VTime t)).
Hypothesis level_head : forall gs l, post gs (f1 [] (x_level_key x1, VString (x_level_names x1 l)))
  (head2 (x_level_key x2, VString (x_level_names x2 l))).
Hypothesis message_head : forall gs m, post gs (f1 [] (x_message_key x1, VString m)) (head2 (x_message_key x2, VString m)).
Hypothesis source_head : forall gs o, post gs (f1 [] (x_source_key x1, VAny (AnyObj o))) (head2 (x_source_key x2, VAny (AnyObj o))).
Hypothesis time_key : x_time_key x2 <> [].
Hypothesis level_key : x_level_key x2 <> [].
Hypothesis message_key : x_message_key x2 <> [].
Hypothesis source_key : x_source_key x2 <> [].

Lemma basic_sim n gs c d1 d2 k1 k2 v1 v2 : inv gs c ->
  basic_field x1 k1 = true -> basic_field x2 k2 = true ->
  is_log_valuer v1 = false -> is_log_valuer v2 = false ->
  (forall c, Some (d2 (add_key happ (add_separator happ c) k2)) = emit n c (k2, v2)) ->
  post gs (f1 [] (k1, v1)) (head2 (k2, v2)) ->
  result gs (basic_attr std (S n) c d1 (k1, v1)) (basic_attr std (S n) (to2 c) d2 (k2, v2)).
Proof.
  intros I B1 B2 V1 V2 D P. unfold basic_attr. pose proof I as (I1 & I2 & I3). rewrite I1.
  rewrite (attr_emit1 n gs c _ I). unfold see1. cbn [fst snd]. rewrite B1.
  assert (R1 : resolve v1 = v1) by (destruct v1; try discriminate; reflexivity).
  assert (R2 : resolve v2 = v2) by (destruct v2; try discriminate; reflexivity). rewrite R1.
  cbn [to2 c_replace]. unfold head2 in P.
  assert (Q : f2 = None \/ exists f, f2 = Some f) by (clear; destruct f2; eauto).
  destruct Q as [E2|(f & E2)]; rewrite E2 in P.
  - rewrite E2 at 1. cbn [fst]. rewrite D. apply emit_sim; auto. apply attr_sim.
  - rewrite E2 at 1. fold (to2 c). rewrite attr_emit2 by (rewrite E2; discriminate). unfold see2. rewrite E2. cbn [fst snd]. rewrite B2, R2.
    apply emit_sim; auto. apply attr_sim.
Qed.

Lemma then_sim gs m1 m2 k1 k2 : result gs m1 m2 ->
  (forall c, inv gs c -> result gs (k1 c) (k2 (to2 c))) -> result gs (andthen m1 k1) (andthen m2 k2).
Proof.
  intros [-> I] K. destruct m1 as [[c []]|]; cbn [lift2 andthen].
  - apply K. eapply I. reflexivity.
  - split; [reflexivity|]. intros ? ? [= <- <-]. eapply I. reflexivity.
  - split; [reflexivity|discriminate].
Qed.

Lemma self_beq k : beq k k = true.
Proof. apply beq_eq. reflexivity. Qed.

Definition to2_handler (h : handler) : handler :=
  {| h_options := {| o_add_source := o_add_source (h_options h); o_replace := f2 |};
     h_extras := x2; h_prefix := h_prefix h; h_suffix := h_suffix h; h_groups := gs2 (h_groups h) |}.

Definition first (h : handler) : Prop := o_replace (h_options h) = Some f1 /\ h_extras h = x1.

Definition same_but (r1 r2 : record) : Prop :=
  r_time r1 = r_time r2 /\ r_level r1 = r_level r2 /\ r_msg r1 = r_msg r2 /\ r_source r1 = r_source r2.

Lemma handle_sim n h r1 r2 : first h -> same_but r1 r2 -> Forall2 (R (h_groups h)) (r_attrs r1) (r_attrs r2) ->
  handle std (S n) (to2_handler h) r2 = handle std (S n) h r1.
Proof.
  intros [Ho Hx] (Et & El & Em & Es) F. set (gs := h_groups h).
  assert (C : result gs (compose std (S n) h r1) (compose std (S n) (to2_handler h) r2)).
  { unfold compose. rewrite Ho, Hx. cbn [to2_handler h_options o_replace h_groups h_extras].
    set (c0 := add_bytes happ (new_composer [] false (Some f1) (h_groups h) x1) (B "{")).
    change (add_bytes happ (new_composer [] false f2 (gs2 (h_groups h)) x2) (B "{")) with (to2 c0).
    assert (I0 : inv gs c0) by (repeat split).
    apply then_sim.
    { unfold handle_time. rewrite <- Et. destruct (t_zero (r_time r1)).
      - split; [reflexivity|]. intros ? ? [= <- <-]. exact I0.
      - rewrite Hx. cbn [to2_handler h_extras]. apply basic_sim; auto.
        + unfold basic_field. rewrite (self_beq (x_time_key x1)), !orb_true_r. reflexivity.
        + unfold basic_field. rewrite (self_beq (x_time_key x2)), !orb_true_r. reflexivity.
        + intros c. unfold emit. destruct (x_time_key x2); [congruence|]. reflexivity. }
    intros c1 I1. apply then_sim.
    { unfold handle_level. rewrite <- El, Hx. cbn [to2_handler h_extras]. apply basic_sim; auto.
      + unfold basic_field. rewrite (self_beq (x_level_key x1)). reflexivity.
      + unfold basic_field. rewrite (self_beq (x_level_key x2)). reflexivity.
      + intros c. unfold emit. destruct (x_level_key x2); [congruence|]. reflexivity. }
    intros c2 I2. apply then_sim.
    { unfold handle_message. rewrite <- Em, Hx. cbn [to2_handler h_extras]. apply basic_sim; auto.
      + unfold basic_field. rewrite (self_beq (x_message_key x1)), !orb_true_r. reflexivity.
      + unfold basic_field. rewrite (self_beq (x_message_key x2)), !orb_true_r. reflexivity.
      + intros c. unfold emit. destruct (x_message_key x2); [congruence|]. reflexivity. }
    intros c3 I3. apply then_sim.
    { unfold handle_source. rewrite <- Es, Hx. cbn [to2_handler h_options o_add_source h_extras].
      destruct (o_add_source (h_options h)); [destruct (r_source r1) as [s|]|];
        try (split; [reflexivity|]; intros ? ? [= <- <-]; exact I3).
      apply basic_sim; auto.
      + unfold basic_field. rewrite (self_beq (x_source_key x1)), !orb_true_r. reflexivity.
      + unfold basic_field. rewrite (self_beq (x_source_key x2)), !orb_true_r. reflexivity.
      + intros c. unfold emit. destruct (x_source_key x2); [congruence|]. reflexivity. }
    intros c4 I4.
    assert (P : handle_prefix (to2_handler h) (to2 c4) = to2 (handle_prefix h c4) /\ inv gs (handle_prefix h c4)).
    { unfold handle_prefix. cbn [to2_handler h_prefix]. destruct (h_prefix h); [auto|].
      unfold add_separator. change (c_started (to2 c4)) with (c_started c4).
      destruct (c_started c4), (ends_with _ _); split; try exact I4; reflexivity. }
    destruct P as [-> P]. apply then_sim; [apply attrs_sim; auto|].
    intros c5 I5. cbn [to2_handler h_suffix].
    destruct (h_suffix h); (split; [reflexivity|]; intros ? ? [= <- <-]; exact I5). }
  unfold handle. destruct C as [-> _]. destruct (compose std (S n) h r1) as [[c []]|]; reflexivity.
Qed.

(** ** Derived handlers *)

Fixpoint to2_hdl (g : hdl) : hdl :=
  match g with
  | HBase h => HBase (to2_handler h)
  | HGroup h n p => HGroup (to2_handler h) n (to2_hdl p)
  end.

Fixpoint firsts (g : hdl) : Prop :=
  match g with
  | HBase h => first h
  | HGroup h _ p => first h /\ firsts p
  end.

Lemma firsts_inner g : firsts g -> first (inner g).
Proof. destruct g; cbn; tauto. Qed.

Lemma inner_to2 g : inner (to2_hdl g) = to2_handler (inner g).
Proof. destruct g; reflexivity. Qed.

(** The groups handed to ReplaceAttr after some derivation calls. *)
Definition opened (gs : list bytes) (o : op) : list bytes :=
  match o with WithAttrs _ => gs | WithGroup [] => gs | WithGroup n => gs ++ [n] end.

(** Derivation calls with corresponding attributes. *)
Inductive ops_rel : list bytes -> list op -> list op -> list bytes -> Prop :=
| ops_none gs : ops_rel gs [] [] gs
| ops_attrs gs l1 l2 ops1 ops2 gs' : Forall2 (R gs) l1 l2 -> ops_rel gs ops1 ops2 gs' ->
    ops_rel gs (WithAttrs l1 :: ops1) (WithAttrs l2 :: ops2) gs'
| ops_group gs n ops1 ops2 gs' : ops_rel (opened gs (WithGroup n)) ops1 ops2 gs' ->
    ops_rel gs (WithGroup n :: ops1) (WithGroup n :: ops2) gs'.

Lemma derive_sim n gs ops1 ops2 gs' : ops_rel gs ops1 ops2 gs' ->
  forall g, firsts g -> h_groups (inner g) = gs ->
  derive std n (to2_hdl g) ops2 = match derive std n g ops1 with Some g' => Some (to2_hdl g') | None => None end /\
  forall g', derive std n g ops1 = Some g' -> firsts g' /\ h_groups (inner g') = gs'.
Proof.
  intros O. induction O as [gs|gs l1 l2 ops1 ops2 gs' F O IH|gs name ops1 ops2 gs' O IH]; intros g U G; cbn [derive step].
  - split; [reflexivity|]. intros g' [= <-]. auto.
  - unfold with_attrs_hdl, with_attrs. rewrite inner_to2. pose proof (firsts_inner g U) as [Ui Ux].
    set (h := inner g) in *. rewrite Ui, Ux.
    cbn [to2_handler h_prefix h_options o_replace h_groups h_extras h_suffix].
    set (c := new_composer (h_prefix h) _ (Some f1) (h_groups h) x1).
    set (c' := new_composer (h_prefix h) _ f2 (gs2 (h_groups h)) x2).
    change c' with (to2 c). assert (I : inv gs c) by (repeat split; exact G).
    destruct (attrs_sim n gs l1 l2 c F I) as [E K]. rewrite E.
    destruct (add_attributes happ std n c l1) as [[c1 ok]|]; cbn [lift2]; [|split; [reflexivity|discriminate]].
    cbn [c_buffer to2].
    apply (IH (HBase {| h_options := h_options h; h_extras := x1; h_prefix := c_buffer c1;
                         h_suffix := h_suffix h; h_groups := h_groups h |})); [split; auto|exact G].
  - pose proof (firsts_inner g U) as [Ui Ux].
    replace (with_group_hdl (to2_hdl g) name) with (to2_hdl (with_group_hdl g name)).
    + apply IH.
      * destruct name; cbn [with_group_hdl firsts]; [split; auto|]. split; [split; auto|exact U].
      * destruct name; cbn [with_group_hdl inner with_group h_groups opened]; [exact G|]. rewrite Ui, G. reflexivity.
    + destruct name; cbn [with_group_hdl to2_hdl]; rewrite inner_to2; [reflexivity|].
      f_equal. unfold with_group, to2_handler. cbn [h_options h_extras h_prefix h_suffix h_groups o_replace o_add_source].
      rewrite Ui. unfold gs2. clear. destruct f2; reflexivity.
Qed.

(** The context marks a dead group only if keys correspond and the relation does
    not depend on the open groups. *)
Definition dead_fine (d : dead) : Prop :=
  (d = NoDead /\ forall gs, R gs empty_attr empty_attr) \/
  (forall gs gs' a1 a2, R gs a1 a2 -> R gs' a1 a2 /\ fst a1 = fst a2 /\ is_group (snd a1) = is_group (snd a2)).

Lemma first_attr_sim gs l1 l2 : Forall2 (R gs) l1 l2 ->
  match first_attr l1, first_attr l2 with
  | None, None => True
  | Some a1, Some a2 => R gs a1 a2
  | _, _ => False
  end.
Proof.
  intros F. induction F as [|a1 a2 l1 l2 H F IH]; cbn [first_attr]; [auto|].
  destruct (seen gs a1 a2 H) as (_ & E & _). rewrite E. destruct (is_empty a2); auto.
Qed.

Lemma first_none l : first_attr l = None -> Forall (fun a => is_empty a = true) l.
Proof.
  induction l as [|a l IH]; cbn [first_attr]; [constructor|].
  destruct (is_empty a) eqn:E; [|discriminate]. constructor; auto.
Qed.

Lemma is_empty_attr a : is_empty a = true -> a = empty_attr.
Proof.
  destruct a as [[|c k] v]; cbn; [|discriminate].
  destruct v as [[|o]| | | | | | | | |]; try discriminate. reflexivity.
Qed.

Lemma empties_sim gs l1 : (forall gs, R gs empty_attr empty_attr) ->
  forall gs0 l2, Forall2 (R gs0) l1 l2 -> Forall (fun a => is_empty a = true) l1 -> Forall2 (R gs) l1 l2.
Proof.
  intros E gs0 l2 F. induction F as [|a1 a2 l1 l2 H F IH]; intros A; constructor.
  - inversion A; subst. destruct (seen gs0 a1 a2 H) as (_ & Em & _).
    rewrite (is_empty_attr a1), (is_empty_attr a2) by congruence. apply E.
  - inversion A; auto.
Qed.

Lemma empties_handle n l1 l2 r1 r2 g : r_attrs r1 = l1 -> r_attrs r2 = l2 ->
  (forall gs, R gs empty_attr empty_attr) ->
  forall gs0, Forall2 (R gs0) l1 l2 -> first_attr l1 = None -> same_but r1 r2 -> firsts g ->
  forall s, handle_hdl std (S n) (DeadName s) (to2_hdl g) r2 = handle_hdl std (S n) (DeadName s) g r1.
Proof.
  intros E1 E2 E gs0 F N Sb. pose proof (first_none _ N) as A.
  assert (N2 : first_attr l2 = None).
  { pose proof (first_attr_sim gs0 l1 l2 F) as K. rewrite N in K. destruct (first_attr l2); tauto. }
  induction g as [h|h name p IH]; intros U s; cbn [to2_hdl handle_hdl].
  - apply handle_sim; auto. rewrite E1, E2. eapply empties_sim; eauto.
  - rewrite E1, E2, N, N2. apply IH. apply U.
Qed.

Lemma handle_hdl_sim n g d r1 r2 : dead_fine d -> firsts g -> same_but r1 r2 ->
  Forall2 (R (h_groups (inner g))) (r_attrs r1) (r_attrs r2) ->
  handle_hdl std (S n) d (to2_hdl g) r2 = handle_hdl std (S n) d g r1.
Proof.
  intros [[-> E]|K] U Sb F.
  - destruct g as [h|h name p]; cbn [to2_hdl handle_hdl]; [apply handle_sim; auto|].
    pose proof (first_attr_sim _ _ _ F) as X. cbn [inner] in F. destruct U as [U1 U2].
    destruct (first_attr (r_attrs r1)) as [[k1 v1]|] eqn:N1, (first_attr (r_attrs r2)) as [[k2 v2]|] eqn:N2; try tauto.
    + cbn [beq negb andb]. apply handle_sim; auto.
    + eapply empties_handle; eauto.
  - assert (F' : forall gs, Forall2 (R gs) (r_attrs r1) (r_attrs r2)).
    { intros gs. clear - F K. induction F as [|a1 a2 l1 l2 H F IH]; constructor; [apply (K _ gs _ _ H)|exact IH]. }
    clear F. revert d. induction g as [h|h name p IH]; intros d; cbn [to2_hdl handle_hdl]; [apply handle_sim; auto|].
    destruct U as [U1 U2]. pose proof (first_attr_sim [] _ _ (F' [])) as X.
    assert (Q : handle std (S n) (to2_handler h) r2 = handle std (S n) h r1) by (apply handle_sim; auto).
    destruct (first_attr (r_attrs r1)) as [[k1 v1]|], (first_attr (r_attrs r2)) as [[k2 v2]|]; try tauto.
    + destruct (K [] [] _ _ X) as (_ & K1 & K2). cbn [fst snd] in K1, K2. unfold is_group in K2.
      rewrite K1, K2. rewrite IH by auto. rewrite Q. reflexivity.
    + rewrite IH by auto. reflexivity.
Qed.

Lemma logs_sim src y1 y2 ops1 ops2 gs d r1 r2 out :
  fix_extras y1 = x1 -> fix_extras y2 = x2 -> dead_fine d ->
  ops_rel [] ops1 ops2 gs -> same_but r1 r2 -> Forall2 (R gs) (r_attrs r1) (r_attrs r2) ->
  logs std {| o_add_source := src; o_replace := Some f1 |} y1 ops1 d r1 out <->
  logs std {| o_add_source := src; o_replace := f2 |} y2 ops2 d r2 out.
Proof.
  intros Y1 Y2 D O Sb F.
  set (h := new_handler {| o_add_source := src; o_replace := Some f1 |} y1).
  assert (U : firsts (HBase h)) by (split; [reflexivity|exact Y1]).
  assert (E : HBase (new_handler {| o_add_source := src; o_replace := f2 |} y2) = to2_hdl (HBase h)).
  { cbn [to2_hdl]. unfold new_handler, to2_handler, gs2. rewrite Y2. cbn. clear. destruct f2; reflexivity. }
  unfold logs. rewrite E. fold h.
  assert (K : forall n, match derive std (S n) (HBase h) ops1 with
    | Some g => derive std (S n) (to2_hdl (HBase h)) ops2 = Some (to2_hdl g) /\
                handle_hdl std (S n) d (to2_hdl g) r2 = handle_hdl std (S n) d g r1
    | None => derive std (S n) (to2_hdl (HBase h)) ops2 = None end).
  { intros n. destruct (derive_sim (S n) [] ops1 ops2 gs O (HBase h) U eq_refl) as [Ed Kd].
    destruct (derive std (S n) (HBase h) ops1) as [g|]; [|exact Ed]. split; [exact Ed|].
    destruct (Kd g eq_refl) as [Ug Gg]. apply handle_hdl_sim; auto. rewrite Gg. exact F. }
  split; intros (n0 & H); exists (Datatypes.S n0); intros [|n] L; try (inversion L; fail);
    (assert (L' : n0 <= Datatypes.S n) by (apply le_S; apply le_S_n; exact L));
    destruct (H _ L') as (g & Dg & Hh); specialize (K n).
  - rewrite Dg in K. destruct K as [K1 K2]. exists (to2_hdl g). split; [exact K1|]. congruence.
  - destruct (derive std (Datatypes.S n) (HBase h) ops1) as [g1|] eqn:D1; [|congruence].
    destruct K as [K1 K2]. exists g1. split; [reflexivity|]. congruence.
Qed.

End Sim.
