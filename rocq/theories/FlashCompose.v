(** Composition laws of WithAttrs: what the composer appends does not depend on
    what is already in the buffer, except for the first separator. *)

From Coq Require Import Ascii String List ZArith NArith Bool Lia.
From Verif Require Import Bytes BytesProofs Json JsonProofs Slog SlogProofs SpecLog SpecFlash
  Flash EscapeProofs TextProofs FlashProofs FlashRecord FlashLaws.
Import ListNotations.

Section Frame.
Variable std : stdlib.
Variable rep : option attr_fn.
Variable x : extras.

Local Notation mk := (mk rep x).
Local Notation att := (att std).
Local Notation comp := (composer bytes).

(** Appending [t], ending in [s'], with result [ok], whatever the buffer was. *)
Definition appends (f : bytes -> option (comp * bool)) (gs : list bytes) (t : bytes) (s' ok : bool) : Prop :=
  forall b, f b = Some (mk (b ++ t) s' gs, ok).

Lemma string_frame b s gs t : add_string happ (mk b s gs) t = mk (b ++ string_buf happ [] t) s gs.
Proof.
  unfold add_string, mk, new_composer, with_buffer. cbn [c_buffer c_started c_replace c_groups c_extras].
  rewrite string_buf_out. reflexivity.
Qed.

Lemma key_frame s gs k : exists u, u <> [] /\ forall b,
  add_key happ (add_separator happ (mk b s gs)) k = mk (b ++ sep s ++ u) true gs.
Proof.
  exists (string_buf happ [] k ++ B ": "). split.
  { rewrite string_buf_escape. discriminate. }
  intros b. unfold add_key.
  assert (E : add_separator happ (mk b s gs) = mk (b ++ sep s) true gs).
  { destruct s; [reflexivity|]. cbn [sep]. rewrite app_nil_r. reflexivity. }
  rewrite E, string_frame. rewrite add_bytes_mk. rewrite <- !app_assoc. reflexivity.
Qed.

Lemma any_frame s gs o : exists u ok, forall b, add_any happ (mk b s gs) o = (mk (b ++ u) s gs, ok).
Proof.
  unfold add_any, add_marshaler.
  assert (S : forall t (ok : bool), exists u ok', forall b, (add_string happ (mk b s gs) t, ok) = (mk (b ++ u) s gs, ok')).
  { intros t ok. eexists _, ok. intros b. rewrite string_frame. reflexivity. }
  destruct (ao_stringer o); [apply S|]. destruct (ao_error o); [apply S|].
  destruct (ao_jsonm o) as [[]|]; [apply S..|]. destruct (ao_textm o) as [[]|]; [apply S..|].
  destruct (ao_marshal o) as [t|].
  - exists t, true. reflexivity.
  - exists [], false. intros b. rewrite app_nil_r. reflexivity.
Qed.

Lemma leaf_frame s gs v : exists u ok, forall b, add_leaf std (mk b s gs) v = (mk (b ++ u) s gs, ok).
Proof.
  destruct v; cbn [add_leaf];
    try (eexists _, true; intros b0; rewrite add_bytes_mk; reflexivity); try apply any_frame.
  - eexists _, true. intros b0. rewrite string_frame. reflexivity.
  - exists ([quote] ++ t_format t (x_time_format x) ++ [quote]), true. intros b0.
    unfold add_time. cbn [c_extras]. rewrite !add_bytes_mk. 
    change (c_extras (mk (b0 ++ [quote]) s gs)) with x. rewrite <- !app_assoc. reflexivity.
Qed.

(** What happens from the two values of [started]: nothing is written, or the
    same text with the separator in front. *)
Definition uniform (f : bool -> bytes -> option (comp * bool)) (gs : list bytes) : Prop :=
  (forall s b, f s b = None) \/
  (exists ok, forall s, appends (f s) gs [] s ok) \/
  (exists t s' ok, t <> [] /\ forall s, appends (f s) gs (sep s ++ t) s' ok).

Lemma attrs_uniform n gs : (forall a, uniform (fun s b => att n (mk b s gs) a) gs) ->
  forall l, uniform (fun s b => attrs_loop (att n) (mk b s gs) l) gs.
Proof.
  intros IH. induction l as [|a l IHl].
  - right. left. exists true. intros s b. rewrite app_nil_r. reflexivity.
  - destruct (IH a) as [N|[(ok & E)|(t & s' & ok & Ht & E)]].
    + left. intros s b. cbn [attrs_loop]. rewrite N. reflexivity.
    + destruct ok.
      * assert (K : forall s b, attrs_loop (att n) (mk b s gs) (a :: l) = attrs_loop (att n) (mk b s gs) l).
        { intros s b. cbn [attrs_loop]. rewrite (E s b), app_nil_r. reflexivity. }
        destruct IHl as [N|[(ok & E')|(t & s' & ok & Ht & E')]].
        -- left. intros s b. rewrite K. apply N.
        -- right. left. exists ok. intros s b. rewrite K. apply E'.
        -- right. right. exists t, s', ok. split; auto. intros s b. rewrite K. apply E'.
      * right. left. exists false. intros s b. cbn [attrs_loop]. rewrite (E s b). reflexivity.
    + destruct ok.
      * destruct IHl as [N|[(ok & E')|(t' & s2 & ok & Ht' & E')]].
        -- left. intros s b. cbn [attrs_loop]. rewrite (E s b). apply N.
        -- right. right. exists t, s', ok. split; auto. intros s b. cbn [attrs_loop].
           rewrite (E s b), (E' s' _), app_nil_r. reflexivity.
        -- right. right. exists (t ++ sep s' ++ t'), s2, ok. split; [destruct t; [congruence|discriminate]|].
           intros s b. cbn [attrs_loop]. rewrite (E s b), (E' s' _). rewrite <- !app_assoc. reflexivity.
      * right. right. exists t, s', false. split; auto. intros s b. cbn [attrs_loop]. rewrite (E s b). reflexivity.
Qed.

Lemma att_uniform n : forall gs a, uniform (fun s b => att n (mk b s gs) a) gs.
Proof.
  induction n as [|n IH]; intros gs a; [left; reflexivity|].
  set (e := eff rep x gs a). 
  assert (E : forall s b, att (S n) (mk b s gs) a = att_body std rep x n gs b s e).
  { intros s b. apply att_eq. }
  assert (U : uniform (fun s b => att_body std rep x n gs b s e) gs).
  { clear E. destruct e as [[k v] as_any]. unfold att_body. cbn [fst snd].
    destruct (is_empty (k, v)).
    { right. left. exists true. intros s b. rewrite app_nil_r. reflexivity. }
    assert (KU : forall f : comp -> comp * bool,
      (exists u ok, forall b, f (mk b true gs) = (mk (b ++ u) true gs, ok)) ->
      uniform (fun s b => Some (f (add_key happ (add_separator happ (mk b s gs)) k))) gs).
    { intros f (u & ok & Hf). right. right.
      destruct (key_frame true gs k) as (w & Hw & _).
      exists ((string_buf happ [] k ++ B ": ") ++ u), true, ok. split.
      { rewrite string_buf_escape. discriminate. }
      intros s b. 
      assert (Ek : add_key happ (add_separator happ (mk b s gs)) k = mk (b ++ sep s ++ string_buf happ [] k ++ B ": ") true gs).
      { assert (E : add_separator happ (mk b s gs) = mk (b ++ sep s) true gs).
        { destruct s; [reflexivity|]. cbn [sep]. rewrite app_nil_r. reflexivity. }
        unfold add_key. rewrite E, string_frame, add_bytes_mk. rewrite <- !app_assoc. reflexivity. }
      rewrite Ek, Hf. rewrite <- !app_assoc. reflexivity. }
    destruct as_any.
    { apply (KU (fun c => add_any happ c (any_of_value std v))). apply any_frame. }
    destruct v; try (apply (KU (fun c => add_leaf std c _)); apply leaf_frame).
    destruct (empty_group l).
    { right. left. exists true. intros s b. rewrite app_nil_r. reflexivity. }
    destruct k as [|kc k].
    { apply attrs_uniform. intros a'. apply IH. }
    set (w := string_buf happ [] (kc :: k) ++ B ": " ++ B "{").
    assert (W : w <> []) by (unfold w; rewrite string_buf_escape; discriminate).
    assert (Ek : forall s b, reset (add_bytes happ (add_key happ (add_separator happ (mk b s gs)) (kc :: k)) (B "{"))
                  = mk (b ++ sep s ++ w) false gs).
    { intros s b. assert (E : add_separator happ (mk b s gs) = mk (b ++ sep s) true gs).
      { destruct s; [reflexivity|]. cbn [sep]. rewrite app_nil_r. reflexivity. }
      unfold add_key. rewrite E, string_frame, !add_bytes_mk. unfold w. rewrite <- !app_assoc. reflexivity. }
    destruct (attrs_uniform n gs (fun a' => IH gs a') l) as [N|[(ok & El)|(t & s' & ok & Ht & El)]].
    - left. intros s b. rewrite Ek. unfold att in N. rewrite N. reflexivity.
    - right. right. destruct ok.
      + exists (w ++ B "}"), false, true. split; [destruct w; [congruence|discriminate]|].
        intros s b. rewrite Ek. unfold appends, att in El. rewrite El, app_nil_r, add_bytes_mk, <- !app_assoc. reflexivity.
      + exists w, false, false. split; auto.
        intros s b. rewrite Ek. unfold appends, att in El. rewrite El, app_nil_r. reflexivity.
    - right. right. destruct ok.
      + exists (w ++ t ++ B "}"), s', true. split; [destruct w; [congruence|discriminate]|].
        intros s b. rewrite Ek. unfold appends, att in El. rewrite El, add_bytes_mk, <- !app_assoc. reflexivity.
      + exists (w ++ t), s', false. split; [destruct w; [congruence|discriminate]|].
        intros s b. rewrite Ek. unfold appends, att in El. rewrite El, <- !app_assoc. reflexivity. }
  destruct U as [N|[(ok & U)|(t & s' & ok & Ht & U)]].
  - left. intros s b. rewrite E. apply N.
  - right. left. exists ok. intros s b. rewrite E. apply U.
  - right. right. exists t, s', ok. split; auto. intros s b. rewrite E. apply U.
Qed.

End Frame.

(** ** Statements about handlers *)

(** The groups open after a derivation. *)
Definition open_groups (ops : list op) : list bytes :=
  flat_map (fun o => match o with WithGroup (c :: n) => [c :: n] | _ => [] end) ops.

(** The derivation ends by opening a group. *)
Definition grouped (ops : list op) : bool :=
  match rev ops with o :: _ => named_group o | [] => false end.

Section Laws11.
Variable std : stdlib.
Hypothesis std_ok : stdlib_ok std.

Local Notation vw h := (flash_view std (x_time_format (h_extras h)) (basic_field (h_extras h)) (o_replace (h_options h))).

Lemma FT_empty s t : FT s [] t -> t = [].
Proof. intros (_ & [[_ H]|[H _]]); congruence. Qed.

(** The state after composing attributes in the domain. *)
Lemma attrs_state rep x gs l fs :
  dens (flash_view std (x_time_format x) (basic_field x) rep) str false gs l fs ->
  exists n0, forall n, n0 <= n -> 
    (forall s, appends rep x (fun b => attrs_loop (att std n) (mk rep x b s gs) l) gs [] s true) \/
    (exists t, t <> [] /\ ends_with brace t = false /\
      forall s, appends rep x (fun b => attrs_loop (att std n) (mk rep x b s gs) l) gs (sep s ++ t) true true).
Proof.
  intros D. destruct (proj2 (compose_den std std_ok rep x) gs l fs D) as (n0 & H). exists n0. intros n L.
  specialize (H n L).
  destruct (attrs_uniform std rep x n gs (fun a => att_uniform std rep x n gs a) l) as [N|[(ok & E)|(t & s' & ok & Ht & E)]].
  - destruct (H [] false) as (t & E & _). rewrite N in E. discriminate.
  - left. intros s b. destruct (H [] false) as (t & E' & _). rewrite (E false []) in E'.
    injection E' as E1 E2 E3. subst ok. apply E.
  - right. exists t. split; auto.
    destruct (H [] false) as (t' & E' & F). rewrite (E false []) in E'. injection E' as E1 E2 E3.
    cbn [app sep] in E1. subst t' ok.
    assert (Hf : fs <> []). { intros ->. apply FT_empty in F. congruence. }
    destruct (FT_end _ _ _ F Hf) as [_ Fe]. split; auto.
    assert (s' = true) as ->. { rewrite E2. destruct fs; [congruence|reflexivity]. }
    exact E.
Qed.

Lemma with_attrs_eq n h l c ok :
  attrs_loop (att std n) (mk (o_replace (h_options h)) (h_extras h) (h_prefix h)
     (started_of (h_prefix h) false) (h_groups h)) l = Some (c, ok) ->
  with_attrs std n h l = Some {| h_options := h_options h; h_extras := h_extras h; h_prefix := c_buffer c;
            h_suffix := h_suffix h; h_groups := h_groups h |}.
Proof.
  intros E. unfold with_attrs, add_attributes. unfold att, mk, started_of, brace in E.
  destruct (h_prefix h); rewrite E; reflexivity.
Qed.

Lemma with_attrs_split h l1 l2 fs : dens (vw h) str false (h_groups h) l1 fs ->
  exists n0, forall n, n0 <= n -> with_attrs std n h (l1 ++ l2) =
    match with_attrs std n h l1 with Some h' => with_attrs std n h' l2 | None => None end.
Proof.
  intros D. destruct (attrs_state _ _ _ _ _ D) as (n0 & H). exists n0. intros n L.
  assert (G : exists p', attrs_loop (att std n) (mk (o_replace (h_options h)) (h_extras h) (h_prefix h)
      (started_of (h_prefix h) false) (h_groups h)) l1 =
    Some (mk (o_replace (h_options h)) (h_extras h) p' (started_of p' false) (h_groups h), true)).
  { destruct (H n L) as [E|(t & Ht & Te & E)].
    - exists (h_prefix h). rewrite (E _ _), app_nil_r. reflexivity.
    - exists (h_prefix h ++ sep (started_of (h_prefix h) false) ++ t). rewrite (E _ _).
      assert (S0 : forall a s, started_of (a ++ t) s = true).
      { intros a s. unfold started_of. destruct (a ++ t) eqn:Ez.
        - apply app_eq_nil in Ez as [_ Ez]. congruence.
        - rewrite <- Ez, ends_with_app_ne, Te; auto. }
      rewrite (app_assoc (h_prefix h)), S0. reflexivity. }
  destruct G as (p' & G). rewrite (with_attrs_eq n h l1 _ _ G). cbn [c_buffer mk new_composer].
  unfold with_attrs at 1. unfold add_attributes.
  change (attrs_loop (add_attribute happ std n)) with (attrs_loop (att std n)).
  assert (Es : match h_prefix h with [] => false | _ :: _ => negb (ends_with (chr 123) (h_prefix h)) end
               = started_of (h_prefix h) false) by (destruct (h_prefix h); reflexivity).
  rewrite Es.
  change (new_composer (h_prefix h) (started_of (h_prefix h) false) (o_replace (h_options h)) (h_groups h) (h_extras h))
    with (mk (o_replace (h_options h)) (h_extras h) (h_prefix h) (started_of (h_prefix h) false) (h_groups h)).
  rewrite attrs_loop_app, G. cbn [andthen].
  unfold with_attrs, add_attributes. cbn [h_prefix h_options h_groups h_extras h_suffix].
  replace (match p' with [] => false | _ :: _ => negb (ends_with (chr 123) p') end)
    with (started_of p' false) by (destruct p'; reflexivity).
  reflexivity.
Qed.

(** Handlers derived from a new handler. *)
Lemma derive_conf n ops : forall g g', derive std n g ops = Some g' ->
  h_options (inner g') = h_options (inner g) /\ h_extras (inner g') = h_extras (inner g) /\
  (h_groups (inner g) = hg (o_replace (h_options (inner g))) (h_groups (inner g)) ->
   h_groups (inner g') = hg (o_replace (h_options (inner g))) (h_groups (inner g) ++ open_groups ops)).
Proof.
  induction ops as [|[l|[|c name]] ops IH]; intros g g'; cbn [derive step open_groups flat_map].
  - intros [= <-]. rewrite app_nil_r. auto.
  - unfold with_attrs_hdl, with_attrs. destruct (add_attributes _ _ _ _ _) as [[c ok]|]; [|discriminate].
    intros D. apply IH in D. exact D.
  - intros D. apply IH in D. exact D.
  - intros D. apply IH in D. cbn [with_group_hdl inner with_group h_options h_extras h_groups] in D.
    destruct D as (D1 & D2 & D3). repeat split; auto. intros Hg. unfold hg in *.
    destruct (o_replace (h_options (inner g))).
    + rewrite D3 by reflexivity. rewrite <- app_assoc. reflexivity.
    + apply D3. reflexivity.
Qed.

Lemma derive_grouped n ops : forall g g', derive std n g ops = Some g' ->
  grouped ops = false -> is_base g = true -> is_base g' = true.
Proof.
  induction ops as [|o ops IH] using rev_ind; intros g g' D G B0.
  - injection D as <-. exact B0.
  - rewrite derive_app in D. destruct (derive std n g ops) as [g1|]; [|discriminate].
    unfold grouped in G. rewrite rev_unit in G. cbn [derive] in D.
    destruct o as [l|[|c nm]]; cbn [step named_group] in *; try discriminate.
    + unfold with_attrs_hdl in D. destruct (with_attrs std n (inner g1) l); [|discriminate].
      injection D as <-. reflexivity.
    + injection D as <-. reflexivity.
Qed.

(** Replacing a middle part of a derivation by an equivalent one. *)
Lemma logs_replace o x ops1 ops2 m1 m2 d r out :
  (forall k g, derive std k (HBase (new_handler o x)) ops1 = Some g ->
     exists n0, forall n, n0 <= n -> derive std n g m1 = derive std n g m2) ->
  logs std o x (ops1 ++ m1 ++ ops2) d r out -> logs std o x (ops1 ++ m2 ++ ops2) d r out.
Proof.
  intros H (n1 & L).
  destruct (L n1 (le_n _)) as (g & D & Hh).
  rewrite derive_app in D. destruct (derive std n1 (HBase (new_handler o x)) ops1) as [g1|] eqn:D1; [|discriminate].
  destruct (H n1 g1 D1) as (n0 & E).
  apply logs_intro with (n := max n0 n1) (g := g).
  - rewrite derive_app, (derive_mono std n1 (max n0 n1) ltac:(lia) ops1 _ _ D1).
    rewrite derive_app in *. rewrite <- E by lia.
    destruct (derive std n1 g1 m1) as [g2|] eqn:D2; [|discriminate].
    rewrite (derive_mono std n1 (max n0 n1) ltac:(lia) m1 _ _ D2).
    apply (derive_mono std n1); auto. lia.
  - apply (handle_hdl_mono std n1); auto. lia.
Qed.

(** The view of the attributes in force after [ops]. *)
Local Notation view_of o ex :=
  (flash_view std (x_time_format (fix_extras ex)) (basic_field (fix_extras ex)) (o_replace o)).

Lemma conf_dens o ex ops l fs n g :
  derive std n (HBase (new_handler o ex)) ops = Some g ->
  dens (view_of o ex) str false (open_groups ops) l fs ->
  dens (vw (inner g)) str false (h_groups (inner g)) l fs.
Proof.
  intros D Hd. destruct (derive_conf n ops _ _ D) as (E1 & E2 & E3).
  cbn [inner new_handler h_options h_extras h_groups app] in *.
  rewrite E1, E2, E3 by (unfold hg; destruct (o_replace o); reflexivity).
  apply (proj2 (den_hg std (o_replace o) (fix_extras ex) (open_groups ops))). exact Hd.
Qed.

Lemma attrs_twice o ex ops1 ops2 l1 l2 d r out fs :
  dens (view_of o ex) str false (open_groups ops1) l1 fs ->
  logs std o ex (ops1 ++ [WithAttrs l1; WithAttrs l2] ++ ops2) d r out <->
  logs std o ex (ops1 ++ [WithAttrs (l1 ++ l2)] ++ ops2) d r out.
Proof.
  intros Hd. 
  assert (K : forall k g, derive std k (HBase (new_handler o ex)) ops1 = Some g ->
     exists n0, forall n, n0 <= n -> derive std n g [WithAttrs l1; WithAttrs l2] = derive std n g [WithAttrs (l1 ++ l2)]).
  { intros k g D. destruct (with_attrs_split (inner g) l1 l2 fs (conf_dens o ex ops1 l1 fs k g D Hd)) as (n0 & H).
    exists n0. intros n L. cbn [derive step]. unfold with_attrs_hdl. rewrite (H n L).
    destruct (with_attrs std n (inner g) l1) as [h1|]; [|reflexivity]. cbn [inner].
    destruct (with_attrs std n h1 l2); reflexivity. }
  split; apply logs_replace; intros k g D; destruct (K k g D) as (n0 & H); exists n0; intros n L;
    [|symmetry]; auto.
Qed.

Lemma attrs_nothing o ex ops1 ops2 d r out : grouped ops1 = false ->
  (logs std o ex (ops1 ++ [WithAttrs []] ++ ops2) d r out <-> logs std o ex (ops1 ++ ops2) d r out) /\
  (logs std o ex (ops1 ++ [WithGroup []] ++ ops2) d r out <-> logs std o ex (ops1 ++ ops2) d r out).
Proof.
  intros G.
  assert (B0 : forall k g, derive std k (HBase (new_handler o ex)) ops1 = Some g -> exists h, g = HBase h).
  { intros k g D. apply derive_grouped in D; auto. destruct g; [eauto|discriminate]. }
  assert (K1 : forall k g, derive std k (HBase (new_handler o ex)) ops1 = Some g ->
     exists n0, forall n, n0 <= n -> derive std n g [WithAttrs []] = derive std n g []).
  { intros k g D. destruct (B0 k g D) as (h & ->). exists 0. intros n _. destruct h; reflexivity. }
  assert (K2 : forall k g, derive std k (HBase (new_handler o ex)) ops1 = Some g ->
     exists n0, forall n, n0 <= n -> derive std n g [WithGroup []] = derive std n g []).
  { intros k g D. destruct (B0 k g D) as (h & ->). exists 0. intros n _. reflexivity. }
  change (ops1 ++ ops2) with (ops1 ++ [] ++ ops2).
  split; split; apply logs_replace; intros k g D; 
    [destruct (K1 k g D) as (n0 & H)|destruct (K1 k g D) as (n0 & H)
    |destruct (K2 k g D) as (n0 & H)|destruct (K2 k g D) as (n0 & H)];
    exists n0; intros n L; rewrite (H n L); reflexivity.
Qed.

Definition with_record_attrs (r : record) (l : list attr) : record :=
  {| r_time := r_time r; r_level := r_level r; r_msg := r_msg r; r_source := r_source r; r_attrs := l |}.

Lemma handle_preceded h l r fs : dens (vw h) str false (h_groups h) l fs ->
  exists n0, forall n, n0 <= n -> exists h', with_attrs std n h l = Some h' /\
    handle std n h' r = handle std n h (with_record_attrs r (l ++ r_attrs r)).
Proof.
  intros D. destruct (attrs_state _ _ _ _ _ D) as (n0 & H). exists (S n0). intros n L.
  destruct n as [|n]; [lia|]. specialize (H (S n) ltac:(lia)).
  set (rp := o_replace (h_options h)) in *. set (x := h_extras h) in *. set (gs := h_groups h) in *.
  set (p := h_prefix h).
  assert (G : exists p', attrs_loop (att std (S n)) (mk rp x p (started_of p false) gs) l =
      Some (mk rp x p' (started_of p' false) gs, true) /\
      forall b1 s1, attrs_loop (att std (S n)) (mk rp x (b1 ++ emit p s1) (started_of p s1) gs) l =
        Some (mk rp x (b1 ++ emit p' s1) (started_of p' s1) gs, true)).
  { destruct H as [E|(t & Ht & Te & E)].
    - exists p. split; [rewrite (E _ _), app_nil_r; reflexivity|].
      intros b1 s1. rewrite (E _ _), app_nil_r. reflexivity.
    - assert (S0 : forall a s, started_of (a ++ t) s = true).
      { intros a s. unfold started_of. destruct (a ++ t) eqn:Ez.
        - apply app_eq_nil in Ez as [_ Ez]. congruence.
        - rewrite <- Ez, ends_with_app_ne, Te; auto. }
      exists (p ++ sep (started_of p false) ++ t). split.
      + rewrite (E _ _), (app_assoc p), S0. reflexivity.
      + intros b1 s1. rewrite (E _ _), (app_assoc p), S0. rewrite <- app_assoc. repeat f_equal.
        destruct p as [|pc p0].
        * cbn [emit started_of app sep]. unfold emit. destruct t; [congruence|]. reflexivity.
        * unfold emit. cbn [app]. rewrite <- !app_assoc. reflexivity. }
  destruct G as (p' & G1 & G2).
  exists {| h_options := h_options h; h_extras := x; h_prefix := p'; h_suffix := h_suffix h; h_groups := gs |}.
  split. { rewrite (with_attrs_eq (S n) h l _ _ G1). reflexivity. }
  unfold handle, compose. cbn [h_options h_extras h_groups h_suffix with_record_attrs r_attrs].
  fold rp x gs.
  change (add_bytes happ (new_composer [] false rp gs x) (B "{")) with (mk rp x (B "{") false gs).
  set (h' := {| h_options := h_options h; h_extras := x; h_prefix := p'; h_suffix := h_suffix h; h_groups := gs |}).
  set (r' := with_record_attrs r (l ++ r_attrs r)).
  pose proof (fun k => basics_eq std x n h' r (mk rp x (B "{") false gs) k eq_refl) as E1.
  pose proof (fun k => basics_eq std x n h r' (mk rp x (B "{") false gs) k eq_refl) as E2.
  rewrite E1, E2. clear E1 E2.
  change (flash_basics' std x h' r) with (flash_basics' std x h r').
  destruct (attrs_loop (att std (S n)) (mk rp x (B "{") false gs) (flash_basics' std x h r')) as [[c ok]|] eqn:E; [|reflexivity].
  apply attrs_fails in E as ((b1 & s1 & ->) & _).
  destruct ok; [|reflexivity]. cbn [andthen].
  rewrite !handle_prefix_eq. cbn [h' h_prefix]. fold p. unfold add_attributes.
  change (attrs_loop (add_attribute happ std (S n))) with (attrs_loop (att std (S n))).
  rewrite attrs_loop_app, G2. reflexivity.
Qed.

Lemma attrs_preceded o ex ops l r out fs :
  dens (view_of o ex) str false (open_groups ops) l fs ->
  grouped ops = false \/ forallb is_empty (l ++ r_attrs r) = false ->
  logs std o ex (ops ++ [WithAttrs l]) NoDead r out <->
  logs std o ex ops NoDead (with_record_attrs r (l ++ r_attrs r)) out.
Proof.
  intros Hd Hg.
  assert (K : forall k g, derive std k (HBase (new_handler o ex)) ops = Some g ->
    exists n0, forall n, n0 <= n -> exists h', with_attrs std n (inner g) l = Some h' /\
    handle std n h' r = handle_hdl std n NoDead g (with_record_attrs r (l ++ r_attrs r))).
  { intros k g D. destruct (handle_preceded (inner g) l r fs (conf_dens o ex ops l fs k g D Hd)) as (n0 & H).
    exists n0. intros n L. destruct (H n L) as (h' & W & E). exists h'. split; auto. rewrite E, handle_nodead.
    cbn [with_record_attrs r_attrs]. destruct (forallb is_empty (l ++ r_attrs r)) eqn:Em; [|reflexivity].
    destruct Hg as [Hg|Hg]; [|discriminate]. apply derive_grouped in D; auto. destruct g; [reflexivity|discriminate]. }
  split; intros (n1 & L1); destruct (L1 n1 (le_n _)) as (g & D & Hh).
  - rewrite derive_app in D. destruct (derive std n1 (HBase (new_handler o ex)) ops) as [g1|] eqn:D1; [|discriminate].
    destruct (K n1 g1 D1) as (n0 & H). destruct (H (max n0 n1) ltac:(lia)) as (h' & W & E).
    apply logs_intro with (n := max n0 n1) (g := g1).
    + apply (derive_mono std n1); auto. lia.
    + rewrite <- E. apply (derive_mono std n1 (max n0 n1) ltac:(lia)) in D. cbn [derive step] in D.
      unfold with_attrs_hdl in D. rewrite W in D. injection D as <-.
      apply (handle_hdl_mono std n1 (max n0 n1) ltac:(lia)) in Hh. exact Hh.
  - destruct (K n1 g D) as (n0 & H). destruct (H (max n0 n1) ltac:(lia)) as (h' & W & E).
    apply logs_intro with (n := max n0 n1) (g := HBase h').
    + rewrite derive_app, (derive_mono std n1 (max n0 n1) ltac:(lia) ops _ _ D). cbn [derive step].
      unfold with_attrs_hdl. rewrite W. reflexivity.
    + cbn [handle_hdl]. rewrite E. apply (handle_hdl_mono std n1); auto. lia.
Qed.

End Laws11.

(** ** The prefix is copied *)

Lemma handle_copies_prefix std n h r w : handle std n h r = Some (Done [w] true) ->
  exists a b, w = a ++ h_prefix h ++ b ++ [newline].
Proof.
  intros H. apply (handle_mono std n (S n)) in H; [|lia]. unfold handle, compose in H.
  set (rp := o_replace (h_options h)) in *. set (x := h_extras h) in *. set (gs := h_groups h) in *.
  change (add_bytes happ (new_composer [] false rp gs x) (B "{")) with (mk rp x (B "{") false gs) in H.
  pose proof (fun k => basics_eq std x n h r (mk rp x (B "{") false gs) k eq_refl) as E1.
  rewrite E1 in H. clear E1.
  destruct (attrs_loop (att std (S n)) (mk rp x (B "{") false gs) (flash_basics' std x h r)) as [[c ok]|] eqn:E; [|discriminate].
  apply attrs_fails in E as ((b1 & s1 & ->) & _).
  destruct ok; [|discriminate]. cbn [andthen] in H. rewrite handle_prefix_eq in H. unfold add_attributes in H.
  change (attrs_loop (add_attribute happ std (S n))) with (attrs_loop (att std (S n))) in H.
  set (st := started_of (h_prefix h) s1) in *. set (b2 := b1 ++ emit (h_prefix h) s1) in *.
  assert (F : exists t s' ok, attrs_loop (att std (S n)) (mk rp x b2 st gs) (r_attrs r) = Some (mk rp x (b2 ++ t) s' gs, ok)).
  { destruct (attrs_uniform std rp x (S n) gs (fun a => att_uniform std rp x (S n) gs a) (r_attrs r))
      as [N|[(ok & E)|(t & s' & ok & Ht & E)]].
    - rewrite N in H. discriminate.
    - exists [], st, ok. apply E.
    - eexists _, s', ok. apply E. }
  destruct F as (t & s' & ok & F). rewrite F in H. destruct ok; [|discriminate]. cbn [andthen] in H.
  assert (W : w = (b2 ++ t) ++ h_suffix h ++ [chr 125; newline]).
  { destruct (h_suffix h) eqn:Es; rewrite ?add_bytes_mk in H; cbn [c_buffer mk new_composer] in H.
    - injection H as <-. reflexivity.
    - injection H as <-. rewrite <- app_assoc. reflexivity. }
  assert (P : exists a, emit (h_prefix h) s1 = a ++ h_prefix h).
  { unfold emit. destruct (h_prefix h); [exists []; reflexivity|]. exists (sep s1). reflexivity. }
  destruct P as (a & P). exists (b1 ++ a), (t ++ h_suffix h ++ [chr 125]).
  rewrite W. unfold b2. rewrite P, <- !app_assoc. reflexivity.
Qed.

Lemma group_newline std n o ex name r w : In newline name ->
  forallb is_empty (r_attrs r) = false ->
  handle_hdl std n NoDead (with_group_hdl (HBase (new_handler o ex)) name) r = Some (Done [w] true) ->
  exists a b, w = a ++ newline :: b ++ [newline].
Proof.
  intros In0 E H. rewrite handle_nodead, E in H.
  destruct name as [|c name]; [destruct In0|]. cbn [with_group_hdl inner] in H.
  apply handle_copies_prefix in H as (a & b & ->). unfold with_group. cbn [h_prefix new_handler app].
  destruct (in_split _ _ In0) as (l1 & l2 & E2).
  exists (a ++ quote :: l1), (l2 ++ [quote] ++ B ": {" ++ b).
  replace (c :: (name ++ [quote] ++ B ": {") ++ b ++ [newline]) with
    ((c :: name) ++ [quote] ++ B ": {" ++ b ++ [newline]) by (cbn [app]; rewrite <- app_assoc; reflexivity).
  cbn [app]. rewrite <- !app_assoc. cbn [app].
  change (quote :: c :: name ++ quote :: B ": {" ++ b ++ [newline]) with
    ([quote] ++ (c :: name) ++ quote :: B ": {" ++ b ++ [newline]).
  rewrite E2. rewrite <- !app_assoc. cbn [app]. rewrite <- ?app_assoc. reflexivity.
Qed.
