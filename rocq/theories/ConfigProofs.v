(** Lemmas about handler configuration. *)

From Coq Require Import Ascii String List ZArith NArith Bool Lia.
From Verif Require Import Bytes BytesProofs Slog Flash FlashConfig.
Import ListNotations.

(** ** Stores *)

Lemma update_length {A} (f : A -> A) l : forall i, length (update l i f) = length l.
Proof. induction l as [|a l IH]; intros [|i]; cbn; auto. Qed.

Lemma update_same {A} (f : A -> A) l : forall i a, nth_error l i = Some a -> nth_error (update l i f) i = Some (f a).
Proof. induction l as [|b l IH]; intros [|i] a; cbn; try discriminate; auto. intros [= <-]. reflexivity. Qed.

Lemma update_other {A} (f : A -> A) l : forall i j, i <> j -> nth_error (update l i f) j = nth_error l j.
Proof.
  induction l as [|b l IH]; intros [|i] [|j] H; cbn; try congruence; try reflexivity.
  apply IH. congruence.
Qed.

Lemma nth_app {A} (l l' : list A) i a : nth_error l i = Some a -> nth_error (l ++ l') i = Some a.
Proof. intros H. rewrite nth_error_app1; auto. apply nth_error_Some. congruence. Qed.

Lemma nth_end {A} (l : list A) a : nth_error (l ++ [a]) (length l) = Some a.
Proof. rewrite nth_error_app2, Nat.sub_diag by lia. reflexivity. Qed.

(** ** Actions *)

(** The effects of NewHandler. *)
Lemma new_handler_spec w o e w' : act w (NewHandler o e) = Some w' ->
  exists po pe lo lx,
    (match o with Some p => po = p /\ nth_error (w_options w) p = Some lo
                | None => po = length (w_options w) /\ lo = None end) /\
    (match e with Some p => pe = p /\ nth_error (w_extras w) p = Some lx
                | None => pe = length (w_extras w) /\ lx = blank_extras end) /\
    w_vars w' = w_vars w /\
    w_handlers w' = w_handlers w ++ [{| hr_options := po; hr_extras := pe |}] /\
    nth_error (w_options w') po = Some (Some (match lo with Some l => l | None => Fixed LevelInfo end)) /\
    nth_error (w_extras w') pe = Some (fix_extras (Some lx)) /\
    (forall i l, nth_error (w_options w) i = Some l -> i <> po -> nth_error (w_options w') i = Some l) /\
    (forall i x, nth_error (w_extras w) i = Some x -> i <> pe -> nth_error (w_extras w') i = Some x).
Proof.
  cbn [act]. destruct (_ && _) eqn:Ok; [|discriminate]. apply andb_prop in Ok as [O1 O2].
  set (f := fun l : option leveler => match l with None => Some (Fixed LevelInfo) | _ => l end).
  set (gx := fun x => fix_extras (Some x)).
  assert (N : forall {A} (l : list A) i, Nat.ltb i (length l) = true -> exists a, nth_error l i = Some a).
  { intros A l i H. apply Nat.ltb_lt in H. apply nth_error_Some in H. destruct (nth_error l i); [eauto|congruence]. }
  assert (Fl : forall lo, f lo = Some (match lo with Some l => l | None => Fixed LevelInfo end)).
  { intros [l|]; reflexivity. }
  destruct o as [p|]; destruct e as [q|]; cbn [fix_options fix_extras_at]; intros [= <-];
    cbn [add_handler w_vars w_options w_extras w_handlers]; fold f gx.
  - destruct (N _ _ _ O1) as (lo & H1). destruct (N _ _ _ O2) as (lx & H2).
    exists p, q, lo, lx. repeat split; auto.
    + rewrite (update_same f _ _ _ H1), Fl. reflexivity.
    + apply (update_same gx _ _ _ H2).
    + intros i l H Hi. rewrite update_other; auto.
    + intros i l H Hi. rewrite update_other; auto.
  - destruct (N _ _ _ O1) as (lo & H1).
    exists p, (length (w_extras w)), lo, blank_extras. repeat split; auto.
    + rewrite (update_same f _ _ _ H1), Fl. reflexivity.
    + apply (update_same gx _ _ _ (nth_end _ _)).
    + intros i l H Hi. rewrite update_other; auto.
    + intros i l H Hi. rewrite update_other by auto. apply nth_app; auto.
  - destruct (N _ _ _ O2) as (lx & H2).
    exists (length (w_options w)), q, None, lx. repeat split; auto.
    + rewrite (update_same f _ _ _ (nth_end _ _)), Fl. reflexivity.
    + apply (update_same gx _ _ _ H2).
    + intros i l H Hi. rewrite update_other by auto. apply nth_app; auto.
    + intros i l H Hi. rewrite update_other; auto.
  - exists (length (w_options w)), (length (w_extras w)), None, blank_extras. repeat split; auto.
    + rewrite (update_same f _ _ _ (nth_end _ _)), Fl. reflexivity.
    + apply (update_same gx _ _ _ (nth_end _ _)).
    + intros i l H Hi. rewrite update_other by auto. apply nth_app; auto.
    + intros i l H Hi. rewrite update_other by auto. apply nth_app; auto.
Qed.

(** What no action changes: a set level, existing handlers. *)
Lemma act_options w a w' i l : act w a = Some w' ->
  nth_error (w_options w) i = Some (Some l) -> nth_error (w_options w') i = Some (Some l).
Proof.
  intros H E. destruct a; try (cbn [act] in H; injection H as <-; cbn [w_options]; auto using nth_app; fail).
  - cbn [act] in H. destruct (Nat.ltb _ _); [|discriminate]. injection H as <-. exact E.
  - apply new_handler_spec in H as (po & pe & lo & lx & Ho & _ & _ & _ & H1 & _ & H2 & _).
    destruct (Nat.eq_dec i po) as [->|N]; [|apply H2; auto].
    destruct o as [p|]; destruct Ho as [-> Ho].
    + rewrite Ho in E. injection E as ->. rewrite H1. reflexivity.
    + exfalso. assert (length (w_options w) < length (w_options w)); [|lia].
      apply nth_error_Some. congruence.
  - cbn [act] in H. destruct (nth_error (w_handlers w) h); [|discriminate]. injection H as <-. exact E.
Qed.

Lemma act_handlers w a w' i r : act w a = Some w' ->
  nth_error (w_handlers w) i = Some r -> nth_error (w_handlers w') i = Some r.
Proof.
  intros H E. destruct a; try (cbn [act] in H; injection H as <-; exact E).
  - cbn [act] in H. destruct (Nat.ltb _ _); [|discriminate]. injection H as <-. exact E.
  - apply new_handler_spec in H as (po & pe & lo & lx & _ & _ & _ & -> & _). apply nth_app; auto.
  - cbn [act] in H. destruct (nth_error (w_handlers w) h); [|discriminate]. injection H as <-. apply nth_app; auto.
Qed.

Lemma acts_options l : forall w w' i lv, acts w l = Some w' ->
  nth_error (w_options w) i = Some (Some lv) -> nth_error (w_options w') i = Some (Some lv).
Proof.
  induction l as [|a l IH]; intros w w' i lv H E; cbn [acts] in H; [congruence|].
  destruct (act w a) as [w1|] eqn:A; [|discriminate]. eapply IH; eauto. eapply act_options; eauto.
Qed.

Lemma acts_handlers l : forall w w' i r, acts w l = Some w' ->
  nth_error (w_handlers w) i = Some r -> nth_error (w_handlers w') i = Some r.
Proof.
  induction l as [|a l IH]; intros w w' i r H E; cbn [acts] in H; [congruence|].
  destruct (act w a) as [w1|] eqn:A; [|discriminate]. eapply IH; eauto. eapply act_handlers; eauto.
Qed.

(** Every handler has a level. *)
Definition leveled (w : world) : Prop := forall i r, nth_error (w_handlers w) i = Some r ->
  exists l, nth_error (w_options w) (hr_options r) = Some (Some l).

Lemma act_leveled w a w' : act w a = Some w' -> leveled w -> leveled w'.
Proof.
  intros H L i r E.
  assert (Old : nth_error (w_handlers w) i = Some r -> exists l, nth_error (w_options w') (hr_options r) = Some (Some l)).
  { intros E0. destruct (L i r E0) as (l & El). exists l. eapply act_options; eauto. }
  destruct a; try (cbn [act] in H; injection H as <-; apply Old; exact E).
  - apply Old. cbn [act] in H. destruct (Nat.ltb _ _); [|discriminate]. injection H as <-. exact E.
  - pose proof H as H0. apply new_handler_spec in H as (po & pe & lo & lx & _ & _ & _ & Eh & H1 & _).
    rewrite Eh in E. destruct (Nat.lt_ge_cases i (length (w_handlers w))) as [Lt|Ge].
    + apply Old. rewrite nth_error_app1 in E by auto. exact E.
    + rewrite nth_error_app2 in E by auto. destruct (i - length (w_handlers w)) as [|k]; [|destruct k; discriminate].
      injection E as <-. cbn. eauto.
  - cbn [act] in H. destruct (nth_error (w_handlers w) h) as [r0|] eqn:Eh; [|discriminate].
    injection H as <-. cbn [add_handler w_handlers] in E.
    destruct (Nat.lt_ge_cases i (length (w_handlers w))) as [Lt|Ge].
    + apply Old. rewrite nth_error_app1 in E by auto. exact E.
    + rewrite nth_error_app2 in E by auto. destruct (i - length (w_handlers w)) as [|k]; [|destruct k; discriminate].
      injection E as <-. cbn. eapply L; eauto.
Qed.

Lemma acts_leveled l : forall w w', acts w l = Some w' -> leveled w -> leveled w'.
Proof.
  induction l as [|a l IH]; intros w w' H L; cbn [acts] in H; [injection H as <-; exact L|].
  destruct (act w a) as [w1|] eqn:A; [|discriminate]. eapply IH; eauto. eapply act_leveled; eauto.
Qed.

Lemma leveled0 : leveled world0.
Proof. intros [|i] r H; discriminate. Qed.

(** ** Statements *)

Lemma enabled_threshold l w h : acts world0 l = Some w -> h < length (w_handlers w) ->
  exists t, forall lv, enabled w h lv = Some (Z.leb t lv).
Proof.
  intros H Hh. pose proof (acts_leveled l _ _ H leveled0) as L.
  apply nth_error_Some in Hh. destruct (nth_error (w_handlers w) h) as [r|] eqn:E; [|congruence].
  destruct (L h r E) as (lv & El). exists (level_of w lv). intros l'. unfold enabled. rewrite E, El. reflexivity.
Qed.

Lemma enabled_given w p lo e w1 post w2 l :
  nth_error (w_options w) p = Some lo ->
  act w (NewHandler (Some p) e) = Some w1 -> acts w1 post = Some w2 ->
  enabled w2 (length (w_handlers w)) l =
  Some (Z.leb (level_of w2 (match lo with Some lv => lv | None => Fixed LevelInfo end)) l).
Proof.
  intros Hp A P. apply new_handler_spec in A as (po & pe & lo' & lx & [-> Ho] & _ & _ & Eh & H1 & _).
  rewrite Hp in Ho. injection Ho as <-.
  unfold enabled.
  rewrite (acts_handlers post w1 w2 (length (w_handlers w)) {| hr_options := p; hr_extras := pe |} P)
    by (rewrite Eh; apply nth_end).
  cbn [hr_options]. rewrite (acts_options post w1 w2 _ _ P H1). reflexivity.
Qed.

Lemma enabled_default w e w1 post w2 l :
  act w (NewHandler None e) = Some w1 -> acts w1 post = Some w2 ->
  enabled w2 (length (w_handlers w)) l = Some (Z.leb LevelInfo l).
Proof.
  intros A P. apply new_handler_spec in A as (po & pe & lo' & lx & [-> ->] & _ & _ & Eh & H1 & _).
  unfold enabled.
  rewrite (acts_handlers post w1 w2 (length (w_handlers w)) {| hr_options := length (w_options w); hr_extras := pe |} P)
    by (rewrite Eh; apply nth_end).
  cbn [hr_options]. rewrite (acts_options post w1 w2 _ _ P H1). reflexivity.
Qed.

Lemma derived_same w h w1 post w2 :
  act w (Derive h) = Some w1 -> acts w1 post = Some w2 ->
  (forall l, enabled w2 (length (w_handlers w)) l = enabled w2 h l) /\
  settings_of w2 (length (w_handlers w)) = settings_of w2 h.
Proof.
  intros A P. cbn [act] in A. destruct (nth_error (w_handlers w) h) as [r|] eqn:E; [|discriminate].
  injection A as <-.
  assert (E1 : nth_error (w_handlers w2) h = Some r).
  { eapply acts_handlers; [exact P|]. apply nth_app. exact E. }
  assert (E2 : nth_error (w_handlers w2) (length (w_handlers w)) = Some r).
  { eapply acts_handlers; [exact P|]. apply nth_end. }
  unfold enabled, settings_of. rewrite E1, E2. auto.
Qed.

(** The last value set to a LevelVar is its value. *)
Definition sets (v : nat) (a : action) : bool := match a with SetVar u _ => Nat.eqb u v | _ => false end.

Lemma act_vars w a w' v : act w a = Some w' -> sets v a = false -> w_vars w' v = w_vars w v.
Proof.
  intros H S. destruct a; try (cbn [act] in H; injection H as <-; reflexivity).
  - cbn [act] in H. injection H as <-. cbn in *. rewrite Nat.eqb_sym, S. reflexivity.
  - cbn [act] in H. destruct (Nat.ltb _ _); [|discriminate]. injection H as <-. reflexivity.
  - apply new_handler_spec in H as (po & pe & lo & lx & _ & _ & -> & _). reflexivity.
  - cbn [act] in H. destruct (nth_error (w_handlers w) h); [|discriminate]. injection H as <-. reflexivity.
Qed.

Lemma vars_follow v z post : forall w w1 w2, act w (SetVar v z) = Some w1 -> acts w1 post = Some w2 ->
  forallb (fun a => negb (sets v a)) post = true -> w_vars w2 v = z.
Proof.
  intros w w1 w2 H P F.
  assert (E : w_vars w1 v = z). { cbn in H. injection H as <-. cbn. rewrite Nat.eqb_refl. reflexivity. }
  clear w H. revert w1 E P. induction post as [|a post IH]; intros w1 E P; cbn [acts] in P; [congruence|].
  cbn [forallb] in F. apply andb_prop in F as [F1 F2].
  destruct (act w1 a) as [w3|] eqn:A; [|discriminate]. apply (IH F2 w3); auto.
  rewrite (act_vars _ _ _ _ A); auto. destruct (sets v a); [discriminate|reflexivity].
Qed.

(** ** Extras *)

Lemma default_nonempty s d : d <> [] -> default s d <> [].
Proof. unfold default. destruct (beq s []) eqn:E; auto. intros _ ->. discriminate. Qed.

Lemma default_keeps s d : s <> [] -> default s d = s.
Proof. unfold default. intros H. apply beq_neq in H. rewrite H. reflexivity. Qed.

Lemma default_level_keeps m l k : m k <> [] -> default_level m l k = m k.
Proof.
  unfold default_level. intros H. destruct (beq (m l) []) eqn:E; auto.
  apply beq_eq in E. destruct (Z.eqb_spec k l); congruence.
Qed.

Lemma default_level_other m l k : k <> l -> default_level m l k = m k.
Proof. unfold default_level. intros H. destruct (beq (m l) []); auto. destruct (Z.eqb_spec k l); congruence. Qed.

Lemma default_level_at m l : default_level m l l = if beq (m l) [] then level_string l else m l.
Proof. unfold default_level. destruct (beq (m l) []); auto. rewrite Z.eqb_refl. reflexivity. Qed.

Lemma default_level_id m l : m l <> [] -> default_level m l = m.
Proof. unfold default_level. intros H. apply beq_neq in H. rewrite H. reflexivity. Qed.

Definition standard (l : Z) : bool :=
  Z.eqb l LevelDebug || Z.eqb l LevelInfo || Z.eqb l LevelWarn || Z.eqb l LevelError.

(** The user's name for a level. *)
Definition configured (ex : option extras) (l : Z) : bytes :=
  match ex with None => [] | Some x => x_level_names x l end.

Lemma names_spec ex l : x_level_names (fix_extras ex) l =
  if beq (configured ex l) [] then if standard l then level_string l else [] else configured ex l.
Proof.
  unfold fix_extras. cbn [x_level_names].
  replace (x_level_names match ex with Some x => x | None => blank_extras end) with (configured ex)
    by (destruct ex; reflexivity).
  set (m := configured ex). unfold standard.
  destruct (Z.eqb_spec l LevelDebug) as [->|N1].
  { rewrite !default_level_other by discriminate. rewrite default_level_at. reflexivity. }
  destruct (Z.eqb_spec l LevelInfo) as [->|N2].
  { rewrite (default_level_other _ LevelError), (default_level_other _ LevelWarn), default_level_at by discriminate.
    rewrite default_level_other by discriminate. reflexivity. }
  destruct (Z.eqb_spec l LevelWarn) as [->|N3].
  { rewrite (default_level_other _ LevelError), default_level_at by discriminate.
    rewrite !default_level_other by discriminate. reflexivity. }
  destruct (Z.eqb_spec l LevelError) as [->|N4].
  { rewrite default_level_at. rewrite !default_level_other by discriminate. reflexivity. }
  rewrite !default_level_other by auto. cbn [orb]. destruct (beq (m l) []) eqn:E; auto. apply beq_eq in E. auto.
Qed.

Lemma names_standard ex l : standard l = true -> x_level_names (fix_extras ex) l <> [].
Proof.
  intros S. rewrite names_spec, S. destruct (beq (configured ex l) []) eqn:E.
  - unfold standard in S. repeat rewrite orb_true_iff in S. rewrite !Z.eqb_eq in S.
    destruct S as [[[->| ->]| ->]| ->]; discriminate.
  - apply beq_neq in E. exact E.
Qed.

Lemma fix_nonempty ex : let x := fix_extras ex in
  x_time_format x <> [] /\ x_level_key x <> [] /\ x_message_key x <> [] /\ x_source_key x <> [] /\ x_time_key x <> [].
Proof. cbn. repeat split; apply default_nonempty; discriminate. Qed.

Lemma fix_idempotent ex : fix_extras (Some (fix_extras ex)) = fix_extras ex.
Proof.
  destruct (fix_nonempty ex) as (H1 & H2 & H3 & H4 & H5).
  pose proof (fun l => names_standard ex l) as N.
  unfold fix_extras at 1. set (x := fix_extras ex) in *.
  rewrite !default_keeps by auto.
  rewrite (default_level_id _ LevelDebug), (default_level_id _ LevelInfo), (default_level_id _ LevelWarn),
    (default_level_id _ LevelError) by (apply N; reflexivity).
  destruct x; reflexivity.
Qed.

Lemma fix_keeps x :
  let y := fix_extras (Some x) in
  (x_time_format x <> [] -> x_time_format y = x_time_format x) /\
  (x_level_key x <> [] -> x_level_key y = x_level_key x) /\
  (x_message_key x <> [] -> x_message_key y = x_message_key x) /\
  (x_source_key x <> [] -> x_source_key y = x_source_key x) /\
  (x_time_key x <> [] -> x_time_key y = x_time_key x) /\
  (forall l, x_level_names x l <> [] -> x_level_names y l = x_level_names x l).
Proof.
  repeat split; try (intros H; apply default_keeps; exact H).
  intros l H. rewrite names_spec. cbn [configured]. apply beq_neq in H. rewrite H. reflexivity.
Qed.

(** In-place completion. *)
Lemma act_extras w a w' i x : act w a = Some w' -> nth_error (w_extras w) i = Some x ->
  nth_error (w_extras w') i = Some x \/
  (exists y, a = WriteExtras i y /\ nth_error (w_extras w') i = Some y) \/
  (nth_error (w_extras w') i = Some (fix_extras (Some x)) /\ exists o, a = NewHandler o (Some i)).
Proof.
  intros H E. destruct a; try (cbn [act] in H; injection H as <-; left; cbn; auto using nth_app; fail).
  - cbn [act] in H. destruct (Nat.ltb _ _); [|discriminate]. injection H as <-. cbn [w_extras].
    destruct (Nat.eq_dec p i) as [->|N].
    + right. left. exists x0. split; auto. exact (update_same (fun _ => x0) _ _ _ E).
    + left. rewrite update_other; auto.
  - apply new_handler_spec in H as (po & pe & lo & lx & _ & He & _ & _ & _ & H1 & _ & H2).
    destruct (Nat.eq_dec i pe) as [->|N]; [|left; apply H2; auto].
    destruct e as [p|]; destruct He as [-> He].
    + right. right. rewrite E in He. injection He as <-. eauto.
    + exfalso. assert (length (w_extras w) < length (w_extras w)); [|lia]. apply nth_error_Some. congruence.
  - cbn [act] in H. destruct (nth_error (w_handlers w) h); [|discriminate]. injection H as <-. left. exact E.
Qed.

Lemma new_settings w o p w1 post w2 : act w (NewHandler o (Some p)) = Some w1 -> acts w1 post = Some w2 ->
  (exists x, nth_error (w_extras w) p = Some x /\ nth_error (w_extras w1) p = Some (fix_extras (Some x))) /\
  settings_of w2 (length (w_handlers w)) = nth_error (w_extras w2) p.
Proof.
  intros A P. apply new_handler_spec in A as (po & pe & lo & lx & _ & [-> He] & _ & Eh & _ & H1 & _).
  split; [eauto|]. unfold settings_of.
  rewrite (acts_handlers post w1 w2 (length (w_handlers w)) {| hr_options := po; hr_extras := p |} P)
    by (rewrite Eh; apply nth_end).
  reflexivity.
Qed.

Definition writes (p : nat) (a : action) : bool := match a with WriteExtras q _ => Nat.eqb q p | _ => false end.

Lemma private_settings w o w1 post w2 : act w (NewHandler o None) = Some w1 -> acts w1 post = Some w2 ->
  forallb (fun a => negb (writes (length (w_extras w)) a)) post = true ->
  settings_of w2 (length (w_handlers w)) = Some (fix_extras None).
Proof.
  intros A P F. apply new_handler_spec in A as (po & pe & lo & lx & _ & [-> ->] & _ & Eh & _ & H1 & _).
  unfold settings_of.
  rewrite (acts_handlers post w1 w2 (length (w_handlers w)) {| hr_options := po; hr_extras := length (w_extras w) |} P)
    by (rewrite Eh; apply nth_end).
  cbn [hr_extras]. change (fix_extras (Some blank_extras)) with (fix_extras None) in H1.
  clear Eh. revert w1 H1 P. set (p := length (w_extras w)) in *.
  induction post as [|a post IH]; intros w1 H1 P; cbn [acts] in P; [congruence|].
  cbn [forallb] in F. apply andb_prop in F as [F1 F2].
  destruct (act w1 a) as [w3|] eqn:A; [|discriminate]. apply (IH F2 w3); auto.
  destruct (act_extras _ _ _ _ _ A H1) as [E|[(y & -> & _)|[E _]]]; auto.
  - cbn in F1. rewrite Nat.eqb_refl in F1. discriminate.
Qed.

(** ** Level texts *)

Lemma signed_inj a b : signed_dec a = signed_dec b -> a = b.
Proof.
  intros H. apply dec_of_Z_inj. unfold signed_dec in H.
  destruct a as [|p|p], b as [|q|q]; try reflexivity; try exact H;
    try (apply (f_equal (@tl ascii)) in H; exact H);
    apply (f_equal (fun l => option_map code (hd_error l))) in H; discriminate.
Qed.

Lemma signed_nonempty a : signed_dec a <> [].
Proof. unfold signed_dec. destruct a; try discriminate. Qed.

Lemma level_str_inj base a b : level_str base a = level_str base b -> a = b.
Proof.
  unfold level_str. destruct (Z.eqb_spec a 0) as [->|Na], (Z.eqb_spec b 0) as [->|Nb]; auto; intros H.
  - exfalso. rewrite <- (app_nil_r (B base)) in H at 1. apply app_inv_head in H. symmetry in H. exact (signed_nonempty _ H).
  - exfalso. rewrite <- (app_nil_r (B base)) in H at 2. apply app_inv_head in H. exact (signed_nonempty _ H).
  - apply app_inv_head in H. apply signed_inj; auto.
Qed.

Lemma level_string_inj a b : level_string a = level_string b -> a = b.
Proof.
  intros H.
  assert (K : forall b1 b2 x y, hd_error (B b1) <> hd_error (B b2) -> B b1 <> [] -> B b2 <> [] ->
    level_str b1 x = level_str b2 y -> False).
  { intros b1 b2 x y Hh N1 N2 E. apply Hh.
    assert (Hd : forall b z, B b <> [] -> hd_error (level_str b z) = hd_error (B b)).
    { intros b0 z N. unfold level_str. destruct (Z.eqb z 0); auto. destruct (B b0); [congruence|reflexivity]. }
    rewrite <- (Hd b1 x), <- (Hd b2 y) by auto. rewrite E. reflexivity. }
  unfold level_string in H.
  destruct (Z.ltb a LevelInfo), (Z.ltb a LevelWarn), (Z.ltb a LevelError),
    (Z.ltb b LevelInfo), (Z.ltb b LevelWarn), (Z.ltb b LevelError);
    try (apply level_str_inj in H; lia);
    exfalso; revert H; apply K; discriminate.
Qed.

Lemma level_string_nonempty l : level_string l <> [].
Proof.
  unfold level_string, level_str.
  destruct (Z.ltb l LevelInfo), (Z.ltb l LevelWarn), (Z.ltb l LevelError);
    match goal with |- (if ?b then _ else _) <> _ => destruct b end; discriminate.
Qed.
