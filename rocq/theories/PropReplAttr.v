(** Property C54: the madkins/replattr handler undoes its own misbehaviour, and
    what else it changes. *)

From Coq Require Import Ascii String List ZArith NArith Bool Lia.
From Verif Require Import Bytes BytesProofs GoQuote Slog SlogProofs SpecFlash Replace Flash FlashLaws FlashSim ReplAttr
  PropReplace Samples.
Import ListNotations.

(** ** Specification *)

(** The keys the handler's own functions and settings are about. *)
Definition reserved : list bytes := [B "message"; B "lvl"; B "level"; B "msg"].

(** Values without attributes of these names, also inside groups and behind
    LogValuers. *)
Inductive unconcerned : value -> Prop :=
| un_group l : Forall (fun a => ~ In (fst a) reserved /\ unconcerned (snd a)) l -> unconcerned (VGroup l)
| un_valuer v o : unconcerned v -> unconcerned (VLogValuer v o)
| un_other v : is_group v = false -> is_log_valuer v = false -> unconcerned v.

Definition free (a : attr) : Prop := ~ In (fst a) reserved /\ unconcerned (snd a).

(** Values without LogValuers. *)
Inductive direct : value -> Prop :=
| dir_group l : Forall (fun a => direct (snd a)) l -> direct (VGroup l)
| dir_other v : is_group v = false -> is_log_valuer v = false -> direct v.

Definition op_all (P : attr -> Prop) (o : op) : Prop :=
  match o with WithAttrs l => Forall P l | WithGroup _ => True end.

(** A ReplaceAttr function that leaves nothing alone and does not put reserved
    names into groups. *)
Definition keeps (f : attr_fn) : Prop :=
  (forall gs, f gs empty_attr = empty_attr) /\
  (forall gs a, unconcerned (snd a) -> unconcerned (snd (f gs a))).

(** How attributes come out when nothing else is replaced; [top]: no group was
    opened with WithGroup (groups that are attributes do not count). *)
Inductive shown (cs : casing) (top : bool) : attr -> attr -> Prop :=
| shown_same k v : k <> B "message" -> k <> B "lvl" -> (k = B "level" -> top = false) ->
    is_group (resolve v) = false -> shown cs top (k, v) (k, v)
| shown_group k l l' : k <> B "message" -> k <> B "lvl" -> (k = B "level" -> top = false) ->
    Forall2 (shown cs top) l l' -> shown cs top (k, VGroup l) (k, VGroup l')
| shown_message v : is_group (resolve v) = false -> shown cs top (B "message", v) (B "msg", v)
| shown_message_group l l' : Forall2 (shown cs top) l l' ->
    shown cs top (B "message", VGroup l) (B "msg", VGroup l')
| shown_lvl v : is_group (resolve v) = false ->
    shown cs top (B "lvl", v) (B "level", VString (map_runes (cs_upper cs) (cs_string cs (resolve v))))
| shown_level v : top = true -> is_group (resolve v) = false ->
    shown cs top (B "level", v) (B "level", VString (map_runes (cs_upper cs) (cs_string cs (resolve v)))).

Definition none_open (gs : list bytes) : bool := match gs with [] => true | _ => false end.

(** Derivation calls: the attributes come out as with the groups open so far. *)
Inductive calls_shown (cs : casing) : list bytes -> list op -> list op -> list bytes -> Prop :=
| calls_none gs : calls_shown cs gs [] [] gs
| calls_attrs gs l l' ops ops' gs' : Forall2 (shown cs (none_open gs)) l l' -> calls_shown cs gs ops ops' gs' ->
    calls_shown cs gs (WithAttrs l :: ops) (WithAttrs l' :: ops') gs'
| calls_group gs n ops ops' gs' : calls_shown cs (if beq n [] then gs else gs ++ [n]) ops ops' gs' ->
    calls_shown cs gs (WithGroup n :: ops) (WithGroup n :: ops') gs'.

Definition with_attributes (r : record) (l : list attr) : record :=
  {| r_time := r_time r; r_level := r_level r; r_msg := r_msg r; r_source := r_source r; r_attrs := l |}.

(** ** Lemmas *)

Lemma value_ind' (P : value -> Prop) :
  (forall v, is_group v = false -> is_log_valuer v = false -> P v) ->
  (forall l, Forall (fun a => P (snd a)) l -> P (VGroup l)) ->
  (forall v o, P v -> P (VLogValuer v o)) -> forall v, P v.
Proof.
  intros H0 Hg Hl. fix IH 1. intros [a|b|d|f|i|s|t|u|l|v o]; try (apply H0; reflexivity).
  - apply Hg. induction l as [|[k w] l IHl]; constructor; [apply IH|exact IHl].
  - apply Hl, IH.
Qed.

Lemma unconcerned_resolve v : unconcerned v -> unconcerned (resolve v).
Proof.
  unfold resolve. generalize 100. intros n. revert v. induction n as [|n IH]; intros v H; cbn [resolve_n].
  - apply un_other; reflexivity.
  - destruct H as [l F|v o H|v G L]; [apply un_group; exact F|apply IH; exact H|].
    destruct v; try discriminate; apply un_other; reflexivity.
Qed.

Lemma direct_resolve v : direct v -> is_log_valuer v = false.
Proof. intros [l F|w G L]; [reflexivity|exact L]. Qed.

Section C54.
Variable cs : casing.
Hypothesis ok : casing_ok cs.

Definition fns (user : option attr_fn) : attr_fn := multiple_fns (replattr_fns cs user).
Definition after (user : option attr_fn) (gs : list bytes) (a : attr) : attr :=
  match user with None => a | Some f => f gs a end.
Definition upper (v : value) : value := VString (map_runes (cs_upper cs) (cs_string cs v)).

Lemma beq_false k k' : k <> k' -> beq k k' = false.
Proof. intros H. destruct (beq k k') eqn:E; [apply beq_eq in E; congruence|reflexivity]. Qed.

Lemma check_top gs a key : check_field_groups cs gs a key false (Some top_check) = beq (fst a) key && none_open gs.
Proof. unfold check_field_groups, top_check. destruct gs; reflexivity. Qed.

Lemma multiple_cons fn rest gs a b : fn gs a = b -> is_empty b = false ->
  multiple_fns (fn :: rest) gs a = multiple_fns rest gs b.
Proof. intros <- E. cbn [multiple_fns]. rewrite E. reflexivity. Qed.

(** The functions as a table. *)
Lemma fns_eq user gs a : is_empty a = false ->
  fns user gs a =
    let a1 := if beq (fst a) (B "message") && none_open gs then (B "msg", snd a) else a in
    let a2 := if beq (fst a1) (B "lvl") && none_open gs then (B "level", snd a1) else a1 in
    let a3 := if beq (fst a2) (B "level") && none_open gs then (B "level", upper (snd a2)) else a2 in
    after user gs a3.
Proof.
  intros E. unfold fns, replattr_fns. cbn [app].
  set (a1 := if beq (fst a) (B "message") && none_open gs then (B "msg", snd a) else a).
  assert (E1 : is_empty a1 = false) by (subst a1; destruct (_ && _); [reflexivity|exact E]).
  rewrite (multiple_cons _ _ gs a a1); [|unfold change_key; rewrite check_top; reflexivity|exact E1].
  set (a2 := if beq (fst a1) (B "lvl") && none_open gs then (B "level", snd a1) else a1).
  assert (E2 : is_empty a2 = false) by (subst a2; destruct (beq (fst a1) _ && _); [reflexivity|exact E1]).
  rewrite (multiple_cons _ _ gs a1 a2); [|unfold change_key; rewrite check_top; reflexivity|exact E2].
  set (a3 := if beq (fst a2) (B "level") && none_open gs then (B "level", upper (snd a2)) else a2).
  assert (E3 : is_empty a3 = false) by (subst a3; destruct (beq (fst a2) _ && _); [reflexivity|exact E2]).
  rewrite (multiple_cons _ _ gs a2 a3); [| |exact E3].
  - cbv zeta. fold a1. fold a2. fold a3. destruct user as [f|]; [|reflexivity].
    cbn [multiple_fns after]. destruct (is_empty (f gs a3)); reflexivity.
  - change (change_case cs LevelKey CaseUpper false (Some top_check)) with
      (change_value cs LevelKey (fun v => VString (map_runes (cs_upper cs) (cs_string cs v))) false (Some top_check)).
    unfold change_value. rewrite check_top. subst a3. change LevelKey with (B "level").
    destruct (beq (fst a2) (B "level")) eqn:L; [|reflexivity]. apply beq_eq in L. rewrite L. reflexivity.
Qed.

Lemma fns_empty user gs : fns user gs empty_attr = empty_attr.
Proof. reflexivity. Qed.

Lemma fns_other user gs k v : is_empty (k, v) = false ->
  k <> B "message" -> k <> B "lvl" -> (k = B "level" -> none_open gs = false) -> fns user gs (k, v) = after user gs (k, v).
Proof.
  intros E K1 K2 K3. rewrite fns_eq by exact E. cbn [fst snd].
  rewrite (beq_false _ _ K1). cbn [andb fst]. rewrite (beq_false _ _ K2). cbn [andb fst].
  destruct (beq k (B "level")) eqn:L; [|reflexivity]. apply beq_eq in L. rewrite (K3 L). reflexivity.
Qed.

Lemma fns_message user gs v : none_open gs = true -> fns user gs (B "message", v) = after user gs (B "msg", v).
Proof. intros T. rewrite fns_eq by reflexivity. rewrite T. reflexivity. Qed.

Lemma fns_lvl user gs v : none_open gs = true -> fns user gs (B "lvl", v) = after user gs (B "level", upper v).
Proof. intros T. rewrite fns_eq by reflexivity. rewrite T. reflexivity. Qed.

Lemma fns_level user gs v : none_open gs = true -> fns user gs (B "level", v) = after user gs (B "level", upper v).
Proof. intros T. rewrite fns_eq by reflexivity. rewrite T. reflexivity. Qed.

(** The settings after fixExtras. *)
Definition x1 : extras := fix_extras (Some replattr_extras).
Definition x2 : extras := fix_extras None.

Lemma basic1 k : basic_field x1 k = beq k (B "lvl") || beq k (B "message") || beq k (B "source") || beq k (B "time").
Proof. reflexivity. Qed.
Lemma basic2 k : basic_field x2 k = beq k (B "level") || beq k (B "msg") || beq k (B "source") || beq k (B "time").
Proof. reflexivity. Qed.

Lemma same_basic k : ~ In k reserved -> basic_field x1 k = basic_field x2 k.
Proof.
  intros H. rewrite basic1, basic2.
  assert (N : forall x, In x reserved -> beq k x = false) by (intros x I; apply beq_false; intros ->; exact (H I)).
  unfold reserved in N. rewrite (N (B "message")), (N (B "lvl")), (N (B "level")), (N (B "msg")) by (cbn [In]; auto). reflexivity.
Qed.

Lemma upper_ascii s t : runes s = map code s -> forallb (fun c => N.ltb (code c) 128) s = true ->
  map (fun c => ascii_upper (code c)) s = map code t -> concat (map utf8_encode (map code t)) = t ->
  map_runes (cs_upper cs) s = t.
Proof.
  intros R A M T. unfold map_runes. rewrite R, map_map. rewrite <- T, <- M, !map_map. f_equal.
  apply map_ext_in. intros c I. rewrite forallb_forall in A. specialize (A c I). apply N.ltb_lt in A.
  rewrite (up_ascii cs ok) by exact A. reflexivity.
Qed.

Lemma names1 l : x_level_names x1 l =
  if Z.eqb l (-4) then B "Debug" else if Z.eqb l 0 then B "Info" else if Z.eqb l 4 then B "Warn"
  else if Z.eqb l 8 then B "Error" else [].
Proof. reflexivity. Qed.

Lemma names2 l : x_level_names x2 l =
  if Z.eqb l 8 then B "ERROR" else if Z.eqb l 4 then B "WARN" else if Z.eqb l 0 then B "INFO"
  else if Z.eqb l (-4) then B "DEBUG" else [].
Proof. reflexivity. Qed.

Lemma names_upper l : upper (VString (x_level_names x1 l)) = VString (x_level_names x2 l).
Proof.
  unfold upper. rewrite (string_id cs ok). f_equal. rewrite names1, names2.
  destruct (Z.eqb_spec l (-4)) as [->|N1]; [apply upper_ascii; reflexivity|].
  destruct (Z.eqb_spec l 0) as [->|N2]; [apply upper_ascii; reflexivity|].
  destruct (Z.eqb_spec l 4) as [->|N3]; [apply upper_ascii; reflexivity|].
  destruct (Z.eqb_spec l 8) as [->|N4]; [apply upper_ascii; reflexivity|]. reflexivity.
Qed.

(** *** With a user function *)

Section User.
Variable f : attr_fn.
Hypothesis kept : keeps f.

Definition Ruser (gs : list bytes) (a1 a2 : attr) : Prop := a1 = a2 /\ free a1.

Lemma same_group gs k l : Forall free l -> post (Some f) Ruser gs (k, VGroup l) (k, VGroup l).
Proof.
  intros F. right. exists k, l, l. repeat split. clear -F. induction F; constructor; [split; auto|auto].
Qed.

Lemma post_self gs p : unconcerned (snd p) -> post (Some f) Ruser gs p p.
Proof.
  destruct p as [k v]. cbn [snd]. intros [l F|w o H|w G L].
  - apply same_group. exact F.
  - left. repeat split. discriminate.
  - left. repeat split; [exact G|discriminate].
Qed.

Lemma seen_user gs a1 a2 : Ruser gs a1 a2 ->
  (Some f = None -> is_log_valuer (snd a2) = false) /\ is_empty a1 = is_empty a2 /\
  post (Some f) Ruser gs (see1 (fns (Some f)) x1 gs a1) (see2 (Some f) x2 gs a2).
Proof.
  intros [-> [K U]]. split; [discriminate|]. split; [reflexivity|]. unfold see1, see2.
  rewrite (same_basic _ K). set (g := if basic_field x2 (fst a2) then [] else gs).
  replace (fns (Some f) g (fst a2, resolve (snd a2))) with (f g (fst a2, resolve (snd a2))).
  - apply post_self. apply (proj2 kept). apply unconcerned_resolve. exact U.
  - destruct (is_empty (fst a2, resolve (snd a2))) eqn:E.
    + apply is_empty_attr in E. rewrite E, fns_empty. apply (proj1 kept).
    + symmetry. apply fns_other; auto; unfold reserved in K; cbn [In] in K; intuition congruence.
Qed.

Lemma head_post gs k v a2 : is_group v = false -> is_log_valuer v = false ->
  fns (Some f) [] (k, v) = f [] a2 -> unconcerned (snd a2) ->
  post (Some f) Ruser gs (fns (Some f) [] (k, v)) (head2 (Some f) a2).
Proof. intros G L E U. rewrite E. apply post_self, (proj2 kept), U. Qed.

Lemma user_logs std src ops d r out :
  Forall (op_all free) ops -> Forall free (r_attrs r) ->
  logs std {| o_add_source := src; o_replace := Some (fns (Some f)) |} (Some replattr_extras) ops d r out <->
  logs std {| o_add_source := src; o_replace := Some f |} None ops d r out.
Proof.
  intros O F.
  assert (Fr : forall gs l, Forall free l -> Forall2 (Ruser gs) l l).
  { intros gs l H. induction H; constructor; [split; auto|auto]. }
  assert (Q : forall gs, exists gs', ops_rel Ruser gs ops ops gs').
  { induction O as [|o ops Ho O IH]; intros gs; [eexists; constructor|].
    destruct o as [l|n].
    - destruct (IH gs) as (gs' & Q). exists gs'. constructor; auto.
    - destruct (IH (opened gs (WithGroup n))) as (gs' & Q). exists gs'. constructor; auto. }
  destruct (Q []) as (gs' & Q').
  apply (logs_sim std (fns (Some f)) (Some f) x1 x2 Ruser seen_user eq_refl) with (gs := gs');
    try discriminate; try reflexivity; auto.
  - intros gs t. apply (head_post gs _ _ (B "time", VTime t)); [reflexivity..| |apply un_other; reflexivity].
    apply fns_other; [reflexivity|discriminate..].
  - intros gs l. apply (head_post gs _ _ (B "level", VString (x_level_names x2 l))); [reflexivity..| |apply un_other; reflexivity].
    change (x_level_key x1) with (B "lvl"). rewrite fns_lvl by reflexivity. rewrite names_upper. reflexivity.
  - intros gs m. apply (head_post gs _ _ (B "msg", VString m)); [reflexivity..| |apply un_other; reflexivity].
    apply fns_message. reflexivity.
  - intros gs o. apply (head_post gs _ _ (B "source", VAny (AnyObj o))); [reflexivity..| |apply un_other; reflexivity].
    apply fns_other; [reflexivity|discriminate..].
  - right. intros gs gs0 a1 a2 [-> H]. repeat split; auto; apply H.
  - repeat split.
Qed.

End User.

(** *** Without *)

Definition Rnone (gs : list bytes) (a1 a2 : attr) : Prop := a1 = a2 /\ free a1 /\ direct (snd a1).

Lemma post_none gs p : unconcerned (snd p) -> direct (snd p) -> post None Rnone gs p p.
Proof.
  destruct p as [k v]. cbn [snd]. intros U D. destruct D as [l D|v G L]; [|left; repeat split; auto].
  right. exists k, l, l. repeat split. inversion U as [l0 F E| |v0 G L E]; subst; [|discriminate].
  clear - F D. induction F as [|a l H F IH]; [constructor|]. inversion D; subst.
  constructor; [split; [reflexivity|]; split; [exact H|assumption]|auto].
Qed.

Lemma seen_none gs a1 a2 : Rnone gs a1 a2 ->
  (None = @None attr_fn -> is_log_valuer (snd a2) = false) /\ is_empty a1 = is_empty a2 /\
  post None Rnone gs (see1 (fns None) x1 gs a1) (see2 None x2 gs a2).
Proof.
  intros [-> [[K U] D]]. split; [intros _; apply direct_resolve; exact D|]. split; [reflexivity|]. unfold see1, see2.
  set (g := if basic_field x1 (fst a2) then [] else gs).
  assert (R : (fst a2, resolve (snd a2)) = a2).
  { destruct a2 as [k v]. pose proof (direct_resolve _ D). cbn [fst snd] in *. destruct v; try discriminate; reflexivity. }
  rewrite R. replace (fns None g a2) with a2; [apply post_none; auto|].
  destruct (is_empty a2) eqn:E.
  - apply is_empty_attr in E. rewrite E. reflexivity.
  - symmetry. destruct a2 as [k v]. apply fns_other; auto; unfold reserved in K; cbn [In fst] in K; intuition congruence.
Qed.

Lemma none_logs std src ops d r out :
  Forall (op_all (fun a => free a /\ direct (snd a))) ops -> Forall (fun a => free a /\ direct (snd a)) (r_attrs r) ->
  logs std {| o_add_source := src; o_replace := Some (fns None) |} (Some replattr_extras) ops d r out <->
  logs std {| o_add_source := src; o_replace := None |} None ops d r out.
Proof.
  intros O F.
  assert (Fr : forall gs l, Forall (fun a => free a /\ direct (snd a)) l -> Forall2 (Rnone gs) l l).
  { intros gs l H. induction H; constructor; [split; auto|auto]. }
  assert (Q : forall gs, exists gs', ops_rel Rnone gs ops ops gs').
  { induction O as [|o ops Ho O IH]; intros gs; [eexists; constructor|].
    destruct o as [l|n].
    - destruct (IH gs) as (gs' & Q). exists gs'. constructor; auto.
    - destruct (IH (opened gs (WithGroup n))) as (gs' & Q). exists gs'. constructor; auto. }
  destruct (Q []) as (gs' & Q').
  apply (logs_sim std (fns None) None x1 x2 Rnone seen_none eq_refl) with (gs := gs');
    try discriminate; try reflexivity; auto.
  - intros gs t. left. repeat split.
  - intros gs l. left. split; [|repeat split].
    change (x_level_key x1) with (B "lvl"). rewrite fns_lvl by reflexivity. rewrite names_upper. reflexivity.
  - intros gs m. left. repeat split.
  - intros gs o. left. repeat split.
  - right. intros gs gs0 a1 a2 [-> H]. repeat split; auto; apply H.
  - repeat split.
Qed.

(** *** Everything else *)

Definition ident : attr_fn := fun _ a => a.
Definition Rshown (gs : list bytes) : attr -> attr -> Prop := shown cs (none_open gs).

Lemma shown_ind' top (P : attr -> attr -> Prop) :
  (forall a b, (forall l l', snd a = VGroup l -> snd b = VGroup l' -> Forall2 (shown cs top) l l' /\ Forall2 P l l') ->
     shown cs top a b -> P a b) -> forall a b, shown cs top a b -> P a b.
Proof.
  intros H. fix IH 3. intros a b S. apply H; [|exact S].
  assert (A : forall l l', Forall2 (shown cs top) l l' -> Forall2 P l l').
  { fix IHl 3. intros l l' [|x y l1 l1' Hx Hl]; constructor; [apply IH; exact Hx|apply IHl; exact Hl]. }
  destruct S as [k v K1 K2 K3 G|k l l' K1 K2 K3 F|v G|l l' F|v G|v T G]; cbn [snd]; intros m m' E1 E2;
    try (rewrite E1 in G; discriminate); try discriminate E2.
  - injection E1 as <-. injection E2 as <-. split; [exact F|apply A; exact F].
  - injection E1 as <-. injection E2 as <-. split; [exact F|apply A; exact F].
Qed.

Lemma shown_empty top a b : shown cs top a b -> is_empty a = is_empty b.
Proof. intros [k v K1 K2 K3 G|k l l' K1 K2 K3 F|v G|l l' F|v G|v T G]; try reflexivity; destruct k; reflexivity. Qed.

Lemma shown_value top a b : shown cs top a b -> empty_value (snd a) = empty_value (snd b).
Proof.
  revert a b. apply shown_ind'. intros a b IH S.
  assert (A : forall l l', snd a = VGroup l -> snd b = VGroup l' -> empty_group l = empty_group l').
  { intros l l' E1 E2. destruct (IH l l' E1 E2) as [F G]. clear - F G.
    induction F as [|x y l l' Hx F IHF]; [reflexivity|]. inversion G as [|x0 y0 l0 l0' Gx Gl]; subst.
    rewrite !empty_group_cons, (shown_empty _ _ _ Hx), Gx, (IHF Gl). reflexivity. }
  destruct S as [k v K1 K2 K3 G|k l l' K1 K2 K3 F|v G|l l' F|v G|v T G]; cbn [snd] in *; try reflexivity.
  - apply (A l l'); reflexivity.
  - apply (A l l'); reflexivity.
  - destruct v; try reflexivity; discriminate G.
  - destruct v; try reflexivity; discriminate G.
Qed.

Lemma shown_groups gs k l l' : Forall2 (Rshown gs) l l' -> post (Some ident) Rshown gs (k, VGroup l) (k, VGroup l').
Proof.
  intros F. right. exists k, l, l'. repeat split; auto.
  clear -F. induction F as [|x y l l' H F IH]; [reflexivity|].
  rewrite !empty_group_cons, (shown_empty _ _ _ H), (shown_value _ _ _ H), IH. reflexivity.
Qed.

Lemma plain_post gs p : is_group (snd p) = false -> post (Some ident) Rshown gs p p.
Proof. intros G. left. repeat split; [exact G|discriminate]. Qed.

Lemma basic_level k gs : k <> B "message" -> k <> B "lvl" -> (k = B "level" -> none_open gs = false) ->
  k = B "level" -> none_open (if basic_field x1 k then [] else gs) = false.
Proof. intros _ _ H ->. apply H. reflexivity. Qed.

Lemma seen_shown gs a1 a2 : Rshown gs a1 a2 ->
  (Some ident = None -> is_log_valuer (snd a2) = false) /\ is_empty a1 = is_empty a2 /\
  post (Some ident) Rshown gs (see1 (fns None) x1 gs a1) (see2 (Some ident) x2 gs a2).
Proof.
  intros H. split; [discriminate|]. split; [apply (shown_empty _ _ _ H)|]. unfold see1, see2, ident at 2.
  destruct H as [k v K1 K2 K3 G|k l l' K1 K2 K3 F|v G|l l' F|v G|v T G]; cbn [fst snd].
  - replace (fns None (if basic_field x1 k then [] else gs) (k, resolve v)) with (k, resolve v); [apply plain_post; exact G|].
    destruct (is_empty (k, resolve v)) eqn:E; [apply is_empty_attr in E; rewrite E; reflexivity|].
    symmetry. apply fns_other; auto. intros E'. apply basic_level; auto.
  - change (resolve (VGroup l)) with (VGroup l). change (resolve (VGroup l')) with (VGroup l').
    replace (fns None (if basic_field x1 k then [] else gs) (k, VGroup l)) with (k, VGroup l); [apply shown_groups; exact F|].
    symmetry. apply fns_other; auto; [destruct k; reflexivity|]. intros E'. apply basic_level; auto.
  - change (basic_field x1 (B "message")) with true. cbv iota. rewrite fns_message by reflexivity. apply plain_post. exact G.
  - change (basic_field x1 (B "message")) with true. cbv iota. rewrite fns_message by reflexivity.
    apply (shown_groups gs (B "msg") l l'). exact F.
  - change (basic_field x1 (B "lvl")) with true. cbv iota. rewrite fns_lvl by reflexivity. apply plain_post. reflexivity.
  - change (basic_field x1 (B "level")) with false. cbv iota. rewrite fns_level by exact T. apply plain_post. reflexivity.
Qed.

Lemma shown_logs std src ops ops' gs r l' out :
  calls_shown cs [] ops ops' gs -> Forall2 (shown cs (none_open gs)) (r_attrs r) l' ->
  logs std {| o_add_source := src; o_replace := Some (fns None) |} (Some replattr_extras) ops NoDead r out <->
  logs std {| o_add_source := src; o_replace := Some ident |} None ops' NoDead (with_attributes r l') out.
Proof.
  intros O F.
  assert (Q : ops_rel Rshown [] ops ops' gs).
  { clear - O. induction O as [gs|gs l l' ops ops' gs' F O IH|gs n ops ops' gs' O IH]; constructor; auto.
    destruct n; exact IH. }
  apply (logs_sim std (fns None) (Some ident) x1 x2 Rshown seen_shown eq_refl) with (gs := gs);
    try discriminate; try reflexivity; auto.
  - intros gs0 t. apply plain_post. reflexivity.
  - intros gs0 l. change (x_level_key x1) with (B "lvl"). rewrite fns_lvl by reflexivity. rewrite names_upper.
    apply plain_post. reflexivity.
  - intros gs0 m. apply plain_post. reflexivity.
  - intros gs0 o. apply plain_post. reflexivity.
  - left. split; [reflexivity|]. intros gs0. apply shown_same; try discriminate. reflexivity.
  - repeat split.
Qed.

End C54.

(** ** C54 *)

(** With a ReplaceAttr function of the user: the same bytes, the same errors, as
    the flash handler with that function. *)
Theorem C54_invisible std cs f src ops d r out : casing_ok cs -> keeps f ->
  Forall (op_all free) ops -> Forall free (r_attrs r) ->
  replattr_logs std cs {| o_add_source := src; o_replace := Some f |} ops d r out <->
  logs std {| o_add_source := src; o_replace := Some f |} None ops d r out.
Proof. intros C K O F. exact (user_logs cs C f K std src ops d r out O F). Qed.
Print Assumptions C54_invisible.

(** Without one: the same as the flash handler without, if there are no
    LogValuers. *)
Theorem C54_plain std cs src ops d r out : casing_ok cs ->
  Forall (op_all (fun a => free a /\ direct (snd a))) ops -> Forall (fun a => free a /\ direct (snd a)) (r_attrs r) ->
  replattr_logs std cs {| o_add_source := src; o_replace := None |} ops d r out <->
  logs std {| o_add_source := src; o_replace := None |} None ops d r out.
Proof. intros C O F. exact (none_logs cs C std src ops d r out O F). Qed.
Print Assumptions C54_plain.

(** In general: message is logged as msg and lvl as level, upper-cased, at any
    depth; level is upper-cased unless WithGroup was called. *)
Theorem C54_renames std cs src ops ops' gs r l' out : casing_ok cs ->
  calls_shown cs [] ops ops' gs -> Forall2 (shown cs (none_open gs)) (r_attrs r) l' ->
  replattr_logs std cs {| o_add_source := src; o_replace := None |} ops NoDead r out <->
  logs std {| o_add_source := src; o_replace := Some (fun _ a => a) |} None ops' NoDead (with_attributes r l') out.
Proof. intros C O F. exact (shown_logs cs C std src ops ops' gs r l' out O F). Qed.
Print Assumptions C54_renames.

(** A user function for the examples: it drops passwords and renames one key. *)
Definition user0 : attr_fn := fun gs a =>
  if beq (fst a) (B "password") then empty_attr
  else if beq (fst a) (B "u") && none_open gs then (B "user", snd a) else a.

Lemma user0_keeps : keeps user0.
Proof.
  split; [reflexivity|]. intros gs a U. unfold user0.
  destruct (beq (fst a) (B "password")); [apply un_other; reflexivity|].
  destruct (beq (fst a) (B "u") && none_open gs); exact U.
Qed.

Definition ops0 : list op :=
  [WithAttrs [(B "u", VString (B "joe"))]; WithGroup (B "g"); WithAttrs [(B "q", VGroup [(B "password", VString (B "x")); (B "z", VInt64 1)])]].
Definition attrs0 : list attr := [(B "u", VLogValuer (VGroup [(B "id", VInt64 7)]) obj0)].

Lemma not_reserved k : forallb (fun x => negb (beq k x)) reserved = true -> ~ In k reserved.
Proof.
  intros H I. rewrite forallb_forall in H. specialize (H k I). apply negb_true_iff in H.
  assert (beq k k = true) by (apply beq_eq; reflexivity). congruence.
Qed.

Example C54_invisible_ex : casing_ok casing0 /\ keeps user0 /\ Forall (op_all free) ops0 /\ Forall free attrs0 /\
  replattr_logs std0 casing0 {| o_add_source := false; o_replace := Some user0 |} ops0 NoDead (record1 attrs0)
    (Done [B "{""level"": ""INFO"", ""msg"": ""m"", ""user"": ""joe"", ""g"": {""q"": {""z"": 1}, ""u"": {""id"": 7}}}" ++ [newline]] true).
Proof.
  assert (O : Forall (op_all free) ops0).
  { repeat constructor; try (apply not_reserved; reflexivity); cbn [snd];
      try (apply un_other; reflexivity). }
  assert (F : Forall free attrs0).
  { constructor; [|constructor]. split; [apply not_reserved; reflexivity|]. cbn [snd]. apply un_valuer, un_group.
    constructor; [|constructor]. split; [apply not_reserved; reflexivity|apply un_other; reflexivity]. }
  split; [apply casing0_ok|]. split; [apply user0_keeps|]. split; [exact O|]. split; [exact F|].
  apply (run_logs 10); vm_compute; reflexivity.
Qed.

Example C54_plain_ex :
  let l := [(B "u", VString (B "joe")); (B "g", VGroup [(B "levels", VInt64 3)])] in
  Forall (fun a => free a /\ direct (snd a)) l /\
  replattr_logs std0 casing0 {| o_add_source := false; o_replace := None |} [WithGroup (B "h")] NoDead (record1 l)
    (Done [B "{""level"": ""INFO"", ""msg"": ""m"", ""h"": {""u"": ""joe"", ""g"": {""levels"": 3}}}" ++ [newline]] true).
Proof.
  split; [|apply (run_logs 10); vm_compute; reflexivity].
  repeat constructor; try (apply not_reserved; reflexivity); try (apply un_other; reflexivity).
Qed.

(** TopCheck does not confine the functions to the top level: the groups handed
    to ReplaceAttr are the ones opened with WithGroup only, and none for names of
    basic fields. *)
Definition inside0 : list attr :=
  [(B "q", VGroup [(B "message", VString (B "hi")); (B "lvl", VString (B "low"));
                   (B "level", VInt64 3); (B "msg", VBool true)])].
Definition inside1 : list attr :=
  [(B "q", VGroup [(B "msg", VString (B "hi")); (B "level", VString (B "LOW"));
                   (B "level", VInt64 3); (B "msg", VBool true)])].
Definition inside2 : list attr :=
  [(B "q", VGroup [(B "msg", VString (B "hi")); (B "level", VString (B "LOW"));
                   (B "level", VString (B "OTHER")); (B "msg", VBool true)])].

Example C54_renames_ex :
  calls_shown casing0 [] [WithGroup (B "g")] [WithGroup (B "g")] [B "g"] /\
  Forall2 (shown casing0 false) inside0 inside1 /\ Forall2 (shown casing0 true) inside0 inside2 /\
  replattr_logs std0 casing0 {| o_add_source := false; o_replace := None |} [WithGroup (B "g")] NoDead (record1 inside0)
    (Done [B "{""level"": ""INFO"", ""msg"": ""m"", ""g"": {""q"": {""msg"": ""hi"", ""level"": ""LOW"", ""level"": 3, ""msg"": true}}}" ++ [newline]] true) /\
  logs std0 {| o_add_source := false; o_replace := None |} None [WithGroup (B "g")] NoDead (record1 inside0)
    (Done [B "{""level"": ""INFO"", ""msg"": ""m"", ""g"": {""q"": {""message"": ""hi"", ""lvl"": ""low"", ""level"": 3, ""msg"": true}}}" ++ [newline]] true).
Proof.
  split; [repeat constructor|].
  split; [|split; [|split; apply (run_logs 10); vm_compute; reflexivity]].
  - constructor; [|constructor]. apply shown_group; try discriminate.
    constructor; [apply shown_message; reflexivity|].
    constructor; [exact (shown_lvl casing0 false (VString (B "low")) eq_refl)|].
    constructor; [apply shown_same; try discriminate; reflexivity|].
    constructor; [apply shown_same; try discriminate; reflexivity|constructor].
  - constructor; [|constructor]. apply shown_group; try discriminate.
    constructor; [apply shown_message; reflexivity|].
    constructor; [exact (shown_lvl casing0 true (VString (B "low")) eq_refl)|].
    constructor; [exact (shown_level casing0 true (VInt64 3) eq_refl eq_refl)|].
    constructor; [apply shown_same; try discriminate; reflexivity|constructor].
Qed.

(** The hypotheses are needed: reserved names, LogValuers without a function,
    and a function that makes something of the empty attribute all tell the two
    handlers apart. *)
Local Open Scope string_scope.
Local Open Scope list_scope.
Theorem C54_visible :
  let out (t : string) := Done [B "{""level"": ""INFO"", ""msg"": ""m""" ++ B t ++ B "}" ++ [newline]] true in
  let o := {| o_add_source := false; o_replace := None |} in
  let both o l (t1 t2 : string) := replattr_logs std0 casing0 o [] NoDead (record1 l) (out t1) /\
                        logs std0 o None [] NoDead (record1 l) (out t2) /\ t1 <> t2 in
  both o [(B "message", VInt64 1)] ", ""msg"": 1" ", ""message"": 1" /\
  both o [(B "lvl", VString (B "x"))] ", ""level"": ""X""" ", ""lvl"": ""x""" /\
  both o [(B "level", VString (B "x"))] ", ""level"": ""X""" ", ""level"": ""x""" /\
  both o [(B "t", VLogValuer (VTime time0) obj0)] ", ""t"": ""2024-03-01T10:00:00Z""" ", ""t"": ""2024-03-01 10:00:00 UTC""" /\
  both {| o_add_source := false; o_replace := Some (fun _ a => if is_empty a then (B "none", VInt64 0) else a) |}
    [empty_attr] "" ", ""none"": 0" /\
  both {| o_add_source := false; o_replace := Some (fun gs a => if beq (fst a) (B "g") then (B "g", VGroup [(B "lvl", VString (B "x"))]) else a) |}
    [(B "g", VInt64 1)] ", ""g"": {""level"": ""X""}" ", ""g"": {""lvl"": ""x""}".
Proof. repeat split; try discriminate; apply (run_logs 10); vm_compute; reflexivity. Qed.
Print Assumptions C54_visible.

(** Inside WithGroup the name msg is seen differently by a user function: only
    the flash handler takes it for a basic field. *)
Theorem C54_msg_groups :
  let f : attr_fn := fun gs a => if none_open gs || is_empty a then a else (fst a, VInt64 (Z.of_nat (length gs))) in
  keeps f /\
  let o := {| o_add_source := false; o_replace := Some f |} in
  let log t := Done [B "{""level"": ""INFO"", ""msg"": ""m"", ""g"": {""msg"": " ++ B t ++ B "}}" ++ [newline]] true in
  replattr_logs std0 casing0 o [WithGroup (B "g")] NoDead (record1 [(B "msg", VInt64 5)]) (log "1") /\
  logs std0 o None [WithGroup (B "g")] NoDead (record1 [(B "msg", VInt64 5)]) (log "5").
Proof.
  cbv zeta. split; [split|].
  - intros gs. destruct gs; reflexivity.
  - intros gs a U. destruct (none_open gs || is_empty a); [exact U|apply un_other; reflexivity].
  - split; apply (run_logs 10); vm_compute; reflexivity.
Qed.
Print Assumptions C54_msg_groups.
