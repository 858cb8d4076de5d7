(** C68: the madkins/replattr handler passes the suites that flash passes. *)

From Coq Require Import Ascii String List ZArith NArith Bool Arith Lia QArith Qcanon.
From Verif Require Import Bytes BytesProofs GoSort Json Slog SlogProofs SpecLog SpecText SpecFlash Flash FlashProofs FlashRecord FlashConfig FlashSim
  Replace PropReplace ReplAttr PropReplAttr Samples Warnings BenchChecks SpecChecks ChecksSamples Complex EscapeProofs TextProofs VerifyChecks VerifyTests SpecVerify
  VerifyProofs VerifyHandlers SlogTest PropSlogTest BenchSuite PropSuite PropVerifyTests.
Import ListNotations.
Local Open Scope nat_scope.
Local Open Scope list_scope.

(** ** What the handler means *)

(** The handler always has a ReplaceAttr function, so a LogValuer is shown as what
    it resolves to, also if that is a time, a duration or a float (compare
    [flash_resolved]).  Groups behind a LogValuer are outside the domain. *)
Definition replattr_resolved (layout : bytes) (v : value) : option json :=
  match v with VGroup _ | VLogValuer _ _ => None | _ => flash_leaf layout v end.

Definition replattr_meanings : list attr -> option fields :=
  meanings flash_any (flash_time RFC3339Nano) str (replattr_resolved RFC3339Nano).

(** The built-in fields: those of flash without Extras. *)
Definition replattr_header : bool -> record -> option fields :=
  flash_header (keys (fix_extras None)) RFC3339Nano (x_level_names (fix_extras None)).

Section Ident.
Variable std : stdlib.
Variable basic : bytes -> bool.
Local Notation vw := (flash_view std RFC3339Nano basic (Some (fun _ a => a))).

Lemma id_group gs k l : vw gs (k, VGroup l) = Node k l.
Proof. destruct k; reflexivity. Qed.

Lemma id_resolved gs k v : vw gs (k, v) =
  if is_empty (k, resolve v) then Gone
  else match resolve v with VGroup l => Node k l | w => Leaf k (flash_leaf RFC3339Nano w) end.
Proof.
  unfold flash_view, flash_effective. cbn [fst snd]. pose proof (resolve_not_lv v) as R.
  destruct (resolve v); try discriminate; destruct (is_empty _); reflexivity.
Qed.

Lemma id_lv gs k v o j :
  (is_empty (k, resolve (VLogValuer v o)) = true -> vw gs (k, VLogValuer v o) = Gone) /\
  (is_empty (k, resolve (VLogValuer v o)) = false -> replattr_resolved RFC3339Nano (resolve (VLogValuer v o)) = Some j ->
   vw gs (k, VLogValuer v o) = Leaf k (Some j)).
Proof.
  rewrite id_resolved. split; [intros ->; reflexivity|]. intros -> R.
  destruct (resolve (VLogValuer v o)); cbn [replattr_resolved] in R; try discriminate; rewrite R; reflexivity.
Qed.

Lemma id_leaf gs k v : (forall l, v <> VGroup l) -> (forall w o, v <> VLogValuer w o) ->
  vw gs (k, v) = if is_empty (k, v) then Gone else Leaf k (SpecLog.leaf flash_any (flash_time RFC3339Nano) str v).
Proof.
  intros N1 N2. rewrite id_resolved. destruct v; try reflexivity; [now destruct (N1 l)|now destruct (N2 v o)].
Qed.

Lemma id_logged ops attrs gs fs : nest replattr_meanings ops attrs = Some fs ->
  exists gs', logged vw str false attrs gs ops gs' fs.
Proof.
  apply nest_logged.
  - apply (str_text [] (fun _ => true)).
  - apply id_group.
  - apply id_lv.
  - apply id_leaf.
Qed.

(** The built-in fields are none of those on which the function makes a difference. *)
Lemma id_basics gs keys names src r bs :
  dens (flash_view std RFC3339Nano basic None) str false gs (flash_basics std keys names src r) bs ->
  dens vw str false gs (flash_basics std keys names src r) bs.
Proof.
  unfold flash_basics, basics. destruct keys as [[[tk lk] mk] sk].
  assert (K : forall l, Forall (fun a => is_group (snd a) = false /\ is_log_valuer (snd a) = false) l -> forall bs,
    dens (flash_view std RFC3339Nano basic None) str false gs l bs -> dens vw str false gs l bs).
  { intros l F. induction F as [|[k v] l [G L] F IH]; intros b D; inversion D; subst; constructor; [|now apply IH]. cbn [snd] in *.
    assert (E : vw gs (k, v) = flash_view std RFC3339Nano basic None gs (k, v)).
    { unfold flash_view, flash_effective. cbn [fst snd]. destruct v; try discriminate; reflexivity. }
    match goal with X : den _ _ _ _ _ _ |- _ => inversion X as [a V|a k' l' V EG|a l' fs V EG DD|a k' l' fs V NE EG T DD MV|a k' j V T]; subst end.
    - apply den_gone. now rewrite E.
    - eapply den_empty; [rewrite E; exact V|exact EG].
    - exfalso. rewrite <- E, id_leaf in V by (intros; destruct v; discriminate). destruct (is_empty _); discriminate.
    - exfalso. rewrite <- E, id_leaf in V by (intros; destruct v; discriminate). destruct (is_empty _); discriminate.
    - apply den_leaf; [rewrite E; exact V|exact T]. }
  apply K. apply Forall_app. split; [destruct (t_zero _); repeat constructor|].
  constructor; [split; reflexivity|]. constructor; [split; reflexivity|].
  destruct (r_source r); [destruct src; repeat constructor|constructor].
Qed.
End Ident.

(** ** C68 *)

(** Without a ReplaceAttr function of the user: where flash has a meaning for the
    attributes as they come out (message as msg, lvl as level, upper-cased), one line
    that spells them, after the built-in fields of flash. *)
Theorem C68_record std cs src ops ops' gs r l' bs fs : stdlib_ok std -> casing_ok cs ->
  calls_shown cs [] ops ops' gs -> Forall2 (shown cs (none_open gs)) (r_attrs r) l' ->
  replattr_header src r = Some bs -> nest replattr_meanings ops' l' = Some fs ->
  exists line, replattr_logs std cs {| o_add_source := src; o_replace := None |} ops NoDead r (Done [line ++ [newline]] true) /\
    spelled (bs ++ fs) line.
Proof.
  intros STD CS O F Hd N.
  destruct (id_logged std (basic_field (fix_extras None)) ops' l' [] fs N) as (gs' & L).
  destruct (flash_replaced_spelled std STD {| o_add_source := src; o_replace := Some (fun _ a => a) |} None ops' (PropReplAttr.with_attributes r l') gs' bs fs) as (line & W & S).
  - exact L.
  - change (flash_basics std (keys (fix_extras None)) (x_level_names (fix_extras None)) src r) with
      (flash_basics std (keys (fix_extras None)) (x_level_names (fix_extras None)) src (PropReplAttr.with_attributes r l')).
    apply id_basics. apply (flash_header_dens std RFC3339Nano); [exact STD|exact Hd].
  - exists line. split; [|exact S]. apply (C54_renames std cs src ops ops' gs r l' _ CS O F). exact W.
Qed.
Print Assumptions C68_record.

(** *** The calls of the tests *)

(** The attributes do not have the names that the handler renames. *)
Fixpoint unb (v : value) : bool :=
  match v with
  | VGroup l => (fix go (l : list attr) : bool :=
      match l with [] => true | a :: l' => forallb (fun x => negb (beq (fst a) x)) reserved && unb (snd a) && go l' end) l
  | VLogValuer w _ => unb w
  | _ => true
  end.
Definition freeb (a : attr) : bool := forallb (fun x => negb (beq (fst a) x)) reserved && unb (snd a).

Lemma unb_unconcerned v : unb v = true -> unconcerned v.
Proof.
  induction v as [v G L|l IH|v o IH] using value_ind'; intros E.
  - now apply un_other.
  - apply un_group. cbn [unb] in E. induction IH as [|a l H F IHl]; constructor; apply andb_true_iff in E as [E1 E2]; [|now apply IHl].
    apply andb_true_iff in E1 as [E0 E1]. split; [now apply not_reserved|now apply H].
  - apply un_valuer. now apply IH.
Qed.
Lemma freeb_free a : freeb a = true -> free a.
Proof. intros E. apply andb_true_iff in E as [E1 E2]. split; [now apply not_reserved|now apply unb_unconcerned]. Qed.
Lemma free_all l : forallb freeb l = true -> Forall free l.
Proof. intros E. rewrite forallb_forall in E. apply Forall_forall. intros a I. now apply freeb_free, E. Qed.

Fixpoint dirb (v : value) : bool :=
  match v with
  | VGroup l => (fix go (l : list attr) : bool := match l with [] => true | a :: l' => dirb (snd a) && go l' end) l
  | VLogValuer _ _ => false
  | _ => true
  end.
Lemma dirb_direct v : dirb v = true -> direct v.
Proof.
  induction v as [v G L|l IH|v o IH] using value_ind'; intros E; [now apply dir_other| |discriminate].
  apply dir_group. cbn [dirb] in E. induction IH as [|a l H F IHl]; constructor; apply andb_true_iff in E as [E1 E2]; auto.
Qed.
Definition bothb (a : attr) : bool := freeb a && dirb (snd a).
Lemma both_all l : forallb bothb l = true -> Forall (fun a => free a /\ direct (snd a)) l.
Proof.
  intros E. rewrite forallb_forall in E. apply Forall_forall. intros a I. apply E, andb_true_iff in I as [E1 E2].
  split; [now apply freeb_free|now apply dirb_direct].
Qed.
Definition opb (p : attr -> bool) (o : op) : bool := match o with WithAttrs l => forallb p l | WithGroup _ => true end.
Lemma ops_free ops : forallb (opb freeb) ops = true -> Forall (op_all free) ops.
Proof.
  intros E. rewrite forallb_forall in E. apply Forall_forall. intros o I. specialize (E o I). destruct o; [now apply free_all|exact Logic.I].
Qed.
Lemma ops_both ops : forallb (opb bothb) ops = true -> Forall (op_all (fun a => free a /\ direct (snd a))) ops.
Proof.
  intros E. rewrite forallb_forall in E. apply Forall_forall. intros o I. specialize (E o I). destruct o; [now apply both_all|exact Logic.I].
Qed.

(** The subject handles the calls of the tests as the handler does. *)
Definition replattr_answers (std : stdlib) (W : surroundings) (H : subject) : Prop :=
  forall c f ws ok, expected W c f -> replattr_logs std (VerifyTests.cs W) (k_options c) (k_ops c) NoDead (k_record c) (Done ws ok) ->
    u_handle H (k_cancelled c) (k_options c) (k_ops c) (k_record c) = (concat ws, ok).
Definition replattr_levels (H : subject) : Prop :=
  forall l x w, acts world0 [MakeOptions (option_map Fixed l); MakeExtras replattr_extras; NewHandler (Some 0) (Some 0)] = Some w ->
    FlashConfig.enabled w 0 x = Some (u_enabled H l x).

(** The functions of the tests leave nothing alone and put no reserved names into groups. *)
Lemma keeps_multiple fns : Forall keeps fns -> keeps (multiple_fns fns).
Proof.
  intros F. split.
  - intros gs. induction F as [|f l [H1 H2] F IH]; cbn [multiple_fns]; [reflexivity|]. rewrite H1. reflexivity.
  - intros gs. induction F as [|f l [H1 H2] F IH]; intros a U; cbn [multiple_fns]; [exact U|].
    destruct (is_empty (f gs a)); [now apply H2|]. apply IH. now apply H2.
Qed.
Lemma keeps_remove c key fold chk : keeps (remove_key c key fold chk).
Proof.
  split; intros gs; unfold remove_key; [now destruct (check_field_groups _ _ _ _ _ _)|].
  intros a U. destruct (check_field_groups _ _ _ _ _ _); [now apply un_other|exact U].
Qed.
Lemma keeps_value c key g chk : key <> [] -> keeps (change_value c key (fun v => VString (g v)) false chk).
Proof.
  intros N. split; intros gs; unfold change_value.
  - unfold check_field_groups. destruct key; [congruence|reflexivity].
  - intros a U. destruct (check_field_groups _ _ _ _ _ _); [now apply un_other|exact U].
Qed.
Lemma keeps_key c key to chk : key <> [] -> keeps (change_key c key to false chk).
Proof.
  intros N. split; intros gs; unfold change_key.
  - unfold check_field_groups. destruct key; [congruence|reflexivity].
  - intros a U. destruct (check_field_groups _ _ _ _ _ _); exact U.
Qed.
Ltac by_cases := split; [intros gs; try reflexivity|intros gs a Hu]; repeat match goal with |- context [if ?b then _ else _] => destruct b end;
  try assumption; try (now apply un_other); try reflexivity.
Lemma keeps_call W fn ops attrs f : replaced_call W fn ops attrs f -> keeps fn.
Proof.
  intros []; try apply keeps_remove.
  - unfold replace_simple. by_cases.
  - unfold replace_groups. split; [|intros gs a Hu; repeat match goal with |- context [if ?b then _ else _] => destruct b end; try assumption; now apply un_other].
    intros gs. cbv zeta.
    repeat match goal with |- context [beq (current_group gs) ?x] => destruct (beq (current_group gs) x) end; reflexivity.
  - apply (keeps_value (VerifyTests.cs W) (B "level") (fun v => map_runes (cs_lower (VerifyTests.cs W)) (cs_string (VerifyTests.cs W) v)) (Some top_check)). discriminate.
  - apply keeps_multiple. apply Forall_cons; [apply keeps_remove|].
    apply Forall_cons; [apply (keeps_value (VerifyTests.cs W) (B "alpha") (fun v => map_runes (cs_upper (VerifyTests.cs W)) (cs_string (VerifyTests.cs W) v))); discriminate|].
    apply Forall_cons; [apply keeps_key; discriminate|]. apply Forall_cons; [|constructor].
    apply (keeps_value (VerifyTests.cs W) (B "gibbering") (fun v => replace_all (B "luna") (B "moon") (cs_string (VerifyTests.cs W) v))). discriminate.
Qed.

Section Lines.
Variable std : stdlib.
Variable W : surroundings.
Variable num : bytes -> option Qc.
Hypothesis STD : stdlib_ok std.
Hypothesis OK : surroundings_ok W num.

Definition replattr_line (c : call) (l : list item) : Prop :=
  exists line, replattr_logs std (VerifyTests.cs W) (k_options c) (k_ops c) NoDead (k_record c) (Done [line ++ [newline]] true) /\ spelled (members l) line.

(** With LogValuers. *)
Lemma resolving_line cancelled n ops attrs l gs : calls_shown (VerifyTests.cs W) [] ops ops gs -> Forall2 (shown (VerifyTests.cs W) (none_open gs)) attrs attrs ->
  nest replattr_meanings ops attrs = Some (members l) ->
  let c := {| k_cancelled := cancelled; k_options := plain_options; k_ops := ops; k_record := record_at W n LevelInfo attrs |} in
  exists tx src, time_text W tx /\ source_member c src /\ replattr_line c (header tx "INFO" ++ l).
Proof.
  intros O F N c. destruct (s_clock W num OK n) as (Z & PL & D). destruct (s_places W num OK n) as (P1 & P2 & _).
  exists (t_format (fst (z_now W n)) RFC3339Nano). eexists. split; [split; [now apply time_valid|exact D]|]. split; [left; reflexivity|].
  apply time_plain in PL. unfold replattr_line, c. cbn [k_options k_ops k_record].
  destruct (C68_record std (VerifyTests.cs W) false ops ops gs (record_at W n LevelInfo attrs) attrs
    (members (header (t_format (fst (z_now W n)) RFC3339Nano) "INFO")) (members l) STD (s_casing W num OK) O F) as (line & L & S).
  - unfold replattr_header. change RFC3339Nano with (x_time_format (fix_extras None)) at 1. unfold record_at. rewrite flash_head; auto. now rewrite P1, P2.
  - exact N.
  - exists line. split; [exact L|]. unfold members in *. now rewrite map_app.
Qed.

(** Whatever flash writes for the others. *)
Lemma line_both c l : o_replace (k_options c) = None -> forallb (opb bothb) (k_ops c) = true -> forallb bothb (Slog.r_attrs (k_record c)) = true ->
  flash_line std c l -> replattr_line c l.
Proof.
  intros R O A (line & L & S). exists line. split; [|exact S]. destruct c as [b [src rep] ops r]. cbn [k_options k_ops k_record o_replace] in *. subst rep.
  apply C54_plain; [apply (s_casing W num OK)|now apply ops_both|now apply both_all|exact L].
Qed.
Lemma line_user c fn l : o_replace (k_options c) = Some fn -> keeps fn -> forallb (opb freeb) (k_ops c) = true -> forallb freeb (Slog.r_attrs (k_record c)) = true ->
  flash_line std c l -> replattr_line c l.
Proof.
  intros R K O A (line & L & S). exists line. split; [|exact S]. destruct c as [b [src rep] ops r]. cbn [k_options k_ops k_record o_replace] in *. subst rep.
  apply C54_invisible; [apply (s_casing W num OK)|exact K|now apply ops_free|now apply free_all|exact L].
Qed.

Ltac same_here := repeat first [apply Forall2_nil | apply Forall2_cons | apply shown_same; [discriminate|discriminate|discriminate|reflexivity]
  | apply shown_group; [discriminate|discriminate|discriminate|]].

Theorem replattr_lines c f : expected W c f -> exists tx src, time_text W tx /\ source_member c src /\ replattr_line c (f tx src).
Proof.
  intros X. destruct (flash_lines std W num STD OK c f X) as (tx & src & T & M & L).
  inversion X as [b n ops attrs l P|n|n|n| | |n|n fn ops attrs g P|n]; subst.
  - assert (Q : (forallb (opb bothb) ops = true /\ forallb bothb attrs = true) \/
      (exists gs, calls_shown (VerifyTests.cs W) [] ops ops gs /\ Forall2 (shown (VerifyTests.cs W) (none_open gs)) attrs attrs /\ nest replattr_meanings ops attrs = Some (members l))).
    { inversion P; subst; try (left; split; reflexivity); right; eexists;
        (split; [repeat first [apply calls_none | apply calls_attrs; [same_here|]]|split; [same_here|reflexivity]]). }
    destruct Q as [(Q1 & Q2)|(gs & Q1 & Q2 & Q3)]; [|now apply (resolving_line b n ops attrs l gs)].
    exists tx, src. split; [exact T|split; [exact M|]]. now apply line_both.
  - exists tx, src. split; [exact T|split; [exact M|]]. now apply line_both.
  - exists tx, src. split; [exact T|split; [exact M|]]. now apply line_both.
  - exists tx, src. split; [exact T|split; [exact M|]]. now apply line_both.
  - exists tx, src. split; [exact T|split; [exact M|]]. now apply line_both.
  - exists tx, src. split; [exact T|split; [exact M|]]. now apply line_both.
  - exists tx, src. split; [exact T|split; [exact M|]]. now apply line_both.
  - exists tx, src. split; [exact T|split; [exact M|]]. apply (line_user _ fn); [reflexivity|now apply (keeps_call W fn ops attrs g)| | |exact L];
      inversion P; subst; reflexivity.
  - exists tx, src. split; [exact T|split; [exact M|]]. apply (line_user _ (replace_basic W)); [reflexivity| |reflexivity|reflexivity|exact L].
    unfold replace_basic. by_cases.
Qed.
End Lines.

(** The handler is right in the verification suite: by C62_suite_marked it passes with
    the mark WarnOnly(Duplicates), and warns of nothing else. *)
Theorem C68_verify std W num H : stdlib_ok std -> surroundings_ok W num -> replattr_answers std W H -> replattr_levels H -> right_handler W H.
Proof.
  intros STD OK A LV. split.
  - intros c f X. destruct (replattr_lines std W num STD OK c f X) as (tx & src & T & M & line & L & S). exists tx, src. split; [exact T|]. split; [exact M|].
    exists line, [newline]. split; [|split; [exact S|now left]]. rewrite (A c f _ _ X L). cbn [concat]. now rewrite app_nil_r.
  - intros l x. pose proof (LV l x _ eq_refl) as E. destruct l; cbn in E; injection E as <-; reflexivity.
Qed.
Print Assumptions C68_verify.

(** *** TestSlogTest *)

(** Values without reserved names, and groups not behind LogValuers, come out as they are. *)
Inductive untouched : attr -> Prop :=
| unt_value k v : ~ In k reserved -> is_group (resolve v) = false -> untouched (k, v)
| unt_group k l : ~ In k reserved -> Forall untouched l -> untouched (k, VGroup l).

Lemma untouched_shown cs top : forall a, untouched a -> shown cs top a a.
Proof.
  fix IH 2. intros a [k v K G|k l K F].
  - apply shown_same; auto; intros ->; exfalso; apply K; cbn; auto 8.
  - apply shown_group; auto; try (intros ->; exfalso; apply K; cbn; auto 8). clear K. revert l F. fix IHl 2. intros l [|a' l' H F]; constructor; [now apply IH|now apply IHl].
Qed.

Lemma untouched_calls cs ops : Forall (op_all untouched) ops -> forall gs, exists gs', calls_shown cs gs ops ops gs'.
Proof.
  intros F. induction F as [|o ops H F IH]; intros gs; [eexists; constructor|]. destruct o as [l|n].
  - destruct (IH gs) as (gs' & C). exists gs'. constructor; [|exact C]. cbn [op_all] in H. clear -H. induction H; constructor; [now apply untouched_shown|assumption].
  - destruct (IH (if beq n [] then gs else gs ++ [n])) as (gs' & C). exists gs'. now constructor.
Qed.

Theorem C68_slogtest std W num H text cases st : stdlib_ok std -> surroundings_ok W num -> enabled H -> v_failed st = false ->
  Forall (fun c => case_meant num replattr_meanings c /\ Forall (op_all untouched) (c_ops c) /\ Forall untouched (record_attrs (c_attrs c))) cases ->
  answers_cases (fun ops r ws ok => replattr_logs std (VerifyTests.cs W) plain_options ops NoDead r (Done ws ok)) W H cases (v_records st) ->
  accepts (test_slog_test W H true text cases) st /\
  leaves (test_slog_test W H true text cases) st = (if is_marked W slog_test st then add_unused slog_test (v_test st) [] (v_manager st) else v_manager st).
Proof.
  intros STD OK EN F CM A. apply (C64_pass W num H text cases st (s_unmarshal _ _ OK) EN F). intros i c E.
  rewrite Forall_forall in CM. destruct (CM c (nth_error_In _ _ E)) as ((VM & l & N & IO & AK) & UO & UA). set (n := v_records st + i).
  destruct (s_clock W num OK n) as (Z & PL & D). pose proof (time_valid _ PL) as TV. apply time_plain in PL.
  exists (t_format (fst (z_now W n)) RFC3339Nano), l.
  destruct (untouched_calls (VerifyTests.cs W) (c_ops c) UO []) as (gs & CA).
  assert (RA : Slog.r_attrs (case_record W c n) = record_attrs (c_attrs c)) by (unfold case_record; now destruct (z_now W n)).
  destruct (C68_record std (VerifyTests.cs W) false (c_ops c) (c_ops c) gs (case_record W c n) (record_attrs (c_attrs c))
    (members (case_head c (t_format (fst (z_now W n)) RFC3339Nano))) (members l) STD (s_casing W num OK) CA) as (line & L & S).
  - rewrite RA. clear -UA. induction UA; constructor; [now apply untouched_shown|assumption].
  - unfold replattr_header, case_record, flash_header, case_head. destruct (z_now W n) as [t src] eqn:ZN. cbn [fst] in *. cbn [Slog.r_time Slog.r_level Slog.r_msg Slog.r_source].
    change (x_time_format (fix_extras None)) with RFC3339Nano.
    destruct (c_zero_time c); cbn [cleared t_zero t_format]; rewrite ?Z, ?PL, VM; destruct (c_zero_pc c); reflexivity.
  - exact N.
  - exists line, [newline], true. split; [|split; [now left|]].
    + pose proof (A i c _ _ E L) as R. fold n in R. rewrite R. cbn [concat]. now rewrite app_nil_r.
    + split; [unfold members in *; now rewrite map_app|]. split; [|exact AK]. apply Forall_app. split; [now apply head_ok|exact IO].
Qed.
Print Assumptions C68_slogtest.

(** The cases of testing/slogtest are such cases. *)
Theorem C68_cases num :
  Forall (fun c => case_meant num replattr_meanings c /\ Forall (op_all untouched) (c_ops c) /\ Forall untouched (record_attrs (c_attrs c))) slogtest_cases.
Proof.
  assert (X : Forall (case_meant num replattr_meanings) slogtest_cases) by (apply cases_meant; repeat constructor).
  assert (Y : Forall (fun c => Forall (op_all untouched) (c_ops c) /\ Forall untouched (record_attrs (c_attrs c))) slogtest_cases).
  { unfold slogtest_cases. repeat first [apply Forall_nil | apply Forall_cons | split | exact Logic.I
      | apply unt_value; [apply not_reserved; reflexivity|reflexivity] | apply unt_group; [apply not_reserved; reflexivity|]]. }
  rewrite Forall_forall in *. auto.
Qed.
Print Assumptions C68_cases.

(** *** The benchmarks *)

(** What a benchmark captures from the handler (compare [captures] for flash). *)
Inductive replattr_captures (std : stdlib) (cs : casing) (b : benchmark) : list (Z * bytes * list attr) -> list stamp -> bytes -> Prop :=
| rc_nil : replattr_captures std cs b [] [] []
| rc_below c s l ss out : (fst (fst c) < 0)%Z -> replattr_captures std cs b l ss out -> replattr_captures std cs b (c :: l) (s :: ss) out
| rc_line c s l ss text out : (0 <= fst (fst c))%Z ->
    replattr_logs std cs (options_of b) (b_ops b) NoDead (record_of_call c s) (Done [text] true) ->
    replattr_captures std cs b l ss out -> replattr_captures std cs b (c :: l) (s :: ss) (text ++ out).

Definition both (a : attr) : Prop := free a /\ direct (snd a).

Lemma captures_same std cs b : casing_ok cs -> Forall (op_all both) (b_ops b) -> forall l, Forall (fun c => Forall both (snd c)) l ->
  forall ss out, replattr_captures std cs b l ss out <-> captures std b l ss out.
Proof.
  intros CS O l F ss out.
  assert (K : forall c s text, Forall both (snd c) ->
    replattr_logs std cs (options_of b) (b_ops b) NoDead (record_of_call c s) (Done [text] true) <->
    logs std (options_of b) None (b_ops b) NoDead (record_of_call c s) (Done [text] true)).
  { intros [[lv m] attrs] s text Fc. apply C54_plain; [exact CS|exact O|exact Fc]. }
  split; intros C; induction C; inversion F; subst; constructor; auto; now apply K.
Qed.

Scheme built_mut := Induction for built Sort Prop with built_kids_mut := Induction for built_kids Sort Prop.

Lemma group_stem t : ~ In (B "group" ++ t) reserved.
Proof. unfold reserved. cbn. intuition discriminate. Qed.

Lemma big_both limit d stem a : built limit d stem a -> forall t, stem = B "group" ++ t -> both a.
Proof.
  intros X. refine (built_mut limit (fun _ stem a _ => forall t, stem = B "group" ++ t -> both a)
    (fun _ stem _ _ kids _ => forall t, stem = B "group" ++ t -> Forall both kids) _ _ _ _ d stem a X); clear.
  - intros d s _ t _. split; [apply freeb_free; reflexivity|apply dir_other; reflexivity].
  - intros d s count kids _ _ _ IH t ->. specialize (IH t eq_refl).
    assert (F : Forall both ([(B "count", VInt64 (Z.of_N count)); (B "depth", VUint64 d); (B "limit", VUint64 limit)] ++ kids)).
    { apply Forall_app. split; [|exact IH]. repeat constructor; try (apply not_reserved; reflexivity); apply un_other; reflexivity. }
    split; [split; [apply group_stem|apply un_group]|apply dir_group]; revert F; apply Forall_impl; intros a [A1 A2]; [exact A1|exact A2].
  - intros d s count t _. constructor.
  - intros d s i count other kids _ _ IH1 _ IH2 t ->. apply Forall_app. split; [|now apply (IH2 t)].
    destruct (is_empty other); constructor; [|constructor]. apply (IH1 (t ++ B "-" ++ dec_of_N i)). unfold kid_name. now rewrite <- app_assoc.
Qed.

Lemma log_data_both : Forall (fun args => Forall both args) log_data.
Proof.
  assert (E : forallb (forallb bothb) log_data = true) by (vm_compute; reflexivity).
  rewrite forallb_forall in E. apply Forall_forall. intros args I. apply both_all. now apply E.
Qed.

Lemma benchmarks_both E pi_text pi start big_group : both big_group ->
  Forall (fun x => Forall (op_all both) (b_ops (snd x)) /\ Forall (fun c => Forall both (snd c)) (b_calls (snd x))) (benchmarks E pi_text pi start big_group).
Proof.
  intros BG.
  assert (K : forall src ops attrs v, forallb (opb bothb) ops = true -> forallb bothb attrs = true -> forall level msg,
    let b := {| b_source := src; b_ops := ops; b_calls := [(level, msg, attrs)]; b_verify := v |} in
    Forall (op_all both) (b_ops b) /\ Forall (fun c => Forall both (snd c)) (b_calls b)).
  { intros src ops attrs v O A level msg b. split; [now apply ops_both|]. constructor; [now apply both_all|constructor]. }
  unfold benchmarks. do 10 (apply Forall_cons; [apply K; reflexivity|]).
  apply Forall_cons; [split; [constructor|]; constructor; [constructor; [exact BG|constructor]|constructor]|].
  apply Forall_cons; [|apply Forall_nil]. cbn [snd b_ops b_calls]. split; [constructor|]. rewrite Forall_map. exact log_data_both.
Qed.

(** Every benchmark verifies, whatever the times and places and whatever BigGroup's
    random numbers are. *)
Theorem C68_bench std num E pi_text pi start big_group :
  stdlib_ok std -> num_ok num -> unmarshal_ok num E -> casing_ok (e_casing E) ->
  num pi_text = Some pi -> is_num pi_text = true -> SpecLog.plain (t_format start layout) = true -> built 5 0 (B "group") big_group ->
  forall name b ss m, In (name, b) (benchmarks E pi_text pi start big_group) ->
  Forall stamp_ok ss -> length ss = length (b_calls b) -> unheeded m ->
  exists out, (forall out', replattr_captures std (e_casing E) b (b_calls b) ss out' <-> out' = out) /\ b_verify b out None m = (None, m, None).
Proof.
  intros STD NUM UN CS PI PT ST BG name b ss m I SO LE NM.
  destruct (C58_flash std num E pi_text pi start big_group STD NUM UN CS PI PT ST BG name b ss m I SO LE NM) as (out & C & V).
  exists out. split; [|exact V]. intros out'. rewrite <- C. apply captures_same; [exact CS| |].
  - exact (proj1 (proj1 (Forall_forall _ _) (benchmarks_both E pi_text pi start big_group (big_both _ _ _ _ BG [] eq_refl)) _ I)).
  - exact (proj2 (proj1 (Forall_forall _ _) (benchmarks_both E pi_text pi start big_group (big_both _ _ _ _ BG [] eq_refl)) _ I)).
Qed.
Print Assumptions C68_bench.

(** ** Concrete runs *)

(** A message, a lvl and a level attribute, and LogValuers behind which are a time and a
    number, which flash does not show like that. *)
Example C68_record_ex :
  let attrs := [(B "t", VLogValuer (VTime time0) obj0); (B "lvl", VString (B "low")); (B "g", VGroup [(B "message", VBool true)])] in
  let attrs' := [(B "t", VLogValuer (VTime time0) obj0); (B "level", VString (B "LOW")); (B "g", VGroup [(B "msg", VBool true)])] in
  Forall2 (shown casing0 true) attrs attrs' /\
  nest replattr_meanings [] attrs' = Some [(B "t", JStr (B "2024-03-01T10:00:00Z")); (B "level", JStr (B "LOW")); (B "g", JObj [(B "msg", JBool true)])] /\
  nest (flash_meanings std0 RFC3339Nano) [] attrs' = None /\
  replattr_header false (record1 attrs) = Some [(B "level", JStr (B "INFO")); (B "msg", JStr (B "m"))] /\
  replattr_logs std0 casing0 {| o_add_source := false; o_replace := None |} [] NoDead (record1 attrs)
    (Done [B "{""level"": ""INFO"", ""msg"": ""m"", ""t"": ""2024-03-01T10:00:00Z"", ""level"": ""LOW"", ""g"": {""msg"": true}}" ++ [newline]] true).
Proof.
  split; [|split; [reflexivity|split; [reflexivity|split; [reflexivity|apply (run_logs 10); vm_compute; reflexivity]]]].
  constructor; [apply shown_same; try discriminate; reflexivity|]. constructor; [exact (shown_lvl casing0 true (VString (B "low")) eq_refl)|].
  constructor; [|constructor]. apply shown_group; try discriminate. constructor; [apply shown_message; reflexivity|constructor].
Qed.

(** flash with these options and Extras. *)
Definition extras_subject (fns : options -> options) : subject :=
  {| u_enabled := u_enabled flash0;
     u_handle := fun _ o ops r => match derive std0 depth0 (HBase (new_handler (fns o) (Some replattr_extras))) ops with
       | Some g => match handle_hdl std0 depth0 NoDead g r with Some (Done ws ok) => (concat ws, ok) | _ => ([], false) end
       | None => ([], false) end |}.
Definition replattr0 : subject := extras_subject (replattr_options casing0).

Definition replattr_done (c : call) : bool :=
  match derive std0 depth0 (HBase (new_handler (replattr_options casing0 (k_options c)) (Some replattr_extras))) (k_ops c) with
  | Some g => match handle_hdl std0 depth0 NoDead g (k_record c) with Some _ => true | _ => false end
  | None => false end.

Lemma replattr_all_done c f : expected W0 c f -> replattr_done c = true.
Proof.
  intros X. apply (enough0 replattr_done c f X); clear.
  - intros cancelled n ops attrs l P. destruct P; vm_compute; reflexivity.
  - intros n fn ops attrs f P. destruct P; vm_compute; reflexivity.
  - intros o l n [->|[->| ->]] [<-|[<-|[<-|[<-|[]]]]]; vm_compute; reflexivity.
  - vm_compute; reflexivity.
  - vm_compute; reflexivity.
Qed.

Lemma replattr_done_handles c ws ok : replattr_done c = true ->
  replattr_logs std0 casing0 (k_options c) (k_ops c) NoDead (k_record c) (Done ws ok) ->
  u_handle replattr0 (k_cancelled c) (k_options c) (k_ops c) (k_record c) = (concat ws, ok).
Proof.
  intros D L. unfold replattr_done in D. unfold replattr0, extras_subject, u_handle.
  destruct (derive std0 depth0 _ (k_ops c)) as [g|] eqn:G; [|discriminate]. destruct (handle_hdl std0 depth0 NoDead g (k_record c)) as [out|] eqn:O; [|discriminate].
  rewrite (logs_fun std0 _ _ _ _ _ _ _ (logs_intro std0 _ _ _ _ _ _ _ _ G O) L). reflexivity.
Qed.

Example C68_verify_ex : replattr_answers std0 W0 replattr0 /\ replattr_levels replattr0.
Proof.
  split.
  - intros c f ws ok X L. apply replattr_done_handles; [now apply (replattr_all_done c f)|exact L].
  - intros l x w A. destruct l; cbn in A; injection A as <-; reflexivity.
Qed.

Example C68_slogtest_ex n : enabled replattr0 /\
  answers_cases (fun ops r ws ok => replattr_logs std0 (VerifyTests.cs W0) plain_options ops NoDead r (Done ws ok)) W0 replattr0 slogtest_cases n.
Proof.
  split; [reflexivity|]. intros i c ws ok E L.
  assert (D : forallb (fun c => replattr_done {| k_cancelled := false; k_options := plain_options; k_ops := c_ops c; k_record := case_record W0 c 0 |}) slogtest_cases = true) by (vm_compute; reflexivity).
  rewrite forallb_forall in D. specialize (D c (nth_error_In _ _ E)). change (case_record W0 c (n + i)) with (case_record W0 c 0) in *.
  exact (replattr_done_handles _ ws ok D L).
Qed.

(** It passes; with the Extras alone, without the functions, it does not. *)
Example C68_run_ex :
  fst (run_tests (verify_tests W0 replattr0) (manager0 [duplicated]) 3) = [] /\
  slogtest0 replattr0 (manager0 []) = (true, manager0 [], 21) /\
  length (fst (run_tests (verify_tests W0 (extras_subject (fun o => o))) (manager0 [duplicated]) 3)) = 12 /\
  slogtest0 (extras_subject (fun o => o)) (manager0 []) = (false, manager0 [], 21).
Proof. vm_compute. repeat split. Qed.

(** What the benchmarks capture, by running the model; the checks are silent.  With the
    Extras alone only those of Disabled and BigGroup are. *)
Definition captured0 (o : options -> options) (b : benchmark) : bytes :=
  concat (map (fun c => if Z.ltb (fst (fst c)) 0 then [] else
                        match run std0 40 (o (options_of b)) (Some replattr_extras) (b_ops b) NoDead (record_of_call c stamp0) with
                        | Some (Done [text] true) => text
                        | _ => []
                        end) (b_calls b)).
Example C68_bench_ex :
  map (fun nb => b_verify (snd nb) (captured0 (replattr_options casing0) (snd nb)) None (manager0 [])) suite0 = repeat (None, manager0 [], None) 12 /\
  map (fun nb => silent (b_verify (snd nb) (captured0 (fun o => o) (snd nb)) None (manager0 []))) suite0 =
    [true; false; false; false; false; false; false; false; false; false; true; false].
Proof. split; vm_compute; reflexivity. Qed.
