(** C72: the record TestComplexCases expects of a handler with marked warnings. *)

From Coq Require Import Ascii String List ZArith NArith Bool Arith Lia QArith Qcanon.
From Verif Require Import Bytes BytesProofs GoSort Json Slog SlogProofs SpecLog Replace Warnings BenchChecks SpecChecks ChecksProofs
  Complex SpecComplex ComplexProofs ComplexRecord Samples ChecksSamples PropSuite PropComplex.
Import ListNotations.
Local Open Scope nat_scope.
Local Open Scope list_scope.

(** ** Specification *)

Section Spec.
Variable X : tools.
Variable mark : warning -> bool.

(** A duration: nanoseconds, unless one of the marks names another form; inside of
    groups GroupDuration keeps nanoseconds. *)
Inductive span (inside : bool) (z : Z) : dyn -> Prop :=
| span_group : inside = true -> mark group_duration = true -> span inside z (DNum (x_int X z))
| span_text : (inside = false \/ mark group_duration = false) -> mark duration_string = true -> span inside z (DStr (x_duration X z))
| span_seconds : (inside = false \/ mark group_duration = false) -> mark duration_string = false -> mark duration_seconds = true ->
    span inside z (DNum (x_seconds X z))
| span_millis : (inside = false \/ mark group_duration = false) -> mark duration_string = false -> mark duration_seconds = false ->
    mark duration_millis = true -> span inside z (DNum (x_int X (Z.quot z (10 ^ 6))))
| span_nanos : (inside = false \/ mark group_duration = false) -> mark duration_string = false -> mark duration_seconds = false ->
    mark duration_millis = false -> span inside z (DNum (x_int X z)).

(** The value expected of an attribute, or none if the attribute is not expected. *)
Inductive worth (inside : bool) : value -> option dyn -> Prop :=
| worth_bool b : worth inside (VBool b) (Some (DBool b))
| worth_int z : worth inside (VInt64 z) (Some (DNum (x_int X z)))
| worth_uint n : worth inside (VUint64 n) (Some (DNum (x_int X (Z.of_N n))))
| worth_float t : worth inside (VFloat64 (FFin t)) (Some (DNum (x_float X t)))
| worth_string s : worth inside (VString s) (Some (DStr s))
| worth_span z d : span inside z d -> worth inside (VDuration z) (Some d)
| worth_hidden next o : mark resolver = true -> worth inside (VLogValuer next o) None
| worth_resolved s o : mark resolver = false -> worth inside (VLogValuer (VString s) o) (Some (DStr s))
| worth_group l d : members inside l d -> worth inside (VGroup l) (Some (DMap d))
with members (inside : bool) : list attr -> dmap -> Prop :=
| members_nil : members inside [] []
| members_add l d k v x : members inside l d -> worth inside v (Some x) -> members inside (l ++ [(k, v)]) (put k x d)
| members_leave l d k v : members inside l d -> worth inside v None -> members inside (l ++ [(k, v)]) d.

(** What is put where: a value, or the group below, under a name at a level; level 0 is
    outside of all groups, level i inside of i of them. *)
Inductive content : Type := Value (d : dyn) | Group.
Definition placement : Type := (nat * bytes * content)%type.

Inductive put_down (inside : bool) (level : nat) : list attr -> list placement -> Prop :=
| down_nil : put_down inside level [] []
| down_add k v x l P : worth inside v (Some x) -> put_down inside level l P ->
    put_down inside level ((k, v) :: l) ((level, k, Value x) :: P)
| down_leave k v l P : worth inside v None -> put_down inside level l P -> put_down inside level ((k, v) :: l) P.

Definition some_attrs (m : list attr) : bool := match m with [] => false | _ => true end.

(** The placements of a program from a depth on.  [loose]: no group is open or the
    last one was opened with attributes.  GroupWithTop moves the attributes a group is
    opened with to level 0, GroupAttrMsgTop those of the message if [loose]. *)
Inductive placed : nat -> bool -> list step -> list attr -> list placement -> Prop :=
| placed_attach depth loose b m ss l P Q : put_down (0 <? depth) depth m P -> placed depth loose ss l Q ->
    placed depth loose (Attach b m :: ss) l (P ++ Q)
| placed_open depth loose c b m ss l P Q : put_down true (if mark group_with_top then 0 else S depth) m P ->
    placed (S depth) (some_attrs m) ss l Q -> placed depth loose (Open c b m :: ss) l ((depth, group_name c, Group) :: P ++ Q)
| placed_message depth loose l P : put_down (0 <? depth) (if mark group_attr_msg_top && loose then 0 else depth) l P ->
    placed depth loose [] l ((0, LevelKey, Value (DStr (B "INFO"))) :: (0, MessageKey, Value (DStr (B "This is a message"))) :: P).

(** What was put last under a name at a level, and the record of a level. *)
Definition last_at (i : nat) (k : bytes) (P : list placement) : option content :=
  fold_left (fun r '(j, k', c) => if Nat.eqb j i && beq k' k then Some c else r) P None.

Inductive shows (P : list placement) : nat -> dmap -> Prop :=
| shows_level i d : wf d -> (forall k, entry P i (last_at i k P) (get k d)) -> shows P i d
with entry (P : list placement) : nat -> option content -> option dyn -> Prop :=
| entry_none i : entry P i None None
| entry_value i x : entry P i (Some (Value x)) (Some x)
| entry_group i d : shows P (S i) d -> entry P i (Some Group) (Some (DMap d)).
End Spec.

Scheme worth_mut := Minimality for worth Sort Prop with members_mut := Minimality for members Sort Prop.
Scheme shows_mut := Minimality for shows Sort Prop with entry_mut := Minimality for entry Sort Prop.

(** ** Proofs *)

Section Proofs.
Variable X : tools.
Variable mark : warning -> bool.

Definition value_go (inside : bool) (l : list attr) (m : dmap) : dmap :=
  fold_left (fun m a => match attr_value X mark inside (snd a) with Some d => put (fst a) d m | None => m end) l m.
Lemma value_group_go inside l : attr_value X mark inside (VGroup l) = Some (DMap (value_go inside l [])).
Proof.
  cbn [attr_value]. do 2 f_equal. unfold value_go. generalize (@nil (bytes * dyn)) as m.
  induction l as [|[k w] l IH]; intros m; [reflexivity|]. cbn [fold_left fst snd]. apply IH.
Qed.

Lemma value_go_snoc inside l k v m : value_go inside (l ++ [(k, v)]) m =
  match attr_value X mark inside v with Some d => put k d (value_go inside l m) | None => value_go inside l m end.
Proof. unfold value_go. now rewrite fold_left_app. Qed.

Lemma span_value inside z d : span X mark inside z d -> attr_value X mark inside (VDuration z) = Some d.
Proof.
  intros H. cbn [attr_value]. destruct H as [-> ->|O M|O M1 M2|O M1 M2 M3|O M1 M2 M3]; [reflexivity| | | | ];
    (assert (G : mark group_duration && inside = false) by (destruct O as [-> | ->]; [apply andb_false_r|reflexivity])); rewrite G;
    rewrite ?M, ?M1, ?M2, ?M3; reflexivity.
Qed.

Lemma worth_value inside v o : worth X mark inside v o -> attr_value X mark inside v = o.
Proof.
  apply (worth_mut X mark inside (fun v o => attr_value X mark inside v = o) (fun l d => value_go inside l [] = d)); try reflexivity.
  - intros z d. apply span_value.
  - intros next o0 M. cbn [attr_value]. now rewrite M.
  - intros s o0 M. cbn [attr_value]. now rewrite M.
  - intros l d _ <-. apply value_group_go.
  - intros l d k w x _ IH _ W. now rewrite value_go_snoc, W, IH.
  - intros l d k w _ IH _ W. now rewrite value_go_snoc, W, IH.
Qed.

Lemma worth_valid inside v o : worth X mark inside v o -> match o with Some d => valid d | None => True end.
Proof.
  apply (worth_mut X mark inside (fun v o => match o with Some d => valid d | None => True end) (fun l d => valid (DMap d))); intros; auto; try (constructor; fail).
  - match goal with H : span _ _ _ _ _ |- _ => destruct H; constructor end.
  - repeat constructor.
  - now apply valid_put.
Qed.

(** *** Heaps from placements *)

Definition in_heap (j : nat) (c : content) : hval := match c with Value x => HVal x | Group => HRef (S j) end.
Definition add_at (i : nat) (m : gomap hval) (x : placement) : gomap hval :=
  let '(j, k, c) := x in if Nat.eqb j i then put k (in_heap j c) m else m.
Definition level_map (P : list placement) (i : nat) : gomap hval := fold_left (add_at i) P [].
Definition heap_of (n : nat) (P : list placement) : heap := map (level_map P) (seq 0 n).

Lemma level_app P Q i : level_map (P ++ Q) i = fold_left (add_at i) Q (level_map P i).
Proof. apply fold_left_app. Qed.

Lemma update_map (f : gomap hval -> gomap hval) (g h : nat -> gomap hval) a n : forall s, s <= a < s + n ->
  (forall i, i <> a -> h i = g i) -> h a = f (g a) -> update (a - s) f (map g (seq s n)) = map h (seq s n).
Proof.
  induction n as [|n IH]; intros s R O A; [lia|]. cbn [seq map].
  destruct (Nat.eq_dec a s) as [->|N].
  - rewrite Nat.sub_diag. cbn [update]. rewrite A. f_equal. apply map_ext_in. intros i I. apply in_seq in I. symmetry. apply O. lia.
  - replace (a - s) with (S (a - S s)) by lia. cbn [update]. rewrite (IH (S s)) by (try lia; assumption). rewrite (O s) by lia. reflexivity.
Qed.

Lemma update_heap f P Q a n : a < n -> (forall i, i <> a -> fold_left (add_at i) Q (level_map P i) = level_map P i) ->
  fold_left (add_at a) Q (level_map P a) = f (level_map P a) -> update a f (heap_of n P) = heap_of n (P ++ Q).
Proof.
  intros A O F. unfold heap_of. replace a with (a - 0) at 1 by lia. apply update_map; [lia| |].
  - intros i N. rewrite level_app. now apply O.
  - now rewrite level_app.
Qed.

Lemma down_other inside a l P : put_down X mark inside a l P -> forall i m, i <> a -> fold_left (add_at i) P m = m.
Proof.
  induction 1 as [|k v x l P W D IH|k v l P W D IH]; intros i m N; [reflexivity| |now apply IH].
  cbn [fold_left add_at]. destruct (Nat.eqb_spec a i); [congruence|]. now apply IH.
Qed.
Lemma down_here inside a l P : put_down X mark inside a l P -> forall m, fold_left (add_at a) P m = add_attrs_to X mark inside m l.
Proof.
  unfold add_attrs_to. induction 1 as [|k v x l P W D IH|k v l P W D IH]; intros m; [reflexivity| |]; cbn [fold_left add_at fst snd];
    rewrite (worth_value _ _ _ W); [rewrite Nat.eqb_refl|]; apply IH.
Qed.
Lemma update_down inside a l P Q n : put_down X mark inside a l Q -> a < n ->
  update a (fun m => add_attrs_to X mark inside m l) (heap_of n P) = heap_of n (P ++ Q).
Proof.
  intros D A. apply update_heap; [exact A| |].
  - intros i N. now apply (down_other inside a l).
  - now apply down_here.
Qed.
Lemma down_levels inside a l P : put_down X mark inside a l P -> Forall (fun x => fst (fst x) = a) P.
Proof. induction 1; auto. Qed.

Lemma update_one a k c P n : a < n -> update a (put k (in_heap a c)) (heap_of n P) = heap_of n (P ++ [(a, k, c)]).
Proof.
  intros A. apply update_heap; [exact A| |].
  - intros i N. cbn [fold_left add_at]. destruct (Nat.eqb_spec a i); [congruence|reflexivity].
  - cbn [fold_left add_at]. now rewrite Nat.eqb_refl.
Qed.

Definition below (n : nat) (P : list placement) : Prop := Forall (fun x => fst (fst x) < n) P.
Lemma level_new n P : below n P -> level_map P n = [].
Proof.
  unfold level_map. generalize (@nil (bytes * hval)) as m. intros m B0. revert m.
  induction B0 as [|[[j k] c] P L B0 IH]; intros m; [reflexivity|]. cbn [fold_left add_at]. cbn in L. destruct (Nat.eqb_spec j n); [lia|]. apply IH.
Qed.
Lemma heap_grow n P : below n P -> heap_of n P ++ [[]] = heap_of (S n) P.
Proof. intros B0. unfold heap_of. rewrite seq_S, map_app. cbn [map plus]. now rewrite level_new. Qed.

Lemma parse_marked ss a l t : spells (x_table X) ss a l t -> forall n p depth loose P Q, length t <= n ->
  p_definition p = t -> p_heap p = heap_of (S depth) P -> below (S depth) P -> p_ptr p = depth -> p_in_group p = (0 <? depth) ->
  loose = negb (p_in_group p) || p_in_with p -> placed X mark depth loose ss l Q ->
  exists p' last, parse_n X mark n p = (p', true) /\ p_heap p' = heap_of (S last) (P ++ Q) /\ below (S last) (P ++ Q) /\
    Forall (fun x => match snd x with Group => fst (fst x) < last | _ => True end) Q /\ depth <= last /\
    p_calls p' = p_calls p ++ [(p_ops p ++ program_ops ss, l)] /\
    p_stmt p' = p_stmt p ++ concat (map step_text ss) ++ B ".Info(" ++ quoted test_message ++
      match l with [] => [] | _ => B ", '" ++ utf8_encode (code a) ++ B "'" end ++ B ")".
Proof.
  assert (ND : forall inside lv m P x, put_down X mark inside lv m P -> Forall (fun y : placement => match snd y with Group => fst (fst y) < x | _ => True end) P).
  { intros inside lv m P x D. induction D; [constructor| |assumption]. constructor; [exact I|assumption]. }
  assert (BD : forall inside lv m P x, put_down X mark inside lv m P -> lv < x -> below x P).
  { intros inside lv m P x D L. induction D; [constructor| |assumption]. constructor; [exact L|assumption]. }
  induction 1 as [ss a l t S0 IH|c x b m ss a l t A S0 IH|x b m ss a l t A S0 IH|x a l t A Bt]; intros n p depth loose P Q L D HH HB HP HI HL PL.
  - destruct n as [|n]; [cbn in L; lia|]. cbn [parse_n]. rewrite D. unfold execute. rewrite D.
    change (Ascii.eqb " "%char " "%char) with true. cbv iota. apply (IH n (set_definition t p) depth loose P Q); auto. cbn in L. lia.
  - destruct n as [|n]; [cbn in L; lia|]. cbn [parse_n]. rewrite D. unfold execute. rewrite D.
    change (Ascii.eqb "G"%char " "%char) with false. change (Ascii.eqb "G"%char "G"%char) with true. cbv iota.
    unfold exec_group. cbn [set_definition p_definition].
    set (nm := (B "group" ++ char_text c)). change nm with (group_name c). clear nm. cbv beta iota zeta.
    set (q := set_in true false _).
    inversion PL as [|? ? ? ? ? ? ? PM PQ DM PL'|]; subst depth0 loose0 c0 b0 m0 ss0 l0 Q.
    set (O1 := (depth, group_name c, Group) : placement).
    assert (B1 : below (S depth) (P ++ [O1])) by (apply Forall_app; split; [exact HB|constructor; [cbn; lia|constructor]]).
    assert (B2 : below (S (S depth)) (P ++ [O1])) by (revert B1; apply Forall_impl; intros; lia).
    assert (HQ : p_heap q = heap_of (S (S depth)) (P ++ [O1])).
    { unfold q. cbn [set_in push_map write_stmt push_log set_heap set_definition p_heap p_ptr]. rewrite HH, HP.
      replace (length (heap_of (S depth) P)) with (S depth) by (unfold heap_of; now rewrite map_length, seq_length).
      change (HRef (S depth)) with (in_heap depth Group). rewrite (update_one depth (group_name c) Group P (S depth)) by lia. now apply heap_grow. }
    assert (PQ2 : p_ptr q = S depth).
    { unfold q. cbn [set_in push_map p_ptr write_stmt push_log set_heap set_definition p_heap]. rewrite HH. unfold heap_of. now rewrite map_length, seq_length. }
    assert (DQ : p_definition q = x ++ t) by reflexivity.
    assert (GA : get_attrs X q = (set_definition t q, Some (m, b))).
    { apply (get_attrs_ok X x); [exact A| |exact DQ]. pose proof (spells_head X _ _ _ _ S0) as Hh. destruct t; [exact I|exact Hh]. }
    rewrite GA.
    assert (LT : length t <= n) by (cbn [length] in L; rewrite app_length in L; cbn in L; lia).
    destruct m as [|m0 m].
    + inversion DM; subst PM. cbn [some_attrs] in PL'.
      destruct (IH n (set_definition t q) (S depth) false (P ++ [O1]) PQ LT eq_refl HQ B2 PQ2 eq_refl eq_refl PL') as (p' & last & E1 & E2 & E3 & E4 & E5 & E6 & E7).
      exists p', last. rewrite E1. split; [reflexivity|]. rewrite <- app_assoc in E2, E3. cbn [app] in E2, E3 |- *.
      split; [exact E2|]. split; [exact E3|]. split; [constructor; [cbn; lia|exact E4]|]. split; [lia|]. split.
      * rewrite E6. cbn [q set_definition set_in push_map write_stmt push_log set_heap p_calls p_ops]. unfold program_ops. cbn [map concat step_ops attached].
        rewrite <- ?app_assoc. reflexivity.
      * rewrite E7. cbn [q set_definition set_in push_map write_stmt push_log set_heap p_stmt]. cbn [map concat step_text]. unfold quoted.
        rewrite <- ?app_assoc. cbn [app]. rewrite <- ?app_assoc. reflexivity.
    + cbv beta iota zeta. set (ms := m0 :: m) in *.
      set (q1 := set_in _ true _).
      set (q2 := if mark group_with_top then add_attrs_at X mark 0 ms q1 else add_attrs X mark ms q1).
      assert (Q2 : q2 = set_heap (heap_of (S (S depth)) ((P ++ [O1]) ++ PM)) q1).
      { unfold q2, add_attrs, add_attrs_at. destruct (mark group_with_top); f_equal; unfold q1, with_args, ms;
          cbn [push_log p_heap p_ptr p_in_group set_definition set_in write_stmt]; fold ms; rewrite HQ, ?PQ2; apply update_down; auto; lia. }
      assert (B3 : below (S (S depth)) ((P ++ [O1]) ++ PM)).
      { apply Forall_app. split; [exact B2|]. apply (BD _ _ _ _ _ DM). destruct (mark group_with_top); lia. }
      destruct (IH n q2 (S depth) true ((P ++ [O1]) ++ PM) PQ LT) as (p' & last & E1 & E2 & E3 & E4 & E5 & E6 & E7); try (rewrite Q2; reflexivity); try assumption.
      { rewrite Q2. exact PQ2. }
      exists p', last. rewrite E1. split; [reflexivity|]. rewrite <- !app_assoc in E2, E3. cbn [app] in E2, E3 |- *.
      split; [exact E2|]. split; [exact E3|]. split; [constructor; [cbn; lia|apply Forall_app; split; [now apply (ND _ _ _ _ _ DM)|exact E4]]|]. split; [lia|]. split.
      * rewrite E6, Q2. unfold q1, with_args, ms.
        cbn [q set_definition set_in push_map write_stmt push_log set_heap p_calls p_ops]. unfold program_ops. cbn [map concat step_ops attached].
        rewrite <- ?app_assoc. reflexivity.
      * rewrite E7, Q2. unfold q1, with_args, ms.
        cbn [q set_definition set_in push_map write_stmt push_log set_heap p_stmt]. cbn [map concat step_text]. unfold quoted, char_text.
        rewrite <- ?app_assoc. cbn [app]. rewrite <- ?app_assoc. reflexivity.
  - destruct n as [|n]; [cbn in L; lia|]. cbn [parse_n]. rewrite D. unfold execute. rewrite D.
    change (Ascii.eqb "W"%char " "%char) with false. change (Ascii.eqb "W"%char "G"%char) with false.
    change (Ascii.eqb "W"%char "M"%char) with false. change (Ascii.eqb "W"%char "W"%char) with true. cbv iota.
    unfold exec_with.
    assert (GA : get_attrs X (set_definition (x ++ t) p) = (set_definition t p, Some (m, b))).
    { rewrite (get_attrs_ok X x b m t); [reflexivity|exact A| |reflexivity]. pose proof (spells_head X _ _ _ _ S0) as Hh. destruct t; [exact I|exact Hh]. }
    rewrite GA. cbv beta iota zeta.
    assert (LT : length t <= n) by (cbn [length] in L; rewrite app_length in L; cbn in L; lia).
    inversion PL as [? ? ? ? ? ? PM PQ DM PL'| |]; subst depth0 loose0 b0 m0 ss0 l0 Q.
    set (q := add_attrs X mark m _).
    assert (HQ : p_heap q = heap_of (S depth) (P ++ PM)).
    { unfold q, add_attrs, add_attrs_at. unfold with_args. destruct m; cbn [set_heap push_log write_stmt set_definition p_heap p_ptr p_in_group];
        rewrite HH, HP, HI; apply update_down; auto. }
    assert (B1 : below (S depth) (P ++ PM)) by (apply Forall_app; split; [exact HB|apply (BD _ _ _ _ _ DM); lia]).
    destruct (IH n q depth loose (P ++ PM) PQ LT) as (p' & last & E1 & E2 & E3 & E4 & E5 & E6 & E7); try assumption;
      try (unfold q, with_args; destruct m; first [reflexivity|exact HP|exact HI|exact HL]).
    exists p', last. rewrite E1. split; [reflexivity|]. rewrite <- !app_assoc in E2, E3.
    split; [exact E2|]. split; [exact E3|]. split; [apply Forall_app; split; [now apply (ND _ _ _ _ _ DM)|exact E4]|]. split; [exact E5|]. split.
    + rewrite E6. unfold q, with_args. unfold program_ops. destruct m; cbn [add_attrs add_attrs_at set_heap push_log write_stmt set_definition p_calls p_ops map concat step_ops attached];
        rewrite <- ?app_assoc; reflexivity.
    + rewrite E7. unfold q, with_args. cbn [map concat step_text]. unfold quoted, char_text.
      destruct m; cbn [add_attrs add_attrs_at set_heap push_log write_stmt set_definition p_stmt]; rewrite <- ?app_assoc; cbn [app]; rewrite <- ?app_assoc; reflexivity.
  - destruct n as [|n]; [cbn in L; lia|]. cbn [parse_n]. rewrite D. unfold execute. rewrite D.
    change (Ascii.eqb "M"%char " "%char) with false. change (Ascii.eqb "M"%char "G"%char) with false.
    change (Ascii.eqb "M"%char "M"%char) with true. cbv iota.
    unfold exec_message.
    assert (GA : get_attrs X (set_definition (x ++ t) p) = (set_definition t p, Some (l, a))).
    { rewrite (get_attrs_ok X x a l t); [reflexivity|exact A|now apply blanks_head|reflexivity]. }
    rewrite GA. cbv beta iota zeta.
    set (q1 := set_heap (update 0 _ _) _).
    assert (C1 : negb (p_in_group q1) || p_in_with q1 = loose) by (rewrite HL; reflexivity). rewrite C1.
    set (q := if mark group_attr_msg_top && loose then _ else _).
    inversion PL as [| |? ? ? PM DM]; subst depth0 loose0 l0 Q.
    set (O1 := [(0, LevelKey, Value (DStr (B "INFO"))); (0, MessageKey, Value (DStr (B "This is a message")))] : list placement).
    assert (H1 : p_heap q1 = heap_of (S depth) (P ++ O1)).
    { unfold q1. cbn [set_heap set_definition write_stmt call_info p_heap]. rewrite HH. apply update_heap; [lia| |reflexivity].
      intros i N. cbn [O1 fold_left add_at]. destruct (Nat.eqb_spec 0 i); [congruence|reflexivity]. }
    assert (Q2 : q = set_heap (heap_of (S depth) ((P ++ O1) ++ PM)) q1).
    { unfold q, add_attrs, add_attrs_at. rewrite H1.
      assert (I1 : p_in_group q1 = (0 <? depth)) by exact HI. assert (I2 : p_ptr q1 = depth) by exact HP. rewrite I1, I2.
      destruct (mark group_attr_msg_top && loose); f_equal; apply update_down; auto; lia. }
    assert (LT : length t <= n) by (cbn [length] in L; rewrite app_length in L; cbn in L; lia).
    assert (DQ : p_definition q = t) by (rewrite Q2; reflexivity).
    rewrite (parse_blanks X mark t Bt n q LT DQ). exists (set_definition [] q), depth. split; [reflexivity|]. rewrite Q2. split; [|split; [|split; [|split; [lia|split]]]].
    + cbn [set_definition set_heap p_heap]. rewrite <- app_assoc. reflexivity.
    + apply Forall_app. split; [exact HB|]. constructor; [cbn; lia|]. constructor; [cbn; lia|]. apply (BD _ _ _ _ _ DM). destruct (mark group_attr_msg_top && loose); lia.
    + do 2 (constructor; [exact I|]). now apply (ND _ _ _ _ _ DM).
    + cbn [q1 set_heap set_definition write_stmt call_info p_calls p_ops]. unfold program_ops. cbn [map concat]. now rewrite app_nil_r.
    + cbn [q1 set_heap set_definition write_stmt call_info p_stmt map concat]. unfold quoted, char_text. cbn [app].
      rewrite <- ?app_assoc. destruct l; reflexivity.
Qed.

(** *** From the heap to the record *)

Lemma get_mapped {A C : Type} (f : A -> C) k (m : gomap A) : get k (map (fun e => (fst e, f (snd e))) m) = option_map f (get k m).
Proof. induction m as [|[x w] m IH]; [reflexivity|]. cbn [map get fst snd]. destruct (beq x k); [reflexivity|exact IH]. Qed.
Lemma wf_mapped {A C : Type} (f : A -> C) (m : gomap A) : wf m -> wf (map (fun e => (fst e, f (snd e))) m).
Proof. unfold wf, keys. now rewrite map_map. Qed.

Lemma get_level P i k : get k (level_map P i) = option_map (in_heap i) (last_at i k P).
Proof.
  unfold level_map, last_at.
  assert (G : forall m r, get k m = option_map (in_heap i) r -> get k (fold_left (add_at i) P m) =
    option_map (in_heap i) (fold_left (fun r '(j, k', c) => if Nat.eqb j i && beq k' k then Some c else r) P r)).
  { induction P as [|[[j k'] c] P IH]; intros m r H; [exact H|]. cbn [fold_left add_at]. apply IH.
    destruct (Nat.eqb_spec j i) as [->|N]; cbn [andb]; [|exact H]. rewrite get_put. destruct (beq k' k); [reflexivity|exact H]. }
  now apply G.
Qed.
Lemma wf_level P i : wf (level_map P i).
Proof.
  unfold level_map. generalize (wf_nil (A := hval)). generalize (@nil (bytes * hval)).
  induction P as [|[[j k'] c] P IH]; intros m W; [exact W|]. cbn [fold_left add_at]. apply IH. destruct (Nat.eqb j i); [now apply wf_put|exact W].
Qed.

Lemma last_in i k P c : last_at i k P = Some c -> In (i, k, c) P.
Proof.
  unfold last_at.
  assert (G : forall r, fold_left (fun r '(j, k', c) => if Nat.eqb j i && beq k' k then Some c else r) P r = Some c -> In (i, k, c) P \/ r = Some c).
  { induction P as [|[[j k'] c'] P IH]; intros r H; [now right|]. cbn [fold_left] in H. destruct (IH _ H) as [I|E]; [left; now right|].
    destruct (Nat.eqb_spec j i) as [->|N]; cbn [andb] in E; [|now right]. destruct (beq k' k) eqn:K; [|now right].
    apply beq_eq in K. subst k'. injection E as ->. left. now left. }
  intros H. destruct (G _ H) as [I|E]; [exact I|discriminate].
Qed.

Lemma heap_nth n P i : i < n -> nth i (heap_of n P) [] = level_map P i.
Proof.
  intros L. unfold heap_of. rewrite (nth_indep _ [] (level_map P 0)) by (rewrite map_length, seq_length; exact L). rewrite map_nth. f_equal. rewrite seq_nth by exact L. reflexivity.
Qed.

Definition grounded (last : nat) (P : list placement) : Prop :=
  Forall (fun x : placement => match snd x with Group => fst (fst x) < last | _ => True end) P.

Lemma shows_tree last P : grounded last P -> forall n i, i <= last -> last <= n + i -> shows P i (tree n (heap_of (S last) P) i).
Proof.
  intros G. induction n as [|n IH]; intros i L1 L2; rewrite tree_eq, heap_nth by lia; (constructor; [apply wf_mapped, wf_level|]);
    intros k; rewrite get_mapped, get_level; destruct (last_at i k P) as [[x|]|] eqn:E; cbn [option_map in_heap conv]; try constructor;
    apply last_in in E; unfold grounded in G; rewrite Forall_forall in G; specialize (G _ E); cbn in G; try lia.
  apply IH; lia.
Qed.

Lemma shows_valid P : (forall i k x, In (i, k, Value x) P -> valid x) -> forall i d, shows P i d -> valid (DMap d).
Proof.
  intros V. apply (shows_mut P (fun i d => valid (DMap d)) (fun i c o => forall x, o = Some x -> (forall y, c = Some (Value y) -> valid y) -> valid x)).
  - intros i d W _ H. apply valid_of; [exact W|]. intros k v E. apply (H k v E). intros y Ey. apply last_in in Ey. now apply (V _ _ _ Ey).
  - discriminate.
  - intros i x y [= <-] H. now apply H.
  - intros i d _ H y [= <-] _. exact H.
Qed.

Lemma shows_same P : forall i d, shows P i d -> forall d', shows P i d' -> same (DMap d) (DMap d').
Proof.
  apply (shows_mut P (fun i d => forall d', shows P i d' -> same (DMap d) (DMap d')) (fun i c o => forall o', entry P i c o' -> same_option o o')).
  - intros i d W _ H d' S'. inversion S' as [? ? W' F']; subst. constructor. intros k. apply H, F'.
  - intros i o' E. inversion E. constructor.
  - intros i x o' E. inversion E. constructor. apply same_refl.
  - intros i d _ H o' E. inversion E; subst. constructor. now apply H.
Qed.

Lemma placed_values depth loose ss l P : placed X mark depth loose ss l P -> forall i k x, In (i, k, Value x) P -> valid x.
Proof.
  assert (D : forall inside lv m Q, put_down X mark inside lv m Q -> forall i k x, In (i, k, Value x) Q -> valid x).
  { induction 1 as [|k v x l0 Q W PD IH|k v l0 Q W PD IH]; intros i k' y I; [destruct I| |now apply (IH i k')].
    destruct I as [[= <- <- <-]|I]; [exact (worth_valid _ _ _ W)|now apply (IH i k')]. }
  induction 1 as [depth loose b m ss l Q R PD PL IH|depth loose c b m ss l Q R PD PL IH|depth loose l Q PD]; intros i k x I.
  - apply in_app_or in I. destruct I as [I|I]; [exact (D _ _ _ _ PD _ _ _ I)|exact (IH _ _ _ I)].
  - destruct I as [I|I]; [discriminate|]. apply in_app_or in I. destruct I as [I|I]; [exact (D _ _ _ _ PD _ _ _ I)|exact (IH _ _ _ I)].
  - destruct I as [[= <- <- <-]|[[= <- <- <-]|I]]; [constructor|constructor|exact (D _ _ _ _ PD _ _ _ I)].
Qed.

Lemma run_marked ss a l t P : spells (x_table X) ss a l t -> placed X mark 0 true ss l P -> exists p d, parse X mark (new_parser t) = (p, true) /\
  shows P 0 d /\ expected mark p = prune_list d /\ p_calls p = [(program_ops ss, l)] /\ p_stmt p = program_text ss a l.
Proof.
  intros S0 PL. destruct (parse_marked ss a l t S0 (length t) (new_parser t) 0 true [] P (le_n _) eq_refl eq_refl) as (p & last & E1 & E2 & E3 & E4 & E5 & E6 & E7);
    try reflexivity; [constructor|exact PL|].
  cbn [app] in E2, E3. exists p, (tree (length (p_heap p)) (p_heap p) 0). split; [exact E1|]. split; [|split; [|split; [exact E6|rewrite E7; reflexivity]]].
  - rewrite E2. apply shows_tree; [exact E4|lia|]. unfold heap_of. rewrite map_length, seq_length. lia.
  - unfold expected. apply remove_is.
Qed.
End Proofs.

(** *** Every program with attributes that can be logged has its placements *)
Lemma worth_exists X mark text num v : sound_value text num X v -> forall inside, exists o, worth X mark inside v o.
Proof.
  assert (SP : forall inside z, exists d, span X mark inside z d).
  { intros inside z. destruct inside, (mark group_duration) eqn:M0; [eexists; now apply span_group|..];
      (destruct (mark duration_string) eqn:M1; [eexists; apply span_text; auto|]; destruct (mark duration_seconds) eqn:M2; [eexists; apply span_seconds; auto|];
       destruct (mark duration_millis) eqn:M3; [eexists; apply span_millis; auto|eexists; apply span_nanos; auto]). }
  revert v. apply (value_rect' (fun v => sound_value text num X v -> forall inside, exists o, worth X mark inside v o)); intros; 
    try (match goal with H : sound_value _ _ _ _ |- _ => inversion H; subst end; eexists; constructor; fail).
  all: match goal with H : sound_value _ _ _ _ |- _ => inversion H; subst end.
  all: try (eexists; constructor; fail).
  - destruct (SP inside d) as [x Hx]. eexists. apply worth_span, Hx.
  - match goal with H : Forall (fun a => fst a <> [] /\ _) l |- _ => rename H into F end.
    assert (M : exists d, members X mark inside l d).
    { clear H0. match goal with H : l <> [] |- _ => clear H end. revert F. induction l as [|[k v] l IHl] using rev_ind; intros F; [eexists; constructor|].
      apply Forall_app in F, H. destruct F as [F1 F2], H as [G1 G2]. destruct (IHl G1 F1) as [d Hd].
      inversion F2 as [|? ? [_ [_ Sv]] _]; inversion G2 as [|? ? Gv _]; subst. destruct (Gv Sv inside) as [[x|] W]; eexists; [eapply members_add|eapply members_leave]; eassumption. }
    destruct M as [d Hd]. eexists. apply worth_group, Hd.
  - destruct (mark resolver) eqn:R; eexists; [now apply worth_hidden|now apply worth_resolved].
Qed.

Lemma down_exists X mark text num l inside level : Forall (sound text num X) l -> exists P, put_down X mark inside level l P.
Proof.
  induction 1 as [|[k v] l (_ & _ & Sv) F IH]; [eexists; constructor|]. destruct IH as [P HP]. cbn [snd] in Sv.
  destruct (worth_exists X mark text num v Sv inside) as [[x|] W]; eexists; [eapply down_add|eapply down_leave]; eassumption.
Qed.

Theorem C72_placed X mark text num ss l : Forall (sound text num X) (program_attrs ss l) -> exists P, placed X mark 0 true ss l P.
Proof.
  generalize 0 as depth. generalize true as loose. induction ss as [|[c b m|b m] ss IH]; intros loose depth F.
  - destruct (down_exists X mark text num l (0 <? depth) (if mark group_attr_msg_top && loose then 0 else depth) F) as [P HP]. eexists. eapply placed_message, HP.
  - unfold program_attrs in F. cbn [map concat step_attrs] in F. rewrite <- app_assoc in F. apply Forall_app in F. destruct F as [F1 F2].
    destruct (IH (some_attrs m) (S depth) F2) as [Q HQ]. destruct (down_exists X mark text num m true (if mark group_with_top then 0 else S depth) F1) as [P HP].
    eexists. eapply placed_open; eassumption.
  - unfold program_attrs in F. cbn [map concat step_attrs] in F. rewrite <- app_assoc in F. apply Forall_app in F. destruct F as [F1 F2].
    destruct (IH loose depth F2) as [Q HQ]. destruct (down_exists X mark text num m (0 <? depth) depth F1) as [P HP].
    eexists. eapply placed_attach; eassumption.
Qed.
Print Assumptions C72_placed.

(** *** What is accepted, whatever is marked

    The record shown by the placements of the program; it exists and is determined up
    to order. *)
Theorem C72_oracle X E mark ss a l t P captured m :
  unmarshals_maps E -> spells (x_table X) ss a l t -> placed X mark 0 true ss l P -> e_unmarshal E captured = (Some m, None) ->
  (exists p, parse X mark (new_parser t) = (p, true) /\ p_calls p = [(program_ops ss, l)]) /\
  (exists rec, shows P 0 rec) /\
  let upper := if mark level_case then Some (e_casing E) else None in
  forall rec, shows P 0 rec ->
  (complex_case X mark E t captured = ([], Some None) <-> agreeing upper rec m) /\
  (complex_case X mark E t captured = ((if mark mismatch then [] else [Differs t]), Some (Some (t, program_text ss a l))) <-> ~ agreeing upper rec m).
Proof.
  intros MA S0 PL U. destruct (run_marked X mark ss a l t P S0 PL) as (p & d & P1 & SD & P2 & P3 & P4).
  split; [exists p; now split|]. split; [now exists d|]. intros up rec SR.
  pose proof (shows_valid P (placed_values X mark _ _ _ _ _ PL)) as VS.
  pose proof (VS _ _ SD) as VD. pose proof (VS _ _ SR) as VR. pose proof (MA captured m U) as V.
  pose proof (equal_alike mark E d m VD V) as Q. pose proof (agreeing_alike mark E rec m VR V) as Q2. change (upper mark E) with up in Q2.
  assert (AL : alike (DMap rec) (DMap d)) by (apply same_alike; [exact VR|exact VD|now apply (shows_same P 0)]).
  assert (Q3 : deep_equal (DMap (prune_list d)) (DMap (fix_actual mark (e_casing E) m)) = true <-> agreeing up rec m).
  { rewrite Q, Q2. split; intros K; [eapply alike_trans; [exact AL|exact K]|eapply alike_trans; [apply alike_sym, AL|exact K]]. }
  clear Q Q2. unfold complex_case. rewrite P1, U, P2, P4.
  destruct (deep_equal (DMap (prune_list d)) (DMap (fix_actual mark (e_casing E) m))) eqn:DE.
  - assert (AG : agreeing up rec m) by now apply Q3. rewrite andb_false_r. cbn [negb app].
    split; split; intros K; try reflexivity; try assumption; try discriminate. contradiction.
  - assert (AG : ~ agreeing up rec m) by (intros K; apply Q3 in K; discriminate). cbn [negb app]. rewrite andb_true_r.
    split; split; intros K; try assumption; try contradiction; try discriminate. destruct (mark mismatch); reflexivity.
Qed.
Print Assumptions C72_oracle.

(** *** A mark asks for the misplacement

    With GroupWithTop marked, a record in which an attribute a group was opened with is
    not outside of all groups is a mismatch: also the record slog should give. *)
Section Strict.
Variable X : tools.
Variable mark : warning -> bool.
Variable k : bytes.
Definition run_at (P : list placement) (r : option content) : option content :=
  fold_left (fun r '(j, k', c) => if Nat.eqb j 0 && beq k' k then Some c else r) P r.
Definition is_str (r : option content) : Prop := exists s, r = Some (Value (DStr s)).
Definition strings (l : list attr) : Prop := forall v, In (k, v) l -> exists s, v = VString s.

Lemma run_app P Q r : run_at (P ++ Q) r = run_at Q (run_at P r).
Proof. apply fold_left_app. Qed.

Lemma down_keeps inside lv l P : put_down X mark inside lv l P -> strings l -> forall r, is_str r -> is_str (run_at P r).
Proof.
  induction 1 as [|k' v x l P W D IH|k' v l P W D IH]; intros S0 r R; [exact R| |apply IH; [intros w I; apply S0; now right|exact R]].
  apply IH; [intros w I; apply S0; now right|]. destruct (Nat.eqb lv 0); cbn [andb]; [|exact R]. destruct (beq k' k) eqn:K; [|exact R].
  apply beq_eq in K. subst k'. destruct (S0 v) as [s ->]; [now left|]. inversion W; subst. now eexists.
Qed.
Lemma down_gives inside l P s : put_down X mark inside 0 l P -> strings l -> In (k, VString s) l -> forall r, is_str (run_at P r).
Proof.
  induction 1 as [|k' v x l P W D IH|k' v l P W D IH]; intros S0 I r; [destruct I| |].
  - assert (S1 : strings l) by (intros w J; apply S0; now right). destruct I as [[= -> ->]|I]; [|now apply IH].
    apply (down_keeps inside 0 l P D S1). cbn [Nat.eqb andb]. rewrite beq_refl. inversion W; subst. now eexists.
  - assert (S1 : strings l) by (intros w J; apply S0; now right). destruct I as [[= -> ->]|I]; [inversion W|now apply IH].
Qed.

Lemma placed_keeps depth loose ss l P : placed X mark depth loose ss l P -> 0 < depth -> strings (program_attrs ss l) -> ~ In k reserved ->
  forall r, is_str r -> is_str (run_at P r).
Proof.
  induction 1 as [depth loose b m ss l Q R PD PL IH|depth loose c b m ss l Q R PD PL IH|depth loose l Q PD]; intros L S0 N r H.
  - rewrite run_app. assert (S1 : strings m /\ strings (program_attrs ss l)).
    { split; intros v I; apply S0; unfold program_attrs; cbn [map concat step_attrs]; rewrite <- app_assoc; apply in_or_app; auto. }
    destruct S1. apply IH; auto. now apply (down_keeps _ _ _ _ PD).
  - cbn [run_at fold_left]. destruct (Nat.eqb_spec depth 0); [lia|]. cbn [andb]. fold (run_at (Q ++ R) r). rewrite run_app.
    assert (S1 : strings m /\ strings (program_attrs ss l)).
    { split; intros v I; apply S0; unfold program_attrs; cbn [map concat step_attrs]; rewrite <- app_assoc; apply in_or_app; auto. }
    destruct S1. apply IH; auto. now apply (down_keeps _ _ _ _ PD).
  - cbn [run_at fold_left]. cbn [Nat.eqb andb]. destruct (beq LevelKey k) eqn:K1; [apply beq_eq in K1; subst; destruct N; cbn; auto|].
    destruct (beq MessageKey k) eqn:K2; [apply beq_eq in K2; subst; destruct N; cbn; auto|]. now apply (down_keeps _ _ _ _ PD).
Qed.

Lemma placed_gives depth loose ss l P : mark group_with_top = true -> placed X mark depth loose ss l P -> strings (program_attrs ss l) -> ~ In k reserved ->
  (exists c b m s, In (Open c b m) ss /\ In (k, VString s) m) -> forall r, is_str (run_at P r).
Proof.
  intros MT. induction 1 as [depth loose b m ss l Q R PD PL IH|depth loose c b m ss l Q R PD PL IH|depth loose l Q PD]; intros S0 N (c' & b' & m' & s & I & J) r.
  - rewrite run_app. assert (S1 : strings (program_attrs ss l)).
    { intros v K. apply S0. unfold program_attrs. cbn [map concat step_attrs]. rewrite <- app_assoc. apply in_or_app; auto. }
    destruct I as [I|I]; [discriminate|]. apply IH; auto. now exists c', b', m', s.
  - cbn [run_at fold_left]. fold (run_at (Q ++ R) (if Nat.eqb depth 0 && beq (group_name c) k then Some Group else r)). rewrite run_app.
    assert (S1 : strings m /\ strings (program_attrs ss l)).
    { split; intros v K; apply S0; unfold program_attrs; cbn [map concat step_attrs]; rewrite <- app_assoc; apply in_or_app; auto. }
    destruct S1 as [S1 S2]. destruct I as [[= -> -> ->]|I]; [|apply IH; auto; now exists c', b', m', s].
    rewrite MT in PD. refine (placed_keeps _ _ _ _ _ PL (Nat.lt_0_succ _) S2 N _ _). now apply (down_gives _ _ _ _ PD S1 J).
  - destruct I.
Qed.
End Strict.

Theorem C72_strict X E mark ss a l t P captured m k :
  unmarshals_maps E -> spells (x_table X) ss a l t -> placed X mark 0 true ss l P -> e_unmarshal E captured = (Some m, None) ->
  mark group_with_top = true -> (exists c b g s, In (Open c b g) ss /\ In (k, VString s) g) ->
  (forall v, In (k, v) (program_attrs ss l) -> exists s, v = VString s) -> ~ In k reserved ->
  get k m = None ->
  complex_case X mark E t captured = ((if mark mismatch then [] else [Differs t]), Some (Some (t, program_text ss a l))).
Proof.
  intros MA S0 PL U MT O ST N G. destruct (C72_oracle X E mark ss a l t P captured m MA S0 PL U) as (_ & [rec SR] & H).
  apply (H rec SR). intros AG. specialize (AG k). destruct (placed_gives X mark k _ _ _ _ _ MT PL ST N O None) as [s L]. change (run_at k P None) with (last_at 0 k P) in L.
  inversion SR as [? ? W F]; subst. specialize (F k). rewrite L in F. inversion F as [|? ? Q1 Q2 Q3|]; subst. rewrite <- Q3 in AG.
  assert (LA : looked_at (if mark level_case then Some (e_casing E) else None) m k = None).
  { unfold looked_at. destruct (beq TimeKey k); [reflexivity|]. destruct (beq (B "message") k); [reflexivity|].
    destruct (beq MessageKey k) eqn:K; [apply beq_eq in K; subst; destruct N; cbn; auto|]. rewrite G. destruct (mark level_case); reflexivity. }
  rewrite LA in AG. inversion AG as [? ? V1 _|]; subst. cbn in V1. inversion V1.
Qed.
Print Assumptions C72_strict.

(** ** Examples *)

Definition tools2 : tools :=
  {| x_float := x_float tools0; x_int := x_int tools0; x_seconds := fun z => Q2Qc (z # 1000000000); x_duration := x_duration tools0;
     x_string := x_string tools0; x_other := x_other tools0; x_table := x_table tools0 |}.
Definition marked0 (w : warning) : bool := existsb (fun v => beq (w_name v) (w_name w)) [group_with_top; resolver; duration_seconds].
Definition attrs_a : list attr := [(B "string", VString (B "value")); (B "int", VInt64 (-13)); (B "uint", VUint64 23)].
Definition attrs_c : list attr := match x_table tools2 "C"%char with Some l => l | None => [] end.
Definition program1 : list step := [Open "1"%char "A"%char attrs_a; Open "2"%char zero []].

Example C72_spells_ex : spells (x_table tools2) program1 "C"%char attrs_c (B "G1+A G2        M+C").
Proof.
  refine (spell_open _ _ ["+"%char; "A"%char] _ _ _ _ _ (B " G2        M+C") _ _); [now apply args_some|]. apply spell_space.
  refine (spell_open _ _ [] _ _ _ _ _ (B "        M+C") _ _); [apply args_none|]. do 8 apply spell_space.
  refine (spell_message _ ["+"%char; "C"%char] _ _ [] _ _); [now apply args_some|constructor].
Qed.

(** The attributes of the first group are expected outside of it, the message's in the
    second group, its duration in seconds and without the LogValuer. *)
Example C72_placed_ex : exists P, placed tools2 marked0 0 true program1 attrs_c P /\
  last_at 0 (B "string") P = Some (Value (DStr (B "value"))) /\ last_at 1 (B "string") P = None /\ last_at 0 (B "group1") P = Some Group /\
  last_at 1 (B "group2") P = Some Group /\ last_at 2 (B "bool") P = Some (Value (DBool false)) /\ last_at 2 (B "valuer") P = None /\
  last_at 2 (B "duration") P = Some (Value (DNum (x_seconds tools2 1429000000000))).
Proof.
  eexists. split.
  - eapply (placed_open _ _ 0 true "1"%char "A"%char attrs_a).
    + repeat (eapply down_add; [constructor|]). constructor.
    + eapply (placed_open _ _ 1 true "2"%char zero []); [constructor|]. apply placed_message. cbn.
      eapply down_add. { apply worth_group.
        eapply (members_add _ _ _ [(B "name", VString (B "Goober Snoofus")); (B "skidoo", VInt64 23)] _ (B "pi")); [|constructor].
        eapply (members_add _ _ _ [(B "name", VString (B "Goober Snoofus"))] _ (B "skidoo")); [|constructor].
        eapply (members_add _ _ _ [] _ (B "name")); constructor. }
      eapply down_add; [constructor|]. eapply down_leave; [now apply worth_hidden|].
      eapply down_add; [apply worth_span; apply span_seconds; auto; reflexivity|constructor].
  - repeat split; vm_compute; reflexivity.
Qed.

Definition moved0 : bytes :=
  B "{""time"": ""2024-03-01T10:00:00Z"", ""level"": ""INFO"", ""msg"": ""This is a message"", ""string"": ""value"", ""int"": -13, ""uint"": 23, ""group1"": {""group2"": {""bool"": false, ""groupC"": {""name"": ""Goober Snoofus"", ""skidoo"": 23, ""pi"": " ++
  pi_text0 ++ B "}, ""duration"": 1429}}}" ++ [newline].
Definition unmoved0 : bytes :=
  B "{""time"": ""2024-03-01T10:00:00Z"", ""level"": ""INFO"", ""msg"": ""This is a message"", ""group1"": {""string"": ""value"", ""int"": -13, ""uint"": 23, ""group2"": {""bool"": false, ""groupC"": {""name"": ""Goober Snoofus"", ""skidoo"": 23, ""pi"": " ++
  pi_text0 ++ B "}, ""duration"": 1429}}}" ++ [newline].
Example C72_cases_ex :
  complex_case tools2 marked0 (env0 true) (B "G1+A G2        M+C") moved0 = ([], Some None) /\
  (exists s, complex_case tools2 marked0 (env0 true) (B "G1+A G2        M+C") unmoved0 =
    ([Differs (B "G1+A G2        M+C")], Some (Some (B "G1+A G2        M+C", s)))).
Proof. split; [vm_compute; reflexivity|]. eexists. vm_compute. reflexivity. Qed.

Example C72_strict_ex : unmarshals_maps (env0 true) /\ marked0 group_with_top = true /\
  (exists c b g s, In (Open c b g) program1 /\ In (B "string", VString s) g) /\
  (forall v, In (B "string", v) (program_attrs program1 attrs_c) -> exists s, v = VString s) /\ ~ In (B "string") reserved /\
  exists m, e_unmarshal (env0 true) unmoved0 = (Some m, None) /\ get (B "string") m = None.
Proof.
  split; [apply C59_hypotheses_ex|]. split; [reflexivity|]. split; [do 4 eexists; split; [now left|now left]|]. split; [|split].
  - intros v I. cbn in I. destruct I as [I|I]; [injection I as <-; now eexists|]. repeat (destruct I as [I|I]; [discriminate|]). destruct I.
  - cbn. intros I. decompose [or] I; try discriminate; contradiction.
  - eexists. split; vm_compute; reflexivity.
Qed.
