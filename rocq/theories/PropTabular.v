(** C69: what cmd/tabular prints. *)

From Coq Require Import Ascii String List NArith QArith Bool Arith Lia Permutation Sorted.
From Verif Require Import Bytes BytesProofs GoSort Regex RegexProofs Replace PropReplace Warnings WarnParser WarnLines SpecReport
  WarnRoundTrip WarnEffects PropReport Bench BenchLines SpecBench PropBench SpecBenchText PropBenchText Tabular SpecTabular.
Import ListNotations.
Local Open Scope list_scope.

(** ** Invariant of the data *)

Section Inv.
Variable v : world.

Definition named (i : dinst) : Prop := di_name i = test_name v (di_tag i).
Definition table_ok (t : table) : Prop := NoDup (map fst t) /\ Forall (fun e => Forall named (d_insts (snd e))) t.
Definition tables_ok (m : gomap table) : Prop := wf m /\ Forall (fun e => table_ok (snd e)) m.

Lemma tput_keys k d t x : In x (map fst (tput k d t)) <-> x = k \/ In x (map fst t).
Proof.
  induction t as [|[a y] t IH]; cbn [tput map fst In]; [intuition congruence|].
  destruct (same_key a k) eqn:E; cbn [map fst In].
  - apply same_key_eq in E. subst a. intuition congruence.
  - rewrite IH. tauto.
Qed.

Lemma table_tput k d t : table_ok t -> Forall named (d_insts d) -> table_ok (tput k d t).
Proof.
  intros [N F] D. split.
  - induction t as [|[a y] t IH]; cbn [tput map fst]; [constructor; [intros []|constructor]|].
    inversion N; subst. inversion F; subst. destruct (same_key a k) eqn:E; cbn [map fst].
    + apply same_key_eq in E. subst a. constructor; assumption.
    + constructor; [|apply IH; assumption]. rewrite tput_keys. intros [->|I]; [|contradiction].
      assert (K : same_key k k = true) by (apply same_key_eq; reflexivity). congruence.
  - clear N. induction F as [|[a y] t Fy F IH]; cbn [tput]; [constructor; [exact D|constructor]|].
    destruct (same_key a k); constructor; assumption.
Qed.

Lemma tables_put x t m : tables_ok m -> table_ok t -> tables_ok (put x t m).
Proof.
  intros [W F] T. split; [apply wf_put, W|]. clear W. induction F as [|[a y] m Fy F IH]; cbn [put]; [constructor; [exact T|constructor]|].
  destruct (beq a x); constructor; assumption.
Qed.

Lemma tables_get x t m : tables_ok m -> get x m = Some t -> table_ok t.
Proof.
  intros [_ F] G. induction F as [|[a y] m Fy F IH]; cbn [get] in G; [discriminate|].
  destruct (beq a x); [injection G as <-; exact Fy|apply IH, G].
Qed.

Lemma table_nil : table_ok [].
Proof. split; constructor. Qed.

Lemma tables_of x m : tables_ok m -> table_ok (table_of x m).
Proof. intros H. unfold table_of. destruct (get x m) eqn:E; [exact (tables_get _ _ _ H E)|apply table_nil]. Qed.

Lemma warn_named k t : table_ok t -> Forall named (d_insts (warn_of k t)).
Proof.
  intros [_ F]. unfold warn_of. destruct (tget k t) as [d|] eqn:E; [|constructor].
  induction F as [|[a y] t Fy F IH]; cbn [tget] in E; [discriminate|]. destruct (same_key a k); [injection E as <-; exact Fy|apply IH, E].
Qed.

Lemma tables_update x k f m : tables_ok m -> (forall d, Forall named (d_insts d) -> Forall named (d_insts (f d))) ->
  tables_ok (update x k f m).
Proof.
  intros H Hf. unfold update. apply tables_put; [exact H|]. apply table_tput; [apply tables_of, H|].
  apply Hf, warn_named, tables_of, H.
Qed.

Definition state_ok (s : pstate) : Prop :=
  tables_ok (by_handler (p_data s)) /\ match p_inst s with Some i => named i | None => True end.

Lemma save_ok s : state_ok s -> state_ok (save v s).
Proof.
  intros [T I]. unfold save. destruct (p_inst s) as [i|] eqn:E; [|split; [exact T|rewrite E; exact Logic.I]].
  destruct (p_cur s) as [c|]; [|split; [exact T|exact Logic.I]].
  split; [|exact Logic.I]. cbn. destruct (c_live c); [|exact T]. cbn. apply tables_update; [exact T|].
  intros d D. cbn. apply Forall_app. split; [exact D|constructor; [exact I|constructor]].
Qed.

Variable source : bytes.
Variable lookup : gomap bytes.

Lemma name_ok' h s : state_ok s -> state_ok (name_handler v lookup h s).
Proof. intros H. apply save_ok in H. unfold name_handler. destruct (get h lookup); exact H. Qed.
Lemma end_ok n ls lk s : state_ok s -> state_ok (end_summary lookup n ls lk s).
Proof. intros H. unfold end_summary. destruct (get n lookup); exact H. Qed.

Lemma rest_ok line s s' : state_ok s -> parse_rest v source line s = Some s' -> state_ok s'.
Proof.
  intros H E. unfold parse_rest in E. destruct (p_handler s) eqn:Eh; [injection E as <-; exact H|]. rewrite <- Eh in E.
  destruct (matches ptn_none line).
  { injection E as <-. assert (K : forall s2, state_ok s2 -> state_ok (with_data (set_by_handler (put (p_handler s2) [] (by_handler (p_data s2))) (p_data s2)) s2)).
    { intros s2 [T I]. split; [|exact I]. cbn. apply tables_put; [exact T|apply table_nil]. }
    cbv zeta. destruct (p_cur s) as [c|]; [|apply K, H]. destruct (beq (c_handler c) (p_handler s)); apply K; exact H. }
  destruct (match find ptn_level line with Some f => parse_level (v_casing v) (sub 1 f) | None => None end) as [l|].
  { injection E as <-. apply save_ok in H. exact H. }
  destruct (find ptn_warning line) as [f|].
  { injection E as <-. apply save_ok in H. destruct H as [T I]. split; [|exact Logic.I]. cbn. apply tables_update; [exact T|].
    intros d D. exact D. }
  destruct (matches ptn_log_line line).
  { destruct (p_inst s) as [i|] eqn:Ei; [|discriminate]. injection E as <-. destruct H as [T I]. rewrite Ei in I. split; [exact T|exact I]. }
  destruct (find ptn_extra line) as [f|].
  { destruct (p_inst s) as [i|] eqn:Ei; injection E as <-; [|exact H]. destruct H as [T I]. rewrite Ei in I. split; [exact T|exact I]. }
  destruct (find ptn_instance line) as [f|]; injection E as <-; [|exact H].
  apply save_ok in H. destruct H as [T I]. split; [exact T|reflexivity].
Qed.

Lemma loop_ok lines : forall m s s', state_ok s -> parse_loop v source lookup m lines s = Some s' -> state_ok s'.
Proof.
  induction lines as [|l lines IH]; intros m s s' H E; cbn [parse_loop] in E.
  - destruct m as [[[[first n] sums] links]|].
    + destruct (parse_rest v source first s) as [s1|] eqn:E1; [|discriminate]. injection E as <-. eapply save_ok, rest_ok; eassumption.
    + injection E as <-. apply save_ok, H.
  - destruct m as [[[[first n] sums] links]|].
    + destruct (find ptn_summary_line l); [eapply IH; eassumption|]. destruct (find ptn_summary_link l); [eapply IH; eassumption|].
      destruct (parse_rest v source l _) as [s1|] eqn:E1; [|discriminate]. apply rest_ok in E1; [|apply end_ok, H]. eapply IH; eassumption.
    + destruct (prepare l) as [|c t] eqn:Ep; [eapply IH; eassumption|]. rewrite <- Ep in E.
      destruct (find ptn_warnings_for (prepare l)); [eapply IH; [|eassumption]; apply name_ok', H|].
      destruct (matches ptn_by_warning (prepare l)); [injection E as <-; apply save_ok, H|].
      destruct (find ptn_summary_start (prepare l)); [eapply IH; eassumption|].
      destruct (parse_rest v source (prepare l) s) as [s1|] eqn:E1; [|discriminate]. apply rest_ok in E1; [|exact H]. eapply IH; eassumption.
Qed.

Lemma parse_ok text w w' e : tables_ok (by_handler w) -> parse_warning_data v source lookup text w = Some (w', e) -> tables_ok (by_handler w').
Proof.
  intros H E. unfold parse_warning_data in E. destruct (scan text) as [lines err].
  destruct (parse_loop v source lookup None lines (start w)) as [s'|] eqn:L; [|discriminate].
  injection E as <- _. eapply loop_ok in L; [apply L|]. split; [exact H|exact Logic.I].
Qed.
End Inv.

Lemma setup_ok v pf t1 t2 b w e : setup v pf t1 t2 new_bench no_data (Some (b, w, e)) -> tables_ok v (by_handler w).
Proof.
  assert (N : tables_ok v (by_handler no_data)) by (split; constructor).
  unfold setup. destruct (parse_bench v pf t1 new_bench) as [b1 []]; [intros U; injection U as _ -> _; exact N|].
  intros (lookup & b2 & _ & U).
  destruct (parse_warning_data v (B "Bench") lookup _ no_data) as [[w1 []]|] eqn:E1; [| |discriminate].
  - injection U as _ -> _. eapply parse_ok; eassumption.
  - apply (parse_ok v _ _ _ _ _ _ N) in E1.
    destruct (parse_warning_data v (B "Verify") lookup t2 w1) as [[w2 e2]|] eqn:E2; [|discriminate].
    injection U as _ -> _. eapply parse_ok; eassumption.
Qed.

(** ** Lines *)

Lemma unlines_app a b : unlines (a ++ b) = unlines a ++ unlines b.
Proof. unfold unlines. rewrite map_app, concat_app. reflexivity. Qed.
Lemma unlines_cons a b : unlines (a :: b) = a ++ newline :: unlines b.
Proof. unfold unlines. cbn [map concat]. rewrite <- app_assoc. reflexivity. Qed.
Lemma unlines_concat ls : unlines (concat ls) = concat (map unlines ls).
Proof. induction ls as [|l ls IH]; [reflexivity|]. cbn [concat map]. rewrite unlines_app, IH. reflexivity. Qed.

Definition occ (d : dinst) : occurrence :=
  {| oc_source := di_source d; oc_test := di_tag d; oc_text := di_extra d; oc_record := di_line d |}.

Lemma trim_left_nil c s : trim_left c s = [] <-> forallb (Ascii.eqb c) s = true.
Proof.
  induction s as [|x s IH]; cbn; [tauto|]. rewrite (Ascii.eqb_sym c x). destruct (Ascii.eqb x c); cbn [andb]; [exact IH|].
  split; discriminate.
Qed.
Lemma has_source_is d : has_source d = negb (forallb (Ascii.eqb space) (di_source d)).
Proof.
  unfold has_source, trim, trim_right. destruct (forallb (Ascii.eqb space) (di_source d)) eqn:E.
  - apply trim_left_nil in E. rewrite E. reflexivity.
  - destruct (rev (trim_left space (rev (trim_left space (di_source d))))) eqn:R; [|reflexivity]. exfalso.
    assert (Z : trim_left space (rev (trim_left space (di_source d))) = []) by (rewrite <- (rev_involutive (trim_left _ _)), R; reflexivity).
    apply trim_left_nil in Z. assert (K : forallb (Ascii.eqb space) (trim_left space (di_source d)) = true).
    { rewrite forallb_forall in *. intros x I. apply Z, in_rev. rewrite rev_involutive. exact I. }
    apply trim_left_nil in K. revert E K. clear. induction (di_source d) as [|x s IH]; cbn; [discriminate|].
    rewrite (Ascii.eqb_sym space x). destruct (Ascii.eqb x space) eqn:Ex; cbn [andb]; [exact IH|]. intros _ K.
    cbn in K. rewrite Ex in K. discriminate.
Qed.

(** Replacing the newlines is printing the pieces one below the other. *)
Lemma replaced e x xs : split_on newline e = x :: xs ->
  concat (map (fun c => if is_newline c then next_line else [c]) e) = x ++ concat (map (fun y => next_line ++ y) xs) /\
  (existsb is_newline e = match xs with [] => false | _ => true end).
Proof.
  revert x xs. induction e as [|c e IH]; intros x xs E; cbn [split_on] in E.
  - injection E as <- <-. split; reflexivity.
  - cbn [map concat existsb]. unfold is_newline at 1 3. destruct (Ascii.eqb c newline) eqn:Ec.
    + injection E as <- <-. pose proof (split_on_not_nil newline e) as N. destruct (split_on newline e) as [|y ys]; [congruence|].
      destruct (IH y ys eq_refl) as [-> _]. cbn [map concat orb app]. split; [rewrite <- app_assoc; reflexivity|reflexivity].
    + pose proof (split_on_not_nil newline e) as N. destruct (split_on newline e) as [|y ys]; [congruence|].
      injection E as <- <-. destruct (IH y ys eq_refl) as [-> ->]. split; reflexivity.
Qed.

Lemma below xs : concat (map (fun y => next_line ++ y) xs) ++ [newline] = newline :: unlines (map (fun x => B "           " ++ x) xs).
Proof.
  induction xs as [|x xs IH]; [reflexivity|]. cbn [map concat]. rewrite unlines_cons, <- app_assoc, IH.
  unfold next_line. rewrite <- app_comm_cons, <- app_assoc. reflexivity.
Qed.

Lemma instance_lines d : instance_text d = unlines (occurrence_lines (occ d)).
Proof.
  unfold instance_text, occurrence_lines. cbn [occ oc_source oc_test oc_text oc_record]. rewrite has_source_is, unlines_app.
  set (src := if forallb (Ascii.eqb space) (di_source d) then [] else di_source d ++ B ":").
  assert (ES : (if negb (forallb (Ascii.eqb space) (di_source d)) then di_source d ++ B ":" else []) = src)
    by (unfold src; destruct (forallb _ _); reflexivity).
  rewrite ES.
  assert (ER : match di_line d with [] => [] | l => B "           " ++ l ++ [newline] end =
               unlines match di_line d with [] => [] | r => [B "           " ++ r] end).
  { destruct (di_line d); [reflexivity|]. unfold unlines. cbn [map concat]. rewrite app_nil_r, <- app_assoc. reflexivity. }
  rewrite ER. clearbody src. clear ER ES. set (nine := B "         "). clearbody nine.
  assert (K : forall a b c : bytes, a = b -> a ++ c = b ++ c) by (intros; congruence).
  rewrite !app_assoc. apply K. rewrite <- !app_assoc. unfold extra_text.
  pose proof (split_on_not_nil newline (di_extra d)) as N. destruct (split_on newline (di_extra d)) as [|x xs] eqn:E; [congruence|].
  destruct (replaced _ _ _ E) as [R1 R2]. rewrite R1, R2.
  destruct (di_extra d) as [|c e] eqn:Ee.
  - injection E as <- <-. unfold unlines. cbn [map concat]. rewrite app_nil_r, <- !app_assoc. reflexivity.
  - rewrite <- Ee in *. destruct xs as [|y xs].
    + cbn [map concat] in R1. rewrite app_nil_r in R1.
      assert (Dx : x = di_extra d).
      { rewrite <- (split_join newline (di_extra d)), E. reflexivity. }
      rewrite <- Dx in Ee |- *. rewrite Ee. unfold unlines. cbn [map concat]. rewrite app_nil_r, <- !app_assoc. reflexivity.
    + destruct x as [|x0 x']; rewrite unlines_cons, <- (below _), <- !app_assoc; cbn [map concat]; rewrite <- ?app_assoc; reflexivity.
Qed.

(** ** The listing of warnings *)

Lemma sorted_strict {A} (key : A -> bytes) l : NoDup (map key l) -> StronglySorted (fun a b => blt (key b) (key a) = false) l ->
  StronglySorted (fun a b => blt (key a) (key b) = true) l.
Proof.
  intros N S. induction S as [|a l S IH F]; [constructor|]. cbn [map] in N. inversion N; subst. constructor; [apply IH; assumption|].
  rewrite Forall_forall in *. intros b I. destruct (blt (key a) (key b)) eqn:E; [reflexivity|]. exfalso.
  apply H1. rewrite (blt_antisym _ _ E (F b I)). apply in_map, I.
Qed.

Lemma Forall2_mono {A B} (R R' : A -> B -> Prop) l l' : (forall a b, R a b -> R' a b) -> Forall2 R l l' -> Forall2 R' l l'.
Proof. intros H F. induction F; constructor; auto. Qed.

Lemma sorted_map {A B} (f : A -> B) (R : B -> B -> Prop) (R' : A -> A -> Prop) l : (forall a b, In a l -> In b l -> R' a b -> R (f a) (f b)) ->
  StronglySorted R' l -> StronglySorted R (map f l).
Proof.
  intros H S. induction S as [|a l S IH F]; [constructor|]. cbn [map]. constructor.
  - apply IH. intros x y Ix Iy. apply H; right; assumption.
  - apply Forall_map. rewrite Forall_forall in *. intros b I. apply H; [left; reflexivity|right; exact I|apply F, I].
Qed.

Lemma tget_in k d t : NoDup (map fst t) -> (tget k t = Some d <-> In (k, d) t).
Proof.
  intros N. induction t as [|[a y] t IH]; cbn [tget In]; [split; [discriminate|intros []]|]. cbn [map] in N. inversion N; subst.
  destruct (same_key a k) eqn:E.
  - apply same_key_eq in E. subst a. split; [intros K; injection K as ->; left; reflexivity|].
    intros [K|K]; [congruence|]. exfalso. apply H1. cbn [fst]. change k with (fst (k, d)). apply in_map, K.
  - rewrite (IH H2). split; [right; assumption|]. intros [K|K]; [|exact K]. injection K as -> ->.
    assert (X : same_key k k = true) by (apply same_key_eq; reflexivity). congruence.
Qed.

Section Listing.
Variable v : world.

Lemma warning_printed e out : Forall (named v) (d_insts (snd e)) -> print_warning e out ->
  exists os, Permutation (map occ (d_insts (snd e))) os /\ by_name (fun o => test_name v (oc_test o)) os /\
    out = unlines (warning_lines (snd (fst e)) (d_summary (snd e)) os).
Proof.
  intros F (is & (P & S) & ->). exists (map occ is). split; [apply Permutation_map, P|]. split.
  - unfold by_name. eapply sorted_map; [|exact S]. intros a b Ia Ib. unfold on. cbn [occ oc_test].
    rewrite Forall_forall in F. pose proof (F a (Permutation_in _ (Permutation_sym P) Ia)) as Na.
    pose proof (F b (Permutation_in _ (Permutation_sym P) Ib)) as Nb. unfold named in Na, Nb. rewrite Na, Nb. tauto.
  - unfold warning_lines. rewrite unlines_cons, map_length, unlines_concat, !map_map. unfold pad4. rewrite <- !app_assoc.
    cbn [app]. do 9 f_equal. apply map_ext. intros d. apply instance_lines.
Qed.

Definition tells (t : table) (level : N) (n : bytes) : option (bytes * list occurrence) :=
  match tget (level, n) t with None => None | Some d => Some (d_summary d, map occ (d_insts d)) end.

Definition listed_as (e : (N * bytes) * dwarn) (w : bytes * (bytes * list occurrence)) : Prop :=
  fst w = snd (fst e) /\ fst (snd w) = d_summary (snd e) /\ Permutation (map occ (d_insts (snd e))) (snd (snd w)) /\
  by_name (fun o => test_name v (oc_test o)) (snd (snd w)).

Lemma warnings_printed l ts : Forall (fun e => Forall (named v) (d_insts (snd e))) l -> Forall2 print_warning l ts ->
  exists ws, Forall2 listed_as l ws /\
    concat ts = unlines (concat (map (fun w => warning_lines (fst w) (fst (snd w)) (snd (snd w))) ws)).
Proof.
  intros F H. induction H as [|e out l ts H _ IH]; [exists []; split; [constructor|reflexivity]|].
  inversion F; subst. destruct (IH H3) as (ws & W & E). destruct (warning_printed e out H2 H) as (os & P & S & ->).
  exists ((snd (fst e), (d_summary (snd e), os)) :: ws). split; [constructor; [repeat split; assumption|exact W]|].
  cbn [concat map fst snd]. rewrite unlines_app, E. reflexivity.
Qed.

Lemma Forall2_in {A B} (R : A -> B -> Prop) l l' y : Forall2 R l l' -> In y l' -> exists x, In x l /\ R x y.
Proof. intros F. induction F as [|a b l l' H F IH]; [intros []|]. intros [->|I]; [exists a; split; [left; reflexivity|exact H]|].
  destruct (IH I) as (x & X1 & X2). exists x. split; [right; exact X1|exact X2]. Qed.

Lemma listed_names l ws : Forall2 listed_as l ws -> map fst ws = map (fun e => snd (fst e)) l.
Proof. intros F. induction F as [|e w l ws H F IH]; [reflexivity|]. cbn [map]. destruct H as [-> _]. rewrite IH. reflexivity. Qed.

Lemma level_printed t level out : table_ok v t -> print_level t level out ->
  exists lines, lists_level (test_name v) (tells t level) level lines /\ out = unlines lines.
Proof.
  intros [N F] H. unfold print_level in H.
  assert (ND : NoDup (map (fun e => snd (fst e)) (filter (fun e => N.eqb (fst (fst e)) level) t))).
  { clear H F. induction t as [|[[l n] d] t IH]; [constructor|]. cbn [map] in N. inversion N; subst. cbn [filter fst].
    destruct (N.eqb_spec l level) as [->|]; [|apply IH; assumption]. cbn [map fst snd]. constructor; [|apply IH; assumption].
    intros I. apply in_map_iff in I. destruct I as ([[l' n'] d'] & E & I). cbn in E. subst n'. apply filter_In in I. destruct I as [I J].
    cbn in J. apply N.eqb_eq in J. subst l'. apply H1. change (level, n) with (fst ((level, n), d')). apply in_map, I. }
  assert (IN : forall n d, In ((level, n), d) (filter (fun e => N.eqb (fst (fst e)) level) t) <-> tget (level, n) t = Some d).
  { intros n d. rewrite filter_In, (tget_in _ _ _ N). cbn. rewrite N.eqb_refl. tauto. }
  assert (FF : Forall (fun e => Forall (named v) (d_insts (snd e))) (filter (fun e => N.eqb (fst (fst e)) level) t)).
  { rewrite Forall_forall in *. intros e I. apply filter_In in I. apply F, I. }
  assert (LV : forall e, In e (filter (fun e => N.eqb (fst (fst e)) level) t) -> fst (fst e) = level).
  { intros e I. apply filter_In in I. apply N.eqb_eq, I. }
  destruct (filter (fun e => N.eqb (fst (fst e)) level) t) as [|w0 ws0] eqn:E0.
  - subst out. exists []. split; [|reflexivity]. exists []. split; [|split; [constructor|split; [intros n s os []|reflexivity]]].
    intros n. cbn. split; [intros []|]. intros H. apply H. unfold tells. destruct (tget (level, n) t) as [d|] eqn:E; [|reflexivity].
    apply IN in E. destruct E.
  - rewrite <- E0 in *. set (l := filter (fun e => N.eqb (fst (fst e)) level) t) in *.
    destruct H as (ws' & body & (P & S) & (ts & F2 & ->) & ->).
    assert (FW : Forall (fun e => Forall (named v) (d_insts (snd e))) ws') by (rewrite <- P; exact FF).
    destruct (warnings_printed ws' ts FW F2) as (ws & W & E). pose proof (listed_names _ _ W) as NM.
    exists ((B "  " ++ level_string level) :: concat (map (fun w => warning_lines (fst w) (fst (snd w)) (snd (snd w))) ws)). split.
    + exists ws. split; [|split; [|split]].
      * intros n. rewrite NM. split.
        -- intros I. apply in_map_iff in I. destruct I as ([[l1 n1] d] & En & I). cbn in En. subst n1.
           apply (Permutation_in _ (Permutation_sym P)) in I. pose proof (LV _ I) as L. cbn in L. subst l1.
           apply IN in I. unfold tells. rewrite I. discriminate.
        -- intros H. unfold tells in H. destruct (tget (level, n) t) as [d|] eqn:Et; [|congruence]. apply IN in Et.
           apply (Permutation_in _ P) in Et. change n with (snd (fst ((level, n), d))). apply (in_map (fun e => snd (fst e)) _ _ Et).
      * assert (ND' : NoDup (map (fun e : BinNums.N * bytes * dwarn => snd (fst e)) ws')) by (apply (Permutation_NoDup (Permutation_map _ P) ND)).
        pose proof (sorted_strict _ _ ND' S) as SS. clear - SS W. revert SS. induction W as [|e w l ws [H _] W IH]; intros SS; [constructor|].
        inversion SS; subst. constructor; [apply IH; assumption|]. apply Forall_forall. intros y Iy.
        destruct (Forall2_in _ _ _ _ W Iy) as (x & Ix & [Hx _]). rewrite H, Hx. rewrite Forall_forall in H3. apply H3, Ix.
      * intros n s os I. destruct (Forall2_in _ _ _ _ W I) as ([[l1 n1] d] & Ix & L1 & L2 & L3 & L4). cbn [fst snd] in *. subst n1 s.
        apply (Permutation_in _ (Permutation_sym P)) in Ix. pose proof (LV _ Ix) as L. cbn in L. subst l1. apply IN in Ix.
        exists (map occ (d_insts d)). unfold tells. rewrite Ix. split; [reflexivity|split; assumption].
      * destruct ws as [|x xs]; [|reflexivity]. inversion W; subst. apply Permutation_sym, Permutation_nil in P. congruence.
    + rewrite unlines_cons, <- E, <- app_assoc. reflexivity.
Qed.

(** What is kept of a handler. *)
Definition content (w : wdata) (h : bytes) (level : N) (n : bytes) : option (bytes * list occurrence) :=
  match get h (by_handler w) with None => None | Some t => tells t level n end.

Lemma handler_printed w h out : tables_ok v (by_handler w) -> print_handler w h out ->
  exists lines, lists_handler (test_name v) (w_handler_name w h) (content w h) lines /\ out = unlines lines.
Proof.
  intros T (body & (ts & F & ->) & ->).
  assert (TO : table_ok v (table_of h (by_handler w))) by (apply tables_of, T).
  assert (CT : forall level, content w h level = tells (table_of h (by_handler w)) level).
  { intros level. unfold content, table_of. destruct (get h (by_handler w)); reflexivity. }
  assert (K : exists parts, Forall2 (fun level part => lists_level (test_name v) (content w h level) level part) level_order parts /\
                            concat ts = unlines (concat parts)).
  { revert F. generalize level_order. intros ls F. induction F as [|level t ls ts H _ IH]; [exists []; split; [constructor|reflexivity]|].
    destruct IH as (parts & P & E). destruct (level_printed _ _ _ TO H) as (lines & L & ->).
    exists (lines :: parts). split; [constructor; [rewrite CT; exact L|exact P]|]. cbn [concat]. rewrite unlines_app, E. reflexivity. }
  destruct K as (parts & P & E). exists ([] :: (B "Warnings for " ++ w_handler_name w h ++ B ":") :: concat parts).
  split; [exists parts; split; [exact P|reflexivity]|]. rewrite !unlines_cons, E. cbn [app]. rewrite <- !app_assoc. reflexivity.
Qed.

(** The whole listing. *)
Lemma warnings_listed w out : tables_ok v (by_handler w) -> print_warnings {| wt_data := w; wt_tests := []; wt_handlers := [] |} out ->
  exists tags sections,
    NoDup tags /\ (forall h, In h tags <-> get h (by_handler w) <> None) /\ by_name (w_handler_name w) tags /\
    Forall2 (fun h lines => lists_handler (test_name v) (w_handler_name w h) (content w h) lines) tags sections /\
    out = unlines (concat sections).
Proof.
  intros T (tags & w' & [K _] & (ts & F & ->)). cbn in K, F. destruct K as (ks & P1 & P2 & S).
  assert (PP : Permutation (keys (by_handler w)) tags) by (eapply Permutation_trans; eassumption).
  assert (X : exists sections, Forall2 (fun h lines => lists_handler (test_name v) (w_handler_name w h) (content w h) lines) tags sections /\
              concat ts = unlines (concat sections)).
  { clear - T F. induction F as [|h t tags ts H _ IH]; [exists []; split; [constructor|reflexivity]|].
    destruct IH as (parts & P & E). destruct (handler_printed _ _ _ T H) as (lines & L & ->).
    exists (lines :: parts). split; [constructor; assumption|]. cbn [concat]. rewrite unlines_app, E. reflexivity. }
  destruct X as (sections & F2 & E). exists tags, sections. split; [apply (Permutation_NoDup PP), T|]. split; [|split; [exact S|split; [exact F2|exact E]]].
  intros h. split.
  - intros I. apply (Permutation_in _ (Permutation_sym PP)) in I. apply get_keys in I. destruct I as [t ->]. discriminate.
  - intros H. apply (Permutation_in _ PP), get_keys. destruct (get h (by_handler w)) as [t|]; [eauto|congruence].
Qed.
End Listing.

(** ** Reports *)

Lemma content_in w h level n : content w h level n =
  match summary_in (by_handler w) h level n with
  | None => None
  | Some s => Some (s, map occ (instances_in (by_handler w) h level n))
  end.
Proof.
  unfold content, summary_in, instances_in, tells. destruct (get h (by_handler w)) as [t|]; [|reflexivity].
  destruct (tget (level, n) t); reflexivity.
Qed.

Lemma kept_occ v source is ds : Forall2 (kept_as v source) is ds -> map occ ds = map (occurrence_of source) is.
Proof.
  intros F. induction F as [|i d is ds (K1 & K2 & K3 & K4 & K5 & K6) F IH]; [reflexivity|]. cbn [map]. rewrite IH. f_equal.
  unfold occ, occurrence_of. congruence.
Qed.

Lemma told_find l level n : NoDup (map r_name l) ->
  told l level n = match List.find (fun r => N.eqb (r_level r) level && beq (r_name r) n) l with Some r => r_data r | None => [] end.
Proof.
  unfold told. induction l as [|r l IH]; intros N; [reflexivity|]. cbn [map] in N. inversion N; subst. cbn [filter List.find].
  destruct (N.eqb (r_level r) level && beq (r_name r) n) eqn:E; [|apply IH; assumption]. cbn [map concat].
  replace (filter _ l) with (@nil instances); [apply app_nil_r|]. symmetry. apply andb_true_iff in E. destruct E as [_ E].
  apply beq_eq in E. clear - E H1. induction l as [|x l IH]; [reflexivity|]. cbn [filter].
  destruct (N.eqb (r_level x) level && beq (r_name x) n) eqn:E2.
  - exfalso. apply andb_true_iff in E2. destruct E2 as [_ E2]. apply beq_eq in E2. apply H1. left. congruence.
  - apply IH. intros I. apply H1. right. exact I.
Qed.

Lemma find_some_in l level n (r : instances) : List.find (fun r => N.eqb (r_level r) level && beq (r_name r) n) l = Some r ->
  In r l /\ r_level r = level /\ r_name r = n.
Proof.
  intros E. apply find_some in E. destruct E as [I E]. apply andb_true_iff in E. destruct E as [E1 E2].
  apply N.eqb_eq in E1. apply beq_eq in E2. auto.
Qed.

Lemma reads_content v source h l w w' x level n : NoDup (map r_name l) -> reads_report v source h l w w' ->
  content w' x level n = if beq h x then report_tells source l level n (content w x level n) else content w x level n.
Proof.
  intros ND R. destruct (beq h x) eqn:E.
  - apply beq_eq in E. subst x. destruct l as [|r0 l0] eqn:El; cbn [reads_report] in R.
    + rewrite content_in. destruct R as [F _ _ _]. destruct (F level n) as [_ ->]. reflexivity.
    + rewrite <- El in *. assert (RT : report_tells source l level n (content w h level n) =
        match List.find (fun r => N.eqb (r_level r) level && beq (r_name r) n) l with
        | None => content w h level n
        | Some r => Some (r_summary r, match content w h level n with Some (_, os) => os | None => [] end ++ map (occurrence_of source) (r_data r))
        end) by (rewrite El; reflexivity).
      rewrite RT. destruct R as [LH LS LO _ _ _]. destruct (LH level n) as (new & I & K). apply kept_occ in K.
      rewrite (told_find l level n ND) in K. rewrite !content_in.
      destruct (List.find _ l) as [r|] eqn:F.
      * destruct (find_some_in _ _ _ _ F) as (Hr & <- & <-). rewrite (LS r Hr), I, map_app, K. f_equal. f_equal. f_equal.
        unfold summary_in, instances_in. destruct (get h (by_handler w)) as [t|]; [|reflexivity]. destruct (tget _ t); reflexivity.
      * rewrite LO.
        -- destruct new; [|discriminate]. rewrite app_nil_r in I. rewrite I. reflexivity.
        -- intros r Hr E1 E2. pose proof (find_none _ _ F r Hr) as Z. cbv beta in Z. rewrite E1, E2, N.eqb_refl, beq_refl in Z. discriminate.
  - assert (Nx : x <> h) by (intros ->; rewrite beq_refl in E; discriminate).
    unfold content. assert (G : get x (by_handler w') = get x (by_handler w)); [|rewrite G; reflexivity].
    destruct l; cbn [reads_report] in R; [apply (forgets_others _ _ _ R), Nx|apply (learns_others _ _ _ _ _ _ R), Nx].
Qed.

Lemma reads_keys v source lookup name l w x : NoDup (map r_name l) -> Forall (good_warning (v_casing v)) l ->
  get x (by_handler (report_effect v source lookup name l w)) <> None <-> tag_of lookup name = x \/ get x (by_handler w) <> None.
Proof.
  intros ND G. pose proof (report_effect_reads v source lookup name l w ND G) as R.
  destruct (beq (tag_of lookup name) x) eqn:E.
  - apply beq_eq in E. split; [intros _; left; exact E|intros _]. subst x. destruct l as [|r l]; cbn [reads_report] in R.
    + unfold report_effect, wipe. cbn [by_handler set_by_handler]. rewrite get_put_same. discriminate.
    + pose proof (learns_summary _ _ _ _ _ _ R r (or_introl eq_refl)) as S. unfold summary_in in S. intros K. rewrite K in S. discriminate.
  - assert (Nx : x <> tag_of lookup name) by (intros ->; rewrite beq_refl in E; discriminate).
    assert (GE : get x (by_handler (report_effect v source lookup name l w)) = get x (by_handler w)).
    { destruct l; cbn [reads_report] in R; [apply (forgets_others _ _ _ R), Nx|apply (learns_others _ _ _ _ _ _ R), Nx]. }
    rewrite GE. split; [auto|]. intros [K|K]; [congruence|exact K].
Qed.

Lemma absorb_names v source h l : forall w, handler_data (fold_left (absorb v source h) l w) = handler_data w.
Proof.
  induction l as [|r l IH]; intros w; [reflexivity|]. cbn [fold_left]. rewrite IH. unfold absorb.
  assert (F : forall is w, handler_data (fold_left (fun w i => file v source h (r_level r) (new_cur h (r_level r) (r_name r) (r_summary r)) i w) is w) = handler_data w).
  { induction is as [|i is IHi]; intros w1; [reflexivity|]. cbn [fold_left]. rewrite IHi. reflexivity. }
  rewrite F. reflexivity.
Qed.

Lemma effect_name v source lookup name l w x : w_handler_name (report_effect v source lookup name l w) x =
  if beq (tag_of lookup name) x
  then match get name lookup with Some _ => name | None => join_space (map (default_part v) (split_on (chr 47) name)) end
  else w_handler_name w x.
Proof.
  assert (H : handler_data (report_effect v source lookup name l w) = handler_data (name_effect v lookup name w)).
  { unfold report_effect. destruct l; [reflexivity|apply absorb_names]. }
  unfold w_handler_name. rewrite H. unfold name_effect, tag_of. destruct (get name lookup) as [t|] eqn:E; cbn; unfold change_hdata;
    rewrite get_put; match goal with |- context [beq ?a x] => destruct (beq a x) end; reflexivity.
Qed.

Definition effects v lookup (reports : list sourced) (w : wdata) : wdata :=
  fold_left (fun w x => report_effect v (fst x) lookup (fst (snd x)) (snd (snd x)) w) reports w.

Lemma effects_content v lookup reports : Forall (fun x => readable_report v lookup (snd x)) reports -> forall w h level n,
  content (effects v lookup reports w) h level n =
  fold_left (fun before x => if beq (tag_of lookup (fst (snd x))) h
                             then report_tells (fst x) (snd (snd x)) level n before else before) reports (content w h level n).
Proof.
  intros F. induction F as [|[source [name l]] reports (G1 & G2 & G3 & G4) F IH]; intros w h level n; [reflexivity|].
  unfold effects in *. cbn [fold_left fst snd] in *. rewrite IH. f_equal.
  apply (reads_content v); [exact G3|]. apply report_effect_reads; assumption.
Qed.

Lemma effects_keys v lookup reports : Forall (fun x => readable_report v lookup (snd x)) reports -> forall w h,
  get h (by_handler (effects v lookup reports w)) <> None <->
  (exists x, In x reports /\ tag_of lookup (fst (snd x)) = h) \/ get h (by_handler w) <> None.
Proof.
  intros F. induction F as [|[source [name l]] reports (G1 & G2 & G3 & G4) F IH]; intros w h.
  - cbn. split; [auto|]. intros [(x & [] & _)|K]. exact K.
  - unfold effects in *. cbn [fold_left fst snd] in *. rewrite IH, reads_keys by assumption. split.
    + intros [(x & I & E)|[E|K]]; [left; exists x; split; [right; exact I|exact E]| |right; exact K].
      left. exists (source, (name, l)). split; [left; reflexivity|exact E].
    + intros [(x & [<-|I] & E)|K]; [right; left; exact E|left; eauto|auto].
Qed.

Lemma effects_heading v lookup reports : forall w h, w_handler_name (effects v lookup reports w) h =
  fold_left (fun before x =>
               let name := fst (snd x) in
               if beq (tag_of lookup name) h
               then match get name lookup with
                    | Some _ => name
                    | None => join_space (map (default_part v) (split_on (chr 47) name))
                    end
               else before) reports (w_handler_name w h).
Proof.
  induction reports as [|[source [name l]] reports IH]; intros w h; [reflexivity|].
  unfold effects in *. cbn [fold_left fst snd]. rewrite IH. f_equal. apply effect_name.
Qed.

(** ** Tables *)


Section Tables.
Variable v : world.
Variable pf : bytes -> option Q.

Definition after (ls : list text_line) (b : bench) : bench := fold_left (fun b l => effect v pf l b) ls b.

Lemma after_record ls test handler : forall b,
  match last_run ls test handler with
  | Some r => exists x, record_at (b_by_test (after ls b)) (bench_tag test) handler = Some x /\ says pf r x
  | None => record_at (b_by_test (after ls b)) (bench_tag test) handler = record_at (b_by_test b) (bench_tag test) handler
  end.
Proof.
  unfold after. induction ls as [|l ls IH]; intros b; [reflexivity|]. cbn [fold_left last_run]. specialize (IH (effect v pf l b)).
  destruct (last_run ls test handler) as [r|]; [exact IH|].
  destruct l as [g r|t n|s|s]; try exact IH. cbn [effect store b_by_test line_says dl_test dl_handler] in IH.
  rewrite record_put2, same_tag in IH. destruct (beq (rs_test r) test && beq (rs_handler r) handler); [|exact IH].
  eexists. split; [exact IH|]. split; reflexivity.
Qed.

Lemma after_tests ls k : forall b, In k (keys (b_by_test (after ls b))) <->
  In k (keys (b_by_test b)) \/ exists g r, In (Run g r) ls /\ k = bench_tag (rs_test r).
Proof.
  unfold after. induction ls as [|l ls IH]; intros b.
  - cbn. split; [auto|]. intros [H|(g & r & [] & _)]. exact H.
  - cbn [fold_left]. rewrite IH. destruct l as [g r|t n|s|s]; cbn [effect store b_by_test define_handler add_warning line_says dl_test].
    + unfold put2. rewrite keys_put. split.
      * intros [[->|H]|(g' & r' & I & E)]; [right; exists g, r; split; [left; reflexivity|reflexivity]|auto|].
        right. exists g', r'. split; [right; exact I|exact E].
      * intros [H|(g' & r' & [I|I] & E)]; [auto| |right; eauto]. injection I as -> ->. auto.
    + split; intros [H|(g' & r' & I & E)]; auto; right; exists g', r'; (split; [|exact E]); [right; exact I|destruct I; [discriminate|assumption]].
    + split; intros [H|(g' & r' & I & E)]; auto; right; exists g', r'; (split; [|exact E]); [right; exact I|destruct I; [discriminate|assumption]].
    + split; intros [H|(g' & r' & I & E)]; auto; right; exists g', r'; (split; [|exact E]); [right; exact I|destruct I; [discriminate|assumption]].
Qed.

Lemma after_handlers ls k : forall b, In k (keys (b_by_handler (after ls b))) <->
  In k (keys (b_by_handler b)) \/ exists g r, In (Run g r) ls /\ k = rs_handler r.
Proof.
  unfold after. induction ls as [|l ls IH]; intros b.
  - cbn. split; [auto|]. intros [H|(g & r & [] & _)]. exact H.
  - cbn [fold_left]. rewrite IH. destruct l as [g r|t n|s|s]; cbn [effect store b_by_handler define_handler add_warning line_says dl_handler].
    + unfold put2. rewrite keys_put. split.
      * intros [[->|H]|(g' & r' & I & E)]; [right; exists g, r; split; [left; reflexivity|reflexivity]|auto|].
        right. exists g', r'. split; [right; exact I|exact E].
      * intros [H|(g' & r' & [I|I] & E)]; [auto| |right; eauto]. injection I as -> ->. auto.
    + split; intros [H|(g' & r' & I & E)]; auto; right; exists g', r'; (split; [|exact E]); [right; exact I|destruct I; [discriminate|assumption]].
    + split; intros [H|(g' & r' & I & E)]; auto; right; exists g', r'; (split; [|exact E]); [right; exact I|destruct I; [discriminate|assumption]].
    + split; intros [H|(g' & r' & I & E)]; auto; right; exists g', r'; (split; [|exact E]); [right; exact I|destruct I; [discriminate|assumption]].
Qed.

Lemma after_wf ls : forall b, wf (b_by_test b) /\ wf (b_by_handler b) /\ b_tests b = [] /\ b_handlers b = [] ->
  let b' := after ls b in wf (b_by_test b') /\ wf (b_by_handler b') /\ b_tests b' = [] /\ b_handlers b' = [].
Proof.
  unfold after. induction ls as [|l ls IH]; intros b H; [exact H|]. cbn [fold_left]. apply IH. destruct H as (H1 & H2 & H3 & H4).
  destruct l; cbn; repeat split; try assumption; apply wf_put; assumption.
Qed.
End Tables.

Lemma sorted_exist {A} name (m : gomap A) : exists l, sorted_keys name m l.
Proof.
  exists (sort_by (on name blt) (keys m)). exists (keys m). split; [reflexivity|]. apply sort_by_ok, on_weak, blt_weak.
Qed.

(** All tables have the handlers in the same order. *)
Lemma tables_printed st tests : forall b out, print_tables st tests b out ->
  exists handlers, cached_keys (b_handler_name b) (b_by_handler b) (b_handlers b) handlers /\
    out = concat (map (fun t => bench_table st b t handlers) tests).
Proof.
  induction tests as [|t tests IH]; intros b out H; cbn [print_tables] in H.
  - subst out. unfold cached_keys. destruct (b_handlers b) as [|x l]; [|eexists; split; [reflexivity|reflexivity]].
    destruct (sorted_exist (b_handler_name b) (b_by_handler b)) as [l L]. exists l. split; [exact L|reflexivity].
  - destruct H as (hs & b' & out' & (C & ->) & P & ->). exists hs. split; [exact C|].
    destruct (IH _ _ P) as (hs2 & C2 & ->). cbn [map concat]. f_equal.
    assert (E : hs2 = hs).
    { cbn [set_handlers b_handlers] in C2. unfold cached_keys in C, C2. destruct hs as [|h hs]; [|exact C2].
      destruct (b_handlers b) as [|x l]; [|discriminate]. destruct C as (ks & K1 & K2 & _). destruct C2 as (ks2 & K3 & K4 & _).
      apply Permutation_sym, Permutation_nil in K2. subst ks. apply Permutation_sym, Permutation_nil in K1.
      cbn [set_handlers b_by_handler] in K3. rewrite K1 in K3. apply Permutation_nil in K3. subst ks2. apply Permutation_nil, K4. }
    subst hs2. reflexivity.
Qed.

Lemma bench_printed st b out : b_tests b = [] -> b_handlers b = [] -> print_bench st b out ->
  exists tests handlers, sorted_keys (b_test_name b) (b_by_test b) tests /\ sorted_keys (b_handler_name b) (b_by_handler b) handlers /\
    out = concat (map (fun t => bench_table st b t handlers) tests).
Proof.
  intros E1 E2 (tests & b' & (C & ->) & P). unfold cached_keys in C. rewrite E1 in C. exists tests.
  destruct (tables_printed st tests _ _ P) as (hs & C2 & ->). cbn in C2. unfold cached_keys in C2. rewrite E2 in C2.
  exists hs. split; [exact C|]. split; [exact C2|]. reflexivity.
Qed.

(** ** C69 *)

(** For all texts, also those that are no output of the suites: if data.Setup
    succeeds, the warnings are listed under the tags that have any entry, by the
    names of the handlers; and under each of them, in the order of the levels,
    just the warnings that are kept for it with their summaries and instances. *)
Theorem C69_any v pf t1 t2 b w out :
  setup v pf t1 t2 new_bench no_data (Some (b, w, false)) ->
  print_warnings {| wt_data := w; wt_tests := []; wt_handlers := [] |} out ->
  exists tags sections,
    NoDup tags /\ (forall h, In h tags <-> get h (by_handler w) <> None) /\ by_name (w_handler_name w) tags /\
    Forall2 (fun h lines => lists_handler (test_name v) (w_handler_name w h) (content w h) lines) tags sections /\
    out = unlines (concat sections).
Proof. intros U. apply warnings_listed. apply (setup_ok _ _ _ _ _ _ _ U). Qed.
Print Assumptions C69_any.

(** The output for the text of a benchmark run whose comments are reports and of a
    verification run. *)
Theorem C69_tabular v pf st ls breps p vreps out :
  casing_ok (v_casing v) -> Forall (text_ok pf) ls -> short_lines (whole_text ls) ->
  concat (map (fun s => B "# " ++ s ++ [newline]) (comments ls)) = reports_text (B "# ") breps ->
  Forall (report_ok v) breps ->
  p = [] \/ p = B "# " -> Forall (report_ok v) vreps -> short_lines (reports_text p vreps) ->
  tabular v pf st (whole_text ls) (reports_text p vreps) out ->
  let known := name_known v None ls in
  let reports := map (pair (B "Bench")) breps ++ map (pair (B "Verify")) vreps in
  exists lookup tests handlers tags sections,
    (forall n, ((exists t, known t = Some n) -> exists t, get n lookup = Some t /\ known t = Some n) /\
               ((forall t, known t <> Some n) -> get n lookup = None)) /\
    (* the tables: the tests and handlers with results *)
    (NoDup tests /\ (forall t, In t tests <-> exists g r, In (Run g r) ls /\ rs_test r = t) /\
     by_name (fun t => test_name v (B "Bench." ++ t)) tests) /\
    (NoDup handlers /\ (forall h, In h handlers <-> exists g r, In (Run g r) ls /\ rs_handler r = h) /\
     by_name (fun h => match known h with Some n => n | None => h end) handlers) /\
    (* the warnings: the handlers with reports *)
    (NoDup tags /\ (forall h, In h tags <-> exists x, In x reports /\ tag_of lookup (fst (snd x)) = h) /\
     by_name (heading v lookup reports) tags) /\
    Forall2 (fun h lines => lists_handler (test_name v) (heading v lookup reports h) (reports_tell lookup reports h) lines)
      tags sections /\
    out = Some (concat (map (result_table v pf st ls handlers) tests) ++ unlines (concat sections ++ [[]])).
Proof.
  intros ok F S C RB P RV SV (res & U & T) known reports.
  destruct (setup_effects v pf ls breps p vreps res ok F S C RB P RV SV U) as (b & lookup & HL & E & NM & TG & R1 & R2).
  subst res. destruct T as (tables & warns & PB & PW & ->).
  match type of PW with print_warnings {| wt_data := ?w0; wt_tests := _; wt_handlers := _ |} _ => set (w := w0) in * end.
  assert (EW : w = effects v lookup reports no_data).
  { unfold w, effects, reports. rewrite fold_left_app.
    assert (K : forall src l w0, fold_left (fun w x => report_effect v src lookup (fst x) (snd x) w) l w0 =
                fold_left (fun w x => report_effect v (fst x) lookup (fst (snd x)) (snd (snd x)) w) (map (pair src) l) w0).
    { intros src l. induction l as [|y l IH]; intros w0; [reflexivity|]. cbn [fold_left map fst snd]. apply IH. }
    rewrite !K. reflexivity. }
  assert (RR : Forall (fun x => readable_report v lookup (snd x)) reports).
  { unfold reports. apply Forall_app. split; apply Forall_map; assumption. }
  fold (after v pf ls new_bench) in HL. set (b1 := after v pf ls new_bench) in *.
  destruct (after_wf v pf ls new_bench) as (W1 & W2 & W3 & W4); [repeat split; constructor|]. cbv zeta in W1, W2, W3, W4. fold b1 in W1, W2, W3, W4.
  assert (LK : b_lookup b1 = None) by (unfold b1, after; apply effects_lookup).
  assert (WN : wf (b_handler_names b1)) by (unfold b1, after; apply effects_wf; constructor).
  assert (EB : b = set_lookup lookup b1) by (unfold handler_lookup in HL; rewrite LK in HL; apply HL).
  destruct (warnings_listed v w warns (setup_ok _ _ _ _ _ _ _ U) PW) as (tags & sections & L1 & L2 & L3 & L4 & ->).
  destruct (bench_printed st b tables) as (tests0 & handlers & S1 & S2 & ->); [rewrite EB; exact W3|rewrite EB; exact W4|exact PB|].
  assert (HD : forall h, w_handler_name w h = heading v lookup reports h).
  { intros h. rewrite EW, effects_heading. reflexivity. }
  assert (CT : forall h level n, content w h level n = reports_tell lookup reports h level n).
  { intros h level n. rewrite EW, (effects_content v lookup reports RR). reflexivity. }
  assert (K0 : exists tests, tests0 = map bench_tag tests /\ (forall t, In t tests <-> exists g r, In (Run g r) ls /\ rs_test r = t)).
  { destruct S1 as (ks & P1 & P2 & _). rewrite EB in P1. change (b_by_test (set_lookup lookup b1)) with (b_by_test b1) in P1.
    assert (IN : forall k, In k tests0 <-> exists g r, In (Run g r) ls /\ k = bench_tag (rs_test r)).
    { intros k. rewrite <- P2, <- P1. unfold b1. rewrite after_tests. cbn. split; [intros [[]|H]; exact H|auto]. }
    assert (X : forall l, (forall k, In k l -> exists t, k = bench_tag t) -> exists l', l = map bench_tag l').
    { induction l as [|k l IH]; intros H; [exists []; reflexivity|]. destruct (H k (or_introl eq_refl)) as [t ->].
      destruct IH as [l' ->]; [intros k' I; apply H; right; exact I|]. exists (t :: l'). reflexivity. }
    destruct (X tests0) as [tests ->]; [intros k I; apply IN in I; destruct I as (g & r & _ & ->); eauto|].
    exists tests. split; [reflexivity|]. intros t. specialize (IN (bench_tag t)). split.
    - intros I. destruct (proj1 IN (in_map bench_tag _ _ I)) as (g & r & I2 & E2). exists g, r. split; [exact I2|].
      unfold bench_tag in E2. apply app_inv_head in E2. auto.
    - intros (g & r & I & <-). assert (I2 : In (bench_tag (rs_test r)) (map bench_tag tests)) by (apply IN; eauto).
      apply in_map_iff in I2. destruct I2 as (t & E2 & I2). unfold bench_tag in E2. apply app_inv_head in E2. subst t. exact I2. }
  destruct K0 as (tests & -> & IT).
  assert (TN : forall t, In t tests -> b_test_name b (bench_tag t) = test_name v (B "Bench." ++ t)).
  { intros t I. apply IT in I. destruct I as (g & r & I & <-). unfold b_test_name, name_or_tag. rewrite EB.
    change (b_test_names (set_lookup lookup b1)) with (b_test_names b1). unfold b1, after.
    change (bench_tag (rs_test r)) with (B "Bench." ++ rs_test r). rewrite effects_tests.
    assert (CK : cpus_known ls (rs_test r) <> None).
    { clear - I. induction ls as [|l ls IH]; [destruct I|]. cbn [cpus_known]. destruct (cpus_known ls (rs_test r)) eqn:E; [discriminate|].
      destruct I as [->|I]; [rewrite beq_refl; discriminate|]. exfalso. apply IH; [exact I|reflexivity]. }
    destruct (cpus_known ls (rs_test r)); [reflexivity|congruence]. }
  assert (HN : forall h, b_handler_name b h = match known h with Some n => n | None => h end).
  { intros h. unfold b_handler_name, name_or_tag. rewrite NM. reflexivity. }
  exists lookup, tests, handlers, tags, sections. split; [|split; [|split; [|split; [|split]]]].
  - intros n. unfold handler_lookup in HL. rewrite LK in HL. destruct HL as [(l & Pl & El) _].
    pose proof (invert_get l [] n) as [I1 I2]. fold (invert l) in I1, I2. rewrite <- El in I1, I2.
    assert (IN : forall t, In (t, n) l <-> known t = Some n).
    { intros t. rewrite <- NM, EB. change (b_handler_names (set_lookup lookup b1)) with (b_handler_names b1). rewrite (get_in t n _ WN).
      split; apply Permutation_in; [symmetry|]; exact Pl. }
    split.
    + intros (t & Ht). destruct I2 as (t' & K); [left; exists t; apply IN, Ht|]. exists t'. split; [exact K|].
      destruct (I1 t' K) as [I|I]; [apply IN, I|discriminate].
    + intros H. destruct (get n lookup) as [t|] eqn:G; [|reflexivity]. destruct (I1 t eq_refl) as [I|I]; [|discriminate].
      exfalso. apply (H t), IN, I.
  - destruct S1 as (ks & P1 & P2 & Sd). split; [|split; [exact IT|]].
    + rewrite EB in P1. change (b_by_test (set_lookup lookup b1)) with (b_by_test b1) in P1.
      eapply (NoDup_map_inv bench_tag). apply (Permutation_NoDup P2), (Permutation_NoDup P1), W1.
    + assert (X : forall l, (forall t, In t l -> In t tests) -> StronglySorted (fun a b0 => on (b_test_name b) blt b0 a = false) (map bench_tag l) ->
                   by_name (fun t => test_name v (B "Bench." ++ t)) l).
      { induction l as [|t l IH]; intros Hl HS; [constructor|]. cbn [map] in HS. inversion HS; subst. constructor.
        - apply IH; [intros y Iy; apply Hl; right; exact Iy|assumption].
        - apply Forall_forall. intros y Iy. rewrite Forall_forall in H2. specialize (H2 (bench_tag y) (in_map bench_tag _ _ Iy)).
          unfold on in H2. rewrite !TN in H2; [exact H2|apply Hl; left; reflexivity|apply Hl; right; exact Iy]. }
      apply X; [auto|exact Sd].
  - destruct S2 as (ks & P1 & P2 & Sd). rewrite EB in P1. change (b_by_handler (set_lookup lookup b1)) with (b_by_handler b1) in P1.
    split; [apply (Permutation_NoDup P2), (Permutation_NoDup P1), W2|]. split.
    + intros h. rewrite <- P2, <- P1. unfold b1. rewrite after_handlers. cbn. split.
      * intros [[]|(g & r & I & ->)]. eauto.
      * intros (g & r & I & <-). right. eauto.
    + unfold by_name. clear - Sd HN. induction Sd as [|a l Sd IH Fa]; constructor; [exact IH|].
      revert Fa. apply Forall_impl. intros y. unfold on. rewrite !HN. auto.
  - split; [exact L1|]. split.
    + intros h. rewrite L2, EW, (effects_keys v lookup reports RR). cbn. split; [intros [H|H]; [exact H|congruence]|auto].
    + unfold by_name in *. clear - L3 HD. induction L3 as [|a l Sd IH Fa]; constructor; [exact IH|].
      revert Fa. apply Forall_impl. intros y. rewrite !HD. auto.
  - revert L4. apply Forall2_mono. intros h lines (parts & FP & ->). exists parts. rewrite HD. split; [|reflexivity].
    revert FP. apply Forall2_mono. intros level part (ws & X1 & X2 & X3 & X4). exists ws.
    split; [intros n; rewrite X1, CT; reflexivity|]. split; [exact X2|]. split; [|exact X4].
    intros n s os I. rewrite <- CT. apply X3, I.
  - f_equal. rewrite unlines_app, map_map. f_equal. f_equal. apply map_ext_in. intros t It.
    unfold bench_table, result_table. rewrite (TN t It).
    match goal with |- context [unlines _ ++ concat (map ?row handlers) ++ _] =>
      assert (RW : forall h, table_row st b (handler_records_for b (bench_tag t)) h = row h) end.
    { intros h. unfold table_row, handler_records_for. pose proof (after_record v pf ls t h new_bench) as AR. fold b1 in AR.
      rewrite EB. change (b_by_test (set_lookup lookup b1)) with (b_by_test b1).
      assert (RA : get h (inner (bench_tag t) (b_by_test b1)) = record_at (b_by_test b1) (bench_tag t) h).
      { unfold inner, record_at. destruct (get (bench_tag t) (b_by_test b1)); reflexivity. }
      rewrite RA. destruct (last_run ls t h) as [r|].
      + destruct AR as (x & -> & [Y1 Y2 Y3 Y4 Y5]). unfold is_empty. rewrite Y1, Y2, Y3, Y4, Y5, <- EB, HN. reflexivity.
      + rewrite AR. reflexivity. }
    rewrite (map_ext _ _ RW). rewrite !unlines_cons. change (unlines []) with (@nil ascii).
    repeat (rewrite <- ?app_assoc; cbn [app]). reflexivity.
Qed.
Print Assumptions C69_tabular.

(** ** There is always an output *)

(** [r] reverses instances with the same name. *)
Definition do_warning (r : bool) (e : (N * bytes) * dwarn) : bytes :=
  let is := sort_by (on di_name blt) ((if r then @rev _ else fun l => l) (d_insts (snd e))) in
  B "  " ++ pad4 (N.of_nat (length is)) ++ B " [" ++ snd (fst e) ++ B "] " ++ d_summary (snd e) ++ [newline]
  ++ concat (map instance_text is).
Definition do_level (r : bool) (t : table) (level : N) : bytes :=
  match filter (fun e => N.eqb (fst (fst e)) level) t with
  | [] => []
  | ws => B "  " ++ level_string level ++ [newline]
          ++ concat (map (do_warning r) (sort_by (on (fun e => snd (fst e)) blt) ws))
  end.
Definition do_handler (r : bool) (w : wdata) (tag : bytes) : bytes :=
  newline :: B "Warnings for " ++ w_handler_name w tag ++ B ":" ++ [newline]
  ++ concat (map (do_level r (table_of tag (by_handler w))) level_order).
Definition do_warnings (r : bool) (w : wdata) : bytes :=
  concat (map (do_handler r w) (sort_by (on (w_handler_name w) blt) (keys (by_handler w)))).
Definition do_bench (st : style) (b : bench) : bytes :=
  concat (map (fun t => bench_table st b t (sort_by (on (b_handler_name b) blt) (keys (b_by_handler b))))
              (sort_by (on (b_test_name b) blt) (keys (b_by_test b)))).

Lemma prints_do {A} (f : A -> bytes -> Prop) (g : A -> bytes) l : (forall x, In x l -> f x (g x)) -> prints f l (concat (map g l)).
Proof.
  intros H. exists (map g l). split; [|reflexivity]. induction l as [|x l IH]; constructor; [apply H; left; reflexivity|].
  apply IH. intros y I. apply H. right. exact I.
Qed.

Lemma do_warnings_ok r w : print_warnings {| wt_data := w; wt_tests := []; wt_handlers := [] |} (do_warnings r w).
Proof.
  exists (sort_by (on (w_handler_name w) blt) (keys (by_handler w))). eexists. split.
  - split; [|reflexivity]. exists (keys (by_handler w)). split; [reflexivity|apply sort_by_ok, on_weak, blt_weak].
  - apply prints_do. intros h _. eexists. split; [|reflexivity]. apply prints_do. intros level _. unfold print_level, do_level.
    destruct (filter _ _) as [|e es]; [reflexivity|]. do 2 eexists. split; [apply sort_by_ok, on_weak, blt_weak|]. split; [|reflexivity].
    apply prints_do. intros x _. eexists. split; [|reflexivity]. split; [|apply sort_by_ok, on_weak, blt_weak].
    rewrite <- sort_by_perm. destruct r; [apply Permutation_rev|reflexivity].
Qed.

Lemma do_bench_ok st b : b_tests b = [] -> b_handlers b = [] -> print_bench st b (do_bench st b).
Proof.
  intros E1 E2. exists (sort_by (on (b_test_name b) blt) (keys (b_by_test b))). eexists. split.
  { split; [|reflexivity]. unfold cached_keys. rewrite E1. exists (keys (b_by_test b)). split; [reflexivity|apply sort_by_ok, on_weak, blt_weak]. }
  unfold do_bench.
  set (hs := sort_by (on (b_handler_name b) blt) (keys (b_by_handler b))).
  assert (SK : sorted_keys (b_handler_name b) (b_by_handler b) hs).
  { exists (keys (b_by_handler b)). split; [reflexivity|apply sort_by_ok, on_weak, blt_weak]. }
  assert (K : forall ts b', b_test_names b' = b_test_names b -> b_handler_names b' = b_handler_names b -> b_by_test b' = b_by_test b ->
    b_by_handler b' = b_by_handler b -> (b_handlers b' = [] \/ b_handlers b' = hs) ->
    print_tables st ts b' (concat (map (fun t => bench_table st b t hs) ts))).
  { induction ts as [|t ts IH]; intros b' H1 H2 H3 H4 H5; [reflexivity|]. cbn [print_tables map concat].
    exists hs, (set_handlers hs b'), (concat (map (fun t => bench_table st b t hs) ts)). split; [|split].
    - split; [|reflexivity]. assert (HN : b_handler_name b' = b_handler_name b) by (unfold b_handler_name; rewrite H2; reflexivity).
      rewrite HN, H4. unfold cached_keys. destruct H5 as [->| ->]; [exact SK|]. destruct hs; [exact SK|reflexivity].
    - apply IH; try assumption. right. reflexivity.
    - f_equal. unfold bench_table, handler_records_for, b_test_name. rewrite H1, H3.
      assert (R : forall h, table_row st b (inner t (b_by_test b)) h = table_row st b' (inner t (b_by_test b)) h).
      { intros h. unfold table_row, b_handler_name. rewrite H2. reflexivity. }
      rewrite (map_ext _ _ R). reflexivity. }
  apply K; try reflexivity. left. exact E2.
Qed.

(** However the texts look, the program comes to an end. *)
Theorem C69_total v pf st t1 t2 : exists out, tabular v pf st t1 t2 out.
Proof.
  destruct (C60_setup_total v pf t1 t2 new_bench no_data) as [[[[b w] []]|] U]; [eexists; eexists; split; [exact U|reflexivity]| |
    eexists; eexists; split; [exact U|reflexivity]].
  eexists. eexists. split; [exact U|]. cbn beta iota.
  assert (C : b_tests b = [] /\ b_handlers b = []).
  { assert (L : forall lines b, b_tests b = [] /\ b_handlers b = [] -> let b' := fst (bench_loop v pf lines b) in b_tests b' = [] /\ b_handlers b' = []).
    { induction lines as [|l lines IH]; intros b0 H; [exact H|]. cbn [bench_loop].
      destruct (find ptn_handler_def l); [apply IH; exact H|]. destruct (find ptn_warn_line l); [apply IH; exact H|].
      destruct (read_data pf l); [apply IH; exact H|exact H|apply IH; exact H]. }
    unfold setup in U. destruct (parse_bench v pf t1 new_bench) as [b1 e1] eqn:E.
    assert (C1 : b_tests b1 = [] /\ b_handlers b1 = []).
    { unfold parse_bench in E. destruct (scan t1) as [lines err]. specialize (L lines new_bench (conj eq_refl eq_refl)).
      destruct (bench_loop v pf lines new_bench) as [b' e']. injection E as <- _. exact L. }
    destruct e1; [discriminate|]. destruct U as (lookup & b2 & HL & U).
    assert (C2 : b_tests b2 = [] /\ b_handlers b2 = []).
    { unfold handler_lookup in HL. destruct (b_lookup b1); destruct HL as [_ ->]; exact C1. }
    destruct (parse_warning_data v (B "Bench") lookup _ no_data) as [[w1 []]|]; [discriminate| |discriminate].
    destruct (parse_warning_data v (B "Verify") lookup t2 w1) as [[w2 e2]|]; [|discriminate]. injection U as -> _ _. exact C2. }
  do 2 eexists. split; [apply do_bench_ok; apply C|]. split; [apply (do_warnings_ok false)|reflexivity].
Qed.
Print Assumptions C69_total.

(** ** Whether there is only one *)

Lemma prints_unique {A} (f : A -> bytes -> Prop) l o1 o2 : (forall x t1 t2, In x l -> f x t1 -> f x t2 -> t1 = t2) ->
  prints f l o1 -> prints f l o2 -> o1 = o2.
Proof.
  intros H (ts1 & F1 & ->) (ts2 & F2 & ->). f_equal. revert ts2 F2. induction F1 as [|x t l ts1 Hx F1 IH]; intros ts2 F2; inversion F2; subst; [reflexivity|].
  f_equal; [eapply H; [left; reflexivity|exact Hx|assumption]|]. apply IH; [|assumption]. intros z t1 t2 I. apply H. right. exact I.
Qed.

Lemma blt_tri a b : blt a b = false -> blt b a = false -> a = b.
Proof. intros. apply blt_antisym; assumption. Qed.

(** The listing is determined where the names of the handlers are distinct and no
    two different instances of a warning have the same name of a test. *)
Theorem C69_unique v pf t1 t2 b w out1 out2 :
  setup v pf t1 t2 new_bench no_data (Some (b, w, false)) ->
  (forall h h', get h (by_handler w) <> None -> get h' (by_handler w) <> None -> w_handler_name w h = w_handler_name w h' -> h = h') ->
  (forall h level n i j, In i (instances_in (by_handler w) h level n) -> In j (instances_in (by_handler w) h level n) ->
     di_name i = di_name j -> i = j) ->
  print_warnings {| wt_data := w; wt_tests := []; wt_handlers := [] |} out1 ->
  print_warnings {| wt_data := w; wt_tests := []; wt_handlers := [] |} out2 -> out1 = out2.
Proof.
  intros U HN HI (tags1 & ? & [(ks1 & K1 & K2) _] & P1) (tags2 & ? & [(ks2 & K3 & K4) _] & P2). cbn in K1, K2, K3, K4, P1, P2.
  pose proof (setup_ok _ _ _ _ _ _ _ U) as T.
  assert (IK : forall h, In h ks1 -> get h (by_handler w) <> None).
  { intros h I. apply (Permutation_in _ (Permutation_sym K1)), get_keys in I. destruct I as [t ->]. discriminate. }
  assert (E : tags1 = tags2).
  { eapply sort_slice_unique; [exact K2|exact K4|rewrite <- K1; exact K3|]. intros a c Ia Ic L1 L2.
    apply HN; [apply IK, Ia|apply IK, Ic|]. apply blt_tri; assumption. }
  subst tags2. revert P1 P2. apply prints_unique. intros h o1 o2 _ (b1 & P1 & ->) (b2 & P2 & ->).
  assert (EQ : b1 = b2); [|subst b2; reflexivity]. revert P1 P2. apply prints_unique.
  pose proof (tables_of v h _ T) as [ND _]. intros level o1 o2 _ P1 P2. unfold print_level in P1, P2.
  assert (IN : forall e, In e (filter (fun e => N.eqb (fst (fst e)) level) (table_of h (by_handler w))) ->
                 fst (fst e) = level /\ tget (level, snd (fst e)) (table_of h (by_handler w)) = Some (snd e)).
  { intros [[l n] d] I. apply filter_In in I. destruct I as [I J]. cbn in J. apply N.eqb_eq in J. subst l. split; [reflexivity|].
    cbn. apply tget_in; assumption. }
  destruct (filter _ _) as [|e0 es0] eqn:E0; [congruence|]. rewrite <- E0 in *.
  set (ws := filter (fun e => N.eqb (fst (fst e)) level) (table_of h (by_handler w))) in *.
  destruct P1 as (ws1 & c1 & S1 & P1 & ->). destruct P2 as (ws2 & c2 & S2 & P2 & ->).
  assert (EW : ws1 = ws2).
  { eapply sort_slice_unique; [exact S1|exact S2|reflexivity|]. intros a c Ia Ic L1 L2. apply IN in Ia, Ic.
    destruct a as [[la na] da], c as [[lc nc] dc]. unfold on in L1, L2. cbn in *. destruct Ia as [-> Ia], Ic as [-> Ic].
    pose proof (blt_tri _ _ L1 L2) as X. subst nc. congruence. }
  subst ws2. assert (EQ : c1 = c2); [|subst c2; reflexivity]. revert P1 P2. apply prints_unique.
  intros e t3 t4 Ie (is1 & Q1 & ->) (is2 & Q2 & ->).
  assert (EI : is1 = is2); [|subst is2; reflexivity].
  eapply sort_slice_unique; [exact Q1|exact Q2|reflexivity|]. intros i j Ii Ij L1 L2.
  destruct S1 as [PS _]. apply (Permutation_in _ (Permutation_sym PS)), IN in Ie. destruct Ie as [_ Ie].
  assert (X : instances_in (by_handler w) h level (snd (fst e)) = d_insts (snd e)).
  { unfold instances_in. unfold table_of in Ie. destruct (get h (by_handler w)); [rewrite Ie; reflexivity|discriminate]. }
  apply (HI h level (snd (fst e))); [rewrite X; exact Ii|rewrite X; exact Ij|]. apply blt_tri; assumption.
Qed.
Print Assumptions C69_unique.

(** ** Example: the run of C60_ex with a report of the verification suite *)

Definition style0 : style := {|
  st_top := B "====="; st_header := B "Handler Runs" ++ [newline]; st_separator := B "-----"; st_bottom := B "=====";
  st_row := fun name runs _ _ _ _ => name ++ B " " ++ dec_of_N runs ++ [newline] |}.
Definition vreps0 : list (bytes * list instances) := [(B "madkins/flash", PropMerge.report0)].
Definition parsed0 : option (bench * wdata) :=
  let (b, _) := parse_bench PropMerge.world0 pf0 (whole_text text0) new_bench in
  let lookup := invert (b_handler_names b) in
  match parse_warning_data PropMerge.world0 (B "Bench") lookup (b_warning_text b) no_data with
  | Some (w1, _) =>
      match parse_warning_data PropMerge.world0 (B "Verify") lookup (reports_text [] vreps0) w1 with
      | Some (w2, _) => Some (set_lookup lookup b, w2)
      | None => None
      end
  | None => None
  end.

Lemma parsed0_setup b w : parsed0 = Some (b, w) ->
  setup PropMerge.world0 pf0 (whole_text text0) (reports_text [] vreps0) new_bench no_data (Some (b, w, false)) /\
  b_tests b = [] /\ b_handlers b = [].
Proof.
  assert (E : exists b w1 w2, parse_bench PropMerge.world0 pf0 (whole_text text0) new_bench = (b, false) /\
    (b_lookup b = None /\ b_tests b = [] /\ b_handlers b = []) /\
    parse_warning_data PropMerge.world0 (B "Bench") (invert (b_handler_names b)) (b_warning_text b) no_data = Some (w1, false) /\
    parse_warning_data PropMerge.world0 (B "Verify") (invert (b_handler_names b)) (reports_text [] vreps0) w1 = Some (w2, false)).
  { do 3 eexists. split; [vm_compute; reflexivity|]. split; [vm_compute; auto|]. split; vm_compute; reflexivity. }
  destruct E as (b1 & w1 & w2 & E1 & (E2 & E5 & E6) & E3 & E4). unfold parsed0. rewrite E1. cbv zeta. rewrite E3, E4. intros K. injection K as <- <-.
  split; [|split; [exact E5|exact E6]]. unfold setup. rewrite E1. exists (invert (b_handler_names b1)), (set_lookup (invert (b_handler_names b1)) b1). split.
  - unfold handler_lookup. rewrite E2. split; [|reflexivity]. exists (b_handler_names b1). split; reflexivity.
  - cbn [b_warning_text set_lookup]. rewrite E3, E4. reflexivity.
Qed.

(** What is printed: the hypotheses of C69_tabular are those of C60_ex. *)
Definition tables0 : list bytes :=
  [[]; B "Benchmark BigGroup"; B "====="; B "Handler Runs"; B "-----"; B "madkins/flash 500"; B "=====";
   []; B "Benchmark Simple"; B "====="; B "Handler Runs"; B "-----"; B "Sloggy 2000"; B "madkins/flash 1000"; B "====="].
Definition warnings0 (a b : string) : list bytes :=
  [[]; B "Warnings for Slog gy:"; []; B "Warnings for madkins/flash:"; B "  Required";
   B "     2 [LevelVar] LevelVar doesn't change level";
   B "         " ++ B a ++ B ":LevelVar"; B "         " ++ B b ++ B ":LevelVar";
   B "  Suggested"; B "     4 [Duplicates] Duplicate field(s) found";
   B "         " ++ B a ++ B ":Big: x: y"; B "         " ++ B b ++ B ":Big: x: y";
   B "         " ++ B a ++ B ":Double: "; B "           first"; B "            second"; B "           {""a"":1}";
   B "         " ++ B b ++ B ":Double: "; B "           first"; B "            second"; B "           {""a"":1}"; []].

(** The same input may be printed in two ways: a test of the same name is in both
    suites, and which of its instances comes first is up to sort.Slice. *)
Theorem C69_ambiguous :
  tabular PropMerge.world0 pf0 style0 (whole_text text0) (reports_text [] vreps0) (Some (unlines (tables0 ++ warnings0 "Bench" "Verify"))) /\
  tabular PropMerge.world0 pf0 style0 (whole_text text0) (reports_text [] vreps0) (Some (unlines (tables0 ++ warnings0 "Verify" "Bench"))) /\
  unlines (tables0 ++ warnings0 "Bench" "Verify") <> unlines (tables0 ++ warnings0 "Verify" "Bench").
Proof.
  assert (P : exists b w, parsed0 = Some (b, w) /\
    do_bench style0 b ++ do_warnings false w ++ [newline] = unlines (tables0 ++ warnings0 "Bench" "Verify") /\
    do_bench style0 b ++ do_warnings true w ++ [newline] = unlines (tables0 ++ warnings0 "Verify" "Bench")).
  { destruct parsed0 as [[b w]|] eqn:E; [|vm_compute in E; discriminate]. exists b, w. split; [reflexivity|].
    assert (X : forall f : bench -> wdata -> bytes,
      match parsed0 with Some (b, w) => f b w | None => [] end = f b w) by (rewrite E; reflexivity).
    split.
    - rewrite <- (X (fun b w => do_bench style0 b ++ do_warnings false w ++ [newline])). vm_compute. reflexivity.
    - rewrite <- (X (fun b w => do_bench style0 b ++ do_warnings true w ++ [newline])). vm_compute. reflexivity. }
  destruct P as (b & w & E & P1 & P2). destruct (parsed0_setup b w E) as (U & C1 & C2).
  split; [|split; [|vm_compute; discriminate]].
  - eexists. split; [exact U|]. exists (do_bench style0 b), (do_warnings false w). split; [apply do_bench_ok; assumption|].
    split; [apply do_warnings_ok|]. rewrite P1. reflexivity.
  - eexists. split; [exact U|]. exists (do_bench style0 b), (do_warnings true w). split; [apply do_bench_ok; assumption|].
    split; [apply do_warnings_ok|]. rewrite P2. reflexivity.
Qed.
Print Assumptions C69_ambiguous.

(** The hypotheses of C69_tabular and of C69_unique hold of texts. *)
Example C69_tabular_ex :
  casing_ok (v_casing PropMerge.world0) /\ Forall (text_ok pf0) text0 /\ short_lines (whole_text text0) /\
  concat (map (fun s => B "# " ++ s ++ [newline]) (comments text0)) =
    reports_text (B "# ") [(B "madkins/flash", PropMerge.report0); (B "Slog Gy", [])] /\
  Forall (report_ok PropMerge.world0) [(B "madkins/flash", PropMerge.report0); (B "Slog Gy", [])] /\
  Forall (report_ok PropMerge.world0) vreps0 /\ short_lines (reports_text [] vreps0).
Proof.
  destruct C60_ex as (E1 & E2 & E3 & _). split; [apply PropMerge.C36_ex|]. split; [apply text0_ok|]. split; [apply text0_ok|].
  split; [exact E1|]. split; [exact E2|]. split; [|exact E3]. constructor; [apply (Forall_inv E2)|constructor].
Qed.
