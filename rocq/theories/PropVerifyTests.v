(** C61, C62, C63: what the checks of the verification suite decide, which handlers
    pass all of its tests, and what the tests do not see. *)

From Coq Require Import Ascii String List ZArith NArith Bool Arith Lia QArith Qcanon Permutation Sorted.
From Verif Require Import Bytes BytesProofs GoSort Json Slog SpecLog Samples SpecFlash SpecSloggy Flash FlashProofs Sloggy SloggyHandler FlashConfig
  Replace PropReplace Warnings FieldCounter SpecFields FieldGrammar PropFields BenchChecks SpecChecks ChecksProofs ChecksSamples Complex TextProofs
  VerifyChecks VerifyTests VerifyLines SpecVerify VerifyProofs VerifyHandlers.
From Coq Require Import ListDec.
From Verif Require PropBigGroup PropComplex.
Import ListNotations.
Local Open Scope nat_scope.
Local Open Scope list_scope.

(** ** C61: the checks *)

(** A check leaves the test passing, and the manager after it. *)
Definition accepts (t : test unit) (st : state) : Prop := v_failed (fst (t st)) = false.
Definition leaves (t : test unit) (st : state) : manager := v_manager (fst (t st)).
Definition is_marked (W : surroundings) (w : warning) (st : state) : bool := has_warning (e_use (z_env W)) w (v_manager st).

(** The captured output is one line, well spelled, with these members; nothing in it
    is called "fields", and what the test took out of it. *)
Definition captured (W : surroundings) (num : bytes -> option Qc) (st : state) (fs : fields) (lm : log_map) : Prop :=
  exists line nl a, v_buffer st = line ++ nl /\ (nl = [newline] \/ nl = [chr 13; newline]) /\ spelled fs line /\
    forallb ordinary (keys_of fs) = true /\ unfielded (JObj fs) = true /\
    decode num (JObj fs) = Some (DMap a) /\ get_map W st = (st, Some lm).

Lemma decode_length num fs : forall (m r : dmap), wf m -> NoDup (keys_of fs ++ map fst m) -> decode_fields num fs m = Some r ->
  length r = length fs + length m.
Proof.
  induction fs as [|[k j] fs IH]; intros m r WM ND; cbn [decode_fields]; [now intros [= <-]|].
  destruct (if valid_utf8 k then decode num j else None) as [v|]; [|discriminate]. intros D. cbn [keys_of map fst app] in ND.
  inversion ND as [|x y NI ND']; subst.
  assert (A : get k m = None) by (apply get_none; intros I; apply NI, in_or_app; now right).
  assert (P : Permutation (map fst (put k v m)) (k :: map fst m)).
  { apply NoDup_Permutation; [exact (wf_put k v m WM)|constructor; [now apply get_none|exact WM]|]. intros x.
    assert (X : forall m : dmap, In x (map fst m) <-> get x m <> None).
    { intros m'. split; [intros I N; apply get_none in N; contradiction|]. intros N.
      destruct (in_dec (list_eq_dec ascii_dec) x (map fst m')) as [I|N']; [exact I|]. exfalso. apply N. now apply get_none. }
    rewrite X, get_put. cbn [In]. rewrite X. destruct (beq k x) eqn:E.
    - apply beq_eq in E. subst. split; [now left|discriminate].
    - split; [now right|]. intros [->|N]; [rewrite beq_refl in E; discriminate|exact N]. }
  rewrite (IH (put k v m) r); [|now apply wf_put| |exact D].
  - rewrite <- (map_length fst (put k v m)), (Permutation_length P). cbn [length]. rewrite map_length. lia.
  - apply (Permutation_NoDup (l := k :: keys_of fs ++ map fst m)); [rewrite P; apply Permutation_middle|exact ND].
Qed.

Lemma captured_size W num st fs lm : unmarshal_ok num (z_env W) -> captured W num st fs lm -> NoDup (keys_of fs) -> size lm = length fs.
Proof.
  intros UN (line & nl & a & Eb & NL & SP & _ & _ & D & G) ND. destruct (spelled_parses _ _ SP) as [P _].
  assert (P' : parse_json (v_buffer st) = Some (JObj fs)) by (rewrite Eb; destruct NL as [-> | ->]; [now apply PropBigGroup.parse_newline|now apply PropComplex.parse_crlf]).
  destruct (UN _ _ _ P' D) as (d & U & VD & S0).
  unfold get_map, bind, buffer in G. rewrite U in G. cbn in G. injection G as <-.
  pose proof (decode_valid num _ _ D) as VA. rewrite decode_obj in D. destruct (decode_fields num fs []) as [r|] eqn:R; [|discriminate].
  injection D as ->. rewrite (seen_size a d) by (repeat split; assumption). cbn [size]. rewrite (decode_length num fs [] a); [cbn; lia|constructor| |exact R].
  cbn [map]. now rewrite app_nil_r.
Qed.

Lemma captured_counts W num st fs lm : classes_ok (z_classes W) -> captured W num st fs lm -> exists c,
  (forall st', v_buffer st' = v_buffer st -> field_counter W st' = (st', Some c)) /\
  num_fields c = distinct (keys_of fs) /\ NoDup (map fst (duplicates c)) /\
  (forall k n, In (k, n) (duplicates c) <-> n = N.of_nat (occurrences k (keys_of fs)) /\ 1 < occurrences k (keys_of fs)).
Proof.
  intros CL (line & nl & a & Eb & _ & SP & O & U & _ & _). destruct (spelled_counts _ fs line nl CL SP O U) as (c & R & X). exists c. split; [|exact X].
  intros st' E. unfold field_counter, bind, buffer. rewrite E, Eb, R. reflexivity.
Qed.

Lemma twice_not_nodup l : ~ NoDup l -> exists k : bytes, 1 < occurrences k l.
Proof.
  induction l as [|x l IH]; intros ND; [destruct ND; constructor|].
  destruct (in_dec (list_eq_dec ascii_dec) x l) as [I|N].
  - exists x. unfold occurrences. cbn [filter]. rewrite beq_refl. cbn [length].
    assert (In x (filter (beq x) l)) by (apply filter_In; split; [exact I|apply beq_refl]). destruct (filter (beq x) l); [contradiction|]. cbn [length]. lia.
  - destruct IH as (k & K); [intros X; apply ND; now constructor|]. exists k. unfold occurrences in *. cbn [filter]. destruct (beq k x); cbn [length]; lia.
Qed.

(** checkFieldCount, Duplicates not marked: the line has exactly that many members,
    all with different names. *)
Theorem C61_count W num st fs lm n : unmarshal_ok num (z_env W) -> classes_ok (z_classes W) ->
  captured W num st fs lm -> v_failed st = false -> is_marked W duplicated st = false ->
  (accepts (check_field_count W n lm) st <-> length fs = n /\ NoDup (keys_of fs)) /\
  leaves (check_field_count W n lm) st = v_manager st.
Proof.
  intros UN CL CAP F M. destruct (captured_counts _ _ _ _ _ CL CAP) as (c & FC & NF & ND & D).
  unfold accepts, leaves. unfold is_marked in M.
  assert (E : check_field_count W n lm st = count_check W n lm st) by (unfold check_field_count, bind at 1, has; now rewrite M).
  rewrite E. set (s1 := if Nat.eqb (size lm) n then st else fail st).
  assert (S1 : v_buffer s1 = v_buffer st /\ v_manager s1 = v_manager st /\ v_failed s1 = negb (Nat.eqb (size lm) n))
    by (unfold s1; destruct (Nat.eqb (size lm) n); cbn; auto).
  assert (X : count_check W n lm st = (let s2 := if Nat.eqb (num_fields c) n then s1 else fail s1 in
    if Nat.eqb (length (duplicates c)) 0 then s2 else fail s2, Some tt)).
  { unfold count_check, bind. unfold assert at 1. fold s1. rewrite (FC s1) by apply S1. reflexivity. }
  rewrite X. cbv zeta. cbn [fst].
  destruct S1 as (_ & S2 & S3). split.
  - destruct (NoDup_dec (list_eq_dec ascii_dec) (keys_of fs)) as [NDK|NDK].
    + assert (DN : duplicates c = []).
      { destruct (duplicates c) as [|[k x] l]; [reflexivity|]. exfalso. destruct (proj1 (D k x) (or_introl eq_refl)) as [_ L].
        pose proof (occurrences_once k _ NDK). lia. }
      rewrite DN. cbn [length Nat.eqb]. rewrite NF. unfold distinct. rewrite nodup_fixed_point by exact NDK. unfold keys_of at 1 2. rewrite map_length.
      rewrite (captured_size _ _ _ _ _ UN CAP NDK) in S3. destruct (Nat.eqb (length fs) n) eqn:L.
      * rewrite S3. apply Nat.eqb_eq in L. cbn. tauto.
      * apply Nat.eqb_neq in L. cbn. split; [discriminate|tauto].
    + destruct (twice_not_nodup _ NDK) as (k & K). assert (I : In (k, N.of_nat (occurrences k (keys_of fs))) (duplicates c)) by now apply D.
      destruct (duplicates c) as [|y l]; [contradiction|]. cbn [length Nat.eqb]. cbn [fail v_failed]. split; [discriminate|tauto].
  - destruct (Nat.eqb (num_fields c) n), (Nat.eqb (length (duplicates c)) 0); cbn [fail v_manager]; exact S2.
Qed.
Print Assumptions C61_count.

(** Marked: the same as long as all names differ.  Else the line is accepted however
    many members it has, and one warning names the repeated ones and how often they
    occur, in the order of the names. *)
Theorem C61_count_marked W num st fs lm n : unmarshal_ok num (z_env W) -> classes_ok (z_classes W) ->
  captured W num st fs lm -> v_failed st = false -> is_marked W duplicated st = true ->
  (NoDup (keys_of fs) -> (accepts (check_field_count W n lm) st <-> length fs = n) /\ leaves (check_field_count W n lm) st = v_manager st) /\
  (~ NoDup (keys_of fs) -> accepts (check_field_count W n lm) st /\
     exists ks, (forall k, In k ks <-> 1 < occurrences k (keys_of fs)) /\ NoDup ks /\ Sorted (fun a b => blt b a = false) ks /\
       leaves (check_field_count W n lm) st =
         add_warning duplicated (v_test st)
           (B "map[" ++ join_with (B " ") (map (fun k => k ++ B ":" ++ dec_of_N (N.of_nat (occurrences k (keys_of fs)))) ks) ++ B "]") [] (v_manager st)).
Proof.
  intros UN CL CAP F M. destruct (captured_counts _ _ _ _ _ CL CAP) as (c & FC & NF & ND & D). split; intros NDK.
  - assert (DN : duplicates c = []).
    { destruct (duplicates c) as [|[k x] l]; [reflexivity|]. exfalso. destruct (proj1 (D k x) (or_introl eq_refl)) as [_ L].
      pose proof (occurrences_once k _ NDK). lia. }
    assert (E : check_field_count W n lm st = (if Nat.eqb (length fs) n then st else fail st, Some tt)).
    { unfold check_field_count, bind at 1, has. unfold is_marked in M. rewrite M. unfold bind at 1. rewrite (FC st) by reflexivity. rewrite DN. cbn [length Nat.ltb Nat.leb].
      unfold count_check, bind. unfold assert at 1. rewrite (captured_size _ _ _ _ _ UN CAP NDK).
      rewrite FC by (destruct (Nat.eqb (length fs) n); reflexivity). rewrite NF, DN. unfold distinct. rewrite nodup_fixed_point by exact NDK.
      unfold keys_of. rewrite map_length. unfold assert. cbn [length Nat.eqb]. destruct (Nat.eqb (length fs) n); reflexivity. }
    unfold accepts, leaves. rewrite E. cbn [fst]. destruct (Nat.eqb (length fs) n) eqn:L.
    + apply Nat.eqb_eq in L. split; [|reflexivity]. rewrite F. tauto.
    + apply Nat.eqb_neq in L. split; [|reflexivity]. cbn. split; [discriminate|tauto].
  - destruct (twice_not_nodup _ NDK) as (k0 & K0). assert (I : In (k0, N.of_nat (occurrences k0 (keys_of fs))) (duplicates c)) by now apply D.
    assert (E : check_field_count W n lm st = warn duplicated (show_counts (duplicates c)) [] st).
    { unfold check_field_count, bind at 1, has. unfold is_marked in M. rewrite M. unfold bind at 1. rewrite (FC st) by reflexivity.
      destruct (duplicates c) as [|y l]; [contradiction|]. reflexivity. }
    unfold accepts, leaves. rewrite E. split; [exact F|]. exists (fields_of (duplicates c)).
    assert (PK : Permutation (map fst (duplicates c)) (fields_of (duplicates c))) by (unfold fields_of; apply sort_perm).
    assert (IN : forall k, In k (fields_of (duplicates c)) <-> 1 < occurrences k (keys_of fs)).
    { intros k. split.
      - intros X. apply (Permutation_in _ (Permutation_sym PK)) in X. apply in_map_iff in X as ([k' x] & <- & X). now apply D in X.
      - intros X. apply (Permutation_in _ PK). apply in_map_iff. exists (k, N.of_nat (occurrences k (keys_of fs))). split; [reflexivity|]. now apply D. }
    split; [exact IN|]. split; [exact (Permutation_NoDup PK ND)|]. split; [apply C30_sorted|].
    unfold warn. cbn [fst v_manager set_manager]. f_equal. unfold show_counts. f_equal. f_equal. f_equal. apply map_ext_in. intros k IK.
    assert (G : get k (duplicates c) = Some (N.of_nat (occurrences k (keys_of fs)))) by (apply get_in; [exact ND|apply D; split; [reflexivity|now apply IN]]).
    now rewrite G.
Qed.
Print Assumptions C61_count_marked.

(** *** All seven checks *)

Inductive check : Type :=
| FieldCount (n : nat) (lm : log_map)
| LevelText (level : bytes) (lm : log_map)
| LevelMath (s : setting) (level : Z) (want : bool) (message : bytes)
| MessageText (message : bytes) (lm : log_map)
| NoEmptyAttribute (n : nat) (lm : log_map)
| Resolution (value actual : dyn)
| SourcePlace (n : nat) (lm : log_map).

Definition run_check (W : surroundings) (H : subject) (c : check) : test unit :=
  match c with
  | FieldCount n lm => check_field_count W n lm
  | LevelText level lm => check_level_key W level lm
  | LevelMath s level want message => check_level_math W H s level want message
  | MessageText message lm => check_message_key W message lm
  | NoEmptyAttribute n lm => check_no_empty_attribute W n lm
  | Resolution value actual => check_resolution W value actual
  | SourcePlace n lm => check_source_key W n lm
  end.

Definition nothing_marked (W : surroundings) (st : state) : Prop := forall w, is_marked W w st = false.

(** A piece that neither looks at the manager nor changes it, and that only ever
    adds to the failures. *)
Definition oblivious {A} (t : test A) : Prop := forall st,
  v_manager (fst (t st)) = v_manager st /\
  (v_failed (fst (t st)) = false -> v_failed st = false) /\
  forall m, t (set_manager m st) = (set_manager m (fst (t st)), snd (t st)).

Lemma ob_ret A (a : A) : oblivious (ret a).
Proof. intros st. repeat split; auto. Qed.
Lemma ob_assert b : oblivious (assert b).
Proof. intros st. unfold assert. destruct b; cbn; repeat split; auto; discriminate. Qed.
Lemma ob_require b : oblivious (require b).
Proof. intros st. unfold require. destruct b; cbn; repeat split; auto; discriminate. Qed.
Lemma ob_buffer : oblivious buffer.
Proof. intros st. repeat split; auto. Qed.
Lemma ob_bind A C (t : test A) (k : A -> test C) : oblivious t -> (forall a, oblivious (k a)) -> oblivious (bind t k).
Proof.
  intros T K st. destruct (T st) as (T1 & T2 & T3). unfold bind. destruct (t st) as [st' [a|]] eqn:E; cbn [fst snd] in *.
  - destruct (K a st') as (K1 & K2 & K3). split; [congruence|]. split; [tauto|]. intros m. rewrite T3. apply K3.
  - split; [exact T1|]. split; [exact T2|]. intros m. now rewrite T3.
Qed.
Lemma ob_counter W : oblivious (field_counter W).
Proof.
  unfold field_counter. apply ob_bind; [apply ob_buffer|]. intros b. destruct (count_fields _ b) as [[[c r]|]|]; [apply ob_ret| |];
    (apply ob_bind; [apply ob_require|intros _; apply ob_ret]).
Qed.
Lemma ob_count W n lm : oblivious (count_check W n lm).
Proof. unfold count_check. apply ob_bind; [apply ob_assert|]. intros _. apply ob_bind; [apply ob_counter|]. intros c. apply ob_bind; [apply ob_assert|]. intros _. apply ob_assert. Qed.

Lemma set_set m m' st : set_manager m (set_manager m' st) = set_manager m st.
Proof. reflexivity. Qed.
Lemma set_same st : set_manager (v_manager st) st = st.
Proof. destruct st; reflexivity. Qed.

(** With nothing marked the manager is left alone; and what is then accepted is
    accepted under any marks. *)
Definition goes_on (t : test unit) (st : state) : Prop := exists m', t st = (set_manager m' st, Some tt).
Definition steady (W : surroundings) (t : test unit) : Prop := forall st, nothing_marked W st ->
  v_manager (fst (t st)) = v_manager st /\
  (v_failed (fst (t st)) = false -> t st = (st, Some tt) /\ v_failed st = false /\ forall m, goes_on t (set_manager m st)).

Lemma steady_assert W b : steady W (assert b).
Proof.
  intros st _. unfold assert. destruct b; cbn [fst fail v_manager v_failed]; (split; [reflexivity|]); [|discriminate].
  intros F. split; [reflexivity|]. split; [exact F|]. intros m. exists m. reflexivity.
Qed.

Lemma steady_seq W t t' : steady W t -> steady W t' -> (forall st, v_failed st = true -> v_failed (fst (t' st)) = true) -> steady W (bind t (fun _ => t')).
Proof.
  intros T T' K st N. destruct (T st N) as [T1 T2]. unfold bind. destruct (t st) as [st1 [[]|]] eqn:E; cbn [fst] in *.
  - assert (N1 : nothing_marked W st1) by (intros w; unfold is_marked; rewrite T1; apply N).
    destruct (T' st1 N1) as [T3 T4]. split; [congruence|]. intros F.
    assert (F1 : v_failed st1 = false) by (destruct (v_failed st1) eqn:X; [rewrite (K _ X) in F; discriminate|reflexivity]).
    destruct (T2 F1) as (E1 & F2 & G). injection E1 as ->. destruct (T4 F) as (E2 & _ & G'). split; [exact E2|]. split; [exact F2|].
    intros m. destruct (G m) as (m' & Em). destruct (G' m') as (m'' & Em'). exists m''. unfold bind. rewrite Em. cbn [set_manager] in *. exact Em'.
  - split; [exact T1|]. intros F. destruct (T2 F) as (E1 & _). discriminate.
Qed.

Lemma steady_mark W w t1 t2 : steady W t2 ->
  (forall st, t2 st = (st, Some tt) -> v_failed st = false -> nothing_marked W st -> forall m, goes_on t1 (set_manager m st)) ->
  steady W (bind (has W w) (fun h : bool => if h then t1 else t2)).
Proof.
  intros T2 T1 st N. assert (E : forall st, bind (has W w) (fun h : bool => if h then t1 else t2) st = if is_marked W w st then t1 st else t2 st)
    by (intros st0; unfold bind, has, is_marked; now destruct (has_warning _ w _)).
  rewrite E, N. destruct (T2 st N) as [A1 A2]. split; [exact A1|]. intros F. destruct (A2 F) as (A3 & A4 & A5).
  split; [exact A3|]. split; [exact A4|]. intros m. unfold goes_on. rewrite E. destruct (is_marked W w (set_manager m st)); [now apply T1|apply A5].
Qed.

Lemma counter_state W st st' c : field_counter W st = (st', Some c) -> st' = st.
Proof.
  unfold field_counter, bind, buffer. destruct (count_fields (z_classes W) (v_buffer st)) as [[[c' r]|]|]; cbn; intros [=]; congruence.
Qed.
Lemma counter_stop W st st' : field_counter W st = (st', None) -> v_failed st' = true.
Proof.
  unfold field_counter, bind, buffer. destruct (count_fields (z_classes W) (v_buffer st)) as [[[c' r]|]|]; cbn; intros [=]; subst; reflexivity.
Qed.

Lemma counted W n lm st : v_failed (fst (count_check W n lm st)) = false ->
  v_failed st = false /\ count_check W n lm st = (st, Some tt) /\ exists c, num_fields c = n /\ duplicates c = [] /\
    forall m, field_counter W (set_manager m st) = (set_manager m st, Some c).
Proof.
  unfold count_check, bind. unfold assert at 1 2. destruct (Nat.eqb (size lm) n).
  - destruct (ob_counter W st) as (_ & O2 & O3). destruct (field_counter W st) as [st' [c|]] eqn:FC; cbn [fst snd] in *.
    + assert (st' = st) as -> by exact (counter_state _ _ _ _ FC).
      unfold assert. destruct (Nat.eqb (num_fields c) n) eqn:NF; destruct (Nat.eqb (length (duplicates c)) 0) eqn:D; cbn [fst fail v_failed]; try discriminate.
      intros F. split; [exact F|]. split; [now rewrite FC, NF, D|]. exists c. split; [now apply Nat.eqb_eq|]. split; [destruct (duplicates c); [reflexivity|discriminate]|exact O3].
    + intros F. rewrite (counter_stop _ _ _ FC) in F. discriminate.
  - intros F. exfalso.
    assert (O : oblivious (bind (field_counter W) (fun c => bind (assert (Nat.eqb (num_fields c) n)) (fun _ => assert (Nat.eqb (length (duplicates c)) 0))))).
    { apply ob_bind; [apply ob_counter|]. intros c. apply ob_bind; [apply ob_assert|]. intros _. apply ob_assert. }
    destruct (O (fail st)) as (_ & O2 & _). discriminate (O2 F).
Qed.

Lemma steady_count_check W n lm : steady W (count_check W n lm).
Proof.
  intros st _. split; [apply ob_count|]. intros F. destruct (counted W n lm st F) as (F0 & E & _). split; [exact E|]. split; [exact F0|].
  intros m. exists m. destruct (ob_count W n lm st) as (_ & _ & O). rewrite O, E. reflexivity.
Qed.

Lemma steady_count W n lm : steady W (check_field_count W n lm).
Proof.
  unfold check_field_count. apply steady_mark; [apply steady_count_check|]. intros st E F N m.
  destruct (counted W n lm st) as (_ & _ & c & NF & D & FC); [now rewrite E|]. exists m. unfold bind. rewrite FC, D. cbn [length Nat.ltb Nat.leb].
  destruct (ob_count W n lm st) as (_ & _ & O). rewrite O, E. reflexivity.
Qed.

Lemma steady_buffer W k : (forall b, steady W (k b)) -> steady W (bind buffer k).
Proof. intros K st N. exact (K (v_buffer st) st N). Qed.

Lemma ob_keeps (t : test unit) : oblivious t -> forall st, v_failed st = true -> v_failed (fst (t st)) = true.
Proof. intros O st F. destruct (O st) as (_ & O2 & _). destruct (v_failed (fst (t st))); [reflexivity|]. rewrite (O2 eq_refl) in F. discriminate. Qed.

Lemma steady_source W n lm : steady W (check_source_key W n lm).
Proof.
  unfold check_source_key. apply steady_buffer. intros b. cbv zeta.
  set (plain := bind (check_field_count W n lm) _).
  assert (P : steady W plain).
  { unfold plain. apply steady_seq; [apply steady_count| |].
    - destruct (as_map _) as [g|]; [|apply steady_assert]. cbn [fold_right source_keys].
      repeat first [apply steady_assert|apply steady_seq|apply ob_keeps|apply ob_assert|apply ob_bind; [|intros _]|apply ob_ret].
    - apply ob_keeps. destruct (as_map _) as [g|]; [|apply ob_assert]. cbn [fold_right source_keys].
      repeat first [apply ob_assert|apply ob_bind; [|intros _]|apply ob_ret]. }
  set (key := bind (has W source_missing) _).
  assert (K : steady W key).
  { unfold key. apply steady_mark; [exact P|]. intros st E F N m. destruct (P st N) as [_ G]. destruct G as (_ & _ & G); [now rewrite E|].
    assert (R : forall t, (forall m, goes_on t (set_manager m st)) -> goes_on (bind (match as_string (at_key (B "caller") lm) with Some text => warn source_caller text b | None => ret tt end) (fun _ => t)) (set_manager m st)).
    { intros t T. destruct (as_string _) as [text|].
      - destruct (T (v_manager (fst (warn source_caller text b (set_manager m st))))) as (m' & X). exists m'. exact X.
      - apply T. }
    apply R. clear R m. intros m. destruct (lookup SourceKey lm) as [[| | | | |g]|]; try (eexists; reflexivity).
    destruct (source_states (Some g)); [|eexists; reflexivity].
    destruct (G (v_manager (fst (not_used source_missing b (set_manager m st))))) as (m' & X). exists m'. exact X. }
  apply steady_mark; [exact K|]. intros st E F N m. destruct (K st N) as [_ G]. destruct G as (_ & _ & G); [now rewrite E|].
  destruct (as_string _) as [text|].
  - unfold goes_on, bind, has. destruct (has_warning _ source_missing _); eexists; reflexivity.
  - destruct (G (v_manager (fst (not_used source_caller b (set_manager m st))))) as (m' & X). exists m'. exact X.
Qed.

(** Marking a warning never turns an accepted record into a failure; and a check under
    no marks records nothing. *)
Theorem C61_marks W H c st : nothing_marked W st ->
  leaves (run_check W H c) st = v_manager st /\
  (accepts (run_check W H c) st -> forall m, accepts (run_check W H c) (set_manager m st)).
Proof.
  enough (S : steady W (run_check W H c)).
  { intros N. destruct (S st N) as [S1 S2]. split; [exact S1|]. intros A m. destruct (S2 A) as (_ & F & G). destruct (G m) as (m' & E).
    unfold accepts. rewrite E. exact F. }
  destruct c as [n lm|level lm|s level want message|message lm|n lm|value actual|n lm]; cbn [run_check].
  - apply steady_count.
  - apply steady_mark; [apply steady_assert|]. intros st0 _ _ _ m.
    destruct (as_string _) as [l|]; [|eexists; reflexivity]. destruct (negb _); [eexists; reflexivity|]. destruct (negb _); eexists; reflexivity.
  - intros st0 N. unfold check_level_math. set (good := Bool.eqb _ want).
    assert (E : forall st, bind (has W level_math) (fun h : bool => if negb h then assert good else if good then not_used level_math [] else warn level_math message []) st =
      bind (has W level_math) (fun h : bool => if h then (if good then not_used level_math [] else warn level_math message []) else assert good) st)
      by (intros st1; unfold bind, has; now destruct (has_warning _ _ _)).
    assert (S : steady W (bind (has W level_math) (fun h : bool => if h then (if good then not_used level_math [] else warn level_math message []) else assert good))).
    { apply steady_mark; [apply steady_assert|]. intros st1 _ _ _ m. destruct good; eexists; reflexivity. }
    destruct (S st0 N) as [S1 S2]. unfold goes_on in *. rewrite E. split; [exact S1|]. intros F. destruct (S2 F) as (A & B & C). split; [exact A|]. split; [exact B|].
    intros m. rewrite E. apply C.
  - unfold check_message_key. apply steady_mark; [apply steady_assert|]. intros st0 E F _ m.
    assert (D : deep_equal (DStr message) (at_key MessageKey lm) = true).
    { unfold assert in E. destruct (deep_equal _ _); [reflexivity|]. injection E as E. rewrite <- E in F. discriminate. }
    unfold goes_on. destruct (negb (found MessageKey lm) && _ && _) ; [eexists; reflexivity|]. unfold bind, not_used, assert. rewrite D. eexists. reflexivity.
  - unfold check_no_empty_attribute. cbv zeta. assert (S : steady W (bind (check_field_count W n lm) (fun _ => assert (negb (found [] lm))))).
    { apply steady_seq; [apply steady_count|apply steady_assert|]. intros st0 F0. unfold assert. destruct (negb _); [exact F0|reflexivity]. }
    apply steady_mark; [exact S|]. intros st0 E F N m.
    destruct (S st0 N) as [_ S2]. destruct S2 as (_ & _ & G); [now rewrite E|].
    assert (CC : v_failed (fst (count_check W n lm st0)) = false).
    { unfold check_field_count, bind in E. unfold has in E. pose proof (N duplicated) as ND. unfold is_marked in ND. rewrite ND in E.
      destruct (count_check W n lm st0) as [st1 [[]|]] eqn:X; [|discriminate]. cbn [fst]. unfold assert in E. destruct (negb _).
      - injection E as ->. exact F.
      - injection E as E. rewrite <- E in F. discriminate. }
    destruct (counted W n lm st0 CC) as (_ & _ & c & NF & _ & FC). unfold goes_on. unfold bind at 1. rewrite FC, NF.
    replace (Nat.eqb n (n + 1)) with false by (symmetry; apply Nat.eqb_neq; lia). cbn [andb].
    match goal with |- exists m', bind (not_used ?w ?l) _ _ = _ => destruct (G (fst (add_unused w (v_test st0) l m, tt))) as (m' & E') end.
    exists m'. exact E'.
  - unfold check_resolution. apply steady_mark; [apply steady_assert|]. intros st0 E F _ m.
    assert (D : deep_equal value actual = true).
    { unfold assert in E. destruct (deep_equal _ _); [reflexivity|]. injection E as E. rewrite <- E in F. discriminate. }
    unfold goes_on. rewrite D. cbn [negb]. unfold bind, not_used, assert. eexists. reflexivity.
  - apply steady_source.
Qed.
Print Assumptions C61_marks.

(** *** The level *)

Lemma equal_str s v : deep_equal (DStr s) v = true <-> v = DStr s.
Proof.
  destruct v; cbn; try (split; discriminate). rewrite beq_eq. split; [now intros ->|now intros [= ->]].
Qed.

(** LevelCase not marked: the level is exactly the name in upper case.  Marked:
    anything is accepted.  A level that is missing or not a string counts as the
    mark not being needed; only a wrong string is reported. *)
Theorem C61_level W level lm st : v_failed st = false ->
  (is_marked W level_case st = false ->
     (accepts (check_level_key W level lm) st <-> at_key LevelKey lm = DStr (upper W level)) /\ leaves (check_level_key W level lm) st = v_manager st) /\
  (is_marked W level_case st = true -> accepts (check_level_key W level lm) st /\
     ((forall s, at_key LevelKey lm <> DStr s) -> leaves (check_level_key W level lm) st = add_unused level_case (v_test st) [] (v_manager st)) /\
     forall s, at_key LevelKey lm = DStr s -> exists w text, leaves (check_level_key W level lm) st = add_warning w (v_test st) text [] (v_manager st) /\
       (w = level_wrong <-> upper W s <> upper W level) /\ (w = unused <-> s = upper W level /\ upper W s = upper W level)).
Proof.
  intros F. unfold accepts, leaves, check_level_key. cbv zeta. unfold bind, has, is_marked.
  split; intros M; rewrite M.
  - unfold assert. cbn [fst]. destruct (deep_equal _ _) eqn:D.
    + split; [|reflexivity]. apply equal_str in D. tauto.
    + split; [|reflexivity]. cbn [fail v_failed]. split; [discriminate|]. intros X. apply equal_str in X. congruence.
  - split; [|split].
    + destruct (as_string _) as [l|]; [|exact F]. destruct (negb _); [exact F|]. destruct (negb _); exact F.
    + intros N. destruct (at_key LevelKey lm) as [| | |s| |]; try reflexivity. now destruct (N s).
    + intros s E. rewrite E. cbn [as_string]. destruct (beq (upper W level) (upper W s)) eqn:U; cbn [negb].
      * apply beq_eq in U. destruct (beq (upper W level) s) eqn:V; cbn [negb].
        -- apply beq_eq in V. exists unused, (w_name level_case). split; [reflexivity|]. split; split; try discriminate; try congruence. split; congruence.
        -- exists level_case. eexists. split; [reflexivity|]. split; split; try discriminate; try congruence.
           intros [-> _]. rewrite beq_refl in V. discriminate.
      * exists level_wrong. eexists. split; [reflexivity|]. split; split; try discriminate; try congruence.
        -- intros _ X. rewrite X, beq_refl in U. discriminate.
        -- intros [_ X]. rewrite X, beq_refl in U. discriminate.
Qed.
Print Assumptions C61_level.

(** *** The source *)

(** A source like that of slog.Source. *)
Definition right_source (lm : log_map) : Prop := exists g, at_key SourceKey lm = DMap g /\ length g = 3 /\
  (exists s, get (B "file") g = Some (DStr s)) /\ (exists s, get (B "function") g = Some (DStr s)) /\ (exists q, get (B "line") g = Some (DNum q)).

Lemma assert_and a b : forall st, bind (assert a) (fun _ => assert b) st = assert (a && b) st.
Proof. intros st. unfold bind, assert. destruct a, b; reflexivity. Qed.

Theorem C61_source W num st fs lm n : unmarshal_ok num (z_env W) -> classes_ok (z_classes W) ->
  captured W num st fs lm -> v_failed st = false -> nothing_marked W st ->
  (accepts (check_source_key W n lm) st <-> length fs = n /\ NoDup (keys_of fs) /\ right_source lm).
Proof.
  intros UN CL CAP F N. destruct (C61_count W num st fs lm n UN CL CAP F (N duplicated)) as [CC CM].
  destruct (steady_count W n lm st N) as [_ CS].
  set (good := match as_map (at_key SourceKey lm) with
    | Some g => Nat.eqb (length g) 3 && forallb (fun f => negb (is_nil (at_key f (Some g))) && source_type (Some g) f) source_keys
    | None => false end).
  assert (E : check_source_key W n lm st = bind (check_field_count W n lm) (fun _ => assert good) st).
  { unfold check_source_key. unfold bind at 1, buffer. cbv zeta. unfold bind at 1, has. pose proof (N source_caller) as N1. unfold is_marked in N1. rewrite N1.
    unfold bind at 1, has. pose proof (N source_missing) as N2. unfold is_marked in N2. rewrite N2. unfold bind. destruct (check_field_count W n lm st) as [st' [[]|]]; [|reflexivity].
    unfold good. destruct (as_map _) as [g|]; [|reflexivity]. cbn [fold_right source_keys forallb]. unfold assert, ret.
    destruct (Nat.eqb (length g) 3), (is_nil (at_key (B "file") (Some g))), (source_type (Some g) (B "file")), (is_nil (at_key (B "function") (Some g))), (source_type (Some g) (B "function")),
      (is_nil (at_key (B "line") (Some g))), (source_type (Some g) (B "line")); reflexivity. }
  assert (G : good = true <-> right_source lm).
  { unfold good, right_source. destruct (at_key SourceKey lm) as [| | | | |g]; cbn [as_map]; try (split; [discriminate|intros (g & X & _); discriminate]).
    cbn [forallb source_keys]. unfold source_type, at_key. cbn [lookup]. rewrite !andb_true_iff, Nat.eqb_eq. split.
    - intros (L & (_ & A) & (_ & C) & (_ & D) & _). exists g. split; [reflexivity|]. split; [exact L|].
      destruct (get (B "file") g) as [[| | | | |]|]; try discriminate. destruct (get (B "function") g) as [[| | | | |]|]; try discriminate.
      destruct (get (B "line") g) as [[| | | | |]|]; try discriminate. repeat split; eexists; reflexivity.
    - intros (g' & [= <-] & L & (s1 & A) & (s2 & C) & (q & D)). rewrite A, C, D. repeat split; exact L. }
  unfold accepts in *. rewrite E. unfold bind. destruct (check_field_count W n lm st) as [st' o] eqn:X. cbn [fst] in *. split.
  - intros A. destruct o as [[]|].
    + unfold assert in A. cbn [fst] in A. destruct good; [|discriminate]. apply CC in A. split; [apply A|]. split; [apply A|]. now apply G.
    + destruct (CS A) as (Y & _). discriminate.
  - intros (A & C & D). destruct CS as (Y & _); [now apply CC|]. injection Y as -> ->. unfold assert. rewrite (proj2 G D). exact F.
Qed.
Print Assumptions C61_source.

(** SourceKey marked: even a right source is reported, its line being a number and not a
    string; the mark is never found to be unused. *)
Theorem C61_source_marked W st lm n : is_marked W source_caller st = false -> is_marked W source_missing st = true ->
  (forall s, at_key (B "caller") lm <> DStr s) -> right_source lm ->
  v_failed (fst (check_source_key W n lm st)) = v_failed st /\
  leaves (check_source_key W n lm) st = add_warning source_missing (v_test st) (B "line: not a string") (v_buffer st) (v_manager st).
Proof.
  intros MC MK NC (g & S & _ & (s1 & A) & (s2 & C) & (q & D)). unfold leaves.
  assert (L : lookup SourceKey lm = Some (DMap g)).
  { unfold at_key in S. destruct (lookup SourceKey lm) as [v|]; [now subst v|discriminate]. }
  assert (K : as_string (at_key (B "caller") lm) = None) by (destruct (at_key (B "caller") lm) as [| | |t| |]; try reflexivity; now destruct (NC t)).
  assert (X : source_states (Some g) = [B "line: not a string"]) by (unfold source_states, source_state, at_key; cbn [lookup flat_map source_keys]; now rewrite A, C, D).
  assert (E : check_source_key W n lm st = warn source_missing (B "line: not a string") (v_buffer st) st).
  { unfold check_source_key. unfold bind at 1, buffer. cbv zeta. unfold is_marked in *. unfold bind at 1, has. rewrite MC. unfold bind at 1, has. rewrite MK.
    rewrite K, L, X. reflexivity. }
  rewrite E. split; reflexivity.
Qed.
Print Assumptions C61_source_marked.

(** SkipDedup marked: the two tests of repeated names accept whatever was logged as long
    as it can be decoded, and record that they were skipped. *)
Theorem C61_skipped W st : is_marked W skip_dedup st = true -> v_failed st = false ->
  (accepts (duplicate_checks W) st <-> snd (e_unmarshal (z_env W) (v_buffer st)) = None) /\
  (accepts (duplicate_checks W) st ->
   leaves (duplicate_checks W) st =
     add_warning skipping_test (v_test st) (B "SkipDedup") [] (add_warning skip_dedup (v_test st) (B "Skipping test") [] (v_manager st))).
Proof.
  intros M F. unfold is_marked in M. unfold accepts, leaves, duplicate_checks, get_map, skip_test, bind, buffer, has, warn, ret, require.
  destruct (e_unmarshal (z_env W) (v_buffer st)) as [lm [e|]]; cbn [snd fst].
  - split; [split; discriminate|discriminate].
  - rewrite M. cbn [negb fst v_failed set_manager v_manager v_test]. split; [tauto|reflexivity].
Qed.
Print Assumptions C61_skipped.

(** ** C62: right handlers pass *)

(** The instances of a warning that a manager has. *)
Definition noted (k : bytes) (m : manager) : list instance := match get k (m_warnings m) with Some r => r_data r | None => [] end.

Definition only_duplicates_may_be_marked (W : surroundings) (m : manager) : Prop :=
  forall w, w_name w <> B "Duplicates" -> has_warning (e_use (z_env W)) w m = false.

Lemma only_unmarked W m : only_duplicates_may_be_marked W m -> unmarked W m.
Proof.
  intros O w I. apply O. assert (X : forallb (fun w => negb (beq (w_name w) (B "Duplicates"))) tested_warnings = true) by reflexivity.
  rewrite forallb_forall in X. specialize (X w I). intros E. rewrite E, beq_refl in X. discriminate.
Qed.

(** Any handler that writes, for the calls the tests make, one line with the members
    that slog's documentation asks for, in their order and repeated names not removed,
    passes all tests if Duplicates is marked and nothing else. *)
Theorem C62_suite_marked W num H m n : surroundings_ok W num -> right_handler W H -> only_duplicates_may_be_marked W m ->
  has_warning (e_use (z_env W)) duplicated m = true ->
  exists m', run_tests (verify_tests W H) m n = ([], m') /\
    noted (B "Duplicates") m' = noted (B "Duplicates") m ++
      [{| Warnings.i_function := B "TestAttributeDuplicate"; i_record := []; Warnings.i_text := B "map[alpha:2 charlie:3]" |};
       {| Warnings.i_function := B "TestAttributeWithDuplicate"; i_record := []; Warnings.i_text := B "map[alpha:2 charlie:3]" |}] /\
    m_only m' = m_only m /\ (forall k, k <> B "Duplicates" -> get k (m_warnings m') = get k (m_warnings m)).
Proof.
  intros OK R O M. pose proof (suite_run W num H (s_unmarshal _ _ OK) (s_classes _ _ OK) (s_num _ _ OK) (s_casing _ _ OK) (s_floats _ _ OK)
    (time_valid _ (proj1 (proj2 (s_when _ _ OK)))) (s_places _ _ OK) R m n (only_unmarked W m O)) as S.
  unfold VerifyProofs.marked in S. rewrite M in S. eexists. split; [exact S|]. split; [|split; [reflexivity|]].
  - unfold noted, add_warning, with_warnings. cbn [m_warnings w_name duplicated]. rewrite !get_put, !beq_refl. cbn [r_data].
    destruct (get (B "Duplicates") (m_warnings m)) as [r|]; cbn [r_data]; [now rewrite <- app_assoc|reflexivity].
  - intros k K. unfold add_warning, with_warnings. cbn [m_warnings w_name duplicated]. rewrite !get_put.
    destruct (beq (B "Duplicates") k) eqn:E; [|reflexivity]. apply beq_eq in E. congruence.
Qed.
Print Assumptions C62_suite_marked.

(** Without the mark it fails exactly the two tests that log a name twice. *)
Theorem C62_suite_unmarked W num H m n : surroundings_ok W num -> right_handler W H -> (forall w, has_warning (e_use (z_env W)) w m = false) ->
  run_tests (verify_tests W H) m n = ([B "TestAttributeDuplicate"; B "TestAttributeWithDuplicate"], m).
Proof.
  intros OK R O. pose proof (suite_run W num H (s_unmarshal _ _ OK) (s_classes _ _ OK) (s_num _ _ OK) (s_casing _ _ OK) (s_floats _ _ OK)
    (time_valid _ (proj1 (proj2 (s_when _ _ OK)))) (s_places _ _ OK) R m n (fun w _ => O w)) as S.
  unfold VerifyProofs.marked in S. now rewrite O in S.
Qed.
Print Assumptions C62_suite_unmarked.

(** flash and sloggy are such handlers, at any time and place. *)
Theorem C62_flash std W num H : stdlib_ok std -> surroundings_ok W num -> flash_answers std W H -> levels_answer H -> right_handler W H.
Proof. intros S OK A L. exact (flash_right std W num S OK H A L). Qed.
Print Assumptions C62_flash.

Theorem C62_sloggy std W num H : stdlib_ok std -> (forall r, In r emoji -> sl_print std r = true) -> surroundings_ok W num ->
  sloggy_answers std W H -> levels_answer H -> right_handler W H.
Proof. intros S EM OK A L. exact (sloggy_right std W num S EM OK H A L). Qed.
Print Assumptions C62_sloggy.

(** *** A concrete run *)

Definition W0 : surroundings :=
  {| z_env := env0 true; z_classes := classes0; z_now := fun _ => (time0, source0); z_when := time0;
     z_float := fun t => match num0 t with Some q => q | None => float_of 0 end;
     z_date := fun t => if beq t (B "2024-03-01T10:00:00Z") then Some (2024, 3, 1)%Z else None;
     z_today := (2024, 3, 1)%Z; z_percent_f := fun _ => B "%f" |}.

Lemma W0_ok : surroundings_ok W0 num0.
Proof.
  split.
  - exact num0_ok.
  - exact (env0_unmarshal true).
  - exact classes0_ok.
  - exact casing0_ok.
  - intros t I. cbn [W0 z_float]. assert (X : forallb (fun t => match num0 t with Some _ => true | None => false end) floats = true) by (vm_compute; reflexivity).
    rewrite forallb_forall in X. specialize (X t I). destruct (num0 t); [reflexivity|discriminate].
  - intros n. repeat split.
  - repeat split.
  - intros n. repeat split; try reflexivity. cbn. discriminate.
Qed.

Definition depth0 : nat := 200.
Definition flash0 : subject :=
  {| u_enabled := fun l x => Z.leb (match l with Some z => z | None => LevelInfo end) x;
     u_handle := fun _ o ops r => match derive std0 depth0 (HBase (new_handler o None)) ops with
       | Some g => match handle_hdl std0 depth0 NoDead g r with Some (Done ws ok) => (concat ws, ok) | _ => ([], false) end
       | None => ([], false) end |}.
Definition sloggy0 : subject :=
  {| u_enabled := fun l x => Z.leb (match l with Some z => z | None => LevelInfo end) x;
     u_handle := fun _ o ops r => match sderive std0 depth0 (SBase (snew_handler o)) ops with
       | Some g => match shandle_hdl log_write std0 depth0 NoDead g r [] with Some (SDone ws ok) => (concat ws, ok) | _ => ([], false) end
       | None => ([], false) end |}.

Lemma levels0 H : u_enabled H = (fun l x => Z.leb (match l with Some z => z | None => LevelInfo end) x) -> levels_answer H.
Proof. intros E l x w A. destruct l; cbn in A; injection A as <-; cbn; rewrite E; reflexivity. Qed.

Lemma enough0 (P : call -> bool) c f : expected W0 c f ->
  (forall cancelled n ops attrs l, plain_call W0 ops attrs l ->
     P {| k_cancelled := cancelled; k_options := plain_options; k_ops := ops; k_record := record_at W0 n LevelInfo attrs |} = true) ->
  (forall n fn ops attrs f, replaced_call W0 fn ops attrs f ->
     P {| k_cancelled := false; k_options := {| o_add_source := false; o_replace := Some fn |}; k_ops := ops; k_record := record_at W0 n LevelInfo attrs |} = true) ->
  (forall o l n, (o = plain_options \/ o = with_source \/ o = {| o_add_source := true; o_replace := Some (replace_basic W0) |}) -> In l [LevelDebug; LevelInfo; LevelWarn; LevelError] ->
     P {| k_cancelled := false; k_options := o; k_ops := []; k_record := record_at W0 n l [] |} = true) ->
  P {| k_cancelled := false; k_options := with_source; k_ops := []; k_record := new_record (z_when W0) None |} = true ->
  P {| k_cancelled := false; k_options := plain_options; k_ops := []; k_record := new_record (zero_time_value W0) None |} = true -> P c = true.
Proof. intros X A B C D E. inversion X; subst; eauto; apply C; cbn; auto 10. Qed.

Definition flash_done (c : call) : bool :=
  match derive std0 depth0 (HBase (new_handler (k_options c) None)) (k_ops c) with
  | Some g => match handle_hdl std0 depth0 NoDead g (k_record c) with Some _ => true | _ => false end
  | None => false end.
Definition sloggy_done (c : call) : bool :=
  match sderive std0 depth0 (SBase (snew_handler (k_options c))) (k_ops c) with
  | Some g => match shandle_hdl log_write std0 depth0 NoDead g (k_record c) [] with Some _ => true | _ => false end
  | None => false end.

Lemma flash_all_done c f : expected W0 c f -> flash_done c = true.
Proof.
  intros X. apply (enough0 flash_done c f X); clear.
  - intros cancelled n ops attrs l P. destruct P; vm_compute; reflexivity.
  - intros n fn ops attrs f P. destruct P; vm_compute; reflexivity.
  - intros o l n [->|[->| ->]] [<-|[<-|[<-|[<-|[]]]]]; vm_compute; reflexivity.
  - vm_compute; reflexivity.
  - vm_compute; reflexivity.
Qed.

Lemma sloggy_all_done c f : expected W0 c f -> sloggy_done c = true.
Proof.
  intros X. apply (enough0 sloggy_done c f X); clear.
  - intros cancelled n ops attrs l P. destruct P; vm_compute; reflexivity.
  - intros n fn ops attrs f P. destruct P; vm_compute; reflexivity.
  - intros o l n [->|[->| ->]] [<-|[<-|[<-|[<-|[]]]]]; vm_compute; reflexivity.
  - vm_compute; reflexivity.
  - vm_compute; reflexivity.
Qed.

Example C62_flash_ex : flash_answers std0 W0 flash0 /\ levels_answer flash0.
Proof.
  split; [|now apply levels0]. intros c f ws ok X L. pose proof (flash_all_done c f X) as D. unfold flash_done in D. unfold flash0, u_handle.
  destruct (derive std0 depth0 _ (k_ops c)) as [g|] eqn:G; [|discriminate]. destruct (handle_hdl std0 depth0 NoDead g (k_record c)) as [out|] eqn:O; [|discriminate].
  rewrite (logs_fun std0 _ _ _ _ _ _ _ (logs_intro std0 _ _ _ _ _ _ _ _ G O) L). reflexivity.
Qed.

Lemma slogs_fun std o ops d r out1 out2 : slogs std o ops d r out1 -> slogs std o ops d r out2 -> out1 = out2.
Proof.
  intros (n1 & H1) (n2 & H2). destruct (H1 (max n1 n2)) as (g1 & D1 & E1); [lia|]. destruct (H2 (max n1 n2)) as (g2 & D2 & E2); [lia|].
  rewrite D1 in D2. injection D2 as <-. rewrite E1 in E2. destruct out1, out2; congruence.
Qed.

Example C62_sloggy_ex : sloggy_answers std0 W0 sloggy0 /\ levels_answer sloggy0 /\ (forall r, In r emoji -> sl_print std0 r = true).
Proof.
  split; [|split; [now apply levels0|]].
  - intros c f ws ok X L. pose proof (sloggy_all_done c f X) as D. unfold sloggy_done in D. unfold sloggy0, u_handle.
    destruct (sderive std0 depth0 _ (k_ops c)) as [g|] eqn:G; [|discriminate]. destruct (shandle_hdl log_write std0 depth0 NoDead g (k_record c) []) as [out|] eqn:O; [|discriminate].
    assert (S : slogs std0 (k_options c) (k_ops c) NoDead (k_record c) (match out with SDone ws ok => Done ws ok | SPanic => Panic end)).
    { eapply slogs_intro; [exact G|]. rewrite O. now destruct out. }
    pose proof (slogs_fun _ _ _ _ _ _ _ S L) as E. destruct out; [injection E as -> ->; reflexivity|discriminate].
  - intros r I. repeat (destruct I as [<-|I]; [reflexivity|]). destruct I.
Qed.

(** The suite has 52 tests; both handlers pass it as said. *)
Example C62_run_ex : length (verify_tests W0 flash0) = 52 /\
  fst (run_tests (verify_tests W0 flash0) (manager0 [duplicated]) 0) = [] /\
  fst (run_tests (verify_tests W0 sloggy0) (manager0 [duplicated]) 7) = [] /\
  run_tests (verify_tests W0 sloggy0) (manager0 []) 0 = ([B "TestAttributeDuplicate"; B "TestAttributeWithDuplicate"], manager0 []).
Proof. vm_compute. repeat split. Qed.

(** States as the checks of C61 find them: the buffer after a call that a test makes. *)
Lemma captured_call m c f : expected W0 c f -> exists st tx src lm, v_failed st = false /\ v_manager st = m /\ v_test st = B "TestX" /\
  source_member c src /\ captured W0 num0 st (members (f tx src)) lm /\ exists d, lm = Some d /\ seen (contents (f tx src)) d.
Proof.
  intros X. assert (R : right_handler W0 flash0) by (eapply C62_flash; [exact std0_ok|exact W0_ok|apply C62_flash_ex|apply C62_flash_ex]).
  pose proof W0_ok as OK. pose proof (time_valid _ (proj1 (proj2 (s_when _ _ OK)))) as V.
  destruct (call_holds W0 num0 flash0 (s_num _ _ OK) (s_floats _ _ OK) V (s_places _ _ OK) R c f X) as (b & _ & tx & src & _ & SM & HB).
  destruct (holds_map W0 num0 (s_unmarshal _ _ OK) b _ HB) as (d & U & S0).
  exists (mk (B "TestX") b m 1), tx, src, (Some d). split; [reflexivity|]. split; [reflexivity|]. split; [reflexivity|]. split; [exact SM|]. split; [|now exists d].
  destruct HB as ((F & O & UF) & line & nl & -> & SP & NL). exists line, nl, (contents (f tx src)). rewrite names_keys.
  split; [reflexivity|]. split; [exact NL|]. split; [exact SP|]. split; [exact O|]. split; [exact UF|]. split; [now apply decode_members|].
  unfold get_map, bind, buffer, mk. cbn [v_buffer]. now rewrite U.
Qed.

Example C61_count_ex : exists st fs lm, captured W0 num0 st fs lm /\ v_failed st = false /\ is_marked W0 duplicated st = false /\
  length fs = 6 /\ NoDup (keys_of fs).
Proof.
  destruct (captured_call (manager0 []) _ _ (x_plain W0 false 0 _ _ _ (p_attributes W0))) as (st & tx & src & lm & F & M & _ & _ & C & _).
  eexists st, _, lm. split; [exact C|]. split; [exact F|]. split; [unfold is_marked; rewrite M; reflexivity|]. split; [reflexivity|]. apply nodupb_ok. reflexivity.
Qed.
Example C61_count_marked_ex : exists st fs lm, captured W0 num0 st fs lm /\ v_failed st = false /\ is_marked W0 duplicated st = true /\
  1 < occurrences (B "alpha") (keys_of fs) /\ ~ NoDup (keys_of fs).
Proof.
  destruct (captured_call (manager0 [duplicated]) _ _ (x_plain W0 false 0 _ _ _ (p_duplicate W0))) as (st & tx & src & lm & F & M & _ & _ & C & _).
  eexists st, _, lm. split; [exact C|]. split; [exact F|]. split; [unfold is_marked; rewrite M; reflexivity|].
  match goal with |- ?a < ?b /\ _ => assert (L : a < b) by (vm_compute; lia) end. split; [exact L|].
  intros ND. pose proof (occurrences_once (B "alpha") _ ND). lia.
Qed.
Example C61_skipped_ex : exists st fs lm, captured W0 num0 st fs lm /\ v_failed st = false /\ is_marked W0 skip_dedup st = true /\
  ~ NoDup (keys_of fs) /\ accepts (duplicate_checks W0) st.
Proof.
  destruct (captured_call (manager0 [skip_dedup]) _ _ (x_plain W0 false 0 _ _ _ (p_duplicate W0))) as (st & tx & src & lm & F & M & _ & _ & C & _).
  eexists st, _, lm. split; [exact C|]. split; [exact F|].
  assert (K : is_marked W0 skip_dedup st = true) by (unfold is_marked; rewrite M; reflexivity). split; [exact K|]. split.
  - match goal with |- ~ NoDup ?l => assert (L : 1 < occurrences (B "alpha") l) by (vm_compute; lia) end.
    intros ND. pose proof (occurrences_once (B "alpha") _ ND). lia.
  - apply (C61_skipped W0 st K F). destruct C as (line & nl & a & _ & _ & _ & _ & _ & _ & G). revert G. unfold get_map, bind, buffer, require.
    destruct (e_unmarshal (z_env W0) (v_buffer st)) as [x [e|]]; [discriminate|reflexivity].
Qed.
Example C61_source_ex : exists st fs lm, captured W0 num0 st fs lm /\ v_failed st = false /\ nothing_marked W0 st /\
  length fs = 4 /\ NoDup (keys_of fs) /\ right_source lm.
Proof.
  destruct (captured_call (manager0 []) _ _ (x_source W0 0)) as (st & tx & src & lm & F & M & _ & SM & C & d & -> & S0).
  eexists st, _, (Some d). split; [exact C|]. split; [exact F|]. split; [intros w; unfold is_marked; rewrite M; reflexivity|]. split; [reflexivity|].
  cbn in SM. split.
  - apply nodupb_ok. destruct SM as [-> | ->]; reflexivity.
  - assert (X : exists g, get SourceKey (contents (header tx "INFO" ++ [src])) = Some (DMap g) /\ length g = 3 /\
      get (B "file") g = Some (DStr (src_file source0)) /\ get (B "function") g = Some (DStr (src_function source0)) /\
      get (B "line") g = Some (DNum (Q2Qc (inject_Z (src_line source0))))) by (destruct SM as [-> | ->]; eexists; repeat split).
    destruct X as (g & E & L & A & B & D).
    destruct (seen_map _ _ SourceKey g S0) as (g' & E' & SG); [unfold at_key; cbn [lookup]; now rewrite E|].
    exists g'. split; [exact E'|].
    pose proof (seen_size _ _ SG) as SZ. cbn [size] in SZ. split; [congruence|].
    assert (LF : forall k v, leaf v = true -> v <> DNull -> get k g = Some v -> get k g' = Some v).
    { intros k v LV N G. assert (Y : at_key k (Some g) = v) by (unfold at_key; cbn [lookup]; now rewrite G).
      pose proof (seen_leaf g g' k v SG Y LV) as Z. unfold at_key in Z. cbn [lookup] in Z. destruct (get k g'); congruence. }
    split; [|split]; eexists; (apply LF; [|discriminate|eassumption]; reflexivity).
Qed.
(** All marked: the accepted record of the first example stays accepted. *)
Example C61_marks_ex : exists st fs lm, captured W0 num0 st fs lm /\ nothing_marked W0 st /\ accepts (run_check W0 flash0 (FieldCount 6 lm)) st.
Proof.
  destruct (captured_call (manager0 []) _ _ (x_plain W0 false 0 _ _ _ (p_attributes W0))) as (st & tx & src & lm & F & M & _ & _ & C & _).
  eexists st, _, lm. split; [exact C|]. assert (N : nothing_marked W0 st) by (intros w; unfold is_marked; rewrite M; reflexivity). split; [exact N|].
  apply (C61_count W0 num0 st _ lm 6 (s_unmarshal _ _ W0_ok) (s_classes _ _ W0_ok) C F (N duplicated)). split; [reflexivity|]. apply nodupb_ok. reflexivity.
Qed.
(** LevelCase marked and a level in lower case; a level that is missing. *)
Example C61_level_ex :
  is_marked W0 level_case (mk (B "TestX") [] (manager0 [level_case]) 0) = true /\
  leaves (check_level_key W0 (B "INFO") (Some [(B "level", d_str "info")])) (mk (B "TestX") [] (manager0 [level_case]) 0) =
    add_warning level_case (B "TestX") (B "'info'") [] (manager0 [level_case]) /\
  accepts (check_level_key W0 (B "INFO") (Some [])) (mk (B "TestX") [] (manager0 [level_case]) 0).
Proof. repeat split. Qed.
