(** Running the tests of the verification suite against a right handler. *)

From Coq Require Import Ascii String List ZArith NArith Bool Arith Lia QArith Qcanon Permutation.
From Verif Require Import Bytes BytesProofs GoSort Json Slog Replace PropReplace Warnings FieldCounter SpecFields FieldGrammar BenchChecks SpecChecks ChecksProofs
  Complex PropBigGroup PropComplex TextProofs VerifyChecks VerifyTests VerifyLines SpecVerify.
Import ListNotations.
Local Open Scope nat_scope.
Local Open Scope list_scope.
Local Open Scope test_scope.

(** ** Maps *)

(** The map [d] is [m], in some order. *)
Definition seen (m d : dmap) : Prop := valid (DMap m) /\ valid (DMap d) /\ same (DMap m) (DMap d).

Lemma seen_get m d : seen m d -> forall k, same_option (get k m) (get k d).
Proof. intros (_ & _ & S0). inversion S0; subst. assumption. Qed.

Lemma seen_found m d k : seen m d -> found k (Some d) = found k (Some m).
Proof.
  intros S0. pose proof (seen_get m d S0 k) as G. unfold found, lookup. destruct (get k m), (get k d); inversion G; reflexivity.
Qed.

Lemma seen_at m d k : seen m d -> same (at_key k (Some m)) (at_key k (Some d)) /\ valid (at_key k (Some m)) /\ valid (at_key k (Some d)).
Proof.
  intros S0. pose proof (seen_get m d S0 k) as G. destruct S0 as (V1 & V2 & _). unfold at_key, lookup.
  destruct (get k m) as [v|] eqn:G1, (get k d) as [w|] eqn:G2; inversion G; subst; repeat split; try constructor; try assumption;
    eauto using valid_get.
Qed.

Lemma seen_equal m d k v : seen m d -> at_key k (Some m) = v -> deep_equal v (at_key k (Some d)) = true.
Proof. intros S0 <-. destruct (seen_at m d k S0) as (S1 & V1 & V2). now apply deep_equal_same. Qed.

Definition leaf (v : dyn) : bool := match v with DMap _ | DArr _ => false | _ => true end.

Lemma same_leaf v w : same v w -> leaf v = true -> w = v.
Proof. intros S0. inversion S0; subst; cbn; intros E; try discriminate; reflexivity. Qed.

Lemma seen_leaf m d k v : seen m d -> at_key k (Some m) = v -> leaf v = true -> at_key k (Some d) = v.
Proof. intros S0 <- L. destruct (seen_at m d k S0) as (S1 & _). now apply same_leaf. Qed.

Lemma seen_map m d k g : seen m d -> at_key k (Some m) = DMap g -> exists g', at_key k (Some d) = DMap g' /\ seen g g'.
Proof.
  intros S0 E. destruct (seen_at m d k S0) as (S1 & V1 & V2). rewrite E in S1, V1. destruct (at_key k (Some d)) as [| | | | |g'] eqn:E2; try (now inversion S1).
  exists g'. repeat split; assumption.
Qed.

Lemma seen_nil m d k : seen m d -> is_nil (at_key k (Some d)) = is_nil (at_key k (Some m)).
Proof. intros S0. destruct (seen_at m d k S0) as (S1 & _). inversion S1; reflexivity. Qed.

Lemma wf_length (a b : dmap) : wf a -> wf b -> (forall k, get k a <> None <-> get k b <> None) -> length a = length b.
Proof.
  intros WA WB E. unfold wf in *. rewrite <- (map_length fst a), <- (map_length fst b).
  assert (I : forall k, In k (map fst a) <-> In k (map fst b)).
  { intros k. specialize (E k). assert (X : forall m : dmap, get k m <> None <-> In k (map fst m)).
    { intros m. split.
      - intros N. destruct (in_dec (list_eq_dec ascii_dec) k (map fst m)) as [I|N']; [exact I|]. exfalso. apply N. now apply get_none.
      - intros I N. apply get_none in N. contradiction. }
    rewrite <- !X. exact E. }
  apply Nat.le_antisymm; apply NoDup_incl_length; try assumption; intros k; apply I.
Qed.

Lemma seen_size m d : seen m d -> size (Some d) = size (Some m).
Proof.
  intros S0. cbn [size]. pose proof (seen_get m d S0) as G. destruct S0 as (V1 & V2 & _). symmetry.
  apply wf_length; [now apply valid_wf|now apply valid_wf|]. intros k. specialize (G k). inversion G; split; congruence.
Qed.

Lemma seen_map_equal m d e : seen m d -> valid (DMap e) -> same (DMap e) (DMap m) -> map_equal (Some e) (Some d) = true.
Proof. intros (V1 & V2 & S0) VE S1. cbn [map_equal]. apply deep_equal_same; [exact VE|exact V2|]. eapply same_trans; eassumption. Qed.

(** Two maps by their entries. *)
Lemma same_entries (e m : dmap) : wf e -> wf m -> length e = length m ->
  Forall (fun kv => exists w, get (fst kv) m = Some w /\ same (snd kv) w) e -> same (DMap e) (DMap m).
Proof.
  intros WE WM L F. constructor. intros k. rewrite Forall_forall in F.
  destruct (get k e) as [v|] eqn:G.
  - apply get_some_in in G. destruct (F _ G) as (w & GW & S0). cbn [fst snd] in *. rewrite GW. now constructor.
  - destruct (get k m) as [w|] eqn:GW; [|constructor]. exfalso.
    assert (I : incl (map fst m) (map fst e)).
    { apply NoDup_length_incl; [exact WE|rewrite !map_length; lia|]. intros x Ix. apply in_map_iff in Ix. destruct Ix as ([y v] & <- & Ix).
      destruct (F _ Ix) as (w' & GW' & _). cbn [fst] in *. apply get_some_in in GW'. apply (in_map fst) in GW'. exact GW'. }
    apply get_some_in in GW. apply (in_map fst) in GW. apply I in GW. apply get_none in G. contradiction.
Qed.

(** ** Lines *)

Section Right.
Variable W : surroundings.
Variable num : bytes -> option Qc.
Variable H : subject.

Hypothesis UN : unmarshal_ok num (z_env W).
Hypothesis CLS : classes_ok (z_classes W).
Hypothesis NUM : num_ok num.
Hypothesis CSOK : casing_ok (cs W).
Hypothesis FLOATS : forall t, In t floats -> num t = Some (z_float W t).
Hypothesis WHEN : valid_utf8 (t_format (z_when W) RFC3339Nano) = true.
Hypothesis SOURCES : forall n, let s := snd (z_now W n) in
  valid_utf8 (src_function s) = true /\ valid_utf8 (src_file s) = true /\ (Z.abs (src_line s) <= 2 ^ 53)%Z.
Hypothesis RIGHT : right_handler W H.

Definition item_ok (i : item) : Prop :=
  (if valid_utf8 (fst (fst i)) then decode num (snd (fst i)) else None) = Some (snd i) /\ valid (snd i).

Lemma ok_text k s : valid_utf8 (B k) = true -> valid_utf8 s = true -> item_ok (i_text k s).
Proof. intros K S0. split; [|constructor]. cbn [i_text fst snd decode]. now rewrite K, S0. Qed.

Lemma ok_int k z : valid_utf8 (B k) = true -> (Z.abs z <= 2 ^ 53)%Z -> item_ok (i_int k z).
Proof. intros K Z. split; [|constructor]. cbn [i_int fst snd decode]. now rewrite K, (num_exact _ NUM). Qed.

Lemma ok_float k t : valid_utf8 (B k) = true -> In t floats -> item_ok (i_float W k t).
Proof. intros K I. split; [|constructor]. cbn [i_float fst snd decode]. now rewrite K, (FLOATS t I). Qed.

Lemma items_contents l : Forall item_ok l -> forall m, valid (DMap m) ->
  decode_fields num (members l) m = Some (fold_left (fun m i => put (fst (fst i)) (snd i) m) l m) /\
  valid (DMap (fold_left (fun m i => put (fst (fst i)) (snd i) m) l m)).
Proof.
  induction 1 as [|[[k j] v] l [D V] F IH]; intros m VM; [now split|]. cbn [members map fst snd decode_fields fold_left] in *. rewrite D.
  apply IH. now apply ComplexRecord.valid_put.
Qed.

Lemma decode_members l : Forall item_ok l -> decode num (JObj (members l)) = Some (DMap (contents l)) /\ valid (DMap (contents l)).
Proof.
  intros F. destruct (items_contents l F [] ltac:(repeat constructor)) as [D V]. split; [|exact V]. rewrite decode_obj. unfold contents. now rewrite D.
Qed.

Lemma ok_group k l : valid_utf8 (B k) = true -> Forall item_ok l -> item_ok (i_group k l).
Proof. intros K F. destruct (decode_members l F) as [D V]. split; [|exact V]. cbn [i_group fst snd]. now rewrite K, D. Qed.

Lemma ok_other k j v : valid_utf8 (B k) = true -> decode num j = Some v -> valid v -> item_ok (B k, j, v).
Proof. intros K D V. split; [|exact V]. cbn [fst snd]. now rewrite K. Qed.

Lemma ok_header tx level : valid_utf8 tx = true -> valid_utf8 (B level) = true -> Forall item_ok (header tx level).
Proof.
  intros T L. repeat constructor; try (cbn [i_text fst snd decode]; rewrite ?T; reflexivity).
  cbn [i_str i_text fst snd decode]. rewrite L. reflexivity.
Qed.

Lemma escapes_valid x : In x escape_cases -> valid_utf8 (fst x) = true /\ valid_utf8 (snd x) = true.
Proof.
  assert (A : forallb (fun x => valid_utf8 (fst x) && valid_utf8 (snd x)) escape_cases = true) by (vm_compute; reflexivity).
  rewrite forallb_forall in A. intros I. apply andb_true_iff. now apply A.
Qed.

Ltac an_item :=
  first [ apply ok_group; [reflexivity|]
        | apply ok_text; [reflexivity|first [reflexivity|assumption]]
        | apply ok_int; [reflexivity|first [assumption|vm_compute; discriminate]]
        | apply ok_float; [reflexivity|unfold floats; cbn [In]; tauto]
        | apply ok_other; [reflexivity|reflexivity|repeat constructor] ].
Ltac items := repeat first [apply Forall_nil|apply Forall_cons|an_item].

Lemma plain_items ops attrs l : plain_call W ops attrs l -> Forall item_ok l.
Proof.
  intros P. inversion P as [| | | | | | | | | | | | | | | | | | | | | | | | | | | | | |x IX|]; subst; try (unfold first, pi, i_str; items; fail).
  destruct (escapes_valid x IX) as [V1 V2]. items.
Qed.

Definition good (l : list item) : Prop :=
  Forall item_ok l /\ forallb ordinary (names l) = true /\ unfielded (JObj (members l)) = true.

Lemma plain_good ops attrs l tx level : plain_call W ops attrs l -> valid_utf8 tx = true -> valid_utf8 (B level) = true -> good (header tx level ++ l).
Proof.
  intros P T L. split; [apply Forall_app; split; [now apply ok_header|now apply (plain_items ops attrs)]|].
  split; inversion P; subst; reflexivity.
Qed.

Lemma replaced_items fn ops attrs f tx : replaced_call W fn ops attrs f -> valid_utf8 tx = true -> Forall item_ok (f tx).
Proof.
  intros P T. inversion P; subst; try (apply Forall_app; split; [now apply ok_header|]); try (now apply ok_header); unfold pi, i_str; items.
Qed.

Lemma source_ok n i : source_group (snd (z_now W n)) i -> item_ok i /\ ordinary (fst (fst i)) = true /\ unfielded (JObj [fst i]) = true.
Proof. destruct (SOURCES n) as (S1 & S2 & S3). intros [-> | ->]; (split; [an_item; items|now split]). Qed.

Lemma expected_good c f tx src : expected W c f -> valid_utf8 tx = true -> source_member c src -> good (f tx src).
Proof.
  intros X T SM. inversion X as [b n ops attrs l P|n|n|n| | |n|n fn ops attrs f' P|n]; subst; clear X.
  - now apply (plain_good ops attrs).
  - split; [now apply ok_header|now split].
  - split; [now apply ok_header|now split].
  - split; [now apply ok_header|now split].
  - split; [now apply ok_header|now split].
  - split; [unfold i_str; items|now split].
  - destruct (SOURCES n) as (S1 & S2 & S3). unfold source_member in SM. cbn in SM.
    destruct SM as [-> | ->]; (split; [apply Forall_app; split; [now apply ok_header|items]|now split]).
  - split; [now apply (replaced_items fn ops attrs)|]. inversion P; subst; now split.
  - split; [unfold i_str; items|now split].
Qed.

Lemma names_keys l : keys_of (members l) = names l.
Proof. unfold keys_of, members, names. now rewrite map_map. Qed.

(** A buffer that holds a line with these members. *)
Definition holds (b : bytes) (l : list item) : Prop :=
  good l /\ exists line nl, b = line ++ nl /\ spelled (members l) line /\ (nl = [newline] \/ nl = [chr 13; newline]).

Lemma holds_map b l : holds b l -> exists d, e_unmarshal (z_env W) b = (Some d, None) /\ seen (contents l) d.
Proof.
  intros ((F & _ & _) & line & nl & -> & SP & NL). destruct (decode_members l F) as [D V]. destruct (spelled_parses _ _ SP) as [P _].
  assert (P' : parse_json (line ++ nl) = Some (JObj (members l))) by (destruct NL as [-> | ->]; [now apply parse_newline|now apply parse_crlf]).
  destruct (UN _ _ _ P' D) as (d & U & VD & S0). exists d. split; [exact U|]. repeat split; assumption.
Qed.

Lemma holds_counts b l : holds b l -> NoDup (names l) -> exists c rest, count_fields (z_classes W) b = Some (Ok (c, rest)) /\
  num_fields c = length l /\ duplicates c = [].
Proof.
  intros ((_ & O & U) & line & nl & -> & SP & _) ND. rewrite <- names_keys in O, ND.
  destruct (spelled_distinct _ _ line nl CLS SP O U ND) as (c & R & NF & D). exists c, (input nl).
  split; [exact R|]. split; [|exact D]. rewrite NF. unfold members. apply map_length.
Qed.

Lemma holds_duplicates b l ds : holds b l -> NoDup ds -> (forall k, In k ds <-> 1 < occurrences k (names l)) ->
  exists c rest, count_fields (z_classes W) b = Some (Ok (c, rest)) /\ num_fields c = distinct (names l) /\
    Permutation (duplicates c) (map (fun k => (k, N.of_nat (occurrences k (names l)))) ds).
Proof.
  intros ((_ & O & U) & line & nl & -> & SP & _) ND I. rewrite <- names_keys in O, I.
  destruct (spelled_duplicates _ _ line nl ds CLS SP O U ND I) as (c & R & NF & D). exists c, (input nl).
  rewrite names_keys in NF, D. split; [exact R|]. split; assumption.
Qed.

(** ** Running *)

Definition mk (nm b : bytes) (m : manager) (n : nat) : state :=
  {| v_test := nm; v_buffer := b; v_manager := m; v_failed := false; v_records := n |}.

(** Whether a test passes, and the manager after it. *)
Definition outcome (t : test unit) (st : state) : bool * manager := (negb (v_failed (fst (t st))), v_manager (fst (t st))).

Lemma outcome_step {A} (t : test A) k st st' a : t st = (st', Some a) -> outcome (bind t k) st = outcome (k a) st'.
Proof. intros E. unfold outcome, bind. now rewrite E. Qed.

Lemma outcome_assoc {A C} (t : test A) (k : A -> test C) (k' : C -> test unit) st : outcome (bind (bind t k) k') st = outcome (bind t (fun a => bind (k a) k')) st.
Proof. unfold outcome, bind. destruct (t st) as [st' [a|]]; reflexivity. Qed.

Lemma outcome_ret {A} (a : A) k st : outcome (bind (ret a) k) st = outcome (k a) st.
Proof. reflexivity. Qed.

Lemma outcome_last (t : test unit) st : outcome t st = outcome (bind t (fun _ => ret tt)) st.
Proof. unfold outcome, bind. destruct (t st) as [st' [[]|]]; reflexivity. Qed.

Lemma outcome_done nm b m n : outcome (ret tt) (mk nm b m n) = (true, m).
Proof. reflexivity. Qed.

Lemma outcome_assert b (k : unit -> test unit) st : b = true -> outcome (bind (assert b) k) st = outcome (k tt) st.
Proof. intros ->. reflexivity. Qed.

Lemma outcome_require b (k : unit -> test unit) st : b = true -> outcome (bind (require b) k) st = outcome (k tt) st.
Proof. intros ->. reflexivity. Qed.

(** Nothing but Duplicates is marked. *)
Definition tested_warnings : list warning :=
  [empty_attributes; group_inline; level_var; with_group_empty; zero_pc; zero_time; canceled_context; default_level; level_math; message_key;
   no_repl_attr; no_repl_attr_basic; repl_attr_group; with_group; no_empty_name; no_nil_value; time_millis; time_seconds;
   group_empty; group_duration; group_with_top; level_case; resolver; source_missing; source_caller; string_any;
   duration_string; duration_seconds; duration_millis; skip_dedup].

Definition unmarked (m : manager) : Prop := forall w, In w tested_warnings -> has_warning (e_use (z_env W)) w m = false.

Lemma outcome_has w (k : bool -> test unit) nm b m n : unmarked m -> In w tested_warnings -> outcome (bind (has W w) k) (mk nm b m n) = outcome (k false) (mk nm b m n).
Proof. intros U I. apply outcome_step. unfold has, mk. cbn [v_manager]. now rewrite (U w I). Qed.

Lemma outcome_has_any w1 w2 (k : list warning -> test unit) nm b m n : unmarked m -> In w1 tested_warnings -> In w2 tested_warnings ->
  outcome (bind (has_any W [w1; w2]) k) (mk nm b m n) = outcome (k []) (mk nm b m n).
Proof. intros U I1 I2. apply outcome_step. unfold has_any, mk. cbn [v_manager]. unfold has_warnings. cbn [filter]. rewrite (U w1 I1), (U w2 I2). now destruct (e_use _). Qed.

Lemma outcome_buffer (k : bytes -> test unit) nm b m n : outcome (bind buffer k) (mk nm b m n) = outcome (k b) (mk nm b m n).
Proof. reflexivity. Qed.

Lemma outcome_reset (k : unit -> test unit) nm b m n : outcome (bind buffer_reset k) (mk nm b m n) = outcome (k tt) (mk nm [] m n).
Proof. reflexivity. Qed.

Lemma call_holds c f : expected W c f -> exists b, u_handle H (k_cancelled c) (k_options c) (k_ops c) (k_record c) = (b, true) /\
  exists tx src, time_text W tx /\ source_member c src /\ holds b (f tx src).
Proof.
  intros X. destruct (right_lines _ _ RIGHT c f X) as (tx & src & T & SM & line & nl & U & SP & NL). exists (line ++ nl). split; [exact U|].
  exists tx, src. split; [exact T|]. split; [exact SM|]. split; [apply (expected_good c); [exact X|apply T|exact SM]|]. exists line, nl. auto.
Qed.

(** A call to the logger. *)
Lemma outcome_log cancelled s ops level attrs attrs' f (k : unit -> test unit) nm m n r :
  (match s_level s with Some z => z | None => LevelInfo end <= level)%Z ->
  record_attrs attrs = attrs' ->
  expected W {| k_cancelled := cancelled; k_options := s_options s; k_ops := ops; k_record := record_at W n level attrs' |} f ->
  (forall b tx src, time_text W tx -> holds b (f tx src) -> outcome (k tt) (mk nm b m (n + 1)) = r) ->
  outcome (bind (log_context W H cancelled s ops level test_message attrs) k) (mk nm [] m n) = r.
Proof.
  intros L <- X K. destruct (call_holds _ _ X) as (b & U & tx & src & T & SM & HB). cbn [k_cancelled k_options k_ops k_record] in U.
  rewrite (outcome_step _ _ _ (mk nm b m (n + 1)) tt); [now apply (K b tx src)|]. unfold log_context, mk. cbn [v_records v_buffer].
  rewrite (right_levels _ _ RIGHT). assert (E : Z.leb (match s_level s with Some z => z | None => LevelInfo end) level = true) by now apply Z.leb_le.
  rewrite E. unfold record_at in U. destruct (z_now W n) as [t place]. cbn [fst snd] in U. rewrite U. reflexivity.
Qed.

Lemma outcome_handle s rec f (k : unit -> test unit) nm m n r :
  expected W {| k_cancelled := false; k_options := s_options s; k_ops := []; k_record := rec |} f ->
  (forall b tx src, time_text W tx -> match Slog.r_source rec with Some s => source_group s src | None => True end -> holds b (f tx src) -> outcome (k tt) (mk nm b m n) = r) ->
  outcome (bind (handle H s rec) k) (mk nm [] m n) = r.
Proof.
  intros X K. destruct (call_holds _ _ X) as (b & U & tx & src & T & SM & HB). cbn [k_cancelled k_options k_ops k_record] in U.
  rewrite (outcome_step _ _ _ (mk nm b m n) tt); [now apply (K b tx src)|]. unfold handle, mk. cbn [v_buffer]. rewrite U. reflexivity.
Qed.

Lemma outcome_map (k : log_map -> test unit) nm b m n l r : holds b l ->
  (forall d, seen (contents l) d -> outcome (k (Some d)) (mk nm b m n) = r) -> outcome (bind (get_map W) k) (mk nm b m n) = r.
Proof.
  intros HB K. destruct (holds_map b l HB) as (d & U & S0). rewrite (outcome_step _ _ _ (mk nm b m n) (Some d)); [now apply K|].
  unfold get_map, bind, buffer, mk. cbn [v_buffer]. rewrite U. reflexivity.
Qed.

Lemma counter_is nm b m n l : holds b l -> NoDup (names l) -> exists c, field_counter W (mk nm b m n) = (mk nm b m n, Some c) /\
  num_fields c = length l /\ duplicates c = [].
Proof.
  intros HB ND. destruct (holds_counts b l HB ND) as (c & rest & R & NF & D). exists c. split; [|now split].
  unfold field_counter, bind, buffer, mk. cbn [v_buffer]. rewrite R. reflexivity.
Qed.

Lemma contents_length l : NoDup (names l) -> length (contents l) = length l.
Proof.
  unfold contents. assert (G : forall l (m : dmap), wf m -> NoDup (names l ++ map fst m) -> 
    length (fold_left (fun m i => put (fst (fst i)) (snd i) m) l m) = length l + length m).
  { clear. induction l as [|[[k j] v] l IH]; intros m WM ND; [reflexivity|]. cbn [names map fst snd fold_left app length] in *.
    inversion ND as [|x y NI ND']; subst.
    assert (P : Permutation (map fst (put k v m)) (k :: map fst m)).
    { apply NoDup_Permutation.
      - exact (wf_put k v m WM).
      - constructor; [|exact WM]. intros I. apply NI. apply in_or_app. now right.
      - intros x.
        assert (X : forall m : dmap, In x (map fst m) <-> get x m <> None).
        { intros m'. split; [intros I N; apply get_none in N; contradiction|]. intros N.
          destruct (in_dec (list_eq_dec ascii_dec) x (map fst m')) as [I|N']; [exact I|]. exfalso. apply N. now apply get_none. }
        rewrite X, get_put. cbn [In]. rewrite X. destruct (beq k x) eqn:E.
        + apply beq_eq in E. subst. split; [now left|discriminate].
        + split; [now right|]. intros [->|N]; [rewrite beq_refl in E; discriminate|exact N]. }
    rewrite IH.
    - rewrite <- (map_length fst (put k v m)), (Permutation_length P). cbn [length]. rewrite map_length. lia.
    - now apply wf_put.
    - apply (Permutation_NoDup (l := k :: map (fun i => fst (fst i)) l ++ map fst m)).
      + rewrite P. apply Permutation_middle.
      + exact ND. }
  intros ND. rewrite G; [cbn; lia|constructor|]. cbn [map]. now rewrite app_nil_r.
Qed.

Lemma outcome_count (k : unit -> test unit) nm b m n l d c : holds b l -> NoDup (names l) -> length l = c -> seen (contents l) d ->
  outcome (bind (check_field_count W c (Some d)) k) (mk nm b m n) = outcome (k tt) (mk nm b m n).
Proof.
  intros HB ND L S0. apply outcome_step. destruct (counter_is nm b m n l HB ND) as (cs & FC & NF & D).
  assert (CC : count_check W c (Some d) (mk nm b m n) = (mk nm b m n, Some tt)).
  { unfold count_check, bind. rewrite (seen_size _ _ S0). cbn [size]. rewrite contents_length by exact ND. rewrite L, Nat.eqb_refl. cbn [assert].
    rewrite FC, NF, L, Nat.eqb_refl, D. reflexivity. }
  unfold check_field_count, bind at 1, has. unfold mk at 1. cbn [v_manager]. destruct (has_warning _ duplicated m); [|exact CC].
  unfold bind. fold (mk nm b m n). rewrite FC, D. exact CC.
Qed.

Lemma upper_id s : forallb (fun r => N.ltb r 128 && N.eqb (ascii_upper r) r) (runes s) = true -> SpecText.text (runes s) = s -> upper W s = s.
Proof.
  intros A E. unfold upper. rewrite map_runes_text. transitivity (SpecText.text (runes s)); [|exact E]. f_equal.
  rewrite forallb_forall in A. rewrite <- (map_id (runes s)) at 2. apply map_ext_in. intros r I. apply A in I. apply andb_true_iff in I. destruct I as [I1 I2].
  change (cs_upper (cs W) r = r). rewrite (up_ascii _ CSOK) by now apply N.ltb_lt. now apply N.eqb_eq.
Qed.

Lemma outcome_level (k : unit -> test unit) nm b m n e d lv : unmarked m -> seen e d -> upper W (B lv) = B lv -> at_key LevelKey (Some e) = DStr (B lv) ->
  outcome (bind (check_level_key W (B lv) (Some d)) k) (mk nm b m n) = outcome (k tt) (mk nm b m n).
Proof.
  intros U S0 UP L. unfold check_level_key. rewrite outcome_assoc, outcome_has by (auto; cbn; tauto). cbv beta iota. rewrite UP.
  apply outcome_assert. now apply (seen_equal e).
Qed.

Lemma outcome_message (k : unit -> test unit) nm b m n e d : unmarked m -> seen e d -> at_key MessageKey (Some e) = DStr test_message ->
  outcome (bind (check_message_key W test_message (Some d)) k) (mk nm b m n) = outcome (k tt) (mk nm b m n).
Proof.
  intros U S0 L. unfold check_message_key. rewrite outcome_assoc, outcome_has by (auto; cbn; tauto). cbv beta iota.
  apply outcome_assert. now apply (seen_equal e).
Qed.

Lemma outcome_math (k : unit -> test unit) nm b m n s lv want text : unmarked m ->
  Bool.eqb (Z.leb (match s_level s with Some z => z | None => LevelInfo end) lv) want = true ->
  outcome (bind (check_level_math W H s lv want text) k) (mk nm b m n) = outcome (k tt) (mk nm b m n).
Proof.
  intros U L. unfold check_level_math. rewrite outcome_assoc, outcome_has by (auto; cbn; tauto). cbv beta iota. cbn [negb].
  apply outcome_assert. unfold enabled. now rewrite (right_levels _ _ RIGHT).
Qed.

Lemma outcome_resolution (k : unit -> test unit) nm b m n v a : unmarked m -> deep_equal v a = true ->
  outcome (bind (check_resolution W v a) k) (mk nm b m n) = outcome (k tt) (mk nm b m n).
Proof.
  intros U L. unfold check_resolution. rewrite outcome_assoc, outcome_has by (auto; cbn; tauto). cbv beta iota.
  now apply outcome_assert.
Qed.

Lemma outcome_no_empty (k : unit -> test unit) nm b m n l d c : unmarked m -> holds b l -> NoDup (names l) -> length l = c -> seen (contents l) d ->
  found [] (Some (contents l)) = false ->
  outcome (bind (check_no_empty_attribute W c (Some d)) k) (mk nm b m n) = outcome (k tt) (mk nm b m n).
Proof.
  intros U HB ND L S0 F. unfold check_no_empty_attribute. rewrite outcome_assoc, outcome_has by (auto; cbn; tauto). cbv beta iota.
  rewrite outcome_assoc, (outcome_count _ _ _ _ _ l) by assumption. apply outcome_assert. rewrite (seen_found _ _ _ S0), F. reflexivity.
Qed.

Fixpoint nodupb (l : list bytes) : bool :=
  match l with [] => true | k :: l' => negb (existsb (beq k) l') && nodupb l' end.
Lemma nodupb_ok l : nodupb l = true -> NoDup l.
Proof.
  induction l as [|k l IH]; cbn; intros E; constructor; apply andb_true_iff in E; destruct E as [E1 E2]; [|now apply IH].
  intros I. apply negb_true_iff in E1. rewrite <- not_true_iff_false in E1. apply E1. apply existsb_exists. exists k. split; [exact I|apply beq_refl].
Qed.

Ltac true_here :=
  match goal with
  | S0 : seen _ ?d |- deep_equal _ (at_key _ (Some ?d)) = true => apply (seen_equal _ _ _ _ S0); reflexivity
  | S0 : seen _ ?d |- context [found ?k (Some ?d)] => rewrite (seen_found _ _ k S0); reflexivity
  | S0 : seen _ ?d |- context [is_nil (at_key ?k (Some ?d))] => rewrite (seen_nil _ _ k S0); reflexivity
  | S0 : seen _ ?d |- context [size (Some ?d)] => rewrite (seen_size _ _ S0); reflexivity
  | |- context [enabled H _ _] => unfold enabled; rewrite (right_levels _ _ RIGHT); reflexivity
  | S0 : seen ?e ?d |- context [at_key ?k (Some ?d)] => rewrite (seen_leaf e d k _ S0 eq_refl eq_refl); reflexivity
  | |- _ = true => reflexivity
  end.
Ltac a_call := first [eapply x_plain; constructor | eapply x_replaced; constructor | constructor].
Ltac step :=
  lazymatch goal with
  | |- outcome (ret tt) _ = _ => reflexivity
  | |- outcome (bind (bind _ _) _) _ = _ => rewrite outcome_assoc
  | |- outcome (bind (ret _) _) _ = _ => rewrite outcome_ret
  | |- outcome (bind (assert _) _) _ = _ => rewrite outcome_assert; [|true_here]
  | |- outcome (bind (require _) _) _ = _ => rewrite outcome_require; [|true_here]
  | |- outcome (bind (equal_at _ _ _) _) _ = _ => unfold equal_at
  | |- outcome (bind (has _ _) _) _ = _ => rewrite outcome_has; [|assumption|cbn; tauto]; cbn [negb andb]
  | |- outcome (bind (has_any _ _) _) _ = _ => rewrite outcome_has_any; [|assumption|cbn; tauto|cbn; tauto]
  | |- outcome (bind buffer_reset _) _ = _ => rewrite outcome_reset
  | |- outcome (bind buffer _) _ = _ => rewrite outcome_buffer
  | HB : holds ?b _ |- outcome (bind (get_map _) _) (mk _ ?b _ _) = _ =>
      let d := fresh "d" in let S0 := fresh "SEEN" in apply (outcome_map _ _ _ _ _ _ _ HB); intros d S0
  | |- outcome (bind (info _ _ _ _ _) _) _ = _ => unfold info, log
  | |- outcome (bind (log _ _ _ _ _ _ _) _) _ = _ => unfold log
  | |- outcome (bind (log_context _ _ _ _ _ _ _ _) _) _ = _ =>
      let b := fresh "b" in let tx := fresh "tx" in let T := fresh "TIME" in let HB := fresh "HB" in
      let src := fresh "src" in
      eapply outcome_log; [vm_compute; discriminate|reflexivity|a_call|intros b tx src T HB]
  | |- outcome (bind (handle _ _ _) _) _ = _ =>
      let b := fresh "b" in let tx := fresh "tx" in let T := fresh "TIME" in let HB := fresh "HB" in
      let src := fresh "src" in let SM := fresh "SM" in
      eapply outcome_handle; [a_call|intros b tx src T SM HB]
  | HB : holds ?b _, S0 : seen _ ?d |- outcome (bind (check_field_count _ _ (Some ?d)) _) (mk _ ?b _ _) = _ =>
      rewrite (outcome_count _ _ _ _ _ _ _ _ HB); [|apply nodupb_ok; reflexivity|reflexivity|exact S0]
  | U : unmarked _, HB : holds ?b _, S0 : seen _ ?d |- outcome (bind (check_no_empty_attribute _ _ (Some ?d)) _) (mk _ ?b _ _) = _ =>
      rewrite (outcome_no_empty _ _ _ _ _ _ _ _ U HB); [|apply nodupb_ok; reflexivity|reflexivity|exact S0|reflexivity]
  | U : unmarked _, S0 : seen _ ?d |- outcome (bind (check_level_key _ (B _) (Some ?d)) _) _ = _ =>
      rewrite (outcome_level _ _ _ _ _ _ _ _ U S0); [|apply upper_id; reflexivity|reflexivity]
  | U : unmarked _, S0 : seen _ ?d |- outcome (bind (check_message_key _ _ (Some ?d)) _) _ = _ =>
      rewrite (outcome_message _ _ _ _ _ _ _ U S0); [|reflexivity]
  | |- outcome (bind (check_level_math _ _ _ _ _ _) _) _ = _ => rewrite outcome_math; [|assumption|reflexivity]
  | |- outcome (bind (check_resolution _ _ _) _) _ = _ => rewrite outcome_resolution; [|assumption|true_here]
  | S0 : seen _ ?d |- outcome (bind (in_group ?k (Some ?d) _) _) _ = _ =>
      let g := fresh "g" in let E := fresh "E" in let SG := fresh "SEEN" in
      destruct (seen_map _ _ (B k) _ S0 eq_refl) as (g & E & SG); unfold in_group; rewrite E; cbn [as_map]
  | S0 : seen _ ?d |- outcome (bind (if negb (found ?k (Some ?d)) then _ else _) _) _ = _ =>
      rewrite (seen_found _ _ k S0); match goal with |- context [negb ?x] => let y := eval vm_compute in x in change x with y end; cbn [negb]
  | S0 : seen ?e ?d |- outcome (bind (match as_string (at_key ?k (Some ?d)) with _ => _ end) _) _ = _ =>
      let v := eval vm_compute in (at_key k (Some e)) in rewrite (seen_leaf e d k v S0 eq_refl eq_refl); cbn [as_string]
  | S0 : seen _ ?d |- outcome (bind (match as_map (at_key ?k (Some ?d)) with _ => _ end) _) _ = _ =>
      let g := fresh "g" in let E := fresh "E" in let SG := fresh "SEEN" in
      destruct (seen_map _ _ k _ S0 eq_refl) as (g & E & SG); rewrite E; cbn [as_map]
  | |- outcome (bind _ _) _ = _ => fail "no step"
  | |- outcome _ _ = _ => rewrite outcome_last
  end; cbv beta iota.
Ltac steps := repeat step.

Definition passes (t : test unit) : Prop := forall nm m n, unmarked m -> outcome t (mk nm [] m n) = (true, m).

(* TESTS *)
Lemma valid_drop k (m : dmap) : valid (DMap m) -> valid (DMap (drop k m)).
Proof. intros V. apply valid_of; [apply wf_drop; now apply valid_wf|]. intros x v G. rewrite get_drop in G. destruct (beq k x); [discriminate|]. eauto using valid_get. Qed.

Lemma seen_drop k m d : seen m d -> seen (drop k m) (drop k d).
Proof.
  intros (V1 & V2 & S0). split; [now apply valid_drop|]. split; [now apply valid_drop|]. inversion S0; subst. constructor. intros x. rewrite !get_drop.
  destruct (beq k x); [constructor|auto].
Qed.

Lemma seen_both m d d' : seen m d -> seen m d' -> map_equal (Some d) (Some d') = true.
Proof. intros (V1 & V2 & S1) (V3 & V4 & S2). cbn [map_equal]. apply deep_equal_same; [exact V2|exact V4|]. eapply same_trans; [apply same_sym, S1|exact S2]. Qed.

Lemma p_derived : passes (test_derived_invariant_with W H).
Proof.
  intros nm m n U. unfold test_derived_invariant_with. steps.
  match goal with A : seen _ ?a, C : seen _ ?c |- context [map_equal (delete_key _ (Some ?a)) (delete_key _ (Some ?c))] =>
    apply (seen_drop TimeKey) in A; apply (seen_drop TimeKey) in C; rewrite outcome_assert; [reflexivity|]; cbn [delete_key option_map]; exact (seen_both _ _ _ A C) end.
Qed.

Lemma p_disabled : passes (test_disabled W H).
Proof.
  intros nm m n U. unfold test_disabled. rewrite (outcome_step _ _ _ (mk nm [] m n) tt).
  - steps.
  - unfold log, log_context. rewrite (right_levels _ _ RIGHT). reflexivity.
Qed.

Lemma p_group_duration : passes (test_group_duration W H).
Proof.
  intros nm m n U. unfold test_group_duration. cbv beta zeta. steps.
  match goal with A : seen ?e ?a, C : seen ?f ?c |- context [Qc_eq_bool (match as_float (at_key ?k (Some ?a)) with _ => _ end) (match as_float (at_key ?k' (Some ?c)) with _ => _ end)] =>
    rewrite (seen_leaf e a k _ A eq_refl eq_refl), (seen_leaf f c k' _ C eq_refl eq_refl) end.
  rewrite outcome_assert; reflexivity.
Qed.

Lemma seen_lookup m d k v : seen m d -> get k m = Some v -> leaf v = true -> lookup k (Some d) = Some v.
Proof.
  intros S0 G L. pose proof (seen_get m d S0 k) as X. rewrite G in X. unfold lookup. destruct (get k d) as [w|]; inversion X; subst. f_equal. now apply same_leaf.
Qed.

Lemma seen_adjust e m d t l : seen m d -> get TimeKey m = Some (DStr t) -> get LevelKey m = Some (DStr l) -> found (B "message") (Some m) = false ->
  adjust_expected e (Some d) = put LevelKey (DStr l) (put TimeKey (DStr t) e).
Proof.
  intros S0 T L F. unfold adjust_expected. rewrite (seen_lookup _ _ _ _ S0 T eq_refl), (seen_lookup _ _ _ _ S0 L eq_refl), (seen_found _ _ _ S0), F. reflexivity.
Qed.

Ltac wf_here := apply nodupb_ok; reflexivity.
Ltac valid_here :=
  match goal with |- valid ?a => let a' := eval hnf in a in change (valid a') end;
  lazymatch goal with
  | |- valid (DMap _) => constructor; [wf_here|repeat (apply Forall_cons; [cbn [snd]; valid_here|]); apply Forall_nil]
  | |- valid _ => constructor
  end.
Ltac same_here :=
  match goal with |- same ?a ?c => let a' := eval hnf in a in let c' := eval hnf in c in change (same a' c') end;
  lazymatch goal with
  | |- same (DMap _) (DMap _) => apply same_entries; [wf_here|wf_here|reflexivity|
      repeat (apply Forall_cons; [eexists; split; [reflexivity|cbn [snd]; same_here]|]); apply Forall_nil]
  | |- same _ _ => constructor
  end.

Lemma p_group_with_multi : passes (test_group_with_multi W H).
Proof.
  intros nm m n U. unfold test_group_with_multi. cbv beta zeta. steps.
  erewrite seen_adjust; [|eassumption|reflexivity|reflexivity|reflexivity]. rewrite outcome_assert; [reflexivity|].
  eapply seen_map_equal; [eassumption| |].
  - unfold multi_expected. cbn [put app]. valid_here.
  - same_here.
Qed.

Lemma p_group_with_multi_sub_empty : passes (test_group_with_multi_sub_empty W H).
Proof.
  intros nm m n U. unfold test_group_with_multi_sub_empty. cbv beta zeta. steps.
  erewrite seen_adjust; [|eassumption|reflexivity|reflexivity|reflexivity]. rewrite outcome_assert; [reflexivity|].
  eapply seen_map_equal; [eassumption| |].
  - unfold multi_expected. cbn [put app]. valid_here.
  - same_here.
Qed.

Lemma p_replace_attr_fn_multi : passes (test_replace_attr_fn_multi W H).
Proof.
  intros nm m n U. unfold test_replace_attr_fn_multi. cbv beta zeta. steps. rewrite outcome_assert; [reflexivity|].
  eapply seen_map_equal; [eassumption| |].
  - unfold multi_fn_expected. valid_here.
  - same_here.
Qed.

Lemma p_replace_attr_group : passes (test_replace_attr_group W H).
Proof.
  intros nm m n U. unfold test_replace_attr_group. cbv beta zeta. steps. rewrite outcome_assert; [reflexivity|].
  unfold groups_actual. cbn [delete_key option_map]. eapply seen_map_equal; [apply seen_drop; eassumption| |].
  - unfold groups_expected. valid_here.
  - same_here.
Qed.

Lemma p_key_case : passes (test_key_case W H).
Proof. intros nm m n U. unfold test_key_case, log_levels. cbn [fold_right fst snd]. steps. Qed.

Lemma p_string_escape : passes (test_string_escape W H).
Proof.
  unfold test_string_escape. assert (I : incl escape_cases escape_cases) by (intros x; auto). revert I. generalize escape_cases at 1 3. intros l I nm m n U.
  revert n. induction l as [|x l IH]; intros n; [reflexivity|]. cbn [fold_right]. steps.
  - apply I. now left.
  - rewrite <- outcome_last. apply IH. intros y IY. apply I. now right.
Qed.

Lemma p_timestamp : passes (test_timestamp_format W H).
Proof.
  intros nm m n U. unfold test_timestamp_format. cbv beta zeta. steps.
  match goal with A : seen ?e ?d |- context [at_key TimeKey (Some ?d)] => rewrite (seen_leaf e d TimeKey (DStr tx) A eq_refl eq_refl) end.
  unfold parse_time. cbn [is_nil negb as_string]. rewrite outcome_assoc, outcome_assert by reflexivity. destruct TIME as [_ ->]. rewrite outcome_ret.
  destruct (z_today W) as [[y mo] day]. rewrite !outcome_assert by apply Z.eqb_refl. rewrite outcome_last, outcome_assert by apply Z.eqb_refl. reflexivity.
Qed.

Lemma seen_array m d k l : seen m d -> at_key k (Some m) = DArr l -> forallb leaf l = true -> at_key k (Some d) = DArr l.
Proof.
  intros S0 E L. destruct (seen_at m d k S0) as (S1 & _). rewrite E in S1. inversion S1 as [| | | |x y F|]; subst. f_equal. clear -F L.
  induction F as [|v w x y SV F IH]; [reflexivity|]. cbn [forallb] in L. apply andb_true_iff in L. destruct L as [L1 L2]. f_equal; [now apply same_leaf|auto].
Qed.

Lemma p_log_attributes : passes (test_log_attributes W H).
Proof.
  intros nm m n U. unfold test_log_attributes, when_checks, how_long_checks, any_checks. cbv beta zeta. steps.
  match goal with A : seen ?e ?d |- _ => 
    rewrite (seen_leaf e d (B "when") (DStr (t_format (z_when W) RFC3339Nano)) A eq_refl eq_refl) end.
  rewrite outcome_assert by apply beq_refl. steps.
  match goal with A : seen ?e ?d |- context [at_key ?k (Some ?d)] => 
    rewrite (seen_array e d k [DStr (B "alpha"); DStr (B "omega")] A eq_refl eq_refl) end.
  cbn [fold_right map]. steps.
Qed.

Lemma p_source_key : passes (test_source_key W H).
Proof.
  intros nm m n U.
  assert (E : outcome (test_source_key W H) (mk nm [] m n) =
    outcome (bind (handle H source_options (record_at W n LevelInfo [])) (fun _ =>
      lm <- get_map W; basic_checks W lm;; check_source_key W 4 lm)) (mk nm [] m n)).
  { unfold test_source_key, outcome, mk. cbn [v_records]. unfold record_at, new_record. now rewrite (surjective_pairing (z_now W n)). }
  rewrite E. clear E. unfold basic_checks, check_source_key. step.
  assert (NM : fst (fst src) = B "source" /\ exists l, snd src = DMap (contents l) /\ length (contents l) = 3 /\
    forall f, In f source_keys -> is_nil (at_key f (Some (contents l))) = false /\ source_type (Some (contents l)) f = true /\ leaf (at_key f (Some (contents l))) = true).
  { cbn in SM. destruct SM as [-> | ->]; (split; [reflexivity|]); eexists; (split; [reflexivity|]); (split; [reflexivity|]);
      intros f [<-|[<-|[<-|[]]]]; repeat split. }
  destruct src as [[sk sj] sv]. cbn [fst snd] in NM. destruct NM as (-> & l & -> & L3 & KEYS). steps.
  rewrite outcome_assert; [|match goal with A : seen ?e g |- _ => pose proof (seen_size e g A) as L; cbn [size] in L; rewrite L, L3; reflexivity end].
  unfold source_keys in *. cbn [fold_right].
  assert (TYPE : forall f, In f [B "file"; B "function"; B "line"] -> negb (is_nil (at_key f (Some g))) = true /\ source_type (Some g) f = true).
  { intros f I. destruct (KEYS f I) as (K1 & K2 & K3).
    assert (AT : at_key f (Some g) = at_key f (Some (contents l))) by (match goal with A : seen ?e g |- _ => exact (seen_leaf e g f _ A eq_refl K3) end).
    split.
    - transitivity (negb (is_nil (at_key f (Some (contents l))))); [exact (f_equal (fun v => negb (is_nil v)) AT)|now rewrite K1].
    - rewrite <- K2. exact (f_equal (fun v => match v with DStr _ => negb (beq f (B "line")) | DNum _ => beq f (B "line") | _ => false end) AT). }
  repeat (first [rewrite outcome_assoc | rewrite outcome_assert; [|apply TYPE; cbn [In]; tauto]]). reflexivity.
Qed.

Definition twice_text : bytes := B "map[alpha:2 charlie:3]".

Lemma two_shown c : Permutation c [(B "alpha", 2%N); (B "charlie", 3%N)] -> show_counts c = twice_text /\ length c = 2.
Proof. intros P. apply Permutation_sym in P. apply Permutation_length_2_inv in P. destruct P as [-> | ->]; split; reflexivity. Qed.

Lemma outcome_duplicated nm b m n l d : holds b l -> seen (contents l) d ->
  (forall k, In k [B "alpha"; B "charlie"] <-> 1 < occurrences k (names l)) ->
  occurrences (B "alpha") (names l) = 2 -> occurrences (B "charlie") (names l) = 3 ->
  outcome (check_field_count W 6 (Some d)) (mk nm b m n) =
    if has_warning (e_use (z_env W)) duplicated m then (true, add_warning duplicated nm twice_text [] m) else (false, m).
Proof.
  intros HB S0 I OA OC. destruct (holds_duplicates b l [B "alpha"; B "charlie"] HB) as (c & rest & R & _ & P); [apply nodupb_ok; reflexivity|exact I|].
  cbn [map] in P. rewrite OA, OC in P. destruct (two_shown _ P) as [SH L].
  assert (FC : forall st, v_buffer st = b -> field_counter W st = (st, Some c)).
  { intros st <-. unfold field_counter, bind, buffer. now rewrite R. }
  unfold check_field_count. destruct (has_warning _ duplicated m) eqn:HD.
  - rewrite (outcome_step _ _ _ (mk nm b m n) true) by (unfold has, mk; cbn [v_manager]; now rewrite HD).
    rewrite (outcome_step _ _ _ (mk nm b m n) c) by now apply FC. rewrite L. cbn [Nat.ltb Nat.leb]. rewrite SH. reflexivity.
  - rewrite (outcome_step _ _ _ (mk nm b m n) false) by (unfold has, mk; cbn [v_manager]; now rewrite HD).
    unfold count_check. rewrite (outcome_step _ _ _ (if Nat.eqb (size (Some d)) 6 then mk nm b m n else fail (mk nm b m n)) tt) by reflexivity.
    set (st := if Nat.eqb (size (Some d)) 6 then mk nm b m n else fail (mk nm b m n)).
    assert (ST : v_buffer st = b /\ v_manager st = m) by (unfold st; destruct (Nat.eqb _ _); now split). destruct ST as [ST1 ST2].
    rewrite (outcome_step _ _ _ st c) by now apply FC.
    rewrite (outcome_step _ _ _ (if Nat.eqb (num_fields c) 6 then st else fail st) tt) by reflexivity.
    unfold assert. rewrite L. cbn [Nat.eqb]. unfold outcome. cbn [fst fail v_failed v_manager negb]. destruct (Nat.eqb (num_fields c) 6); cbn [v_manager fail]; now rewrite ST2.
Qed.

(** How the two tests of duplicate attributes go. *)
Definition duplicating (t : test unit) : Prop := forall nm m n, unmarked m ->
  outcome t (mk nm [] m n) =
    if has_warning (e_use (z_env W)) duplicated m then (true, add_warning duplicated nm twice_text [] m) else (false, m).

Lemma outcome_skip w (k : bool -> test unit) nm b m n : unmarked m -> In w tested_warnings ->
  outcome (bind (skip_test W w) k) (mk nm b m n) = outcome (k false) (mk nm b m n).
Proof. intros U I. unfold skip_test. now rewrite outcome_assoc, outcome_has by assumption. Qed.

Lemma twice_ok ds l : forallb (fun k => Bool.eqb (Nat.ltb 1 (occurrences k l)) (existsb (beq k) ds)) (ds ++ l) = true ->
  forall k, In k ds <-> 1 < occurrences k l.
Proof.
  intros A k. rewrite forallb_forall in A.
  assert (D : In k ds <-> existsb (beq k) ds = true).
  { split; [intros I; apply existsb_exists; exists k; split; [exact I|apply beq_refl]|].
    intros E. apply existsb_exists in E. destruct E as (x & I & E). apply beq_eq in E. now subst. }
  assert (X : In k (ds ++ l) -> (In k ds <-> 1 < occurrences k l)).
  { intros I. apply A in I. apply Bool.eqb_prop in I. rewrite D, <- I. apply Nat.ltb_lt. }
  split; intros Y; apply X; try exact Y; apply in_or_app; [now left|]. right. unfold occurrences in Y.
  destruct (filter (beq k) l) as [|x r] eqn:F; [cbn in Y; lia|]. assert (I : In x (filter (beq k) l)) by (rewrite F; now left).
  apply filter_In in I. destruct I as [I E]. apply beq_eq in E. now subst.
Qed.
Ltac which_twice := apply twice_ok; reflexivity.

Lemma p_test_any_map : passes (test_any_map W H).
Proof. intros nm m n U. unfold test_any_map, inline_checks, basic_checks, resolve_checks, empty_name_checks, nil_value_checks, level_configured_checks, level_different_checks, default_level_checks. cbv beta zeta. steps. Qed.
Lemma p_test_attribute_empty_name : passes (test_attribute_empty_name W H).
Proof. intros nm m n U. unfold test_attribute_empty_name, inline_checks, basic_checks, resolve_checks, empty_name_checks, nil_value_checks, level_configured_checks, level_different_checks, default_level_checks. cbv beta zeta. steps. Qed.
Lemma p_test_attribute_nil : passes (test_attribute_nil W H).
Proof. intros nm m n U. unfold test_attribute_nil, inline_checks, basic_checks, resolve_checks, empty_name_checks, nil_value_checks, level_configured_checks, level_different_checks, default_level_checks. cbv beta zeta. steps. Qed.
Lemma p_test_attribute_with_empty : passes (test_attribute_with_empty W H).
Proof. intros nm m n U. unfold test_attribute_with_empty, inline_checks, basic_checks, resolve_checks, empty_name_checks, nil_value_checks, level_configured_checks, level_different_checks, default_level_checks. cbv beta zeta. steps. Qed.
Lemma p_test_attribute_with_empty_name : passes (test_attribute_with_empty_name W H).
Proof. intros nm m n U. unfold test_attribute_with_empty_name, inline_checks, basic_checks, resolve_checks, empty_name_checks, nil_value_checks, level_configured_checks, level_different_checks, default_level_checks. cbv beta zeta. steps. Qed.
Lemma p_test_attribute_with_nil : passes (test_attribute_with_nil W H).
Proof. intros nm m n U. unfold test_attribute_with_nil, inline_checks, basic_checks, resolve_checks, empty_name_checks, nil_value_checks, level_configured_checks, level_different_checks, default_level_checks. cbv beta zeta. steps. Qed.
Lemma p_test_attributes : passes (test_attributes W H).
Proof. intros nm m n U. unfold test_attributes, inline_checks, basic_checks, resolve_checks, empty_name_checks, nil_value_checks, level_configured_checks, level_different_checks, default_level_checks. cbv beta zeta. steps. Qed.
Lemma p_test_attributes_empty : passes (test_attributes_empty W H).
Proof. intros nm m n U. unfold test_attributes_empty, inline_checks, basic_checks, resolve_checks, empty_name_checks, nil_value_checks, level_configured_checks, level_different_checks, default_level_checks. cbv beta zeta. steps. Qed.
Lemma p_test_attributes_not_empty : passes (test_attributes_not_empty W H).
Proof. intros nm m n U. unfold test_attributes_not_empty, inline_checks, basic_checks, resolve_checks, empty_name_checks, nil_value_checks, level_configured_checks, level_different_checks, default_level_checks. cbv beta zeta. steps. Qed.
Lemma p_test_attributes_with : passes (test_attributes_with W H).
Proof. intros nm m n U. unfold test_attributes_with, inline_checks, basic_checks, resolve_checks, empty_name_checks, nil_value_checks, level_configured_checks, level_different_checks, default_level_checks. cbv beta zeta. steps. Qed.
Lemma p_test_attributes_with_empty : passes (test_attributes_with_empty W H).
Proof. intros nm m n U. unfold test_attributes_with_empty, inline_checks, basic_checks, resolve_checks, empty_name_checks, nil_value_checks, level_configured_checks, level_different_checks, default_level_checks. cbv beta zeta. steps. Qed.
Lemma p_test_attributes_with_not_empty : passes (test_attributes_with_not_empty W H).
Proof. intros nm m n U. unfold test_attributes_with_not_empty, inline_checks, basic_checks, resolve_checks, empty_name_checks, nil_value_checks, level_configured_checks, level_different_checks, default_level_checks. cbv beta zeta. steps. Qed.
Lemma p_test_canceled_context : passes (test_canceled_context W H).
Proof. intros nm m n U. unfold test_canceled_context, inline_checks, basic_checks, resolve_checks, empty_name_checks, nil_value_checks, level_configured_checks, level_different_checks, default_level_checks. cbv beta zeta. steps. Qed.
Lemma p_test_default_level : passes (test_default_level W H).
Proof. intros nm m n U. unfold test_default_level, inline_checks, basic_checks, resolve_checks, empty_name_checks, nil_value_checks, level_configured_checks, level_different_checks, default_level_checks. cbv beta zeta. steps. Qed.
Lemma p_test_group : passes (test_group W H).
Proof. intros nm m n U. unfold test_group, inline_checks, basic_checks, resolve_checks, empty_name_checks, nil_value_checks, level_configured_checks, level_different_checks, default_level_checks. cbv beta zeta. steps. Qed.
Lemma p_test_group_empty : passes (test_group_empty W H).
Proof. intros nm m n U. unfold test_group_empty, inline_checks, basic_checks, resolve_checks, empty_name_checks, nil_value_checks, level_configured_checks, level_different_checks, default_level_checks. cbv beta zeta. steps. Qed.
Lemma p_test_group_inline : passes (test_group_inline W H).
Proof. intros nm m n U. unfold test_group_inline, inline_checks, basic_checks, resolve_checks, empty_name_checks, nil_value_checks, level_configured_checks, level_different_checks, default_level_checks. cbv beta zeta. steps. Qed.
Lemma p_test_group_with : passes (test_group_with W H).
Proof. intros nm m n U. unfold test_group_with, inline_checks, basic_checks, resolve_checks, empty_name_checks, nil_value_checks, level_configured_checks, level_different_checks, default_level_checks. cbv beta zeta. steps. Qed.
Lemma p_test_group_with_top : passes (test_group_with_top W H).
Proof. intros nm m n U. unfold test_group_with_top, inline_checks, basic_checks, resolve_checks, empty_name_checks, nil_value_checks, level_configured_checks, level_different_checks, default_level_checks. cbv beta zeta. steps. Qed.
Lemma p_test_keys : passes (test_keys W H).
Proof. intros nm m n U. unfold test_keys, inline_checks, basic_checks, resolve_checks, empty_name_checks, nil_value_checks, level_configured_checks, level_different_checks, default_level_checks. cbv beta zeta. steps. Qed.
Lemma p_test_level_configured : passes (test_level_configured W H).
Proof. intros nm m n U. unfold test_level_configured, inline_checks, basic_checks, resolve_checks, empty_name_checks, nil_value_checks, level_configured_checks, level_different_checks, default_level_checks. cbv beta zeta. steps. Qed.
Lemma p_test_level_different : passes (test_level_different W H).
Proof. intros nm m n U. unfold test_level_different, inline_checks, basic_checks, resolve_checks, empty_name_checks, nil_value_checks, level_configured_checks, level_different_checks, default_level_checks. cbv beta zeta. steps. Qed.
Lemma p_test_level_var : passes (test_level_var W H).
Proof. intros nm m n U. unfold test_level_var, inline_checks, basic_checks, resolve_checks, empty_name_checks, nil_value_checks, level_configured_checks, level_different_checks, default_level_checks. cbv beta zeta. steps. Qed.
Lemma p_test_replace_attr : passes (test_replace_attr W H).
Proof. intros nm m n U. unfold test_replace_attr, inline_checks, basic_checks, resolve_checks, empty_name_checks, nil_value_checks, level_configured_checks, level_different_checks, default_level_checks. cbv beta zeta. steps. Qed.
Lemma p_test_replace_attr_basic : passes (test_replace_attr_basic W H).
Proof. intros nm m n U. unfold test_replace_attr_basic, inline_checks, basic_checks, resolve_checks, empty_name_checks, nil_value_checks, level_configured_checks, level_different_checks, default_level_checks. cbv beta zeta. steps. Qed.
Lemma p_test_replace_attr_fn_change_key : passes (test_replace_attr_fn_change_key W H).
Proof. intros nm m n U. unfold test_replace_attr_fn_change_key, inline_checks, basic_checks, resolve_checks, empty_name_checks, nil_value_checks, level_configured_checks, level_different_checks, default_level_checks. cbv beta zeta. steps. Qed.
Lemma p_test_replace_attr_fn_level_case : passes (test_replace_attr_fn_level_case W H).
Proof. intros nm m n U. unfold test_replace_attr_fn_level_case, inline_checks, basic_checks, resolve_checks, empty_name_checks, nil_value_checks, level_configured_checks, level_different_checks, default_level_checks. cbv beta zeta. steps. Qed.
Lemma p_test_replace_attr_fn_remove_empty_key : passes (test_replace_attr_fn_remove_empty_key W H).
Proof. intros nm m n U. unfold test_replace_attr_fn_remove_empty_key, inline_checks, basic_checks, resolve_checks, empty_name_checks, nil_value_checks, level_configured_checks, level_different_checks, default_level_checks. cbv beta zeta. steps. Qed.
Lemma p_test_replace_attr_fn_remove_time : passes (test_replace_attr_fn_remove_time W H).
Proof. intros nm m n U. unfold test_replace_attr_fn_remove_time, inline_checks, basic_checks, resolve_checks, empty_name_checks, nil_value_checks, level_configured_checks, level_different_checks, default_level_checks. cbv beta zeta. steps. Qed.
Lemma p_test_resolve_group : passes (test_resolve_group W H).
Proof. intros nm m n U. unfold test_resolve_group, inline_checks, basic_checks, resolve_checks, empty_name_checks, nil_value_checks, level_configured_checks, level_different_checks, default_level_checks. cbv beta zeta. steps. Qed.
Lemma p_test_resolve_group_with : passes (test_resolve_group_with W H).
Proof. intros nm m n U. unfold test_resolve_group_with, inline_checks, basic_checks, resolve_checks, empty_name_checks, nil_value_checks, level_configured_checks, level_different_checks, default_level_checks. cbv beta zeta. steps. Qed.
Lemma p_test_resolve_valuer : passes (test_resolve_valuer W H).
Proof. intros nm m n U. unfold test_resolve_valuer, inline_checks, basic_checks, resolve_checks, empty_name_checks, nil_value_checks, level_configured_checks, level_different_checks, default_level_checks. cbv beta zeta. steps. Qed.
Lemma p_test_resolve_with : passes (test_resolve_with W H).
Proof. intros nm m n U. unfold test_resolve_with, inline_checks, basic_checks, resolve_checks, empty_name_checks, nil_value_checks, level_configured_checks, level_different_checks, default_level_checks. cbv beta zeta. steps. Qed.
Lemma p_test_with_group_empty : passes (test_with_group_empty W H).
Proof. intros nm m n U. unfold test_with_group_empty, inline_checks, basic_checks, resolve_checks, empty_name_checks, nil_value_checks, level_configured_checks, level_different_checks, default_level_checks. cbv beta zeta. steps. Qed.
Lemma p_test_with_group_inline : passes (test_with_group_inline W H).
Proof. intros nm m n U. unfold test_with_group_inline, inline_checks, basic_checks, resolve_checks, empty_name_checks, nil_value_checks, level_configured_checks, level_different_checks, default_level_checks. cbv beta zeta. steps. Qed.
Lemma p_test_zero_pc : passes (test_zero_pc W H).
Proof. intros nm m n U. unfold test_zero_pc, inline_checks, basic_checks, resolve_checks, empty_name_checks, nil_value_checks, level_configured_checks, level_different_checks, default_level_checks. cbv beta zeta. steps. Qed.
Lemma p_test_zero_time : passes (test_zero_time W H).
Proof. intros nm m n U. unfold test_zero_time, inline_checks, basic_checks, resolve_checks, empty_name_checks, nil_value_checks, level_configured_checks, level_different_checks, default_level_checks. cbv beta zeta. steps. Qed.

Lemma d_attribute : duplicating (test_attribute_duplicate W H).
Proof.
  intros nm m n U. unfold test_attribute_duplicate, duplicate_checks. steps. rewrite outcome_skip by (auto; cbn; tauto). cbn [negb].
  eapply outcome_duplicated; [eassumption|eassumption| |reflexivity|reflexivity]. which_twice.
Qed.
Lemma d_attribute_with : duplicating (test_attribute_with_duplicate W H).
Proof.
  intros nm m n U. unfold test_attribute_with_duplicate, duplicate_checks. steps. rewrite outcome_skip by (auto; cbn; tauto). cbn [negb].
  eapply outcome_duplicated; [eassumption|eassumption| |reflexivity|reflexivity]. which_twice.
Qed.

(** ** All tests *)

Lemma run_outcome x m n : fst (run_test x m n) = outcome (snd x) (mk (fst x) [] m n).
Proof. reflexivity. Qed.

Lemma pass_first x l m n r : passes (snd x) -> unmarked m -> (forall n', run_tests l m n' = r) -> run_tests (x :: l) m n = r.
Proof.
  intros P U R. cbn [run_tests]. pose proof (run_outcome x m n) as E. rewrite (P _ _ _ U) in E.
  destruct (run_test x m n) as [[ok m'] n']. cbn [fst] in E. injection E as -> ->. rewrite R. now destruct r.
Qed.

Lemma unmarked_added m nm text log : unmarked m -> unmarked (add_warning duplicated nm text log m).
Proof. intros U w I. rewrite has_added. now apply U. Qed.

Definition marked (m : manager) : bool := has_warning (e_use (z_env W)) duplicated m.

(** What the two tests leave: a warning each, or a failure each. *)
Definition then_duplicate (x : bytes) (mark : bool) (r : manager -> list bytes * manager) (m : manager) : list bytes * manager :=
  if mark then r (add_warning duplicated x twice_text [] m) else (x :: fst (r m), snd (r m)).

Lemma dup_first x l m n r : duplicating (snd x) -> unmarked m ->
  (forall n' m', unmarked m' -> marked m' = marked m -> run_tests l m' n' = r m') ->
  run_tests (x :: l) m n = then_duplicate (fst x) (marked m) r m.
Proof.
  intros P U R. cbn [run_tests]. pose proof (run_outcome x m n) as E. rewrite (P _ _ _ U) in E. unfold then_duplicate. fold (marked m) in E.
  destruct (run_test x m n) as [[ok m'] n']. cbn [fst] in E. destruct (marked m) eqn:HD; injection E as -> ->.
  - rewrite R; [now destruct (r _)|now apply unmarked_added|]. rewrite <- HD. unfold marked. apply has_added.
  - rewrite R; [now destruct (r m)|exact U|exact HD].
Qed.

Lemma suite_run m n : unmarked m ->
  run_tests (verify_tests W H) m n =
    if marked m then ([], add_warning duplicated (B "TestAttributeWithDuplicate") twice_text []
                            (add_warning duplicated (B "TestAttributeDuplicate") twice_text [] m))
    else ([B "TestAttributeDuplicate"; B "TestAttributeWithDuplicate"], m).
Proof.
  intros U. transitivity (then_duplicate (B "TestAttributeDuplicate") (marked m)
    (fun m' => then_duplicate (B "TestAttributeWithDuplicate") (marked m) (fun m'' => ([], m'')) m') m).
  2: unfold then_duplicate; destruct (marked m); reflexivity.
  unfold verify_tests.
  apply pass_first; [exact p_test_any_map|assumption|intros ?n].
  apply dup_first; [exact d_attribute|assumption|intros ?n ?m ?U ?HD].
  apply pass_first; [exact p_test_attribute_empty_name|assumption|intros ?n].
  apply pass_first; [exact p_test_attribute_nil|assumption|intros ?n].
  cbv beta. rewrite <- HD. apply dup_first; [exact d_attribute_with|assumption|intros ?n ?m ?U ?HD].
  apply pass_first; [exact p_test_attribute_with_empty|assumption|intros ?n].
  apply pass_first; [exact p_test_attribute_with_empty_name|assumption|intros ?n].
  apply pass_first; [exact p_test_attribute_with_nil|assumption|intros ?n].
  apply pass_first; [exact p_test_attributes|assumption|intros ?n].
  apply pass_first; [exact p_test_attributes_empty|assumption|intros ?n].
  apply pass_first; [exact p_test_attributes_not_empty|assumption|intros ?n].
  apply pass_first; [exact p_test_attributes_with|assumption|intros ?n].
  apply pass_first; [exact p_test_attributes_with_empty|assumption|intros ?n].
  apply pass_first; [exact p_test_attributes_with_not_empty|assumption|intros ?n].
  apply pass_first; [exact p_test_canceled_context|assumption|intros ?n].
  apply pass_first; [exact p_test_default_level|assumption|intros ?n].
  apply pass_first; [exact p_derived|assumption|intros ?n].
  apply pass_first; [exact p_derived|assumption|intros ?n].
  apply pass_first; [exact p_disabled|assumption|intros ?n].
  apply pass_first; [exact p_test_group|assumption|intros ?n].
  apply pass_first; [exact p_group_duration|assumption|intros ?n].
  apply pass_first; [exact p_test_group_empty|assumption|intros ?n].
  apply pass_first; [exact p_test_group_inline|assumption|intros ?n].
  apply pass_first; [exact p_test_group_with|assumption|intros ?n].
  apply pass_first; [exact p_group_with_multi|assumption|intros ?n].
  apply pass_first; [exact p_group_with_multi_sub_empty|assumption|intros ?n].
  apply pass_first; [exact p_test_group_with_top|assumption|intros ?n].
  apply pass_first; [exact p_key_case|assumption|intros ?n].
  apply pass_first; [exact p_test_keys|assumption|intros ?n].
  apply pass_first; [exact p_test_level_configured|assumption|intros ?n].
  apply pass_first; [exact p_test_level_different|assumption|intros ?n].
  apply pass_first; [exact p_test_level_var|assumption|intros ?n].
  apply pass_first; [exact p_log_attributes|assumption|intros ?n].
  apply pass_first; [exact p_test_replace_attr|assumption|intros ?n].
  apply pass_first; [exact p_test_replace_attr_basic|assumption|intros ?n].
  apply pass_first; [exact p_test_replace_attr_fn_change_key|assumption|intros ?n].
  apply pass_first; [exact p_test_replace_attr_fn_level_case|assumption|intros ?n].
  apply pass_first; [exact p_replace_attr_fn_multi|assumption|intros ?n].
  apply pass_first; [exact p_test_replace_attr_fn_remove_empty_key|assumption|intros ?n].
  apply pass_first; [exact p_test_replace_attr_fn_remove_time|assumption|intros ?n].
  apply pass_first; [exact p_replace_attr_group|assumption|intros ?n].
  apply pass_first; [exact p_test_resolve_group|assumption|intros ?n].
  apply pass_first; [exact p_test_resolve_group_with|assumption|intros ?n].
  apply pass_first; [exact p_test_resolve_valuer|assumption|intros ?n].
  apply pass_first; [exact p_test_resolve_with|assumption|intros ?n].
  apply pass_first; [exact p_source_key|assumption|intros ?n].
  apply pass_first; [exact p_string_escape|assumption|intros ?n].
  apply pass_first; [exact p_timestamp|assumption|intros ?n].
  apply pass_first; [exact p_test_with_group_empty|assumption|intros ?n].
  apply pass_first; [exact p_test_with_group_inline|assumption|intros ?n].
  apply pass_first; [exact p_test_zero_pc|assumption|intros ?n].
  apply pass_first; [exact p_test_zero_time|assumption|intros ?n].
  reflexivity.
Qed.
End Right.
