(** C58: flash passes every benchmark of the suite. *)

From Coq Require Import Ascii String List ZArith NArith Bool Arith Lia QArith Qcanon.
From Verif Require Import Bytes BytesProofs GoSort Json JsonProofs Slog SpecLog SpecFlash Flash EscapeProofs TextProofs FlashProofs Regex RegexProofs RegexFirst GinProofs Replace
  PropReplace Gin Warnings BenchChecks SpecChecks ChecksProofs Samples ChecksSamples PropFinder PropBigGroup PropVerify LoggingData BenchSuite.
From Verif Require FlashRecord.
Import ListNotations.
Local Open Scope nat_scope.
Local Open Scope list_scope.

(** ** What a benchmark captures *)

Definition layout : bytes := x_time_format (fix_extras None).

(** The time of a call and the place it is made from: the time is printed without
    characters that JSON escapes, the names are UTF-8, the line is a Go int. *)
Record stamp : Type := { s_time : gotime; s_source : source }.
Definition stamp_ok (s : stamp) : Prop :=
  (t_zero (s_time s) = false -> SpecLog.plain (t_format (s_time s) layout) = true) /\
  valid_utf8 (src_function (s_source s)) = true /\ valid_utf8 (src_file (s_source s)) = true /\ (Z.abs (src_line (s_source s)) < 2 ^ 63)%Z.

(** The calls of the logger one after the other, with their stamps: below Info
    slog does not call the handler (C15), else the handler writes a line. *)
Definition record_of_call (c : Z * bytes * list attr) (s : stamp) : record :=
  let '(level, msg, attrs) := c in
  {| Slog.r_time := s_time s; Slog.r_level := level; Slog.r_msg := msg; Slog.r_source := Some (s_source s); Slog.r_attrs := attrs |}.

Inductive captures (std : stdlib) (b : benchmark) : list (Z * bytes * list attr) -> list stamp -> bytes -> Prop :=
| captures_nil : captures std b [] [] []
| captures_below c s cs ss out : (fst (fst c) < 0)%Z -> captures std b cs ss out -> captures std b (c :: cs) (s :: ss) out
| captures_line c s cs ss text out : (0 <= fst (fst c))%Z ->
    logs std (options_of b) None (b_ops b) NoDead (record_of_call c s) (Done [text] true) ->
    captures std b cs ss out -> captures std b (c :: cs) (s :: ss) (text ++ out).

(** ** Lemmas *)

Lemma contained_same (e a a' : dmap) : same (DMap a) (DMap a') -> contained e a -> contained e a'.
Proof.
  intros S0 C p v w X. destruct (wrong_same e a' e a p v w (same_refl _) (same_sym _ _ S0) X) as [v' [w' [X' _]]]. now apply (C p v' w').
Qed.

Lemma fix_same cs (a b : dmap) : same (DMap a) (DMap b) -> same (DMap (fix_map cs a)) (DMap (fix_map cs b)).
Proof.
  intros S0. inversion S0 as [| | | | |x y G]; subst. constructor. intros k. rewrite !get_fix.
  destruct (beq TimeKey k); [constructor|]. destruct (beq (B "message") k); [constructor|].
  destruct (beq MessageKey k).
  { pose proof (G (B "message")) as H. destruct (get (B "message") a), (get (B "message") b); try exact H; try (now inversion H); apply G. }
  destruct (beq LevelKey k); [|apply G].
  pose proof (G LevelKey) as H. destruct (get LevelKey a), (get LevelKey b); try (now inversion H).
  inversion H as [|v w V X Y]; subst. inversion V; subst; constructor; constructor; assumption.
Qed.

Lemma sourced_same (a b : dmap) : same (DMap a) (DMap b) -> sourced a -> sourced b.
Proof.
  intros S0 [src [X [F1 [F2 F3]]]]. inversion S0 as [| | | | |x y G]; subst. pose proof (G (B "source")) as H. rewrite X in H.
  destruct (get (B "source") b) as [w|] eqn:W; [|inversion H].
  inversion H as [|v w' V X1 X2]; subst. inversion V as [| | | | |l l' GL]; subst. exists l'. split; [exact W|].
  assert (P : forall k, get k src <> None -> get k l' <> None).
  { intros k N0. pose proof (GL k) as Q. inversion Q; [congruence|discriminate]. }
  auto.
Qed.

Lemma get_same (a b : dmap) k : same (DMap a) (DMap b) -> get k a <> None -> get k b <> None.
Proof.
  intros S0 N0. inversion S0 as [| | | | |x y G]; subst. pose proof (G k) as Q. inversion Q; [congruence|discriminate].
Qed.

(** Members with what they decode to. *)
Definition row : Type := bytes * json * dyn.
Definition puts (rows : list row) (m : dmap) : dmap := fold_left (fun m r => put (fst (fst r)) (snd r) m) rows m.

Lemma decode_rows num (rows : list row) : Forall (fun r => (if valid_utf8 (fst (fst r)) then decode num (snd (fst r)) else None) = Some (snd r)) rows -> forall m,
  decode_fields num (map fst rows) m = Some (puts rows m).
Proof.
  induction 1 as [|[[k j] d] rows D F IH]; intros m; [reflexivity|]. cbn [map fst decode_fields]. cbn [fst snd] in D. rewrite D. apply IH.
Qed.

Lemma means_rows std lay (attrs : list attr) (fs : fields) :
  Forall2 (fun a f => meaning flash_any (flash_time lay) str (flash_resolved std) (fst a) (snd a) = Some [f]) attrs fs ->
  flash_meanings std lay attrs = Some fs.
Proof.
  induction 1 as [|a f attrs fs D F IH]; [reflexivity|]. unfold flash_meanings in *. cbn [meanings]. rewrite D, IH. reflexivity.
Qed.

Lemma clean_ends t : SpecLog.clean t = true -> ends_with (chr 13) t = false.
Proof.
  unfold SpecLog.clean. rewrite andb_true_iff. intros [H _].
  destruct t as [|x t _] using rev_ind; [reflexivity|]. rewrite ends_with_app.
  rewrite forallb_app, andb_true_iff in H. destruct H as [_ H]. cbn in H. rewrite andb_true_r in H.
  apply Ascii.eqb_neq. intros ->. vm_compute in H. discriminate.
Qed.

Section Suite.
Variable std : stdlib.
Variable num : bytes -> option Qc.
Variable E : env.
Variable pi_text : bytes.
Variable pi : Qc.
Variable start : gotime.
Variable big_group : attr.
Hypothesis STD : stdlib_ok std.
Hypothesis NUM : num_ok num.
Hypothesis UN : unmarshal_ok num E.
Hypothesis CS : casing_ok (e_casing E).
Hypothesis PI : num pi_text = Some pi.
Hypothesis PT : is_num pi_text = true.
Hypothesis START : SpecLog.plain (t_format start layout) = true.
Hypothesis BIG : built 5 0 (B "group") big_group.

Notation suite := (benchmarks E pi_text pi start big_group).

Lemma num_int z : (Z.abs z <= 2 ^ 53)%Z -> num (dec_of_Z z) = Some (Q2Qc (inject_Z z)).
Proof. apply NUM. Qed.

(** *** The built-in fields *)

Definition header_rows (src : bool) (msg : bytes) (s : stamp) (q : Qc) : list row :=
  (if t_zero (s_time s) then [] else [(B "time", JStr (t_format (s_time s) layout), DStr (t_format (s_time s) layout))]) ++
  [(B "level", JStr (B "INFO"), DStr (B "INFO")); (B "msg", JStr msg, DStr msg)] ++
  (if src then [(B "source",
      JObj [(B "function", JStr (src_function (s_source s))); (B "file", JStr (src_file (s_source s))); (B "line", JNum (dec_of_Z (src_line (s_source s))))],
      DMap [(B "function", DStr (src_function (s_source s))); (B "file", DStr (src_file (s_source s))); (B "line", DNum q)])] else []).

Definition rows_ok (rows : list row) : Prop := Forall (fun r => (if valid_utf8 (fst (fst r)) then decode num (snd (fst r)) else None) = Some (snd r)) rows.

Lemma header_ok src msg s : stamp_ok s -> valid_utf8 msg = true -> exists q, rows_ok (header_rows src msg s q).
Proof.
  intros [T [V1 [V2 L]]] VM. destruct (num (dec_of_Z (src_line (s_source s)))) as [q|] eqn:Q.
  2:{ destruct (num_some _ NUM (src_line (s_source s))); [lia|exact Q]. }
  exists q. unfold rows_ok, header_rows. apply Forall_app. split.
  { destruct (t_zero (s_time s)); [constructor|]. constructor; [|constructor]. specialize (T eq_refl). unfold SpecLog.plain in T.
    apply andb_true_iff in T. destruct T as [_ T]. cbn [fst snd decode]. rewrite T. reflexivity. }
  constructor; [reflexivity|]. constructor; [cbn [fst snd decode]; rewrite VM; reflexivity|]. destruct src; [|constructor]. constructor; [|constructor].
  cbn [fst snd decode]. rewrite Q, V1, V2. reflexivity.
Qed.

Lemma header_is b msg attrs s q : stamp_ok s -> valid_utf8 msg = true ->
  flash_header (FlashProofs.keys (fix_extras None)) layout (x_level_names (fix_extras None)) (o_add_source (options_of b))
    (record_of_call (0%Z, msg, attrs) s) = Some (map fst (header_rows (b_source b) msg s q)).
Proof.
  intros [T [V1 [V2 _]]] VM. unfold flash_header, header_rows. cbn [FlashProofs.keys record_of_call Slog.r_level Slog.r_msg Slog.r_time Slog.r_source options_of o_add_source].
  change (x_level_names (fix_extras None) 0) with (B "INFO"). change (x_time_key (fix_extras None)) with (B "time").
  change (x_level_key (fix_extras None)) with (B "level"). change (x_message_key (fix_extras None)) with (B "msg").
  change (x_source_key (fix_extras None)) with (B "source").
  rewrite VM, V1, V2. change (valid_utf8 (B "level")) with true. change (valid_utf8 (B "INFO")) with true.
  change (valid_utf8 (B "msg")) with true. change (valid_utf8 (B "time")) with true. change (valid_utf8 (B "source")) with true. cbn [andb].
  destruct (t_zero (s_time s)); [|rewrite (T eq_refl)]; destruct (b_source b); reflexivity.
Qed.

(** *** A line and what is read from it *)

Lemma line_ok b msg attrs s rows : stamp_ok s -> valid_utf8 msg = true ->
  nest (flash_meanings std layout) (b_ops b) attrs = Some (map fst rows) -> rows_ok rows ->
  exists q line, logs std (options_of b) None (b_ops b) NoDead (record_of_call (0%Z, msg, attrs) s) (Done [line ++ [newline]] true) /\
    one_line line /\
    (forall t, t = line \/ t = line ++ [newline] -> exists a', looks_at E t None a' /\ valid (DMap a') /\
       same (DMap (fix_map (e_casing E) (puts (header_rows (b_source b) msg s q ++ rows) []))) (DMap a')).
Proof.
  intros SO VM NE RO. destruct (header_ok (b_source b) msg s SO VM) as [q HO]. exists q.
  destruct (FlashRecord.flash_record_json std STD (options_of b) None (b_ops b) (record_of_call (0%Z, msg, attrs) s) _ _ eq_refl
    (header_is b msg attrs s q SO VM) NE) as [line [L [P C]]].
  exists line. split; [exact L|]. split.
  { split; [now apply clean_no_newline|now apply clean_ends]. }
  intros t Ht. rewrite <- map_app in P.
  assert (PJ : parse_json t = Some (JObj (map fst (header_rows (b_source b) msg s q ++ rows)))).
  { destruct Ht as [->| ->]; [exact P|now apply parse_newline]. }
  assert (D : decode num (JObj (map fst (header_rows (b_source b) msg s q ++ rows))) = Some (DMap (puts (header_rows (b_source b) msg s q ++ rows) []))).
  { rewrite decode_obj, decode_rows; [reflexivity|]. apply Forall_app. now split. }
  destruct (UN _ _ _ PJ D) as [m' [U [V S0]]]. exists (fix_map (e_casing E) m').
  split; [right; eauto|]. split; [now apply valid_fix|now apply fix_same].
Qed.

(** *** What the benchmarks come to *)

Definition passes (b : benchmark) : Prop := forall ss m,
  Forall stamp_ok ss -> length ss = length (b_calls b) -> unheeded m ->
  exists out, (forall out', captures std b (b_calls b) ss out' <-> out' = out) /\ b_verify b out None m = (None, m, None).

Definition accepts (fn : verify_fn) (P : dmap -> Prop) : Prop := forall captured a m,
  unheeded m -> valid (DMap a) -> looks_at E captured None a -> P a -> fn captured None m = (None, m, None).

Lemma decides_accepts fn P : decides E fn P -> accepts fn P.
Proof.
  intros D captured a m NM V LK H. destruct (D captured None m a NM V LK) as [m' [err [-> [_ [I Q]]]]].
  apply I in H. rewrite (Q H), H. reflexivity.
Qed.

Lemma matcher_accepts test expected : valid (DMap expected) ->
  accepts (matcher E test expected) (fun a => same (DMap expected) (DMap (fix_map (e_casing E) a))).
Proof.
  intros VE captured a m NM V LK H. unfold matcher. rewrite (looks_get _ _ _ _ _ LK). cbn [fix_log_map option_map].
  rewrite (proj2 (deep_equal_same _ _ VE (valid_fix _ _ V)) H). reflexivity.
Qed.

Lemma captures_fun b cs : forall ss out out', captures std b cs ss out -> captures std b cs ss out' -> out = out'.
Proof.
  intros ss out out' H. revert out'. induction H as [|c s cs ss out L H IH|c s cs ss text out L LG H IH]; intros out' H'; inversion H'; subst.
  - reflexivity.
  - now apply IH.
  - lia.
  - lia.
  - f_equal; [|now apply IH]. pose proof (logs_fun std _ _ _ _ _ _ _ LG H6) as X. congruence.
Qed.

Lemma single b attrs rows (P : dmap -> Prop) : b_calls b = info attrs ->
  nest (flash_meanings std layout) (b_ops b) attrs = Some (map fst rows) -> rows_ok rows ->
  accepts (b_verify b) P -> (forall x y, same (DMap x) (DMap y) -> P x -> P y) ->
  (forall s q, stamp_ok s -> P (fix_map (e_casing E) (puts (header_rows (b_source b) message s q ++ rows) []))) ->
  passes b.
Proof.
  intros CA NE RO AC SA H ss m SO LE NM. rewrite CA in *. unfold info, level_info in *.
  destruct ss as [|s [|]]; try discriminate. inversion SO as [|x y S1 S2]; subst. clear SO S2.
  destruct (line_ok b message attrs s rows S1 eq_refl NE RO) as [q [line [L [_ R]]]].
  exists (line ++ [newline]). split.
  - assert (C : captures std b [(0%Z, message, attrs)] [s] ((line ++ [newline]) ++ [])).
    { apply captures_line; [cbn; lia|exact L|constructor]. }
    rewrite app_nil_r in C. intros out'. split; [intros C'; eapply captures_fun; eauto|intros ->; exact C].
  - destruct (R (line ++ [newline]) (or_intror eq_refl)) as [a [LK [V S0]]].
    apply (AC _ a); auto. eapply SA; [exact S0|]. now apply H.
Qed.

(** *** Looking things up *)

Fixpoint last_pos (k : bytes) (keys : list bytes) : option nat :=
  match keys with
  | [] => None
  | x :: l => match last_pos k l with Some i => Some (S i) | None => if beq x k then Some 0 else None end
  end.
Definition key_of (r : row) : bytes := fst (fst r).

Lemma puts_get rows k : forall m, get k (puts rows m) =
  match last_pos k (map key_of rows) with
  | Some i => match nth_error rows i with Some r => Some (snd r) | None => None end
  | None => get k m
  end.
Proof.
  induction rows as [|[[x j] d] rows IH]; intros m; [reflexivity|]. cbn [puts fold_left map last_pos key_of fst snd]. unfold puts in IH. rewrite IH.
  destruct (last_pos k (map key_of rows)); [reflexivity|]. rewrite get_put. now destruct (beq x k).
Qed.

Definition cs : casing := e_casing E.

Lemma upper_info : map_runes (cs_upper cs) (B "INFO") = B "INFO".
Proof.
  rewrite map_runes_text. change (runes (B "INFO")) with [73%N; 78%N; 70%N; 79%N]. cbn [map].
  rewrite !(up_ascii cs CS) by lia. reflexivity.
Qed.

Definition ordinary (k : bytes) : bool := negb (beq TimeKey k || beq (B "message") k || beq MessageKey k || beq LevelKey k).

Lemma fixed_row rows k i r d : ordinary k = true -> last_pos k (map key_of rows) = Some i -> nth_error rows i = Some r -> snd r = d ->
  get k (fix_map cs (puts rows [])) = Some d.
Proof.
  unfold ordinary. rewrite negb_true_iff, !orb_false_iff. intros [[[T M] K] L] P N0 <-. rewrite get_fix, T, M, K, L, puts_get, P, N0. reflexivity.
Qed.

Lemma fixed_msg rows i r : last_pos (B "message") (map key_of rows) = None -> last_pos MessageKey (map key_of rows) = Some i ->
  nth_error rows i = Some r -> get MessageKey (fix_map cs (puts rows [])) = Some (snd r).
Proof.
  intros P1 P2 N0. rewrite get_fix. change (beq TimeKey MessageKey) with false. change (beq (B "message") MessageKey) with false.
  rewrite beq_refl, !puts_get, P1, P2, N0. reflexivity.
Qed.

Lemma fixed_level rows i r : last_pos LevelKey (map key_of rows) = Some i -> nth_error rows i = Some r -> snd r = DStr (B "INFO") ->
  get LevelKey (fix_map cs (puts rows [])) = Some (DStr (B "INFO")).
Proof.
  intros P N0 X. rewrite get_fix. change (beq TimeKey LevelKey) with false. change (beq (B "message") LevelKey) with false.
  change (beq MessageKey LevelKey) with false. rewrite beq_refl, !puts_get, P, N0, X. cbv iota. now rewrite upper_info.
Qed.

(** *** Containment by entries *)

Inductive covers : dyn -> dyn -> Prop :=
| covers_same v w : same v w -> covers v w
| covers_map e a : wf e -> Forall (fun kv => exists w, get (fst kv) a = Some w /\ covers (snd kv) w) e -> covers (DMap e) (DMap a).

Lemma covers_at p : forall v w x, covers v w -> at_path p v = Some x -> exists y, at_path p w = Some y /\ covers x y.
Proof.
  induction p as [|k p IH]; intros v w x C X.
  - cbn in *. injection X as <-. eauto.
  - destruct C as [v w S0|e a W F].
    + pose proof (at_same (k :: p) _ _ S0) as R. rewrite X in R. destruct (at_path (k :: p) w) as [y|]; inversion R; subst.
      exists y. split; [reflexivity|now constructor].
    + cbn [at_path] in *. destruct (get k e) as [v|] eqn:G; [|discriminate]. apply get_some_in in G.
      rewrite Forall_forall in F. destruct (F _ G) as [w [GA C]]. cbn [fst snd] in GA, C. rewrite GA. eauto.
Qed.

Lemma covers_contained e a : covers (DMap e) (DMap a) -> contained e a.
Proof.
  intros C p v w [D X _ A K Q]. destruct (covers_at p _ _ _ C X) as [y [Y CY]].
  destruct A as [A|[A _]]; [|congruence]. assert (y = w) by congruence. subst y.
  destruct CY as [v w S0|e' a' _ _]; [now apply Q|]. apply K. split; eexists; reflexivity.
Qed.

Lemma basic_contained rows i j msg r1 r2 : last_pos LevelKey (map key_of rows) = Some i -> nth_error rows i = Some r1 -> snd r1 = DStr (B "INFO") ->
  last_pos (B "message") (map key_of rows) = None -> last_pos MessageKey (map key_of rows) = Some j ->
  nth_error rows j = Some r2 -> snd r2 = DStr msg ->
  contained [(LevelKey, DStr (B "INFO")); (MessageKey, DStr msg)] (fix_map cs (puts rows [])).
Proof.
  intros P1 N1 X1 P0 P2 N2 X2. apply covers_contained, covers_map.
  - repeat constructor; cbn; intuition discriminate.
  - constructor; [|constructor; [|constructor]]; cbn [fst snd].
    + eexists. split; [eapply fixed_level; eauto|]. constructor. apply same_refl.
    + eexists. split; [eapply fixed_msg; eauto|]. rewrite X2. constructor. apply same_refl.
Qed.

(** *** The attributes *)

Definition attr_rows (pre : bytes) : list row :=
  [(pre ++ B "Bool", JBool true, DBool true);
   (pre ++ B "Int", JNum (dec_of_Z 17), number 17);
   (pre ++ B "Int64", JNum (dec_of_Z (-654)), number (-654));
   (pre ++ B "Uint64", JNum (dec_of_Z 29399459393), number 29399459393);
   (pre ++ B "Float64", JNum pi_text, DNum pi);
   (pre ++ B "String", JStr val_string, DStr val_string);
   (pre ++ B "Time", JStr (t_format start layout), DStr (t_format start layout));
   (pre ++ B "Duration", JNum (dec_of_Z 3600000000000), number 3600000000000);
   (B "group", JObj [(B "alpha", JStr (B "omega")); (B "never", JStr (B "mind"))],
      DMap [(B "alpha", DStr (B "omega")); (B "never", DStr (B "mind"))]);
   (B "Any", JObj [(B "Name", JStr (B "Skidoo")); (B "Num", JNum (B "23"))], DMap [(B "Name", DStr (B "Skidoo")); (B "Num", number 23)]);
   (B "Error", JStr val_error, DStr val_error)].

Lemma pre_valid (pre x : bytes) : pre = [] \/ pre = B "with" -> forallb (fun c => N.ltb (code c) 128) x = true -> valid_utf8 (pre ++ x) = true.
Proof. intros HP A. apply valid_ascii. rewrite forallb_app, A, andb_true_r. destruct HP as [->| ->]; reflexivity. Qed.

Lemma attr_rows_ok pre : pre = [] \/ pre = B "with" -> rows_ok (attr_rows pre).
Proof.
  intros HP. pose proof START as ST. unfold SpecLog.plain in ST. apply andb_true_iff in ST. destruct ST as [_ ST].
  assert (N23 : num (B "23") = Some (Q2Qc (inject_Z 23))) by (change (B "23") with (dec_of_Z 23); rewrite num_int by lia; reflexivity).
  assert (ANY : decode num (JObj [(B "Name", JStr (B "Skidoo")); (B "Num", JNum (B "23"))]) = Some (DMap [(B "Name", DStr (B "Skidoo")); (B "Num", number 23)])).
  { rewrite decode_obj. cbn [decode_fields decode]. rewrite N23. reflexivity. }
  unfold rows_ok, attr_rows.
  repeat (constructor; [cbn [fst snd]; rewrite ?(pre_valid pre) by (first [exact HP|reflexivity]); cbn [decode]; rewrite ?num_int by lia; rewrite ?PI, ?ST; try reflexivity|]); try constructor.
  exact ANY.
Qed.

Lemma meant (k : bytes) v j : (forall l, v <> VGroup l) -> (forall w o, v <> VLogValuer w o) -> k <> [] -> valid_utf8 k = true -> flash_leaf layout v = Some j ->
  meaning flash_any (flash_time layout) str (flash_resolved std) k v = Some [(k, j)].
Proof.
  intros G LV N0 V L. assert (X : is_empty (k, v) = false) by (destruct k; [now destruct N0|reflexivity]).
  assert (O : one str k (leaf flash_any (flash_time layout) str v) = Some [(k, j)]).
  { unfold one. unfold str at 1. rewrite V. unfold flash_leaf in L. now rewrite L. }
  destruct v; cbn [meaning]; rewrite ?X; try exact O; exfalso; first [eapply G; reflexivity|eapply LV; reflexivity].
Qed.

Lemma attrs_mean pre : (pre = [] \/ pre = B "with") -> flash_meanings std layout (attributes pi_text start pre) = Some (map fst (attr_rows pre)).
Proof.
  intros HP. apply means_rows. unfold attributes, attr_rows.
  assert (K : forall x, x <> [] -> forallb (fun c => N.ltb (code c) 128) x = true -> pre ++ x <> [] /\ valid_utf8 (pre ++ x) = true).
  { intros x N0 A. split; [destruct HP as [->| ->]; [exact N0|discriminate]|]. apply valid_ascii. rewrite forallb_app, A, andb_true_r.
    destruct HP as [->| ->]; reflexivity. }
  cbn [map fst].
  Ltac leaf1 K := cbn [fst snd]; apply meant; [discriminate|discriminate|apply K; [discriminate|reflexivity]|apply K; [discriminate|reflexivity]|].
  constructor; [leaf1 K; reflexivity|]. constructor; [leaf1 K; reflexivity|]. constructor; [leaf1 K; reflexivity|].
  constructor; [leaf1 K; reflexivity|]. constructor; [leaf1 K; cbv beta iota delta [flash_leaf leaf]; rewrite PT; reflexivity|].
  constructor; [leaf1 K; reflexivity|].
  constructor; [leaf1 K; cbv beta iota delta [flash_leaf leaf flash_time raw_str]; rewrite START; reflexivity|].
  constructor; [leaf1 K; reflexivity|].
  constructor; [vm_compute; reflexivity|]. constructor; [vm_compute; reflexivity|]. constructor; [vm_compute; reflexivity|constructor].
Qed.

(** An entry that is expected and where it is. *)
Ltac entry := eexists; split; [eapply fixed_row; [vm_compute; reflexivity|vm_compute; reflexivity|reflexivity|reflexivity]|apply covers_same; apply same_refl].
Ltac entries := repeat (constructor; [cbn [fst snd]; entry|]); constructor.
Ltac basics := eapply basic_contained; [vm_compute; reflexivity|reflexivity|reflexivity|vm_compute; reflexivity|vm_compute; reflexivity|reflexivity|reflexivity].
Ltac keys_ok := apply valid_wf, validb_ok; vm_compute; reflexivity.

Lemma values_valid pre : (pre = [] \/ pre = B "with") -> valid (DMap (values_map pi pre)).
Proof. intros [->| ->]; apply validb_ok; vm_compute; reflexivity. Qed.

Lemma verify_accepts fns Ps : Forall2 (decides E) fns Ps -> accepts (verify E fns) (fun a => Forall (fun P => P a) Ps).
Proof. intros F. apply decides_accepts, C57_verify, F. Qed.

Lemma all_same (Ps : list (dmap -> Prop)) : Forall (fun P : dmap -> Prop => forall x y, same (DMap x) (DMap y) -> P x -> P y) Ps ->
  forall x y, same (DMap x) (DMap y) -> Forall (fun P => P x) Ps -> Forall (fun P => P y) Ps.
Proof.
  intros F x y S0. induction F as [|P Ps H F IH]; intros X; [constructor|]. inversion X; subst. constructor; eauto.
Qed.

Lemma true_same : forall x y : dmap, same (DMap x) (DMap y) -> True -> True.
Proof. auto. Qed.

Lemma basic_valid : valid (DMap expected_basic).
Proof. apply validb_ok. vm_compute. reflexivity. Qed.

(** Basic, a second finder, no duplicates. *)
Lemma two b attrs rows n1 n2 n3 expected : b_calls b = info attrs -> b_source b = false ->
  b_verify b = verify E [finder E n1 expected_basic; finder E n2 expected; no_duplicates E n3] ->
  nest (flash_meanings std layout) (b_ops b) attrs = Some (map fst rows) -> rows_ok rows -> valid (DMap expected) ->
  (forall s q, stamp_ok s -> contained expected_basic (fix_map cs (puts (header_rows false message s q ++ rows) []))) ->
  (forall s q, stamp_ok s -> contained expected (fix_map cs (puts (header_rows false message s q ++ rows) []))) ->
  passes b.
Proof.
  intros CA SR VF NE RO VE H1 H2.
  apply (single b attrs rows (fun a => Forall (fun P => P a) [contained expected_basic; contained expected; fun _ => True])); auto.
  - rewrite VF. apply verify_accepts. constructor; [apply C57_finder_decide, basic_valid|]. constructor; [now apply C57_finder_decide|].
    constructor; [apply C57_duplicates_decide|constructor].
  - apply all_same. repeat (constructor; [first [apply true_same|exact (contained_same _)]|]). constructor.
  - rewrite SR. intros s q SO. constructor; [now apply H1|]. constructor; [now apply H2|]. constructor; [exact I|constructor].
Qed.

Lemma three b attrs rows n1 n2 n3 n4 e2 e3 : b_calls b = info attrs -> b_source b = false ->
  b_verify b = verify E [finder E n1 expected_basic; finder E n2 e2; finder E n3 e3; no_duplicates E n4] ->
  nest (flash_meanings std layout) (b_ops b) attrs = Some (map fst rows) -> rows_ok rows -> valid (DMap e2) -> valid (DMap e3) ->
  (forall s q, stamp_ok s -> contained expected_basic (fix_map cs (puts (header_rows false message s q ++ rows) []))) ->
  (forall s q, stamp_ok s -> contained e2 (fix_map cs (puts (header_rows false message s q ++ rows) []))) ->
  (forall s q, stamp_ok s -> contained e3 (fix_map cs (puts (header_rows false message s q ++ rows) []))) ->
  passes b.
Proof.
  intros CA SR VF NE RO V2 V3 H1 H2 H3.
  apply (single b attrs rows (fun a => Forall (fun P => P a) [contained expected_basic; contained e2; contained e3; fun _ => True])); auto.
  - rewrite VF. apply verify_accepts. constructor; [apply C57_finder_decide, basic_valid|]. constructor; [now apply C57_finder_decide|].
    constructor; [now apply C57_finder_decide|]. constructor; [apply C57_duplicates_decide|constructor].
  - apply all_same. repeat (constructor; [first [apply true_same|exact (contained_same _)]|]). constructor.
  - rewrite SR. intros s q SO. constructor; [now apply H1|]. constructor; [now apply H2|]. constructor; [now apply H3|]. constructor; [exact I|constructor].
Qed.

(** *** One by one *)

Lemma header_split (src : bool) msg s q (Q : list row -> Prop) :
  Q (header_rows src msg {| s_time := {| t_zero := true; t_format := t_format (s_time s); t_string := t_string (s_time s) |}; s_source := s_source s |} q) ->
  Q (header_rows src msg {| s_time := {| t_zero := false; t_format := t_format (s_time s); t_string := t_string (s_time s) |}; s_source := s_source s |} q) ->
  Q (header_rows src msg s q).
Proof. destruct s as [[[|] f t] so]; auto. Qed.

Ltac split_header := match goal with |- context [header_rows ?src ?msg ?s ?q] =>
  pattern (header_rows src msg s q); apply header_split; cbv beta; [|] end.

Lemma no_attrs lay : flash_meanings std lay [] = Some (map fst ([] : list row)).
Proof. reflexivity. Qed.

Lemma passes_disabled : passes {| b_source := false; b_ops := []; b_calls := [(level_debug, message, [])]; b_verify := disabled_check E |}.
Proof.
  intros ss m SO LE NM. cbn [b_calls b_verify] in *. destruct ss as [|s [|]]; try discriminate.
  exists []. split; [|reflexivity]. intros out'. split.
  - intros C. inversion C as [|c s0 cs0 ss0 out L C2|c s0 cs0 ss0 text out L LG C2]; subst; [now inversion C2|]. unfold level_debug in L. cbn in L. lia.
  - intros ->. apply captures_below; [unfold level_debug; cbn; lia|constructor].
Qed.

Lemma passes_simple test : passes {| b_source := false; b_ops := []; b_calls := info []; b_verify := matcher E test expected_basic |}.
Proof.
  apply (single _ [] [] (fun a => same (DMap expected_basic) (DMap (fix_map cs a)))); try reflexivity.
  - constructor.
  - apply matcher_accepts, basic_valid.
  - intros x y S0 H. eapply same_trans; [exact H|]. now apply fix_same.
  - intros s q SO. cbn [b_source].
    assert (G : forall k, same_option (get k expected_basic) (get k (fix_map cs (fix_map cs (puts (header_rows false message s q ++ []) []))))); [|now constructor].
    intros k. set (M := puts (header_rows false message s q ++ []) []).
    assert (GM : forall x, get x M = if beq MessageKey x then Some (DStr message) else if beq LevelKey x then Some (DStr (B "INFO"))
                                     else if beq TimeKey x then (if t_zero (s_time s) then None else Some (DStr (t_format (s_time s) layout))) else None).
    { intros x. unfold M. rewrite app_nil_r. unfold header_rows. destruct (t_zero (s_time s)); cbn [app]; unfold puts; cbn [fold_left fst snd];
        rewrite !get_put; [destruct (beq TimeKey x)|]; reflexivity. }
    clearbody M. rewrite !get_fix, !GM.
    change (beq MessageKey (B "message")) with false. change (beq LevelKey (B "message")) with false. change (beq TimeKey (B "message")) with false.
    change (beq TimeKey MessageKey) with false. change (beq (B "message") MessageKey) with false. rewrite !beq_refl.
    change (beq TimeKey LevelKey) with false. change (beq (B "message") LevelKey) with false. change (beq MessageKey LevelKey) with false.
    cbv iota. rewrite !upper_info. unfold expected_basic. cbn [get]. 
    destruct (beq TimeKey k) eqn:T; [apply beq_eq in T; subst k; constructor|].
    destruct (beq (B "message") k) eqn:M0; [apply beq_eq in M0; subst k; constructor|].
    destruct (beq LevelKey k) eqn:L; [apply beq_eq in L; subst k; constructor; constructor|].
    destruct (beq MessageKey k); repeat constructor.
Qed.

Lemma passes_source n1 n2 : passes {| b_source := true; b_ops := []; b_calls := info []; b_verify := verify E [finder E n1 expected_basic; sourcerer E n2] |}.
Proof.
  apply (single _ [] [] (fun a => Forall (fun P => P a) [contained expected_basic; sourced])); try reflexivity.
  - constructor.
  - apply verify_accepts. constructor; [apply C57_finder_decide, basic_valid|]. constructor; [apply C57_sourcerer_decide|constructor].
  - apply all_same. constructor; [apply contained_same|]. constructor; [apply sourced_same|constructor].
  - intros s q SO. cbn [b_source]. constructor; [split_header; basics|]. constructor; [|constructor].
    split_header; (eexists; split; [eapply fixed_row; [vm_compute; reflexivity|vm_compute; reflexivity|reflexivity|reflexivity]|repeat split; discriminate]).
Qed.

Lemma passes_attributes n1 n2 n3 : passes {| b_source := false; b_ops := []; b_calls := info (all_attributes pi_text start);
  b_verify := verify E [finder E n1 expected_basic; finder E n2 (all_values_map pi); no_duplicates E n3] |}.
Proof.
  eapply (two _ _ (attr_rows [])); try reflexivity.
  - cbn [b_ops nest]. apply attrs_mean. now left.
  - apply attr_rows_ok. auto.
  - apply values_valid. now left.
  - intros s q SO. split_header; basics.
  - intros s q SO. apply covers_contained. split_header; (apply covers_map; [keys_ok|entries]).
Qed.

Lemma passes_with_simple n1 n2 n3 : passes {| b_source := false; b_ops := with_all pi_text start; b_calls := info [];
  b_verify := verify E [finder E n1 expected_basic; finder E n2 (with_values_map pi); no_duplicates E n3] |}.
Proof.
  eapply (two _ _ (attr_rows (B "with") ++ [])); try reflexivity.
  - cbn [b_ops with_all nest]. unfold with_attributes. rewrite attrs_mean by now right. rewrite map_app. reflexivity.
  - apply Forall_app. split; [apply attr_rows_ok; auto|constructor].
  - apply values_valid. now right.
  - intros s q SO. split_header; basics.
  - intros s q SO. apply covers_contained. split_header; (apply covers_map; [keys_ok|entries]).
Qed.

(** The names group, Any and Error occur twice: the last counts, and is the same. *)
Lemma passes_with_attributes n1 n2 n3 n4 : passes {| b_source := false; b_ops := with_all pi_text start; b_calls := info (all_attributes pi_text start);
  b_verify := verify E [finder E n1 expected_basic; finder E n2 (all_values_map pi); finder E n3 (with_values_map pi); no_duplicates E n4] |}.
Proof.
  eapply (three _ _ (attr_rows (B "with") ++ attr_rows [])); try reflexivity.
  - cbn [b_ops with_all nest]. unfold with_attributes, all_attributes. rewrite !attrs_mean by auto. rewrite map_app. reflexivity.
  - apply Forall_app. split; apply attr_rows_ok; auto.
  - apply values_valid. now left.
  - apply values_valid. now right.
  - intros s q SO. split_header; basics.
  - intros s q SO. apply covers_contained. split_header; (apply covers_map; [keys_ok|entries]).
  - intros s q SO. apply covers_contained. split_header; (apply covers_map; [keys_ok|entries]).
Qed.

Lemma rows_decode rows : rows_ok rows -> decode num (JObj (map fst rows)) = Some (DMap (puts rows [])).
Proof. intros R. now rewrite decode_obj, decode_rows. Qed.

Lemma found_row rows k i r d : last_pos k (map key_of rows) = Some i -> nth_error rows i = Some r -> snd r = d -> get k (puts rows []) = Some d.
Proof. intros P N0 <-. now rewrite puts_get, P, N0. Qed.

Lemma passes_with_group n1 n2 n3 : passes {| b_source := false; b_ops := with_group; b_calls := info (all_attributes pi_text start);
  b_verify := verify E [finder E n1 expected_basic; finder E n2 [(B "withGroup", DMap (all_values_map pi))]; no_duplicates E n3] |}.
Proof.
  eapply (two _ _ [(B "withGroup", JObj (map fst (attr_rows [])), DMap (puts (attr_rows []) []))]); try reflexivity.
  - cbn [b_ops with_group nest]. change (negb (SpecLog.plain (B "withGroup"))) with false. cbv iota.
    change (untouched (all_attributes pi_text start) []) with false. cbv iota. unfold all_attributes. rewrite attrs_mean by auto. reflexivity.
  - constructor; [|constructor]. change (decode num (JObj (map fst (attr_rows []))) = Some (DMap (puts (attr_rows []) []))). apply rows_decode, attr_rows_ok. auto.
  - apply valid_map; [repeat constructor; intros []|]. constructor; [|constructor]. apply values_valid. now left.
  - intros s q SO. split_header; basics.
  - intros s q SO. apply covers_contained.
    assert (C : covers (DMap (all_values_map pi)) (DMap (puts (attr_rows []) []))).
    { apply covers_map; [keys_ok|].
      repeat (constructor; [cbn [fst snd]; eexists; split; [eapply found_row; [vm_compute; reflexivity|reflexivity|reflexivity]|apply covers_same, same_refl]|]).
      constructor. }
    split_header; (apply covers_map; [repeat constructor; intros []|]; constructor; [|constructor]; cbn [fst snd]; eexists;
      split; [eapply fixed_row; [vm_compute; reflexivity|vm_compute; reflexivity|reflexivity|reflexivity]|exact C]).
Qed.

Lemma big_same x y : same (DMap x) (DMap y) -> big_fine x -> big_fine y.
Proof.
  intros S0. inversion S0 as [| | | | |l l' G]; subst. pose proof (G (B "group")) as H. intros [N0|[g [X [W HT]]]].
  - left. rewrite N0 in H. destruct (get (B "group") y); [inversion H|reflexivity].
  - right. rewrite X in H. destruct (get (B "group") y) as [w|] eqn:Y; [|inversion H]. inversion H as [|v w' V X1 X2]; subst.
    inversion V as [| | | | |l1 l2 GL]; subst. exists l2. split; [first [exact Y|reflexivity]|]. split; [eapply well_named_same; eauto|eapply height_same; eauto].
Qed.

Lemma passes_big test : passes {| b_source := false; b_ops := []; b_calls := info [big_group]; b_verify := big_group_checker E test |}.
Proof.
  destruct (C56_built std layout num 5 big_group NUM ltac:(reflexivity) BIG) as [gs [gm [MG [DG [WG HG]]]]].
  apply (single _ [big_group] [(B "group", JObj gs, DMap gm)] big_fine); try reflexivity.
  - exact MG.
  - constructor; [exact DG|constructor].
  - apply decides_accepts, C57_big_decide.
  - apply big_same.
  - intros s q SO. right. exists gm. split; [|split; [exact WG|exact HG]]. cbn [b_source].
    split_header; (eapply fixed_row; [vm_compute; reflexivity|vm_compute; reflexivity|reflexivity|reflexivity]).
Qed.

(** *** The traffic lines *)

Definition traffic_ok (args : list attr) : bool :=
  match args with
  | [(k1, VInt64 z); (k2, VString s2); (k3, VString s3); (k4, VString s4); (k5, VString s5)] =>
      beq k1 (B "code") && beq k2 (B "elapsed") && beq k3 (B "client") && beq k4 (B "method") && beq k5 (B "url") &&
      Z.leb (Z.abs z) (2 ^ 53) && valid_utf8 s2 && valid_utf8 s3 && valid_utf8 s4 && valid_utf8 s5
  | _ => false
  end.

(** All lines of logging.txt are good: there are 51. *)
Lemma log_data_ok : forallb traffic_ok log_data = true /\ length log_data = 51.
Proof. split; vm_compute; reflexivity. Qed.

Definition logged_names : list bytes := [B "level"; B "msg"; B "code"; B "elapsed"; B "method"; B "url"].

Lemma string_meant (k : bytes) s : k <> [] -> valid_utf8 k = true -> valid_utf8 s = true ->
  meaning flash_any (flash_time layout) str (flash_resolved std) k (VString s) = Some [(k, JStr s)].
Proof. intros N0 V1 V2. apply meant; auto; try discriminate. unfold flash_leaf. cbn [leaf]. unfold str. now rewrite V2. Qed.

Lemma traffic_rows args : traffic_ok args = true -> exists rows, flash_meanings std layout args = Some (map fst rows) /\ rows_ok rows /\
  forall s q f, In f logged_names -> get f (fix_map cs (puts (header_rows false (B "Handle") s q ++ rows) [])) <> None.
Proof.
  destruct args as [|[k1 [| | | |i| | | | |]] args]; try discriminate. destruct args as [|[k2 [| | | | |s| | | |]] args]; try discriminate.
  destruct args as [|[k3 [| | | | |s0| | | |]] args]; try discriminate. destruct args as [|[k4 [| | | | |s1| | | |]] args]; try discriminate.
  destruct args as [|[k5 [| | | | |s2| | | |]] args]; try discriminate. destruct args as [|]; try discriminate. cbn [traffic_ok].
  rewrite !andb_true_iff, Z.leb_le. intros [[[[[[[[[K1 K2] K3] K4] K5] Z1] V2] V3] V4] V5].
  apply beq_eq in K1, K2, K3, K4, K5. subst k1 k2 k3 k4 k5.
  exists [(B "code", JNum (dec_of_Z i), number i); (B "elapsed", JStr s, DStr s); (B "client", JStr s0, DStr s0); (B "method", JStr s1, DStr s1);
          (B "url", JStr s2, DStr s2)].
  split; [|split].
  - apply means_rows. cbn [map fst]. constructor; [apply meant; try discriminate; reflexivity|].
    repeat (constructor; [apply string_meant; [discriminate|reflexivity|assumption]|]). constructor.
  - constructor; [cbn [fst snd decode]; rewrite num_int by exact Z1; reflexivity|].
    repeat (constructor; [cbn [fst snd decode]; rewrite ?V2, ?V3, ?V4, ?V5; reflexivity|]). constructor.
  - intros st q f I.
    unfold logged_names in I. cbn [In] in I.
    destruct I as [<-|[<-|[<-|[<-|[<-|[<-|[]]]]]]].
    + split_header; (erewrite fixed_level; [discriminate|vm_compute; reflexivity|reflexivity|reflexivity]).
    + split_header; (erewrite fixed_msg; [discriminate|vm_compute; reflexivity|vm_compute; reflexivity|reflexivity]).
    + split_header; (erewrite fixed_row; [|vm_compute; reflexivity|vm_compute; reflexivity|reflexivity|reflexivity]; discriminate).
    + split_header; (erewrite fixed_row; [|vm_compute; reflexivity|vm_compute; reflexivity|reflexivity|reflexivity]; discriminate).
    + split_header; (erewrite fixed_row; [|vm_compute; reflexivity|vm_compute; reflexivity|reflexivity|reflexivity]; discriminate).
    + split_header; (erewrite fixed_row; [|vm_compute; reflexivity|vm_compute; reflexivity|reflexivity|reflexivity]; discriminate).
Qed.

Lemma traffic_lines b : b_source b = false -> b_ops b = [] -> forall data ss, forallb traffic_ok data = true -> length ss = length data -> Forall stamp_ok ss ->
  exists lines records, captures std b (map (fun args => (level_info, B "Handle", args)) data) ss (output lines []) /\
    Forall one_line lines /\ Forall2 (holds E) lines records /\
    Forall (fun a => forall f, In f logged_names -> get f a <> None) records.
Proof.
  intros SR OP data. induction data as [|args data IH]; intros ss T LE SO; destruct ss as [|s ss]; try discriminate.
  - exists [], []. repeat split; constructor.
  - cbn [forallb] in T. apply andb_true_iff in T. destruct T as [T1 T2]. inversion SO as [|x y S1 S2]; subst.
    destruct (IH ss T2 ltac:(cbn in LE; lia) S2) as [lines [records [C [O [H P]]]]].
    destruct (traffic_rows args T1) as [rows [MN [RO GT]]].
    assert (NE : nest (flash_meanings std layout) (b_ops b) args = Some (map fst rows)) by (rewrite OP; exact MN).
    destruct (line_ok b (B "Handle") args s rows S1 eq_refl NE RO) as [q [line [L [O1 R]]]].
    destruct (R line (or_introl eq_refl)) as [a [LK [V S0]]]. rewrite SR in S0.
    exists (line :: lines), (a :: records). split; [|split; [|split]].
    + unfold output. cbn [map concat]. rewrite <- (app_assoc (line ++ [newline])). apply captures_line; [unfold level_info; cbn; lia|exact L|exact C].
    + now constructor.
    + constructor; [now split|exact H].
    + constructor; [|exact P]. intros f I. eapply get_same; [exact S0|]. now apply GT.
Qed.

Lemma passes_traffic data test : forallb traffic_ok data = true ->
  passes {| b_source := false; b_ops := []; b_calls := map (fun args => (level_info, B "Handle", args)) data;
    b_verify := verify_lines E [fields_check E test logged_names] |}.
Proof.
  intros T ss m SO LE NM. cbn [b_calls b_verify] in *. rewrite map_length in LE.
  match goal with |- exists out, (forall out', captures std ?b _ _ _ <-> _) /\ _ => set (bm := b) end.
  destruct (traffic_lines bm eq_refl eq_refl data ss T LE SO) as [lines [records [C [O [H P]]]]].
  exists (output lines []). split; [intros out'; split; [intros C'; eapply captures_fun; eauto|intros ->; exact C]|].
  destruct (C57_lines E [fields_check E test logged_names] [fun a => forall f, In f logged_names -> get f a <> None] lines [] records None m) as [m' [err [-> [I Q]]]].
  - constructor; [apply C57_fields_decide|constructor].
  - exact O.
  - intros [].
  - exact NM.
  - unfold all_lines. rewrite app_nil_r. exact H.
  - assert (X : err = None); [|rewrite (Q X), X; reflexivity]. apply I. eapply Forall_impl; [|exact P]. intros a PA. constructor; [exact PA|constructor].
Qed.

Lemma suite_passes : Forall (fun nb => passes (snd nb)) suite.
Proof.
  unfold benchmarks.
  constructor; [apply passes_disabled|]. constructor; [apply passes_simple|]. constructor; [apply passes_source|].
  constructor; [apply passes_attributes|]. constructor; [apply passes_attributes|]. constructor; [apply passes_with_simple|].
  constructor; [apply passes_with_attributes|]. constructor; [apply passes_with_attributes|].
  constructor; [apply passes_with_group|]. constructor; [apply passes_with_group|]. constructor; [apply passes_big|].
  constructor; [exact (passes_traffic log_data _ (proj1 log_data_ok))|constructor].
Qed.

End Suite.

(** ** The claim

    Whatever the times and places of the calls, flash has exactly one output for a
    benchmark, and the check of the benchmark neither fails nor records anything. *)
Theorem C58_flash std num E pi_text pi start big_group :
  stdlib_ok std -> num_ok num -> unmarshal_ok num E -> casing_ok (e_casing E) ->
  num pi_text = Some pi -> is_num pi_text = true -> SpecLog.plain (t_format start layout) = true -> built 5 0 (B "group") big_group ->
  forall name b ss m, In (name, b) (benchmarks E pi_text pi start big_group) ->
  Forall stamp_ok ss -> length ss = length (b_calls b) -> unheeded m ->
  exists out, (forall out', captures std b (b_calls b) ss out' <-> out' = out) /\ b_verify b out None m = (None, m, None).
Proof.
  intros STD NUM UN CS PI PT ST BG name b ss m I SO LE NM.
  pose proof (suite_passes std num E pi_text pi start big_group STD NUM UN CS PI PT ST BG) as F.
  rewrite Forall_forall in F. exact (F (name, b) I ss m SO LE NM).
Qed.

(** The file of traffic lines is used as a whole: every line of it parses, with all
    five members. *)
Theorem C58_traffic :
  length (read_lines logging) = length log_data /\
  Forall (fun args => map fst args = [B "code"; B "elapsed"; B "client"; B "method"; B "url"]) log_data.
Proof.
  split; [vm_compute; reflexivity|]. apply Forall_forall. intros args I.
  assert (F : forallb (fun args => if list_eq_dec (list_eq_dec ascii_dec) (map fst args) [B "code"; B "elapsed"; B "client"; B "method"; B "url"] then true else false) log_data = true)
    by (vm_compute; reflexivity).
  rewrite forallb_forall in F. specialize (F args I). now destruct (list_eq_dec _ _ _) in F.
Qed.

(** ** Traffic lines *)

Lemma best_chr p b caps c s o : p c = true -> best b caps s o -> best (RSeq (RChr p) b) caps (c :: s) o.
Proof. intros P H prev. rewrite ms_chr. cbn [m_rest St]. rewrite P. apply H. Qed.

Lemma best_digit caps c s : is_digit c = true ->
  best (RSeq (RGroup 1 (RSeq (RChr is_digit) (RStar false (RChr is_digit)))) REmpty) caps (c :: s) (Some ((1, [c]) :: caps, s)).
Proof.
  intros P prev. rewrite ms_group, ms_chr. cbn [m_rest St]. rewrite P, ms_lazy. unfold adv. cbn [St m_caps m_prev m_rest]. unfold St at 2. cbn [m_caps m_prev m_rest].
  assert (E : exists l, lazy_runs is_digit caps (Some c) s = St caps (Some c) s :: l) by (destruct s; eexists; reflexivity).
  destruct E as (l & ->). cbn [flat_map]. eexists. eexists. change (c :: s) with ([c] ++ s). rewrite captured_St. reflexivity.
Qed.

Lemma apart_word_space : apart is_word is_space.
Proof. intros c. destruct c as [[] [] [] [] [] [] [] []]; vm_compute; congruence. Qed.
Lemma apart_space_word : apart is_space is_word.
Proof. intros c H. destruct (is_word c) eqn:E; [|reflexivity]. apply apart_word_space in E. congruence. Qed.
Lemma apart_space_clock : apart is_space (fun c => is_digit c || Ascii.eqb c (chr 58)).
Proof. intros c. destruct c as [[] [] [] [] [] [] [] []]; vm_compute; congruence. Qed.

Lemma skip_stop p c s : p c = false -> skip p (c :: s) = c :: s.
Proof. intros E. cbn. rewrite E. reflexivity. Qed.

Lemma rejects_digit : rejects is_space (RSeq (RGroup 1 (RSeq (RChr is_digit) (RStar false (RChr is_digit)))) REmpty).
Proof.
  intros s Hs. rewrite ms_group, ms_chr. destruct (m_rest s) as [|c t]; [destruct Hs|]. rewrite (space_digit c Hs). reflexivity.
Qed.

(** Of a traffic line that starts with a time of day and a level, all from the first digit
    after them stays. *)
Theorem C58_trim s0 t s1 level s2 d rest :
  forallb is_space s0 = true -> length t = 8 -> forallb (fun c => is_digit c || Ascii.eqb c (chr 58)) t = true ->
  s1 <> [] -> forallb is_space s1 = true -> level <> [] -> forallb is_word level = true ->
  s2 <> [] -> forallb is_space s2 = true -> is_digit d = true ->
  trim_time_level (s0 ++ t ++ s1 ++ level ++ s2 ++ d :: rest) = d :: rest.
Proof.
  intros F0 L8 Ft N1 F1 Nl Fl N2 F2 Fd. unfold trim_time_level, ptnTrimTimeLevel.
  assert (X : best (rcat ([ws] ++ repeat clock 8 ++ [ws1; rplus (RChr is_word); ws1; RGroup 1 (RSeq (RChr is_digit) (RStar false (RChr is_digit)))])) []
            (s0 ++ t ++ s1 ++ level ++ s2 ++ d :: rest) (Some ([(1, [d])], rest))).
  { cbn [app repeat rcat]. 
    do 8 (destruct t as [|? t]; [discriminate|]). destruct t; [|discriminate]. cbn [forallb app] in Ft.
    repeat match goal with H : _ && _ = true |- _ => apply andb_true_iff in H as [? H] end.
    apply best_run; [apply rejects_chr; exact apart_space_clock|].
    rewrite skip_app by exact F0. cbn [app].
    rewrite skip_stop.
    2: { destruct (is_space a) eqn:E; [|reflexivity]. apply apart_space_clock in E. congruence. }
    do 8 (apply best_chr; [assumption|]).
    apply best_run1; [apply rejects_run1; [exact apart_space_word|]|].
    { apply rejects_run1; [exact apart_word_space|]. apply rejects_digit. }
    destruct s1 as [|c1 s1]; [congruence|]. cbn [app]. cbn [forallb] in F1.
    apply andb_true_iff in F1 as F1'. rewrite (proj1 F1').
    change (c1 :: s1 ++ level ++ s2 ++ d :: rest) with ((c1 :: s1) ++ level ++ s2 ++ d :: rest).
    rewrite skip_app by exact F1.
    destruct level as [|cl level]; [congruence|]. cbn [app]. cbn [forallb] in Fl. apply andb_true_iff in Fl as Fl'.
    rewrite skip_stop. 2: { apply apart_word_space. apply Fl'. }
    apply best_run1; [apply rejects_run1; [exact apart_word_space|apply rejects_digit]|].
    rewrite (proj1 Fl'). change (cl :: level ++ s2 ++ d :: rest) with ((cl :: level) ++ s2 ++ d :: rest).
    rewrite skip_app by exact Fl.
    destruct s2 as [|c2 s2]; [congruence|]. cbn [app]. cbn [forallb] in F2. apply andb_true_iff in F2 as F2'.
    rewrite skip_stop. 2: { apply apart_space_word. apply F2'. }
    apply best_run1; [apply rejects_digit|]. rewrite (proj1 F2').
    change (c2 :: s2 ++ d :: rest) with ((c2 :: s2) ++ d :: rest). rewrite skip_app by exact F2.
    rewrite skip_stop by (apply digit_space; exact Fd). apply best_digit. exact Fd. }
  cbn [app rcat] in *. rewrite (find_best _ _ _ X). reflexivity.
Qed.

(** ** Examples *)

Definition pi_text0 : bytes := B "3.141592653589793".
Definition pi0 : Qc := match num0 pi_text0 with Some q => q | None => 0%Qc end.
Definition suite0 : list (bytes * benchmark) := benchmarks (env0 true) pi_text0 pi0 time0 group1.
Definition stamp0 : stamp := {| s_time := time0; s_source := source0 |}.

Example C58_hypotheses_ex : stdlib_ok std0 /\ num_ok num0 /\ unmarshal_ok num0 (env0 true) /\ casing_ok (e_casing (env0 true)) /\
  num0 pi_text0 = Some pi0 /\ is_num pi_text0 = true /\ SpecLog.plain (t_format time0 layout) = true /\ built 5 0 (B "group") group1 /\
  stamp_ok stamp0 /\ length suite0 = 12.
Proof.
  split; [exact std0_ok|]. split; [exact num0_ok|]. split; [apply env0_unmarshal|]. split; [exact casing0_ok|].
  split; [reflexivity|]. split; [reflexivity|]. split; [reflexivity|]. split; [exact group1_built|].
  split; [|reflexivity]. repeat split; reflexivity.
Qed.

(** The outputs, by running the model, and what the checks say of them; then of
    the outputs of the next benchmark in the list. *)
Definition output0 (b : benchmark) : bytes :=
  concat (map (fun c => if Z.ltb (fst (fst c)) 0 then [] else
                        match run std0 40 (options_of b) None (b_ops b) NoDead (record_of_call c stamp0) with
                        | Some (Done [text] true) => text
                        | _ => []
                        end) (b_calls b)).
Definition silent {A} (r : A * manager * option bytes) : bool :=
  match r with (_, m, None) => match m_warnings m with [] => true | _ => false end | _ => false end.
Example C58_flash_ex :
  map (fun nb => b_verify (snd nb) (output0 (snd nb)) None (manager0 [])) suite0 = repeat (None, manager0 [], None) 12 /\
  map (fun p => silent (b_verify (fst p) (output0 (snd p)) None (manager0 []))) (combine (map snd suite0) (tl (map snd suite0))) =
    [false; false; false; true; false; true; true; false; true; false; false].
Proof. split; vm_compute; reflexivity. Qed.

Example C58_trim_ex :
  trim_time_level (B " 09:11:12 INF 200 |  1.2ms | 127.0.0.1 | GET /") = B "200 |  1.2ms | 127.0.0.1 | GET /".
Proof.
  apply (C58_trim (B " ") (B "09:11:12") (B " ") (B "INF") (B " ") (chr 50) (B "00 |  1.2ms | 127.0.0.1 | GET /")); try reflexivity; discriminate.
Qed.

Print Assumptions C58_flash.
Print Assumptions C58_trim.
Print Assumptions C58_traffic.
