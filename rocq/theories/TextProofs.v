(** Lemmas about pieces of JSON object text, shared by the two handlers. *)

From Coq Require Import Ascii String List ZArith NArith Bool Lia.
From Verif Require Import Bytes BytesProofs Json JsonProofs Slog SpecLog SpecFields EscapeProofs.
Import ListNotations.

Definition brace : ascii := chr 123.

Lemma clean_app a b : clean a = true -> clean b = true -> clean (a ++ b) = true.
Proof.
  unfold clean. intros Ha Hb. apply andb_prop in Ha as [A1 A2], Hb as [B1 B2].
  rewrite forallb_app, A1, B1. simpl. apply valid_app; auto.
Qed.

Lemma clean_ascii t : forallb (fun c => N.leb 32 (code c) && N.ltb (code c) 128) t = true ->
  clean t = true.
Proof.
  intros H. unfold clean.
  assert (G : forallb (fun c => N.leb 32 (code c)) t = true /\ forallb (fun c => N.ltb (code c) 128) t = true).
  { induction t as [|c t IH]; [auto|]. cbn [forallb] in *. apply andb_prop in H as [H1 H2].
    apply andb_prop in H1 as [H0 H1]. destruct IH as [I1 I2]; auto. rewrite H0, H1, I1, I2. auto. }
  destruct G as [-> G]. simpl. apply valid_ascii. auto.
Qed.

Lemma clean_no_newline t : clean t = true -> ~ In newline t.
Proof.
  unfold clean. intros H I. apply andb_prop in H as [H _].
  rewrite forallb_forall in H. apply H in I. discriminate.
Qed.

Lemma plain_clean t : plain t = true -> clean t = true.
Proof.
  unfold plain, clean. intros H. apply andb_prop in H as [H1 H2]. rewrite H2, andb_true_r.
  rewrite forallb_forall in *. intros c I. apply plain_no_ctl; auto.
Qed.

Lemma plain_body_self t : plain t = true -> jbody t t.
Proof. unfold plain. intros H. apply andb_prop in H as [H _]. apply plain_jbody; auto. Qed.

Lemma num_clean t : forallb num_char t = true -> clean t = true.
Proof.
  intros H. apply clean_ascii. induction t as [|c t IH]; auto. cbn [forallb] in *.
  apply andb_prop in H as [H1 H2]. rewrite IH by auto.
  revert H1. clear. bytecase c.
Qed.

(** ** Values surrounded by white space *)

Definition vtext (j : json) (t : bytes) : Prop :=
  clean t = true /\ exists w1 b w2, t = w1 ++ b ++ w2 /\ ws w1 /\ jtext j b /\ ws w2.

Lemma vtext_intro j t : clean t = true -> jtext j t -> vtext j t.
Proof.
  intros H J. split; auto. exists [], t, []. rewrite app_nil_r. repeat split; auto.
Qed.

Lemma vtext_parse j t : clean t = true -> parse_json t = Some j -> vtext j t.
Proof. intros H P. split; auto. apply parse_json_sound; auto. Qed.

Lemma vtext_num t : is_num t = true -> vtext (JNum t) t.
Proof. intros H. apply vtext_intro; [|constructor; auto]. apply num_clean, is_num_chars; auto. Qed.

Lemma vtext_str s b : clean b = true -> jbody s b -> vtext (JStr s) (quote :: b ++ [quote]).
Proof.
  intros C H. apply vtext_intro; [|constructor; auto].
  apply (clean_app [quote]); [reflexivity|]. apply clean_app; auto.
Qed.

Lemma vtext_parses j t : vtext j t -> parse_json t = Some j.
Proof.
  intros (_ & w1 & b & w2 & -> & H1 & H & H2). apply parse_json_complete; auto.
Qed.

(** ** Sequences of members *)

Definition sep (s : bool) : bytes := if s then B ", " else [].

Definition nonempty {A} (l : list A) : bool := match l with [] => false | _ => true end.

(** Characters that no handler escapes. *)
Definition ordinary (k : bytes) : bool :=
  forallb (fun c => N.leb 32 (code c) && N.ltb (code c) 127 && negb (Ascii.eqb c quote)
                    && negb (Ascii.eqb c backslash) && negb (Ascii.eqb c (chr 47))) k.

Lemma ordinary_char c :
  N.leb 32 (code c) && N.ltb (code c) 127 && negb (Ascii.eqb c quote)
    && negb (Ascii.eqb c backslash) && negb (Ascii.eqb c (chr 47)) = true ->
  lead2 c = false /\ lead3 c = false /\ lead4 c = false /\ esc1 c = [c].
Proof.
  destruct c as [[][][][][][][][]]; vm_compute; intros H; try discriminate; auto.
Qed.

Lemma escapes_ordinary k e : escapes k e -> ordinary k = true -> e = k.
Proof.
  induction 1 as [|c s t H2 H3 H4 _ IH|c d s t H2 P1 _ IH|c d e s t H3 P1 P2 _ IH
                 |c d e f s t H4 P1 P2 P3 _ IH]; intros O; [reflexivity|..];
    unfold ordinary in O; cbn [forallb] in O; apply andb_prop in O as [O1 O2];
    apply ordinary_char in O1 as (L2 & L3 & L4 & E); try congruence.
  rewrite E, IH by exact O2. reflexivity.
Qed.

(** [jmembers] with ordinary keys written as they are. *)
Inductive smembers : fields -> bytes -> Prop :=
| sm_one k kb v w1 w2 w3 b w4 : ws w1 -> jbody k kb -> ws w2 -> ws w3 -> jtext v b -> ws w4 ->
    (ordinary k = true -> kb = k) ->
    smembers [(k, v)] (w1 ++ quote :: kb ++ quote :: w2 ++ chr 58 :: w3 ++ b ++ w4)
| sm_more k kb v w1 w2 w3 b w4 l t :
    ws w1 -> jbody k kb -> ws w2 -> ws w3 -> jtext v b -> ws w4 -> (ordinary k = true -> kb = k) -> smembers l t ->
    smembers ((k, v) :: l)
      (w1 ++ quote :: kb ++ quote :: w2 ++ chr 58 :: w3 ++ b ++ w4 ++ chr 44 :: t).

Lemma smembers_jmembers l t : smembers l t -> jmembers l t.
Proof. induction 1; constructor; auto. Qed.

(** [t] is the text of the fields [fs] following [s] (something was there). *)
Definition FT (s : bool) (fs : fields) (t : bytes) : Prop :=
  clean t = true /\
  ((fs = [] /\ t = []) \/ (fs <> [] /\ exists u, t = sep s ++ u /\ smembers fs u)).

Lemma FT_nil s : FT s [] [].
Proof. split; auto. Qed.

Lemma sep_clean s : clean (sep s) = true.
Proof. destruct s; reflexivity. Qed.

Lemma FT_one s k kb j t : clean kb = true -> jbody k kb -> (ordinary k = true -> kb = k) -> vtext j t ->
  FT s [(k, j)] (sep s ++ quote :: kb ++ quote :: B ": " ++ t).
Proof.
  intros C K O (Ct & w1 & b & w2 & -> & H1 & H & H2). split.
  - apply clean_app; [apply sep_clean|]. apply (clean_app [quote]); [reflexivity|].
    apply clean_app; auto.
  - right. split; [discriminate|]. eexists. split; [reflexivity|].
    change (quote :: B ": " ++ w1 ++ b ++ w2) with (quote :: [] ++ chr 58 :: (space :: w1) ++ b ++ w2).
    apply (sm_one k kb j [] [] (space :: w1) b w2); auto; reflexivity.
Qed.

Lemma smembers_ws w l t : ws w -> smembers l t -> smembers l (w ++ t).
Proof.
  intros W H. destruct H; rewrite (app_assoc w); constructor; auto;
    unfold ws in *; rewrite forallb_app; apply andb_true_intro; auto.
Qed.

Lemma smembers_app l1 t1 l2 t2 : smembers l1 t1 -> smembers l2 t2 ->
  smembers (l1 ++ l2) (t1 ++ chr 44 :: t2).
Proof.
  intros H1 H2. induction H1.
  - cbn [app]. rewrite <- app_assoc. cbn [app]. rewrite <- app_assoc. cbn [app].
    rewrite <- app_assoc. cbn [app]. rewrite <- !app_assoc. apply sm_more; auto.
  - cbn [app]. rewrite <- app_assoc. cbn [app]. rewrite <- app_assoc. cbn [app].
    rewrite <- app_assoc. cbn [app]. rewrite <- !app_assoc. cbn [app]. apply sm_more; auto.
Qed.

Lemma FT_app s fs1 t1 fs2 t2 :
  FT s fs1 t1 -> FT (s || nonempty fs1) fs2 t2 -> FT s (fs1 ++ fs2) (t1 ++ t2).
Proof.
  intros (C1 & H1) (C2 & H2). split; [apply clean_app; auto|].
  destruct H1 as [(-> & ->)|(N1 & u1 & -> & M1)].
  - cbn [app nonempty] in *. rewrite orb_false_r in H2. auto.
  - destruct H2 as [(-> & ->)|(N2 & u2 & -> & M2)].
    + rewrite !app_nil_r. right. eauto.
    + right. split; [destruct fs1; [congruence|discriminate]|].
      destruct fs1 as [|f fs1]; [congruence|]. cbn [nonempty]. rewrite orb_true_r.
      exists (u1 ++ chr 44 :: space :: u2). split; [rewrite <- app_assoc; reflexivity|].
      apply smembers_app; auto. apply (smembers_ws [space]); auto. reflexivity.
Qed.

Lemma FT_obj fs t : FT false fs t -> vtext (JObj fs) (brace :: t ++ [chr 125]).
Proof.
  intros (C & H). apply vtext_intro.
  - apply (clean_app [brace]); [reflexivity|]. apply clean_app; auto.
  - destruct H as [(-> & ->)|(_ & u & -> & M)].
    + apply (jt_obj0 []). reflexivity.
    + apply jt_obj, smembers_jmembers. exact M.
Qed.

(** [line] is an object with the members [fs], ordinary keys written as they are. *)
Definition spelled (fs : fields) (line : bytes) : Prop :=
  exists t, FT false fs t /\ line = brace :: t ++ [chr 125].

Lemma spelled_parses fs line : spelled fs line -> parse_json line = Some (JObj fs) /\ clean line = true.
Proof.
  intros (t & F & ->). apply FT_obj in F. split; [apply vtext_parses, F|apply F].
Qed.

(** Dropping the leading separator. *)
Lemma FT_sep s fs t : fs <> [] -> FT false fs t -> FT s fs (sep s ++ t).
Proof.
  intros N (C & H). split; [apply clean_app; auto; apply sep_clean|].
  destruct H as [(-> & ->)|(_ & u & -> & M)]; [congruence|]. right. eauto.
Qed.

(** ** Member text does not end with an opening brace *)

Lemma snoc_ends c b x : x <> c -> ends_with c (b ++ [x]) = false.
Proof. intros H. rewrite ends_with_app. apply Ascii.eqb_neq. auto. Qed.

Lemma all_not_end (P : ascii -> bool) c t : P c = false -> t <> [] -> forallb P t = true ->
  ends_with c t = false.
Proof.
  intros Hc N H. destruct (exists_last N) as (t' & x & ->). rewrite forallb_app in H.
  apply andb_prop in H as [_ H]. cbn [forallb] in H. apply andb_prop in H as [H _].
  apply snoc_ends. congruence.
Qed.

Lemma jtext_end v b : jtext v b -> b <> [] /\ ends_with brace b = false.
Proof.
  destruct 1 as [| | |t H|s b _|w _|l b _|w _|l b _]; (split; [try discriminate|]);
    try reflexivity; try (rewrite ?app_comm_cons; apply snoc_ends; discriminate).
  - intros ->. discriminate.
  - apply (all_not_end num_char); [reflexivity| |apply is_num_chars; auto].
    intros ->. discriminate.
Qed.

Lemma text_ws_end b w : b <> [] -> ends_with brace b = false -> ws w ->
  ends_with brace (b ++ w) = false.
Proof.
  intros N H W. destruct w as [|c w]; [rewrite app_nil_r; auto|].
  rewrite ends_with_app_ne by discriminate.
  apply (all_not_end is_ws); [reflexivity|discriminate|exact W].
Qed.

Lemma jmembers_end l t : jmembers l t -> t <> [] /\ ends_with brace t = false.
Proof.
  induction 1 as [k kb v w1 w2 w3 b w4 H1 K H2 H3 V H4|k kb v w1 w2 w3 b w4 l t H1 K H2 H3 V H4 M IH].
  - split; [destruct w1; discriminate|].
    destruct (jtext_end _ _ V) as [N E].
    repeat first [ rewrite app_comm_cons | rewrite app_assoc ].
    rewrite <- app_assoc. rewrite ends_with_app_ne; [apply text_ws_end; auto|].
    destruct b; [congruence|discriminate].
  - split; [destruct w1; discriminate|]. destruct IH as [N E].
    repeat first [ rewrite app_comm_cons | rewrite app_assoc ].
    rewrite ends_with_app_ne by discriminate.
    change (chr 44 :: t) with ([chr 44] ++ t). rewrite ends_with_app_ne; auto.
Qed.

Lemma FT_end s fs t : FT s fs t -> fs <> [] -> t <> [] /\ ends_with brace t = false.
Proof.
  intros (_ & [(-> & _)|(_ & u & -> & M)]) N; [congruence|].
  destruct (jmembers_end _ _ (smembers_jmembers _ _ M)) as [Nu E]. split.
  - destruct s; [discriminate|]. auto.
  - rewrite ends_with_app_ne; auto.
Qed.

Lemma FT_clean s fs t : FT s fs t -> clean t = true.
Proof. intros [H _]. exact H. Qed.

Lemma str_some s j : str s = Some j -> valid_utf8 s = true /\ j = JStr s.
Proof. unfold str. destruct (valid_utf8 s); [|discriminate]. intros [= <-]. auto. Qed.

Lemma marshalled_some m j : marshalled m = Some j ->
  exists t, m = MOk t /\ clean t = true /\ parse_json t = Some j.
Proof.
  destruct m as [t|e]; [|discriminate]. cbn [marshalled].
  destruct (clean t) eqn:C; [|discriminate]. eauto.
Qed.

(** ** Lines *)

Lemma split_line l s : ~ In newline l -> split_lines (l ++ newline :: s) =
  (l :: fst (split_lines s), snd (split_lines s)).
Proof.
  induction l as [|c l IH]; intros H; cbn [app split_lines].
  - destruct (split_lines s). reflexivity.
  - rewrite IH by (intros I; apply H; right; auto).
    destruct (Ascii.eqb c newline) eqn:E; [|reflexivity].
    apply Ascii.eqb_eq in E. exfalso. apply H. left. auto.
Qed.

Lemma split_stream ls : Forall (fun l => ~ In newline l) ls ->
  split_lines (concat (map (fun l => l ++ [newline]) ls)) = (ls, []).
Proof.
  induction 1 as [|l ls H F IH]; [reflexivity|]. cbn [map concat].
  rewrite <- app_assoc. cbn [app]. rewrite split_line, IH by auto. reflexivity.
Qed.

(** ** Stored prefixes and suffixes *)

(** What a stored prefix adds after [s] (something was there), and whether
    something is there afterwards. *)
Definition emit (p : bytes) (s : bool) : bytes := match p with [] => [] | _ => sep s ++ p end.
Definition started_of (p : bytes) (s : bool) : bool :=
  match p with [] => s | _ => negb (ends_with brace p) end.

Lemma emit_app p q s0 : exists q', emit (p ++ q) s0 = emit p s0 ++ q' /\
  (p <> [] -> q' = q) /\ (p = [] -> q' = emit q s0).
Proof.
  destruct p as [|c p].
  - exists (emit q s0). repeat split; congruence.
  - exists q. cbn [app emit]. rewrite <- app_assoc. repeat split; congruence.
Qed.

Definition closing (m : nat) : bytes := repeat (chr 125) m.

Lemma closing_snoc m : closing m ++ B "}" = closing (S m).
Proof. unfold closing. rewrite <- repeat_cons. reflexivity. Qed.

(** A prefix extended by the text of fields. *)
Lemma started_app p t fs s0 s : FT s fs t -> (p = [] -> s = false) ->
  started_of (p ++ t) s0 = started_of p s0 || nonempty fs.
Proof.
  intros F H. destruct fs as [|f fs].
  - destruct F as [_ [(_ & ->)|(? & _)]]; [|congruence]. rewrite app_nil_r, orb_false_r. reflexivity.
  - cbn [nonempty]. rewrite orb_true_r.
    destruct (FT_end _ _ _ F) as [Nt Et]; [discriminate|].
    unfold started_of. rewrite ends_with_app_ne by auto. rewrite Et.
    destruct (p ++ t) eqn:Z; auto. destruct p; [|discriminate]. cbn [app] in Z. congruence.
Qed.

Lemma emit_fields p t fs s0 : FT (started_of p false) fs t ->
  exists q, emit (p ++ t) s0 = emit p s0 ++ q /\ FT (started_of p s0) fs q.
Proof.
  intros F. destruct (emit_app p t s0) as (q & E & Q1 & Q2). exists q. split; auto.
  destruct p as [|c p'].
  - rewrite Q2 by auto. cbn [started_of] in F |- *. unfold emit.
    destruct t as [|c1 t1]; [destruct F as [_ [(-> & _)|(N1 & u & Eu & M)]]; [apply FT_nil|]|].
    + cbn [sep app] in Eu. subst u. apply smembers_jmembers, jmembers_end in M as [N _]. congruence.
    + apply FT_sep; auto. intros ->. destruct F as [_ [(_ & ?)|(? & _)]]; congruence.
  - rewrite Q1 by discriminate. exact F.
Qed.

(** A prefix extended by the opening of a group. *)
Definition opening (nm : bytes) : bytes := quote :: nm ++ quote :: B ": {".

Lemma opening_end a nm : ends_with brace (a ++ opening nm) = true.
Proof.
  unfold opening. replace (a ++ quote :: nm ++ quote :: B ": {") with ((a ++ quote :: nm ++ quote :: B ": ") ++ [brace]).
  - rewrite ends_with_app. reflexivity.
  - rewrite <- !app_assoc. cbn [app]. rewrite <- !app_assoc. reflexivity.
Qed.

Lemma started_opening p nm s0 : started_of (p ++ sep (started_of p false) ++ opening nm) s0 = false.
Proof.
  unfold started_of at 1. rewrite (app_assoc p), opening_end.
  destruct ((p ++ sep (started_of p false)) ++ opening nm) eqn:Y; auto.
  destruct (p ++ sep (started_of p false)); discriminate.
Qed.

Lemma emit_opening p nm s0 :
  emit (p ++ sep (started_of p false) ++ opening nm) s0 = emit p s0 ++ sep (started_of p s0) ++ opening nm.
Proof.
  destruct (emit_app p (sep (started_of p false) ++ opening nm) s0) as (q & E & Q1 & Q2). rewrite E. f_equal.
  destruct p as [|c p']; [rewrite Q2 by auto; reflexivity|rewrite Q1 by discriminate; reflexivity].
Qed.

Lemma FT_group s nm fs t m : plain nm = true -> FT false fs (t ++ closing m) ->
  FT s [(nm, JObj fs)] (sep s ++ opening nm ++ t ++ closing (S m)).
Proof.
  intros P F. unfold opening. rewrite <- closing_snoc.
  replace ((quote :: nm ++ quote :: B ": {") ++ t ++ closing m ++ B "}")
    with (quote :: nm ++ quote :: B ": " ++ (brace :: (t ++ closing m) ++ [chr 125])).
  - apply FT_one; [apply plain_clean; auto|apply plain_body_self; auto|auto|]. apply FT_obj. exact F.
  - cbn [app]. rewrite <- !app_assoc. cbn [app]. unfold brace. reflexivity.
Qed.
