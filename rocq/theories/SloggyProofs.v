(** Lemmas about the sloggy composer and handler. *)

From Coq Require Import Ascii String List ZArith NArith Bool Lia.
From Verif Require Import Bytes BytesProofs Json JsonProofs Slog SlogProofs SpecLog SpecText GoQuote
  EscapeProofs TextProofs QuoteProofs SpecSloggy Sloggy.
Import ListNotations.

(** ** Writers *)

Lemma feed_app {W} (write : W -> bytes -> W * bool) a : forall w b, feed write w (a ++ b) =
  let (w', ok) := feed write w a in if ok then feed write w' b else (w', false).
Proof.
  induction a as [|x a IH]; intros w b; [reflexivity|]. cbn [app feed].
  destruct (write w x) as [w' []]; auto.
Qed.

Lemma feed_buffer ch : forall b, feed buffer_write b ch = (b ++ concat ch, true).
Proof.
  induction ch as [|x ch IH]; intros b; cbn [feed concat]; [rewrite app_nil_r; reflexivity|].
  unfold buffer_write at 1. rewrite IH, <- app_assoc. reflexivity.
Qed.

Lemma feed_log ch : forall w, feed log_write w ch = (w ++ ch, true).
Proof.
  induction ch as [|x ch IH]; intros w; cbn [feed]; [rewrite app_nil_r; reflexivity|].
  unfold log_write at 1. rewrite IH, <- app_assoc. reflexivity.
Qed.

Lemma standard_basic k : standard_key k = sbasic_field k.
Proof.
  unfold standard_key, sbasic_field, TimeKey, LevelKey, MessageKey, SourceKey.
  cbn [existsb]. rewrite orb_false_r, <- !orb_assoc. reflexivity.
Qed.

(** ** The writes of a composer

    What sloggy writes does not depend on the writer: [em] and [ems] are the
    chunks written, the final [started], and whether composing succeeded. *)

Section Emit.

Variable std : stdlib.
Variable rep : option attr_fn.

Definition quoted (s : bytes) : bytes := go_quote (sl_print std) s.

Definition any_chunks (o : any_obs) : list bytes * bool :=
  match ao_net o, ao_error o, ao_stringer o, ao_jsonm o, ao_textm o with
  | Some s, _, _, _, _ => ([quoted s], true)
  | None, Some s, _, _, _ => ([quoted s], true)
  | None, None, Some s, _, _ => ([quoted s], true)
  | None, None, None, Some m, _ => ([quoted (mtext m)], true)
  | None, None, None, None, Some m => ([quoted (mtext m)], true)
  | None, None, None, None, None =>
      match ao_marshal o with MOk t => ([t], true) | MErr _ => ([], false) end
  end.

Definition leaf_chunks (v : value) : list bytes * bool :=
  match v with
  | VBool b => ([if b then B "true" else B "false"], true)
  | VDuration d => ([dec_of_Z d], true)
  | VFloat64 f => ([float_text f], true)
  | VInt64 i => ([dec_of_Z i], true)
  | VString s => ([quoted s], true)
  | VTime t => ([quoted (t_format t RFC3339Nano)], true)
  | VUint64 u => ([dec_of_N u], true)
  | _ => any_chunks (any_of_value std v)
  end.

Definition sep_chunks (st : bool) : list bytes := if st then [B ", "] else [].

Definition field_chunks (st : bool) (k : bytes) : list bytes := sep_chunks st ++ [quoted k; B ": "].

Fixpoint ems_loop (f : bool -> attr -> option (list bytes * bool * bool)) (st : bool) (l : list attr)
    : option (list bytes * bool * bool) :=
  match l with
  | [] => Some ([], st, true)
  | a :: l' =>
    match f st a with
    | Some (c1, st1, true) =>
      match ems_loop f st1 l' with
      | Some (c2, st2, ok) => Some (c1 ++ c2, st2, ok)
      | None => None
      end
    | r => r
    end
  end.

Fixpoint em (n : nat) (gs : list bytes) (st : bool) (a : attr) {struct n} : option (list bytes * bool * bool) :=
  match n with
  | O => None
  | S n' =>
    if is_empty a then Some ([], st, true)
    else let (a', v) := sloggy_effective rep gs a in
      if is_empty a' then Some ([], st, true)
      else match v with
      | VGroup l =>
        if empty_group l then Some ([], st, true)
        else match fst a' with
        | [] => ems_loop (em n' gs) st l
        | _ :: _ =>
          match ems_loop (em n' gs) false l with
          | Some (c, _, ok) =>
              Some (field_chunks st (fst a') ++ B "{" :: c ++ (if ok then [B "}"] else []), true, ok)
          | None => None
          end
        end
      | _ => let (c, ok) := leaf_chunks v in Some (field_chunks st (fst a') ++ c, true, ok)
      end
  end.

Definition ems (n : nat) (gs : list bytes) : bool -> list attr -> option (list bytes * bool * bool) :=
  ems_loop (em n gs).

(** *** Fuel *)

Lemma ems_loop_mono (f g : bool -> attr -> option (list bytes * bool * bool)) :
  (forall s a r, f s a = Some r -> g s a = Some r) ->
  forall l s r, ems_loop f s l = Some r -> ems_loop g s l = Some r.
Proof.
  intros H. induction l as [|a l IH]; intros s r; cbn [ems_loop]; auto.
  destruct (f s a) as [[[c s1] []]|] eqn:E; [| |discriminate]; rewrite (H _ _ _ E); auto.
  destruct (ems_loop f s1 l) as [[[c2 s2] ok]|] eqn:E2; [|discriminate].
  rewrite (IH _ _ E2). auto.
Qed.

Lemma em_mono n : forall m gs st a r, n <= m -> em n gs st a = Some r -> em m gs st a = Some r.
Proof.
  induction n as [|n IH]; intros m gs st a r L H; [discriminate|]. destruct m as [|m]; [lia|].
  assert (G : forall l s r, ems_loop (em n gs) s l = Some r -> ems_loop (em m gs) s l = Some r).
  { apply ems_loop_mono. intros. apply IH; auto. lia. }
  cbn [em] in *. destruct (is_empty a); auto. destruct (sloggy_effective rep gs a) as [a' v].
  destruct (is_empty a'); auto. destruct v; auto. destruct (empty_group l); auto.
  destruct (fst a') as [|kc k]; auto.
  destruct (ems_loop (em n gs) false l) as [[[c s1] ok]|] eqn:E; [|discriminate].
  rewrite (G _ _ _ E). auto.
Qed.

Lemma ems_mono n m gs st l r : n <= m -> ems n gs st l = Some r -> ems m gs st l = Some r.
Proof. intros H. apply ems_loop_mono. intros. eapply em_mono; eauto. Qed.

Lemma ems_loop_app f l1 l2 : forall st, ems_loop f st (l1 ++ l2) =
  match ems_loop f st l1 with
  | Some (c1, s1, true) =>
      match ems_loop f s1 l2 with Some (c2, s2, ok) => Some (c1 ++ c2, s2, ok) | None => None end
  | r => r
  end.
Proof.
  induction l1 as [|a l1 IH]; intros st; cbn [app ems_loop].
  - destruct (ems_loop f st l2) as [[[c s] ok]|]; reflexivity.
  - destruct (f st a) as [[[c s] []]|]; auto. rewrite IH.
    destruct (ems_loop f s l1) as [[[c1 s1] []]|]; auto.
    destruct (ems_loop f s1 l2) as [[[c2 s2] ok]|]; auto. rewrite app_assoc. reflexivity.
Qed.

(** *** The composer performs exactly these writes *)

Section Runs.
Variable W : Type.
Variable write : W -> bytes -> W * bool.
Variable gs : list bytes.

Local Notation mk w s := (snew_composer w s rep gs).

(** [m] came from writing [ch] to [w]; if everything succeeded [started] is [st]. *)
Definition runs (w : W) (m : option (scomposer W * bool)) (ch : list bytes) (st ok : bool) : Prop :=
  exists s', m = Some (mk (fst (feed write w ch)) s', snd (feed write w ch) && ok) /\
    (snd (feed write w ch) && ok = true -> s' = st).

Lemma runs_nil w st : runs w (Some (mk w st, true)) [] st true.
Proof. exists st. auto. Qed.

Lemma runs_put w st x : runs w (Some (sput write (mk w st) x)) [x] st true.
Proof.
  exists st. cbn [feed]. unfold sput, swith_writer. cbn [s_writer s_started s_replace s_groups snew_composer].
  destruct (write w x) as [w' []]; cbn; auto.
Qed.

Lemma runs_fail w m ch st st' k : runs w m ch st false -> runs w (safter m k) ch st' false.
Proof.
  intros (s' & -> & _). exists s'. rewrite andb_false_r. split; [reflexivity|discriminate].
Qed.

Lemma runs_after w m ch st k ch2 st2 ok :
  runs w m ch st true -> (forall w, runs w (k (mk w st)) ch2 st2 ok) ->
  runs w (safter m k) (ch ++ ch2) st2 ok.
Proof.
  intros (s' & -> & Hs) Hk. unfold runs. rewrite feed_app. destruct (feed write w ch) as [w' []].
  - rewrite Hs by reflexivity. cbn [fst snd andb]. destruct (Hk w') as (s2 & E & H). exists s2.
    cbn [safter sthen]. auto.
  - exists s'. cbn. split; auto. discriminate.
Qed.

(** If all writes succeed and [m] has no outcome, there is none afterwards. *)
Definition reliable : Prop := forall w x, snd (write w x) = true.

Lemma runs_sep w st : runs w (Some (sseparator write (mk w st))) (sep_chunks st) true true.
Proof.
  unfold sseparator, sep_chunks. cbn [s_started snew_composer]. destruct st.
  - apply runs_put.
  - apply runs_nil.
Qed.

Lemma sthen_safter (m : scomposer W * bool) k : sthen m k = safter (Some m) k.
Proof. reflexivity. Qed.

Lemma runs_field w st key k ch2 st2 ok : (forall w, runs w (k (mk w true)) ch2 st2 ok) ->
  runs w (sthen (sseparator write (mk w st)) (fun c =>
          sthen (sadd_string write std c key) (fun c => sthen (sput write c (B ": ")) k)))
       (field_chunks st key ++ ch2) st2 ok.
Proof.
  intros H. unfold field_chunks. rewrite <- app_assoc. rewrite sthen_safter.
  eapply runs_after; [apply runs_sep|]. intros w1. rewrite sthen_safter. cbn [app].
  change (quoted key :: B ": " :: ch2) with ([quoted key] ++ [B ": "] ++ ch2).
  eapply runs_after; [apply runs_put|]. intros w2. rewrite sthen_safter.
  eapply runs_after; [apply runs_put|]. exact H.
Qed.

Lemma runs_any w st o : let (ch, ok) := any_chunks o in runs w (Some (sadd_any write std (mk w st) o)) ch st ok.
Proof.
  unfold any_chunks, sadd_any.
  destruct (ao_net o); [apply runs_put|]. destruct (ao_error o); [apply runs_put|].
  destruct (ao_stringer o); [apply runs_put|].
  destruct (ao_jsonm o) as [[t|e]|]; [apply runs_put|apply runs_put|].
  destruct (ao_textm o) as [[t|e]|]; [apply runs_put|apply runs_put|].
  destruct (ao_marshal o); [apply runs_put|]. exists st. auto.
Qed.

Lemma runs_leaf w st v : let (ch, ok) := leaf_chunks v in runs w (Some (sadd_leaf write std (mk w st) v)) ch st ok.
Proof. destruct v; try (apply runs_put); apply runs_any. Qed.

Lemma runs_loop (f : scomposer W -> attr -> option (scomposer W * bool)) g :
  (forall w st a ch st' ok, g st a = Some (ch, st', ok) -> runs w (f (mk w st) a) ch st' ok) ->
  forall l w st ch st' ok, ems_loop g st l = Some (ch, st', ok) -> runs w (sattrs_loop f (mk w st) l) ch st' ok.
Proof.
  intros H. induction l as [|a l IH]; intros w st ch st' ok; cbn [ems_loop sattrs_loop].
  - intros [= <- <- <-]. apply runs_nil.
  - destruct (g st a) as [[[c1 s1] []]|] eqn:E; [| |discriminate].
    + destruct (ems_loop g s1 l) as [[[c2 s2] ok2]|] eqn:E2; [|discriminate]. intros [= <- <- <-].
      replace (match f (mk w st) a with None => None | Some (c', true) => sattrs_loop f c' l | Some (c', false) => Some (c', false) end)
        with (safter (f (mk w st) a) (fun c => sattrs_loop f c l)).
      * eapply runs_after; [apply H; eauto|]. intros w'. apply IH. exact E2.
      * destruct (f (mk w st) a) as [[c' []]|]; reflexivity.
    + intros [= <- <- <-].
      replace (match f (mk w st) a with None => None | Some (c', true) => sattrs_loop f c' l | Some (c', false) => Some (c', false) end)
        with (safter (f (mk w st) a) (fun c => sattrs_loop f c l)).
      * eapply runs_fail. apply H; eauto.
      * destruct (f (mk w st) a) as [[c' []]|]; reflexivity.
Qed.

Lemma runs_attribute n : forall w st a ch st' ok, em n gs st a = Some (ch, st', ok) ->
  runs w (sadd_attribute write std n (mk w st) a) ch st' ok.
Proof.
  induction n as [|n IH]; intros w st a ch st' ok; [discriminate|].
  cbn [em sadd_attribute]. destruct (is_empty a).
  { intros [= <- <- <-]. apply runs_nil. }
  cbn [s_replace s_groups snew_composer].
  assert (Ef : (match rep with
           | Some f => (f (if sbasic_field (fst a) then [] else gs) a, snd (f (if sbasic_field (fst a) then [] else gs) a))
           | None => (a, resolve (snd a))
           end) = sloggy_effective rep gs a).
  { unfold sloggy_effective. rewrite standard_basic. reflexivity. }
  cbv zeta. rewrite Ef.
  destruct (sloggy_effective rep gs a) as [[key v0] v]. cbn [fst].
  destruct (is_empty (key, v0)).
  { intros [= <- <- <-]. apply runs_nil. }
  assert (Lf : match v with VGroup _ => False | _ => True end ->
    (let (c, ok0) := leaf_chunks v in Some (field_chunks st key ++ c, true, ok0)) = Some (ch, st', ok) ->
    runs w (sthen (sseparator write (mk w st)) (fun c =>
          sthen (sadd_string write std c key) (fun c => sthen (sput write c (B ": ")) (fun c => Some (sadd_leaf write std c v))))) ch st' ok).
  { intros _. pose proof (fun w => runs_leaf w true v) as R. destruct (leaf_chunks v) as [c ok0].
    intros [= <- <- <-]. apply runs_field. exact R. }
  destruct v; try (apply Lf; exact I).
  destruct (empty_group l); [intros [= <- <- <-]; apply runs_nil|].
  destruct key as [|kc key].
  { apply runs_loop. exact IH. }
  destruct (ems_loop (em n gs) false l) as [[[c s1] ok1]|] eqn:E; [|discriminate].
  intros [= <- <- <-]. apply runs_field. intros w1.
  unfold sadd_group, sbegin. rewrite sthen_safter.
  match goal with |- runs _ _ (?x :: ?t) _ _ => change (x :: t) with ([B "{"] ++ c ++ (if ok1 then [B "}"] else [])) end.
  eapply runs_after; [apply runs_put|]. intros w2. cbn [s_writer s_replace s_groups snew_composer].
  pose proof (runs_loop (sadd_attribute write std n) (em n gs) IH l w2 false c s1 ok1 E) as (s' & -> & Hs).
  unfold runs. rewrite feed_app. destruct (feed write w2 c) as [w3 okw]. cbn [fst snd].
  destruct okw; [|exists true; split; [reflexivity|discriminate]]. destruct ok1.
  - cbn [andb]. destruct (runs_put w3 true (B "}")) as (s3 & E3 & H3). unfold send.
    cbn [s_writer swith_writer snew_composer]. exists s3. split; [exact E3|exact H3].
  - exists true. rewrite app_nil_r || idtac. cbn [feed fst snd andb]. split; [reflexivity|discriminate].
Qed.

Lemma runs_attributes n w st l ch st' ok : ems n gs st l = Some (ch, st', ok) ->
  runs w (sadd_attributes write std n (mk w st) l) ch st' ok.
Proof. apply runs_loop. apply runs_attribute. Qed.

(** Out of fuel. *)

Lemma reliable_feed ch : reliable -> forall w, snd (feed write w ch) = true.
Proof.
  intros R. induction ch as [|x ch IH]; intros w; [reflexivity|]. cbn [feed].
  pose proof (R w x) as H. destruct (write w x) as [w' b]. cbn in H. subst b. apply IH.
Qed.

Lemma runs_reliable w m ch st ok : reliable -> runs w m ch st ok ->
  exists s', m = Some (mk (fst (feed write w ch)) s', ok) /\ (ok = true -> s' = st).
Proof. intros R (s' & -> & H). rewrite reliable_feed in * by auto. cbn [andb] in *. eauto. Qed.

Lemma none_loop (f : scomposer W -> attr -> option (scomposer W * bool)) g : reliable ->
  (forall w st a ch st' ok, g st a = Some (ch, st', ok) -> runs w (f (mk w st) a) ch st' ok) ->
  (forall w st a, g st a = None -> f (mk w st) a = None) ->
  forall l w st, ems_loop g st l = None -> sattrs_loop f (mk w st) l = None.
Proof.
  intros R H1 H2. induction l as [|a l IH]; intros w st; cbn [ems_loop sattrs_loop]; [discriminate|].
  destruct (g st a) as [[[c1 s1] []]|] eqn:E; [|discriminate|].
  - destruct (ems_loop g s1 l) as [[[c2 s2] ok2]|] eqn:E2; [discriminate|]. intros _.
    destruct (runs_reliable _ _ _ _ _ R (H1 w st a c1 s1 true E)) as (s' & -> & Hs).
    rewrite Hs by reflexivity. apply IH. exact E2.
  - intros _. rewrite H2 by auto. reflexivity.
Qed.

Lemma none_attribute n : reliable -> forall w st a, em n gs st a = None ->
  sadd_attribute write std n (mk w st) a = None.
Proof.
  intros R. induction n as [|n IH]; intros w st a; [reflexivity|].
  cbn [em sadd_attribute]. destruct (is_empty a); [discriminate|].
  cbn [s_replace s_groups snew_composer].
  assert (Ef : (match rep with
           | Some f => (f (if sbasic_field (fst a) then [] else gs) a, snd (f (if sbasic_field (fst a) then [] else gs) a))
           | None => (a, resolve (snd a))
           end) = sloggy_effective rep gs a).
  { unfold sloggy_effective. rewrite standard_basic. reflexivity. }
  cbv zeta. rewrite Ef.
  destruct (sloggy_effective rep gs a) as [[key v0] v]. cbn [fst].
  destruct (is_empty (key, v0)); [discriminate|].
  assert (Lf : (let (c, ok0) := leaf_chunks v in Some (field_chunks st key ++ c, true, ok0)) <> None).
  { destruct (leaf_chunks v). discriminate. }
  destruct v; try (intros H; exfalso; apply Lf; exact H).
  destruct (empty_group l); [discriminate|].
  destruct key as [|kc key].
  { apply none_loop; auto. apply runs_attribute. }
  destruct (ems_loop (em n gs) false l) as [[[c s1] ok1]|] eqn:E; [discriminate|]. intros _.
  assert (P : forall w s x, exists w', sput write (mk w s) x = (mk w' s, true)).
  { intros w0 s x. unfold sput. cbn [s_writer snew_composer]. pose proof (R w0 x) as H.
    destruct (write w0 x) as [w1 b]. cbn in H. subst b. exists w1. reflexivity. }
  assert (G : forall w s, sadd_group write (sattrs_loop (sadd_attribute write std n)) (mk w s) l = None).
  { intros w1 s. unfold sadd_group, sbegin. destruct (P w1 s (B "{")) as (w2 & ->). cbn [sthen].
    change (s_writer (mk w2 s)) with w2. change (s_replace (mk w2 s)) with rep. change (s_groups (mk w2 s)) with gs.
    rewrite (none_loop (sadd_attribute write std n) (em n gs) R (runs_attribute n) IH l w2 false E). reflexivity. }
  assert (S1 : exists w', sseparator write (mk w st) = (mk w' true, true)).
  { unfold sseparator. change (s_started (mk w st)) with st. destruct st; [apply P|]. exists w. reflexivity. }
  destruct S1 as (w1 & ->). cbn [sthen]. unfold sadd_string.
  destruct (P w1 true (go_quote (sl_print std) (kc :: key))) as (w2 & ->). cbn [sthen].
  destruct (P w2 true (B ": ")) as (w3 & ->). cbn [sthen]. apply G.
Qed.

Lemma none_attributes n w st l : reliable -> ems n gs st l = None ->
  sadd_attributes write std n (mk w st) l = None.
Proof.
  intros R. apply none_loop; auto. apply runs_attribute. apply none_attribute; auto.
Qed.

End Runs.

(** ** Meaning *)

Definition sden := den (sloggy_view std rep) (sstr std) true.
Definition sdens := dens (sloggy_view std rep) (sstr std) true.

Lemma quoted_vtext s j : sstr std s = Some j -> vtext j (quoted s).
Proof.
  unfold sstr. destruct (json_safe (sl_print std) s) eqn:J; [|discriminate]. intros [= <-].
  destruct (json_safe_body _ _ J) as (b & E & Hb & C). unfold quoted. rewrite E. apply vtext_str; auto.
Qed.

Lemma any_text o j : sloggy_any std o = Some j -> exists t, any_chunks o = ([t], true) /\ vtext j t.
Proof.
  unfold sloggy_any, any_chunks.
  destruct (ao_net o); [eexists; split; [reflexivity|apply quoted_vtext; auto]|].
  destruct (ao_error o); [eexists; split; [reflexivity|apply quoted_vtext; auto]|].
  destruct (ao_stringer o); [eexists; split; [reflexivity|apply quoted_vtext; auto]|].
  destruct (ao_jsonm o); [eexists; split; [reflexivity|apply quoted_vtext; auto]|].
  destruct (ao_textm o); [eexists; split; [reflexivity|apply quoted_vtext; auto]|].
  intros H. apply marshalled_some in H as (t & -> & C & P). exists t. split; auto. apply vtext_parse; auto.
Qed.

Lemma leaf_text v j : sloggy_leaf std v = Some j -> exists t, leaf_chunks v = ([t], true) /\ vtext j t.
Proof.
  unfold sloggy_leaf, leaf, leaf_chunks. destruct v as [[|o]|b|d|f|i|s|t|u|l|w o]; try discriminate.
  - intros [= <-]. eexists. split; [reflexivity|]. apply vtext_intro; [reflexivity|constructor].
  - apply any_text.
  - intros [= <-]. eexists. split; [reflexivity|]. apply vtext_intro; destruct b; try reflexivity; constructor.
  - intros [= <-]. eexists. split; [reflexivity|]. apply vtext_num, is_num_dec_Z.
  - destruct f; try discriminate. destruct (is_num text) eqn:E; [|discriminate]. intros [= <-].
    eexists. split; [reflexivity|]. apply vtext_num. exact E.
  - intros [= <-]. eexists. split; [reflexivity|]. apply vtext_num, is_num_dec_Z.
  - intros H. eexists. split; [reflexivity|]. apply quoted_vtext; auto.
  - intros H. eexists. split; [reflexivity|]. apply quoted_vtext; auto.
  - intros [= <-]. eexists. split; [reflexivity|]. apply vtext_num, is_num_dec_N.
Qed.

Lemma field_text st k j t : sstr std k = Some (JStr k) -> vtext j t ->
  FT st [(k, j)] (concat (field_chunks st k) ++ t).
Proof.
  intros K V. unfold sstr in K. destruct (json_safe (sl_print std) k) eqn:J; [|discriminate].
  destruct (json_safe_body _ _ J) as (b & E & Hb & C).
  assert (X : concat (field_chunks st k) = sep st ++ quote :: b ++ quote :: B ": ").
  { unfold field_chunks, quoted, sep_chunks, sep. rewrite E. destruct st; cbn [app concat];
      rewrite <- ?app_assoc; reflexivity. }
  rewrite X, <- app_assoc. cbn [app]. rewrite <- app_assoc. cbn [app]. apply FT_one; auto.
  intros O. apply (quote_ordinary (sl_print std)) in O. rewrite O in E. injection E as E.
  apply app_inj_tail in E as [E _]. auto.
Qed.

Theorem emit_den gs :
  (forall a fs, sden gs a fs -> exists n0, forall n, n0 <= n -> forall st, exists ch,
     em n gs st a = Some (ch, st || nonempty fs, true) /\ FT st fs (concat ch)) /\
  (forall l fs, sdens gs l fs -> exists n0, forall n, n0 <= n -> forall st, exists ch,
     ems n gs st l = Some (ch, st || nonempty fs, true) /\ FT st fs (concat ch)).
Proof.
  assert (V : forall a, sloggy_view std rep gs a =
    if is_empty a then Gone
    else let (a', v) := sloggy_effective rep gs a in
         if is_empty a' then Gone
         else match v with VGroup l => Node (fst a') l | VLogValuer _ o => Leaf (fst a') (sloggy_any std o)
              | w => Leaf (fst a') (sloggy_leaf std w) end) by reflexivity.
  apply den_dens_ind.
  - intros a H. exists 1. intros [|n] L st; [lia|]. exists []. rewrite orb_false_r.
    split; [|apply FT_nil]. rewrite V in H. cbn [em]. destruct (is_empty a); auto.
    destruct (sloggy_effective rep gs a) as [a' v]. destruct (is_empty a'); auto. destruct v; discriminate.
  - intros a k l H E. exists 1. intros [|n] L st; [lia|]. exists []. rewrite orb_false_r.
    split; [|apply FT_nil]. rewrite V in H. cbn [em]. destruct (is_empty a); [discriminate|].
    destruct (sloggy_effective rep gs a) as [a' v]. destruct (is_empty a'); [discriminate|].
    destruct v; try discriminate. injection H as <- <-. rewrite E. reflexivity.
  - intros a l fs H E _ (n0 & IH). exists (S n0). intros [|n] L st; [lia|].
    destruct (IH n ltac:(lia) st) as (ch & Ee & F). exists ch. split; auto.
    rewrite V in H. cbn [em]. destruct (is_empty a); [discriminate|].
    destruct (sloggy_effective rep gs a) as [a' v]. destruct (is_empty a'); [discriminate|].
    destruct v; try discriminate. injection H as H1 <-. rewrite E, H1. exact Ee.
  - intros a k l fs H N E K _ (n0 & IH) _. exists (S n0). intros [|n] L st; [lia|].
    destruct (IH n ltac:(lia) false) as (ch & Ee & F). eexists. split.
    + rewrite V in H. cbn [em]. destruct (is_empty a); [discriminate|].
      destruct (sloggy_effective rep gs a) as [a' v]. destruct (is_empty a'); [discriminate|].
      destruct v; try discriminate. injection H as H1 <-. rewrite E, H1.
      destruct k as [|kc k]; [congruence|]. unfold ems in Ee. rewrite Ee. cbn [nonempty]. rewrite orb_true_r.
      reflexivity.
    + rewrite concat_app. cbn [concat]. rewrite concat_app. cbn [concat]. rewrite app_nil_r.
      apply field_text; auto. apply FT_obj. exact F.
  - intros a k j H K. exists 1. intros [|n] L st; [lia|].
    assert (G : forall a' v, sloggy_effective rep gs a = (a', v) -> is_empty a = false -> is_empty a' = false ->
      fst a' = k -> (exists t, leaf_chunks v = ([t], true) /\ vtext j t) ->
      match v with VGroup _ => False | _ => True end ->
      exists ch, em (S n) gs st a = Some (ch, st || nonempty [(k, j)], true) /\ FT st [(k, j)] (concat ch)).
    { intros a' v E1 E2 E3 E4 (t & E5 & Vt) Hv. exists (field_chunks st k ++ [t]). split.
      - cbn [em]. rewrite E1, E2, E3, E4, E5. cbn [nonempty]. rewrite orb_true_r. destruct v; try reflexivity. contradiction.
      - rewrite concat_app. cbn [concat]. rewrite app_nil_r. apply field_text; auto. }
    rewrite V in H. destruct (is_empty a) eqn:E2; [discriminate|].
    destruct (sloggy_effective rep gs a) as [a' v] eqn:E1. destruct (is_empty a') eqn:E3; [discriminate|].
    destruct v; try discriminate;
      pose proof (f_equal (fun s => match s with Leaf _ x => x | _ => None end) H) as H2;
      pose proof (f_equal (fun s => match s with Leaf x _ => x | _ => [] end) H) as H1;
      cbv beta iota in H1, H2; (eapply G; [reflexivity|reflexivity|exact E3|exact H1| |exact I]);
      first [ apply leaf_text; exact H2 | apply any_text; exact H2 ].
  - exists 0. intros n _ st. exists []. rewrite orb_false_r. split; [reflexivity|apply FT_nil].
  - intros a l f1 f2 _ (n1 & H1) _ (n2 & H2). exists (max n1 n2). intros n L st.
    destruct (H1 n ltac:(lia) st) as (c1 & E1 & F1).
    destruct (H2 n ltac:(lia) (st || nonempty f1)) as (c2 & E2 & F2).
    exists (c1 ++ c2). unfold ems in *. cbn [ems_loop]. rewrite E1, E2. split.
    + rewrite <- orb_assoc. repeat f_equal. destruct f1; reflexivity.
    + rewrite concat_app. apply FT_app; auto.
Qed.

End Emit.
