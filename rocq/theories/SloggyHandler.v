(** Lemmas about the sloggy handler and its derivations. *)

From Coq Require Import Ascii String List ZArith NArith Bool Lia.
From Verif Require Import Bytes BytesProofs Json JsonProofs Slog SlogProofs SpecLog SpecText GoQuote
  EscapeProofs TextProofs QuoteProofs SpecSloggy Sloggy SloggyProofs.
Import ListNotations.

Section Handler.
Variable std : stdlib.

Local Notation rep_of h := (o_replace (sh_options h)).

(** ** The writes of Handle *)

Definition prefix_chunks (p : bytes) : list bytes := match p with [] => [] | _ => [B ", "; p] end.

(** [started] after the prefix, given [started] before. *)
Definition sstarted (p : bytes) (s : bool) : bool :=
  match p with [] => s | _ => if ends_with brace p then false else s end.

Definition hchunks (n : nat) (h : shandler) (r : record) : option (list bytes * bool) :=
  match ems std (rep_of h) n (sh_groups h) false (sbasics std h r) with
  | None => None
  | Some (c1, _, false) => Some (B "{" :: c1, false)
  | Some (c1, s1, true) =>
    match ems std (rep_of h) n (sh_groups h) (sstarted (sh_prefix h) s1) (r_attrs r) with
    | None => None
    | Some (c2, _, false) => Some (B "{" :: c1 ++ prefix_chunks (sh_prefix h) ++ c2, false)
    | Some (c2, _, true) =>
      Some (B "{" :: c1 ++ prefix_chunks (sh_prefix h) ++ c2 ++ [sh_suffix h; B "}"; [chr 13; newline]], true)
    end
  end.

Section Feed.
Variable W : Type.
Variable write : W -> bytes -> W * bool.

Lemma runs_prefix rep gs h w st :
  runs rep W write gs w (Some (sput_prefix write h (snew_composer w st rep gs)))
    (prefix_chunks (sh_prefix h)) (sstarted (sh_prefix h) st) true.
Proof.
  unfold sput_prefix, prefix_chunks, sstarted. destruct (sh_prefix h) as [|c p] eqn:Ep; [apply runs_nil|].
  unfold runs. cbn [feed]. unfold sput at 1. cbn [s_writer snew_composer].
  destruct (write w (B ", ")) as [w1 []]; cbn [fst snd andb].
  - unfold sput. cbn [s_writer swith_writer snew_composer].
    destruct (write w1 (c :: p)) as [w2 []]; cbn [fst snd andb].
    + unfold brace. destruct (ends_with (chr 123) (c :: p)); eexists; split; try reflexivity.
    + eexists; split; [reflexivity|discriminate].
  - eexists; split; [reflexivity|discriminate].
Qed.

(** Handle offers its chunks one by one until one is refused, and fails if a
    write or the composition failed. *)
Theorem shandle_feed n h r ch ok w : hchunks n h r = Some (ch, ok) ->
  shandle write std n h r w = Some (fst (feed write w ch), snd (feed write w ch) && ok).
Proof.
  unfold hchunks, shandle. cbv zeta. set (rep := rep_of h). set (gs := sh_groups h).
  destruct (ems std rep n gs false (sbasics std h r)) as [[[c1 s1] ok1]|] eqn:E1; [|discriminate].
  intros H.
  assert (G : exists st, runs rep W write gs w
    (sthen (sbegin write (snew_composer w false rep gs)) (fun c =>
     safter (sadd_attributes write std n c (sbasics std h r)) (fun c =>
     sthen (sput_prefix write h c) (fun c =>
     safter (sadd_attributes write std n c (r_attrs r)) (fun c =>
     sthen (sput write c (sh_suffix h)) (fun c =>
     sthen (send write c) (fun c =>
     Some (sput write c [chr 13; newline])))))))) ch st ok).
  { destruct ok1.
    - destruct (ems std rep n gs (sstarted (sh_prefix h) s1) (r_attrs r)) as [[[c2 s2] ok2]|] eqn:E2; [|discriminate].
      destruct ok2; injection H as <- <-.
      + exists s2.
        match goal with |- runs _ _ _ _ _ _ ?z _ _ => change z
          with ([B "{"] ++ c1 ++ prefix_chunks (sh_prefix h) ++ c2 ++ [sh_suffix h] ++ [B "}"] ++ [[chr 13; newline]]) end.
        rewrite sthen_safter. eapply runs_after; [apply runs_put|]. intros w1.
        eapply runs_after; [apply runs_attributes; exact E1|]. intros w2.
        rewrite sthen_safter. eapply runs_after; [apply runs_prefix|]. intros w3.
        eapply runs_after; [apply runs_attributes; exact E2|]. intros w4.
        rewrite sthen_safter. eapply runs_after; [apply runs_put|]. intros w5.
        rewrite sthen_safter. eapply runs_after; [apply runs_put|]. intros w6.
        apply runs_put.
      + exists s2.
        match goal with |- runs _ _ _ _ _ _ ?z _ _ => change z
          with ([B "{"] ++ c1 ++ prefix_chunks (sh_prefix h) ++ c2) end.
        rewrite sthen_safter. eapply runs_after; [apply runs_put|]. intros w1.
        eapply runs_after; [apply runs_attributes; exact E1|]. intros w2.
        rewrite sthen_safter. eapply runs_after; [apply runs_prefix|]. intros w3.
        eapply runs_fail. apply runs_attributes. exact E2.
    - injection H as <- <-. exists s1. match goal with |- runs _ _ _ _ _ _ ?z _ _ => change z with ([B "{"] ++ c1) end.
      rewrite sthen_safter. eapply runs_after; [apply runs_put|]. intros w1.
      eapply runs_fail. apply runs_attributes. exact E1. }
  destruct G as (st & s' & -> & _). reflexivity.
Qed.

Lemma shandle_none n h r w : reliable W write -> hchunks n h r = None ->
  shandle write std n h r w = None.
Proof.
  intros R. unfold hchunks, shandle. cbv zeta. set (rep := rep_of h). set (gs := sh_groups h).
  assert (P : forall w s x, exists w', sput write (snew_composer w s rep gs) x = (snew_composer w' s rep gs, true)).
  { intros w0 s x. unfold sput. cbn [s_writer snew_composer]. pose proof (R w0 x) as H.
    destruct (write w0 x) as [w1 b]. cbn in H. subst b. exists w1. reflexivity. }
  unfold sbegin. destruct (P w false (B "{")) as (w1 & ->). cbn [sthen].
  destruct (ems std rep n gs false (sbasics std h r)) as [[[c1 s1] []]|] eqn:E1; [|discriminate|].
  - destruct (runs_reliable _ _ _ _ _ _ _ _ _ R (runs_attributes std rep W write gs n w1 false _ _ _ _ E1)) as (s' & -> & Hs).
    rewrite Hs by reflexivity. cbn [safter sthen].
    set (w2 := fst (feed write w1 c1)).
    destruct (runs_reliable _ _ _ _ _ _ _ _ _ R (runs_prefix rep gs h w2 s1)) as (s3 & E & Hs3).
    injection E as E. rewrite E, Hs3 by reflexivity. cbn [sthen].
    destruct (ems std rep n gs (sstarted (sh_prefix h) s1) (r_attrs r)) as [[[c2 s2] []]|] eqn:E2; try discriminate.
    intros _. rewrite none_attributes; auto.
  - intros _. rewrite none_attributes; auto.
Qed.

End Feed.

Lemma log_reliable : reliable _ log_write.
Proof. intros w x. reflexivity. Qed.

Lemma buffer_reliable : reliable _ buffer_write.
Proof. intros w x. reflexivity. Qed.

(** Handle on a writer that takes everything. *)
Lemma shandle_log n h r w : shandle log_write std n h r w =
  option_map (fun '(ch, ok) => (w ++ ch, ok)) (hchunks n h r).
Proof.
  destruct (hchunks n h r) as [[ch ok]|] eqn:E; cbn [option_map].
  - rewrite (shandle_feed _ _ _ _ _ _ _ _ E), feed_log. reflexivity.
  - apply shandle_none; auto. apply log_reliable.
Qed.

Lemma hchunks_mono n m h r x : n <= m -> hchunks n h r = Some x -> hchunks m h r = Some x.
Proof.
  intros L. unfold hchunks.
  destruct (ems std (rep_of h) n (sh_groups h) false (sbasics std h r)) as [[[c1 s1] ok1]|] eqn:E1; [|discriminate].
  rewrite (ems_mono _ _ _ _ _ _ _ _ L E1). destruct ok1; auto.
  destruct (ems std (rep_of h) n (sh_groups h) (sstarted (sh_prefix h) s1) (r_attrs r)) as [[[c2 s2] ok2]|] eqn:E2; [|discriminate].
  rewrite (ems_mono _ _ _ _ _ _ _ _ L E2). auto.
Qed.

(** ** WithAttrs *)

Definition sextend (h : shandler) (t : bytes) : shandler :=
  {| sh_options := sh_options h; sh_prefix := sh_prefix h ++ t; sh_suffix := sh_suffix h;
     sh_groups := sh_groups h |}.

Lemma swith_attrs_eq n h l : swith_attrs std n h l =
  match ems std (rep_of h) n (sh_groups h) (started_of (sh_prefix h) false) l with
  | None => None
  | Some (ch, _, _) => Some (sextend h (concat ch))
  end.
Proof.
  unfold swith_attrs. cbv zeta.
  replace (match sh_prefix h with [] => false | _ :: _ => negb (ends_with (chr 123) (sh_prefix h)) end)
    with (started_of (sh_prefix h) false) by reflexivity.
  destruct (ems std (rep_of h) n (sh_groups h) (started_of (sh_prefix h) false) l) as [[[ch s] ok]|] eqn:E.
  - destruct (runs_attributes std (rep_of h) _ buffer_write (sh_groups h) n (sh_prefix h) _ _ _ _ _ E) as (s' & -> & _).
    rewrite feed_buffer. reflexivity.
  - rewrite none_attributes; auto. apply buffer_reliable.
Qed.

Lemma swith_attrs_mono n m h l h' : n <= m -> swith_attrs std n h l = Some h' -> swith_attrs std m h l = Some h'.
Proof.
  intros L. rewrite !swith_attrs_eq.
  destruct (ems std (rep_of h) n (sh_groups h) (started_of (sh_prefix h) false) l) as [[[ch s] ok]|] eqn:E; [|discriminate].
  rewrite (ems_mono _ _ _ _ _ _ _ _ L E). auto.
Qed.

Lemma sderive_mono n m : n <= m -> forall ops g g', sderive std n g ops = Some g' -> sderive std m g ops = Some g'.
Proof.
  intros L. induction ops as [|o ops IH]; intros g g'; cbn [sderive]; auto.
  destruct o as [l|[|c nm]]; cbn [sstep]; auto.
  destruct (swith_attrs std n (sinner g) l) as [h|] eqn:E; [|discriminate].
  rewrite (swith_attrs_mono _ _ _ _ _ L E). auto.
Qed.

Lemma sderive_app n ops1 ops2 : forall g, sderive std n g (ops1 ++ ops2) =
  match sderive std n g ops1 with Some g' => sderive std n g' ops2 | None => None end.
Proof.
  induction ops1 as [|o ops IH]; intros g; cbn [app sderive]; auto.
  destruct (sstep std n g o); auto.
Qed.

(** ** Groups *)

Fixpoint sground (g : shdl) : shandler :=
  match g with SBase h => h | SGroup _ _ p => sground p end.

Lemma sfirst_none l : sfirst_attr l = None <-> forallb is_empty l = true.
Proof.
  induction l as [|a l IH]; cbn [sfirst_attr forallb]; [tauto|].
  destruct (is_empty a); cbn [andb]; auto. split; discriminate.
Qed.


Section Groups.
Variable W : Type.
Variable write : W -> bytes -> W * bool.

Lemma shandle_empty n g r w : forallb is_empty (r_attrs r) = true -> forall d, d <> DeadOther ->
  shandle_hdl write std n d g r w = sresult_of (shandle write std n (sground g) r w).
Proof.
  intros E. apply sfirst_none in E.
  induction g as [h|h name p IH]; intros d Hd; cbn [shandle_hdl sground]; auto.
  rewrite E. destruct d; try congruence; apply IH; discriminate.
Qed.

Lemma shandle_nodead n g r w : shandle_hdl write std n NoDead g r w =
  sresult_of (shandle write std n (if forallb is_empty (r_attrs r) then sground g else sinner g) r w).
Proof.
  destruct (forallb is_empty (r_attrs r)) eqn:E.
  - apply shandle_empty; auto. discriminate.
  - destruct g as [h|h name p]; cbn [shandle_hdl sinner]; auto.
    destruct (sfirst_attr (r_attrs r)) as [[k v]|] eqn:F; [reflexivity|].
    apply sfirst_none in F. congruence.
Qed.

Lemma shandle_dead_name n s g r w : (forall k v, sfirst_attr (r_attrs r) = Some (k, v) -> k <> s) ->
  shandle_hdl write std n (DeadName s) g r w = shandle_hdl write std n NoDead g r w.
Proof.
  intros H. rewrite shandle_nodead. destruct (forallb is_empty (r_attrs r)) eqn:E.
  - apply shandle_empty; auto. discriminate.
  - destruct g as [h|h name p]; cbn [shandle_hdl sinner]; auto.
    destruct (sfirst_attr (r_attrs r)) as [[k v]|] eqn:F.
    + destruct (beq k s) eqn:Ek. { apply beq_eq in Ek. exfalso. apply (H k v); auto. }
      rewrite andb_false_r. reflexivity.
    + apply sfirst_none in F. congruence.
Qed.

End Groups.

(** Which of the handlers it is does not depend on the writer or the fuel. *)
Fixpoint schosen (d : dead) (g : shdl) (r : record) : option shandler :=
  match g with
  | SBase h => Some h
  | SGroup h name parent =>
    match d with
    | DeadOther => None
    | _ =>
      if match sfirst_attr (r_attrs r) with
         | None => true
         | Some (k, v) =>
           negb (beq match d with DeadName s => s | _ => [] end []) &&
           beq k match d with DeadName s => s | _ => [] end && match v with VGroup _ => true | _ => false end
         end
      then schosen (DeadName name) parent r else Some h
    end
  end.

Lemma shandle_chosen W write n d g r (w : W) : shandle_hdl write std n d g r w =
  match schosen d g r with
  | Some h => sresult_of (shandle write std n h r w)
  | None => Some SPanic
  end.
Proof.
  revert d. induction g as [h|h name p IH]; intros d; cbn [shandle_hdl schosen]; auto.
  destruct d; auto; match goal with |- context [if ?b then _ else _] => destruct b end; auto.
Qed.

(** Logging, unfolded. *)
Lemma slogs_intro o ops d r n g out :
  sderive std n (SBase (snew_handler o)) ops = Some g ->
  shandle_hdl log_write std n d g r [] = Some (match out with Done ws ok => SDone ws ok | Panic => SPanic end) ->
  slogs std o ops d r out.
Proof.
  intros D H. exists n. intros m L. exists g. split; [apply (sderive_mono n); auto|].
  rewrite shandle_chosen in *. destruct (schosen d g r) as [h|]; auto.
  rewrite shandle_log in *. destruct (hchunks n h r) as [[ch ok]|] eqn:E; [|discriminate].
  rewrite (hchunks_mono _ _ _ _ _ L E). exact H.
Qed.

Lemma slogs_iff o ops d r out : slogs std o ops d r out <->
  exists n g, sderive std n (SBase (snew_handler o)) ops = Some g /\
    match schosen d g r, out with
    | Some h, Done ws ok => hchunks n h r = Some (ws, ok)
    | None, Panic => True
    | _, _ => False
    end.
Proof.
  split.
  - intros (n & H). destruct (H n (le_n _)) as (g & D & E). exists n, g. split; auto.
    rewrite shandle_chosen in E. destruct (schosen d g r) as [h|].
    + rewrite shandle_log in E. destruct (hchunks n h r) as [[ch ok]|]; [|discriminate].
      destruct out; cbn in E; try discriminate. injection E as -> ->. reflexivity.
    + destruct out; try discriminate. exact I.
  - intros (n & g & D & H). apply slogs_intro with (n := n) (g := g); auto.
    rewrite shandle_chosen. destruct (schosen d g r) as [h|]; destruct out; try contradiction; auto.
    rewrite shandle_log, H. reflexivity.
Qed.

Lemma slogs_det o ops d r out1 out2 : slogs std o ops d r out1 -> slogs std o ops d r out2 -> out1 = out2.
Proof.
  intros (n1 & H1) (n2 & H2). destruct (H1 (max n1 n2) ltac:(lia)) as (g1 & D1 & E1).
  destruct (H2 (max n1 n2) ltac:(lia)) as (g2 & D2 & E2).
  rewrite D1 in D2. injection D2 as <-. rewrite E1 in E2.
  destruct out1, out2; try discriminate; try reflexivity. injection E2 as -> ->. reflexivity.
Qed.

(** ** Derivations and their meaning *)

Definition sconf (rep : option attr_fn) (h : shandler) (gs : list bytes) : Prop :=
  o_replace (sh_options h) = rep /\ sh_groups h = gs.

Definition sis_base (g : shdl) : bool := match g with SBase _ => true | _ => false end.

Lemma selided_chain n : forall ops g, forallb named_group ops = true ->
  exists g', sderive std n g ops = Some g' /\ sground g' = sground g.
Proof.
  induction ops as [|o ops IH]; intros g Hn; [exists g; split; reflexivity|].
  cbn [forallb] in Hn. apply andb_prop in Hn as [Ho Hn].
  destruct o as [l|[|c name]]; try discriminate. cbn [sderive sstep].
  destruct (IH (SGroup (swith_group (sinner g) (c :: name)) (c :: name) g) Hn) as (g' & D & G).
  exists g'. split; auto.
Qed.

Lemma swith_group_prefix h nm :
  sh_prefix (swith_group h nm) = sh_prefix h ++ sep (started_of (sh_prefix h) false) ++ opening nm.
Proof.
  unfold swith_group. cbn [sh_prefix]. f_equal. unfold started_of, brace, sep, opening.
  destruct (sh_prefix h); [reflexivity|]. destruct (ends_with _ _); reflexivity.
Qed.

Section Meaning.
Variable rep : option attr_fn.

Local Notation logged' attrs gs ops gs' fs := (logged (sloggy_view std rep) (sstr std) true attrs gs ops gs' fs).

Theorem sderive_logged attrs gs ops gs' fs : logged' attrs gs ops gs' fs ->
  forall g, sconf rep (sinner g) gs -> sis_base g = true \/ untouched attrs ops = false ->
  exists n0, forall n, n0 <= n ->
  exists g' h' m,
    sderive std n g ops = Some g' /\
    (forall r, r_attrs r = attrs -> schosen NoDead g' r = Some h') /\
    sconf rep h' gs' /\ sh_options h' = sh_options (sinner g) /\
    sh_suffix h' = sh_suffix (sinner g) ++ closing m /\
    (ops = [] -> sh_prefix h' = sh_prefix (sinner g)) /\
    forall s0, exists q ch s1,
      emit (sh_prefix h') s0 = emit (sh_prefix (sinner g)) s0 ++ q /\
      ems std rep n gs' (started_of (sh_prefix h') s0) attrs = Some (ch, s1, true) /\
      FT (started_of (sh_prefix (sinner g)) s0) fs (q ++ concat ch ++ closing m).
Proof.
  induction 1 as [gs fs D|gs l ops gs' fa fb D _ IH|gs ops gs' fb _ IH
                 |gs name ops gs' fb Nn Pn U _ IH|gs name ops fs Nn U D]; intros g C Hg.
  - (* the record itself *)
    apply (proj2 (emit_den std rep gs)) in D as (n0 & Hn0).
    exists n0. intros n Hn. exists g, (sinner g), 0. split; [reflexivity|]. split; [|split; [exact C|]].
    + intros r Hr. destruct g as [h|h name parent]; [reflexivity|].
      destruct Hg as [Hg|Hg]; [discriminate|]. unfold untouched in Hg. cbn [forallb] in Hg.
      rewrite andb_true_r in Hg. cbn [schosen sinner]. rewrite Hr.
      destruct (sfirst_attr attrs) as [[k v]|] eqn:F; [reflexivity|].
      apply sfirst_none in F. congruence.
    + split; auto. split; [rewrite app_nil_r; reflexivity|]. split; [auto|].
      intros s0. destruct (Hn0 n Hn (started_of (sh_prefix (sinner g)) s0)) as (ch & E & F).
      exists [], ch. eexists. cbn [closing repeat]. rewrite !app_nil_r. split; auto. split; [exact E|]. exact F.
  - (* WithAttrs *)
    apply (proj2 (emit_den std rep gs)) in D as (n1 & Hn1).
    destruct C as (C1 & C2).
    set (p := sh_prefix (sinner g)) in *.
    destruct (Hn1 n1 (le_n _) (started_of p false)) as (c1 & E1 & F1).
    set (h1 := sextend (sinner g) (concat c1)).
    destruct (IH (SBase h1)) as (n2 & Hn2).
    { split; auto. }
    { left; reflexivity. }
    exists (max n1 n2). intros n Hn.
    destruct (Hn2 n ltac:(lia)) as (g' & h' & m & Ed & Eh & Cc & Co & Cs & _ & Ht).
    exists g', h', m.
    assert (Ew : swith_attrs std n (sinner g) l = Some h1).
    { rewrite swith_attrs_eq, C1, C2. fold p.
      assert (Ln : n1 <= n) by lia. rewrite (ems_mono _ _ _ _ _ _ _ _ Ln E1). reflexivity. }
    cbn [sderive sstep]. rewrite Ew. split; [exact Ed|]. split; [exact Eh|]. split; [exact Cc|].
    split; [exact Co|]. split; [exact Cs|]. split; [discriminate|].
    intros s0. destruct (Ht s0) as (q & ch & s1 & Eq & Ea & Fq). cbn [sinner sh_prefix h1 sextend] in Eq, Fq.
    fold p in Eq, Fq. destruct (emit_fields p (concat c1) fa s0 F1) as (q1 & Eq1 & Fq1).
    exists (q1 ++ q), ch, s1. rewrite Eq, Eq1, app_assoc. split; auto. split; auto.
    rewrite <- app_assoc. apply FT_app; auto.
    rewrite <- (started_app p (concat c1) fa s0 _ F1); auto. intros ->. reflexivity.
  - (* WithGroup empty *)
    destruct (IH (SBase (sinner g))) as (n2 & Hn2); [exact C|left; reflexivity|].
    exists n2. intros n Hn. destruct (Hn2 n Hn) as (g' & h' & m & R1 & R2 & R3 & R4 & R5 & _ & R6).
    exists g', h', m. repeat split; auto; try apply R3. discriminate.
  - (* WithGroup name *)
    destruct C as (C1 & C2).
    destruct name as [|c name]; [congruence|]. set (nm := c :: name) in *.
    set (p := sh_prefix (sinner g)) in *.
    destruct (IH (SGroup (swith_group (sinner g) nm) nm g)) as (n2 & Hn2).
    { split; [exact C1|]. cbn [sinner swith_group sh_groups]. rewrite C2. reflexivity. }
    { right. auto. }
    exists n2. intros n Hn. destruct (Hn2 n Hn) as (g' & h' & m & Ed & Eh & Cc & Co & Cs & _ & Ht).
    exists g', h', (S m). cbn [sderive sstep]. unfold nm at 1.
    split; [exact Ed|]. split; [exact Eh|]. split; [exact Cc|]. split; [exact Co|]. split.
    { rewrite Cs. cbn [sinner swith_group sh_suffix]. rewrite <- app_assoc. reflexivity. }
    split; [discriminate|].
    intros s0. destruct (Ht s0) as (q & ch & s1 & Eq & Ea & Fq).
    cbn [sinner] in Eq, Fq. rewrite swith_group_prefix in Eq, Fq. fold p in Eq, Fq.
    rewrite emit_opening in Eq. rewrite started_opening in Fq.
    exists ((sep (started_of p s0) ++ opening nm) ++ q), ch, s1. rewrite Eq, <- !app_assoc.
    split; auto. split; auto. rewrite app_assoc in Fq.
    pose proof (FT_group (started_of p s0) nm fb (q ++ concat ch) m Pn Fq) as G.
    rewrite <- !app_assoc in G. exact G.
  - (* elided *)
    destruct Hg as [Hg|Hg].
    2:{ unfold untouched in *. cbn [forallb] in Hg. destruct name; [congruence|]. cbn [named_group andb] in Hg. congruence. }
    destruct g as [h|]; [|discriminate]. cbn [sinner] in *.
    unfold untouched in U. apply andb_prop in U as [U1 U2].
    apply (proj2 (emit_den std rep gs)) in D as (n0 & Hn0).
    exists n0. intros n Hn.
    assert (Hops : forallb named_group (WithGroup name :: ops) = true).
    { cbn [forallb]. rewrite U2. destruct name; [congruence|reflexivity]. }
    destruct (selided_chain n (WithGroup name :: ops) (SBase h) Hops) as (g' & Ed & G).
    exists g', h, 0. split; auto. split.
    + intros r Hr. assert (U1' : forallb is_empty (r_attrs r) = true) by (rewrite Hr; auto).
      apply sfirst_none in U1'. clear - U1' G. cbn [sground] in G.
      assert (K : forall d, d <> DeadOther -> schosen d g' r = Some (sground g')).
      { clear G. induction g' as [h'|h' nm p IH]; intros d Hd; cbn [schosen sground]; auto.
        rewrite U1'. destruct d; try congruence; apply IH; discriminate. }
      rewrite K by discriminate. congruence.
    + split; [exact C|]. split; auto. split; [rewrite app_nil_r; reflexivity|]. split; [discriminate|].
      intros s0. destruct (Hn0 n Hn (started_of (sh_prefix h) s0)) as (ch & E & F).
      exists [], ch. eexists. cbn [closing repeat]. rewrite !app_nil_r. split; auto. split; [exact E|]. exact F.
Qed.

End Meaning.

Lemma sbasics_eq h r : sbasics std h r = sloggy_basics std (o_add_source (sh_options h)) r.
Proof.
  unfold sbasics, sloggy_basics, basics, TimeKey, LevelKey, MessageKey, SourceKey.
  cbv beta iota. f_equal. cbn [app]. f_equal. f_equal.
  destruct (o_add_source (sh_options h)); destruct (r_source r); reflexivity.
Qed.

(** The line of a record: for every derivation, with or without ReplaceAttr. *)
Theorem sloggy_spelled_line o ops r gs' bs fs :
  logged (sloggy_view std (o_replace o)) (sstr std) true (r_attrs r) [] ops gs' fs ->
  dens (sloggy_view std (o_replace o)) (sstr std) true gs' (sloggy_basics std (o_add_source o) r) bs ->
  bs <> [] \/ ops = [] ->
  exists ws line, slogs std o ops NoDead r (Done ws true) /\ concat ws = line ++ [chr 13; newline] /\
    spelled (bs ++ fs) line.
Proof.
  intros L D Hb. set (rep := o_replace o) in *.
  destruct (sderive_logged rep _ _ _ _ _ L (SBase (snew_handler o))) as (n1 & H1); [split; reflexivity|left; reflexivity|].
  apply (proj2 (emit_den std rep gs')) in D as (n2 & H2).
  set (n := max n1 n2).
  destruct (H1 n ltac:(lia)) as (g' & h' & m & Ed & Eh & (Cr & Cg) & Co & Cs & Cp & Ht).
  destruct (H2 n ltac:(lia) false) as (cb & Eb & Fb). cbn [orb] in Eb.
  cbn [sinner snew_handler sh_suffix sh_prefix sh_options app emit started_of] in *.
  destruct (Ht (nonempty bs)) as (q & ch & s1 & Eq & Ea & Ft).
  set (p := sh_prefix h') in *.
  assert (Pe : concat (prefix_chunks p) = emit p (nonempty bs) /\ sstarted p (nonempty bs) = started_of p (nonempty bs)).
  { destruct Hb as [Hb|Hb].
    - replace (nonempty bs) with true by (destruct bs; [congruence|reflexivity]).
      unfold prefix_chunks, emit, sstarted, started_of. destruct p as [|c p']; [split; reflexivity|].
      split; [cbn [concat sep]; rewrite app_nil_r; reflexivity|]. destruct (ends_with brace (c :: p')); reflexivity.
    - rewrite Cp by auto. split; reflexivity. }
  destruct Pe as [Pe Ps].
  set (line := brace :: (concat cb ++ q ++ concat ch ++ closing m) ++ [chr 125]).
  assert (V : spelled (bs ++ fs) line) by (eexists; split; [apply FT_app; eauto|reflexivity]).
  exists (B "{" :: cb ++ prefix_chunks p ++ ch ++ [sh_suffix h'; B "}"; [chr 13; newline]]), line.
  split; [|split; [|exact V]].
  - apply slogs_iff. exists n, g'. split; auto. rewrite (Eh r eq_refl). unfold hchunks.
    rewrite Cr, Cg, sbasics_eq, Co, Eb. fold p. rewrite Ps, Ea. reflexivity.
  - cbn [concat]. rewrite !concat_app, Pe. cbn [concat]. rewrite Eq, Cs. unfold line.
    cbn [app]. rewrite <- !app_assoc. reflexivity.
Qed.

Theorem sloggy_line o ops r gs' bs fs :
  logged (sloggy_view std (o_replace o)) (sstr std) true (r_attrs r) [] ops gs' fs ->
  dens (sloggy_view std (o_replace o)) (sstr std) true gs' (sloggy_basics std (o_add_source o) r) bs ->
  bs <> [] \/ ops = [] ->
  exists ws line, slogs std o ops NoDead r (Done ws true) /\ concat ws = line ++ [chr 13; newline] /\
    parse_json line = Some (JObj (bs ++ fs)) /\ clean line = true.
Proof.
  intros L D Hb. destruct (sloggy_spelled_line o ops r gs' bs fs L D Hb) as (ws & line & H & E & S).
  exists ws, line. split; auto. split; auto. apply spelled_parses, S.
Qed.

End Handler.
