(** The warning parser on arbitrary text: what it keeps, and when it panics. *)

From Coq Require Import Ascii String List NArith Bool Arith Lia.
From Verif Require Import Bytes BytesProofs GoSort Regex RegexProofs RegexFirst Replace PropReplace Warnings WarnParser
  WarnLines SpecReport WarnRoundTrip WarnEffects PropReport.
Import ListNotations.

(** ** Vocabulary *)

(** What a line is taken for. *)
Inductive item : Type :=
| IHandler (name : bytes)      (* Warnings for ...: *)
| IEnd                         (* Handlers by warning: *)
| INone | ILevel (l : N) | IWarning | ILog | IExtra | IInstance | IOther.

(** The kinds of lines inside the report of a handler. *)
Definition kind_of (cs : casing) (line : bytes) : item :=
  if matches ptn_none line then INone
  else match level_of cs line with
       | Some l => ILevel l
       | None =>
         if matches ptn_warning line then IWarning
         else if matches ptn_log_line line then ILog
         else if matches ptn_extra line then IExtra
         else if matches ptn_instance line then IInstance
         else IOther
       end.

(** The items of a text.  [summary] is the first line of a handler's summary that
    is being read; the line after it counts as an item (untrimmed), and so does
    the first line if the text ends inside the summary. *)
Fixpoint items (cs : casing) (summary : option bytes) (lines : list bytes) : list item :=
  match lines with
  | [] => match summary with None => [] | Some first => [kind_of cs first] end
  | l :: lines' =>
      match summary with
      | Some first =>
          if matches ptn_summary_line l || matches ptn_summary_link l then items cs (Some first) lines'
          else kind_of cs l :: items cs None lines'
      | None =>
          match prepare l with
          | [] => items cs None lines'
          | line =>
            match find ptn_warnings_for line with
            | Some f => IHandler (sub 1 f) :: items cs None lines'
            | None =>
              if matches ptn_by_warning line then [IEnd]
              else if matches ptn_summary_start line then items cs (Some line) lines'
              else kind_of cs line :: items cs None lines'
            end
          end
      end
  end.

(** The items of an input text. *)
Definition text_items (cs : casing) (text : bytes) : list item := items cs None (fst (scan text)).

(** The handler the items so far speak of: [[]] is no handler. *)
Definition handler_after (lookup : gomap bytes) (l : list item) : bytes :=
  fold_left (fun h i => match i with IHandler n => tag_of lookup n | _ => h end) l [].

(** An instance is open after the items so far: there has been an instance line of
    a handler, and no line for a handler, level or warning since. *)
Definition opens (i : item) : bool := match i with IInstance => true | _ => false end.
Definition closes (i : item) : bool := match i with IHandler _ | ILevel _ | IWarning => true | _ => false end.
Definition instance_open (lookup : gomap bytes) (l : list item) : Prop :=
  exists a b, l = a ++ IInstance :: b /\ handler_after lookup a <> [] /\ forallb (fun i => negb (closes i)) b = true.

(** ** The parser's state after items *)

Section Text.
Variable v : world.
Variable source : bytes.
Variable lookup : gomap bytes.
Let cs := v_casing v.

(** State and items so far agree. *)
Definition agrees (l : list item) (s : pstate) : Prop :=
  p_handler s = handler_after lookup l /\ (p_inst s <> None <-> instance_open lookup l).

Lemma handler_after_snoc l i : handler_after lookup (l ++ [i]) =
  match i with IHandler n => tag_of lookup n | _ => handler_after lookup l end.
Proof. unfold handler_after. rewrite fold_left_app. reflexivity. Qed.

Lemma open_closed l i : closes i = true -> ~ instance_open lookup (l ++ [i]).
Proof.
  intros C (a & b & E & _ & F). destruct b as [|x b] using rev_ind.
  - apply app_last_inv in E. destruct E as [_ ->]. discriminate.
  - change (a ++ IInstance :: b ++ [x]) with (a ++ (IInstance :: b) ++ [x]) in E. rewrite app_assoc in E.
    apply app_last_inv in E. destruct E as [_ <-]. rewrite forallb_app in F. cbn in F. rewrite C in F.
    rewrite andb_false_r in F. discriminate.
Qed.

Lemma open_keep l i : closes i = false -> opens i = false ->
  (instance_open lookup (l ++ [i]) <-> instance_open lookup l).
Proof.
  intros C O. split.
  - intros (a & b & E & H & F). destruct b as [|x b] using rev_ind.
    + apply app_last_inv in E. destruct E as [_ ->]. discriminate.
    + change (a ++ IInstance :: b ++ [x]) with (a ++ (IInstance :: b) ++ [x]) in E. rewrite app_assoc in E.
      apply app_last_inv in E. destruct E as [E _]. rewrite forallb_app in F. apply andb_true_iff in F.
      exists a, b. intuition.
  - intros (a & b & -> & H & F). exists a, (b ++ [i]). split; [rewrite <- app_assoc; reflexivity|]. split; [exact H|].
    rewrite forallb_app, F. cbn. rewrite C. reflexivity.
Qed.

Lemma open_instance l : handler_after lookup l <> [] -> instance_open lookup (l ++ [IInstance]).
Proof. intros H. exists l, []. auto. Qed.

Lemma open_instance_none l : handler_after lookup l = [] -> ~ instance_open lookup l -> ~ instance_open lookup (l ++ [IInstance]).
Proof.
  intros H N (a & b & E & Ha & F). destruct b as [|x b] using rev_ind.
  - apply app_last_inv in E. destruct E as [-> _]. congruence.
  - change (a ++ IInstance :: b ++ [x]) with (a ++ (IInstance :: b) ++ [x]) in E. rewrite app_assoc in E.
    apply app_last_inv in E. destruct E as [E _]. apply N. exists a, b. rewrite forallb_app in F.
    apply andb_true_iff in F. intuition.
Qed.

(** Without a handler nothing is open. *)
Lemma open_handler l : instance_open lookup l -> handler_after lookup l <> [].
Proof.
  intros (a & b & -> & H & F). assert (E : handler_after lookup (a ++ IInstance :: b) = handler_after lookup a).
  { unfold handler_after. rewrite fold_left_app. cbn [fold_left]. generalize (fold_left (fun h i => match i with IHandler n => tag_of lookup n | _ => h end) a []).
    revert F. clear. induction b as [|x b IH]; intros F h; [reflexivity|]. cbn in F. apply andb_true_iff in F.
    destruct F as [F1 F2]. cbn [fold_left]. destruct x; try discriminate F1; apply IH; exact F2. }
  rewrite E. exact H.
Qed.

(** A line of a report: the state agrees afterwards, unless it is a log line
    without an instance. *)
Lemma rest_agrees l line s : agrees l s ->
  match parse_rest v source line s with
  | Some s' => agrees (l ++ [kind_of cs line]) s' /\ (kind_of cs line = ILog -> p_handler s <> [] -> p_inst s <> None)
  | None => kind_of cs line = ILog /\ p_handler s <> [] /\ p_inst s = None
  end.
Proof.
  intros [A1 A2]. unfold parse_rest.
  assert (NH : forall i, (forall n, i <> IHandler n) -> handler_after lookup (l ++ [i]) = handler_after lookup l).
  { intros i Hi. rewrite handler_after_snoc. destruct i; try reflexivity. exfalso. eapply Hi. reflexivity. }
  assert (NK : forall n, kind_of cs line <> IHandler n).
  { intros n. unfold kind_of. destruct (matches ptn_none line); [discriminate|]. destruct (level_of cs line); [discriminate|].
    destruct (matches ptn_warning line); [discriminate|]. destruct (matches ptn_log_line line); [discriminate|].
    destruct (matches ptn_extra line); [discriminate|]. destruct (matches ptn_instance line); discriminate. }
  destruct (p_handler s) as [|hc ht] eqn:Eh.
  { split; [|congruence]. split; [rewrite NH by exact NK; congruence|].
    assert (N : ~ instance_open lookup l). { intros K. apply open_handler in K. congruence. }
    rewrite A2. destruct (opens (kind_of cs line)) eqn:O; [|destruct (closes (kind_of cs line)) eqn:C].
    - destruct (kind_of cs line); try discriminate O. split; [contradiction|]. intros K.
      exfalso. revert K. apply open_instance_none; [congruence|exact N].
    - split; [contradiction|]. intros K. exfalso. revert K. apply open_closed. exact C.
    - symmetry. apply open_keep; assumption. }
  assert (NE : handler_after lookup l <> []) by congruence.
  assert (Keep : forall i s', kind_of cs line = i -> closes i = false -> opens i = false ->
    p_handler s' = p_handler s -> (p_inst s' <> None <-> p_inst s <> None) -> agrees (l ++ [kind_of cs line]) s').
  { intros i s' Ei C O H1 H2. rewrite Ei. split; [rewrite NH; [congruence|rewrite <- Ei; exact NK]|].
    rewrite open_keep by assumption. rewrite H2. exact A2. }
  assert (Close : forall i s', kind_of cs line = i -> closes i = true -> p_handler s' = p_handler s -> p_inst s' = None ->
    agrees (l ++ [kind_of cs line]) s').
  { intros i s' Ei C H1 H2. rewrite Ei. split; [rewrite NH; [congruence|rewrite <- Ei; exact NK]|].
    rewrite H2. split; [congruence|]. intros K. exfalso. revert K. apply open_closed. exact C. }
  unfold kind_of in *.
  destruct (matches ptn_none line) eqn:Mn.
  { split; [|discriminate]. apply (Keep INone); try reflexivity; cbv zeta;
      destruct (p_cur s) as [c|]; [destruct (beq _ _)| |destruct (beq _ _)|]; cbn; try reflexivity; try exact Eh. }
  unfold level_of in *. fold cs.
  destruct (match find ptn_level line with Some f => parse_level cs (sub 1 f) | None => None end) as [lv|] eqn:Ml.
  { split; [|discriminate]. apply (Close (ILevel lv)); try reflexivity; cbn; [apply save_handler|apply save_inst]. }
  unfold matches in *.
  destruct (find ptn_warning line) as [fw|] eqn:Mw.
  { split; [|discriminate]. apply (Close IWarning); try reflexivity; cbn; apply save_handler. }
  destruct (find ptn_log_line line) as [fl|] eqn:Mg.
  { destruct (p_inst s) as [i|] eqn:Ei.
    - split; [|intros; discriminate]. apply (Keep ILog); try reflexivity; cbn; try exact Eh. split; discriminate.
    - repeat split; discriminate. }
  destruct (find ptn_extra line) as [fe|] eqn:Me.
  { destruct (p_inst s) as [i|] eqn:Ei; (split; [|discriminate]); apply (Keep IExtra); try reflexivity; cbn; try exact Eh.
    - split; discriminate.
    - rewrite Ei. reflexivity. }
  destruct (find ptn_instance line) as [fi|] eqn:Mi.
  { split; [|discriminate]. split.
    - rewrite NH by discriminate. cbn. rewrite save_handler. congruence.
    - cbn. split; [|discriminate]. intros _. apply open_instance. exact NE. }
  split; [|discriminate]. apply (Keep IOther); try reflexivity.
Qed.

Lemma name_agrees l n s : agrees l s -> agrees (l ++ [IHandler n]) (name_handler v lookup n s).
Proof.
  intros A. rewrite name_handler_is. split.
  - rewrite handler_after_snoc. reflexivity.
  - cbn. rewrite save_inst. split; [congruence|]. intros K. exfalso. revert K. apply open_closed. reflexivity.
Qed.

Lemma save_agrees l s : agrees l s -> p_handler (save v s) = handler_after lookup l.
Proof. intros [A _]. rewrite save_handler. exact A. Qed.

(** When the parser panics. *)
Definition stray_log (before all : list item) : Prop :=
  exists a b, all = a ++ ILog :: b /\ handler_after lookup (before ++ a) <> [] /\ ~ instance_open lookup (before ++ a).

Lemma stray_cons before i all : stray_log before (i :: all) <->
  (i = ILog /\ handler_after lookup before <> [] /\ ~ instance_open lookup before) \/ stray_log (before ++ [i]) all.
Proof.
  split.
  - intros (a & b & E & H1 & H2). destruct a as [|x a]; cbn in E; injection E as -> ->.
    + left. rewrite app_nil_r in H1, H2. auto.
    + right. exists a, b. rewrite <- app_assoc. auto.
  - intros [(-> & H1 & H2)|(a & b & -> & H1 & H2)].
    + exists [], all. rewrite app_nil_r. auto.
    + exists (i :: a), b. rewrite <- app_assoc in H1, H2. auto.
Qed.

Lemma stray_nil before : ~ stray_log before [].
Proof. intros (a & b & E & _). destruct a; discriminate. Qed.

Definition mode_first (m : option summary_mode) : option bytes :=
  match m with Some (first, _, _, _) => Some first | None => None end.

Lemma end_summary_agrees l n sums links s : agrees l s -> agrees l (end_summary lookup n sums links s).
Proof. intros [A1 A2]. unfold end_summary. destruct (get n lookup); split; assumption. Qed.

Lemma loop_panics lines : forall m l s, agrees l s ->
  (parse_loop v source lookup m lines s = None <-> stray_log l (items cs (mode_first m) lines)).
Proof.
  assert (One : forall l line s, agrees l s ->
    (parse_rest v source line s = None <-> kind_of cs line = ILog /\ handler_after lookup l <> [] /\ ~ instance_open lookup l)).
  { intros l line s A. pose proof (rest_agrees l line s A) as R. destruct A as [A1 A2].
    destruct (parse_rest v source line s) as [s'|].
    - split; [discriminate|]. intros (K1 & K2 & K3). destruct R as [_ R]. exfalso. apply K3, A2, R; [exact K1|congruence].
    - split; [|reflexivity]. intros _. destruct R as (R1 & R2 & R3). split; [exact R1|]. split; [congruence|].
      intros K. apply A2 in K. congruence. }
  induction lines as [|raw lines IH]; intros m l s A.
  - destruct m as [[[[first n] sums] links]|]; cbn [parse_loop items mode_first].
    + rewrite stray_cons. specialize (One l first s A). destruct (parse_rest v source first s).
      * split; [discriminate|]. intros [K|K]; [apply One in K; discriminate|]. exfalso. revert K. apply stray_nil.
      * split; [|reflexivity]. intros _. left. apply One. reflexivity.
    + split; [discriminate|]. intros K. exfalso. revert K. apply stray_nil.
  - assert (Step : forall line s0, agrees l s0 ->
      (match parse_rest v source line s0 with Some s' => parse_loop v source lookup None lines s' | None => None end = None
       <-> stray_log l (kind_of cs line :: items cs None lines))).
    { intros line s0 A0. rewrite stray_cons. pose proof (One l line s0 A0) as O. pose proof (rest_agrees l line s0 A0) as R.
      destruct (parse_rest v source line s0) as [s'|].
      - destruct R as [R _]. rewrite (IH None _ _ R). cbn [mode_first]. split; [auto|].
        intros [K|K]; [apply O in K; discriminate|exact K].
      - split; [|reflexivity]. intros _. left. apply O. reflexivity. }
    cbn [parse_loop items]. destruct m as [[[[first n] sums] links]|]; cbn [mode_first].
    + unfold matches. destruct (find ptn_summary_line raw) as [f1|]; [apply (IH (Some (_, _, _, _))); exact A|].
      destruct (find ptn_summary_link raw) as [f2|]; [apply (IH (Some (_, _, _, _))); exact A|]. cbn [orb].
      apply Step. apply end_summary_agrees. exact A.
    + destruct (prepare raw) as [|c t]; [apply (IH None); exact A|].
      destruct (find ptn_warnings_for (c :: t)) as [f|].
      * rewrite stray_cons. rewrite (IH None (l ++ [IHandler (sub 1 f)])) by (apply name_agrees; exact A). cbn [mode_first].
        split; [auto|]. intros [(K & _)|K]; [discriminate|exact K].
      * destruct (matches ptn_by_warning (c :: t)).
        { split; [discriminate|]. rewrite stray_cons. intros [(K & _)|K]; [discriminate|]. exfalso. revert K. apply stray_nil. }
        unfold matches at 1. destruct (find ptn_summary_start (c :: t)) as [f|]; [apply (IH (Some (_, _, _, _))); exact A|].
        apply Step. exact A.
Qed.

Lemma start_agrees w : agrees [] (start w).
Proof.
  split; [reflexivity|]. cbn. split; [congruence|]. intros (a & b & E & _). destruct a; discriminate.
Qed.
End Text.

(** ** C38 *)

(** On every text the parser panics exactly if a log line of a handler comes while
    no instance is open. *)
Theorem C38_panics v source lookup text w :
  parse_warning_data v source lookup text w = None <->
  exists a b, text_items (v_casing v) text = a ++ ILog :: b /\ handler_after lookup a <> [] /\
              ~ instance_open lookup a.
Proof.
  unfold parse_warning_data, text_items. destruct (scan text) as [lines err]. cbn [fst].
  pose proof (loop_panics v source lookup lines None [] (start w) (start_agrees lookup w)) as H.
  cbn [mode_first] in H. unfold stray_log in H. cbn [app] in H.
  destruct (parse_loop v source lookup None lines (start w)); [|intuition].
  split; [discriminate|]. intros K. apply H in K. discriminate.
Qed.
Print Assumptions C38_panics.

(** An error is returned exactly if a line is too long and the list of handlers by warning
    does not come before it. *)
Lemma reads_on_end cs lines : forall summary, reads_on (match summary with Some _ => true | None => false end) lines = false <->
  In IEnd (items cs summary lines).
Proof.
  assert (K : forall l, kind_of cs l <> IEnd).
  { intros l. unfold kind_of. destruct (matches ptn_none l); [discriminate|]. destruct (level_of cs l); [discriminate|].
    destruct (matches ptn_warning l); [discriminate|]. destruct (matches ptn_log_line l); [discriminate|].
    destruct (matches ptn_extra l); [discriminate|]. destruct (matches ptn_instance l); discriminate. }
  induction lines as [|l lines IH]; intros summary; cbn [reads_on items].
  - destruct summary as [f|]; split; try discriminate; [|intros []]. intros [X|[]]. now destruct (K f).
  - destruct summary as [f|].
    + unfold matches at 1 2. destruct (find ptn_summary_line l); [apply (IH (Some f))|]. cbn [orb].
      destruct (find ptn_summary_link l); [apply (IH (Some f))|]. cbn [In]. rewrite (IH None).
      split; [auto|]. intros [X|X]; [now destruct (K l)|exact X].
    + destruct (prepare l) as [|c t] eqn:P; [apply (IH None)|].
      destruct (find ptn_warnings_for (c :: t)) as [g|] eqn:F; cbv zeta.
      * cbn [In]. rewrite (IH None). split; [auto|]. intros [X|X]; [discriminate|exact X].
      * destruct (matches ptn_by_warning (c :: t)); [split; [intros _; now left|reflexivity]|].
        unfold matches at 1. destruct (find ptn_summary_start (c :: t)); [apply (IH (Some (c :: t)))|]. cbn [In]. rewrite (IH None).
        split; [auto|]. intros [X|X]; [now destruct (K (c :: t))|exact X].
Qed.

Lemma raw_lines_split s : split_on newline s = raw_lines s \/ split_on newline s = raw_lines s ++ [[]].
Proof.
  induction s as [|c s IH]; [now right|]. destruct s as [|d s'].
  - cbn [split_on raw_lines]. destruct (Ascii.eqb c newline); [now right|now left].
  - remember (d :: s') as s eqn:E. assert (N : raw_lines s <> []).
    { rewrite E. cbn [raw_lines]. destruct (Ascii.eqb d newline); [discriminate|]. destruct s' as [|e s'']; [discriminate|].
      destruct (Ascii.eqb e newline); destruct (raw_lines (e :: s'')); discriminate. }
    assert (R : raw_lines (c :: s) = if Ascii.eqb c newline then [] :: raw_lines s
      else match raw_lines s with l :: ls => (c :: l) :: ls | [] => [[c]] end).
    { rewrite E. cbn [raw_lines]. destruct (Ascii.eqb c newline); [reflexivity|]. destruct (Ascii.eqb d newline) eqn:D; reflexivity. }
    rewrite R. cbn [split_on]. destruct (Ascii.eqb c newline).
    + destruct IH as [-> | ->]; [now left|now right].
    + destruct (raw_lines s) as [|x xs]; [now destruct N|]. destruct IH as [-> | ->]; [now left|now right].
Qed.

Lemma scan_error text : snd (scan text) = true <-> exists l, In l (split_on newline text) /\ (65535 < N.of_nat (length l))%N.
Proof.
  assert (U : forall ls, snd (until_long ls) = true <-> exists l, In l ls /\ (65535 < N.of_nat (length l))%N).
  { induction ls as [|l ls IH]; cbn [until_long].
    - split; [discriminate|]. intros (l & [] & _).
    - destruct (N.leb_spec (N.of_nat (length l)) max_line) as [L|L].
      + destruct (until_long ls) as [r e]. cbn [snd] in *. rewrite IH. split; intros (x & I & X).
        * exists x. split; [now right|exact X].
        * destruct I as [<-|I]; [unfold max_line in L; lia|]. exists x. auto.
      + cbn [snd]. split; [|reflexivity]. intros _. exists l. split; [now left|exact L]. }
  unfold scan. rewrite U. destruct (raw_lines_split text) as [-> | ->]; [reflexivity|].
  split; intros (l & I & L); exists l; (split; [|exact L]); [apply in_app_iff; now left|].
  apply in_app_iff in I as [I|[<-|[]]]; [exact I|]. cbn in L. lia.
Qed.

Theorem C38_error v source lookup text w w' err : parse_warning_data v source lookup text w = Some (w', err) ->
  (err = true <-> (exists l, In l (split_on newline text) /\ (65535 < N.of_nat (length l))%N) /\ ~ In IEnd (text_items (v_casing v) text)).
Proof.
  unfold parse_warning_data, text_items. pose proof (scan_error text) as S. destruct (scan text) as [lines e]. cbn [fst snd] in *.
  pose proof (reads_on_end (v_casing v) lines None) as R. cbn beta iota in R.
  destruct (parse_loop v source lookup None lines (start w)); [|discriminate]. intros [= _ <-]. rewrite andb_true_iff, S, <- R.
  destruct (reads_on false lines); split; intros [X Y]; (split; [exact X|]); try discriminate; try reflexivity. now destruct Y.
Qed.
Print Assumptions C38_error.

(** Without brace at the beginning of a line there is no panic. *)
Theorem C38_no_log v source lookup text w :
  (forall l, In l (fst (scan text)) -> matches ptn_log_line l = false /\ matches ptn_log_line (prepare l) = false) ->
  exists w' err, parse_warning_data v source lookup text w = Some (w', err).
Proof.
  intros H. destruct (parse_warning_data v source lookup text w) as [[w' err]|] eqn:E; [eauto|]. exfalso.
  apply C38_panics in E. destruct E as (a & b & E & _ & _). unfold text_items in E.
  assert (K : forall lines m, (forall l, In l lines -> matches ptn_log_line l = false /\ matches ptn_log_line (prepare l) = false) ->
    (forall f, m = Some f -> matches ptn_log_line f = false) -> ~ In ILog (items (v_casing v) m lines)).
  { assert (KO : forall line, matches ptn_log_line line = false -> kind_of (v_casing v) line <> ILog).
    { intros line F. unfold kind_of. destruct (matches ptn_none line); [discriminate|]. destruct (level_of _ line); [discriminate|].
      destruct (matches ptn_warning line); [discriminate|]. rewrite F. destruct (matches ptn_extra line); [discriminate|].
      destruct (matches ptn_instance line); discriminate. }
    induction lines as [|l lines IH]; intros m HL Hm I; cbn [items] in I.
    - destruct m as [f|]; [|destruct I]. destruct I as [I|[]]. exact (KO f (Hm f eq_refl) I).
    - assert (HL' : forall l, In l lines -> matches ptn_log_line l = false /\ matches ptn_log_line (prepare l) = false)
        by (intros x Hx; apply HL; right; exact Hx).
      destruct (HL l (or_introl eq_refl)) as [L1 L2].
      assert (HN : forall f : bytes, None = Some f -> matches ptn_log_line f = false) by discriminate.
      destruct m as [f|].
      + destruct (_ || _); [exact (IH (Some f) HL' Hm I)|]. destruct I as [I|I]; [exact (KO l L1 I)|exact (IH None HL' HN I)].
      + destruct (prepare l) as [|c t]; [exact (IH None HL' HN I)|].
        destruct (find ptn_warnings_for (c :: t)); [destruct I as [I|I]; [discriminate|exact (IH None HL' HN I)]|].
        destruct (matches ptn_by_warning (c :: t)); [destruct I as [I|[]]; discriminate|].
        destruct (matches ptn_summary_start (c :: t)).
        * apply (IH (Some (c :: t)) HL'); [|exact I]. intros f Ef. injection Ef as <-. exact L2.
        * destruct I as [I|I]; [exact (KO _ L2 I)|exact (IH None HL' HN I)]. }
  apply (K (fst (scan text)) None H); [discriminate|]. rewrite E. apply in_or_app. right. left. reflexivity.
Qed.
Print Assumptions C38_no_log.

(** ** Examples *)

Definition plain_world : world := {| v_casing := casing0; v_camel := fun s => [s]; v_pretty := fun _ => None |}.
Definition text_of (l : list string) : bytes := concat (map (fun s => B s ++ [newline]) l).

(** A log line after a warning without an instance; after one with an instance; and
    before any handler. *)
Example C38_ex :
  parse_warning_data plain_world [] [] (text_of ["Warnings for h:"; "Administrative"; "  1 [Name] text"; "{}"]%string) no_data = None /\
  parse_warning_data plain_world [] [] (text_of ["Warnings for h:"; "Administrative"; "  1 [Name] text"; "  TestA"; "{}"]%string) no_data <> None /\
  parse_warning_data plain_world [] [] (text_of ["{}"; "Warnings for h:"]%string) no_data <> None.
Proof. vm_compute. repeat split; discriminate. Qed.

(** A long line is an error, unless the list of handlers by warning is before it. *)
Example C38_error_ex : let long := repeat (chr 97) (N.to_nat 65536) in
  parse_warning_data plain_world [] [] (text_of ["Warnings for h:"]%string ++ long) no_data <> None /\
  option_map snd (parse_warning_data plain_world [] [] (text_of ["Warnings for h:"]%string ++ long) no_data) = Some true /\
  option_map snd (parse_warning_data plain_world [] [] (text_of ["Warnings for h:"; "Handlers by warning:"]%string ++ long) no_data) = Some false.
Proof. vm_compute. repeat split; discriminate. Qed.

Example C38_items :
  text_items casing0 (text_of ["Warnings for h:"; "Administrative"; "  1 [Name] text"; "{}"]%string) =
  [IHandler (B "h"); ILevel 1; IWarning; ILog].
Proof. vm_compute. reflexivity. Qed.
