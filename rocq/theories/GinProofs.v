(** Lemmas about package gin. *)

From Coq Require Import Ascii String List ZArith NArith Bool Arith Lia.
From Verif Require Import Bytes BytesProofs Slog Regex RegexProofs Gin.
Import ListNotations.

Definition blanks (s : bytes) : Prop := forallb is_space s = true.
Definition nonblank (c : ascii) : bool := negb (is_space c).

Lemma space_digit : apart is_space is_digit.
Proof. intros c H. destruct c as [[] [] [] [] [] [] [] []]; cbn in H; try discriminate; reflexivity. Qed.

Lemma digit_space : apart is_digit is_space.
Proof.
  intros c H. destruct (is_space c) eqn:E; [|reflexivity]. apply space_digit in E. congruence.
Qed.

(** ** A tag with blanks around it *)

Lemma find_tag c w s : is_space c = false ->
  find (rcat [RBol; ws; rlit (c :: w); ws]) s =
  match strip_lit (c :: w) (skip is_space s) with
  | Some r => Some {| f_before := []; f_text := firstn (length s - length (skip is_space r)) s;
                      f_caps := []; f_after := skip is_space r |}
  | None => None
  end.
Proof.
  intros Hc. cbn [rcat]. rewrite find_bol. unfold ws.
  rewrite ms_run_seq by (apply rejects_lit; exact Hc).
  rewrite ms_lit, eaten_rest, eaten_caps. cbn [init m_rest m_caps].
  destruct (strip_lit (c :: w) (skip is_space s)) as [r|]; [|reflexivity].
  rewrite ms_unit, ms_run. cbn [m_caps m_prev m_rest].
  match goal with |- context [runs ?p ?a ?b ?d] => destruct (hd_runs p a d b) as [l ->] end.
  rewrite eat_rest, eat_caps. reflexivity.
Qed.

Lemma suffix_skipn (s pre t : bytes) : s = pre ++ t -> skipn (length (firstn (length s - length t) s)) s = t.
Proof.
  intros ->. rewrite app_length, Nat.add_sub, firstn_app, Nat.sub_diag, firstn_O, app_nil_r, firstn_all.
  rewrite skipn_app, skipn_all, Nat.sub_diag. reflexivity.
Qed.

Lemma tag_rest w s r : strip_lit w (skip is_space s) = Some r ->
  skipn (length (firstn (length s - length (skip is_space r)) s)) s = skip is_space r.
Proof.
  intros H. apply strip_lit_iff in H.
  apply (suffix_skipn s (span is_space s ++ w ++ span is_space r)).
  rewrite <- !app_assoc, span_skip, <- H, span_skip. reflexivity.
Qed.

(** ** The level tag *)

Lemma not_newline_without s : forallb is_dot s = without newline s.
Proof. reflexivity. Qed.

Definition level_alt : re :=
  RAlt (lit "DEBUG") (RAlt (lit "ERROR") (RAlt (lit "INFO")
       (RAlt (lit "WARNING") (rstar (RChr is_dot))))).

Lemma in_lit w s x : In x (ms (rlit w) s) -> m_rest s = w ++ m_rest x /\ m_caps x = m_caps s.
Proof.
  rewrite <- ms_unit, ms_lit. destruct (strip_lit w (m_rest s)) as [r|] eqn:E; [|intros []].
  apply strip_lit_iff in E. cbn. intros [<-|[]]. auto.
Qed.

Lemma in_runs p caps s : forall prev x, In x (runs p caps prev s) ->
  exists pre, s = pre ++ m_rest x /\ forallb p pre = true /\ m_caps x = caps.
Proof.
  induction s as [|c t IH]; intros prev x H; cbn [runs] in H.
  - destruct H as [<-|[]]. exists []. auto.
  - destruct (p c) eqn:E.
    + apply in_app_iff in H. destruct H as [H|[<-|[]]].
      * destruct (IH _ _ H) as (pre & H1 & H2 & H3). exists (c :: pre). cbn. rewrite E, <- H1. auto.
      * exists []. auto.
    + destruct H as [<-|[]]. exists []. auto.
Qed.

Lemma runs_in p caps a b : forall prev, forallb p a = true ->
  exists prev', In {| m_caps := caps; m_prev := prev'; m_rest := b |} (runs p caps prev (a ++ b)).
Proof.
  induction a as [|c a IH]; intros prev H.
  - exists prev. cbn. destruct b as [|d b]; [left; reflexivity|]. cbn.
    destruct (p d); [apply in_app_iff; right|]; left; reflexivity.
  - cbn in H. apply andb_true_iff in H. destruct H as [H1 H2].
    destruct (IH (Some c) H2) as [prev' I]. exists prev'. cbn. rewrite H1. apply in_app_iff. left. exact I.
Qed.

Lemma in_level_alt s x : In x (ms level_alt s) ->
  exists body, m_rest s = body ++ m_rest x /\ without newline body = true /\ m_caps x = m_caps s.
Proof.
  unfold level_alt. cbn [ms]. rewrite !in_app_iff.
  assert (L : forall w, In x (ms (lit w) s) -> without newline (B w) = true ->
    exists body, m_rest s = body ++ m_rest x /\ without newline body = true /\ m_caps x = m_caps s).
  { intros w H N. apply in_lit in H. exists (B w). tauto. }
  intros [H|[H|[H|[H|H]]]]; try (eapply L; [exact H|reflexivity]).
  change (In x (ms (rstar (RChr is_dot)) s)) in H. rewrite ms_run in H. apply in_runs in H.
  destruct H as (pre & H1 & H2 & H3). exists pre. auto.
Qed.

Lemma level_alt_in s body r : m_rest s = body ++ r -> without newline body = true ->
  exists x, In x (ms level_alt s) /\ m_rest x = r.
Proof.
  intros H N. destruct (runs_in is_dot (m_caps s) body r (m_prev s) N) as [prev I].
  eexists. split; [|shelve]. unfold level_alt. cbn [ms]. rewrite !in_app_iff. do 4 right.
  change (In ?x _) with (In x (ms (rstar (RChr is_dot)) s)). rewrite ms_run, H. exact I.
  Unshelve. reflexivity.
Qed.

(** A bracketed text at the beginning, on one line. *)
Definition bracketed (s body r : bytes) : Prop :=
  exists w, blanks w /\ s = w ++ B "[" ++ body ++ B "]" ++ r /\ without newline body = true.

Lemma bracketed_skip s body r : bracketed s body r <->
  skip is_space s = B "[" ++ body ++ B "]" ++ r /\ without newline body = true.
Proof.
  split.
  - intros (w & Hw & -> & N). split; [|exact N]. rewrite skip_app by exact Hw. reflexivity.
  - intros [H N]. exists (span is_space s). split; [apply span_all|]. split; [|exact N].
    rewrite <- H. symmetry. apply span_skip.
Qed.

Definition level_tail : re := RSeq (RGroup 1 level_alt) (RSeq (lit "]") (RSeq ws REmpty)).

Lemma find_level s : find ptnLogLevel s =
  match strip_lit (B "[") (skip is_space s) with
  | Some u => match ms level_tail {| m_caps := []; m_prev := after_lit (B "[") (m_prev (eaten is_space (init s))); m_rest := u |} with
              | s' :: _ => Some {| f_before := []; f_text := firstn (length s - length (m_rest s')) s;
                                   f_caps := m_caps s'; f_after := m_rest s' |}
              | [] => None
              end
  | None => None
  end.
Proof.
  unfold ptnLogLevel. cbn [rcat]. rewrite find_bol. unfold ws at 1.
  rewrite ms_run_seq by (apply rejects_lit; reflexivity).
  change (lit "[") with (rlit (B "[")). rewrite ms_lit, eaten_rest, eaten_caps. cbn [init m_rest m_caps].
  destruct (strip_lit (B "[") (skip is_space s)) as [u|]; [|reflexivity].
  reflexivity.
Qed.

(** What follows the bracket. *)
Lemma level_end s : ms (RSeq (lit "]") (RSeq ws REmpty)) s =
  match strip_lit (B "]") (m_rest s) with
  | Some r => runs is_space (m_caps s) (after_lit (B "]") (m_prev s)) r
  | None => []
  end.
Proof.
  change (lit "]") with (rlit (B "]")). rewrite ms_lit. destruct (strip_lit _ _) as [r|]; [|reflexivity].
  rewrite ms_unit. unfold ws. rewrite ms_run. reflexivity.
Qed.

Lemma in_level_tail s s' : In s' (ms level_tail s) ->
  exists body r, m_rest s = body ++ B "]" ++ r /\ without newline body = true /\
                 m_caps s' = (1, body) :: m_caps s /\ exists pre, r = pre ++ m_rest s'.
Proof.
  unfold level_tail. rewrite ms_group, in_flat_map. intros (x & Hx & H).
  apply in_level_alt in Hx. destruct Hx as (body & E1 & N & Ec).
  rewrite level_end in H. destruct (strip_lit (B "]") (m_rest (captured 1 s x))) as [r|] eqn:E; [|destruct H].
  apply strip_lit_iff in E. cbn [captured m_rest] in E. apply in_runs in H.
  destruct H as (pre & E2 & _ & E3). exists body, r. rewrite E1, E. repeat split; try assumption.
  - rewrite E3. cbn [captured m_caps]. rewrite E1, Ec, E, app_length, Nat.add_sub, firstn_app, Nat.sub_diag,
      firstn_O, app_nil_r, firstn_all. reflexivity.
  - exists pre. exact E2.
Qed.

Lemma level_tail_in s body r : m_rest s = body ++ B "]" ++ r -> without newline body = true ->
  ms level_tail s <> [].
Proof.
  intros H N. destruct (level_alt_in s body _ H N) as (x & Hx & Hr). intros E.
  assert (F : In (eat is_space ((1, firstn (length (m_rest s) - length (m_rest x)) (m_rest s)) :: m_caps x)
                    (Some "]"%char) r) (ms level_tail s)).
  { unfold level_tail. rewrite ms_group. apply in_flat_map. exists x. split; [exact Hx|].
    rewrite level_end. cbn [captured m_rest m_caps m_prev]. rewrite Hr.
    replace (strip_lit (B "]") (B "]" ++ r)) with (Some r) by (symmetry; apply strip_lit_iff; reflexivity).
    match goal with |- In _ (runs ?p ?a ?b ?d) => destruct (hd_runs p a d b) as [l ->] end. left. reflexivity. }
  rewrite E in F. destruct F.
Qed.

(** No level tag. *)
Lemma find_level_none s : find ptnLogLevel s = None <-> ~ exists body r, bracketed s body r.
Proof.
  rewrite find_level. split.
  - intros H (body & r & Hb). apply bracketed_skip in Hb. destruct Hb as [E N].
    rewrite E in H. replace (strip_lit (B "[") (B "[" ++ body ++ B "]" ++ r)) with (Some (body ++ B "]" ++ r)) in H
      by (symmetry; apply strip_lit_iff; reflexivity).
    match type of H with match ms ?a ?b with _ => _ end = _ =>
      pose proof (level_tail_in b body r eq_refl N) as T; destruct (ms a b); [congruence|discriminate] end.
  - intros H. destruct (strip_lit (B "[") (skip is_space s)) as [u|] eqn:E; [|reflexivity].
    apply strip_lit_iff in E.
    match goal with |- match ms ?a ?b with _ => _ end = _ => destruct (ms a b) as [|s' l] eqn:M; [reflexivity|];
      assert (I : In s' (ms a b)) by (rewrite M; left; reflexivity) end.
    exfalso. apply H. apply in_level_tail in I. destruct I as (body & r & E1 & N & _). cbn in E1.
    exists body, r. apply bracketed_skip. split; [|exact N]. rewrite E, E1. reflexivity.
Qed.

Lemma find_level_some s m : find ptnLogLevel s = Some m ->
  exists r, bracketed s (sub 1 m) r.
Proof.
  rewrite find_level. destruct (strip_lit (B "[") (skip is_space s)) as [u|] eqn:E; [|discriminate].
  apply strip_lit_iff in E.
  match goal with |- match ms ?a ?b with _ => _ end = _ -> _ => destruct (ms a b) as [|s' l] eqn:M; [discriminate|];
    assert (I : In s' (ms a b)) by (rewrite M; left; reflexivity) end.
  intros H. injection H as <-. apply in_level_tail in I. destruct I as (body & r & E1 & N & Ec & _). cbn in E1.
  exists r. unfold sub. cbn [f_caps]. rewrite Ec. cbn. apply bracketed_skip. rewrite E, E1. auto.
Qed.

(** The known levels. *)
Lemma find_level_known s name z r :
  level_named name log_levels = Some z ->
  skip is_space s = B "[" ++ name ++ B "]" ++ r ->
  exists m, find ptnLogLevel s = Some m /\ sub 1 m = name /\
            skipn (length (f_text m)) s = skip is_space r.
Proof.
  intros L E. rewrite find_level, E.
  replace (strip_lit (B "[") (B "[" ++ name ++ B "]" ++ r)) with (Some (name ++ B "]" ++ r))
    by (symmetry; apply strip_lit_iff; reflexivity).
  set (prev := after_lit (B "[") (m_prev (eaten is_space (init s)))).
  set (st := {| m_caps := []; m_prev := prev; m_rest := name ++ B "]" ++ r |}).
  assert (A : exists l, ms level_tail st = eat is_space [(1, name)] (Some "]"%char) r :: l).
  { assert (G : forall x l, ms level_alt st = x :: l -> m_rest x = B "]" ++ r -> m_caps x = [] ->
        exists l', ms level_tail st = eat is_space [(1, name)] (Some "]"%char) r :: l').
    { intros x l H Hr Hc. unfold level_tail. rewrite ms_group, H. cbn [flat_map]. rewrite level_end.
      cbn [captured m_rest m_caps m_prev]. rewrite Hr, Hc.
      replace (strip_lit (B "]") (B "]" ++ r)) with (Some r) by (symmetry; apply strip_lit_iff; reflexivity).
      replace (firstn (length (m_rest st) - length (B "]" ++ r)) (m_rest st)) with name.
      - match goal with |- context [runs ?p ?a ?b ?d] => destruct (hd_runs p a d b) as [l' ->] end.
        cbn [app]. eexists. reflexivity.
      - unfold st. cbn [m_rest]. rewrite (app_length name), Nat.add_sub, firstn_app, Nat.sub_diag, firstn_O,
          app_nil_r, firstn_all. reflexivity. }
    assert (P : forall w, level_named w log_levels <> None ->
                w = B "DEBUG" \/ w = B "ERROR" \/ w = B "INFO" \/ w = B "WARNING").
    { intros w. unfold log_levels. cbn [level_named].
      destruct (beq (B "DEBUG") w) eqn:E1; [apply beq_eq in E1; auto|].
      destruct (beq (B "ERROR") w) eqn:E2; [apply beq_eq in E2; auto|].
      destruct (beq (B "INFO") w) eqn:E3; [apply beq_eq in E3; auto|].
      destruct (beq (B "WARNING") w) eqn:E4; [apply beq_eq in E4; auto 6|]. congruence. }
    destruct (P name) as [ -> | [ -> | [ -> | -> ]]]; [congruence| | | |];
      (eapply G; [unfold level_alt; cbn [ms]; reflexivity|reflexivity|reflexivity]). }
  destruct A as [l A]. rewrite A. eexists. split; [reflexivity|]. split.
  - unfold sub. cbn [f_caps]. rewrite eat_caps. reflexivity.
  - cbn [f_text]. rewrite eat_rest. apply (suffix_skipn s (span is_space s ++ B "[" ++ name ++ B "]" ++ span is_space r)).
    rewrite <- !app_assoc, span_skip, <- E, span_skip. reflexivity.
Qed.

(** ** The code *)

Lemma rejects_ws_eol p : apart p is_space -> rejects p (RSeq ws (RSeq REol REmpty)).
Proof.
  intros H. assert (R : forall q, rejects q (RSeq REol REmpty)).
  { intros q s Hs. cbn. destruct (m_rest s); [destruct Hs|reflexivity]. }
  apply rejects_run; auto.
Qed.

Lemma find_code s : match find ptnCode s with
  | Some m => exists w w', blanks w /\ blanks w' /\ s = w ++ sub 1 m ++ w' /\
                           forallb is_digit (sub 1 m) = true /\ sub 1 m <> []
  | None => ~ exists w d w', blanks w /\ blanks w' /\ s = w ++ d ++ w' /\
                           forallb is_digit d = true /\ d <> []
  end.
Proof.
  assert (E : find ptnCode s =
    match skip is_space s with
    | c :: _ => if is_digit c then
        match ms (RSeq ws (RSeq REol REmpty)) (captured 1 (eaten is_space (init s)) (eaten is_digit (eaten is_space (init s)))) with
        | s' :: _ => Some {| f_before := []; f_text := firstn (length s - length (m_rest s')) s;
                       f_caps := m_caps s'; f_after := m_rest s' |}
        | [] => None end else None
    | [] => None end).
  { unfold ptnCode. cbn [rcat]. rewrite find_bol. unfold ws at 1. unfold digits1.
    assert (R1 : rejects is_digit (RSeq ws (RSeq REol REmpty))) by (apply rejects_ws_eol, digit_space).
    rewrite ms_run_seq.
    - rewrite ms_run1_group by exact R1. rewrite eaten_rest. cbn [init m_rest].
      destruct (skip is_space s) as [|c t]; [reflexivity|]. destruct (is_digit c); reflexivity.
    - intros st Hs. rewrite ms_run1_group by exact R1. destruct (m_rest st); [reflexivity|].
      rewrite (space_digit _ Hs). reflexivity. }
  rewrite E. clear E. set (u := skip is_space s).
  assert (Es : s = span is_space s ++ u) by (symmetry; apply span_skip).
  assert (Eu : u = span is_digit u ++ skip is_digit u) by (symmetry; apply span_skip).
  assert (R0 : rejects is_space (RSeq REol REmpty)).
  { intros st Hs. cbn. destruct (m_rest st); [destruct Hs|reflexivity]. }
  assert (M : ms (RSeq ws (RSeq REol REmpty)) (captured 1 (eaten is_space (init s)) (eaten is_digit (eaten is_space (init s))))
     = match skip is_space (skip is_digit u) with
       | [] => [eaten is_space (captured 1 (eaten is_space (init s)) (eaten is_digit (eaten is_space (init s))))]
       | _ => [] end).
  { unfold ws. rewrite ms_run_seq by exact R0. rewrite ms_unit. cbn [ms].
    rewrite eaten_rest. cbn [captured m_rest]. rewrite !eaten_rest. cbn [init m_rest]. fold u. reflexivity. }
  rewrite M. clear M.
  destruct u as [|c t] eqn:Eq.
  - intros (w & d & w' & Hw & Hw' & H & Hd & N). fold u in Eq. unfold u in Eq.
    rewrite H, skip_app in Eq by exact Hw. destruct d as [|x d]; [congruence|].
    cbn in Hd. apply andb_true_iff in Hd. destruct Hd as [Hx _].
    cbn [app] in Eq. cbn [skip] in Eq. rewrite (digit_space _ Hx) in Eq. discriminate.
  - destruct (is_digit c) eqn:Dc.
    + destruct (skip is_space (skip is_digit (c :: t))) as [|y v] eqn:Ev.
      * exists (span is_space s), (skip is_digit (c :: t)).
        unfold sub. cbn [f_caps]. rewrite eaten_caps, captured_run. rewrite eaten_rest. cbn [init m_rest lookup_cap Nat.eqb].
        fold u. rewrite Eq. repeat split.
        -- apply span_all.
        -- unfold blanks. rewrite <- (span_skip is_space (skip is_digit (c :: t))), Ev, app_nil_r. apply span_all.
        -- rewrite span_skip. exact Es.
        -- apply span_all.
        -- cbn. rewrite Dc. discriminate.
      * intros (w & d & w' & Hw & Hw' & H & Hd & N). unfold u in Eq. rewrite H, skip_app in Eq by exact Hw.
        destruct d as [|x d]; [congruence|].
        cbn in Hd. apply andb_true_iff in Hd. destruct Hd as [Hx Hd].
        cbn [app] in Eq. cbn [skip] in Eq. rewrite (digit_space _ Hx) in Eq. rewrite <- Eq in Ev.
        change (x :: d ++ w') with ((x :: d) ++ w') in Ev. rewrite skip_app in Ev by (cbn; rewrite Hx; exact Hd).
        assert (K : skip is_digit w' = w').
        { apply skip_none. destruct w' as [|z w']; [exact I|]. unfold blanks in Hw'. cbn in Hw'.
          apply andb_true_iff in Hw'. apply space_digit, Hw'. }
        rewrite K in Ev. rewrite <- (app_nil_r w'), skip_app in Ev by exact Hw'. discriminate.
    + intros (w & d & w' & Hw & Hw' & H & Hd & N). unfold u in Eq. rewrite H, skip_app in Eq by exact Hw.
      destruct d as [|x d]; [congruence|]. cbn in Hd. apply andb_true_iff in Hd. destruct Hd as [Hx Hd].
      cbn [app] in Eq. cbn [skip] in Eq. rewrite (digit_space _ Hx) in Eq. injection Eq as -> _. congruence.
Qed.

(** ** Splitting at blanks *)

Lemma ms_ws1 s : ms ptnSplit s =
  match m_rest s with c :: t => if is_space c then runs is_space (m_caps s) (Some c) t else [] | [] => [] end.
Proof.
  unfold ptnSplit, ws1, rplus. rewrite ms_chr. destruct (m_rest s) as [|c t]; [reflexivity|].
  destruct (is_space c); [|reflexivity]. change (RStar true (RChr is_space)) with (rstar (RChr is_space)).
  rewrite ms_run. reflexivity.
Qed.

Lemma search_ws s : forall before prev,
  match search ptnSplit before prev s with
  | Some f => exists a w b, s = a ++ w ++ b /\ forallb nonblank a = true /\ blanks w /\ w <> [] /\
                            match b with c :: _ => is_space c = false | [] => True end /\
                            f_before f = before ++ a /\ f_after f = b
  | None => forallb nonblank s = true
  end.
Proof.
  induction s as [|c t IH]; intros before prev; cbn [search]; rewrite ms_ws1; cbn [m_rest m_caps].
  - reflexivity.
  - destruct (is_space c) eqn:E.
    + match goal with |- context [runs ?p ?a ?b ?d] => destruct (hd_runs p a d b) as [l ->] end.
      cbn [f_before f_after]. rewrite eat_rest. exists [], (c :: span is_space t), (skip is_space t). cbn [app].
      rewrite span_skip, app_nil_r. repeat split.
      * unfold blanks. cbn. rewrite E. apply span_all.
      * discriminate.
      * apply skip_head.
    + specialize (IH (before ++ [c]) (Some c)). destruct (search _ _ _ t) as [f|].
      * destruct IH as (a & w & b & -> & Ha & Hw & Nw & Hb & H1 & H2).
        exists (c :: a), w, b. repeat split; try assumption.
        -- cbn. unfold nonblank at 1. rewrite E. exact Ha.
        -- rewrite H1, <- app_assoc. reflexivity.
      * cbn. unfold nonblank at 1. rewrite E. exact IH.
Qed.

Lemma nonblank_app a b : forallb nonblank a = true -> forallb nonblank (a ++ b) = forallb nonblank b.
Proof. intros H. rewrite forallb_app, H. reflexivity. Qed.

Lemma split_none n s : forallb nonblank s = true -> re_split_n n ptnSplit s = [s].
Proof.
  intros H. destruct n; cbn; [reflexivity|]. unfold find. pose proof (search_ws s [] None) as F.
  destruct (search _ _ _ s) as [f|]; [|reflexivity].
  destruct F as (a & w & b & -> & Ha & Hw & Nw & _). destruct w as [|c w]; [congruence|].
  rewrite nonblank_app in H by exact Ha. cbn in H. unfold blanks in Hw. cbn in Hw.
  apply andb_true_iff in Hw. destruct Hw as [Hc _]. unfold nonblank in H at 1. rewrite Hc in H. discriminate.
Qed.

(** Cutting at the first blank is unique. *)
Lemma cut_unique a w b a' w' b' :
  a ++ w ++ b = a' ++ w' ++ b' ->
  forallb nonblank a = true -> forallb nonblank a' = true ->
  blanks w -> blanks w' -> w <> [] -> w' <> [] ->
  match b with c :: _ => is_space c = false | [] => True end ->
  match b' with c :: _ => is_space c = false | [] => True end ->
  a = a' /\ w = w' /\ b = b'.
Proof.
  intros H Ha Ha' Hw Hw' Nw Nw' Hb Hb'.
  assert (A : forall a w b, forallb nonblank a = true -> blanks w -> w <> [] ->
            span nonblank (a ++ w ++ b) = a /\ skip nonblank (a ++ w ++ b) = w ++ b).
  { clear. intros a w b Ha Hw Nw. rewrite span_app, skip_app by exact Ha.
    destruct w as [|c w]; [congruence|]. cbn. unfold blanks in Hw. cbn in Hw. apply andb_true_iff in Hw.
    unfold nonblank. destruct Hw as [-> _]. cbn. rewrite app_nil_r. auto. }
  destruct (A a w b Ha Hw Nw) as [A1 A2]. destruct (A a' w' b' Ha' Hw' Nw') as [A3 A4].
  rewrite H in A1, A2. rewrite A3 in A1. rewrite A4 in A2.
  assert (E : w ++ b = w' ++ b') by (symmetry; exact A2).
  assert (Bk : forall w b, blanks w -> match b with c :: _ => is_space c = false | [] => True end ->
            span is_space (w ++ b) = w /\ skip is_space (w ++ b) = b).
  { clear. intros w b Hw Hb. rewrite span_app, skip_app by exact Hw.
    destruct (skip_none is_space b Hb) as [-> ->]. rewrite app_nil_r. auto. }
  destruct (Bk w b Hw Hb) as [B1 B2]. destruct (Bk w' b' Hw' Hb') as [B3 B4].
  rewrite E in B1, B2. repeat split; congruence.
Qed.

Lemma split_two s a b : re_split ptnSplit s = [a; b] <->
  exists w, s = a ++ w ++ b /\ blanks w /\ w <> [] /\ forallb nonblank a = true /\ forallb nonblank b = true.
Proof.
  unfold re_split. pose proof (search_ws s [] None) as F. split.
  - intros H. destruct (length s) as [|n] eqn:L; [discriminate|]. cbn in H. unfold find in H.
    destruct (search _ _ _ s) as [f|]; [|discriminate].
    destruct F as (a' & w & b' & -> & Ha & Hw & Nw & Hb & E1 & E2).
    injection H as E3 E4. cbn in E1. assert (a' = a) by congruence. subst a'.
    rewrite E2 in E4. exists w.
    assert (Ln : length b' <= n).
    { rewrite !app_length in L. destruct w; [congruence|]. cbn in L. lia. }
    assert (b' = b /\ forallb nonblank b = true) as [-> Hb2].
    { destruct n as [|n]; cbn in E4.
      - destruct b'; [|cbn in Ln; lia]. injection E4 as <-. auto.
      - unfold find in E4. pose proof (search_ws b' [] None) as G. destruct (search _ _ _ b') as [g|].
        + injection E4 as _ E4. destruct n; [discriminate|]. cbn in E4. destruct (find ptnSplit (f_after g)); discriminate.
        + injection E4 as <-. auto. }
    subst a. auto 6.
  - intros (w & -> & Hw & Nw & Ha & Hb).
    assert (Hb' : match b with c :: _ => is_space c = false | [] => True end).
    { destruct b as [|c b]; [exact I|]. cbn in Hb. apply andb_true_iff in Hb. destruct Hb as [Hb _].
      apply negb_true_iff in Hb. exact Hb. }
    destruct (length (a ++ w ++ b)) as [|n] eqn:L.
    { rewrite !app_length in L. destruct w; [congruence|]. cbn in L. lia. }
    cbn. unfold find. destruct (search _ _ _ (a ++ w ++ b)) as [f|].
    + destruct F as (a' & w' & b' & E & Ha' & Hw' & Nw' & Hb2 & E1 & E2).
      destruct (cut_unique _ _ _ _ _ _ E) as (<- & <- & <-); auto.
      rewrite E1, E2, split_none by exact Hb. reflexivity.
    + rewrite nonblank_app in F by exact Ha. destruct w as [|c w]; [congruence|]. cbn in F. unfold blanks in Hw.
      cbn in Hw. apply andb_true_iff in Hw. destruct Hw as [Hc _]. unfold nonblank in F at 1. rewrite Hc in F.
      discriminate.
Qed.

(** ** The time prefix *)

Definition time_steps : list step :=
  [Run is_space; Run1 is_digit; One "/"; Run1 is_digit; One "/"; Run1 is_digit; Run is_space; One "-";
   Run is_space; Run1 is_digit; One ":"; Run1 is_digit; One ":"; Run1 is_digit; Run is_space; One "|"]%char.

Definition time_tail : re :=
  RSeq ws (RSeq (RGroup 1 (rplus (RChr is_dot))) (RSeq REol REmpty)).

Lemma time_chain : ptnTimePrefix = RSeq RBol (chain time_steps time_tail).
Proof. reflexivity. Qed.

Lemma rejects_one p c l b : p c = false -> rejects p (chain (One c :: l) b).
Proof. intros H. apply rejects_lit. exact H. Qed.

Lemma rejects_run1 p q b : apart p q -> rejects q b -> rejects p (RSeq (rplus (RChr q)) b).
Proof.
  intros H R s Hs. rewrite ms_run1_seq by exact R. destruct (m_rest s); [reflexivity|].
  rewrite (H _ Hs). reflexivity.
Qed.

Lemma time_definite : definite time_steps time_tail.
Proof.
  unfold time_steps. cbn [definite].
  repeat match goal with |- _ /\ _ => split | |- True => exact I end;
    try (apply rejects_one; reflexivity);
    cbn [chain step_re].
  - apply rejects_run1; [exact space_digit|apply rejects_lit; reflexivity].
  - apply rejects_run; [exact digit_space|apply rejects_lit; reflexivity|apply rejects_lit; reflexivity].
  - apply rejects_run1; [exact space_digit|apply rejects_lit; reflexivity].
  - apply rejects_run; [exact digit_space|apply rejects_lit; reflexivity|apply rejects_lit; reflexivity].
Qed.

(** A time stamp as gin prints it. *)
Definition stamp (s : bytes) : Prop :=
  exists w0 d1 d2 d3 w1 w2 d4 d5 d6 w3,
    s = w0 ++ d1 ++ B "/" ++ d2 ++ B "/" ++ d3 ++ w1 ++ B "-" ++ w2 ++
        d4 ++ B ":" ++ d5 ++ B ":" ++ d6 ++ w3 ++ B "|" /\
    Forall blanks [w0; w1; w2; w3] /\
    Forall (fun d => forallb is_digit d = true /\ d <> []) [d1; d2; d3; d4; d5; d6].

Lemma stamp_consume st r : stamp st -> consume time_steps (st ++ r) = Some r.
Proof.
  intros (w0 & d1 & d2 & d3 & w1 & w2 & d4 & d5 & d6 & w3 & -> & W & D).
  repeat match goal with H : Forall _ (_ :: _) |- _ => inversion H; clear H; subst end.
  repeat match goal with H : _ /\ _ |- _ => destruct H end.
  replace (_ ++ r) with (concat [w0; d1; B "/"; d2; B "/"; d3; w1; B "-"; w2; d4; B ":"; d5; B ":"; d6; w3; B "|"] ++ r)
    by (cbn [concat]; rewrite ?app_nil_r, <- ?app_assoc; reflexivity).
  apply pieces_consume.
  - cbn. repeat split; assumption || reflexivity.
  - cbn. repeat split; try exact space_digit; try exact digit_space; reflexivity.
Qed.

Lemma consume_stamp s r : consume time_steps s = Some r -> exists st, stamp st /\ s = st ++ r.
Proof.
  intros H. apply consume_pieces in H. destruct H as (ps & H & ->). exists (concat ps). split; [|reflexivity].
  unfold time_steps in H.
  do 16 (destruct ps as [|? ps]; [cbn in H; tauto|]). destruct ps as [|? ps]; [|cbn in H; tauto].
  cbn in H. repeat match goal with H : _ /\ _ |- _ => destruct H end. subst.
  unfold stamp. do 10 eexists. split; [cbn [concat]; rewrite ?app_nil_r; reflexivity|].
  split; repeat constructor; assumption.
Qed.

(** The message after the stamp: what is left without blanks in front, or the
    last blank if there is nothing else. *)
Fixpoint tail_out (u : bytes) : option bytes :=
  match u with
  | [] => None
  | c :: t =>
      let here := if without newline u then Some u else None in
      if is_space c then match tail_out t with Some o => Some o | None => here end else here
  end.

Definition tail_ok (out : bytes) : Prop :=
  out <> [] /\ without newline out = true /\
  match out with c :: t => is_space c = false \/ t = [] | [] => False end.

Lemma tail_out_some t : t <> [] -> without newline t = true -> tail_out t <> None.
Proof.
  destruct t as [|c t]; [congruence|]. intros _ H. cbn [tail_out]. rewrite H.
  destruct (is_space c); [destruct (tail_out t)|]; discriminate.
Qed.

Lemma tail_out_iff u : forall out, tail_out u = Some out <->
  exists w, blanks w /\ u = w ++ out /\ tail_ok out.
Proof.
  induction u as [|c t IH]; intros out.
  - cbn. split; [discriminate|]. intros (w & _ & E & N & _). destruct w, out; try discriminate; congruence.
  - cbn [tail_out]. destruct (is_space c) eqn:Sc.
    + destruct (tail_out t) as [o|] eqn:T.
      * split.
        -- intros H. injection H as <-. destruct (proj1 (IH o) eq_refl) as (w & Hw & -> & K).
           exists (c :: w). split; [unfold blanks; cbn; rewrite Sc; exact Hw|]. auto.
        -- intros (w & Hw & E & K). destruct w as [|d w].
           ++ cbn in E. subst out. destruct K as (_ & _ & [K|K]); [congruence|]. subst t. discriminate.
           ++ injection E as -> E. apply IH. exists w. split; [|auto]. unfold blanks in Hw. cbn in Hw.
              apply andb_true_iff in Hw. apply Hw.
      * destruct (without newline (c :: t)) eqn:N.
        -- assert (t = []) as ->.
           { destruct t as [|d t]; [reflexivity|]. exfalso. apply (tail_out_some (d :: t)); [discriminate| |exact T].
             cbn in N. apply andb_true_iff in N. apply N. }
           split.
           ++ intros H. injection H as <-. exists []. repeat split; auto. discriminate.
           ++ intros (w & Hw & E & K). destruct w as [|d w]; [cbn in E; congruence|].
              injection E as _ E. destruct w, out; try discriminate. destruct K; congruence.
        -- split; [discriminate|]. intros (w & Hw & E & K). destruct w as [|d w].
           ++ cbn in E. subst out. destruct K as (_ & K & _). congruence.
           ++ injection E as _ E. assert (None = Some out); [|discriminate]. apply IH. exists w.
              split; [|auto]. unfold blanks in Hw. cbn in Hw. apply andb_true_iff in Hw. apply Hw.
    + destruct (without newline (c :: t)) eqn:N.
      * split.
        -- intros H. injection H as <-. exists []. repeat split; auto. discriminate.
        -- intros (w & Hw & E & K). destruct w as [|d w]; [cbn in E; congruence|].
           injection E as -> _. unfold blanks in Hw. cbn in Hw. rewrite Sc in Hw. discriminate.
      * split; [discriminate|]. intros (w & Hw & E & K). destruct w as [|d w].
        -- cbn in E. subst out. destruct K as (_ & K & _). congruence.
        -- injection E as -> _. unfold blanks in Hw. cbn in Hw. rewrite Sc in Hw. discriminate.
Qed.

Definition dot_end : re := RSeq (RGroup 1 (rplus (RChr is_dot))) (RSeq REol REmpty).

Lemma skip_dot s : without newline s = true -> skip is_dot s = [] /\ span is_dot s = s.
Proof.
  intros H. rewrite <- (app_nil_r s) at 1 2. rewrite skip_app, span_app by exact H. cbn. rewrite app_nil_r. auto.
Qed.

Lemma skip_dot_not s : without newline s = false -> skip is_dot s <> [].
Proof.
  intros H E. pose proof (span_skip is_dot s) as K. rewrite E, app_nil_r in K.
  pose proof (span_all is_dot s) as A. rewrite K in A. unfold without in H.
  change (forallb is_dot s = false) in H. congruence.
Qed.

Lemma ms_dot_end s : ms dot_end s =
  match m_rest s with
  | [] => []
  | u => if without newline u then [captured 1 s (eaten is_dot s)] else []
  end.
Proof.
  unfold dot_end. rewrite ms_run1_group by (intros st Hs; cbn; destruct (m_rest st); [destruct Hs|reflexivity]).
  destruct (m_rest s) as [|c t] eqn:E; [reflexivity|].
  assert (M : ms (RSeq REol REmpty) (captured 1 s (eaten is_dot s)) =
     if without newline (c :: t) then [captured 1 s (eaten is_dot s)] else []).
  { rewrite ms_unit. cbn [ms]. cbn [captured m_rest]. rewrite eaten_rest, E.
    destruct (without newline (c :: t)) eqn:N.
    - destruct (skip_dot _ N) as [-> _]. reflexivity.
    - apply skip_dot_not in N. destruct (skip is_dot (c :: t)); [congruence|reflexivity]. }
  rewrite M. destruct (is_dot c) eqn:Dc; [reflexivity|].
  unfold without. cbn [forallb]. change (negb (Ascii.eqb c newline)) with (is_dot c). rewrite Dc. reflexivity.
Qed.

Lemma dot_end_caps s : without newline (m_rest s) = true ->
  m_caps (captured 1 s (eaten is_dot s)) = (1, m_rest s) :: m_caps s.
Proof. intros H. rewrite captured_run. destruct (skip_dot _ H) as [_ ->]. reflexivity. Qed.

Lemma time_tail_head caps u : forall prev,
  match tail_out u with
  | Some out => exists s' l, flat_map (ms dot_end) (runs is_space caps prev u) = s' :: l /\
                             m_caps s' = (1, out) :: caps
  | None => flat_map (ms dot_end) (runs is_space caps prev u) = []
  end.
Proof.
  induction u as [|c t IH]; intros prev; cbn [tail_out runs].
  - reflexivity.
  - assert (H : ms dot_end {| m_caps := caps; m_prev := prev; m_rest := c :: t |} =
      if without newline (c :: t) then [captured 1 {| m_caps := caps; m_prev := prev; m_rest := c :: t |}
         (eaten is_dot {| m_caps := caps; m_prev := prev; m_rest := c :: t |})] else []).
    { rewrite ms_dot_end. reflexivity. }
    destruct (is_space c).
    + rewrite flat_map_app. cbn [flat_map]. rewrite H, app_nil_r. specialize (IH (Some c)).
      destruct (tail_out t) as [o|].
      * destruct IH as (s' & l & -> & E). cbn. eauto.
      * rewrite IH. cbn [app]. destruct (without newline (c :: t)) eqn:N; [|reflexivity].
        eexists _, _. split; [reflexivity|]. apply dot_end_caps. exact N.
    + cbn [flat_map]. rewrite H, app_nil_r. destruct (without newline (c :: t)) eqn:N; [|reflexivity].
      eexists _, _. split; [reflexivity|]. apply dot_end_caps. exact N.
Qed.

(** A message with a time stamp, and what remains of it. *)
Definition timed (s out : bytes) : Prop :=
  exists st w, s = st ++ w ++ out /\ stamp st /\ blanks w /\ tail_ok out.

Lemma find_time s :
  match find ptnTimePrefix s with
  | Some m => timed s (sub 1 m)
  | None => forall out, ~ timed s out
  end.
Proof.
  rewrite time_chain, find_bol. pose proof (ms_chain time_tail time_steps time_definite (init s)) as C.
  cbn [init m_rest m_caps] in C. destruct (consume time_steps s) as [r|] eqn:E.
  - destruct C as [prev C]. change (ms (chain time_steps time_tail) (init s)) with
      (ms (chain time_steps time_tail) {| m_caps := []; m_prev := None; m_rest := s |}).
    unfold init in C. rewrite C.
    replace (ms time_tail {| m_caps := []; m_prev := prev; m_rest := r |})
      with (flat_map (ms dot_end) (runs is_space [] prev r)) by
      (unfold time_tail; rewrite ms_seq; unfold ws; rewrite ms_run; reflexivity).
    pose proof (time_tail_head [] r prev) as T. destruct (tail_out r) as [out|] eqn:O.
    + destruct T as (s' & l & -> & Ec). unfold sub. cbn [f_caps]. rewrite Ec. cbn.
      apply tail_out_iff in O. destruct O as (w & Hw & -> & K).
      apply consume_stamp in E. destruct E as (st & Hst & ->). exists st, w. auto.
    + rewrite T. intros out (st & w & -> & Hst & Hw & K). rewrite stamp_consume in E by exact Hst.
      injection E as <-. assert (None = Some out); [|discriminate]. rewrite <- O. apply tail_out_iff. eauto.
  - unfold init in *. rewrite C. intros out (st & w & -> & Hst & _). rewrite stamp_consume in E by exact Hst. discriminate.
Qed.

Lemma timed_unique s o o' : timed s o -> timed s o' -> o = o'.
Proof.
  intros (st & w & -> & H1 & H2 & H3) (st' & w' & E & H1' & H2' & H3').
  pose proof (stamp_consume st (w ++ o) H1) as C. rewrite E, stamp_consume in C by exact H1'.
  injection C as C. assert (A : tail_out (w ++ o) = Some o) by (apply tail_out_iff; eauto).
  rewrite <- C in A. assert (A' : tail_out (w' ++ o') = Some o') by (apply tail_out_iff; eauto). congruence.
Qed.
