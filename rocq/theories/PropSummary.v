(** C70: the summaries and links of handlers on their way from the creators through
    the text of a verification run into the server. *)

From Coq Require Import Ascii String List NArith Bool Arith Lia Permutation.
From Verif Require PropMerge PropBenchText PropTabular.
From Verif Require Import Bytes BytesProofs GoSort Regex RegexProofs RegexFirst Replace PropReplace Warnings WarnParser WarnLines SpecReport
  WarnRoundTrip WarnEffects PropReport Summary SpecSummary.
Import ListNotations.
Local Open Scope list_scope.

(** ** Trimming *)

Lemma white_space c : white c = is_space c.
Proof. destruct c as [[] [] [] [] [] [] [] []]; reflexivity. Qed.

Lemma lead_skip s : lead s = skip is_space s.
Proof. induction s as [|c s IH]; [reflexivity|]. cbn [lead skip]. rewrite white_space, IH. reflexivity. Qed.

Lemma lead_dec s : exists a, s = a ++ lead s /\ forallb is_space a = true /\ head_not is_space (lead s).
Proof.
  exists (span is_space s). rewrite lead_skip, span_skip. split; [reflexivity|]. split; [apply span_all|]. apply skip_head.
Qed.

Lemma lead_app a s : forallb is_space a = true -> lead (a ++ s) = lead s.
Proof. intros H. rewrite !lead_skip. apply skip_app, H. Qed.

Lemma lead_none s : head_not is_space s -> lead s = s.
Proof. intros H. rewrite lead_skip. apply skip_none', H. Qed.

(** Text between whitespace. *)
Lemma trimmed_mid a x z : forallb is_space a = true -> forallb is_space z = true -> head_not is_space x -> last_ok x ->
  trimmed (a ++ x ++ z) = x.
Proof.
  intros A Z H L. unfold trimmed. rewrite lead_app by exact A. destruct x as [|c x].
  - cbn [app]. replace (lead z) with (@nil ascii); [reflexivity|]. rewrite lead_skip. symmetry. apply skip_all, Z.
  - rewrite (lead_none ((c :: x) ++ z)) by exact H. rewrite rev_app_distr, lead_app by (rewrite forallb_rev; exact Z).
    rewrite lead_none; [apply rev_involutive|]. destruct (rev (c :: x)) as [|d y] eqn:E; [exact I|].
    apply (L (rev y) d). rewrite <- (rev_involutive (c :: x)), E. reflexivity.
Qed.

Lemma trimmed_dec s : exists a z, s = a ++ trimmed s ++ z /\ forallb is_space a = true /\ forallb is_space z = true /\
  head_not is_space (trimmed s) /\ last_ok (trimmed s) /\ lead s = trimmed s ++ z.
Proof.
  destruct (lead_dec s) as (a & E & A & H). destruct (lead_dec (rev (lead s))) as (z & E2 & Z & H2).
  assert (K : lead s = trimmed s ++ rev z).
  { unfold trimmed. rewrite <- (rev_involutive (lead s)) at 1. rewrite E2 at 1. apply rev_app_distr. }
  exists a, (rev z). split; [rewrite <- K; exact E|]. split; [exact A|]. split; [rewrite forallb_rev; exact Z|].
  split; [|split; [|exact K]].
  - rewrite K in H. destruct (trimmed s); [exact I|exact H].
  - intros t c Et. unfold trimmed in Et. assert (R : lead (rev (lead s)) = c :: rev t).
    { rewrite <- (rev_involutive (lead (rev (lead s)))), Et, rev_app_distr. reflexivity. }
    rewrite R in H2. exact H2.
Qed.

Lemma trimmed_cr s : trimmed (drop_cr s) = trimmed s.
Proof.
  unfold drop_cr. destruct (rev s) as [|c r] eqn:E; [rewrite <- (rev_involutive s), E; reflexivity|].
  destruct (Ascii.eqb c creturn) eqn:K; [|reflexivity]. apply Ascii.eqb_eq in K. subst c.
  assert (S : s = rev r ++ [creturn]) by (rewrite <- (rev_involutive s), E; reflexivity).
  destruct (trimmed_dec (rev r)) as (a & z & D & A & Z & H & L & _). rewrite S. symmetry. rewrite D at 1.
  rewrite <- !app_assoc. apply trimmed_mid; [exact A| |exact H|exact L]. rewrite forallb_app, Z. reflexivity.
Qed.

Lemma drop_cr_after a s : drop_cr ((a ++ [space]) ++ s) = (a ++ [space]) ++ drop_cr s.
Proof.
  unfold drop_cr. rewrite rev_app_distr. destruct (rev s) as [|c r] eqn:E.
  - cbn [app]. rewrite rev_app_distr. cbn [rev app]. assert (s = []) by (rewrite <- (rev_involutive s), E; reflexivity).
    subst s. reflexivity.
  - cbn [app]. destruct (Ascii.eqb c creturn); [|reflexivity]. rewrite rev_app_distr, rev_involutive. reflexivity.
Qed.

(** ** The patterns *)

Definition text_re (n : nat) : re := RGroup n (RSeq (RChr is_nonspace) lazy_dots).

Lemma best_lazy1 p n b caps c t r x : p c = true -> forallb is_dot t = true -> best b ((n, c :: t) :: caps) r (Some x) ->
  (forall t1 t2, t = t1 ++ t2 -> t2 <> [] -> best b ((n, c :: t1) :: caps) (t2 ++ r) None) ->
  best (RSeq (RGroup n (RSeq (RChr p) lazy_dots)) b) caps (c :: t ++ r) (Some x).
Proof.
  intros Hc F H1 H2 prev. rewrite ms_group, ms_chr. cbn [m_rest St]. rewrite Hc. unfold lazy_dots. rewrite ms_lazy.
  cbn [adv m_caps m_prev m_rest St]. destruct x as [c' r'].
  exact (lazy_first is_dot n b caps prev (c', r') r t [c] (Some c) F H1 H2).
Qed.

Lemma best_lazy1_head p n b caps s : head_not p s -> best (RSeq (RGroup n (RSeq (RChr p) lazy_dots)) b) caps s None.
Proof. intros H prev. rewrite ms_group, ms_chr. cbn [m_rest St]. destruct s as [|c s]; [reflexivity|]. cbn in H. rewrite H. reflexivity. Qed.

Lemma rejects_text n b : rejects is_space (RSeq (text_re n) b).
Proof.
  intros s H. unfold text_re. rewrite ms_group, ms_chr. destruct (m_rest s) as [|c t]; [reflexivity|]. unfold is_nonspace.
  rewrite H. reflexivity.
Qed.

(** Text up to the whitespace at the end. *)
Lemma best_text n caps s : forallb is_dot s = true -> head_not is_space s ->
  best (RSeq (text_re n) tail) caps s (match trimmed s with [] => None | t => Some ((n, t) :: caps, []) end).
Proof.
  intros D H. destruct (trimmed_dec s) as (a & z & E & A & Z & Ht & Lt & K). rewrite (lead_none s H) in K.
  destruct (trimmed s) as [|c t] eqn:T.
  - cbn [app] in K. subst z. assert (s = []) as ->.
    { destruct s as [|x s]; [reflexivity|]. cbn in Z, H. rewrite H in Z. discriminate. }
    apply best_lazy1_head. exact I.
  - rewrite K. cbn [app]. rewrite K in D. cbn [app forallb] in D. apply andb_true_iff in D. destruct D as [_ D].
    rewrite forallb_app in D. apply andb_true_iff in D. destruct D as [D _].
    apply best_lazy1; [unfold is_nonspace; cbn in Ht; rewrite Ht; reflexivity|exact D| |].
    + pose proof (best_tail ((n, c :: t) :: caps) z) as B1. rewrite Z in B1. exact B1.
    + intros t1 t2 -> N. pose proof (best_tail ((n, c :: t1) :: caps) (t2 ++ z)) as B1.
      rewrite forallb_app, (last_ok_not_space t2) in B1; [exact B1| |exact N].
      apply (last_ok_suffix (c :: t1)). exact Lt.
Qed.

Lemma trimmed_lead s : trimmed (lead s) = trimmed s.
Proof.
  destruct (lead_dec s) as (a & E & A & H). unfold trimmed. rewrite (lead_none (lead s)) by exact H. reflexivity.
Qed.

Lemma dots_lead s : forallb is_dot s = true -> forallb is_dot (lead s) = true.
Proof.
  intros D. destruct (lead_dec s) as (a & E & _). rewrite E, forallb_app in D. apply andb_true_iff in D. apply D.
Qed.

Lemma best_spaced n caps s : forallb is_dot s = true ->
  best (RSeq ws (RSeq (text_re n) tail)) caps s (match trimmed s with [] => None | t => Some ((n, t) :: caps, []) end).
Proof.
  intros D. apply best_run; [apply rejects_text|]. rewrite <- lead_skip, <- trimmed_lead. apply best_text; [apply dots_lead, D|].
  destruct (lead_dec s) as (a & _ & _ & H). exact H.
Qed.

(** A line with a mark before the text. *)
Lemma find_marked m s : forallb is_dot s = true ->
  match trimmed s with
  | [] => find (RSeq RBol (RSeq (rlit m) (RSeq ws (RSeq (text_re 1) tail)))) (m ++ s) = None
  | t => exists f, find (RSeq RBol (RSeq (rlit m) (RSeq ws (RSeq (text_re 1) tail)))) (m ++ s) = Some f /\ sub 1 f = t
  end.
Proof.
  intros D. pose proof (find_best _ _ _ (best_lit_app m _ [] s _ (best_spaced 1 [] s D))) as F.
  destruct (trimmed s) as [|c t]; [exact F|]. eexists. split; [exact F|]. reflexivity.
Qed.

Lemma find_other m b s : strip_lit m s = None -> find (RSeq RBol (RSeq (rlit m) b)) s = None.
Proof. intros H. apply (find_best _ _ None). apply best_lit. rewrite H. reflexivity. Qed.

Lemma clean_parts s : clean s -> s <> [] /\ forallb is_dot s = true /\ head_not is_space s /\ last_ok s.
Proof.
  intros (N & O & S & E). split; [exact N|]. split; [apply one_line_dot, O|]. split; [apply starts_clean_head, S|].
  apply ends_clean_last, E.
Qed.

Lemma clean_trimmed a s : forallb is_space a = true -> clean s -> trimmed (a ++ s) = s.
Proof.
  intros A C. destruct (clean_parts s C) as (_ & _ & H & L). rewrite <- (app_nil_r s) at 1. apply trimmed_mid; auto.
Qed.

(** A link is read as such. *)
Lemma find_link k u : clean k -> clean u -> (forall a b, k <> a ++ B "-->" ++ b) ->
  exists f, find ptn_summary_link (B ":> " ++ k ++ B " --> " ++ u) = Some f /\ sub 1 f = k /\ sub 2 f = u.
Proof.
  intros Ck Cu A. destruct (clean_parts k Ck) as (Nk & Dk & Hk & Lk). destruct (clean_parts u Cu) as (Nu & Du & Hu & Lu).
  eexists. split; [|split].
  - apply (find_best _ _ (Some ([(2, u); (1, k)], []))).
    change (B ":> " ++ k ++ B " --> " ++ u) with (B ":>" ++ space :: k ++ B " --> " ++ u). apply (best_lit_app (B ":>")).
    apply best_run; [apply rejects_text|]. change (skip is_space (space :: ?x)) with (skip is_space x).
    destruct k as [|c t]; [congruence|]. rewrite skip_none' by exact Hk. cbn [app].
    pose proof Dk as Dt. cbn [forallb] in Dt. apply andb_true_iff in Dt. destruct Dt as [_ Dt].
    apply best_lazy1; [unfold is_nonspace; cbn in Hk; rewrite Hk; reflexivity|exact Dt| |].
    + apply best_run; [apply (rejects_lit is_space "-"%char (B "->")); reflexivity|].
      change (skip is_space (B " --> " ++ u)) with (B "-->" ++ space :: u). apply (best_lit_app (B "-->")).
      pose proof (best_spaced 2 [(1, c :: t)] ([space] ++ u)) as X.
      rewrite (clean_trimmed [space] u eq_refl Cu) in X. destruct u as [|x u]; [congruence|]. apply X. exact Du.
    + intros t1 t2 Et N. apply best_run; [apply (rejects_lit is_space "-"%char (B "->")); reflexivity|].
      assert (L2 : last_ok t2) by (apply (last_ok_suffix (c :: t1)); rewrite <- app_comm_cons, <- Et; exact Lk).
      assert (S : exists y t3, skip is_space (t2 ++ B " --> " ++ u) = (y :: t3) ++ B " --> " ++ u /\ exists x, t2 = x ++ y :: t3).
      { pose proof (span_skip is_space t2) as E2. destruct (skip is_space t2) as [|y t3] eqn:K.
        - exfalso. rewrite app_nil_r in E2. pose proof (span_all is_space t2) as X. rewrite E2 in X.
          rewrite (last_ok_not_space t2 L2 N) in X. discriminate.
        - exists y, t3. split; [|exists (span is_space t2); symmetry; exact E2]. rewrite <- E2, <- app_assoc.
          rewrite skip_app by apply span_all. apply skip_none'. cbn. pose proof (skip_head is_space t2) as X. rewrite K in X. exact X. }
      destruct S as (y & t3 & -> & x & Ex). apply best_lit.
      destruct (strip_lit (B "-->") ((y :: t3) ++ B " --> " ++ u)) as [r|] eqn:K; [|reflexivity]. exfalso.
      apply strip_lit_iff in K. destruct t3 as [|y2 [|y3 t3]]; try discriminate K.
      cbn [app B list_ascii_of_string] in K. injection K as -> -> -> K.
      apply (A (c :: t1 ++ x) t3). rewrite Et, Ex, <- app_comm_cons, <- app_assoc. reflexivity.
  - reflexivity.
  - reflexivity.
Qed.

(** ** Lines without meaning *)

Definition quiet (x : bytes) : Prop :=
  x = [] \/ find ptn_warnings_for x = None /\ matches ptn_by_warning x = false /\ find ptn_summary_start x = None.

Lemma loop_quiet v source lookup raw ls w : quiet (prepare raw) ->
  parse_loop v source lookup None (raw :: ls) (start w) = parse_loop v source lookup None ls (start w).
Proof.
  intros Q. cbn [parse_loop]. destruct (prepare raw) as [|c t]; [reflexivity|]. destruct Q as [Q|(Q1 & Q2 & Q3)]; [discriminate|].
  rewrite Q1, Q2, Q3. reflexivity.
Qed.

Definition unmarked (s : bytes) : Prop :=
  forall a b, (forall c, In c a -> whitespace c \/ c = chr 35) ->
    s <> a ++ B "Warnings" ++ b /\ s <> a ++ B "Handlers" ++ b /\ s <> a ++ B ":[" ++ b.

Lemma prepare_inside s : exists a z, s = a ++ prepare (drop_cr s) ++ z /\ forall c, In c a -> whitespace c \/ c = chr 35.
Proof.
  assert (D : exists z, s = drop_cr s ++ z).
  { unfold drop_cr. destruct (rev s) as [|c r] eqn:E; [exists []; rewrite <- (rev_involutive s), E; reflexivity|].
    destruct (Ascii.eqb c creturn); [|exists []; symmetry; apply app_nil_r]. exists [c].
    rewrite <- (rev_involutive s), E. reflexivity. }
  destruct D as (z & D). set (d := drop_cr s) in *.
  assert (P : exists a, d = a ++ (match d with c :: r => if Ascii.eqb c (chr 35) then r else d | [] => [] end) /\
                        forall c, In c a -> c = chr 35).
  { destruct d as [|c r]; [exists []; split; [reflexivity|intros c []]|]. destruct (Ascii.eqb c (chr 35)) eqn:K.
    - apply Ascii.eqb_eq in K. exists [c]. split; [reflexivity|]. intros x [<-|[]]. exact K.
    - exists []. split; [reflexivity|intros x []]. }
  destruct P as (a & P & Pa). unfold prepare. set (m := match d with c :: r => if Ascii.eqb c (chr 35) then r else d | [] => [] end) in *.
  destruct (trim_iff space m (trim space m)) as [T _]. destruct (T eq_refl) as (_ & s1 & s2 & Em & S1 & S2).
  exists (a ++ s1), (s2 ++ z). split.
  - rewrite D, P, Em at 1. rewrite <- !app_assoc. reflexivity.
  - intros c I. apply in_app_or in I. destruct I as [I|I]; [right; apply Pa, I|]. left.
    rewrite forallb_forall in S1. apply S1 in I. apply Ascii.eqb_eq in I. subst c. cbn. tauto.
Qed.

Lemma quiet_line s : unmarked s -> quiet (prepare (drop_cr s)).
Proof.
  intros U. destruct (prepare_inside s) as (a & z & E & A). set (x := prepare (drop_cr s)) in *. right.
  assert (W : forall m b, strip_lit m (skip is_space x) = Some b -> s = (a ++ span is_space x) ++ m ++ (b ++ z) /\
                          forall c, In c (a ++ span is_space x) -> whitespace c \/ c = chr 35).
  { intros m b K. apply strip_lit_iff in K. split.
    - rewrite E at 1. rewrite <- (span_skip is_space x) at 1. rewrite K, <- !app_assoc. reflexivity.
    - intros c I. apply in_app_or in I. destruct I as [I|I]; [apply A, I|]. left.
      pose proof (span_all is_space x) as F. rewrite forallb_forall in F. apply F in I. apply whitespace_iff, I. }
  split; [|split].
  - apply (find_best _ _ None). apply best_run; [apply (rejects_lit is_space "W"%char (B "arnings")); reflexivity|].
    apply best_lit. destruct (strip_lit (B "Warnings") (skip is_space x)) as [b|] eqn:K; [|reflexivity]. exfalso.
    apply W in K. destruct K as [K1 K2]. apply (proj1 (U _ _ K2) K1).
  - apply (matches_best _ _ None). apply best_run; [apply (rejects_lit is_space "H"%char (B "andlers")); reflexivity|].
    apply best_lit. destruct (strip_lit (B "Handlers") (skip is_space x)) as [b|] eqn:K; [|reflexivity]. exfalso.
    apply W in K. destruct K as [K1 K2]. apply (proj1 (proj2 (U _ _ K2)) K1).
  - apply find_other. destruct (strip_lit (B ":[") x) as [b|] eqn:K; [|reflexivity]. exfalso.
    apply strip_lit_iff in K. rewrite K in E. apply (proj2 (proj2 (U a (b ++ z) A))). rewrite E, <- !app_assoc. reflexivity.
Qed.

(** Lines that begin with a colon and no bracket. *)
Lemma unmarked_colon d t : d <> "["%char -> unmarked (":"%char :: d :: t).
Proof.
  intros N a b A. assert (K : forall m r, m <> ":"%char -> ":"%char :: d :: t <> a ++ m :: r).
  { intros m r Nm E. destruct a as [|c a]; injection E as <- E; [congruence|]. destruct (A ":"%char (or_introl eq_refl)) as [X|X];
      [apply whitespace_iff in X|]; discriminate X. }
  split; [apply (K "W"%char); discriminate|]. split; [apply (K "H"%char); discriminate|]. intros E.
  destruct a as [|c a].
  - change (B ":[" ++ b) with (":"%char :: "["%char :: b) in E. injection E as E _. congruence.
  - injection E as <- E. destruct (A ":"%char (or_introl eq_refl)) as [X|X]; [apply whitespace_iff in X|]; discriminate X.
Qed.

(** ** An introduction is read *)

Definition link_line (x : bytes * bytes) : bytes := B ":> " ++ fst x ++ B " --> " ++ snd x.
Definition intro_all (c : creator) (order : list (bytes * bytes)) : list bytes :=
  (B ":[ " ++ cr_name c) :: map (fun l => B ":: " ++ l) (split_on newline (cr_summary c)) ++ map link_line order ++ [B ":]"].

Lemma intro_printed c order :
  intro_head c ++ intro_lines c ++ intro_links order ++ B ":]" ++ [newline] = printed [] (intro_all c order).
Proof.
  unfold intro_all, intro_head, intro_lines, intro_links, printed, line. cbn [map concat app]. rewrite !map_app, !concat_app, !map_map.
  rewrite (map_ext (fun x => B ":> " ++ fst x ++ B " --> " ++ snd x ++ [newline]) (fun x => link_line x ++ [newline]))
    by (intros x; unfold link_line; rewrite <- !app_assoc; reflexivity).
  cbn [map concat app]. rewrite <- !app_assoc. reflexivity.
Qed.

Section Loop.
Variables (v : world) (source : bytes) (lookup : gomap bytes).
Notation loop := (parse_loop v source lookup).

Definition tell (name : bytes) (lines : list bytes) (links : gomap bytes) (w : wdata) : wdata :=
  p_data (end_summary lookup name lines links (start w)).

Lemma end_start name lines links w : end_summary lookup name lines links (start w) = start (tell name lines links w).
Proof. unfold tell, end_summary. destruct (get name lookup); reflexivity. Qed.

Lemma loop_quiets raws tail w : Forall (fun s => quiet (prepare s)) raws ->
  loop None (raws ++ tail) (start w) = loop None tail (start w).
Proof. induction 1 as [|s raws Q _ IH]; [reflexivity|]. cbn [app]. rewrite loop_quiet by exact Q. exact IH. Qed.

Lemma block_ends first name sums links raw tail w :
  find ptn_summary_line raw = None -> find ptn_summary_link raw = None ->
  loop (Some (first, name, sums, links)) (raw :: tail) (start w) = loop None tail (start (tell name sums links w)).
Proof. intros H1 H2. cbn [parse_loop]. rewrite H1, H2, end_start. reflexivity. Qed.

Lemma line_read l : one_line l ->
  find ptn_summary_link (drop_cr (B ":: " ++ l)) = None /\
  match trimmed l with
  | [] => find ptn_summary_line (drop_cr (B ":: " ++ l)) = None
  | t => exists f, find ptn_summary_line (drop_cr (B ":: " ++ l)) = Some f /\ sub 1 f = t
  end.
Proof.
  intros O. change (B ":: " ++ l) with ((B "::" ++ [space]) ++ l). rewrite drop_cr_after, <- app_assoc. split; [apply (find_other (B ":>")); reflexivity|].
  assert (D : forallb is_dot ([space] ++ drop_cr l) = true).
  { apply one_line_dot in O. unfold drop_cr. destruct (rev l) as [|c r] eqn:E; [reflexivity|]. cbn [app forallb].
    destruct (Ascii.eqb c creturn); [|exact O]. rewrite forallb_rev. rewrite <- (rev_involutive l), E, forallb_rev in O.
    cbn [forallb] in O. apply andb_true_iff in O. apply O. }
  pose proof (find_marked (B "::") ([space] ++ drop_cr l) D) as F.
  assert (T : trimmed ([space] ++ drop_cr l) = trimmed l).
  { rewrite <- (trimmed_cr l). unfold trimmed. rewrite lead_app by reflexivity. reflexivity. }
  rewrite T in F. exact F.
Qed.

Lemma colon_quiet d t : d <> "["%char -> quiet (prepare (drop_cr (":"%char :: d :: t))).
Proof. intros N. apply quiet_line, unmarked_colon, N. Qed.

Lemma loop_lines ls first name links tail : Forall one_line ls -> forall sums w,
  loop (Some (first, name, sums, links)) (map (fun l => drop_cr (B ":: " ++ l)) ls ++ tail) (start w) =
  if one_paragraph ls then loop (Some (first, name, sums ++ paragraph ls, links)) tail (start w)
  else loop None tail (start (tell name (sums ++ paragraph ls) links w)).
Proof.
  induction 1 as [|l ls O F IH]; intros sums w.
  - cbn. rewrite app_nil_r. reflexivity.
  - cbn [map app]. destruct (line_read l O) as [R1 R2]. unfold one_paragraph. cbn [forallb paragraph].
    destruct (trimmed l) as [|c t].
    + rewrite block_ends by assumption. cbn [andb]. rewrite app_nil_r. apply loop_quiets. apply Forall_map.
      apply Forall_forall. intros x _. apply (colon_quiet ":"%char). discriminate.
    + destruct R2 as (f & R2 & R3). cbn [parse_loop]. rewrite R2, R3, IH, <- app_assoc. reflexivity.
Qed.

Lemma loop_links order first name sums tail w : Forall good_link order -> forall links,
  loop (Some (first, name, sums, links)) (map (fun x => drop_cr (link_line x)) order ++ tail) (start w) =
  loop (Some (first, name, sums, fold_left (fun m x => put (fst x) (snd x) m) order links)) tail (start w).
Proof.
  induction 1 as [|[k u] order (Ck & Cu & A) F IH]; intros links; [reflexivity|]. cbn [fst snd] in *.
  destruct (find_link k u Ck Cu A) as (f & F1 & F2 & F3).
  assert (D : drop_cr (link_line (k, u)) = link_line (k, u)).
  { apply drop_cr_none. intros t E. unfold link_line in E. cbn [fst snd] in E. destruct (clean_parts u Cu) as (Nu & _ & _ & Lu).
    destruct (exists_last Nu) as (u' & c & ->). rewrite !app_assoc in E. apply app_inj_tail in E. destruct E as [_ ->].
    pose proof (Lu u' creturn eq_refl) as X. discriminate X. }
  cbn [map app]. rewrite D. cbn [parse_loop].
  replace (find ptn_summary_line (link_line (k, u))) with (@None found) by (symmetry; apply (find_other (B "::")); reflexivity).
  unfold link_line. cbn [fst snd]. rewrite F1, F2, F3. apply IH.
Qed.

Lemma loop_intro c order tail w : clean (cr_name c) -> Forall good_link order ->
  loop None (map drop_cr (intro_all c order) ++ tail) (start w) =
  loop None tail (start (tell (cr_name c) (paragraph (split_on newline (cr_summary c)))
    (if one_paragraph (split_on newline (cr_summary c)) then fold_left (fun m x => put (fst x) (snd x) m) order [] else []) w)).
Proof.
  intros Cn G. destruct (clean_parts _ Cn) as (Nn & Dn & Hn & Ln). unfold intro_all. rewrite map_cons, !map_app, !map_map. cbn [map app].
  assert (L : last_ok (B ":[ " ++ cr_name c)).
  { intros t x E. destruct (exists_last Nn) as (n' & y & En). rewrite En, app_assoc in E. apply app_inj_tail in E.
    destruct E as [_ <-]. exact (Ln n' y En). }
  assert (P : prepare (drop_cr (B ":[ " ++ cr_name c)) = B ":[ " ++ cr_name c).
  { pose proof (prepare_padded [] 0 (B ":[ " ++ cr_name c) 0 (or_introl eq_refl)) as K. cbn [repeat app] in K.
    rewrite app_nil_r in K. apply K; [discriminate|reflexivity|exact L|right; discriminate]. }
  assert (Q1 : find ptn_warnings_for (B ":[ " ++ cr_name c) = None).
  { apply (find_best _ _ None). apply (best_lit_head (B "arnings") "W"%char); try reflexivity. discriminate. }
  assert (Q2 : matches ptn_by_warning (B ":[ " ++ cr_name c) = false).
  { apply (matches_best _ _ None). apply (best_lit_head (B "andlers") "H"%char); try reflexivity. discriminate. }
  assert (Q3 : exists f, find ptn_summary_start (B ":[ " ++ cr_name c) = Some f /\ sub 1 f = cr_name c).
  { assert (D : forallb is_dot ([space] ++ cr_name c) = true) by exact Dn.
    pose proof (find_marked (B ":[") ([space] ++ cr_name c) D) as F. rewrite (clean_trimmed [space]) in F by (exact Cn || reflexivity).
    destruct (cr_name c) as [|x n]; [congruence|]. exact F. }
  destruct Q3 as (f & Q3 & Q4).
  assert (S : forall t, loop None (drop_cr (B ":[ " ++ cr_name c) :: t) (start w) =
                        loop (Some (B ":[ " ++ cr_name c, cr_name c, [], [])) t (start w)).
  { intros t. cbn [parse_loop]. rewrite P, Q1, Q2, Q3, Q4. reflexivity. }
  rewrite S, <- !app_assoc. cbn [app].
  assert (LS : Forall one_line (split_on newline (cr_summary c))).
  { apply Forall_forall. intros l I. pose proof (split_without newline (cr_summary c)) as W. rewrite Forall_forall in W.
    apply one_line_without, W, I. }
  rewrite loop_lines by exact LS. destruct (one_paragraph (split_on newline (cr_summary c))); cbn [app].
  - rewrite loop_links by exact G. rewrite (block_ends _ _ _ _ (drop_cr (B ":]"))) by reflexivity. reflexivity.
  - rewrite loop_quiets.
    + rewrite loop_quiet; [reflexivity|]. apply (colon_quiet "]"%char []). discriminate.
    + apply Forall_map, Forall_forall. intros x _. apply (colon_quiet ">"%char). discriminate.
Qed.
End Loop.

(** ** What is known afterwards *)

Lemma below_joined p ps : p ++ concat (map (fun q => newline :: q) ps) = below (p :: ps).
Proof.
  revert p. induction ps as [|q ps IH]; intros p; [apply app_nil_r|]. cbn [map concat]. change (below (p :: q :: ps)) with (p ++ newline :: below (q :: ps)).
  rewrite <- IH. reflexivity.
Qed.

Lemma tell_get lookup name lines links w h : get h (handler_data (tell lookup name lines links w)) =
  match get name lookup with
  | Some t => if beq t h then Some {| hd_name := name_kept w h; hd_summary := below lines; hd_links := links |}
              else get h (handler_data w)
  | None => get h (handler_data w)
  end.
Proof.
  assert (J : match lines with [] => [] | p :: ps => p ++ concat (map (fun q => newline :: q) ps) end = below lines).
  { destruct lines; [reflexivity|apply below_joined]. }
  unfold tell, end_summary. destruct (get name lookup) as [t|]; [|reflexivity]. rewrite <- J.
  cbn [p_data with_data start handler_data set_handler_data]. unfold change_hdata. rewrite get_put.
  destruct (beq t h) eqn:E; [|reflexivity]. apply beq_eq in E. subst t. unfold name_kept. f_equal.
  destruct (get h (handler_data w)); reflexivity.
Qed.

Lemma tell_warnings lookup name lines links w : let w' := tell lookup name lines links w in
  by_handler w' = by_handler w /\ by_test w' = by_test w /\ by_warning w' = by_warning w /\ test_names w' = test_names w.
Proof. unfold tell, end_summary. destruct (get name lookup); repeat split. Qed.

Lemma put_all_get (order : list (bytes * bytes)) k : NoDup (map fst order) -> forall m,
  get k (fold_left (fun m x => put (fst x) (snd x) m) order m) = match get k order with Some u => Some u | None => get k m end.
Proof.
  induction order as [|[x u] order IH]; intros N m; [reflexivity|]. cbn [fold_left fst snd map] in *.
  inversion N as [|? ? N1 N2]; subst. rewrite IH by exact N2. cbn [get]. rewrite get_put. destruct (beq x k) eqn:E; [|reflexivity].
  apply beq_eq in E. subst x. destruct (get k order) as [u'|] eqn:G; [|reflexivity]. exfalso. apply N1.
  clear - G. induction order as [|[y z] order IH]; [discriminate|]. cbn [get map fst] in *.
  destruct (beq y k) eqn:E; [left; apply beq_eq, E|right; apply IH, G].
Qed.

Lemma get_order (a b : gomap bytes) k : NoDup (map fst b) -> Permutation a b -> get k a = get k b.
Proof.
  intros N P. assert (Na : NoDup (map fst a)) by (eapply Permutation_NoDup; [symmetry; apply Permutation_map, P|exact N]).
  destruct (get k b) as [u|] eqn:G.
  - apply (get_in k u a Na). apply (get_in k u b N) in G. eapply Permutation_in; [symmetry; exact P|exact G].
  - destruct (get k a) as [u|] eqn:G2; [|reflexivity]. apply (get_in k u a Na) in G2. apply (Permutation_in _ P) in G2.
    apply (get_in k u b N) in G2. pose proof (eq_trans (eq_sym G) G2) as X. discriminate X.
Qed.

Lemma knows_name lookup xs w w' : knows lookup xs w w' -> forall h, name_kept w' h = name_kept w h.
Proof.
  intros K h. destruct (introduced lookup xs h) as [c|] eqn:E.
  - destruct (knows_introduced _ _ _ _ K h c E) as (d & G & Nd & _). unfold name_kept at 1. rewrite G. exact Nd.
  - unfold name_kept. rewrite (knows_others _ _ _ _ K h E). reflexivity.
Qed.

Lemma knows_cons lookup x xs w w1 w2 : knows lookup [x] w w1 -> knows lookup xs w1 w2 -> knows lookup (x :: xs) w w2.
Proof.
  intros K1 K2. constructor.
  - intros h c E. cbn [introduced] in E. destruct (introduced lookup xs h) as [c'|] eqn:E2.
    + injection E as ->. destruct (knows_introduced _ _ _ _ K2 h c E2) as (d & G & Nd & Sd & Ld). exists d.
      rewrite <- (knows_name _ _ _ _ K1). auto.
    + rewrite (knows_others _ _ _ _ K2 h E2). apply (knows_introduced _ _ _ _ K1). cbn [introduced]. exact E.
  - intros h E. cbn [introduced] in E. destruct (introduced lookup xs h) as [c'|] eqn:E2; [discriminate|].
    rewrite (knows_others _ _ _ _ K2 h E2). apply (knows_others _ _ _ _ K1). cbn [introduced]. exact E.
  - destruct (knows_warnings _ _ _ _ K1) as (A1 & A2 & A3 & A4). destruct (knows_warnings _ _ _ _ K2) as (B1 & B2 & B3 & B4).
    repeat split; congruence.
Qed.

Lemma knows_same lookup xs w : (forall h, introduced lookup xs h = None) -> knows lookup xs w w.
Proof. intros H. constructor; [intros h c E; rewrite H in E; discriminate|reflexivity|auto]. Qed.

Lemma said_read v source lookup x out w : said_ok x -> says x out ->
  exists lines w1, out = printed [] lines /\ Forall (fun l => without newline l = true) lines /\ knows lookup [x] w w1 /\
    forall tail, parse_loop v source lookup None (map drop_cr lines ++ tail) (start w) = parse_loop v source lookup None tail (start w1).
Proof.
  destruct x as [c|s]; cbn [said_ok says].
  - intros (Cn & G & Nd) S. unfold setup_suite in S. destruct (has_summary c) eqn:HS.
    + destruct S as (order & P & ->). exists (intro_all c order). eexists. split; [apply intro_printed|].
      assert (Go : Forall good_link order) by (apply (Permutation_Forall (Permutation_sym P)), G).
      split; [|split; [|intros tail; apply loop_intro; assumption]].
      * unfold intro_all. constructor; [change (without newline (cr_name c) = true); apply one_line_without, Cn|].
        apply Forall_app. split; [|apply Forall_app; split; [|constructor; [reflexivity|constructor]]].
        -- apply Forall_map. pose proof (split_without newline (cr_summary c)) as W. revert W. apply Forall_impl. intros l H. exact H.
        -- apply Forall_map. revert Go. apply Forall_impl. intros [k u] (Ck & Cu & _). unfold link_line. cbn [fst snd] in *.
           rewrite !without_app. rewrite (proj1 (one_line_without k)), (proj1 (one_line_without u)) by (apply Ck || apply Cu). reflexivity.
      * unfold has_summary in HS. constructor.
        -- intros h c' E. cbn [introduced] in E. destruct (cr_summary c) as [|b0 s0] eqn:Es; [discriminate|]. rewrite <- Es.
           destruct (get (cr_name c) lookup) as [t|] eqn:Gn; [|discriminate]. destruct (beq t h) eqn:Et; [|discriminate].
           injection E as <-. rewrite tell_get, Gn, Et. eexists. split; [reflexivity|]. cbn [hd_name hd_summary hd_links].
           split; [reflexivity|]. split; [reflexivity|]. intros k. unfold link_kept.
           destruct (one_paragraph (split_on newline (cr_summary c))); [|reflexivity].
           rewrite put_all_get by (eapply Permutation_NoDup; [symmetry; apply Permutation_map, P|exact Nd]).
           rewrite (get_order order (cr_links c) k Nd P). cbn [get]. destruct (get k (cr_links c)); reflexivity.
        -- intros h E. cbn [introduced] in E. rewrite tell_get. destruct (cr_summary c) as [|b0 s0]; [discriminate|].
           destruct (get (cr_name c) lookup) as [t|]; [|reflexivity]. destruct (beq t h); [discriminate|reflexivity].
        -- apply tell_warnings.
    + subst out. exists [], w. split; [reflexivity|]. split; [constructor|]. split; [|reflexivity]. apply knows_same. intros h.
      cbn [introduced]. unfold has_summary in HS. destruct (cr_summary c); [reflexivity|discriminate].
  - intros [O U] ->. exists [s], w. split; [unfold printed, line; cbn; symmetry; apply app_nil_r|].
    split; [constructor; [apply one_line_without, O|constructor]|]. split; [apply knows_same; reflexivity|].
    intros tail. cbn [map app]. apply loop_quiet, quiet_line. exact U.
Qed.

Lemma all_read v source lookup xs outs : Forall said_ok xs -> Forall2 says xs outs -> forall w,
  exists lines w1, concat outs = printed [] lines /\ Forall (fun l => without newline l = true) lines /\ knows lookup xs w w1 /\
    forall tail, parse_loop v source lookup None (map drop_cr lines ++ tail) (start w) = parse_loop v source lookup None tail (start w1).
Proof.
  intros F S. induction S as [|x out xs outs S _ IH]; intros w.
  - exists [], w. split; [reflexivity|]. split; [constructor|]. split; [apply knows_same; reflexivity|reflexivity].
  - inversion F as [|? ? O F']; subst. destruct (said_read v source lookup x out w O S) as (l1 & w1 & E1 & W1 & K1 & R1).
    destruct (IH F' w1) as (l2 & w2 & E2 & W2 & K2 & R2). exists (l1 ++ l2), w2. cbn [concat]. rewrite printed_app, E1, E2.
    split; [reflexivity|]. split; [apply Forall_app; auto|]. split; [apply (knows_cons lookup x xs w w1 w2 K1 K2)|].
    intros tail. rewrite map_app, <- app_assoc, R1, R2. reflexivity.
Qed.

Lemma report_keeps v source lookup name l w h :
  handler_summary (report_effect v source lookup name l w) h = handler_summary w h /\
  handler_links (report_effect v source lookup name l w) h = handler_links w h.
Proof.
  assert (H : handler_data (report_effect v source lookup name l w) = handler_data (name_effect v lookup name w)).
  { unfold report_effect. destruct l; [reflexivity|apply PropTabular.absorb_names]. }
  unfold handler_summary, handler_links. rewrite H. unfold name_effect.
  destruct (get name lookup) as [t|]; cbn; unfold change_hdata; rewrite get_put;
    match goal with |- context [beq ?a h] => destruct (beq a h) eqn:E end; try (split; reflexivity);
    apply beq_eq in E; subst; destruct (get h (handler_data w)); split; reflexivity.
Qed.

(** The text of a verification run: introductions and other lines, then reports.
    The parser ends without error, knows what the introductions say, reads the
    reports as without introductions, and keeps what was introduced. *)
Theorem C70_introductions v source lookup xs outs reports w :
  casing_ok (v_casing v) -> Forall said_ok xs -> Forall2 says xs outs -> Forall (readable_report v lookup) reports ->
  short_lines (concat outs ++ reports_text [] reports) ->
  exists w1 w', parse_warning_data v source lookup (concat outs ++ reports_text [] reports) w = Some (w', false) /\
    knows lookup xs w w1 /\ reads_reports v source lookup reports w1 w' /\
    forall h, handler_summary w' h = handler_summary w1 h /\ handler_links w' h = handler_links w1 h.
Proof.
  intros ok F S G SL. destruct (all_read v source lookup xs outs F S w) as (lines & w1 & E & W & K & R).
  set (ls := concat (map (fun x : bytes * list instances => report_lines (fst x) (snd x)) reports)).
  assert (E2 : reports_text [] reports = printed [] ls).
  { apply (printed_concat [] (fun x : bytes * list instances => show_list (fst x) [] (snd x))
             (fun x => report_lines (fst x) (snd x))).
    intros [name l] Hx. apply show_list_lines. rewrite Forall_forall in G. apply G in Hx. apply Hx. }
  assert (W2 : Forall (fun l => without newline l = true) ls).
  { apply Forall_concat, Forall_map. revert G. apply Forall_impl. intros [name l] (G1 & G2 & G3 & G4).
    exact (report_lines_whole (v_casing v) name l G1 G4). }
  rewrite E, E2, <- printed_app in SL |- *.
  assert (M : map (full []) (lines ++ ls) = lines ++ ls) by apply map_id.
  assert (WA : Forall (fun l => without newline l = true) (map (full []) (lines ++ ls))) by (rewrite M; apply Forall_app; auto).
  pose proof (short_lines_ok (lines ++ ls) [] SL WA) as Sh.
  unfold parse_warning_data, scan. rewrite printed_full, raw_lines_concat by exact WA. rewrite until_long_short by exact Sh.
  destruct (loop_reports v source lookup [] ok (or_introl eq_refl) reports (start w1) G) as (s' & L & P).
  rewrite M, map_app, R. fold ls in L. unfold rd in L.
  change (fun l => drop_cr (full [] l)) with drop_cr in L. rewrite L.
  exists w1, (p_data s'). split; [reflexivity|]. split; [exact K|]. rewrite P. change (settled v (start w1)) with w1.
  split; [apply PropBenchText.effects_read; assumption|].
  intros h. clear. revert w1. induction reports as [|[name l] reports IH]; intros w1; [split; reflexivity|]. cbn [fold_left fst snd].
  destruct (IH (report_effect v source lookup name l w1)) as [I1 I2]. rewrite I1, I2. apply report_keeps.
Qed.
Print Assumptions C70_introductions.

(** What the server's pages then find: of an introduced handler a summary if there is
    text on its first line, and links if some are kept. *)
Theorem C70_shown v source lookup xs outs reports w h c :
  casing_ok (v_casing v) -> Forall said_ok xs -> Forall2 says xs outs -> Forall (readable_report v lookup) reports ->
  short_lines (concat outs ++ reports_text [] reports) -> introduced lookup xs h = Some c ->
  exists w', parse_warning_data v source lookup (concat outs ++ reports_text [] reports) w = Some (w', false) /\
    handler_summary w' h = summary_kept c /\ (has_handler_summary w' h = true <-> summary_kept c <> []) /\
    (forall k, get k (handler_links w' h) = link_kept c k) /\
    (has_handler_links w' h = true <-> exists k u, link_kept c k = Some u).
Proof.
  intros ok F S G SL I. destruct (C70_introductions v source lookup xs outs reports w ok F S G SL) as (w1 & w' & E & K & _ & R).
  exists w'. split; [exact E|]. destruct (R h) as [R1 R2]. destruct (knows_introduced _ _ _ _ K h c I) as (d & Gd & _ & Sd & Ld).
  assert (S1 : handler_summary w' h = summary_kept c) by (rewrite R1; unfold handler_summary; rewrite Gd; exact Sd).
  assert (L1 : forall k, get k (handler_links w' h) = link_kept c k) by (intros k; rewrite R2; unfold handler_links; rewrite Gd; apply Ld).
  split; [exact S1|]. split; [|split; [exact L1|]].
  - rewrite <- S1. unfold has_handler_summary, handler_summary. destruct (get h (handler_data w')) as [d'|].
    + destruct (hd_summary d'); split; intros X; congruence.
    + split; intros X; [discriminate|congruence].
  - assert (X : has_handler_links w' h = true <-> exists k u, get k (handler_links w' h) = Some u).
    { unfold has_handler_links, handler_links. destruct (get h (handler_data w')) as [d'|].
      - destruct (hd_links d') as [|[k u] l]; split; intros X; try discriminate; try (destruct X as (? & ? & X); discriminate); [|reflexivity].
        exists k, u. cbn [get]. rewrite beq_refl. reflexivity.
      - split; [discriminate|]. intros (? & ? & X). discriminate X. }
    rewrite X. split; intros (k & u & Y); exists k, u; [rewrite <- L1|rewrite L1]; exact Y.
Qed.
Print Assumptions C70_shown.

(** The text of creator/madkinsflash/creator.go 17-25 under the name of the example
    lookup, and the same with a blank line in the summary. *)
Definition flash_text : list bytes := [
  B "^madkins/flash^ is a clone of";
  B "the [^madkins/sloggy^ handler](/go-slog/handler/MadkinsSloggy.html)";
  B "with numerous performance improvements."].
Definition flash_links : gomap bytes := [
  (B "madkins/flash", B "https://pkg.go.dev/github.com/madkins23/go-slog/handlers/flash");
  (B "flash.Extras", B "https://pkg.go.dev/github.com/madkins23/go-slog/handlers/flash#Extras")].
Definition flash0 : creator := {| cr_name := B "flash"; cr_links := flash_links;
  cr_summary := match flash_text with
                | [a; b; c] => a ++ newline :: tab :: tab :: b ++ newline :: tab :: tab :: c
                | _ => []
                end |}.
Definition flash1 : creator := {| cr_name := B "flash"; cr_links := flash_links;
  cr_summary := match flash_text with
                | [a; b; c] => a ++ newline :: newline :: tab :: tab :: b ++ newline :: tab :: tab :: c
                | _ => []
                end |}.

Lemma clean_closed s : match s, rev s with
                       | a :: _, z :: _ => negb (white a) && negb (white z) && forallb (fun c => negb (Ascii.eqb c newline)) s
                       | _, _ => false
                       end = true -> clean s.
Proof.
  assert (NW : forall c, white c = false -> ~ whitespace c).
  { intros c Hc K. assert (X : white c = true).
    { apply existsb_exists. exists c. split; [exact K|apply Ascii.eqb_refl]. } congruence. }
  intros H. destruct s as [|a t] eqn:Es; [discriminate|]. rewrite <- Es in *. destruct (rev s) as [|z r] eqn:Er; [discriminate|].
  apply andb_prop in H. destruct H as [H H3]. apply andb_prop in H. destruct H as [H1 H2].
  apply negb_true_iff in H1, H2. split; [rewrite Es; discriminate|]. split; [|split].
  - intros K. rewrite forallb_forall in H3. apply H3 in K. rewrite Ascii.eqb_refl in K. discriminate.
  - intros c t' E. rewrite Es in E. injection E as <- _. apply NW, H1.
  - intros t' c E. rewrite E, rev_app_distr in Er. injection Er as -> _. apply NW, H2.
Qed.

Lemma no_arrow s : existsb (fun c => Ascii.eqb c (chr 62)) s = false -> forall a b, s <> a ++ B "-->" ++ b.
Proof.
  intros H a b E. assert (X : existsb (fun c => Ascii.eqb c (chr 62)) s = true).
  { apply existsb_exists. exists (chr 62). split; [rewrite E; apply in_or_app; right; cbn; auto|apply Ascii.eqb_refl]. }
  congruence.
Qed.

Lemma flash_said c : cr_name c = B "flash" -> cr_links c = flash_links -> said_ok (Intro c).
Proof.
  intros E1 E2. cbn [said_ok]. rewrite E1, E2.
  split; [apply clean_closed; vm_compute; reflexivity|]. split.
  - repeat (constructor; [split; [apply clean_closed; vm_compute; reflexivity|
                                  split; [apply clean_closed; vm_compute; reflexivity|apply no_arrow; vm_compute; reflexivity]]|]).
    constructor.
  - cbn [map fst flash_links]. repeat constructor; cbn [In]; intros K; repeat (destruct K as [K|K]; [discriminate K|]); exact K.
Qed.

Lemma run_said : said_ok (Talk (B "=== RUN   Test_slog_flash")).
Proof.
  split; [intros K; cbn in K; repeat (destruct K as [K|K]; [discriminate K|]); exact K|].
  intros a b Ha. assert (N : forall m x, In x (B "W:H") -> B "=== RUN   Test_slog_flash" <> a ++ (x :: m) ++ b).
  { intros m x Hx E. destruct a as [|c a].
    - cbn in E. injection E as <- _. cbn in Hx. repeat (destruct Hx as [Hx|Hx]; [discriminate Hx|]). exact Hx.
    - cbn in E. injection E as <- _. destruct (Ha _ (or_introl eq_refl)) as [K|K]; [|discriminate K].
      cbn in K. repeat (destruct K as [K|K]; [discriminate K|]). exact K. }
  split; [|split]; apply N; cbn; auto.
Qed.

(** The links come in either order; the summary loses its indentation; a blank line
    loses the rest of it and the links. *)
Example C70_introductions_ex :
  let outs := [B "=== RUN   Test_slog_flash" ++ [newline]; intro_head flash0 ++ intro_lines flash0 ++ intro_links (rev flash_links) ++ B ":]" ++ [newline]] in
  casing_ok (v_casing PropMerge.world0) /\
  Forall said_ok [Talk (B "=== RUN   Test_slog_flash"); Intro flash0] /\
  Forall2 says [Talk (B "=== RUN   Test_slog_flash"); Intro flash0] outs /\
  Forall (readable_report PropMerge.world0 PropMerge.lookup0) [(B "flash", PropMerge.report0)] /\
  short_lines (concat outs ++ reports_text [] [(B "flash", PropMerge.report0)]) /\
  introduced PropMerge.lookup0 [Talk (B "=== RUN   Test_slog_flash"); Intro flash0] (B "flash_handler") = Some flash0 /\
  summary_kept flash0 = below flash_text /\
  (forall k, link_kept flash0 k = get k flash_links) /\
  said_ok (Intro flash1) /\ summary_kept flash1 = B "^madkins/flash^ is a clone of" /\ (forall k, link_kept flash1 k = None).
Proof.
  intros outs. split; [exact PropReplace.casing0_ok|]. split; [|split; [|split; [|split; [|split; [|split; [|split; [|split; [|split]]]]]]]].
  - constructor; [exact run_said|]. constructor; [|constructor]. apply flash_said; reflexivity.
  - constructor; [reflexivity|]. constructor; [|constructor]. cbn [says]. unfold setup_suite. change (has_summary flash0) with true. cbv iota.
    exists (rev flash_links). split; [symmetry; apply Permutation_rev|reflexivity].
  - constructor; [exact PropMerge.readable0|constructor].
  - apply PropMerge.short_text. vm_compute. discriminate.
  - vm_compute. reflexivity.
  - vm_compute. reflexivity.
  - intros k. unfold link_kept. replace (one_paragraph (split_on newline (cr_summary flash0))) with true by (vm_compute; reflexivity).
    reflexivity.
  - apply flash_said; reflexivity.
  - vm_compute. reflexivity.
  - intros k. unfold link_kept. replace (one_paragraph (split_on newline (cr_summary flash1))) with false by (vm_compute; reflexivity).
    reflexivity.
Qed.

(** An introduction after a report instead: its last line is taken for an instance
    of the warning above it, filed under every key. *)
Theorem C70_late_block : exists c out,
  said_ok (Intro c) /\ says (Intro c) out /\
  readable_report PropMerge.world0 PropMerge.lookup0 (B "flash", PropMerge.report0) /\
  short_lines (reports_text [] [(B "flash", PropMerge.report0)] ++ out) /\
  exists w1 w', parse_warning_data PropMerge.world0 (B "Verify") PropMerge.lookup0 (reports_text [] [(B "flash", PropMerge.report0)]) no_data = Some (w1, false) /\
    parse_warning_data PropMerge.world0 (B "Verify") PropMerge.lookup0 (reports_text [] [(B "flash", PropMerge.report0)] ++ out) no_data = Some (w', false) /\
    length (instances_in (by_handler w1) (B "flash_handler") 2 (B "Duplicates")) = 2 /\
    map di_tag (instances_in (by_handler w') (B "flash_handler") 2 (B "Duplicates")) = [B "Double"; B "Big"; B ":]"].
Proof.
  exists flash0. eexists. split; [apply flash_said; reflexivity|]. split.
  { cbn [says]. unfold setup_suite. change (has_summary flash0) with true. cbv iota. exists flash_links. split; [apply Permutation_refl|reflexivity]. }
  split; [exact PropMerge.readable0|]. split; [apply PropMerge.short_text; vm_compute; discriminate|].
  do 2 eexists. split; [vm_compute; reflexivity|]. split; [vm_compute; reflexivity|]. split; vm_compute; reflexivity.
Qed.
Print Assumptions C70_late_block.
