(** What the patterns of the warning parser find in the lines of a report. *)

From Coq Require Import Ascii String List NArith Bool Arith Lia.
From Verif Require Import Bytes BytesProofs SpecText GoSort Regex RegexProofs RegexFirst Replace PropReplace Warnings WarnParser.
Import ListNotations.

(** ** Further rules *)

Lemma best_longest1 p b caps c t x : p c = true -> best b caps (skip p (c :: t)) (Some x) ->
  best (RSeq (rplus (RChr p)) b) caps (c :: t) (Some x).
Proof.
  intros Hc H. unfold rplus. apply best_assoc. intros prev. rewrite ms_chr. cbn [m_rest St]. rewrite Hc.
  change (RStar true (RChr p)) with (rstar (RChr p)). cbn [skip] in H. rewrite Hc in H.
  exact (best_longest p b caps t x H (Some c)).
Qed.

(** A word in a group. *)
Lemma best_run1_group p n b caps c t o : rejects p b -> p c = true ->
  best b ((n, span p (c :: t)) :: caps) (skip p (c :: t)) o ->
  best (RSeq (RGroup n (rplus (RChr p))) b) caps (c :: t) o.
Proof.
  intros R Hc H prev. rewrite ms_run1_group by exact R. cbn [m_rest St]. rewrite Hc.
  rewrite (St_eq (captured n _ _)), captured_run. cbn [captured m_rest m_caps m_prev]. rewrite eaten_rest. apply H.
Qed.

Lemma best_empty b caps s o : best b caps s o -> best (RSeq REmpty b) caps s o.
Proof. intros H prev. rewrite ms_empty. apply H. Qed.

Definition head_not (p : ascii -> bool) (s : bytes) : Prop := match s with c :: _ => p c = false | [] => True end.

Lemma skip_none' p s : head_not p s -> skip p s = s.
Proof. intros H. apply skip_none. exact H. Qed.

(** Does not end in whitespace. *)
Definition last_ok (s : bytes) : Prop := forall t c, s = t ++ [c] -> is_space c = false.

Lemma last_ok_suffix a b : last_ok (a ++ b) -> last_ok b.
Proof. intros H t c ->. apply (H (a ++ t)). apply app_assoc. Qed.

Lemma last_ok_not_space s : last_ok s -> s <> [] -> forallb is_space s = false.
Proof.
  intros H N. destruct (exists_last N) as (t & c & ->). rewrite forallb_app. cbn. rewrite (H t c eq_refl).
  rewrite andb_false_r. reflexivity.
Qed.

Lemma last_ok_cons c s : is_space c = false -> last_ok s -> last_ok (c :: s).
Proof.
  intros Hc H t d E. destruct t as [|x t]; cbn in E; injection E as -> E; [exact Hc|]. exact (H t d E).
Qed.

(** Text taken lazily up to the whitespace at the end. *)
Lemma best_lazy_tail n caps t : forallb is_dot t = true -> last_ok t ->
  best (RSeq (RGroup n lazy_dots) tail) caps t (Some ((n, t) :: caps, [])).
Proof.
  intros D L. rewrite <- (app_nil_r t) at 1. apply best_lazy; [exact D| |].
  - apply (best_tail ((n, t) :: caps) []).
  - intros t1 t2 E N. rewrite app_nil_r. pose proof (best_tail ((n, t1) :: caps) t2) as H.
    rewrite last_ok_not_space in H; [exact H| |exact N]. subst t. apply (last_ok_suffix t1 t2 L).
Qed.

(** A pattern that begins with other text. *)
Lemma best_lit_head w c b d t caps : is_space c = false -> is_space d = false -> c <> d ->
  best (RSeq ws (RSeq (rlit (c :: w)) b)) caps (d :: t) None.
Proof.
  intros Hc Hd N. apply best_run; [apply rejects_lit; exact Hc|]. cbn [skip]. rewrite Hd.
  apply best_lit. cbn [strip_lit]. destruct (Ascii.eqb c d) eqn:E; [|reflexivity].
  apply Ascii.eqb_eq in E. congruence.
Qed.

(** A word and then something that is neither whitespace nor part of it. *)
Definition word (f : bytes) : Prop := f <> [] /\ forallb is_nonspace f = true /\ without (chr 58) f = true.
Definition colon_or_end (r : bytes) : Prop := r = [] \/ exists t, r = chr 58 :: t.

Lemma word_head f r : word f -> head_not is_space (f ++ r).
Proof.
  intros (N & F & _). destruct f as [|c f]; [congruence|]. cbn in *. apply andb_true_iff in F.
  destruct F as [F _]. unfold is_nonspace in F. apply negb_true_iff in F. exact F.
Qed.

Lemma strip_word : forall w f r r', without (chr 58) w = true -> forallb is_nonspace f = true ->
  colon_or_end r -> strip_lit w (f ++ r) = Some r' -> head_not is_space r'.
Proof.
  induction w as [|c w IH]; intros f r r' W F C E; cbn in E.
  - injection E as <-. destruct f as [|d f].
    + destruct C as [-> | [t ->]]; [exact I|reflexivity].
    + cbn in *. apply andb_true_iff in F. destruct F as [F _]. apply negb_true_iff in F. exact F.
  - cbn in W. apply andb_true_iff in W. destruct W as [W1 W2]. destruct f as [|d f].
    + destruct C as [-> | [t ->]]; [discriminate|]. cbn in E. destruct (Ascii.eqb c (chr 58)) eqn:K; [|discriminate].
      cbn in W1. discriminate.
    + cbn in E, F. apply andb_true_iff in F. destruct F as [_ F]. destruct (Ascii.eqb c d); [|discriminate]. eauto.
Qed.

Lemma best_word_then_space w c b f r caps : is_space c = false -> without (chr 58) (c :: w) = true ->
  word f -> colon_or_end r -> rejects is_space b ->
  best (RSeq ws (RSeq (rlit (c :: w)) (RSeq ws1 b))) caps (f ++ r) None.
Proof.
  intros Hc W Hf Hr Rb. apply best_run; [apply rejects_lit; exact Hc|].
  rewrite skip_none' by (apply word_head; exact Hf). apply best_lit.
  destruct (strip_lit (c :: w) (f ++ r)) as [r'|] eqn:E; [|reflexivity].
  apply best_run1; [exact Rb|]. apply strip_word in E; try assumption; [|apply Hf].
  destruct r' as [|x r']; [reflexivity|]. cbn in E. rewrite E. reflexivity.
Qed.

(** ** Lines that are not headers *)

(** The three checks before the others. *)
Definition ordinary (line : bytes) : Prop :=
  line <> [] /\ find ptn_warnings_for line = None /\ matches ptn_by_warning line = false /\
  find ptn_summary_start line = None.

Lemma rejects_space_lit c w b : is_space c = false -> rejects is_space (RSeq (rlit (c :: w)) b).
Proof. apply rejects_lit. Qed.

Lemma ordinary_head c t : is_space c = false -> c <> "W"%char -> c <> "H"%char -> c <> ":"%char ->
  ordinary (c :: t).
Proof.
  intros S N1 N2 N3. split; [discriminate|]. split; [|split].
  - apply (find_best _ _ None). apply (best_lit_head (B "arnings") "W"%char); auto.
  - apply (matches_best _ _ None). apply (best_lit_head (B "andlers") "H"%char); auto.
  - apply (find_best _ _ None). apply (best_lit (B ":[")). cbn [B strip_lit list_ascii_of_string].
    destruct (Ascii.eqb ":"%char c) eqn:E; [|reflexivity]. apply Ascii.eqb_eq in E. congruence.
Qed.

Lemma ordinary_word f r : word f -> colon_or_end r -> ordinary (f ++ r).
Proof.
  intros Hf Hr. split; [|split; [|split]].
  - destruct Hf as [N _]. destruct f; [congruence|discriminate].
  - apply (find_best _ _ None). apply (best_word_then_space (B "arnings") "W"%char); auto.
    apply (rejects_space_lit "f"%char (B "or")). reflexivity.
  - apply (matches_best _ _ None). apply (best_word_then_space (B "andlers") "H"%char); auto.
    apply (rejects_space_lit "b"%char (B "y")). reflexivity.
  - apply (find_best _ _ None). apply (best_lit (B ":[")). cbn [B strip_lit list_ascii_of_string].
    destruct Hf as (N & F & W). destruct f as [|c f]; [congruence|]. cbn [app].
    destruct (Ascii.eqb ":"%char c) eqn:E; [|reflexivity]. apply Ascii.eqb_eq in E. subst c. cbn in W. discriminate.
Qed.

(** ** The single patterns *)

Lemma none_head c t : is_space c = false -> c <> "N"%char -> matches ptn_none (c :: t) = false.
Proof. intros S N. apply (matches_best _ _ None). apply (best_lit_head (B "one") "N"%char); auto. Qed.

Lemma none_word f r : word f -> colon_or_end r -> f <> B "None" -> matches ptn_none (f ++ r) = false.
Proof.
  intros Hf Hr N. apply (matches_best _ _ None).
  apply best_run; [apply (rejects_lit is_space "N"%char (B "one")); reflexivity|].
  rewrite skip_none' by (apply word_head; exact Hf). apply (best_lit (B "None")).
  destruct (strip_lit (B "None") (f ++ r)) as [r'|] eqn:E; [|reflexivity].
  assert (E' := E). apply strip_word in E; try assumption; [|reflexivity|apply Hf].
  pose proof (best_tail [] r') as T. destruct r' as [|c r'].
  - exfalso. apply strip_lit_iff in E'. rewrite app_nil_r in E'. destruct Hr as [-> | [t ->]].
    + rewrite app_nil_r in E'. congruence.
    + assert (K : without (chr 58) (f ++ chr 58 :: t) = true) by (rewrite E'; reflexivity).
      unfold without in K. rewrite forallb_app in K. cbn in K. rewrite andb_false_r in K. discriminate.
  - cbn [forallb] in T. cbn in E. rewrite E in T. exact T.
Qed.

Lemma none_none : matches ptn_none (B "None") = true.
Proof. reflexivity. Qed.

(** The level pattern: one word. *)
Lemma rejects_nonspace_tail : rejects is_nonspace tail.
Proof.
  intros [c p r] H. cbn [m_rest] in H. destruct r as [|x r]; [destruct H|].
  pose proof (best_tail c (x :: r) p) as T. cbn [forallb] in T. unfold is_nonspace in H. apply negb_true_iff in H.
  rewrite H in T. exact T.
Qed.

Lemma find_level_line s : s <> [] -> head_not is_space s ->
  exists f, find ptn_level s = (if forallb is_space (skip is_nonspace s) then Some f else None)
            /\ sub 1 f = span is_nonspace s.
Proof.
  intros N H.
  assert (K : best (RSeq ws (RSeq (RGroup 1 (rplus (RChr is_nonspace))) tail)) [] s
                (if forallb is_space (skip is_nonspace s) then Some ([(1, span is_nonspace s)], []) else None)).
  { apply best_run.
    - intros [c p r] Hs. cbn [m_rest] in Hs. destruct r as [|x r]; [destruct Hs|].
      rewrite ms_run1_group by apply rejects_nonspace_tail. cbn [m_rest]. unfold is_nonspace. rewrite Hs. reflexivity.
    - rewrite (skip_none' is_space s H). destruct s as [|c t]; [congruence|].
      apply best_run1_group; [apply rejects_nonspace_tail| |apply best_tail].
      cbn in H. unfold is_nonspace. rewrite H. reflexivity. }
  destruct (forallb is_space (skip is_nonspace s)).
  - eexists. split; [exact (find_best _ _ _ K)|]. reflexivity.
  - exists {| f_before := []; f_text := []; f_caps := [(1, span is_nonspace s)]; f_after := [] |}. split; [|reflexivity].
    exact (find_best _ _ _ K).
Qed.

(** ** Level names *)

Lemma encode_ascii r : (r < 128)%N -> utf8_encode r = [chr r].
Proof. intros Hr. unfold utf8_encode. apply N.ltb_lt in Hr. rewrite Hr. reflexivity. Qed.

Lemma chr_code c : chr (code c) = c.
Proof. apply ascii_N_embedding. Qed.

Lemma runes_ascii c s : (code c < 128)%N -> runes (c :: s) = code c :: runes s.
Proof.
  intros H. rewrite <- (chr_code c) at 1. change (chr (code c) :: s) with ([chr (code c)] ++ s).
  rewrite <- encode_ascii by exact H. apply runes_rune.
  unfold scalar. replace (N.ltb (code c) 55296) with true; [reflexivity|]. symmetry. apply N.ltb_lt. lia.
Qed.

Section Levels.
Variable cs : casing.
Hypothesis ok : casing_ok cs.

Lemma to_lower_cons c t : (code c < 128)%N ->
  to_lower cs (c :: t) = chr (ascii_lower (code c)) :: to_lower cs t.
Proof.
  intros H. unfold to_lower, map_runes. rewrite runes_ascii by exact H. cbn [map concat].
  rewrite lo_ascii by assumption. rewrite encode_ascii; [reflexivity|]. unfold ascii_lower.
  destruct (N.leb 65 (code c) && N.leb (code c) 90) eqn:E; [|exact H].
  apply andb_true_iff in E. rewrite !N.leb_le in E. lia.
Qed.

Lemma to_lower_ascii s : forallb (fun c => N.ltb (code c) 128) s = true ->
  to_lower cs s = map (fun c => chr (ascii_lower (code c))) s.
Proof.
  induction s as [|c s IH]; intros H; [reflexivity|]. cbn in H. apply andb_true_iff in H. destruct H as [H1 H2].
  rewrite to_lower_cons by (apply N.ltb_lt; exact H1). cbn [map]. rewrite IH by exact H2. reflexivity.
Qed.

Lemma parse_level_string l : In l level_order -> parse_level cs (level_string l) = Some l.
Proof.
  intros [<-|[<-|[<-|[<-|[]]]]]; unfold parse_level; rewrite to_lower_ascii by reflexivity; reflexivity.
Qed.

Lemma parse_level_brace t : parse_level cs ("{"%char :: t) = None.
Proof. unfold parse_level. rewrite to_lower_cons by reflexivity. reflexivity. Qed.
Lemma parse_level_plus t : parse_level cs ("+"%char :: t) = None.
Proof. unfold parse_level. rewrite to_lower_cons by reflexivity. reflexivity. Qed.

(** What the level check makes of a line. *)
Definition level_of (line : bytes) : option N :=
  match find ptn_level line with Some f => parse_level cs (sub 1 f) | None => None end.

Lemma level_of_name l : In l level_order -> level_of (level_string l) = Some l.
Proof.
  intros H. unfold level_of. destruct (find_level_line (level_string l)) as (f & E & S).
  - destruct H as [<-|[<-|[<-|[<-|[]]]]]; discriminate.
  - destruct H as [<-|[<-|[<-|[<-|[]]]]]; reflexivity.
  - assert (A : forallb is_space (skip is_nonspace (level_string l)) = true /\ span is_nonspace (level_string l) = level_string l).
    { destruct H as [<-|[<-|[<-|[<-|[]]]]]; split; reflexivity. }
    destruct A as [A1 A2]. rewrite A1 in E. rewrite E, S, A2. apply parse_level_string, H.
Qed.

Lemma level_of_brace t : level_of ("{"%char :: t) = None.
Proof.
  unfold level_of. destruct (find_level_line ("{"%char :: t)) as (f & E & S); [discriminate|reflexivity|].
  destruct (forallb is_space (skip is_nonspace ("{"%char :: t))); rewrite E; [|reflexivity]. rewrite S.
  apply parse_level_brace.
Qed.
Lemma level_of_plus t : level_of ("+"%char :: t) = None.
Proof.
  unfold level_of. destruct (find_level_line ("+"%char :: t)) as (f & E & S); [discriminate|reflexivity|].
  destruct (forallb is_space (skip is_nonspace ("+"%char :: t))); rewrite E; [|reflexivity]. rewrite S.
  apply parse_level_plus.
Qed.

Lemma span_word f r : forallb is_nonspace f = true -> head_not is_nonspace r ->
  span is_nonspace (f ++ r) = f /\ skip is_nonspace (f ++ r) = r.
Proof.
  intros F H. rewrite span_app, skip_app by exact F. destruct (skip_none is_nonspace r H) as [-> ->].
  rewrite app_nil_r. auto.
Qed.

Lemma level_of_word f : word f -> parse_level cs f = None -> level_of f = None.
Proof.
  intros (N & F & W) P. unfold level_of. destruct (find_level_line f) as (x & E & S).
  - exact N.
  - rewrite <- (app_nil_r f). apply word_head. split; [|split]; assumption.
  - destruct (span_word f [] F I) as [A1 A2]. rewrite app_nil_r in A1, A2. rewrite A2 in E. cbn [forallb] in E.
    rewrite E, S, A1. exact P.
Qed.

(** More than one word is no level. *)
Lemma level_of_words f t : f <> [] -> forallb is_nonspace f = true -> last_ok t -> t <> [] ->
  level_of (f ++ space :: t) = None.
Proof.
  intros N F L T. unfold level_of. destruct (find_level_line (f ++ space :: t)) as (x & E & S).
  - destruct f; discriminate.
  - destruct f as [|c f]; [congruence|]. cbn in *. apply andb_true_iff in F. destruct F as [F _].
    apply negb_true_iff in F. exact F.
  - destruct (span_word f (space :: t) F eq_refl) as [A1 A2]. rewrite A2 in E. cbn [forallb] in E.
    rewrite (last_ok_not_space t L T), andb_false_r in E. rewrite E. reflexivity.
Qed.
End Levels.

(** ** The header *)

Lemma find_header name : forallb is_dot name = true -> head_not is_space name -> name <> [] ->
  exists f, find ptn_warnings_for (B "Warnings for " ++ name ++ B ":") = Some f /\ sub 1 f = name.
Proof.
  intros D H N. eexists. split.
  - apply (find_best _ _ (Some ([(1, name)], []))).
    apply best_run; [apply (rejects_lit is_space "W"%char (B "arnings")); reflexivity|].
    change (skip is_space (B "Warnings for " ++ name ++ B ":")) with (B "Warnings" ++ B " for " ++ name ++ B ":").
    apply (best_lit_app (B "Warnings")).
    apply best_run1; [apply (rejects_lit is_space "f"%char (B "or")); reflexivity|].
    change (B " for " ++ name ++ B ":") with (" "%char :: B "for " ++ name ++ B ":").
    change (is_space " "%char) with true. cbv iota.
    change (skip is_space (" "%char :: B "for " ++ name ++ B ":")) with (B "for" ++ B " " ++ name ++ B ":").
    apply (best_lit_app (B "for")).
    change (B " " ++ name ++ B ":") with (" "%char :: name ++ B ":").
    apply best_longest1; [reflexivity|]. change (skip is_space (" "%char :: name ++ B ":")) with (skip is_space (name ++ B ":")).
    rewrite skip_none' by (destruct name; [congruence|exact H]).
    apply best_greedy; [exact D| |].
    + change (B ":") with (B ":" ++ []). apply (best_lit_app (B ":")). apply (best_tail [(1, name)] []).
    + intros t1 t2 E T _. destruct t1 as [|c t1]; [congruence|]. change (B ":") with [":"%char] in E.
      injection E as <- E. symmetry in E. apply app_eq_nil in E. destruct E as [-> ->].
      apply (best_lit (B ":")). reflexivity.
  - reflexivity.
Qed.

(** ** The warning line *)

Definition good_summary (s : bytes) : Prop :=
  forallb is_dot s = true /\ without (chr 93) s = true /\ head_not is_space s /\ last_ok s.

Lemma find_warning_line ds name rest summary :
  ds <> [] -> forallb is_digit ds = true -> forallb is_dot name = true -> good_summary summary ->
  rest = summary \/ rest = space :: summary ->
  exists f, find ptn_warning (ds ++ B " [" ++ name ++ B "]" ++ rest) = Some f /\ sub 1 f = name /\ sub 2 f = summary.
Proof.
  intros N D Dn (S1 & S2 & S3 & S4) R. eexists. split; [|split].
  - apply (find_best _ _ (Some ([(2, summary); (1, name)], []))).
    assert (Rsd : rejects is_space (RSeq (rplus (RChr is_digit)) (rcat [ws1; lit "["; RGroup 1 dots; lit "]"; ws; RGroup 2 lazy_dots; ws; REol]))).
    { unfold rplus. apply rejects_assoc, rejects_chr. intros c Hc. unfold is_space in Hc.
      destruct c as [[] [] [] [] [] [] [] []]; try discriminate Hc; reflexivity. }
    assert (Rds : rejects is_digit (RSeq ws1 (rcat [lit "["; RGroup 1 dots; lit "]"; ws; RGroup 2 lazy_dots; ws; REol]))).
    { unfold ws1, rplus. apply rejects_assoc, rejects_chr. intros c Hc. destruct c as [[] [] [] [] [] [] [] []]; try discriminate Hc; reflexivity. }
    apply best_run; [exact Rsd|].
    assert (Hd : head_not is_space (ds ++ B " [" ++ name ++ B "]" ++ rest)).
    { destruct ds as [|c ds]; [congruence|]. cbn in D |- *. apply andb_true_iff in D. destruct D as [D _].
      destruct c as [[] [] [] [] [] [] [] []]; try discriminate D; reflexivity. }
    rewrite skip_none' by exact Hd. apply best_run1; [exact Rds|].
    destruct ds as [|c ds]; [congruence|]. cbn [app]. cbn [forallb] in D. assert (D' := D). apply andb_true_iff in D'.
    destruct D' as [-> _]. change (c :: ds ++ B " [" ++ name ++ B "]" ++ rest) with ((c :: ds) ++ B " [" ++ name ++ B "]" ++ rest).
    rewrite skip_app by exact D. change (skip is_digit (B " [" ++ name ++ B "]" ++ rest)) with (" "%char :: "["%char :: name ++ B "]" ++ rest).
    apply best_run1; [apply (rejects_lit is_space "["%char []); reflexivity|].
    change (is_space " "%char) with true. cbv iota.
    change (skip is_space (" "%char :: "["%char :: name ++ B "]" ++ rest)) with (B "[" ++ name ++ B "]" ++ rest).
    apply (best_lit_app (B "[")). apply best_greedy; [exact Dn| |].
    + apply (best_lit_app (B "]")). apply best_longest.
      replace (skip is_space rest) with summary.
      * exact (best_lazy_tail 2 [(1, name)] summary S1 S4).
      * symmetry. destruct R as [-> | ->]; [|change (skip is_space (space :: summary)) with (skip is_space summary)];
          apply skip_none'; exact S3.
    + intros t1 t2 E T _. apply (best_lit (B "]")). destruct (strip_lit (B "]") t2) as [r|] eqn:K; [|reflexivity].
      exfalso. apply strip_lit_iff in K. subst t2. destruct t1 as [|x t1]; [congruence|].
      change (B "]") with [chr 93] in E. cbn [app] in E. injection E as _ E.
      assert (W : without (chr 93) rest = true).
      { destruct R as [-> | ->]; [exact S2|]. cbn. exact S2. }
      rewrite E in W. unfold without in W. rewrite forallb_app in W. cbn in W. rewrite andb_false_r in W. discriminate.
  - reflexivity.
  - reflexivity.
Qed.

Lemma warning_head c t : is_space c = false -> is_digit c = false -> find ptn_warning (c :: t) = None.
Proof.
  intros S D. apply (find_best _ _ None). apply best_run.
  - unfold digits1, rplus. apply rejects_assoc, rejects_chr. intros x Hx. destruct x as [[] [] [] [] [] [] [] []]; try discriminate Hx; reflexivity.
  - cbn [skip]. rewrite S. intros prev. unfold digits1, rplus. cbn [rcat]. rewrite ms_assoc, ms_chr. cbn [m_rest St].
    rewrite D. reflexivity.
Qed.

Lemma skip_word_head p f r : forallb is_nonspace f = true -> head_not is_space r -> head_not p r ->
  head_not is_space (skip p (f ++ r)).
Proof.
  intros F H P. induction f as [|c f IH]; cbn [app].
  - rewrite skip_none' by exact P. exact H.
  - cbn in F. apply andb_true_iff in F. destruct F as [F1 F2]. cbn [skip]. destruct (p c); [auto|].
    cbn. apply negb_true_iff in F1. exact F1.
Qed.

Lemma warning_word f r : word f -> colon_or_end r -> find ptn_warning (f ++ r) = None.
Proof.
  intros Hf Hr. apply (find_best _ _ None). apply best_run.
  - unfold digits1, rplus. apply rejects_assoc, rejects_chr. intros x Hx. destruct x as [[] [] [] [] [] [] [] []]; try discriminate Hx; reflexivity.
  - rewrite skip_none' by (apply word_head; exact Hf). apply best_run1.
    + unfold ws1, rplus. apply rejects_assoc, rejects_chr. intros x Hx. destruct x as [[] [] [] [] [] [] [] []]; try discriminate Hx; reflexivity.
    + destruct Hf as (N & F & W). pose proof (skip_word_head is_digit f r F) as K.
      destruct (f ++ r) as [|c t] eqn:E; [reflexivity|]. destruct (is_digit c) eqn:D; [|reflexivity].
      apply best_run1.
      * apply (rejects_lit is_space "["%char []). reflexivity.
      * destruct (skip is_digit (c :: t)) as [|x y] eqn:Ex; [reflexivity|].
        rewrite K; [reflexivity| |]; destruct Hr as [-> | [z ->]]; reflexivity.
Qed.

(** ** Log lines and further lines of text *)

Lemma log_head c t : is_space c = false -> c <> "{"%char -> matches ptn_log_line (c :: t) = false.
Proof. intros S N. apply (matches_best _ _ None). apply (best_lit_head [] "{"%char); auto. Qed.

Lemma log_brace t : matches ptn_log_line ("{"%char :: t) = true.
Proof.
  apply (matches_best _ _ (Some ([], t))). apply best_run; [apply (rejects_lit is_space "{"%char []); reflexivity|].
  change (skip is_space ("{"%char :: t)) with (B "{" ++ t). apply (best_lit_app (B "{")). apply best_done.
Qed.

Lemma extra_head c t : is_space c = false -> c <> "+"%char -> find ptn_extra (c :: t) = None.
Proof. intros S N. apply (find_best _ _ None). apply (best_lit_head [] "+"%char); auto. Qed.

Lemma find_extra t : forallb is_dot t = true -> last_ok t ->
  exists f, find ptn_extra ("+"%char :: t) = Some f /\ sub 1 f = t.
Proof.
  intros D L. eexists. split.
  - apply (find_best _ _ (Some ([(1, t)], []))). apply best_run; [apply (rejects_lit is_space "+"%char []); reflexivity|].
    change (skip is_space ("+"%char :: t)) with (B "+" ++ t). apply (best_lit_app (B "+")).
    exact (best_lazy_tail 1 [] t D L).
  - reflexivity.
Qed.

(** ** The instance line *)

Lemma rejects_space_group b : rejects is_space (RSeq (RGroup 1 (rplus (RChr is_nonspace))) b).
Proof.
  intros [c p r] H. cbn [m_rest] in H. destruct r as [|x r]; [destruct H|]. rewrite ms_group. unfold rplus.
  rewrite ms_chr. cbn [m_rest]. unfold is_nonspace at 1. rewrite H. reflexivity.
Qed.

Lemma find_instance f : word f -> exists x, find ptn_instance f = Some x /\ sub 1 x = f /\ sub 2 x = [].
Proof.
  intros Hf. destruct Hf as (N & F & W). eexists. split; [|split].
  - apply (find_best _ _ (Some ([(1, f)], []))). apply best_run; [apply rejects_space_group|].
    rewrite skip_none' by (rewrite <- (app_nil_r f); apply word_head; repeat split; assumption).
    rewrite <- (app_nil_r f) at 1. apply best_greedy1; [exact N|exact F| |].
    + apply best_opt_none; [|apply (best_tail [(1, f)] [])]. apply best_assoc. apply (best_lit (B ":")). reflexivity.
    + intros t1 t2 E T _. symmetry in E. apply app_eq_nil in E. destruct E. congruence.
  - reflexivity.
  - reflexivity.
Qed.

Lemma find_instance_text f t : word f -> t <> [] -> forallb is_dot t = true -> head_not is_space t -> last_ok t ->
  exists x, find ptn_instance (f ++ B ": " ++ t) = Some x /\ sub 1 x = f /\ sub 2 x = t.
Proof.
  intros (N & F & W) T D H L. eexists. split; [|split].
  - apply (find_best _ _ (Some ([(2, t); (1, f)], []))). apply best_run; [apply rejects_space_group|].
    rewrite skip_none' by (apply word_head; repeat split; assumption).
    apply best_greedy1; [exact N|exact F| |].
    + apply best_opt_some. apply best_assoc. change (B ": " ++ t) with (B ":" ++ space :: t).
      apply (best_lit_app (B ":")). apply best_assoc. apply best_longest.
      change (skip is_space (space :: t)) with (skip is_space t). rewrite skip_none' by exact H.
      apply best_assoc. rewrite <- (app_nil_r t) at 1. apply best_lazy; [exact D| |].
      * apply best_empty. apply (best_tail _ []).
      * intros t1 t2 E K. rewrite app_nil_r. apply best_empty. pose proof (best_tail [(2, t1); (1, f)] t2) as X.
        rewrite last_ok_not_space in X; [exact X| |exact K]. subst t. apply (last_ok_suffix t1 t2 L).
    + intros t1 t2 E K P. change (B ": " ++ t) with (":"%char :: " "%char :: t) in E.
      destruct t1 as [|x t1]; [congruence|]. cbn [app] in E. injection E as <- E.
      destruct t1 as [|y t1].
      * cbn in E. subst t2. apply best_opt_none.
        -- apply best_assoc. apply (best_lit (B ":")). reflexivity.
        -- pose proof (best_tail ((1, f ++ [":"%char]) :: []) (" "%char :: t)) as X. cbn [forallb] in X.
           rewrite (last_ok_not_space t L T), andb_false_r in X. exact X.
      * cbn in E. injection E as <- E. cbn in P. discriminate.
  - reflexivity.
  - reflexivity.
Qed.
