(** Properties of package gin: C27 (traffic lines), C28 (the writer reports or
    logs), C29 (prefixes and levels). *)

From Coq Require Import Ascii String List ZArith NArith Bool Arith Lia.
From Verif Require Import Bytes BytesProofs Slog Regex RegexProofs Gin GinProofs.
Import ListNotations.

(** ** Specification of traffic lines *)

Definition spaces (s : bytes) : Prop := forallb (fun c => Ascii.eqb c " ") s = true.
Definition no_bar (s : bytes) : Prop := without "|" s = true.

(** The fields of a traffic line. *)
Record fields : Type := {
  fd_code : bytes; fd_elapsed : bytes; fd_client : bytes; fd_request : option (bytes * bytes)
}.

(** [x] with spaces around it, itself neither beginning nor ending with one. *)
Definition padded (s x : bytes) : Prop :=
  exists a b, s = a ++ x ++ b /\ spaces a /\ spaces b /\ bare " " x.

(** Two words separated by blanks; the quotes of the second removed. *)
Definition request_of (x : bytes) (m u : bytes) : Prop :=
  exists w q q' , x = m ++ w ++ q ++ u ++ q' /\ blanks w /\ w <> [] /\
    forallb nonblank m = true /\ forallb nonblank (q ++ u ++ q') = true /\
    forallb (fun c => Ascii.eqb c quote) q = true /\ forallb (fun c => Ascii.eqb c quote) q' = true /\
    bare quote u.

(** A traffic line: four parts separated by bars; a number with blanks around it,
    two padded texts, and a request unless the last part is not two words. *)
Definition traffic_line (line : bytes) (f : fields) : Prop :=
  exists p0 p1 p2 p3 w w' x3,
    line = p0 ++ B "|" ++ p1 ++ B "|" ++ p2 ++ B "|" ++ p3 /\
    Forall no_bar [p0; p1; p2; p3] /\
    p0 = w ++ fd_code f ++ w' /\ blanks w /\ blanks w' /\
    forallb is_digit (fd_code f) = true /\ fd_code f <> [] /\
    (dec_value (fd_code f) < 2 ^ 63)%N /\
    padded p1 (fd_elapsed f) /\ padded p2 (fd_client f) /\ padded p3 x3 /\
    match fd_request f with
    | Some (m, u) => request_of x3 m u
    | None => forall m u, ~ request_of x3 m u
    end.

Definition attrs_of (f : fields) : list attr :=
  [(B "code", VInt64 (Z.of_N (dec_value (fd_code f))));
   (B "elapsed", VString (fd_elapsed f)); (B "client", VString (fd_client f))] ++
  match fd_request f with
  | Some (m, u) => [(B "method", VString m); (B "url", VString u)]
  | None => []
  end.

(** ** Lemmas *)

Lemma split_four s p0 p1 p2 p3 : split_on bar s = [p0; p1; p2; p3] <->
  s = p0 ++ B "|" ++ p1 ++ B "|" ++ p2 ++ B "|" ++ p3 /\ Forall no_bar [p0; p1; p2; p3].
Proof.
  split.
  - intros H. split.
    + rewrite <- (split_join bar s), H. reflexivity.
    + pose proof (split_without bar s) as F. rewrite H in F. exact F.
  - intros [-> F]. repeat match goal with H : Forall _ (_ :: _) |- _ => inversion H; clear H; subst end.
    change (B "|") with [bar]. cbn [app]. rewrite !split_app by assumption. rewrite split_plain by assumption.
    reflexivity.
Qed.

Lemma padded_trim s x : padded s x <-> trim space s = x.
Proof.
  rewrite trim_iff. unfold padded, spaces. split.
  - intros (a & b & -> & Ha & Hb & Hx). split; [exact Hx|]. exists a, b. auto.
  - intros [Hx (a & b & -> & Ha & Hb)]. exists a, b. auto.
Qed.

Lemma request_split x m u : request_of x m u <->
  exists u', re_split ptnSplit x = [m; u'] /\ trim quote u' = u.
Proof.
  split.
  - intros (w & q & q' & -> & Hw & Nw & Hm & Hu & Hq & Hq' & Bu). exists (q ++ u ++ q'). split.
    + apply split_two. exists w. auto.
    + apply trim_iff. split; [exact Bu|]. exists q, q'. auto.
  - intros (u' & H & T). apply split_two in H. destruct H as (w & -> & Hw & Nw & Hm & Hu).
    apply trim_iff in T. destruct T as [Bu (q & q' & -> & Hq & Hq')].
    exists w, q, q'. auto 8.
Qed.

Lemma code_unique w d w' v e v' : w ++ d ++ w' = v ++ e ++ v' ->
  blanks w -> blanks w' -> blanks v -> blanks v' ->
  forallb is_digit d = true -> forallb is_digit e = true -> d <> [] -> e <> [] -> d = e.
Proof.
  intros H Hw Hw' Hv Hv' Hd He Nd Ne.
  assert (A : forall w d w', blanks w -> blanks w' -> forallb is_digit d = true -> d <> [] ->
            span is_digit (skip is_space (w ++ d ++ w')) = d).
  { clear. intros w d w' Hw Hw' Hd Nd. rewrite skip_app by exact Hw.
    destruct (skip_none is_space (d ++ w')) as [-> _].
    - destruct d as [|c d]; [congruence|]. cbn in *. apply andb_true_iff in Hd. apply digit_space, Hd.
    - rewrite span_app by exact Hd. destruct (skip_none is_digit w') as [_ ->]; [|apply app_nil_r].
      destruct w' as [|c w']; [exact I|]. unfold blanks in Hw'. cbn in Hw'. apply andb_true_iff in Hw'.
      apply space_digit, Hw'. }
  rewrite <- (A w d w'), <- (A v e v') by assumption. rewrite H. reflexivity.
Qed.

(** ** C27 *)

(** Exactly the traffic lines are parsed, into exactly their fields. *)
Theorem C27_parse line attrs :
  parse line = POk attrs <-> exists f, traffic_line line f /\ attrs = attrs_of f.
Proof.
  unfold parse. split.
  - intros H. destruct (split_on bar line) as [|p0 [|p1 [|p2 [|p3 [|p4 ps]]]]] eqn:E; try discriminate.
    apply split_four in E. destruct E as [El F].
    pose proof (find_code p0) as C. destruct (find ptnCode p0) as [m|]; [|discriminate].
    destruct C as (w & w' & Hw & Hw' & Ep & Hd & Nd).
    unfold parse_int in H. destruct (N.leb_spec (digits_value (sub 1 m)) max_int64); [|discriminate].
    assert (V : (dec_value (sub 1 m) < 2 ^ 63)%N).
    { change (dec_value (sub 1 m)) with (digits_value (sub 1 m)). unfold max_int64 in *.
      change (2 ^ 63)%N with 9223372036854775808%N. lia. }
    assert (G : forall r, (match r with Some (a, u) => request_of (trim space p3) a u
                           | None => forall a u, ~ request_of (trim space p3) a u end) ->
      traffic_line line {| fd_code := sub 1 m; fd_elapsed := trim space p1; fd_client := trim space p2;
                           fd_request := r |}).
    { intros r Hr. exists p0, p1, p2, p3, w, w', (trim space p3). cbn.
      repeat split; try assumption; apply padded_trim; reflexivity. }
    destruct (re_split ptnSplit (trim space p3)) as [|a [|u [|x l]]] eqn:R.
    + injection H as <-. eexists. split; [apply (G None)|reflexivity].
      intros a u Hr. apply request_split in Hr. destruct Hr as (? & Hr & _). congruence.
    + injection H as <-. eexists. split; [apply (G None)|reflexivity].
      intros ? u Hr. apply request_split in Hr. destruct Hr as (? & Hr & _). congruence.
    + injection H as <-. eexists. split; [apply (G (Some (a, trim quote u)))|reflexivity].
      apply request_split. eauto.
    + injection H as <-. eexists. split; [apply (G None)|reflexivity].
      intros ? ? Hr. apply request_split in Hr. destruct Hr as (? & Hr & _). congruence.
  - intros (f & (p0 & p1 & p2 & p3 & w & w' & x3 & El & F & Ep & Hw & Hw' & Hd & Nd & V & P1 & P2 & P3 & R) & ->).
    assert (S4 : split_on bar line = [p0; p1; p2; p3]) by (apply split_four; auto). rewrite S4.
    pose proof (find_code p0) as C. destruct (find ptnCode p0) as [m|].
    + destruct C as (v & v' & Hv & Hv' & Ep' & He & Ne).
      assert (sub 1 m = fd_code f) as ->.
      { apply (code_unique v (sub 1 m) v' w (fd_code f) w'); auto. congruence. }
      unfold parse_int. replace (N.leb (digits_value (fd_code f)) max_int64) with true.
      2:{ symmetry. apply N.leb_le. change (digits_value (fd_code f)) with (dec_value (fd_code f)).
          change (2 ^ 63)%N with 9223372036854775808%N in V. unfold max_int64. lia. }
      apply padded_trim in P1, P2, P3. rewrite P1, P2, P3. unfold attrs_of.
      destruct (fd_request f) as [[a u]|].
      * apply request_split in R. destruct R as (u' & -> & <-). reflexivity.
      * destruct (re_split ptnSplit x3) as [|a [|u [|x l]]] eqn:E; try reflexivity.
        exfalso. apply (R a (trim quote u)). apply request_split. eauto.
    + exfalso. apply C. exists w, (fd_code f), w'. auto.
Qed.
Print Assumptions C27_parse.

(** In particular every line gin prints, with any padding, gives its fields back. *)
Theorem C27_round_trip code elapsed client method url w0 w1 a1 b1 a2 b2 a3 w b3 :
  (code < 2 ^ 63)%N ->
  blanks w0 -> blanks w1 -> no_bar w0 -> no_bar w1 ->
  spaces a1 -> spaces b1 -> spaces a2 -> spaces b2 -> spaces a3 -> spaces b3 ->
  no_bar elapsed -> bare " " elapsed -> no_bar client -> bare " " client ->
  no_bar method -> forallb nonblank method = true -> method <> [] ->
  spaces w -> w <> [] ->
  no_bar url -> forallb nonblank url = true -> bare quote url ->
  parse (w0 ++ dec_of_N code ++ w1 ++ B "|" ++ a1 ++ elapsed ++ b1 ++ B "|" ++ a2 ++ client ++ b2 ++ B "|" ++
         a3 ++ method ++ w ++ quote :: url ++ quote :: b3)
  = POk [(B "code", VInt64 (Z.of_N code)); (B "elapsed", VString elapsed); (B "client", VString client);
         (B "method", VString method); (B "url", VString url)].
Proof.
  intros Hc W0 W1 N0 N1 A1 B1 A2 B2 A3 B3 Ne Be Nc Bc Nm Hm Em Hw Ew Nu Hu Bu.
  apply C27_parse.
  exists {| fd_code := dec_of_N code; fd_elapsed := elapsed; fd_client := client; fd_request := Some (method, url) |}.
  split; [|unfold attrs_of; cbn [fd_code fd_elapsed fd_client fd_request]; rewrite dec_of_N_value; reflexivity].
  assert (Sb : forall s, spaces s -> no_bar s).
  { intros s H. unfold spaces, no_bar, without in *. rewrite forallb_forall in *. intros x Hx.
    apply H in Hx. apply Ascii.eqb_eq in Hx. subst. reflexivity. }
  assert (Sk : forall s, spaces s -> blanks s).
  { intros s H. unfold spaces, blanks in *. rewrite forallb_forall in *. intros x Hx.
    apply H in Hx. apply Ascii.eqb_eq in Hx. subst. reflexivity. }
  assert (App : forall a b, no_bar a -> no_bar b -> no_bar (a ++ b)).
  { intros a b H K. unfold no_bar, without in *. rewrite forallb_app, H, K. reflexivity. }
  assert (Nd : no_bar (dec_of_N code)).
  { unfold no_bar, without. pose proof (dec_of_N_digits code) as D. rewrite forallb_forall in *. intros x Hx.
    apply D in Hx. destruct (Ascii.eqb x "|") eqn:E; [|reflexivity]. apply Ascii.eqb_eq in E. subst. discriminate. }
  exists (w0 ++ dec_of_N code ++ w1), (a1 ++ elapsed ++ b1), (a2 ++ client ++ b2),
         (a3 ++ method ++ w ++ quote :: url ++ quote :: b3), w0, w1, (method ++ w ++ quote :: url ++ [quote]).
  cbn [fd_code fd_elapsed fd_client fd_request]. split; [rewrite <- ?app_assoc; reflexivity|].
  split; [|split; [reflexivity|split; [exact W0|split; [exact W1|split; [apply dec_of_N_digits|split; [|split]]]]]].
  - repeat constructor; auto 6.
    assert (no_bar [quote]) by reflexivity.
    change (quote :: url ++ quote :: b3) with ([quote] ++ url ++ [quote] ++ b3). auto 9.
  - destruct (dec_of_N_shape code) as [ -> |(c & t & -> & _)]; discriminate.
  - rewrite dec_of_N_value. exact Hc.
  - split; [exists a1, b1; auto|]. split; [exists a2, b2; auto|]. split.
    + exists a3, b3. split; [|split; [exact A3|split; [exact B3|split]]].
      * rewrite <- ?app_assoc. cbn [app]. rewrite <- ?app_assoc. reflexivity.
      * intros t H. destruct method as [|c method]; [congruence|]. injection H as -> _. discriminate.
      * intros t H. replace (method ++ w ++ quote :: url ++ [quote]) with ((method ++ w ++ quote :: url) ++ [quote]) in H
          by (rewrite <- ?app_assoc; reflexivity).
        apply app_inj_tail in H. destruct H as [_ H]. discriminate.
    + exists w, [quote], [quote]. repeat split; auto; try (apply Bu).
      rewrite !forallb_app, Hu. reflexivity.
Qed.
Print Assumptions C27_round_trip.

(** Anything without exactly three bars or without a number in front is rejected. *)
Theorem C27_bars line : length (filter (fun c => Ascii.eqb c "|") line) <> 3 ->
  exists text, parse line = PErr text.
Proof.
  intros H. destruct (parse line) as [attrs|text] eqn:E; [|eauto].
  apply C27_parse in E. destruct E as (f & (p0 & p1 & p2 & p3 & w & w' & x3 & -> & F & _) & _).
  exfalso. apply H. repeat match goal with H : Forall _ (_ :: _) |- _ => inversion H; clear H; subst end.
  assert (Z : forall p, no_bar p -> filter (fun c => Ascii.eqb c "|") p = []).
  { clear. induction p as [|c p IH]; intros H; [reflexivity|]. unfold no_bar, without in H. cbn in H.
    apply andb_true_iff in H. destruct H as [H1 H2]. cbn. apply negb_true_iff in H1. rewrite H1. auto. }
  rewrite !filter_app, (Z p0), (Z p1), (Z p2), (Z p3) by assumption. reflexivity.
Qed.
Print Assumptions C27_bars.

Theorem C27_code p0 rest : no_bar p0 ->
  (forall w d w', p0 = w ++ d ++ w' -> blanks w -> blanks w' -> d <> [] -> forallb is_digit d = false) ->
  exists text, parse (p0 ++ B "|" ++ rest) = PErr text.
Proof.
  intros Nb H. destruct (parse (p0 ++ B "|" ++ rest)) as [attrs|text] eqn:E; [|eauto].
  apply C27_parse in E. destruct E as (f & (q0 & p1 & p2 & p3 & w & w' & x3 & El & F & Ep & Hw & Hw' & Hd & Nd & _) & _).
  exfalso. assert (p0 = q0) as ->.
  { inversion F; subst. pose proof (split_app bar p0 rest Nb) as S1. change (bar :: rest) with (B "|" ++ rest) in S1.
    rewrite El in S1. change (B "|" ++ p1 ++ B "|" ++ p2 ++ B "|" ++ p3) with (bar :: p1 ++ B "|" ++ p2 ++ B "|" ++ p3) in S1.
    rewrite split_app in S1 by assumption. congruence. }
  specialize (H w (fd_code f) w' Ep Hw Hw' Nd). congruence.
Qed.
Print Assumptions C27_code.

(** ** Specification of tags *)

Inductive tag : Type := Gin | GinDebug | TagDebug | TagError | TagInfo | TagWarning.

Definition tag_text (t : tag) : bytes :=
  match t with
  | Gin => B "[GIN]" | GinDebug => B "[GIN-debug]"
  | TagDebug => B "[DEBUG]" | TagError => B "[ERROR]" | TagInfo => B "[INFO]" | TagWarning => B "[WARNING]"
  end.

(** The level a tag selects. *)
Definition tag_level (t : tag) : option Z :=
  match t with
  | Gin => None
  | GinDebug | TagDebug => Some LevelDebug
  | TagError => Some LevelError | TagInfo => Some LevelInfo | TagWarning => Some LevelWarn
  end.

(** The level after a list of tags: that of the last that selects one. *)
Fixpoint level_after (l : option leveler) (ts : list tag) : option leveler :=
  match ts with
  | [] => l
  | t :: ts' => level_after (match tag_level t with Some z => Some (Lev z) | None => l end) ts'
  end.

(** A line that begins with some tags, with blanks around them. *)
Inductive tagged : list tag -> bytes -> bytes -> Prop :=
| tagged_none s : tagged [] s s
| tagged_more t w w' ts s rest :
    blanks w -> blanks w' -> match s with c :: _ => is_space c = false | [] => True end ->
    tagged ts s rest -> tagged (t :: ts) (w ++ tag_text t ++ w' ++ s) rest.

(** A line that begins with a bracket closed on the same line. *)
Definition has_tag (s : bytes) : Prop := exists body r, bracketed s body r.
(** A line that begins with one of the tags. *)
Definition has_known (s : bytes) : Prop := exists t w r, blanks w /\ s = w ++ tag_text t ++ r.

(** ** The loop *)

Lemma skip_tag t w r : blanks w -> skip is_space (w ++ tag_text t ++ r) = tag_text t ++ r.
Proof. intros H. rewrite skip_app by exact H. destruct t; reflexivity. Qed.

Lemma find_gin s : find ptnGIN s = match strip_lit (B "[GIN]") (skip is_space s) with
  | Some r => Some {| f_before := []; f_text := firstn (length s - length (skip is_space r)) s;
                      f_caps := []; f_after := skip is_space r |}
  | None => None end.
Proof. exact (find_tag "["%char (B "GIN]") s eq_refl). Qed.

Lemma find_gin_debug s : find ptnGINdebug s = match strip_lit (B "[GIN-debug]") (skip is_space s) with
  | Some r => Some {| f_before := []; f_text := firstn (length s - length (skip is_space r)) s;
                      f_caps := []; f_after := skip is_space r |}
  | None => None end.
Proof. exact (find_tag "["%char (B "GIN-debug]") s eq_refl). Qed.

(** One tag is removed with the blanks around it. *)
Lemma strip_one n l t w r : blanks w ->
  strip (S n) l (w ++ tag_text t ++ r) =
  strip n (match tag_level t with Some z => Some (Lev z) | None => l end) (skip is_space r).
Proof.
  intros Hw. set (s := w ++ tag_text t ++ r).
  assert (Es : skip is_space s = tag_text t ++ r) by (apply skip_tag; exact Hw).
  cbn [strip]. rewrite find_gin, find_gin_debug, Es.
  destruct t; cbn [tag_text tag_level].
  - replace (strip_lit (B "[GIN]") (B "[GIN]" ++ r)) with (Some r) by (symmetry; apply strip_lit_iff; reflexivity).
    cbn [f_text]. rewrite (tag_rest (B "[GIN]")) by (rewrite Es; apply strip_lit_iff; reflexivity). reflexivity.
  - replace (strip_lit (B "[GIN]") (B "[GIN-debug]" ++ r)) with (@None bytes) by reflexivity.
    replace (strip_lit (B "[GIN-debug]") (B "[GIN-debug]" ++ r)) with (Some r) by (symmetry; apply strip_lit_iff; reflexivity).
    cbn [f_text]. rewrite (tag_rest (B "[GIN-debug]")) by (rewrite Es; apply strip_lit_iff; reflexivity). reflexivity.
  - replace (strip_lit (B "[GIN]") (B "[DEBUG]" ++ r)) with (@None bytes) by reflexivity.
    replace (strip_lit (B "[GIN-debug]") (B "[DEBUG]" ++ r)) with (@None bytes) by reflexivity.
    destruct (find_level_known s (B "DEBUG") LevelDebug r eq_refl Es) as (m & -> & -> & ->). reflexivity.
  - replace (strip_lit (B "[GIN]") (B "[ERROR]" ++ r)) with (@None bytes) by reflexivity.
    replace (strip_lit (B "[GIN-debug]") (B "[ERROR]" ++ r)) with (@None bytes) by reflexivity.
    destruct (find_level_known s (B "ERROR") LevelError r eq_refl Es) as (m & -> & -> & ->). reflexivity.
  - replace (strip_lit (B "[GIN]") (B "[INFO]" ++ r)) with (@None bytes) by reflexivity.
    replace (strip_lit (B "[GIN-debug]") (B "[INFO]" ++ r)) with (@None bytes) by reflexivity.
    destruct (find_level_known s (B "INFO") LevelInfo r eq_refl Es) as (m & -> & -> & ->). reflexivity.
  - replace (strip_lit (B "[GIN]") (B "[WARNING]" ++ r)) with (@None bytes) by reflexivity.
    replace (strip_lit (B "[GIN-debug]") (B "[WARNING]" ++ r)) with (@None bytes) by reflexivity.
    destruct (find_level_known s (B "WARNING") LevelWarn r eq_refl Es) as (m & -> & -> & ->). reflexivity.
Qed.

Lemma strip_tags ts s rest : tagged ts s rest -> forall n l,
  strip (length ts + n) l s = strip n (level_after l ts) rest.
Proof.
  induction 1; intros n l; [reflexivity|]. cbn [length plus]. rewrite strip_one by assumption.
  rewrite skip_app by assumption. destruct (skip_none is_space s H1) as [-> _].
  rewrite IHtagged. reflexivity.
Qed.

Lemma known_is_tag s : has_known s -> has_tag s.
Proof.
  intros (t & w & r & Hw & ->).
  destruct t;
  [exists (B "GIN"), r|exists (B "GIN-debug"), r|exists (B "DEBUG"), r|exists (B "ERROR"), r|exists (B "INFO"), r|
   exists (B "WARNING"), r]; exists w; (split; [exact Hw|split; reflexivity]).
Qed.

Lemma no_gin s : ~ has_known s -> find ptnGIN s = None /\ find ptnGINdebug s = None.
Proof.
  intros H. rewrite find_gin, find_gin_debug. split.
  - destruct (strip_lit (B "[GIN]") (skip is_space s)) as [r|] eqn:E; [|reflexivity].
    apply strip_lit_iff in E. exfalso. apply H. exists Gin, (span is_space s), r.
    split; [apply span_all|]. cbn [tag_text]. rewrite <- E. symmetry. apply span_skip.
  - destruct (strip_lit (B "[GIN-debug]") (skip is_space s)) as [r|] eqn:E; [|reflexivity].
    apply strip_lit_iff in E. exfalso. apply H. exists GinDebug, (span is_space s), r.
    split; [apply span_all|]. cbn [tag_text]. rewrite <- E. symmetry. apply span_skip.
Qed.

Lemma strip_stop n l s : (n = 0 \/ ~ has_tag s) -> strip n l s = inr (l, s).
Proof.
  intros [ -> |H]; [reflexivity|]. destruct n; [reflexivity|]. cbn [strip].
  destruct (no_gin s) as [-> ->]; [intros K; apply H, known_is_tag, K|].
  replace (find ptnLogLevel s) with (@None found); [reflexivity|]. symmetry. apply find_level_none. exact H.
Qed.

Lemma level_named_known name z : level_named name log_levels = Some z ->
  exists t, tag_text t = B "[" ++ name ++ B "]".
Proof.
  unfold log_levels. cbn [level_named].
  destruct (beq (B "DEBUG") name) eqn:E1; [apply beq_eq in E1; subst; exists TagDebug; reflexivity|].
  destruct (beq (B "ERROR") name) eqn:E2; [apply beq_eq in E2; subst; exists TagError; reflexivity|].
  destruct (beq (B "INFO") name) eqn:E3; [apply beq_eq in E3; subst; exists TagInfo; reflexivity|].
  destruct (beq (B "WARNING") name) eqn:E4; [apply beq_eq in E4; subst; exists TagWarning; reflexivity|].
  discriminate.
Qed.

Lemma strip_unknown n l s : has_tag s -> ~ has_known s ->
  exists body r, bracketed s body r /\ strip (S n) l s = inl (B "no level " ++ body).
Proof.
  intros H K. cbn [strip]. destruct (no_gin s K) as [-> ->].
  destruct (find ptnLogLevel s) as [m|] eqn:E.
  - apply find_level_some in E. destruct E as (r & Hb). exists (sub 1 m), r. split; [exact Hb|].
    destruct (level_named (sub 1 m) log_levels) as [z|] eqn:L; [|reflexivity].
    exfalso. apply K. apply level_named_known in L. destruct L as [t Ht].
    destruct Hb as (w & Hw & -> & _). exists t, w, r. split; [exact Hw|]. rewrite Ht, <- !app_assoc. reflexivity.
  - exfalso. apply find_level_none in E. apply E. exact H.
Qed.

Lemma has_tag_dec s : has_tag s \/ ~ has_tag s.
Proof.
  destruct (find ptnLogLevel s) as [m|] eqn:E.
  - left. apply find_level_some in E. destruct E as [r E]. exists (sub 1 m), r. exact E.
  - right. apply find_level_none. exact E.
Qed.

Lemma has_known_dec s : has_known s \/ ~ has_known s.
Proof.
  assert (D : forall t, (exists r, skip is_space s = tag_text t ++ r) \/ ~ (exists r, skip is_space s = tag_text t ++ r)).
  { intros t. destruct (strip_lit (tag_text t) (skip is_space s)) as [r|] eqn:E.
    - left. exists r. apply strip_lit_iff. exact E.
    - right. intros (r & H). apply strip_lit_iff in H. congruence. }
  assert (Y : forall t, (exists r, skip is_space s = tag_text t ++ r) -> has_known s).
  { intros t (r & H). exists t, (span is_space s), r. split; [apply span_all|]. rewrite <- H. symmetry. apply span_skip. }
  destruct (D Gin) as [H|H1]; [left; eapply Y, H|]. destruct (D GinDebug) as [H|H2]; [left; eapply Y, H|].
  destruct (D TagDebug) as [H|H3]; [left; eapply Y, H|]. destruct (D TagError) as [H|H4]; [left; eapply Y, H|].
  destruct (D TagInfo) as [H|H5]; [left; eapply Y, H|]. destruct (D TagWarning) as [H|H6]; [left; eapply Y, H|].
  right. intros (t & w & r & Hw & ->). rewrite skip_tag in * by exact Hw. destruct t; eauto.
Qed.

(** Every line is its tags, up to ten, followed by a rest without a tag. *)
Lemma tags_exist n : forall s, exists ts rest, tagged ts s rest /\ length ts <= n /\
  (length ts < n -> ~ has_known rest).
Proof.
  induction n as [|n IH]; intros s.
  - exists [], s. split; [apply tagged_none|]. split; [cbn; lia|]. intros K; cbn in K; lia.
  - destruct (has_known_dec s) as [(t & w & r & Hw & ->)|H].
    + destruct (IH (skip is_space r)) as (ts & rest & H1 & H2 & H3). exists (t :: ts), rest. repeat split.
      * rewrite <- (span_skip is_space r). constructor; [exact Hw|apply span_all|apply skip_head|exact H1].
      * cbn. lia.
      * cbn. intros K. apply H3. lia.
    + exists [], s. split; [apply tagged_none|]. split; [cbn; lia|auto].
Qed.

(** ** C28 *)

(** A write and the line it carries: newlines at the end dropped. *)
Definition line_of (p line : bytes) : Prop :=
  exists nl, p = line ++ nl /\ forallb (fun c => Ascii.eqb c newline) nl = true /\ forall t, line <> t ++ [newline].

Lemma line_of_trim p line : line_of p line -> trim_right newline p = line.
Proof. intros (nl & -> & H & N). rewrite trim_right_all by exact H. apply trim_right_none, N. Qed.

Lemma line_of_exists p : exists line, line_of p line.
Proof.
  destruct (trim_right_dec newline p) as (a & H1 & H2 & H3). exists (trim_right newline p), a. auto.
Qed.

Definition standard (l : option leveler) : Prop :=
  exists z, l = Some (Lev z) /\ In z [LevelDebug; LevelInfo; LevelWarn; LevelError].

Lemma send_standard l : match send l with
  | Some z => l = Some (Lev z) /\ standard l
  | None => ~ standard l
  end.
Proof.
  destruct l as [[z|t]|]; cbn [send].
  - destruct (Z.eqb z LevelDebug || Z.eqb z LevelError || Z.eqb z LevelInfo || Z.eqb z LevelWarn) eqn:E.
    + split; [reflexivity|]. exists z. split; [reflexivity|].
      rewrite !orb_true_iff, !Z.eqb_eq in E. cbn. intuition.
    + intros (z' & H & I). injection H as <-. rewrite !orb_false_iff, !Z.eqb_neq in E. cbn in I. intuition.
  - intros (z & H & _). discriminate.
  - intros (z & H & _). discriminate.
Qed.

(** The debugging record about a line that is not traffic. *)
Definition note (r : emitted) : Prop := e_level r = LevelDebug /\ e_msg r = B "gin traffic parse".

(** Every write either sends exactly one record, after at most the debugging
    record, and returns the full length, or returns zero and an error and sends
    nothing but that debugging record. *)
Theorem C28_reports w p :
  exists notes, Forall note notes /\ length notes <= 1 /\ (t_parse (g_traffic w) = false -> notes = []) /\
  ((exists r, w_records (gin_write w p) = notes ++ [r] /\ w_count (gin_write w p) = length p /\
              w_error (gin_write w p) = None /\ standard (Some (Lev (e_level r))))
   \/ (w_records (gin_write w p) = notes /\ w_count (gin_write w p) = 0 /\ w_error (gin_write w p) <> None)).
Proof.
  unfold gin_write. destruct (strip 10 (g_level w) (trim_right newline p)) as [err|[level msg]].
  { exists []. repeat split; [constructor|cbn; lia|]. right. cbn. repeat split. discriminate. }
  set (m := match find ptnTimePrefix msg with Some m => sub 1 m | None => msg end).
  assert (G : forall notes l m' args, Forall note notes -> length notes <= 1 ->
    (t_parse (g_traffic w) = false -> notes = []) ->
    exists notes', Forall note notes' /\ length notes' <= 1 /\ (t_parse (g_traffic w) = false -> notes' = []) /\
     let out := match send l with
      | Some z => {| w_records := notes ++ [{| e_level := z; e_msg := m'; e_args := args |}];
                     w_count := length p; w_error := None |}
      | None => {| w_records := notes; w_count := 0;
                   w_error := Some (B "unknown log level " ++ leveler_text (g_level w)) |} end in
     ((exists r, w_records out = notes' ++ [r] /\ w_count out = length p /\
              w_error out = None /\ standard (Some (Lev (e_level r))))
     \/ (w_records out = notes' /\ w_count out = 0 /\ w_error out <> None))).
  { intros notes l m' args F L T. exists notes. repeat split; try assumption. cbn zeta.
    pose proof (send_standard l) as S1. destruct (send l) as [z|]; cbn.
    - left. eexists. repeat split. cbn. destruct S1 as [E S1]. rewrite E in S1. exact S1.
    - right. repeat split. discriminate. }
  destruct (t_parse (g_traffic w)) eqn:T.
  - destruct (parse m) as [args|err].
    + apply G; [constructor|cbn; lia|reflexivity].
    + apply G; [constructor; [split; reflexivity|constructor]|cbn; lia|discriminate].
  - apply G; [constructor|cbn; lia|reflexivity].
Qed.
Print Assumptions C28_reports.

(** A line whose tags, fewer than ten, are followed by a bracketed word that is
    none of them is always refused, and nothing at all is sent. *)
Theorem C28_unknown_tag w p line ts rest :
  line_of p line -> tagged ts line rest -> length ts < 10 -> has_tag rest -> ~ has_known rest ->
  exists body r, bracketed rest body r /\
  gin_write w p = {| w_records := []; w_count := 0; w_error := Some (B "no level " ++ body) |}.
Proof.
  intros L T N H K. unfold gin_write. rewrite (line_of_trim _ _ L).
  replace 10 with (length ts + S (9 - length ts)) by lia. rewrite (strip_tags _ _ _ T).
  destruct (strip_unknown (9 - length ts) (level_after (g_level w) ts) rest H K) as (body & r & Hb & ->).
  exists body, r. auto.
Qed.
Print Assumptions C28_unknown_tag.

(** ** C29 *)

(** The message that remains: the time stamp taken off, if there is one. *)
Definition message_of (rest msg : bytes) : Prop :=
  timed rest msg \/ (forall o, ~ timed rest o) /\ msg = rest.

Lemma message_find rest msg : message_of rest msg ->
  match find ptnTimePrefix rest with Some m => sub 1 m | None => rest end = msg.
Proof.
  intros H. pose proof (find_time rest) as F. destruct (find ptnTimePrefix rest) as [m|].
  - destruct H as [H|[H _]]; [eapply timed_unique; eauto|]. exfalso. eapply H, F.
  - destruct H as [H|[_ H]]; [exfalso; eapply F, H|congruence].
Qed.

(** Every write has at most one reading. *)
Definition reading (p : bytes) (ts : list tag) (msg : bytes) : Prop :=
  exists line rest, line_of p line /\ tagged ts line rest /\ length ts <= 10 /\
                    (length ts < 10 -> ~ has_tag rest) /\ message_of rest msg.

Lemma reading_strip w p ts msg : reading p ts msg ->
  exists rest, strip 10 (g_level w) (trim_right newline p) = inr (level_after (g_level w) ts, rest) /\
  match find ptnTimePrefix rest with Some m => sub 1 m | None => rest end = msg.
Proof.
  intros (line & rest & L & T & N & H & M). exists rest. rewrite (line_of_trim _ _ L).
  replace 10 with (length ts + (10 - length ts)) by lia. rewrite (strip_tags _ _ _ T). split; [|apply message_find, M].
  apply strip_stop. destruct (Nat.eq_dec (length ts) 10); [left; lia|right; apply H; lia].
Qed.

(** Where nothing in the line selects a level and it is not parsed as traffic, a
    default level other than the four constants of slog makes the write fail. *)
Theorem C28_odd_default w p ts msg :
  reading p ts msg -> Forall (fun t => tag_level t = None) ts ->
  (t_parse (g_traffic w) = false \/ forall f, ~ traffic_line msg f) -> ~ standard (g_level w) ->
  Forall note (w_records (gin_write w p)) /\ w_count (gin_write w p) = 0 /\ w_error (gin_write w p) <> None.
Proof.
  intros R F Tp S0. destruct (reading_strip w p ts msg R) as (rest & E & M).
  unfold gin_write. rewrite E, M.
  replace (level_after (g_level w) ts) with (g_level w).
  - assert (S1 : send (g_level w) = None).
    { pose proof (send_standard (g_level w)) as S1. destruct (send (g_level w)); [tauto|reflexivity]. }
    destruct (t_parse (g_traffic w)).
    + destruct (parse msg) as [attrs|err] eqn:P.
      * exfalso. apply C27_parse in P. destruct P as (f & P & _). destruct Tp as [Tp|Tp]; [discriminate|].
        apply (Tp f P).
      * rewrite S1. cbn. repeat split; [|discriminate]. constructor; [split; reflexivity|constructor].
    + rewrite S1. cbn. repeat split; [constructor|discriminate].
  - clear -F. generalize (g_level w). induction F as [|t ts H F IH]; intros l; [reflexivity|].
    cbn. rewrite H. apply IH.
Qed.
Print Assumptions C28_odd_default.

(** The tags, up to ten, are removed and the last that selects a level decides. *)
Theorem C29_tags w p ts msg :
  reading p ts msg -> t_parse (g_traffic w) = false -> standard (level_after (g_level w) ts) ->
  exists z, level_after (g_level w) ts = Some (Lev z) /\
  gin_write w p = {| w_records := [{| e_level := z; e_msg := msg; e_args := [] |}];
                     w_count := length p; w_error := None |}.
Proof.
  intros R Tp S0. destruct (reading_strip w p ts msg R) as (rest & E & M).
  unfold gin_write. rewrite E, M, Tp. pose proof (send_standard (level_after (g_level w) ts)) as S1.
  destruct (send (level_after (g_level w) ts)) as [z|]; [|tauto]. exists z. split; [apply S1|reflexivity].
Qed.
Print Assumptions C29_tags.

(** Every write has a reading or is refused for an unknown tag. *)
Theorem C29_readings p :
  (exists ts msg, reading p ts msg) \/
  (exists line ts rest, line_of p line /\ tagged ts line rest /\ length ts < 10 /\ has_tag rest /\ ~ has_known rest).
Proof.
  destruct (line_of_exists p) as [line L]. destruct (tags_exist 10 line) as (ts & rest & T & N & K).
  destruct (Nat.eq_dec (length ts) 10) as [E|E].
  - left. assert (exists msg, message_of rest msg) as [msg M].
    { pose proof (find_time rest) as F. destruct (find ptnTimePrefix rest) as [m|]; [exists (sub 1 m)|exists rest];
        [left|right]; auto. }
    exists ts, msg, line, rest. repeat split; auto. intros; lia.
  - destruct (has_tag_dec rest) as [H|H].
    + right. exists line, ts, rest. repeat split; auto; [lia|apply K; lia].
    + left. assert (exists msg, message_of rest msg) as [msg M].
      { pose proof (find_time rest) as F. destruct (find ptnTimePrefix rest) as [m|]; [exists (sub 1 m)|exists rest];
          [left|right]; auto. }
      exists ts, msg, line, rest. repeat split; auto.
Qed.
Print Assumptions C29_readings.

(** The last tag that selects a level decides: [GIN-debug] counts as debug. *)
Theorem C29_last l before t after z : tag_level t = Some z -> Forall (fun u => u = Gin) after ->
  level_after l (before ++ t :: after) = Some (Lev z).
Proof.
  intros H F. revert l. induction before as [|b before IH]; intros l; cbn [app level_after]; [|apply IH].
  rewrite H. generalize (Some (Lev z)) as o. clear -F. induction F as [|u after E F IH]; intros o; [reflexivity|].
  subst. cbn. apply IH.
Qed.
Print Assumptions C29_last.

(** Traffic lines are logged at Info with the configured message, their fields
    in the configured group or embedded, whatever the tags and levels. *)
Theorem C29_traffic w p ts line f :
  reading p ts line -> traffic_line line f -> t_parse (g_traffic w) = true ->
  gin_write w p =
  {| w_records := [{| e_level := LevelInfo; e_msg := t_message (g_traffic w);
                      e_args := if t_embed (g_traffic w) then attrs_of f
                                else [(t_group (g_traffic w), VGroup (attrs_of f))] |}];
     w_count := length p; w_error := None |}.
Proof.
  intros R Tl Tp. destruct (reading_strip w p ts line R) as (rest & E & M).
  unfold gin_write. rewrite E, M, Tp.
  replace (parse line) with (POk (attrs_of f)) by (symmetry; apply C27_parse; eauto). reflexivity.
Qed.
Print Assumptions C29_traffic.

(** The configured traffic level is never used. *)
Theorem C29_traffic_level o lv p :
  gin_write (new_writer {| g_level := g_level o; g_traffic :=
     {| t_parse := t_parse (g_traffic o); t_embed := t_embed (g_traffic o); t_level := lv;
        t_message := t_message (g_traffic o); t_group := t_group (g_traffic o) |} |}) p
  = gin_write (new_writer o) p.
Proof.
  destruct o as [l [tp te tl tm tg]]. cbn. destruct tp; reflexivity.
Qed.
Print Assumptions C29_traffic_level.

(** The defaults. *)
Theorem C29_defaults o :
  g_level (new_writer o) = match g_level o with None => Some (Lev LevelInfo) | l => l end /\
  t_parse (g_traffic (new_writer o)) = t_parse (g_traffic o) /\ t_embed (g_traffic (new_writer o)) = t_embed (g_traffic o) /\
  (t_parse (g_traffic o) = true ->
   t_message (g_traffic (new_writer o)) =
     match t_message (g_traffic o) with [] => B "Gin Traffic" | m => m end /\
   (t_embed (g_traffic o) = false ->
    t_group (g_traffic (new_writer o)) =
      match t_group (g_traffic o) with [] => B "gin" | g => g end)).
Proof.
  destruct o as [l [tp te tl tm tg]]. cbn. split; [reflexivity|]. split; [now destruct tp|]. split; [now destruct tp|]. intros ->. cbn. split; [destruct tm; reflexivity|].
  intros ->. destruct tg; reflexivity.
Qed.
Print Assumptions C29_defaults.

(** ** Examples *)

Definition plain_writer : gin_options := new_writer {| g_level := None; g_traffic :=
  {| t_parse := false; t_embed := false; t_level := None; t_message := []; t_group := [] |} |}.
Definition traffic_writer : gin_options := new_writer {| g_level := None; g_traffic :=
  {| t_parse := true; t_embed := false; t_level := Some (Lev LevelWarn); t_message := []; t_group := [] |} |}.

Definition sample_line : bytes :=
  B "[GIN] 2024/01/26 - 13:21:32 | 200 |  5.529751605s |             ::1 | GET      " ++
  quote :: B "/chart.svg?tag=x" ++ [quote; newline].

Example C27_ex : parse (B " 200 |    9.5ms |    ::1 | GET      " ++ quote :: B "/a?b=c" ++ [quote])
  = POk [(B "code", VInt64 200); (B "elapsed", VString (B "9.5ms")); (B "client", VString (B "::1"));
         (B "method", VString (B "GET")); (B "url", VString (B "/a?b=c"))].
Proof. vm_compute. reflexivity. Qed.

(** The hypotheses of the round trip. *)
Example C27_ex_hyp : parse (B " " ++ dec_of_N 404 ++ B " " ++ B "|" ++ B "  " ++ B "1.5 s" ++ B " " ++ B "|" ++ B " " ++
   B "::1" ++ B " " ++ B "|" ++ B " " ++ B "POST" ++ B "     " ++ quote :: B "/x" ++ quote :: B " ")
  = POk [(B "code", VInt64 404); (B "elapsed", VString (B "1.5 s")); (B "client", VString (B "::1"));
         (B "method", VString (B "POST")); (B "url", VString (B "/x"))].
Proof.
  apply (C27_round_trip 404); try reflexivity; try discriminate;
    (split; intros t H; [discriminate|];
     apply (f_equal (@rev ascii)) in H; rewrite rev_app_distr in H; discriminate).
Qed.

(** A URL with a blank loses method and URL; one with a bar is not parsed; a code
    beyond the range of int64 is not parsed. *)
Example C27_ex_blank : parse (B "200 | 1s | ::1 | GET " ++ quote :: B "/a b" ++ [quote])
  = POk [(B "code", VInt64 200); (B "elapsed", VString (B "1s")); (B "client", VString (B "::1"))].
Proof. vm_compute. reflexivity. Qed.

Example C27_ex_bar : parse (B "200 | 1s | ::1 | GET " ++ quote :: B "/a|b" ++ [quote])
  = PErr (B "wrong number of parts: 5").
Proof. vm_compute. reflexivity. Qed.

Example C27_ex_range : exists t, parse (B "99999999999999999999 | 1s | ::1 | GET /") = PErr t.
Proof. eexists. vm_compute. reflexivity. Qed.

Example C28_ex_traffic : gin_write traffic_writer sample_line =
  {| w_records := [{| e_level := LevelInfo; e_msg := B "Gin Traffic";
       e_args := [(B "gin", VGroup [(B "code", VInt64 200); (B "elapsed", VString (B "5.529751605s"));
         (B "client", VString (B "::1")); (B "method", VString (B "GET"));
         (B "url", VString (B "/chart.svg?tag=x"))])] |}]; w_count := 98; w_error := None |}.
Proof. vm_compute. reflexivity. Qed.

Example C28_ex_note : map e_msg (w_records (gin_write traffic_writer (B "[GIN-debug] Listening on :8080")))
  = [B "gin traffic parse"; B "Listening on :8080"].
Proof. vm_compute. reflexivity. Qed.

(** The claim without its qualification is false: a message in brackets is lost,
    together with everything up to the last bracket on the line. *)
Example C28_ex_lost : gin_write plain_writer (B "[GIN] [recovered] index out of range [5] in main")
  = {| w_records := []; w_count := 0; w_error := Some (B "no level recovered] index out of range [5") |}.
Proof. vm_compute. reflexivity. Qed.

Example C28_ex_lost_hyp : tagged [Gin] (B "[GIN] [recovered] x") (B "[recovered] x") /\
  has_tag (B "[recovered] x") /\ ~ has_known (B "[recovered] x").
Proof.
  split; [|split].
  - apply (tagged_more Gin [] (B " ") [] (B "[recovered] x")); try reflexivity. constructor.
  - exists (B "recovered"), (B " x"), []. repeat split; reflexivity.
  - intros (t & w & r & Hw & E). destruct w as [|c w].
    + destruct t; discriminate.
    + injection E as <- _. discriminate.
Qed.

Example C28_ex_odd : w_error (gin_write (new_writer {| g_level := Some (Lev 2); g_traffic := g_traffic plain_writer |}) (B "hello"))
  = Some (B "unknown log level INFO+2") /\
  w_error (gin_write (new_writer {| g_level := Some (OtherLeveler (B "LevelVar(INFO)")); g_traffic := g_traffic plain_writer |}) (B "hello"))
  = Some (B "unknown log level LevelVar(INFO)") /\
  w_error (gin_write (new_writer {| g_level := Some (Lev 2); g_traffic := g_traffic plain_writer |}) (B "[INFO] hello")) = None.
Proof. vm_compute. repeat split; reflexivity. Qed.

Example C29_ex_tags : gin_write plain_writer (B " [GIN-debug] [WARNING]  Running in debug mode" ++ [newline; newline])
  = {| w_records := [{| e_level := LevelWarn; e_msg := B "Running in debug mode"; e_args := [] |}];
       w_count := 47; w_error := None |}.
Proof. vm_compute. reflexivity. Qed.

(** [GIN-debug] after a level tag makes it debug. *)
Example C29_ex_order : map e_level (w_records (gin_write plain_writer (B "[ERROR][GIN-debug] x"))) = [LevelDebug].
Proof. vm_compute. reflexivity. Qed.

(** Tags beyond the tenth stay in the message. *)
Example C29_ex_ten : map e_msg (w_records (gin_write plain_writer
    (B "[GIN][GIN][GIN][GIN][GIN][GIN][GIN][GIN][GIN][GIN][ERROR] x"))) = [B "[ERROR] x"] /\
  map e_level (w_records (gin_write plain_writer
    (B "[GIN][GIN][GIN][GIN][GIN][GIN][GIN][GIN][GIN][GIN][ERROR] x"))) = [LevelInfo].
Proof. vm_compute. split; reflexivity. Qed.

Example C29_ex_reading : reading (B "[GIN] [WARNING] x" ++ [newline]) [Gin; TagWarning] (B "x").
Proof.
  exists (B "[GIN] [WARNING] x"), (B "x"). split; [|split; [|split; [|split]]].
  - exists [newline]. repeat split. intros t H. apply (f_equal (@rev ascii)) in H. rewrite rev_app_distr in H. discriminate.
  - apply (tagged_more Gin [] (B " ") [TagWarning] (B "[WARNING] x")); try reflexivity.
    apply (tagged_more TagWarning [] (B " ") [] (B "x")); try reflexivity. constructor.
  - cbn. lia.
  - intros _ (body & r & w & Hw & E & _). destruct w as [|c w]; [discriminate|]. injection E as <- _. discriminate.
  - right. split; [|reflexivity]. pose proof (find_time (B "x")) as F.
    replace (find ptnTimePrefix (B "x")) with (@None found) in F by reflexivity. exact F.
Qed.

Example C29_ex_stamp : timed (B "2024/01/26 - 13:21:32 | 200 | x") (B "200 | x").
Proof.
  pose proof (find_time (B "2024/01/26 - 13:21:32 | 200 | x")) as F.
  remember (find ptnTimePrefix (B "2024/01/26 - 13:21:32 | 200 | x")) as o eqn:E. vm_compute in E. subst o. exact F.
Qed.
