(** The patterns of the benchmark parser on lines made of words. *)

From Coq Require Import Ascii String List NArith QArith Bool Arith Lia.
From Verif Require Import Bytes BytesProofs GoSort Regex RegexProofs RegexFirst Warnings WarnParser Bench.
Import ListNotations.
Local Open Scope list_scope.

(** ** A numeral followed by whitespace *)

Definition spaces (w : bytes) : Prop := w <> [] /\ forallb is_space w = true.
Definition no_space (s : bytes) : Prop := match s with c :: _ => is_space c = false | [] => True end.

(** [d] matches exactly the texts in [num]. *)
Record numeral (d : re) (num : bytes -> Prop) : Prop := {
  num_sound : forall s s', derives d s s' ->
    exists x, m_rest s = x ++ m_rest s' /\ num x /\ m_caps s' = m_caps s;
  num_complete : forall x caps prev r, num x -> exists p', derives d (St caps prev (x ++ r)) (St caps p' r);
  num_word : forall x, num x -> forallb is_nonspace x = true
}.

Lemma captured_suffix n x s s' : m_rest s = x ++ m_rest s' ->
  captured n s s' = St ((n, x) :: m_caps s') (m_prev s') (m_rest s').
Proof.
  intros H. unfold captured, St. rewrite H, app_length, Nat.add_sub, firstn_app, Nat.sub_diag, firstn_O, app_nil_r, firstn_all.
  reflexivity.
Qed.

Lemma spaces_skip w r : spaces w -> no_space r -> skip is_space (w ++ r) = r.
Proof. intros [_ F] N. rewrite skip_app by exact F. apply (proj1 (skip_none is_space r N)). Qed.

Lemma ws1_ok b caps w r o : rejects is_space b -> spaces w -> no_space r -> best b caps r o ->
  best (RSeq ws1 b) caps (w ++ r) o.
Proof.
  intros R S N H. unfold ws1. apply best_run1; [exact R|]. pose proof (spaces_skip w r S N) as E.
  destruct S as [S1 S2]. destruct w as [|c w]; [congruence|]. cbn [app] in *. cbn [forallb] in S2.
  apply andb_true_iff in S2. destruct S2 as [S2 _]. rewrite S2, E. exact H.
Qed.

Lemma ws1_no b caps r : no_space r -> forall prev, ms (RSeq ws1 b) (St caps prev r) = [].
Proof.
  intros N prev. unfold ws1, rplus. rewrite ms_assoc, ms_chr. cbn [m_rest St]. destruct r as [|c r]; [reflexivity|].
  cbn in N. rewrite N. reflexivity.
Qed.

(** Two splits of a text into a word and something that begins with whitespace. *)
Lemma word_split (x t1 s1 t2 : bytes) : forallb is_nonspace x = true -> forallb is_nonspace t1 = true ->
  (exists c r, s1 = c :: r /\ is_space c = true) -> x ++ t2 = t1 ++ s1 ->
  (x = t1 /\ t2 = s1) \/ no_space t2.
Proof.
  revert t1. induction x as [|c x IH]; intros t1 F1 F2 (d & r & -> & Hd) E.
  - cbn [app] in E. subst t2. destruct t1 as [|e t1]; [left; split; reflexivity|]. right. cbn.
    cbn in F2. apply andb_true_iff in F2. destruct F2 as [F2 _]. unfold is_nonspace in F2.
    apply negb_true_iff in F2. exact F2.
  - destruct t1 as [|e t1].
    + cbn [app] in E. injection E as -> E. cbn in F1. apply andb_true_iff in F1. destruct F1 as [F1 _].
      unfold is_nonspace in F1. rewrite Hd in F1. discriminate.
    + cbn [app] in E. injection E as -> E. cbn in F1, F2. apply andb_true_iff in F1, F2.
      destruct (IH t1 (proj2 F1) (proj2 F2)) as [[-> ->]|N]; [eauto|exact E|left; split; reflexivity|right; exact N].
Qed.

Section Numeral.
Variables (d : re) (num : bytes -> Prop).
Hypothesis D : numeral d num.

Lemma numeral_spaces n b caps tok w r o : rejects is_space b ->
  num tok -> spaces w -> no_space r -> best b ((n, tok) :: caps) r o ->
  best (RSeq (RGroup n d) (RSeq ws1 b)) caps (tok ++ w ++ r) o.
Proof.
  intros R T S N H prev. rewrite ms_group.
  pose proof (ws1_ok b ((n, tok) :: caps) w r o R S N H) as W.
  assert (Wc : exists c q, w ++ r = c :: q /\ is_space c = true).
  { destruct S as [S1 S2]. destruct w as [|c w]; [congruence|]. cbn in S2. apply andb_true_iff in S2.
    exists c, (w ++ r). split; [reflexivity|apply S2]. }
  assert (A : forall s', In s' (ms d (St caps prev (tok ++ w ++ r))) ->
            ms (RSeq ws1 b) (captured n (St caps prev (tok ++ w ++ r)) s') = [] \/
            exists p, captured n (St caps prev (tok ++ w ++ r)) s' = St ((n, tok) :: caps) p (w ++ r)).
  { intros s' I. apply ms_iff in I. destruct (num_sound d num D _ _ I) as (x & E & Nx & C).
    rewrite (captured_suffix n x _ s' E). cbn [m_rest St m_caps] in *. rewrite C.
    destruct (word_split x tok (w ++ r) (m_rest s') (num_word d num D x Nx) (num_word d num D tok T) Wc (eq_sym E))
      as [[-> ->]|Z].
    - right. eexists. reflexivity.
    - left. apply ws1_no. exact Z. }
  destruct (num_complete d num D tok caps prev (w ++ r) T) as (p' & I). apply ms_iff in I.
  revert A I. generalize (ms d (St caps prev (tok ++ w ++ r))). intros L A I.
  destruct o as [[c' r']|].
  - induction L as [|s0 L IH]; [destruct I|]. cbn [flat_map].
    destruct (A s0 (or_introl eq_refl)) as [E|(p & E)].
    + rewrite E. cbn [app]. destruct I as [I|I].
      * exfalso. subst s0. rewrite captured_St in E. destruct (W p') as (p1 & l & W'). pose proof (eq_trans (eq_sym E) W'). discriminate.
      * apply IH; [|exact I]. intros s' I'. apply A. right. exact I'.
    + rewrite E. destruct (W p) as (p1 & l & ->). exists p1. eexists. reflexivity.
  - clear I. induction L as [|s0 L IH]; [reflexivity|]. cbn [flat_map].
    destruct (A s0 (or_introl eq_refl)) as [E|(p & E)].
    + rewrite E. cbn [app]. apply IH. intros s' I'. apply A. right. exact I'.
    + rewrite E, (W p). cbn [app]. apply IH. intros s' I'. apply A. right. exact I'.
Qed.

(** A word that is no numeral, or is not followed by whitespace. *)
Lemma numeral_none n b caps tok s : ~ num tok -> forallb is_nonspace tok = true ->
  (exists c r, s = c :: r /\ is_space c = true) ->
  best (RSeq (RGroup n d) (RSeq ws1 b)) caps (tok ++ s) None.
Proof.
  intros T F W prev. rewrite ms_group.
  assert (A : forall s', In s' (ms d (St caps prev (tok ++ s))) ->
            ms (RSeq ws1 b) (captured n (St caps prev (tok ++ s)) s') = []).
  { intros s' I. apply ms_iff in I. destruct (num_sound d num D _ _ I) as (x & E & Nx & C).
    rewrite (captured_suffix n x _ s' E). cbn [m_rest St m_caps] in *.
    destruct (word_split x tok s (m_rest s') (num_word d num D x Nx) F W (eq_sym E)) as [[-> _]|Z]; [contradiction|].
    apply ws1_no. exact Z. }
  revert A. generalize (ms d (St caps prev (tok ++ s))). intros L A.
  induction L as [|s0 L IH]; [reflexivity|]. cbn [flat_map]. rewrite A by (left; reflexivity). apply IH.
  intros s' I. apply A. right. exact I.
Qed.

Lemma numeral_end n b caps tok : forallb is_nonspace tok = true ->
  best (RSeq (RGroup n d) (RSeq ws1 b)) caps tok None.
Proof.
  intros F prev. rewrite ms_group.
  assert (A : forall s', In s' (ms d (St caps prev tok)) ->
            ms (RSeq ws1 b) (captured n (St caps prev tok) s') = []).
  { intros s' I. apply ms_iff in I. destruct (num_sound d num D _ _ I) as (x & E & Nx & C).
    rewrite (captured_suffix n x _ s' E). cbn [m_rest St m_caps] in *. apply ws1_no. subst tok.
    rewrite forallb_app in F. apply andb_true_iff in F. destruct F as [_ F]. destruct (m_rest s') as [|c r]; [exact Logic.I|].
    cbn in *. apply andb_true_iff in F. destruct F as [F _]. unfold is_nonspace in F. apply negb_true_iff in F. exact F. }
  revert A. generalize (ms d (St caps prev tok)). intros L A.
  induction L as [|s0 L IH]; [reflexivity|]. cbn [flat_map]. rewrite A by (left; reflexivity). apply IH.
  intros s' I. apply A. right. exact I.
Qed.
End Numeral.

(** ** The two numerals *)

Definition is_int (s : bytes) : Prop := s <> [] /\ forallb is_digit s = true.
Definition is_decimal (s : bytes) : Prop := is_int s \/ exists a b, s = a ++ B "." ++ b /\ is_int a /\ is_int b.

Lemma digit_nonspace c : is_digit c = true -> is_nonspace c = true.
Proof. destruct c as [[] [] [] [] [] [] [] []]; vm_compute; congruence. Qed.
Lemma digits_word s : forallb is_digit s = true -> forallb is_nonspace s = true.
Proof. intros H. rewrite forallb_forall in *. intros c I. apply digit_nonspace, H, I. Qed.

Lemma chr_inv p s s' : derives (RChr p) s s' -> exists c t, m_rest s = c :: t /\ p c = true /\ s' = adv c t s.
Proof. inversion 1; subst. eauto. Qed.
Lemma seq_inv a b s s' : derives (RSeq a b) s s' -> exists s1, derives a s s1 /\ derives b s1 s'.
Proof. inversion 1; subst. eauto. Qed.
Lemma empty_inv s s' : derives REmpty s s' -> s' = s.
Proof. inversion 1; subst. reflexivity. Qed.
Lemma alt_inv a b s s' : derives (RAlt a b) s s' -> derives a s s' \/ derives b s s'.
Proof. inversion 1; auto. Qed.

Lemma star_sound g p s s' : derives (RStar g (RChr p)) s s' ->
  exists x, m_rest s = x ++ m_rest s' /\ forallb p x = true /\ m_caps s' = m_caps s.
Proof.
  intros H. remember (RStar g (RChr p)) as r eqn:E. induction H; try discriminate.
  - exists []. auto.
  - injection E as -> ->. clear IHderives1. destruct (chr_inv _ _ _ H) as (c & t & Hr & Hp & ->). cbn [m_rest m_caps adv] in *.
    destruct (IHderives2 eq_refl) as (x & E & F & C). exists (c :: x). rewrite Hr, E. cbn. rewrite Hp, F. auto.
Qed.

Lemma plus_sound p s s' : derives (rplus (RChr p)) s s' ->
  exists x, m_rest s = x ++ m_rest s' /\ (x <> [] /\ forallb p x = true) /\ m_caps s' = m_caps s.
Proof.
  intros H. destruct (seq_inv _ _ _ _ H) as (s1 & H1 & H2). destruct (chr_inv _ _ _ H1) as (c & t & Hr & Hp & ->).
  destruct (star_sound _ _ _ _ H2) as (x & E & F & C).
  cbn [m_rest m_caps adv] in *. exists (c :: x). rewrite Hr, E. cbn. rewrite Hp, F. repeat split; congruence.
Qed.

Lemma star_complete g p x : forall caps prev r, forallb p x = true ->
  exists p', derives (RStar g (RChr p)) (St caps prev (x ++ r)) (St caps p' r).
Proof.
  induction x as [|c x IH]; intros caps prev r F.
  - exists prev. constructor.
  - cbn in F. apply andb_true_iff in F. destruct F as [Fc F]. destruct (IH caps (Some c) r F) as (p' & H).
    exists p'. eapply d_star1; [apply (d_chr p (St caps prev ((c :: x) ++ r)) c (x ++ r)); [reflexivity|exact Fc]| |exact H].
    cbn. lia.
Qed.

Lemma plus_complete p x caps prev r : x <> [] -> forallb p x = true ->
  exists p', derives (rplus (RChr p)) (St caps prev (x ++ r)) (St caps p' r).
Proof.
  intros N F. destruct x as [|c x]; [congruence|]. cbn in F. apply andb_true_iff in F. destruct F as [Fc F].
  destruct (star_complete true p x caps (Some c) r F) as (p' & H). exists p'.
  eapply d_seq; [apply (d_chr p (St caps prev ((c :: x) ++ r)) c (x ++ r)); [reflexivity|exact Fc]|exact H].
Qed.

Lemma int_numeral : numeral digits1 is_int.
Proof.
  split.
  - intros s s' H. apply plus_sound in H. exact H.
  - intros x caps prev r [N F]. apply plus_complete; assumption.
  - intros x [_ F]. apply digits_word, F.
Qed.

Lemma lit_one c : rlit [c] = RSeq (RChr (is_char c)) REmpty.
Proof. reflexivity. Qed.

Lemma decimal_numeral : numeral number is_decimal.
Proof.
  split.
  - intros s s' H. destruct (seq_inv _ _ _ _ H) as (s1 & H1 & H2). destruct (plus_sound _ _ _ H1) as (x & E & F & C).
    destruct (alt_inv _ _ _ _ H2) as [H3|H3].
    + destruct (seq_inv _ _ _ _ H3) as (s2 & H4 & H5). change (lit ".") with (RSeq (RChr (is_char "."%char)) REmpty) in H4.
      destruct (seq_inv _ _ _ _ H4) as (s3 & H6 & H7). apply empty_inv in H7. subst s3.
      destruct (chr_inv _ _ _ H6) as (c & t & Hr & Hp & ->).
      destruct (plus_sound _ _ _ H5) as (y & E' & F' & C').
      cbn [m_rest m_caps adv] in *. exists (x ++ B "." ++ y). unfold is_char in Hp. apply Ascii.eqb_eq in Hp. subst c.
      rewrite E, Hr, E'. rewrite <- !app_assoc. cbn. split; [reflexivity|]. split; [|congruence].
      right. exists x, y. auto.
    + apply empty_inv in H3. subst s'. exists x. split; [exact E|]. split; [left; exact F|exact C].
  - intros x caps prev r [[N F]|(a & b & -> & [N1 F1] & [N2 F2])].
    + destruct (plus_complete is_digit x caps prev r N F) as (p' & H). exists p'.
      eapply d_seq; [exact H|]. apply d_right, d_empty.
    + rewrite <- !app_assoc. destruct (plus_complete is_digit a caps prev (B "." ++ b ++ r) N1 F1) as (p1 & H1).
      destruct (plus_complete is_digit b caps (Some "."%char) r N2 F2) as (p2 & H2). exists p2.
      eapply d_seq; [exact H1|]. apply d_left. eapply d_seq; [|exact H2].
      eapply d_seq; [apply (d_chr _ (St caps p1 (B "." ++ b ++ r)) "."%char (b ++ r)); reflexivity|apply d_empty].
  - intros x [[_ F]|(a & b & -> & [_ F1] & [_ F2])]; [apply digits_word, F|].
    rewrite !forallb_app, (digits_word a F1), (digits_word b F2). reflexivity.
Qed.

Lemma int_decimal x : is_int x -> is_decimal x.
Proof. left. assumption. Qed.

(** ** Searching *)

Lemma search_skip r a : forall before prev s,
  (forall a1 c a2 p, a = a1 ++ c :: a2 -> ms r (St [] p (c :: a2 ++ s)) = []) ->
  exists prev', search r before prev (a ++ s) = search r (before ++ a) prev' s.
Proof.
  induction a as [|c a IH]; intros before prev s H.
  - exists prev. rewrite app_nil_r. reflexivity.
  - cbn [app search]. pose proof (H [] c a prev eq_refl) as E. unfold St in E. rewrite E.
    destruct (IH (before ++ [c]) (Some c) s) as (p' & E').
    + intros a1 d a2 p ->. apply (H (c :: a1) d a2 p). reflexivity.
    + exists p'. rewrite E', <- app_assoc. reflexivity.
Qed.

(** The text up to a differing character. *)
Fixpoint clash (w s : bytes) : bool :=
  match w, s with
  | c :: w', d :: s' => if Ascii.eqb c d then clash w' s' else true
  | _, _ => false
  end.
Lemma clash_strip w : forall s r, clash w s = true -> strip_lit w (s ++ r) = None.
Proof.
  induction w as [|c w IH]; intros [|d s] r; cbn; try discriminate. destruct (Ascii.eqb c d); [apply IH|reflexivity].
Qed.

(** What must follow the unit: nothing in particular, or a word boundary. *)
Inductive ending : re -> (bytes -> bytes -> bool) -> Prop :=
| end_any : ending REmpty (fun _ _ => true)
| end_word : ending (RSeq RWord REmpty)
    (fun w r => xorb (word_at (after_lit w None)) (word_at (hd_error r))).

Lemma after_lit_some w c p p' : after_lit (w ++ [c]) p = after_lit (w ++ [c]) p'.
Proof. revert p p'. induction w as [|d w IH]; intros p p'; cbn; [reflexivity|apply IH]. Qed.

Lemma ending_best e ok w c caps r : ending e ok -> ok (w ++ [c]) r = true ->
  best (RSeq (rlit (w ++ [c])) e) caps ((w ++ [c]) ++ r) (Some (caps, r)).
Proof.
  intros E K prev. rewrite ms_lit. cbn [m_rest St]. rewrite strip_app. cbn [m_caps m_prev]. inversion E; subst.
  - cbn. eexists. exists []. reflexivity.
  - cbn [St m_caps m_prev]. rewrite (after_lit_some w c prev None). cbn [ms]. cbn [m_prev m_rest]. rewrite K. cbn.
    eexists. exists []. reflexivity.
Qed.

(** A line as words, each preceded by whitespace. *)
Definition glue (ws : list (bytes * bytes)) : bytes := concat (map (fun x => fst x ++ snd x) ws).
Definition word_ok (x : bytes * bytes) : Prop := spaces (fst x) /\ snd x <> [] /\ forallb is_nonspace (snd x) = true.

Lemma glue_start ws : Forall word_ok ws -> ws <> [] -> exists c r, glue ws = c :: r /\ is_space c = true.
Proof.
  intros F N. destruct ws as [|[w t] ws]; [congruence|]. inversion F; subst. destruct H1 as ([S1 S2] & _). cbn in S1, S2.
  destruct w as [|c w]; [congruence|]. cbn in S2. apply andb_true_iff in S2.
  exists c. eexists. split; [reflexivity|apply S2].
Qed.

Lemma nonspace_head t r : t <> [] -> forallb is_nonspace t = true -> no_space (t ++ r).
Proof.
  intros N F. destruct t as [|c t]; [congruence|]. cbn in *. apply andb_true_iff in F. destruct F as [F _].
  unfold is_nonspace in F. apply negb_true_iff in F. exact F.
Qed.

(** A blank followed by another blank, or a character that is none, begins no match. *)
Lemma blank_blank d num b n c c2 r p : numeral d num -> (forall x, num x -> x <> []) -> is_space c2 = true ->
  ms (RSeq (RChr is_space) (RSeq (RGroup n d) b)) (St [] p (c :: c2 :: r)) = [].
Proof.
  intros D Z H. rewrite ms_chr. cbn [m_rest St]. destruct (is_space c); [|reflexivity]. rewrite ms_group.
  cbn [adv m_caps m_prev m_rest St].
  assert (A : forall s', ~ In s' (ms d {| m_caps := []; m_prev := Some c; m_rest := c2 :: r |})).
  { intros s' I. apply ms_iff in I. destruct (num_sound d num D _ _ I) as (x & E & Nx & _). cbn [m_rest] in E.
    destruct x as [|e x]; [exact (Z _ Nx eq_refl)|]. injection E as <- _.
    pose proof (num_word d num D _ Nx) as F. cbn in F. unfold is_nonspace in F. rewrite H in F. discriminate. }
  unfold adv. cbn [m_caps St]. destruct (ms d _) as [|s' L]; [reflexivity|]. exfalso. apply (A s'). left. reflexivity.
Qed.

Lemma no_blank b c r p : is_nonspace c = true -> ms (RSeq (RChr is_space) b) (St [] p (c :: r)) = [].
Proof.
  intros H. rewrite ms_chr. cbn [m_rest St]. unfold is_nonspace in H. apply negb_true_iff in H. rewrite H. reflexivity.
Qed.

(** The first word in [num] that is followed by the unit. *)
Section Unit.
Variables (d : re) (num : bytes -> Prop) (numb : bytes -> bool) (u : bytes) (uc : ascii) (e : re) (ok : bytes -> bytes -> bool).
Hypothesis D : numeral d num.
Hypothesis NB : forall x, num x <-> numb x = true.
Hypothesis NN : forall x, num x -> x <> [].
Hypothesis UN : no_space (u ++ [uc]).
Hypothesis E : ending e ok.

Let unit := u ++ [uc].
Let pat := RSeq (RChr is_space) (RSeq (RGroup 1 d) (RSeq ws1 (RSeq (rlit unit) e))).

Fixpoint pick (ws : list (bytes * bytes)) : option bytes :=
  match ws with
  | (_, a) :: (((_, b) :: _) as ws') => if numb a && beq b unit then Some a else pick ws'
  | _ => None
  end.

(** Every word is the unit or differs from it somewhere. *)
Definition units_ok (ws : list (bytes * bytes)) : Prop :=
  Forall (fun x => snd x = unit \/ clash unit (snd x) = true) ws /\ ok unit [] = true /\
  forall c r, is_space c = true -> ok unit (c :: r) = true.

Lemma unit_rejects : rejects is_space (RSeq (rlit unit) e).
Proof.
  unfold unit. destruct u as [|c w]; cbn [app] in *; apply rejects_lit; exact UN.
Qed.

Lemma unit_best caps ws w a : Forall word_ok ((w, a) :: ws) -> units_ok ws ->
  best (RSeq (RGroup 1 d) (RSeq ws1 (RSeq (rlit unit) e))) caps (a ++ glue ws)
    (match ws with
     | (_, b) :: ws' => if numb a && beq b unit then Some ((1%nat, a) :: caps, glue ws') else None
     | [] => None
     end).
Proof.
  intros F (U & K1 & K2). destruct (Forall_inv F) as (_ & Na & Fa). apply Forall_inv_tail in F. cbn [fst snd] in *.
  destruct ws as [|[w' b] ws].
  - cbn [glue map concat]. rewrite app_nil_r. apply (numeral_end d num D). exact Fa.
  - destruct (Forall_inv F) as (Sw & Nb & Fb). pose proof (Forall_inv_tail F) as F'. pose proof (Forall_inv U) as Ub.
    cbn [fst snd] in *.
    destruct (numb a) eqn:EA.
    + apply NB in EA. unfold glue. cbn [map concat fst snd]. rewrite <- app_assoc. fold (glue ws).
      apply (numeral_spaces d num D); [apply unit_rejects|exact EA|exact Sw|apply nonspace_head; assumption|].
      cbn [andb]. destruct (beq b unit) eqn:EB.
      * apply beq_eq in EB. subst b. apply (ending_best e ok); [exact E|].
        destruct ws as [|x ws]; [exact K1|]. destruct (glue_start (x :: ws) F') as (c & r & -> & Hc); [discriminate|].
        apply K2, Hc.
      * destruct Ub as [ -> |C]; [rewrite beq_refl in EB; discriminate|].
        intros prev. rewrite ms_lit. cbn [m_rest St]. rewrite clash_strip by exact C. reflexivity.
    + cbn [andb]. apply (numeral_none d num D); [rewrite NB; congruence|exact Fa|].
      apply glue_start; [exact F|discriminate].
Qed.

Lemma unit_search ws : forall before prev, Forall word_ok ws -> units_ok ws ->
  match pick ws with
  | Some a => exists f, search pat before prev (glue ws) = Some f /\ sub 1 f = a
  | None => search pat before prev (glue ws) = None
  end.
Proof.
  induction ws as [|[w a] ws IH]; intros before prev F (U & K1 & K2); [reflexivity|].
  pose proof F as F0. destruct (Forall_inv F) as (Sw & Na & Fa). pose proof (Forall_inv_tail F) as H2. cbn [fst snd] in *.
  assert (UO : units_ok ws) by (apply Forall_inv_tail in U; repeat split; assumption).
  pose proof (unit_best [] ws w a F0 UO) as UB.
  (* up to the last blank *)
  destruct Sw as [S1 S2]. destruct (exists_last S1) as (w0 & c & ->). rewrite forallb_app in S2.
  apply andb_true_iff in S2. destruct S2 as [S2 S3]. cbn in S3. rewrite andb_true_r in S3.
  unfold glue. cbn [map concat fst snd]. fold (glue ws). rewrite <- !app_assoc. cbn [app].
  destruct (search_skip pat w0 before prev (c :: a ++ glue ws)) as (p' & ->).
  { intros a1 x a2 p ->. unfold pat. rewrite forallb_app in S2. cbn in S2. apply andb_true_iff in S2. destruct S2 as [_ S2].
    apply andb_true_iff in S2. destruct S2 as [_ S2]. destruct a2 as [|y a2]; cbn [app].
    - apply (blank_blank d num); assumption.
    - cbn in S2. apply andb_true_iff in S2. apply (blank_blank d num); [assumption|assumption|apply S2]. }
  cbn [search]. assert (MS : forall p0, ms pat (St [] p0 (c :: a ++ glue ws)) =
     ms (RSeq (RGroup 1 d) (RSeq ws1 (RSeq (rlit unit) e))) (St [] (Some c) (a ++ glue ws))).
  { intros p0. unfold pat. rewrite ms_chr. cbn [m_rest St]. rewrite S3. reflexivity. }
  fold (St [] p' (c :: a ++ glue ws)). rewrite MS. specialize (UB (Some c)).
  (* the rest, if there is no match here *)
  assert (REST : ms (RSeq (RGroup 1 d) (RSeq ws1 (RSeq (rlit unit) e))) (St [] (Some c) (a ++ glue ws)) = [] ->
     exists bf q, match ms (RSeq (RGroup 1 d) (RSeq ws1 (RSeq (rlit unit) e))) (St [] (Some c) (a ++ glue ws)) with
     | [] => search pat ((before ++ w0) ++ [c]) (Some c) (a ++ glue ws)
     | s' :: _ => Some {| f_before := before ++ w0; f_text := firstn (length (c :: a ++ glue ws) - length (m_rest s')) (c :: a ++ glue ws);
                          f_caps := m_caps s'; f_after := m_rest s' |}
     end = search pat bf q (glue ws)).
  { intros ->. destruct (search_skip pat a ((before ++ w0) ++ [c]) (Some c) (glue ws)) as (q & ->).
    - intros a1 x a2 p ->. unfold pat. apply no_blank. rewrite forallb_app in Fa. cbn in Fa.
      apply andb_true_iff in Fa. destruct Fa as [_ Fa]. apply andb_true_iff in Fa. apply Fa.
    - eauto. }
  cbn [pick]. destruct ws as [|[w' b] ws].
  - cbn beta iota in UB. destruct (REST UB) as (bf & q & ->). apply (IH bf q); [constructor|exact UO].
  - destruct (numb a && beq b unit).
    + cbn [fst snd] in UB. destruct UB as (p1 & l & ->). eexists. split; reflexivity.
    + destruct (REST UB) as (bf & q & ->). apply (IH bf q); [exact H2|exact UO].
Qed.

(** The same behind a first word. *)
Lemma unit_find t0 ws : forallb is_nonspace t0 = true -> Forall word_ok ws -> units_ok ws ->
  match pick ws with
  | Some a => exists f, find pat (t0 ++ glue ws) = Some f /\ sub 1 f = a
  | None => find pat (t0 ++ glue ws) = None
  end.
Proof.
  intros F0 F U. unfold find. destruct (search_skip pat t0 [] None (glue ws)) as (q & ->).
  - intros a1 x a2 p ->. apply no_blank. rewrite forallb_app in F0. cbn in F0.
    apply andb_true_iff in F0. destruct F0 as [_ F0]. apply andb_true_iff in F0. apply F0.
  - apply unit_search; assumption.
Qed.
End Unit.
