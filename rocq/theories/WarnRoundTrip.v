(** Reading a printed report: the lines of the text, and the effect of each kind of
    line on the data. *)

From Coq Require Import Ascii String List NArith Bool Arith Lia Permutation.
From Verif Require Import Bytes BytesProofs GoSort Regex RegexProofs RegexFirst Replace PropReplace Warnings WarnParser
  WarnLines SpecReport.
Import ListNotations.

(** ** From the vocabulary to the lemmas about patterns *)

Lemma whitespace_iff c : whitespace c <-> is_space c = true.
Proof.
  split.
  - intros [<-|[<-|[<-|[<-|[<-|[]]]]]]; reflexivity.
  - intros H. destruct c as [[] [] [] [] [] [] [] []]; try discriminate H;
      unfold whitespace; cbn; auto 10.
Qed.

Lemma not_whitespace c : ~ whitespace c <-> is_space c = false.
Proof. rewrite whitespace_iff. destruct (is_space c); intuition congruence. Qed.

Lemma one_line_dot s : one_line s <-> forallb is_dot s = true.
Proof.
  unfold one_line. rewrite forallb_forall. split.
  - intros H c Hc. unfold is_dot. destruct (Ascii.eqb c newline) eqn:E; [|reflexivity].
    apply Ascii.eqb_eq in E. subst. contradiction.
  - intros H Hn. apply H in Hn. discriminate.
Qed.

Lemma one_line_without s : one_line s <-> without newline s = true.
Proof. rewrite one_line_dot. reflexivity. Qed.

Lemma without_in c s : without c s = true <-> ~ In c s.
Proof.
  unfold without. rewrite forallb_forall. split.
  - intros H Hc. apply H in Hc. rewrite Ascii.eqb_refl in Hc. discriminate.
  - intros H x Hx. destruct (Ascii.eqb x c) eqn:E; [|reflexivity]. apply Ascii.eqb_eq in E. subst. contradiction.
Qed.

Lemma starts_clean_head s : starts_clean s <-> head_not is_space s.
Proof.
  split.
  - destruct s as [|c t]; intros H; [exact I|]. apply not_whitespace, (H c t eq_refl).
  - intros H c t ->. apply not_whitespace. exact H.
Qed.

Lemma ends_clean_last s : ends_clean s <-> last_ok s.
Proof. split; intros H t c E; specialize (H t c E); apply not_whitespace; exact H. Qed.

Lemma good_function_word cs f : good_function cs f -> word f.
Proof.
  intros (N & H & _). split; [exact N|]. split.
  - apply forallb_forall. intros c Hc. destruct (H c Hc) as [K _]. apply not_whitespace in K. unfold is_nonspace.
    rewrite K. reflexivity.
  - apply without_in. intros Hc. destruct (H _ Hc) as [_ K]. congruence.
Qed.

(** ** Lines of a text *)

Lemma raw_lines_app l t : without newline l = true -> raw_lines (l ++ newline :: t) = l :: raw_lines t.
Proof.
  induction l as [|c l IH]; intros H.
  - cbn [app raw_lines]. rewrite Ascii.eqb_refl. reflexivity.
  - cbn in H. apply andb_true_iff in H. destruct H as [H1 H2]. apply negb_true_iff in H1. specialize (IH H2).
    cbn [app raw_lines]. rewrite H1. destruct (l ++ newline :: t) as [|d r] eqn:E; [destruct l; discriminate|].
    destruct (Ascii.eqb d newline) eqn:D.
    + rewrite IH. apply Ascii.eqb_eq in D. subst d. destruct l as [|x l]; [reflexivity|].
      cbn in E. injection E as -> _. cbn in H2. discriminate.
    + rewrite IH. reflexivity.
Qed.

Lemma raw_lines_concat ls : Forall (fun l => without newline l = true) ls ->
  raw_lines (concat (map (fun l => l ++ [newline]) ls)) = ls.
Proof.
  induction 1 as [|l ls H _ IH]; [reflexivity|]. cbn [map concat]. rewrite <- app_assoc. cbn [app].
  rewrite raw_lines_app by exact H. rewrite IH. reflexivity.
Qed.

Definition short (l : bytes) : Prop := (N.of_nat (length l) <= 65535)%N.

Lemma until_long_short ls : Forall short ls -> until_long ls = (map drop_cr ls, false).
Proof.
  induction 1 as [|l ls H _ IH]; [reflexivity|]. cbn [until_long map].
  replace (N.leb (N.of_nat (length l)) max_line) with true by (symmetry; apply N.leb_le; exact H).
  rewrite IH. reflexivity.
Qed.

Lemma drop_cr_none l : (forall t, l <> t ++ [creturn]) -> drop_cr l = l.
Proof.
  intros H. unfold drop_cr. destruct (rev l) as [|c r] eqn:E.
  - rewrite <- (rev_involutive l), E. reflexivity.
  - destruct (Ascii.eqb c creturn) eqn:K; [|reflexivity]. apply Ascii.eqb_eq in K. subst c.
    exfalso. apply (H (rev r)). rewrite <- (rev_involutive l), E. reflexivity.
Qed.

(** ** The prefix and the padding *)

Definition prefix_ok (p : bytes) : Prop := p = [] \/ p = B "# ".

Lemma spaces_all n : forallb (fun y => Ascii.eqb y space) (repeat space n) = true.
Proof. induction n; [reflexivity|exact IHn]. Qed.

Lemma repeat_snoc {A} (x : A) n : repeat x (S n) = repeat x n ++ [x].
Proof. induction n as [|n IH]; [reflexivity|]. cbn [repeat app] in *. rewrite <- IH. reflexivity. Qed.

Lemma app_last_inv {A} (a b : list A) x y : a ++ [x] = b ++ [y] -> a = b /\ x = y.
Proof. apply app_inj_tail. Qed.

Lemma bare_of x : head_not is_space x -> last_ok x -> bare space x.
Proof.
  intros H L. split.
  - intros t ->. discriminate H.
  - intros t E. specialize (L t space E). discriminate.
Qed.

(** A line of a report, as the parser looks at it. *)
Lemma prepare_padded p n x j : prefix_ok p -> x <> [] -> head_not is_space x -> last_ok x ->
  (n <> 0 \/ (forall t, x <> chr 35 :: t)) ->
  prepare (drop_cr (p ++ repeat space n ++ x ++ repeat space j)) = x.
Proof.
  intros P N H L K. rewrite drop_cr_none.
  - assert (T : forall m, trim space (repeat space m ++ x ++ repeat space j) = x).
    { intros m. apply trim_iff. split; [apply bare_of; assumption|]. exists (repeat space m), (repeat space j).
      auto using spaces_all. }
    unfold prepare. destruct P as [-> | ->].
    + cbn [app]. destruct n as [|n].
      * cbn [repeat app]. destruct x as [|c x]; [congruence|]. cbn [app].
        destruct (Ascii.eqb c (chr 35)) eqn:E.
        -- apply Ascii.eqb_eq in E. subst. destruct K as [K|K]; [lia|]. exfalso. apply (K x). reflexivity.
        -- apply (T 0).
      * cbn [repeat app]. replace (Ascii.eqb space (chr 35)) with false by reflexivity. apply (T (S n)).
    + change (B "# " ++ repeat space n ++ x ++ repeat space j) with (chr 35 :: repeat space (S n) ++ x ++ repeat space j).
      exact (T (S n)).
  - intros t E. destruct j as [|j].
    + cbn [repeat] in E. rewrite app_nil_r in E. destruct (exists_last N) as (y & c & ->).
      rewrite !app_assoc in E. apply app_last_inv in E. destruct E as [_ ->].
      specialize (L y creturn eq_refl). discriminate.
    + rewrite repeat_snoc in E. rewrite !app_assoc in E. apply app_last_inv in E. destruct E as [_ E]. discriminate.
Qed.

(** ** The lines of a report *)

Definition sp (n : nat) : bytes := repeat space n.

Definition text_lines (i : instance) : list bytes :=
  match i_text i with
  | [] => [sp 9 ++ i_function i]
  | t => match split_on newline t with
         | [] => []
         | l0 :: ls => (sp 9 ++ i_function i ++ B ": " ++ l0) :: map (fun l => sp 11 ++ chr 43 :: l) ls
         end
  end.
Definition record_lines (i : instance) : list bytes :=
  match i_record i with [] => [] | r => [sp 11 ++ r] end.
Definition inst_lines (i : instance) : list bytes := text_lines i ++ record_lines i.
Definition warn_line (r : instances) : bytes := B "  " ++ pad4 (r_count r) ++ B " [" ++ r_name r ++ B "] " ++ r_summary r.
Definition warn_lines (r : instances) : list bytes := warn_line r :: concat (map inst_lines (r_data r)).
Definition level_lines (l : list instances) (level : N) : list bytes :=
  match filter (fun r => N.eqb (r_level r) level) l with
  | [] => []
  | rs => (B "  " ++ level_string level) :: concat (map warn_lines (sort_by (on r_name blt) rs))
  end.
Definition report_lines (name : bytes) (l : list instances) : list bytes :=
  [] :: (B "Warnings for " ++ name ++ B ":") ::
  match l with [] => [B "  None"] | _ => concat (map (level_lines l) level_order) end.

Definition full (p : bytes) (l : bytes) : bytes := p ++ l.
Definition printed (p : bytes) (ls : list bytes) : bytes := concat (map (line p) ls).

Lemma printed_app p a b : printed p (a ++ b) = printed p a ++ printed p b.
Proof. unfold printed. rewrite map_app, concat_app. reflexivity. Qed.

Lemma printed_concat {A} p (f : A -> bytes) (g : A -> list bytes) l : (forall x, In x l -> f x = printed p (g x)) ->
  concat (map f l) = printed p (concat (map g l)).
Proof.
  induction l as [|x l IH]; intros H; [reflexivity|]. cbn [map concat]. rewrite printed_app, IH, H; auto.
  - left. reflexivity.
  - intros y Hy. apply H. right. exact Hy.
Qed.

Lemma printed_full p ls : printed p ls = concat (map (fun l => l ++ [newline]) (map (full p) ls)).
Proof. unfold printed, line, full. rewrite map_map. f_equal. apply map_ext. intros l. apply app_assoc. Qed.

Lemma printed_text p x ls : forall l0,
  line p (x ++ l0 ++ concat (map (fun q => (newline :: p ++ B "           +") ++ q) ls))
  = printed p ((x ++ l0) :: map (fun l => sp 11 ++ chr 43 :: l) ls).
Proof.
  unfold printed. cbn [map concat]. intros l0. unfold line at 1 2. rewrite <- !app_assoc. do 3 f_equal.
  rewrite map_map. induction ls as [|q ls IH]; [reflexivity|].
  cbn [map concat]. rewrite <- app_assoc, IH. unfold line.
  change (B "           +") with (sp 11 ++ [chr 43]). cbn [app]. f_equal. rewrite <- !app_assoc. cbn [app].
  reflexivity.
Qed.

Lemma show_instance_lines p i : show_instance p i = printed p (inst_lines i).
Proof.
  unfold show_instance, inst_lines. rewrite printed_app. f_equal.
  - unfold text_lines, join_lines. destruct (i_text i) as [|c t] eqn:E.
    + unfold printed. cbn [map concat]. rewrite app_nil_r. reflexivity.
    + pose proof (split_on_not_nil newline (c :: t)) as N. destruct (split_on newline (c :: t)) as [|l0 ls]; [congruence|].
      change (B "         ") with (sp 9).
      rewrite (app_assoc (i_function i)), (app_assoc (sp 9)). rewrite printed_text. rewrite <- !app_assoc. reflexivity.
  - unfold record_lines, printed. destruct (i_record i); [reflexivity|]. cbn [map concat]. rewrite app_nil_r. reflexivity.
Qed.

Lemma show_record_lines p r : show_record p r = printed p (warn_lines r).
Proof.
  unfold show_record, warn_lines. change (warn_line r :: ?x) with ([warn_line r] ++ x). rewrite printed_app. f_equal.
  - unfold printed. cbn [map concat]. rewrite app_nil_r. reflexivity.
  - apply printed_concat. intros i _. apply show_instance_lines.
Qed.

Lemma show_level_lines p l level : show_level p l level = printed p (level_lines l level).
Proof.
  unfold show_level, level_lines. destruct (filter _ l) as [|r rs]; [reflexivity|].
  change ((B "  " ++ level_string level) :: ?x) with ([B "  " ++ level_string level] ++ x). rewrite printed_app. f_equal.
  - unfold printed. cbn [map concat]. rewrite app_nil_r. reflexivity.
  - apply printed_concat. intros i _. apply show_record_lines.
Qed.

Lemma show_list_lines name p l : name <> [] -> show_list name p l = printed p (report_lines name l).
Proof.
  intros N. unfold show_list, report_lines.
  change ([] :: ?a :: ?x) with ([[]] ++ [a] ++ x). rewrite !printed_app. f_equal; [|f_equal].
  - unfold printed. cbn [map concat]. rewrite app_nil_r. reflexivity.
  - unfold printed. cbn [map concat]. rewrite app_nil_r. destruct name; [congruence|]. reflexivity.
  - destruct l as [|r l]; [unfold printed; cbn [map concat]; rewrite app_nil_r; reflexivity|].
    apply printed_concat. intros i _. apply show_level_lines.
Qed.

(** No line contains a newline. *)
Lemma without_app c a b : without c (a ++ b) = without c a && without c b.
Proof. apply forallb_app. Qed.

Lemma without_sp n : without newline (sp n) = true.
Proof. induction n; [reflexivity|exact IHn]. Qed.

Lemma digits_without ds : forallb is_digit ds = true -> without newline ds = true.
Proof.
  intros H. apply forallb_forall. intros c Hc. rewrite forallb_forall in H. apply H in Hc.
  destruct (Ascii.eqb c newline) eqn:E; [|reflexivity]. apply Ascii.eqb_eq in E. subst. discriminate.
Qed.

Lemma word_without f : word f -> without newline f = true.
Proof.
  intros (_ & F & _). apply forallb_forall. intros c Hc. rewrite forallb_forall in F. apply F in Hc.
  destruct (Ascii.eqb c newline) eqn:E; [|reflexivity]. apply Ascii.eqb_eq in E. subst. discriminate.
Qed.

Section Syntax.
Variable cs : casing.

Lemma inst_lines_whole i : good_instance cs i -> Forall (fun l => without newline l = true) (inst_lines i).
Proof.
  intros (Hf & Ht & Hr). pose proof (word_without _ (good_function_word _ _ Hf)) as Wf. apply Forall_app. split.
  - unfold text_lines. destruct (i_text i) as [|c t]; [repeat constructor; rewrite without_app, Wf; reflexivity|].
    pose proof (split_without newline (c :: t)) as S. destruct (split_on newline (c :: t)) as [|l0 ls]; [constructor|].
    inversion S; subst. constructor.
    + rewrite !without_app, Wf, H1. reflexivity.
    + apply Forall_map. revert H2. apply Forall_impl. intros l Hl. change (chr 43 :: l) with ([chr 43] ++ l). rewrite !without_app, Hl. reflexivity.
  - unfold record_lines. destruct (i_record i) as [|c r] eqn:E; [constructor|]. repeat constructor.
    destruct Hr as [Hr|(_ & Hr & _)]; [discriminate|]. apply one_line_without in Hr. rewrite without_app, Hr. reflexivity.
Qed.

Lemma warn_lines_whole r : good_warning cs r -> Forall (fun l => without newline l = true) (warn_lines r).
Proof.
  intros (Hn & (Hs & _) & Hi & _). constructor.
  - unfold warn_line, pad4. apply one_line_without in Hn. apply one_line_without in Hs.
    rewrite !without_app, Hn, Hs, (digits_without _ (dec_of_N_digits _)).
    pose proof (without_sp (4 - length (dec_of_N (r_count r)))) as W. unfold sp in W. rewrite W. reflexivity.
  - apply Forall_concat. apply Forall_map. revert Hi. apply Forall_impl. apply inst_lines_whole.
Qed.

Lemma level_string_without level : In level level_order -> without newline (level_string level) = true.
Proof. intros [<-|[<-|[<-|[<-|[]]]]]; reflexivity. Qed.

Lemma level_lines_whole l level : In level level_order -> Forall (good_warning cs) l ->
  Forall (fun l => without newline l = true) (level_lines l level).
Proof.
  intros Hl H. unfold level_lines. destruct (filter _ l) as [|r rs] eqn:E; [constructor|]. constructor.
  - rewrite without_app, level_string_without by exact Hl. reflexivity.
  - apply Forall_concat, Forall_map. rewrite <- E.
    apply (Permutation_Forall (sort_by_perm _ _)). apply Forall_forall. intros x Hx. apply filter_In in Hx.
    rewrite Forall_forall in H. apply warn_lines_whole, H, Hx.
Qed.

Lemma report_lines_whole name l : good_handler name -> Forall (good_warning cs) l ->
  Forall (fun l => without newline l = true) (report_lines name l).
Proof.
  intros (_ & Hn & _) H. apply one_line_without in Hn. constructor; [reflexivity|]. constructor.
  - rewrite !without_app, Hn. reflexivity.
  - destruct l as [|r l]; [repeat constructor|]. apply Forall_concat, Forall_map, Forall_forall. intros level Hl.
    apply level_lines_whole; assumption.
Qed.
End Syntax.
