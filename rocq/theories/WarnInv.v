(** Facts about the warning data that every parse keeps. *)

From Coq Require Import Ascii String List NArith Bool Arith Lia Permutation.
From Verif Require PropMerge.
From Verif Require Import Bytes BytesProofs GoSort Regex Warnings WarnParser SpecReport PropReport Bench PropTags.
Import ListNotations.

Section Keep.
Variables (v : world) (source : bytes) (lookup : gomap bytes).
Variable P : wdata -> Prop.
Hypothesis P_save : forall s, P (p_data s) -> P (p_data (save v s)).
Hypothesis P_none : forall h w, P w -> P (set_by_handler (put h [] (by_handler w)) w).
Hypothesis P_warning : forall h k x w, P w -> P (set_by_handler (update h k (set_summary x) (by_handler w)) w).
Hypothesis P_names : forall x w, P w -> P (set_test_names x w).
Hypothesis P_handler : forall x w, P w -> P (set_handler_data x w).

Lemma rest_keep line s s' : parse_rest v source line s = Some s' -> P (p_data s) -> P (p_data s').
Proof.
  unfold parse_rest. destruct (p_handler s) as [|hc ht] eqn:Eh; [intros E; injection E as <-; auto|].
  destruct (matches ptn_none line).
  - destruct (PropMerge.none_state s (hc :: ht)) as (s1 & -> & D & _). intros E; injection E as <-. cbn [p_data with_data]. rewrite D.
    apply P_none.
  - destruct (match find ptn_level line with Some f => parse_level (v_casing v) (sub 1 f) | None => None end) as [lv|].
    + intros E; injection E as <-. apply P_save.
    + destruct (find ptn_warning line) as [fw|].
      * intros E; injection E as <-. intros H. apply P_save in H. apply P_warning, H.
      * destruct (matches ptn_log_line line).
        -- destruct (p_inst s); [|discriminate]. intros E; injection E as <-. auto.
        -- destruct (find ptn_extra line).
           ++ destruct (p_inst s); intros E; injection E as <-; auto.
           ++ destruct (find ptn_instance line); intros E; injection E as <-; [|auto]. intros H. apply P_save in H. apply P_names, H.
Qed.

Lemma loop_keep lines : forall m s s', parse_loop v source lookup m lines s = Some s' -> P (p_data s) -> P (p_data s').
Proof.
  induction lines as [|raw lines IH]; intros m s s' E T; cbn [parse_loop] in E.
  - destruct m as [[[[first n] sums] links]|].
    + destruct (parse_rest v source first s) as [s1|] eqn:R; [|discriminate]. injection E as <-.
      apply P_save, (rest_keep _ _ _ R T).
    + injection E as <-. apply P_save, T.
  - destruct m as [[[[first n] sums] links]|].
    + destruct (find ptn_summary_line raw); [eapply IH; eassumption|]. destruct (find ptn_summary_link raw); [eapply IH; eassumption|].
      destruct (parse_rest v source raw _) as [s1|] eqn:R; [|discriminate].
      eapply IH; [exact E|]. apply (rest_keep _ _ _ R). destruct (PropMerge.end_data lookup n sums links s) as (hd & D & _).
      rewrite D. apply P_handler, T.
    + destruct (prepare raw) as [|c t]; [eapply IH; eassumption|]. destruct (find ptn_warnings_for (c :: t)) as [f|].
      * eapply IH; [exact E|]. destruct (PropMerge.name_data v lookup (sub 1 f) s) as (hd & D & _). rewrite D.
        apply P_handler, P_save, T.
      * destruct (matches ptn_by_warning (c :: t)); [injection E as <-; apply P_save, T|].
        destruct (find ptn_summary_start (c :: t)); [eapply IH; eassumption|].
        destruct (parse_rest v source (c :: t) s) as [s1|] eqn:R; [|discriminate].
        eapply IH; [exact E|apply (rest_keep _ _ _ R T)].
Qed.

Lemma parse_keep text w w' e : parse_warning_data v source lookup text w = Some (w', e) -> P w -> P w'.
Proof.
  unfold parse_warning_data. destruct (scan text) as [lines err].
  destruct (parse_loop v source lookup None lines (start w)) as [s|] eqn:L; [|discriminate]. intros E. injection E as <- _.
  apply (loop_keep _ _ _ _ L).
Qed.
End Keep.

(** ** Handlers are never dropped *)

Lemma parse_handlers v source lookup text w w' e h : parse_warning_data v source lookup text w = Some (w', e) ->
  get h (by_handler w) <> None -> get h (by_handler w') <> None.
Proof.
  intros E. apply (parse_keep v source lookup (fun w => get h (by_handler w) <> None)) with (6 := E); auto.
  - intros s H. unfold save. destruct (p_inst s) as [i|]; [|exact H]. destruct (p_cur s) as [c|]; [|exact H].
    cbn [p_data with_inst with_data set_by_warning set_by_test by_handler]. destruct (c_live c); [|exact H].
    cbn [set_by_handler by_handler]. unfold update. rewrite get_put. destruct (beq _ h); [discriminate|exact H].
  - intros x w0 H. cbn [set_by_handler by_handler]. rewrite get_put. destruct (beq _ h); [discriminate|exact H].
  - intros x k y w0 H. cbn [set_by_handler by_handler]. unfold update. rewrite get_put. destruct (beq _ h); [discriminate|exact H].
Qed.

(** ** Tables have every key once; a warning with an instance has been counted *)

Definition in_use (m : gomap wcount) (n : bytes) : Prop := exists c, get n m = Some c /\ wc_count c <> [].

Record sound (w : wdata) : Prop := {
  sound_once : forall h t, get h (by_handler w) = Some t -> NoDup (map fst t);
  sound_used : forall h t k d, get h (by_handler w) = Some t -> In (k, d) t -> d_insts d <> [] -> in_use (by_warning w) (snd k);
  sound_count : forall n c h x, get n (by_warning w) = Some c -> get h (wc_count c) = Some x -> x <> 0%N
}.

Lemma in_tput k d t e : In e (tput k d t) -> e = (k, d) \/ In e t.
Proof.
  induction t as [|[k' d'] t IH]; cbn [tput]; [intros [ <- |[]]; auto|]. destruct (same_key k' k).
  - intros [ <- |I]; [auto|right; right; exact I].
  - intros [ <- |I]; [right; left; reflexivity|]. destruct (IH I); [auto|right; right; assumption].
Qed.
Lemma keys_tput k d t x : In x (map fst (tput k d t)) <-> x = k \/ In x (map fst t).
Proof.
  induction t as [|[k' d'] t IH]; cbn [tput map fst In]; [split; intros [H|H]; auto|].
  destruct (same_key k' k) eqn:E; cbn [map fst In].
  - apply same_key_eq in E. subst. split; intros H; decompose [or] H; auto.
  - rewrite IH. split; intros H; decompose [or] H; auto.
Qed.
Lemma nodup_tput k d t : NoDup (map fst t) -> NoDup (map fst (tput k d t)).
Proof.
  induction t as [|[k' d'] t IH]; intros H; cbn [tput map fst]; [constructor; [intros []|constructor]|].
  inversion H as [|? ? H1 H2]; subst. destruct (same_key k' k) eqn:E; cbn [map fst].
  - apply same_key_eq in E. subst. constructor; assumption.
  - constructor; [|apply IH, H2]. rewrite keys_tput. intros [ -> |I]; [|contradiction].
    assert (same_key k k = true) by (apply same_key_eq; reflexivity). congruence.
Qed.
Lemma tget_some_in k t d : tget k t = Some d -> In (k, d) t.
Proof.
  induction t as [|[k' d'] t IH]; cbn [tget]; [discriminate|]. destruct (same_key k' k) eqn:E; [|intros H; right; apply IH, H].
  apply same_key_eq in E. subst. intros H. injection H as <-. left. reflexivity.
Qed.
Lemma tget_keys k t : tget k t <> None <-> In k (map fst t).
Proof.
  induction t as [|[k' d'] t IH]; cbn [tget map fst In]; [split; [congruence|intros []]|].
  destruct (same_key k' k) eqn:E.
  - apply same_key_eq in E. split; [auto|discriminate].
  - rewrite IH. split; [auto|]. intros [ -> |I]; [|exact I]. assert (same_key k k = true) by (apply same_key_eq; reflexivity). congruence.
Qed.

Lemma in_use_more n h t m x : in_use m x -> in_use (count_use n h t m) x.
Proof.
  intros (c & G & H). unfold in_use, count_use. rewrite get_put. destruct (beq n x) eqn:E; [|eauto].
  apply beq_eq in E. subst. rewrite G. eexists. split; [reflexivity|]. cbn [wc_count]. destruct (wc_count c) as [|[a b] l]; [discriminate|].
  cbn [put]. destruct (beq a h); discriminate.
Qed.
Lemma in_use_now n h t m : in_use (count_use n h t m) n.
Proof.
  unfold in_use, count_use. rewrite get_put_same. eexists. split; [reflexivity|]. cbn [wc_count].
  destruct (wc_count _) as [|[a b] l]; cbn [put]; [discriminate|]. destruct (beq a h); discriminate.
Qed.

Lemma sound_update h k f w m' : sound w -> (forall x, in_use (by_warning w) x -> in_use m' x) ->
  (forall n c y z, get n m' = Some c -> get y (wc_count c) = Some z -> z <> 0%N) ->
  (forall d, d_insts (f d) <> [] -> d_insts d <> [] \/ in_use m' (snd k)) ->
  sound (set_by_warning m' (set_by_handler (update h k f (by_handler w)) w)).
Proof.
  intros [S1 S2 S3] M C F. split; cbn [set_by_warning set_by_handler by_handler by_warning].
  - intros h' t. unfold update. rewrite get_put. destruct (beq h h') eqn:E; [|apply S1]. intros K. injection K as <-.
    apply nodup_tput. unfold table_of. destruct (get h (by_handler w)) eqn:G; [apply (S1 _ _ G)|constructor].
  - intros h' t k' d. unfold update. rewrite get_put. destruct (beq h h') eqn:E.
    + intros K. injection K as <-. intros I N. apply in_tput in I. destruct I as [K|I].
      * injection K as -> ->. apply F in N. destruct N as [N|N]; [|exact N]. apply M. unfold warn_of, table_of in N.
        destruct (get h (by_handler w)) as [t|] eqn:G; [|exfalso; apply N; reflexivity].
        destruct (tget k t) as [d|] eqn:T; [|exfalso; apply N; reflexivity]. apply (S2 h t k d G (tget_some_in _ _ _ T) N).
      * apply M. unfold table_of in I. destruct (get h (by_handler w)) as [t|] eqn:G; [|destruct I]. apply (S2 h t k' d G I N).
    + intros G I N. apply M, (S2 h' t k' d G I N).
  - exact C.
Qed.

Lemma sound_parse v source lookup text w w' e : parse_warning_data v source lookup text w = Some (w', e) -> sound w -> sound w'.
Proof.
  intros E. apply (parse_keep v source lookup sound) with (6 := E).
  - intros s S. unfold save. destruct (p_inst s) as [i|]; [|exact S]. destruct (p_cur s) as [c|]; [|exact S].
    cbn [p_data with_inst with_data]. set (w0 := p_data s) in *.
    set (m' := count_use (c_name c) (p_handler s) (p_test s) (by_warning w0)).
    assert (C : forall n c y z, get n m' = Some c -> get y (wc_count c) = Some z -> z <> 0%N).
    { intros n c' y z. unfold m', count_use. rewrite get_put. destruct (beq _ n) eqn:En.
      - intros K. injection K as <-. cbn [wc_count]. rewrite get_put. destruct (beq _ y); [intros K; injection K as <-; lia|].
        destruct (get (c_name c) (by_warning w0)) as [c0|] eqn:G; [apply (sound_count w0 S _ _ _ _ G)|discriminate].
      - apply (sound_count w0 S). }
    destruct (c_live c).
    + assert (X : sound (set_by_warning m' (set_by_handler (update (c_handler c) (c_level c, c_name c) (add_inst i) (by_handler w0)) w0))).
      { apply sound_update; auto; [intros x; apply in_use_more|]. intros d _. right. apply in_use_now. }
      destruct X as [X1 X2 X3]. split; assumption.
    + destruct S as [S1 S2 S3]. split; cbn [set_by_test set_by_warning by_handler by_warning]; [exact S1| |exact C].
      intros h t k d G I N. apply in_use_more, (S2 h t k d G I N).
  - intros h w0 [S1 S2 S3]. split; cbn [set_by_handler by_handler by_warning]; [| |exact S3].
    + intros h' t. rewrite get_put. destruct (beq h h'); [intros K; injection K as <-; constructor|apply S1].
    + intros h' t k d. rewrite get_put. destruct (beq h h'); [intros K; injection K as <-; intros []|apply S2].
  - intros h k x w0 S. pose proof (sound_update h k (set_summary x) w0 (by_warning w0)) as U.
    assert (X : sound (set_by_warning (by_warning w0) (set_by_handler (update h k (set_summary x) (by_handler w0)) w0))).
    { apply U; auto. intros n c y z. apply (sound_count w0 S). }
    destruct X as [X1 X2 X3]. split; assumption.
  - intros x w0 [S1 S2 S3]. split; assumption.
  - intros x w0 [S1 S2 S3]. split; assumption.
Qed.

Lemma whistory_sound v es w : whistory v es w -> sound (wt_data w) /\ NoDup (wt_handlers w) /\
  (forall h, In h (wt_handlers w) -> get h (by_handler (wt_data w)) <> None).
Proof.
  intros H. pose proof (fun es w => whistory_tidy v es w) as T.
  induction H as [|es w source lookup text w' H IH Pp|es w out w' H IH C|es w out w' H IH C].
  - split; [split; intros; discriminate|]. split; [constructor|intros h []].
  - destruct Pp as (e & Pp & _ & E). rewrite E. destruct IH as (I1 & I2 & I3). split; [apply (sound_parse _ _ _ _ _ _ _ Pp I1)|].
    split; [exact I2|]. intros h I. apply (parse_handlers _ _ _ _ _ _ _ h Pp), I3, I.
  - destruct C as [C ->]. cbn [wt_data wt_handlers]. destruct IH as (I1 & I2 & I3). split; [exact I1|].
    unfold cached_keys in C. destruct (wt_handlers w) as [|x l].
    + pose proof (sorted_listing _ _ _ (proj1 (T es w H)) C) as [L1 L2 _]. split; [exact L1|].
      intros h I. apply L2 in I. apply get_keys in I. destruct I as [t ->]. discriminate.
    + subst out. split; assumption.
  - destruct C as [_ ->]. exact IH.
Qed.
