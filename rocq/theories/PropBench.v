(** C40: the two views of the benchmark data. *)

From Coq Require Import Ascii String List NArith QArith Bool Arith Lia.
From Verif Require PropMerge.
From Verif Require Import Bytes BytesProofs GoSort Regex RegexProofs RegexFirst Warnings WarnParser WarnLines SpecReport
  WarnRoundTrip WarnEffects Bench BenchLines SpecBench.
Import ListNotations.
Local Open Scope list_scope.

(** ** Numerals *)

Definition intb (s : bytes) : bool := match s with [] => false | _ => forallb is_digit s end.
Definition decb (s : bytes) : bool :=
  match split_on "."%char s with [a] => intb a | [a; b] => intb a && intb b | _ => false end.

Lemma intb_iff s : is_int s <-> intb s = true.
Proof.
  unfold is_int. destruct s; cbn [intb]; [split; [intros [H _]; congruence|discriminate]|].
  split; [intros [_ H]; exact H|intros H; split; [discriminate|exact H]].
Qed.

Lemma digits_nodot s : forallb is_digit s = true -> without "."%char s = true.
Proof.
  unfold without. intros H. rewrite forallb_forall in *. intros c I. specialize (H c I).
  destruct (Ascii.eqb_spec c "."%char); [subst; discriminate|reflexivity].
Qed.

Lemma decb_iff s : is_decimal s <-> decb s = true.
Proof.
  unfold decb. split.
  - intros [H|(a & b & -> & Ha & Hb)].
    + rewrite split_plain by apply digits_nodot, H. apply intb_iff, H.
    + change (B "." ++ b) with ("."%char :: b). rewrite split_app by apply digits_nodot, Ha.
      rewrite split_plain by apply digits_nodot, Hb. apply intb_iff in Ha, Hb. rewrite Ha, Hb. reflexivity.
  - intros H. pose proof (split_join "."%char s) as J. destruct (split_on "."%char s) as [|a [|b [|c l]]]; try discriminate.
    + cbn in J. subst s. left. apply intb_iff, H.
    + apply andb_true_iff in H. destruct H as [H1 H2]. right. exists a, b. cbn in J. subst s.
      split; [reflexivity|]. split; apply intb_iff; assumption.
Qed.

Lemma digit_in c : In c (B "0123456789") <-> is_digit c = true.
Proof.
  split.
  - intros H. cbn in H. repeat (destruct H as [<-|H]; [reflexivity|]). destruct H.
  - destruct c as [[] [] [] [] [] [] [] []]; vm_compute; intros H; try discriminate; tauto.
Qed.
Lemma digits_int s : digits s <-> is_int s.
Proof.
  unfold digits, is_int. rewrite forallb_forall. split; intros [N H]; split; try exact N; intros c I; apply digit_in, H, I.
Qed.
Lemma decimal_is s : decimal s <-> is_decimal s.
Proof.
  unfold decimal, is_decimal. setoid_rewrite digits_int. reflexivity.
Qed.

Lemma dec_int n : is_int (dec_of_N n).
Proof. split; [apply dec_not_nil|apply dec_of_N_digits]. Qed.

Lemma dec_parse n : small n -> parse_uint (dec_of_N n) = Some n.
Proof.
  intros H. unfold parse_uint. replace (digits_value (dec_of_N n)) with n.
  - apply N.ltb_lt in H. rewrite H. reflexivity.
  - symmetry. apply dec_of_N_value.
Qed.

(** A numeral begins with a digit. *)
Lemma decimal_head s : is_decimal s -> exists c t, s = c :: t /\ is_digit c = true.
Proof.
  intros [[N F]|(a & b & -> & [N F] & _)]; [destruct s as [|c t]|destruct a as [|c t]]; try congruence;
    cbn in F; apply andb_true_iff in F; eexists; eexists; (split; [reflexivity|apply F]).
Qed.

Lemma decimal_clash s c u : is_decimal s -> is_digit c = false -> clash (c :: u) s = true /\ beq s (c :: u) = false.
Proof.
  intros H Hc. destruct (decimal_head s H) as (d & t & -> & Hd).
  assert (N : c <> d) by congruence. split.
  - cbn. apply Ascii.eqb_neq in N. rewrite N. reflexivity.
  - apply beq_neq. congruence.
Qed.

(** ** A result line is read *)

Fixpoint pairs (gap : nat -> bytes) (n : nat) (ws : list bytes) : list (bytes * bytes) :=
  match ws with [] => [] | w :: ws' => (gap n, w) :: pairs gap (S n) ws' end.

Lemma spread_glue gap ws : forall n, spread gap n ws = glue (pairs gap n ws).
Proof.
  induction ws as [|w ws IH]; intros n; [reflexivity|]. cbn [spread pairs]. unfold glue. cbn [map concat fst snd].
  rewrite IH, <- app_assoc. reflexivity.
Qed.

Lemma gap_spaces gap n : gap_ok gap -> spaces (gap n).
Proof.
  intros G. destruct (G n) as [N H]. split; [exact N|]. apply forallb_forall. intros c I.
  destruct (H c I) as [ -> | -> ]; reflexivity.
Qed.

Definition plain (w : bytes) : Prop := w <> [] /\ forallb is_nonspace w = true.

Lemma pairs_ok gap ws : gap_ok gap -> Forall plain ws -> forall n, Forall word_ok (pairs gap n ws).
Proof.
  intros G F. induction F as [|w ws [N W] F IH]; intros n; cbn [pairs]; constructor; [|apply IH].
  split; [apply gap_spaces, G|]. split; assumption.
Qed.

Lemma decimal_plain s : is_decimal s -> plain s.
Proof.
  intros H. split; [|apply (num_word _ _ decimal_numeral), H]. destruct (decimal_head s H) as (c & t & -> & _). discriminate.
Qed.
Lemma dec_plain n : plain (dec_of_N n).
Proof. apply decimal_plain. left. apply dec_int. Qed.

Lemma name_plain sep s : name_ok sep s -> plain s.
Proof.
  intros [N H]. split; [exact N|]. apply forallb_forall. intros c I. destruct (H c I) as [W _].
  unfold is_nonspace. apply negb_true_iff, not_whitespace, W.
Qed.
Lemma name_sep sep s : name_ok sep s -> forallb (is_not sep) s = true.
Proof.
  intros [_ H]. apply forallb_forall. intros c I. destruct (H c I) as [_ W]. unfold is_not.
  apply negb_true_iff, Ascii.eqb_neq, W.
Qed.

(** Words in blocks of a numeral and a unit. *)
Fixpoint blocks (l : list (bytes * bytes)) : list bytes :=
  match l with [] => [] | (a, u) :: l' => a :: u :: blocks l' end.
Definition block_ok (x : bytes * bytes) : Prop := is_decimal (fst x) /\ exists c t, snd x = c :: t /\ is_digit c = false.

Lemma block_unit x : block_ok x -> intb (snd x) = false /\ decb (snd x) = false.
Proof.
  intros [_ (c & t & -> & H)]. split; [cbn; rewrite H; reflexivity|].
  destruct (decb (c :: t)) eqn:E; [|reflexivity]. apply decb_iff, decimal_head in E. destruct E as (d & t' & E & Hd). congruence.
Qed.

Section Blocks.
Variable numb : bytes -> bool.
Variables (u : bytes) (uc : ascii) (d0 : ascii) (u0 : bytes).
Hypothesis UE : u ++ [uc] = d0 :: u0.
Hypothesis UD : is_digit d0 = false.

Lemma pick_cons_no g a g' b ws : beq b (u ++ [uc]) = false ->
  pick numb u uc ((g, a) :: (g', b) :: ws) = pick numb u uc ((g', b) :: ws).
Proof. intros H. cbn [pick]. rewrite H, andb_false_r. reflexivity. Qed.

Lemma pick_cons_unit g a ws : numb a = false -> pick numb u uc ((g, a) :: ws) = pick numb u uc ws.
Proof. intros H. destruct ws as [|[g' b] ws]; [reflexivity|]. cbn [pick]. rewrite H. reflexivity. Qed.

Fixpoint first_block (l : list (bytes * bytes)) : option bytes :=
  match l with [] => None | (a, w) :: l' => if numb a && beq w (u ++ [uc]) then Some a else first_block l' end.

Lemma pick_blocks gap l : Forall block_ok l -> (forall x, In x l -> numb (snd x) = false) ->
  forall n, pick numb u uc (pairs gap n (blocks l)) = first_block l.
Proof.
  induction l as [|[a w] l IH]; intros F H n; [reflexivity|]. cbn [blocks pairs first_block].
  pose proof (H (a, w) (or_introl eq_refl)) as Hw. cbn [snd] in Hw.
  cbn [pick]. fold (pick numb u uc). destruct (numb a && beq w (u ++ [uc])); [reflexivity|].
  change (pick numb u uc ((gap (S n), w) :: pairs gap (S (S n)) (blocks l)) = first_block l).
  rewrite pick_cons_unit by exact Hw. apply IH; [exact (Forall_inv_tail F)|].
  intros x I. apply H. right. exact I.
Qed.

Lemma pick_lead gap a l : Forall block_ok l -> (forall x, In x l -> numb (snd x) = false) -> l <> [] ->
  pick numb u uc (pairs gap 0 (a :: blocks l)) = first_block l.
Proof.
  intros F H N. rewrite <- (pick_blocks gap l F H 1). destruct l as [|[b w] l]; [congruence|].
  cbn [blocks pairs]. apply pick_cons_no. rewrite UE. apply decimal_clash; [|exact UD].
  exact (proj1 (Forall_inv F)).
Qed.
End Blocks.

Section Line.
Variable pf : bytes -> option Q.
Variable gap : nat -> bytes.
Variable r : result.
Hypothesis G : gap_ok gap.
Hypothesis R : result_ok pf r.

Let words := pairs gap 0 (result_words r).
Let first := B "Benchmark" ++ rs_handler r ++ B "/Benchmark" ++ rs_test r ++ B "-" ++ dec_of_N (rs_cpus r).

Lemma line_split : result_line gap r = first ++ glue words.
Proof. unfold result_line, first, words. rewrite spread_glue. rewrite <- !app_assoc. reflexivity. Qed.

Lemma words_plain : Forall plain (result_words r).
Proof.
  destruct R as (_ & _ & _ & _ & _ & _ & [D _] & M). apply decimal_is in D.
  unfold result_words, measured.
  assert (U : forall s, s <> [] -> forallb is_nonspace s = true -> plain s) by (split; assumption).
  repeat (apply Forall_app; split); destruct (rs_mb r) as [m|], (rs_bytes r), (rs_allocs r);
    repeat first [apply Forall_nil | apply Forall_cons]; try apply dec_plain; try (apply decimal_plain, D);
    try (apply U; [discriminate|reflexivity]); destruct M as [M _]; apply decimal_plain, decimal_is, M.
Qed.

Lemma words_ok : Forall word_ok words.
Proof. apply pairs_ok; [exact G|apply words_plain]. Qed.

Lemma first_plain : forallb is_nonspace first = true.
Proof.
  destruct R as (H & T & _). apply name_plain in H, T. destruct H as [_ H], T as [_ T]. unfold first.
  rewrite !forallb_app, H, T. rewrite (proj2 (dec_plain (rs_cpus r))). reflexivity.
Qed.

(** The anchored pattern. *)
Lemma line_data : exists f, find ptn_data_line (result_line gap r) = Some f /\
  sub 1 f = rs_handler r /\ sub 2 f = rs_test r /\ sub 3 f = dec_of_N (rs_cpus r) /\
  sub 4 f = dec_of_N (rs_runs r) /\ sub 5 f = rs_nanos r.
Proof.
  destruct R as (H & T & _ & _ & _ & _ & [D _] & _). apply decimal_is in D.
  unfold ptn_data_line. cbn [rcat].
  set (rest := glue (pairs gap 3 (measured (fun x => x) (B "MB/s") (rs_mb r) ++ measured dec_of_N (B "B/op") (rs_bytes r)
               ++ measured dec_of_N (B "allocs/op") (rs_allocs r)))).
  assert (E : result_line gap r = B "Benchmark" ++ rs_handler r ++ B "/Benchmark" ++ rs_test r ++ B "-" ++
     dec_of_N (rs_cpus r) ++ gap 0%nat ++ dec_of_N (rs_runs r) ++ gap 1%nat ++ rs_nanos r ++ gap 2%nat ++ B "ns/op" ++ rest).
  { unfold result_line, result_words, rest. cbn [app spread]. rewrite spread_glue. rewrite <- ?app_assoc. reflexivity. }
  rewrite E.
  assert (NS : forall s x, plain s -> no_space (s ++ x)) by (intros s x [Z1 Z2]; apply nonspace_head; assumption).
  assert (RD : forall n b, rejects is_space (RSeq (RGroup n digits1) b)).
  { intros n b s Z. rewrite ms_group. destruct (m_rest s) as [|c t] eqn:Es; [destruct Z|].
    unfold digits1, rplus. rewrite ms_chr, Es. destruct (is_digit c) eqn:Ec; [|reflexivity].
    apply digit_nonspace in Ec. unfold is_nonspace in Ec. rewrite Z in Ec. discriminate. }
  assert (RN : forall n b, rejects is_space (RSeq (RGroup n number) b)).
  { intros n b s Z. rewrite ms_group. destruct (m_rest s) as [|c t] eqn:Es; [destruct Z|].
    unfold number, digits1, rplus. rewrite ms_assoc, ms_chr, Es. destruct (is_digit c) eqn:Ec; [|reflexivity].
    apply digit_nonspace in Ec. unfold is_nonspace in Ec. rewrite Z in Ec. discriminate. }
  assert (BB : exists rr, best (RSeq (lit "Benchmark") (RSeq (RGroup 1 (rplus (RChr (is_not (chr 47)))))
      (RSeq (lit "/Benchmark") (RSeq (RGroup 2 (rplus (RChr (is_not (chr 45))))) (RSeq (lit "-")
      (RSeq (RGroup 3 digits1) (RSeq ws1 (RSeq (RGroup 4 digits1) (RSeq ws1 (RSeq (RGroup 5 number) (RSeq ws1
      (RSeq (lit "ns/op") (RSeq RWord REmpty))))))))))))) []
      (B "Benchmark" ++ rs_handler r ++ B "/Benchmark" ++ rs_test r ++ B "-" ++
       dec_of_N (rs_cpus r) ++ gap 0%nat ++ dec_of_N (rs_runs r) ++ gap 1%nat ++ rs_nanos r ++ gap 2%nat ++ B "ns/op" ++ rest)
      (Some ([(5%nat, rs_nanos r); (4%nat, dec_of_N (rs_runs r)); (3%nat, dec_of_N (rs_cpus r)); (2%nat, rs_test r);
              (1%nat, rs_handler r)], rr))).
  { exists rest. apply best_lit_app.
    assert (STOP : forall sep (w : bytes) (s t1 t2 : bytes), w <> [] -> hd_error w = Some sep -> w ++ s = t1 ++ t2 -> t1 <> [] ->
             forallb (is_not sep) t1 = true -> False).
    { intros sep w s t1 t2 Hw Hs Ee N1 F1. destruct w as [|c w]; [congruence|]. injection Hs as ->.
      destruct t1 as [|c1 t1]; [congruence|]. injection Ee as <- _. cbn in F1. unfold is_not in F1 at 1.
      rewrite Ascii.eqb_refl in F1. discriminate. }
    apply best_greedy1; [apply H|apply name_sep, H| |].
    2:{ intros t1 t2 Ee N1 F1. exfalso. apply (STOP (chr 47) (B "/Benchmark") _ t1 t2 ltac:(discriminate) eq_refl Ee N1 F1). }
    apply best_lit_app. apply best_greedy1; [apply T|apply name_sep, T| |].
    2:{ intros t1 t2 Ee N1 F1. exfalso. apply (STOP (chr 45) (B "-") _ t1 t2 ltac:(discriminate) eq_refl Ee N1 F1). }
    apply best_lit_app.
    apply (numeral_spaces digits1 is_int int_numeral); [apply RD|apply dec_int|apply gap_spaces, G|apply NS, dec_plain|].
    apply (numeral_spaces digits1 is_int int_numeral); [apply RN|apply dec_int|apply gap_spaces, G|apply NS, decimal_plain, D|].
    apply (numeral_spaces number is_decimal decimal_numeral);
      [apply (rejects_lit is_space "n"%char); reflexivity|exact D|apply gap_spaces, G|reflexivity|].
    apply (ending_best _ _ (B "ns/o") "p"%char _ _ end_word).
    assert (GS : rest = [] \/ exists c t, rest = c :: t /\ is_space c = true).
    { pose proof words_plain as WP. unfold result_words in WP. apply Forall_app in WP. destruct WP as [_ WP].
      unfold rest. destruct (measured _ _ _ ++ _) as [|x xs] eqn:EE; [left; reflexivity|right].
      apply glue_start; [apply pairs_ok; assumption|discriminate]. }
    destruct GS as [ -> |(c & t & -> & Hc)]; [reflexivity|]. cbn. destruct c as [[] [] [] [] [] [] [] []]; try discriminate Hc; reflexivity. }
  destruct BB as (rr & BB). eexists. split; [apply (find_best _ _ _ BB)|]. repeat split; reflexivity.
Qed.

(** Every word is the unit or clearly another. *)
Lemma words_units c u : is_digit c = false ->
  (forall w, In w [B "ns/op"; B "MB/s"; B "B/op"; B "allocs/op"] -> w = c :: u \/ clash (c :: u) w = true) ->
  Forall (fun x => snd x = c :: u \/ clash (c :: u) (snd x) = true) words.
Proof.
  intros Hc HU. destruct R as (_ & _ & _ & _ & _ & _ & [D _] & M). apply decimal_is in D. unfold words.
  assert (A : Forall (fun w => w = c :: u \/ clash (c :: u) w = true) (result_words r)).
  { assert (N : forall s, is_decimal s -> s = c :: u \/ clash (c :: u) s = true)
      by (intros s Hs; right; apply decimal_clash; assumption).
    assert (N2 : forall n, dec_of_N n = c :: u \/ clash (c :: u) (dec_of_N n) = true)
      by (intros n; apply N; left; apply dec_int).
    unfold result_words, measured.
    repeat (apply Forall_app; split); destruct (rs_mb r) as [m|], (rs_bytes r), (rs_allocs r);
      repeat first [apply Forall_nil | apply Forall_cons]; try apply N2; try (apply N, D);
      try (apply HU; cbn; tauto); destruct M as [M _]; apply N, decimal_is, M. }
  revert A. generalize 0%nat. induction (result_words r) as [|w ws IH]; intros n A; cbn [pairs]; constructor.
  - exact (Forall_inv A).
  - apply IH. exact (Forall_inv_tail A).
Qed.

(** The blocks of a result line. *)
Definition result_blocks : list (bytes * bytes) :=
  (rs_nanos r, B "ns/op")
  :: match rs_mb r with Some m => [(m, B "MB/s")] | None => [] end
  ++ match rs_bytes r with Some n => [(dec_of_N n, B "B/op")] | None => [] end
  ++ match rs_allocs r with Some n => [(dec_of_N n, B "allocs/op")] | None => [] end.

Lemma words_blocks : words = pairs gap 0 (dec_of_N (rs_runs r) :: blocks result_blocks).
Proof.
  unfold words, result_words, result_blocks, measured.
  destruct (rs_mb r), (rs_bytes r), (rs_allocs r); reflexivity.
Qed.

Lemma blocks_ok : Forall block_ok result_blocks.
Proof.
  destruct R as (_ & _ & _ & _ & _ & _ & [D _] & M). apply decimal_is in D.
  assert (N : forall s c t, is_decimal s -> is_digit c = false -> block_ok (s, c :: t))
    by (intros s c t H1 H2; split; [exact H1|eexists; eexists; split; [reflexivity|exact H2]]).
  assert (N2 : forall n, is_decimal (dec_of_N n)) by (intros n; left; apply dec_int).
  unfold result_blocks. apply Forall_cons; [apply N; [exact D|reflexivity]|].
  repeat (apply Forall_app; split); destruct (rs_mb r) as [m|], (rs_bytes r), (rs_allocs r);
    repeat first [apply Forall_nil | apply Forall_cons]; try (apply N; [apply N2|reflexivity]);
    destruct M as [M _]; (apply N; [apply decimal_is, M|reflexivity]).
Qed.

Lemma boundary u c rest : is_word c = true -> is_space rest = true ->
  xorb (word_at (after_lit (u ++ [c]) None)) (is_word rest) = true.
Proof.
  intros H1 H2.
  assert (E : forall u p, after_lit (u ++ [c]) p = Some c)
    by (intros u'; induction u' as [|d u' IH]; intros p; [reflexivity|cbn; apply IH]).
  rewrite E. cbn. rewrite H1. destruct rest as [[] [] [] [] [] [] [] []]; try discriminate H2; reflexivity.
Qed.

(** The three numbers that may be missing. *)
Lemma line_allocs : match rs_allocs r with
  | Some n => exists f, find ptn_allocs_op (result_line gap r) = Some f /\ sub 1 f = dec_of_N n
  | None => find ptn_allocs_op (result_line gap r) = None
  end.
Proof.
  pose proof (unit_find digits1 is_int intb (B "allocs/o") "p"%char (RSeq RWord REmpty) _ int_numeral intb_iff
                (fun x H => proj1 H) eq_refl end_word first words first_plain words_ok) as U.
  assert (K : pick intb (B "allocs/o") "p"%char words = match rs_allocs r with Some n => Some (dec_of_N n) | None => None end).
  { rewrite words_blocks, (pick_lead intb (B "allocs/o") "p"%char "a"%char (B "llocs/op") eq_refl eq_refl).
    - assert (I : forall n, intb (dec_of_N n) = true) by (intros n; apply intb_iff, dec_int).
      unfold result_blocks. destruct (rs_mb r), (rs_bytes r), (rs_allocs r); cbn [app first_block];
        rewrite ?andb_false_r, ?I; reflexivity.
    - apply blocks_ok.
    - intros x I. pose proof blocks_ok as F. rewrite Forall_forall in F. apply block_unit, F, I.
    - discriminate. }
  rewrite line_split. rewrite K in U. destruct (rs_allocs r); apply U;
    (split; [|split; [reflexivity|intros c t Hc; exact (boundary (B "allocs/o") "p"%char c eq_refl Hc)]]);
    apply (words_units "a"%char (B "llocs/op")); try reflexivity; intros w I; cbn [In] in I;
    decompose [or] I; subst; try contradiction; vm_compute; tauto.
Qed.

Lemma line_bytes : match rs_bytes r with
  | Some n => exists f, find ptn_bytes_op (result_line gap r) = Some f /\ sub 1 f = dec_of_N n
  | None => find ptn_bytes_op (result_line gap r) = None
  end.
Proof.
  pose proof (unit_find digits1 is_int intb (B "B/o") "p"%char (RSeq RWord REmpty) _ int_numeral intb_iff
                (fun x H => proj1 H) eq_refl end_word first words first_plain words_ok) as U.
  assert (K : pick intb (B "B/o") "p"%char words = match rs_bytes r with Some n => Some (dec_of_N n) | None => None end).
  { rewrite words_blocks, (pick_lead intb (B "B/o") "p"%char "B"%char (B "/op") eq_refl eq_refl).
    - assert (I : forall n, intb (dec_of_N n) = true) by (intros n; apply intb_iff, dec_int).
      unfold result_blocks. destruct (rs_mb r), (rs_bytes r), (rs_allocs r); cbn [app first_block];
        rewrite ?andb_false_r, ?I; cbn; rewrite ?andb_false_r; reflexivity.
    - apply blocks_ok.
    - intros x I. pose proof blocks_ok as F. rewrite Forall_forall in F. apply block_unit, F, I.
    - discriminate. }
  rewrite line_split. rewrite K in U. destruct (rs_bytes r); apply U;
    (split; [|split; [reflexivity|intros c t Hc; exact (boundary (B "B/o") "p"%char c eq_refl Hc)]]);
    apply (words_units "B"%char (B "/op")); try reflexivity; intros w I; cbn [In] in I;
    decompose [or] I; subst; try contradiction; vm_compute; tauto.
Qed.

Lemma line_mb : match rs_mb r with
  | Some m => exists f, find ptn_mb_sec (result_line gap r) = Some f /\ sub 1 f = m
  | None => find ptn_mb_sec (result_line gap r) = None
  end.
Proof.
  pose proof (unit_find number is_decimal decb (B "MB/") "s"%char REmpty _ decimal_numeral decb_iff
                (fun x H => proj1 (decimal_plain x H)) eq_refl end_any first words first_plain words_ok) as U.
  assert (K : pick decb (B "MB/") "s"%char words = rs_mb r).
  { rewrite words_blocks, (pick_lead decb (B "MB/") "s"%char "M"%char (B "B/s") eq_refl eq_refl).
    - assert (I : match rs_mb r with Some m => decb m = true | None => True end).
      { destruct R as (_ & _ & _ & _ & _ & _ & _ & M). destruct (rs_mb r); [|exact Logic.I].
        apply decb_iff, decimal_is, M. }
      unfold result_blocks. destruct (rs_mb r), (rs_bytes r), (rs_allocs r); cbn [app first_block];
        rewrite ?andb_false_r, ?I; cbn; rewrite ?andb_false_r; reflexivity.
    - apply blocks_ok.
    - intros x I. pose proof blocks_ok as F. rewrite Forall_forall in F. apply block_unit, F, I.
    - discriminate. }
  rewrite line_split. rewrite K in U. destruct (rs_mb r); apply U;
    (split; [|split; reflexivity]);
    apply (words_units "M"%char (B "B/s")); try reflexivity; intros w I; cbn [In] in I;
    decompose [or] I; subst; try contradiction; vm_compute; tauto.
Qed.

(** What the line says. *)
Definition line_says : dline := {|
  dl_handler := rs_handler r; dl_test := rs_test r; dl_cpus := rs_cpus r; dl_runs := rs_runs r;
  dl_nanos := nanos_of pf r; dl_allocs := n_of (rs_allocs r); dl_bytes := n_of (rs_bytes r); dl_mb := mb_of pf r |}.

Lemma line_read : read_data pf (result_line gap r) = Data line_says.
Proof.
  unfold read_data. destruct line_data as (f & -> & -> & -> & -> & -> & ->).
  pose proof line_allocs as LA. pose proof line_bytes as LB. pose proof line_mb as LM.
  destruct R as (_ & _ & S1 & S2 & S3 & S4 & [_ (q & Hq)] & M).
  rewrite !dec_parse by assumption. rewrite Hq.
  assert (OA : optional ptn_allocs_op parse_uint 0%N (result_line gap r) = Some (n_of (rs_allocs r))).
  { unfold optional. destruct (rs_allocs r); [|rewrite LA; reflexivity]. destruct LA as (g & -> & ->). apply dec_parse, S4. }
  assert (OB : optional ptn_bytes_op parse_uint 0%N (result_line gap r) = Some (n_of (rs_bytes r))).
  { unfold optional. destruct (rs_bytes r); [|rewrite LB; reflexivity]. destruct LB as (g & -> & ->). apply dec_parse, S3. }
  assert (OM : optional ptn_mb_sec pf 0%Q (result_line gap r) = Some (mb_of pf r)).
  { unfold optional, mb_of, number_of. destruct (rs_mb r); [|rewrite LM; reflexivity]. destruct LM as (g & -> & ->).
    destruct M as [_ (q' & ->)]. reflexivity. }
  rewrite OA, OB, OM. unfold line_says, nanos_of, number_of. rewrite Hq. reflexivity.
Qed.
End Line.

(** ** Texts *)

Lemma other_no_data pf s : (forall t, s <> B "Benchmark" ++ t) -> read_data pf s = NoData.
Proof.
  intros H. unfold read_data, ptn_data_line. cbn [rcat].
  erewrite find_best with (o := None); [reflexivity|]. apply best_lit. destruct (strip_lit _ s) as [r|] eqn:E; [|reflexivity].
  apply strip_lit_iff in E. exfalso. apply (H r E).
Qed.

Lemma hash_only s : (forall t, s <> chr 35 :: t) -> find ptn_handler_def s = None /\ find ptn_warn_line s = None.
Proof.
  intros H. unfold ptn_handler_def, ptn_warn_line. cbn [rcat].
  split; (erewrite find_best with (o := None); [reflexivity|]); apply best_lit;
    destruct (strip_lit _ s) as [r|] eqn:E; try reflexivity; apply strip_lit_iff in E; exfalso; eapply H; exact E.
Qed.

Lemma record_put2 m k1 k2 x a c : record_at (put2 k1 k2 x m) a c =
  if beq k1 a && beq k2 c then Some x else record_at m a c.
Proof.
  unfold record_at, put2, inner. rewrite get_put. destruct (beq k1 a) eqn:E1; [|reflexivity].
  apply beq_eq in E1. subst a. rewrite get_put. cbn [andb]. destruct (beq k2 c); [reflexivity|].
  destruct (get k1 m); reflexivity.
Qed.

Lemma same_tag a c : beq (bench_tag a) (bench_tag c) = beq a c.
Proof. unfold bench_tag. reflexivity. Qed.

Section Text.
Variable v : world.
Variable pf : bytes -> option Q.

(** A state after another, as far as the records are concerned. *)
Definition shows (found : option result) (b b' : bench) (test handler : bytes) : Prop :=
  match found with
  | Some r => exists x y,
      record_at (b_by_test b') (B "Bench." ++ test) handler = Some x /\ says pf r x /\
      record_at (b_by_handler b') handler (B "Bench." ++ test) = Some y /\ says pf r y
  | None =>
      record_at (b_by_test b') (B "Bench." ++ test) handler = record_at (b_by_test b) (B "Bench." ++ test) handler /\
      record_at (b_by_handler b') handler (B "Bench." ++ test) = record_at (b_by_handler b) handler (B "Bench." ++ test)
  end.

Lemma drop_cr_cases s : drop_cr s = s \/ s = drop_cr s ++ [creturn].
Proof.
  unfold drop_cr. destruct (rev s) as [|c t] eqn:E.
  - left. apply (f_equal (@rev _)) in E. rewrite rev_involutive in E. cbn in E. congruence.
  - destruct (Ascii.eqb_spec c creturn); [|left; reflexivity]. subst. right.
    apply (f_equal (@rev _)) in E. rewrite rev_involutive in E. exact E.
Qed.

Lemma drop_cr_other s : (forall t, s <> B "Benchmark" ++ t) -> forall t, drop_cr s <> B "Benchmark" ++ t.
Proof.
  intros H t E. destruct (drop_cr_cases s) as [D|D]; rewrite E in D.
  - apply (H t). congruence.
  - apply (H (t ++ [creturn])). rewrite app_assoc. exact D.
Qed.

Lemma result_last gap r : gap_ok gap -> result_ok pf r -> drop_cr (result_line gap r) = result_line gap r.
Proof.
  intros G R. apply drop_cr_none. intros t E.
  assert (P : forall ws, Forall plain ws -> forall n pre t, ws <> [] -> pre ++ spread gap n ws = t ++ [creturn] -> False).
  { clear E t. intros ws F. induction F as [|w ws [Nw Pw] F IH]; intros n pre t N E; [congruence|].
    destruct ws as [|w2 ws].
    - cbn [spread] in E. rewrite app_nil_r in E. destruct (exists_last Nw) as (w0 & c & ->).
      rewrite !app_assoc in E. apply app_last_inv in E. destruct E as [_ ->]. rewrite forallb_app in Pw.
      cbn in Pw. rewrite andb_false_r in Pw. discriminate.
    - cbn [spread] in E. apply (IH (S n) (pre ++ gap n ++ w) t); [discriminate|]. rewrite <- E. rewrite <- !app_assoc. reflexivity. }
  unfold result_line in E. rewrite !app_assoc in E. apply (P _ (words_plain pf r R) 0%nat _ _ ltac:(discriminate) E).
Qed.

Lemma gap_one_line gap n : gap_ok gap -> ~ In newline (gap n).
Proof. intros G I. destruct (proj2 (G n) _ I); discriminate. Qed.

Lemma result_one_line gap r : gap_ok gap -> result_ok pf r -> without newline (result_line gap r) = true.
Proof.
  intros G R. rewrite (line_split gap r). rewrite without_app, andb_true_iff.
  assert (P : forall s, forallb is_nonspace s = true -> without newline s = true).
  { intros s F. apply without_in. intros I. rewrite forallb_forall in F. apply F in I. discriminate. }
  split; [apply P, (first_plain pf r R)|]. rewrite <- spread_glue. generalize 0%nat. pose proof (words_plain pf r R) as F.
  induction F as [|w ws [Nw Pw] F IH]; intros n; [reflexivity|]. cbn [spread]. rewrite !without_app, IH, (P w Pw).
  rewrite ?andb_true_r. apply without_in, gap_one_line, G.
Qed.

Definition line_effect (l : output_line) (b : bench) : bench :=
  match l with
  | Result _ r => store v (line_says pf r) b
  | Other s => fst (bench_loop v pf [drop_cr s] b)
  end.

Lemma loop_line l ls b : output_ok pf l ->
  bench_loop v pf (drop_cr (show_output l) :: ls) b = bench_loop v pf ls (line_effect l b).
Proof.
  intros O. destruct l as [g r|s]; cbn [show_output line_effect output_ok] in *.
  - destruct O as [G R]. rewrite (result_last g r G R). cbn [bench_loop].
    destruct (hash_only (result_line g r)) as [-> ->]; [discriminate|]. rewrite (line_read pf g r G R). reflexivity.
  - destruct O as [_ O]. cbn [bench_loop].
    destruct (find ptn_handler_def (drop_cr s)); [reflexivity|]. destruct (find ptn_warn_line (drop_cr s)); [reflexivity|].
    rewrite other_no_data; [reflexivity|]. apply drop_cr_other, O.
Qed.

Lemma loop_lines ls : forall b, Forall (output_ok pf) ls ->
  bench_loop v pf (map (fun l => drop_cr (show_output l)) ls) b = (fold_left (fun b l => line_effect l b) ls b, false).
Proof.
  induction ls as [|l ls IH]; intros b F; [reflexivity|]. cbn [map fold_left].
  rewrite loop_line by exact (Forall_inv F). apply IH, (Forall_inv_tail F).
Qed.

Lemma other_effect s b : (forall t, s <> B "Benchmark" ++ t) ->
  b_by_test (line_effect (Other s) b) = b_by_test b /\ b_by_handler (line_effect (Other s) b) = b_by_handler b.
Proof.
  intros H. cbn [line_effect bench_loop]. destruct (find ptn_handler_def (drop_cr s)); [split; reflexivity|].
  destruct (find ptn_warn_line (drop_cr s)); [split; reflexivity|].
  rewrite other_no_data by (apply drop_cr_other, H). split; reflexivity.
Qed.

Lemma lines_show ls test handler b0 : forall b found, Forall (output_ok pf) ls -> shows found b0 b test handler ->
  shows (fold_left (fun found l => match l with
                            | Result _ r => if beq (rs_test r) test && beq (rs_handler r) handler then Some r else found
                            | Other _ => found
                            end) ls found) b0 (fold_left (fun b l => line_effect l b) ls b) test handler.
Proof.
  induction ls as [|l ls IH]; intros b found F S; [exact S|]. cbn [fold_left]. apply IH; [exact (Forall_inv_tail F)|].
  pose proof (Forall_inv F) as O. destruct l as [g r|s].
  - cbn [line_effect]. unfold shows, store in *. cbn [b_by_test b_by_handler line_says dl_test dl_handler].
    change (B "Bench." ++ test) with (bench_tag test) in *.
    destruct (beq (rs_test r) test && beq (rs_handler r) handler) eqn:E.
    + eexists. eexists. rewrite !record_put2, same_tag, E, andb_comm, E. repeat split.
    + destruct found as [r0|]; rewrite !record_put2, same_tag, E, (andb_comm (beq (rs_handler r) handler)), E; exact S.
  - destruct O as [_ O]. destruct (other_effect s b O) as [E1 E2]. unfold shows in *. rewrite E1, E2. exact S.
Qed.

Lemma raw_output ls : Forall (output_ok pf) ls -> short_lines (output_text ls) ->
  scan (output_text ls) = (map (fun l => drop_cr (show_output l)) ls, false).
Proof.
  intros F S. unfold scan.
  assert (W : Forall (fun l => without newline l = true) (map show_output ls)).
  { apply Forall_map. eapply Forall_impl; [|exact F]. intros [g r|s] O; cbn [show_output output_ok] in *.
    - apply result_one_line; apply O.
    - apply one_line_without, O. }
  assert (E : output_text ls = concat (map (fun l => l ++ [newline]) (map show_output ls)))
    by (unfold output_text; rewrite map_map; reflexivity).
  rewrite E, raw_lines_concat by exact W. rewrite until_long_short; [rewrite map_map; reflexivity|].
  apply Forall_forall. intros l I. pose proof (proj1 (Forall_forall _ _) W l I) as Wl. apply in_split in I. destruct I as (l1 & l2 & El).
  apply (S (concat (map (fun l => l ++ [newline]) l1)) l ([newline] ++ concat (map (fun l => l ++ [newline]) l2))).
  - rewrite E, El, map_app, concat_app. cbn [map concat]. rewrite <- !app_assoc. reflexivity.
  - apply one_line_without, Wl.
Qed.
End Text.

(** ** C40 *)

(** After reading any text of result lines and others, both views have for every
    test and handler the numbers of the last result line for them, and are as
    before where there was none. *)
Theorem C40_text v pf ls b :
  Forall (output_ok pf) ls -> short_lines (output_text ls) ->
  exists b', parse_bench v pf (output_text ls) b = (b', false) /\
             forall test handler, shows pf (last_result ls test handler) b b' test handler.
Proof.
  intros F S. unfold parse_bench. rewrite (raw_output pf ls F S), (loop_lines v pf ls b F). eexists. split; [reflexivity|].
  intros test handler. apply lines_show; [exact F|]. split; reflexivity.
Qed.
Print Assumptions C40_text.

(** States that can be reached: any texts, also with errors, and any requests. *)
Inductive bench_state (v : world) (pf : bytes -> option Q) : bench -> Prop :=
| bs_new : bench_state v pf new_bench
| bs_parse b text : bench_state v pf b -> bench_state v pf (fst (parse_bench v pf text b))
| bs_handlers b out b' : bench_state v pf b -> handler_tags b out b' -> bench_state v pf b'
| bs_tests b out b' : bench_state v pf b -> test_tags b out b' -> bench_state v pf b'
| bs_lookup b out b' : bench_state v pf b -> handler_lookup b out b' -> bench_state v pf b'.

Definition paired (b : bench) (test handler : bytes) : Prop :=
  match record_at (b_by_test b) test handler, record_at (b_by_handler b) handler test with
  | Some x, Some y => agree x y /\ (t_gb x == t_mb x / 1000 /\ t_tb x == t_mb x / 1000000) /\ t_gb y == 0 /\ t_tb y == 0
  | None, None => True
  | _, _ => False
  end.

(** What every step keeps. *)
Lemma state_ind v pf (P : bench -> Prop) :
  P new_bench -> (forall b d l, read_data pf l = Data d -> P b -> P (store v d b)) ->
  (forall b b', P b -> b_by_test b' = b_by_test b -> b_by_handler b' = b_by_handler b ->
     b_tests b' = b_tests b -> b_handlers b' = b_handlers b -> P b') ->
  (forall b l, P b -> P (set_handlers l b)) -> (forall b l, P b -> P (set_tests l b)) ->
  forall b, bench_state v pf b -> P b.
Proof.
  intros P0 P1 P2 P3 P4 b H. induction H.
  - exact P0.
  - unfold parse_bench. destruct (scan text) as [lines err]. revert b H IHbench_state.
    assert (L : forall b, P b -> P (fst (bench_loop v pf lines b))).
    { induction lines as [|l ls IH]; intros b Hb; [exact Hb|]. cbn [bench_loop].
      destruct (find ptn_handler_def l) as [f|]; [apply IH, (P2 b); auto|].
      destruct (find ptn_warn_line l) as [f|]; [apply IH, (P2 b); auto|].
      destruct (read_data pf l) eqn:E; [apply IH, Hb|exact Hb|apply IH, (P1 b _ l E), Hb]. }
    intros b _ Hb. specialize (L b Hb). destruct (bench_loop v pf lines b). exact L.
  - destruct H0 as [_ ->]. apply P3, IHbench_state.
  - destruct H0 as [_ ->]. apply P4, IHbench_state.
  - unfold handler_lookup in H0. destruct (b_lookup b).
    + destruct H0 as [_ ->]. exact IHbench_state.
    + destruct H0 as [_ ->]. apply (P2 b); auto.
Qed.

(** In every reachable state the two views have the same pairs, with the same
    iterations, nanoseconds, bytes, allocations and MB/s; GB/s and TB/s are
    computed in the view by test and are zero in that by handler. *)
Theorem C40_views v pf b : bench_state v pf b -> forall test handler, paired b test handler.
Proof.
  intros S. revert b S. refine (state_ind v pf (fun b => forall t h, paired b t h) _ _ _ _ _).
  - intros t h. exact Logic.I.
  - intros b d l _ IH t h. specialize (IH t h). unfold paired, store in *. cbn [b_by_test b_by_handler].
    rewrite !record_put2, (andb_comm (beq (dl_handler d) h)).
    destruct (beq (bench_tag (dl_test d)) t && beq (dl_handler d) h); [|exact IH].
    repeat split; reflexivity.
  - intros b b' IH E1 E2 _ _ t h. specialize (IH t h). unfold paired in *. rewrite E1, E2. exact IH.
  - intros b l IH t h. apply IH.
  - intros b l IH t h. apply IH.
Qed.
Print Assumptions C40_views.

(** A handler or a test is known exactly if there is a result of it. *)
Theorem C40_known v pf b : bench_state v pf b ->
  (forall t, has_test b t = true <-> exists h x, record_at (b_by_test b) t h = Some x) /\
  (forall h, has_handler b h = true <-> exists t x, record_at (b_by_test b) t h = Some x).
Proof.
  intros S. assert (V := C40_views v pf b S).
  assert (P : forall m : gomap (gomap trec), (forall k i, get k m = Some i -> i <> []) ->
    forall k, has_key k m = true <-> exists j x, record_at m k j = Some x).
  { intros m M k. unfold has_key, record_at. specialize (M k). destruct (get k m) as [[|[j x] i]|]; [now destruct (M [] eq_refl)| |].
    - split; [|reflexivity]. intros _. exists j, x. cbn [get]. now rewrite beq_refl.
    - split; [discriminate|]. intros (j & x & E). discriminate E. }
  assert (N : (forall k i, get k (b_by_test b) = Some i -> i <> []) /\ (forall k i, get k (b_by_handler b) = Some i -> i <> [])).
  { clear V P. revert b S. refine (state_ind v pf (fun b => (forall k i, get k (b_by_test b) = Some i -> i <> []) /\
      (forall k i, get k (b_by_handler b) = Some i -> i <> [])) _ _ _ _ _).
    - split; intros k i E; discriminate E.
    - assert (Q : forall (m : gomap (gomap trec)) a c y, (forall k i, get k m = Some i -> i <> []) -> forall k i, get k (put2 a c y m) = Some i -> i <> []).
      { intros m a c y M k i. unfold put2. rewrite get_put. destruct (beq a k); [|apply M]. intros [= <-] E.
        assert (X : get c (put c y (inner a m)) = Some y) by apply get_put_same. rewrite E in X. discriminate X. }
      intros b d l _ [I1 I2]. unfold store. cbn [b_by_test b_by_handler]. split; apply Q; assumption.
    - intros b b' I E1 E2 _ _. now rewrite E1, E2.
    - intros b l I. exact I.
    - intros b l I. exact I. }
  destruct N as [N1 N2]. split; intros k; [apply (P _ N1)|]. unfold has_handler. rewrite (P _ N2).
  split; intros (t & x & E); specialize (V t k); unfold paired in V; rewrite E in V; exists t.
  - destruct (record_at (b_by_test b) t k) as [y|]; [now exists y|destruct V].
  - destruct (record_at (b_by_handler b) k t) as [y|]; [now exists y|destruct V].
Qed.
Print Assumptions C40_known.

(** As seen through ItemValue. *)
Theorem C40_items v pf b test handler x y : bench_state v pf b ->
  record_at (b_by_test b) test handler = Some x -> record_at (b_by_handler b) handler test = Some y ->
  (forall i, In i [Runs; Nanos; MemAllocs; MemBytes; MbPerSec] -> item_value x i = item_value y i) /\
  item_value x GbPerSec == item_value x MbPerSec / 1000 /\ item_value x TbPerSec == item_value x MbPerSec / 1000000 /\
  item_value y GbPerSec == 0 /\ item_value y TbPerSec == 0.
Proof.
  intros S Hx Hy. pose proof (C40_views v pf b S test handler) as P. unfold paired in P. rewrite Hx, Hy in P.
  destruct P as ([A1 A2 A3 A4 A5] & (G1 & G2) & G3 & G4). split; [|tauto].
  intros i I. cbn in I. decompose [or] I; subst; try contradiction; cbn; congruence.
Qed.
Print Assumptions C40_items.

(** A line without the number of CPUs, as written with GOMAXPROCS=1, is no result:
    without a hyphen there is no data. *)
Theorem C40_no_hyphen pf s : ~ In (chr 45) s -> read_data pf s = NoData.
Proof.
  intros H. unfold read_data.
  destruct (find ptn_data_line s) as [f|] eqn:E; [|reflexivity]. exfalso. apply H.
  unfold ptn_data_line in E. cbn [rcat] in E. rewrite find_bol in E.
  match type of E with match ms ?r ?s0 with _ => _ end = _ => destruct (ms r s0) as [|s' l] eqn:M; [discriminate|];
    assert (I : In s' (ms r s0)) by (rewrite M; left; reflexivity) end.
  clear E M. apply ms_iff in I.
  apply seq_inv in I. destruct I as (s1 & I1 & I). apply seq_inv in I. destruct I as (s2 & I2 & I).
  apply seq_inv in I. destruct I as (s3 & I3 & I). apply seq_inv in I. destruct I as (s4 & I4 & I).
  apply seq_inv in I. destruct I as (s5 & I5 & I).
  apply derives_suffix in I1, I2, I3, I4. destruct I1 as [x1 E1], I2 as [x2 E2], I3 as [x3 E3], I4 as [x4 E4].
  change (lit "-") with (RSeq (RChr (is_char (chr 45))) REmpty) in I5. apply seq_inv in I5. destruct I5 as (s6 & I6 & _).
  apply chr_inv in I6. destruct I6 as (c & t & E5 & Hc & _). unfold is_char in Hc. apply Ascii.eqb_eq in Hc. subst c.
  cbn [init m_rest] in E1. rewrite E1, E2, E3, E4, E5. rewrite !in_app_iff. cbn. tauto.
Qed.
Print Assumptions C40_no_hyphen.

(** ** Example: two handlers, three tests, a repeated line and lines of other kinds *)

Definition pf0 (s : bytes) : option Q :=
  match split_on "."%char s with
  | [a] => Some (q_of_N (digits_value a))
  | [a; b] => Some (q_of_N (digits_value a) + q_of_N (digits_value b) / q_of_N (10 ^ N.of_nat (length b)))
  | _ => None
  end.
Definition gap0 (n : nat) : bytes := match n with O => B "    " | _ => tab :: B "  " end.
Definition result0 (h t : string) (runs : N) (ns : string) (mb : option bytes) : result := {|
  rs_handler := B h; rs_test := B t; rs_cpus := 8; rs_runs := runs; rs_nanos := B ns; rs_mb := mb;
  rs_bytes := Some 120%N; rs_allocs := Some 3%N |}.
Definition output0 : list output_line := [
  Other (B "goos: linux");
  Other (B "# Handler[slog_json]=""slog/JSONHandler""");
  Result gap0 (result0 "slog_json" "Simple" 1000 "1234" (Some (B "12.50")));
  Result gap0 (result0 "phsym" "Simple" 2000 "88.25" None);
  Result gap0 (result0 "slog_json" "BigGroup" 500 "5000.5" None);
  Other (B "# Warnings for phsym:");
  Result gap0 (result0 "slog_json" "Simple" 1500 "1200.75" (Some (B "13.00")));
  Other (B "PASS")].

Lemma gap0_ok : gap_ok gap0.
Proof.
  intros n. split; [destruct n; discriminate|]. intros c I. destruct n; cbn in I; decompose [or] I; subst; auto; contradiction.
Qed.

Lemma name_ok_test sep s : s <> [] ->
  forallb (fun c => negb (existsb (Ascii.eqb c) (sep :: [tab; newline; chr 12; creturn; space]))) s = true -> name_ok sep s.
Proof.
  intros N F. split; [exact N|]. intros c I. rewrite forallb_forall in F. specialize (F c I). apply negb_true_iff in F.
  assert (X : forall d, In d (sep :: [tab; newline; chr 12; creturn; space]) -> c <> d).
  { intros d Hd ->. assert (T : existsb (Ascii.eqb d) (sep :: [tab; newline; chr 12; creturn; space]) = true)
      by (apply existsb_exists; exists d; split; [exact Hd|apply Ascii.eqb_refl]). congruence. }
  split; [intros W; apply (X c); [right; exact W|reflexivity]|apply X; left; reflexivity].
Qed.

Lemma result0_ok h t runs ns mb : name_ok (chr 47) (B h) -> name_ok (chr 45) (B t) -> small runs ->
  decb (B ns) = true -> (exists q, pf0 (B ns) = Some q) ->
  match mb with Some m => decb m = true /\ exists q, pf0 m = Some q | None => True end -> result_ok pf0 (result0 h t runs ns mb).
Proof.
  intros H1 H2 H3 H4 H5 H6. unfold result_ok, result0. cbn [rs_handler rs_test rs_cpus rs_runs rs_bytes rs_allocs rs_nanos rs_mb].
  split; [exact H1|]. split; [exact H2|]. split; [vm_compute; reflexivity|]. split; [exact H3|].
  split; [vm_compute; reflexivity|]. split; [vm_compute; reflexivity|]. split; [split; [apply decimal_is, decb_iff, H4|exact H5]|].
  destruct mb; [|exact Logic.I]. split; [apply decimal_is, decb_iff, H6|apply H6].
Qed.

Lemma output0_ok : Forall (output_ok pf0) output0 /\ short_lines (output_text output0).
Proof.
  split; [|apply PropMerge.short_text; vm_compute; discriminate].
  assert (O : forall s, existsb (Ascii.eqb newline) s = false -> strip_lit (B "Benchmark") s = None -> output_ok pf0 (Other s)).
  { intros s H1 H2. split.
    - intros I. assert (T : existsb (Ascii.eqb newline) s = true) by (apply existsb_exists; exists newline; split; [exact I|reflexivity]).
      congruence.
    - intros t ->. rewrite strip_app in H2. discriminate. }
  assert (W : forall h t runs ns mb, name_ok (chr 47) (B h) -> name_ok (chr 45) (B t) -> small runs ->
    decb (B ns) = true -> (exists q, pf0 (B ns) = Some q) ->
    match mb with Some m => decb m = true /\ exists q, pf0 m = Some q | None => True end ->
    output_ok pf0 (Result gap0 (result0 h t runs ns mb))).
  { intros. split; [apply gap0_ok|apply result0_ok; assumption]. }
  unfold output0. repeat first [apply Forall_nil | apply Forall_cons]; try (apply O; reflexivity);
    (apply W; [apply name_ok_test; [discriminate|reflexivity]|apply name_ok_test; [discriminate|reflexivity]|
               vm_compute; reflexivity|reflexivity|eexists; reflexivity|
               first [exact Logic.I | split; [reflexivity|eexists; reflexivity]]]).
Qed.

Example C40_ex :
  let (b, e) := parse_bench PropMerge.world0 pf0 (output_text output0) new_bench in
  e = false /\
  option_map (fun x => (t_runs x, Qred (t_nanos x), Qred (t_mb x), Qred (t_gb x))) (record_at (b_by_test b) (B "Bench.Simple") (B "slog_json"))
    = Some (1500%N, (4803 # 4)%Q, (13 # 1)%Q, (13 # 1000)%Q) /\
  option_map (fun x => (t_runs x, Qred (t_nanos x), Qred (t_mb x), Qred (t_gb x))) (record_at (b_by_handler b) (B "slog_json") (B "Bench.Simple"))
    = Some (1500%N, (4803 # 4)%Q, (13 # 1)%Q, 0%Q) /\
  record_at (b_by_test b) (B "Bench.BigGroup") (B "phsym") = None /\
  b_handler_name b (B "slog_json") = B "slog/JSONHandler" /\ b_warning_text b = B "Warnings for phsym:".
Proof. vm_compute. repeat split; reflexivity. Qed.

(** The line "go test" writes with one CPU. *)
Example C40_no_hyphen_ex : let s := B "BenchmarkX/BenchmarkSimple   1000  12.5 ns/op  3 B/op  1 allocs/op" in
  ~ In (chr 45) s /\ snd (parse_bench PropMerge.world0 pf0 s new_bench) = false /\
  b_by_test (fst (parse_bench PropMerge.world0 pf0 s new_bench)) = [].
Proof.
  cbv zeta. split; [|vm_compute; split; reflexivity].
  intros I. assert (T : existsb (Ascii.eqb (chr 45)) (B "BenchmarkX/BenchmarkSimple   1000  12.5 ns/op  3 B/op  1 allocs/op") = true)
    by (apply existsb_exists; exists (chr 45); split; [exact I|reflexivity]). discriminate.
Qed.
