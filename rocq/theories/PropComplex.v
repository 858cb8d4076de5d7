(** C59: the programs of the verification suite.  The interpreter accepts exactly
    the records that agree with the meaning of the program, and flash and sloggy
    pass with every program. *)

From Coq Require Import Ascii String List ZArith NArith Bool Arith Lia QArith Qcanon.
From Verif Require Import Bytes BytesProofs GoSort Json JsonProofs Slog SlogProofs SpecLog SpecFlash SpecSloggy SpecText Flash Sloggy FlashProofs SloggyMeaning Replace
  PropReplace Warnings BenchChecks SpecChecks ChecksProofs Samples ChecksSamples PropBigGroup PropSuite PropSloggyRecord PropFlashRecord EscapeProofs
  Complex SpecComplex ComplexProofs ComplexRecord.
From Verif Require FlashRecord.
From Verif Require QuoteProofs.
Import ListNotations.
Local Open Scope nat_scope.
Local Open Scope list_scope.

Local Notation crlf := [chr 13; newline].

(** ** The test as a whole *)

(** A case with its verdict: the statement of a program whose record does not
    agree. *)
Inductive judged (mark : warning -> bool) (X : tools) (E : env) (text : bytes -> bool) (num : bytes -> option Qc) : bytes * bytes -> option bytes -> Prop :=
| judged_right t c ss a l fs rec m : spells (x_table X) ss a l t -> good_program text num X ss l ->
    program_json text ss l = Some fs -> decode num (JObj fs) = Some (DMap rec) -> e_unmarshal E c = (Some m, None) ->
    agreeing (if mark level_case then Some (e_casing E) else None) rec m -> judged mark X E text num (t, c) None
| judged_wrong t c ss a l fs rec m : spells (x_table X) ss a l t -> good_program text num X ss l ->
    program_json text ss l = Some fs -> decode num (JObj fs) = Some (DMap rec) -> e_unmarshal E c = (Some m, None) ->
    ~ agreeing (if mark level_case then Some (e_casing E) else None) rec m -> judged mark X E text num (t, c) (Some (program_text ss a l)).

(** The programs judged wrong, with their statements, in order. *)
Fixpoint wrongs (cases : list (bytes * bytes)) (vs : list (option bytes)) : list (bytes * bytes) :=
  match cases, vs with
  | (t, _) :: cases', Some s :: vs' => (t, s) :: wrongs cases' vs'
  | _ :: cases', None :: vs' => wrongs cases' vs'
  | _, _ => []
  end.

(** Text at the right edge of a column. *)
Definition right_aligned (n : nat) (s : bytes) : bytes := repeat " "%char (n - length (runes s)) ++ s.
Fixpoint lines_of (l : list bytes) : bytes :=
  match l with [] => [] | x :: l' => [newline] ++ x ++ lines_of l' end.
Definition report (ws : list (bytes * bytes)) : bytes :=
  right_aligned 3 (dec_of_N (N.of_nat (length ws))) ++ B " Mismatches:" ++
  lines_of (map (fun e => right_aligned 18 (fst e) ++ B ": " ++ snd e) ws).

Section Test.
Variable X : tools.
Variable E : env.
Variable text : bytes -> bool.
Variable num : bytes -> option Qc.
Hypothesis INTS : reads_ints num X.
Hypothesis MAPS : unmarshals_maps E.
Hypothesis TEXTS : forall s, text s = true -> valid_utf8 s = true.

Lemma judged_case mark tc v : neutral mark -> judged mark X E text num tc v ->
  complex_case X mark E (fst tc) (snd tc) =
  match v with
  | None => ([], Some None)
  | Some s => ((if mark mismatch then [] else [Differs (fst tc)]), Some (Some (fst tc, s)))
  end.
Proof.
  intros N [t c ss a l fs rec m S0 G J D U A|t c ss a l fs rec m S0 G J D U A];
    destruct (case_agreeing X mark text num N INTS TEXTS E MAPS ss a l t c m fs rec S0 G J D U) as [[H1 H2]|[H1 H2]]; cbn [fst snd];
    try exact H2; contradiction.
Qed.

Lemma judged_cases mark cases vs rest : neutral mark -> Forall2 (judged mark X E text num) cases vs -> forall mm,
  complex_cases X mark E (cases ++ rest) mm =
  let (f, r) := complex_cases X mark E rest (fold_left (fun m e => put (fst e) (snd e) m) (wrongs cases vs) mm) in
  ((if mark mismatch then [] else map (fun e => Differs (fst e)) (wrongs cases vs)) ++ f, r).
Proof.
  intros N. induction 1 as [|[t c] v cases vs Q F IH]; intros mm.
  - cbn [app wrongs fold_left map]. destruct (complex_cases X mark E rest mm) as [f r]. destruct (mark mismatch); reflexivity.
  - cbn [app complex_cases]. pose proof (judged_case mark _ _ N Q) as JC. cbn [fst snd] in JC. rewrite JC. destruct v as [s|]; cbn [wrongs fold_left map fst snd].
    + rewrite IH. destruct (complex_cases X mark E rest _) as [f r]. destruct (mark mismatch); reflexivity.
    + rewrite IH. destruct (complex_cases X mark E rest _) as [f r]. reflexivity.
Qed.

Lemma puts_distinct (ws : list (bytes * bytes)) : NoDup (map fst ws) -> forall mm : gomap bytes, (forall k, In k (map fst ws) -> ~ In k (map fst mm)) ->
  fold_left (fun m e => put (fst e) (snd e) m) ws mm = mm ++ ws.
Proof.
  induction ws as [|[k v] ws IH]; intros N mm D; [now rewrite app_nil_r|]. cbn [fold_left fst snd map] in *. inversion N as [|x l NI N']; subst.
  rewrite put_new by (apply get_none; unfold GoSort.keys; apply D; now left). rewrite IH; [now rewrite <- app_assoc|exact N'|].
  intros x I J. rewrite map_app, in_app_iff in J. destruct J as [J|[J|[]]]; [apply (D x); [now right|exact J]|].
  cbn in J. subst. contradiction.
Qed.

Lemma wrongs_keys cases vs k : In k (map fst (wrongs cases vs)) -> In k (map fst cases).
Proof.
  revert vs. induction cases as [|[t c] cases IH]; intros [|[s|] vs]; cbn [wrongs map fst In]; try tauto.
  - intros [->|I]; [now left|right; now apply (IH vs)].
  - intros I. right. now apply (IH vs).
Qed.
Lemma wrongs_nodup cases vs : NoDup (map fst cases) -> NoDup (map fst (wrongs cases vs)).
Proof.
  revert vs. induction cases as [|[t c] cases IH]; intros [|[s|] vs] N; cbn [wrongs map fst] in *; try constructor; inversion N; subst.
  - intros I. apply H1. now apply wrongs_keys in I.
  - now apply IH.
  - now apply IH.
Qed.

Lemma join_lines x l : join_with [newline] (x :: l) = x ++ lines_of l.
Proof.
  revert x. induction l as [|y l IH]; intros x; [symmetry; apply app_nil_r|].
  change (join_with [newline] (x :: y :: l)) with (x ++ [newline] ++ join_with [newline] (y :: l)). rewrite IH. reflexivity.
Qed.

Lemma test_is cases vs m : neutral (fun w => has_warning (e_use E) w m) -> has_warning (e_use E) skip_dedup m = false ->
  NoDup (map fst cases) -> Forall2 (judged (fun w => has_warning (e_use E) w m) X E text num) cases vs ->
  test_complex X E cases m =
  match wrongs cases vs with
  | [] => ([], m)
  | ws => ((if has_warning (e_use E) mismatch m then [] else map (fun e => Differs (fst e)) ws),
           add_warning mismatch (e_fn E) (report ws) (last (map snd cases) []) m)
  end.
Proof.
  intros N SK ND F. unfold test_complex. rewrite SK.
  pose proof (judged_cases _ cases vs [] N F []) as Q. rewrite app_nil_r in Q. cbn [complex_cases] in Q. rewrite app_nil_r in Q.
  rewrite puts_distinct in Q; [|now apply wrongs_nodup|intros k _ []]. cbn [app] in Q. rewrite Q. clear Q.
  destruct (wrongs cases vs) as [|w ws]; [destruct (has_warning (e_use E) mismatch m); reflexivity|].
  cbv iota. f_equal. f_equal. unfold report. cbn [map lines_of]. rewrite join_lines. unfold pad_left, right_aligned. rewrite <- ?app_assoc. reflexivity.
Qed.
End Test.

(** *** What is accepted

    For one program: whatever the logger wrote, the case passes, without a failure
    and without a mismatch, exactly if the record that was read agrees with the
    meaning of the program.  If it does not, the mismatch is noted with the
    statement of the program, and it is a failure unless Mismatch is marked. *)
Theorem C59_oracle X E num mark ss a l t captured m :
  reads_ints num X -> unmarshals_maps E -> neutral mark ->
  spells (x_table X) ss a l t -> good_program valid_utf8 num X ss l -> e_unmarshal E captured = (Some m, None) ->
  exists fs rec, program_json valid_utf8 ss l = Some fs /\ decode num (JObj fs) = Some (DMap rec) /\
  (exists p, parse X mark (new_parser t) = (p, true) /\ p_calls p = [(program_ops ss, l)]) /\
  let upper := if mark level_case then Some (e_casing E) else None in
  (complex_case X mark E t captured = ([], Some None) <-> agreeing upper rec m) /\
  (complex_case X mark E t captured = ((if mark mismatch then [] else [Differs t]), Some (Some (t, program_text ss a l))) <-> ~ agreeing upper rec m).
Proof.
  intros RI MA N S0 G U. destruct (program_decode X mark valid_utf8 num N RI (fun _ V => V) ss l G) as (fs & rec & J & D & _).
  exists fs, rec. split; [exact J|]. split; [exact D|]. split.
  { destruct (run_ok X mark N ss a l t S0) as (p & P1 & _ & P3 & _). exists p. now split. }
  destruct (case_agreeing X mark valid_utf8 num N RI (fun _ V => V) E MA ss a l t captured m fs rec S0 G J D U) as [[H1 H2]|[H1 H2]];
    unfold upper in H1; rewrite H2; (split; split; intros Q; try assumption; try reflexivity; try (now (exfalso; apply H1 || apply Q))); discriminate.
Qed.

(** For the test: nothing is recorded if all records agree; else one warning, the
    text of which lists the programs with a wrong record, in order, each with its
    statement, and each of them is a failure unless Mismatch is marked. *)
Theorem C59_test X E num cases vs m :
  reads_ints num X -> unmarshals_maps E -> neutral (fun w => has_warning (e_use E) w m) -> has_warning (e_use E) skip_dedup m = false ->
  NoDup (map fst cases) -> Forall2 (judged (fun w => has_warning (e_use E) w m) X E valid_utf8 num) cases vs ->
  (Forall (fun v => v = None) vs -> test_complex X E cases m = ([], m)) /\
  (~ Forall (fun v => v = None) vs ->
   test_complex X E cases m =
     ((if has_warning (e_use E) mismatch m then [] else map (fun e => Differs (fst e)) (wrongs cases vs)),
      add_warning mismatch (e_fn E) (report (wrongs cases vs)) (last (map snd cases) []) m)).
Proof.
  intros RI MA N SK ND F. pose proof (test_is X E valid_utf8 num RI MA (fun _ V => V) cases vs m N SK ND F) as T.
  assert (W : wrongs cases vs = [] <-> Forall (fun v => v = None) vs).
  { clear - F. induction F as [|[t c] v cases vs Q F IH]; [split; constructor|]. destruct v as [s|]; cbn [wrongs].
    - split; [discriminate|]. intros H. inversion H; discriminate.
    - rewrite IH. split; [now constructor|]. intros H. now inversion H. }
  split; intros A; rewrite T.
  - apply W in A. now rewrite A.
  - destruct (wrongs cases vs); [|reflexivity]. destruct A. now apply W.
Qed.

(** An output that is not JSON ends the test there: the mismatches before it are
    not recorded as a warning, and the programs after it are not run. *)
Theorem C59_not_json X E num cases vs t captured err x rest m ss a l :
  reads_ints num X -> unmarshals_maps E -> neutral (fun w => has_warning (e_use E) w m) -> has_warning (e_use E) skip_dedup m = false ->
  Forall2 (judged (fun w => has_warning (e_use E) w m) X E valid_utf8 num) cases vs ->
  spells (x_table X) ss a l t -> e_unmarshal E captured = (x, Some err) ->
  test_complex X E (cases ++ (t, captured) :: rest) m =
    ((if has_warning (e_use E) mismatch m then [] else map (fun e => Differs (fst e)) (wrongs cases vs)) ++ [Not_json], m).
Proof.
  intros RI MA N SK F S0 U. unfold test_complex. rewrite SK.
  rewrite (judged_cases X E valid_utf8 num RI MA (fun _ V => V) _ cases vs _ N F []). cbn [complex_cases].
  destruct (run_ok X _ N ss a l t S0) as (p & P1 & _). unfold complex_case. rewrite P1, U. reflexivity.
Qed.

(** *** The handlers *)

Lemma nest_ext (f g : list attr -> option fields) ops l : f l = g l -> Forall (fun o => f (op_attrs o) = g (op_attrs o)) ops ->
  nest f ops l = nest g ops l.
Proof.
  intros L F. induction F as [|o ops H F IH]; [exact L|]. destruct o as [m|nm]; cbn [nest op_attrs] in *.
  - now rewrite H, IH.
  - destruct nm; [exact IH|]. now rewrite IH.
Qed.

Lemma program_ops_attrs (P : list attr -> Prop) ss : P [] -> Forall (fun s => P (step_attrs s)) ss -> Forall (fun o => P (op_attrs o)) (program_ops ss).
Proof.
  intros P0 F. unfold program_ops. induction F as [|s ss H F IH]; [constructor|]. cbn [map concat]. apply Forall_app. split; [|exact IH].
  destruct s as [c b m|b m]; cbn [step_ops step_attrs] in *.
  - constructor; [exact P0|]. destruct m; constructor; [exact H|constructor].
  - destruct m; constructor; [exact H|constructor].
Qed.

Lemma sound_steps (P : attr -> Prop) ss l : Forall P (program_attrs ss l) -> Forall (fun s => Forall P (step_attrs s)) ss /\ Forall P l.
Proof.
  unfold program_attrs. intros F. apply Forall_app in F. destruct F as [F FL]. split; [|exact FL].
  induction ss as [|s ss IH]; [constructor|]. cbn [map concat] in F. apply Forall_app in F. constructor; tauto.
Qed.

Lemma flash_mean std num X lay v : sound_value valid_utf8 num X v -> forall k, k <> [] ->
  meaning flash_any (flash_time lay) str (flash_resolved std) k v =
  meaning (fun _ => None) (fun _ => None) (string_json valid_utf8) (resolved_json valid_utf8) k v.
Proof.
  revert v. apply (value_rect' (fun v => sound_value valid_utf8 num X v -> forall k, k <> [] ->
    meaning flash_any (flash_time lay) str (flash_resolved std) k v =
    meaning (fun _ => None) (fun _ => None) (string_json valid_utf8) (resolved_json valid_utf8) k v)); try reflexivity.
  - intros a S0. inversion S0.
  - intros t S0. inversion S0.
  - intros l F S0 k K. inversion S0 as [| | | | | | |l' NE FL]; subst.
    destruct k as [|c k]; [contradiction|]. cbn [meaning].
    assert (G : (fix go (l : list (bytes * value)) : option fields :=
           match l with
           | [] => Some []
           | (k', v') :: l' => match meaning flash_any (flash_time lay) str (flash_resolved std) k' v', go l' with Some a, Some b => Some (a ++ b) | _, _ => None end
           end) l =
         (fix go (l : list (bytes * value)) : option fields :=
           match l with
           | [] => Some []
           | (k', v') :: l' => match meaning (fun _ => None) (fun _ => None) (string_json valid_utf8) (resolved_json valid_utf8) k' v', go l' with
                               | Some a, Some b => Some (a ++ b) | _, _ => None end
           end) l).
    { clear NE S0. induction F as [|[k' v'] l H F IH]; [reflexivity|]. inversion FL as [|a b Q FL']; subst. cbn [fst snd] in *.
      rewrite H by tauto. rewrite IH by exact FL'. reflexivity. }
    rewrite G. reflexivity.
  - intros nx o IH S0 k K. inversion S0; subst. cbn [meaning]. reflexivity.
Qed.

Lemma flash_attrs std num X lay l : Forall (sound valid_utf8 num X) l -> flash_meanings std lay l = attrs_json valid_utf8 l.
Proof.
  induction 1 as [|[k v] l (K & _ & S0) F IH]; [reflexivity|]. unfold flash_meanings, attrs_json in *. cbn [meanings fst snd] in *.
  rewrite IH, (flash_mean std num X lay v S0 k K). reflexivity.
Qed.

(** The options of the test: infra.SimpleOptions. *)
Definition simple_options : options := {| o_add_source := false; o_replace := None |}.

(** What flash writes for a program called at some time. *)
Definition flash_writes (std : stdlib) (ss : list step) (l : list attr) (s : stamp) (out : bytes) : Prop :=
  logs std simple_options None (program_ops ss) NoDead (record_of_call (0%Z, test_message, l) s) (Done [out] true).

Section Time.
Variable num : bytes -> option Qc.

(** A time in front of the record and a change of the order of the keys in Go's
    map make no difference. *)
Lemma time_agreeing cs (mark : bool) time (t0 : bytes) fs rec : casing_ok cs -> (time = [] \/ time = [(TimeKey, JStr t0)] /\ valid_utf8 t0 = true) ->
  decode num (JObj ([(LevelKey, JStr (B "INFO")); (MessageKey, JStr (B "This is a message"))] ++ fs)) = Some (DMap rec) ->
  (forall k, In k (map fst fs) -> ~ In k reserved) ->
  exists rec', decode num (JObj (time ++ [(LevelKey, JStr (B "INFO")); (MessageKey, JStr (B "This is a message"))] ++ fs)) = Some (DMap rec') /\
    forall m', valid (DMap m') -> same (DMap rec') (DMap m') -> agreeing (if mark then Some cs else None) rec m'.
Proof.
  intros CS T D K.
  set (base := put MessageKey (DStr (B "This is a message")) (put LevelKey (DStr (B "INFO")) [])).
  set (base' := put MessageKey (DStr (B "This is a message")) (put LevelKey (DStr (B "INFO")) (match time with [] => [] | _ => put TimeKey (DStr t0) [] end))).
  assert (D0 : decode_fields num fs base = Some rec).
  { change (match decode_fields num fs base with Some m => Some (DMap m) | None => None end = Some (DMap rec)) in D. destruct (decode_fields num fs base) as [z|]; [injection D as ->; reflexivity|discriminate]. }
  assert (DF : forall fs d d' r, decode_fields num fs d = Some r -> exists r', decode_fields num fs d' = Some r' /\
    forall k, get k r = get k r' \/ (~ In k (map fst fs) /\ get k r = get k d /\ get k r' = get k d')).
  { clear. induction fs as [|[k j] fs IH]; intros d d' r H; cbn [decode_fields] in *.
    - injection H as <-. exists d'. split; [reflexivity|]. intros k. right. auto.
    - destruct (valid_utf8 k); [|discriminate]. destruct (decode num j) as [v|]; [|discriminate]. destruct (IH _ (put k v d') _ H) as (r' & R & Q). exists r'. split; [exact R|].
      intros x. destruct (Q x) as [Y|(NI & Y1 & Y2)]; [now left|]. rewrite get_put in Y1, Y2. destruct (beq k x) eqn:B0; [left; congruence|].
      right. cbn [map fst In]. repeat split; auto. intros [->|I]; [rewrite beq_refl in B0; discriminate|contradiction]. }
  destruct (DF fs base base' rec D0) as (rec' & R & Q). exists rec'.
  assert (DR : decode num (JObj (time ++ [(LevelKey, JStr (B "INFO")); (MessageKey, JStr (B "This is a message"))] ++ fs)) = Some (DMap rec')).
  { destruct T as [-> | [-> VT]]; [|rewrite decode_obj; cbn [app decode_fields decode]; rewrite VT];
      change (match decode_fields num fs base' with Some m => Some (DMap m) | None => None end = Some (DMap rec')); now rewrite R. }
  split; [exact DR|]. intros m' V SM. inversion SM as [| | | | |x y GS]; subst.
  assert (UP : map_runes (cs_upper cs) (B "INFO") = B "INFO").
  { rewrite map_runes_text. change (runes (B "INFO")) with [73%N; 78%N; 70%N; 79%N]. cbn [map].
    rewrite !(up_ascii cs CS) by lia. reflexivity. }
  assert (GB : forall k, k <> TimeKey -> get k base = get k base').
  { intros k NT. unfold base, base'. rewrite !get_put. destruct (beq MessageKey k); [reflexivity|]. destruct (beq LevelKey k); [reflexivity|].
    destruct time; [reflexivity|]. rewrite get_put. destruct (beq TimeKey k) eqn:X; [apply beq_eq in X; congruence|reflexivity]. }
  assert (GR : forall k, k <> TimeKey -> get k rec = get k rec').
  { intros k NT. destruct (Q k) as [Y|(_ & Y1 & Y2)]; [exact Y|]. rewrite Y1, Y2. now apply GB. }
  assert (KEY : forall k, In k reserved -> get k rec = get k base /\ get k rec' = get k base').
  { intros k I. assert (NI : ~ In k (map fst fs)) by (intros J; now apply (K k J)).
    assert (OUT : forall d r, decode_fields num fs d = Some r -> get k r = get k d).
    { clear - NI. induction fs as [|[x j] fs IH]; intros d r H; cbn [decode_fields] in H; [now injection H as <-|].
      destruct (valid_utf8 x); [|discriminate]. destruct (decode num j) as [v|]; [|discriminate]. rewrite (IH (fun J => NI (or_intror J)) _ _ H), get_put.
      destruct (beq x k) eqn:B0; [|reflexivity]. apply beq_eq in B0. subst. destruct NI. now left. }
    split; now apply OUT. }
  intros k. unfold looked_at. destruct (beq TimeKey k) eqn:K1.
  { apply beq_eq in K1. subst k. destruct (KEY TimeKey ltac:(cbn; tauto)) as [-> _]. apply slot_void; exact I. }
  assert (NT : k <> TimeKey) by (intros ->; rewrite beq_refl in K1; discriminate).
  destruct (beq (B "message") k) eqn:K2.
  { apply beq_eq in K2. subst k. destruct (KEY (B "message") ltac:(cbn; tauto)) as [-> _]. apply slot_void; exact I. }
  assert (SLOT : forall k, k <> TimeKey -> slot (get k rec) (get k m')).
  { intros z NZ. rewrite GR by exact NZ. pose proof (GS z) as SO. inversion SO as [E1 E2|v w SV E1 E2].
    - apply slot_void; exact I.
    - apply slot_both. assert (VR : valid (DMap rec')) by exact (decode_valid num _ _ DR). symmetry in E1, E2.
      assert (VV : valid v) by exact (valid_get z v rec' VR E1). assert (VW : valid w) by exact (valid_get z w m' V E2).
      apply agree_alike; [exact VV|exact VW|now apply same_alike]. }
  assert (SR : forall z, In z reserved -> z <> TimeKey -> same_option (get z base) (get z m')).
  { intros z Iz NZ. destruct (KEY z Iz) as [_ Y]. rewrite GB by exact NZ. rewrite <- Y. apply GS. }
  destruct (beq MessageKey k) eqn:K3.
  { apply beq_eq in K3. subst k. pose proof (SR (B "message") ltac:(cbn; tauto) ltac:(discriminate)) as SM'.
    change (get (B "message") base) with (@None dyn) in SM'. destruct (get (B "message") m') as [u|]; [inversion SM'|]. now apply SLOT. }
  destruct (beq LevelKey k) eqn:K4.
  { apply beq_eq in K4. subst k. pose proof (SR LevelKey ltac:(cbn; tauto) NT) as SL.
    destruct (KEY LevelKey ltac:(cbn; tauto)) as [Y _]. change (get LevelKey base) with (Some (DStr (B "INFO"))) in Y, SL. rewrite Y.
    assert (GL : get LevelKey m' = Some (DStr (B "INFO"))) by (destruct (get LevelKey m') as [w|]; inversion SL as [|? ? SV]; inversion SV; reflexivity).
    rewrite GL. destruct mark; [rewrite UP|]; apply slot_both, agree_leaf; try constructor; intros [? ?]; discriminate. }
  destruct mark; [|now apply SLOT]. pose proof (SLOT k NT) as SL. destruct (get k m') as [[]|]; exact SL.
Qed.

(** The names outside of all groups are those of the attributes and of one group. *)
Lemma nest_keys text X mark ss l fs : neutral mark -> reads_ints num X -> (forall s, text s = true -> valid_utf8 s = true) -> Forall (sound text num X) (program_attrs ss l) ->
  nest (attrs_json text) (program_ops ss) l = Some fs ->
  forall k, In k (map fst fs) -> In k (outer_keys ss l) \/ exists c, k = group_name c.
Proof.
  intros N RI TV. revert fs. induction ss as [|[c b m|b m] ss IH]; intros fs F H k I.
  - cbn [program_ops map concat nest outer_keys] in *.
    destruct (adds_all X mark text num l (sound_all X mark text num N RI TV l F)) as (fs' & E & K & _). rewrite E in H. injection H as <-.
    left. now rewrite <- K.
  - right. exists c. unfold program_ops in H. cbn [map concat step_ops] in H. rewrite <- app_comm_cons in H.
    change (nest (attrs_json text) (WithGroup (group_name c) :: attached m ++ concat (map step_ops ss)) l) with
      (if negb (SpecLog.plain (group_name c)) then None
       else if untouched l (attached m ++ concat (map step_ops ss)) then Some []
       else match nest (attrs_json text) (attached m ++ concat (map step_ops ss)) l with Some b => Some [(group_name c, JObj b)] | None => None end) in H.
    destruct (negb (SpecLog.plain (group_name c))); [discriminate|]. destruct (untouched l _); [injection H as <-; destruct I|].
    destruct (nest (attrs_json text) (attached m ++ concat (map step_ops ss)) l) as [b'|]; [|discriminate]. injection H as <-. destruct I as [<-|[]]. reflexivity.
  - unfold program_ops in H. cbn [map concat step_ops] in H. fold (program_ops ss) in H. rewrite nest_attached in H.
    unfold program_attrs in F. cbn [map concat step_attrs] in F. rewrite <- app_assoc in F. apply Forall_app in F. destruct F as [Fm F].
    destruct (adds_all X mark text num m (sound_all X mark text num N RI TV m Fm)) as (fm & E & K & _). rewrite E in H.
    destruct (nest (attrs_json text) (program_ops ss) l) as [fr|] eqn:NR; [|discriminate]. injection H as <-. rewrite map_app, in_app_iff in I. cbn [outer_keys].
    destruct I as [I|I]; [left; apply in_or_app; left; now rewrite <- K|].
    destruct (IH fr F eq_refl k I) as [J|J]; [left; apply in_or_app; now right|now right].
Qed.

Lemma unreserved text X mark ss l fs : neutral mark -> reads_ints num X -> (forall s, text s = true -> valid_utf8 s = true) -> good_program text num X ss l ->
  nest (attrs_json text) (program_ops ss) l = Some fs -> forall k, In k (map fst fs) -> ~ In k reserved.
Proof.
  intros N RI TV [GA GN GO GC] H k I J. destruct (nest_keys text X mark ss l fs N RI TV GA H k I) as [Y|[c ->]]; [now apply (GO k Y)|].
  cbn in J. decompose [or] J; try discriminate. assumption.
Qed.
End Time.

(** The record of a line that starts, or not, with a time. *)
Lemma line_agrees text num X mark E ss l fs rec time t0 line : neutral mark -> reads_ints num X -> casing_ok (e_casing E) -> unmarshal_ok num E -> (forall s, text s = true -> valid_utf8 s = true) ->
  good_program text num X ss l -> program_json text ss l = Some fs -> decode num (JObj fs) = Some (DMap rec) ->
  (time = [] \/ time = [(TimeKey, JStr t0)] /\ valid_utf8 t0 = true) -> parse_json line = Some (JObj (time ++ fs)) ->
  exists m, e_unmarshal E line = (Some m, None) /\ agreeing (if mark level_case then Some (e_casing E) else None) rec m.
Proof.
  intros N RI CS UN TV G J D T P. unfold program_json in J.
  destruct (nest (attrs_json text) (program_ops ss) l) as [gs|] eqn:NE; [|discriminate]. injection J as <-.
  destruct (time_agreeing num (e_casing E) (mark level_case) time t0 gs rec CS T D (unreserved num text X mark ss l gs N RI TV G NE)) as (rec' & D' & A).
  destruct (UN _ _ _ P D') as (m' & U & V & S0). exists m'. split; [exact U|]. now apply A.
Qed.

Lemma flash_line std num X ss l s : stdlib_ok std -> stamp_ok s -> Forall (sound valid_utf8 num X) (program_attrs ss l) -> forall fs, program_json valid_utf8 ss l = Some fs ->
  exists line time t0, flash_writes std ss l s (line ++ [newline]) /\ (time = [] \/ time = [(TimeKey, JStr t0)] /\ valid_utf8 t0 = true) /\ parse_json (line ++ [newline]) = Some (JObj (time ++ fs)).
Proof.
  intros STD [ST _] G fs J. unfold program_json in J. destruct (nest (attrs_json valid_utf8) (program_ops ss) l) as [gs|] eqn:NE; [|discriminate]. injection J as <-.
  set (time := if t_zero (s_time s) then [] else [(TimeKey, JStr (t_format (s_time s) layout))]).
  assert (HD : flash_header (FlashProofs.keys (fix_extras None)) layout (x_level_names (fix_extras None)) (o_add_source simple_options)
    (record_of_call (0%Z, test_message, l) s) = Some (time ++ [(LevelKey, JStr (B "INFO")); (MessageKey, JStr (B "This is a message"))])).
  { unfold flash_header, time. cbn [FlashProofs.keys record_of_call Slog.r_level Slog.r_msg Slog.r_time Slog.r_source simple_options o_add_source].
    destruct (t_zero (s_time s)); [reflexivity|]. rewrite ST by reflexivity. reflexivity. }
  assert (NM : nest (flash_meanings std layout) (program_ops ss) l = Some gs).
  { rewrite <- NE. destruct (sound_steps _ _ _ G) as [FS FL]. apply nest_ext.
    - now apply (flash_attrs std num X).
    - apply (program_ops_attrs (fun m => flash_meanings std layout m = attrs_json valid_utf8 m)); [reflexivity|].
      rewrite Forall_forall in *. intros st I. apply (flash_attrs std num X). now apply FS. }
  destruct (FlashRecord.flash_record_json std STD simple_options None (program_ops ss) (record_of_call (0%Z, test_message, l) s) _ _ eq_refl HD NM) as (line & L & P & _).
  exists line, time, (t_format (s_time s) layout). split; [exact L|]. split.
  - unfold time. destruct (t_zero (s_time s)) eqn:TZ; [now left|right]. split; [reflexivity|]. specialize (ST eq_refl).
    unfold SpecLog.plain in ST. apply andb_true_iff in ST. tauto.
  - apply parse_newline. rewrite P, <- app_assoc. reflexivity.
Qed.

(** With every program, at any time, flash has exactly one output, and the case
    passes. *)
Theorem C59_flash std num X E mark ss a l t s :
  stdlib_ok std -> reads_ints num X -> unmarshals_maps E -> unmarshal_ok num E -> casing_ok (e_casing E) -> neutral mark ->
  spells (x_table X) ss a l t -> good_program valid_utf8 num X ss l -> stamp_ok s ->
  exists out, (forall o, logs std simple_options None (program_ops ss) NoDead (record_of_call (0%Z, test_message, l) s) o <-> o = Done [out] true) /\
    complex_case X mark E t out = ([], Some None).
Proof.
  intros STD RI MA UN CS N S0 G SO. destruct (program_decode X mark valid_utf8 num N RI (fun _ V => V) ss l G) as (fs & rec & J & D & _).
  destruct (flash_line std num X ss l s STD SO (good_attrs _ _ _ _ _ G) fs J) as (line & time & t0 & W & T & P).
  exists (line ++ [newline]). split.
  - intros o. split; [intros L; exact (logs_fun std _ _ _ _ _ _ _ L W)|intros ->; exact W].
  - destruct (line_agrees valid_utf8 num X mark E ss l fs rec time t0 _ N RI CS UN (fun _ V => V) G J D T P) as (m & U & A).
    destruct (case_agreeing X mark valid_utf8 num N RI (fun _ V => V) E MA ss a l t _ m fs rec S0 G J D U) as [[H1 H2]|[H1 H2]]; [exact H2|contradiction].
Qed.

(** A case of a handler: some program, and what the handler writes for it. *)
Definition case_of (text : bytes -> bool) (num : bytes -> option Qc) (X : tools) (writes : list step -> list attr -> bytes -> Prop) (tc : bytes * bytes) : Prop :=
  exists ss a l, spells (x_table X) ss a l (fst tc) /\ good_program text num X ss l /\ writes ss l (snd tc).

Lemma handler_passes text num X E writes cases m : reads_ints num X -> unmarshals_maps E ->
  neutral (fun w => has_warning (e_use E) w m) -> has_warning (e_use E) skip_dedup m = false ->
  (forall tc, case_of text num X writes tc -> complex_case X (fun w => has_warning (e_use E) w m) E (fst tc) (snd tc) = ([], Some None)) ->
  Forall (case_of text num X writes) cases -> test_complex X E cases m = ([], m).
Proof.
  intros RI MA N SK H F. unfold test_complex. rewrite SK.
  assert (Q : complex_cases X (fun w => has_warning (e_use E) w m) E cases [] = ([], Some [])).
  { induction F as [|[t c] cases C F IH]; [reflexivity|]. cbn [complex_cases]. pose proof (H _ C) as K. cbn [fst snd] in K. rewrite K, IH. reflexivity. }
  rewrite Q. reflexivity.
Qed.

(** The test, with any list of programs: flash passes it, and nothing is recorded. *)
Theorem C59_flash_test std num X E cases m :
  stdlib_ok std -> reads_ints num X -> unmarshals_maps E -> unmarshal_ok num E -> casing_ok (e_casing E) ->
  neutral (fun w => has_warning (e_use E) w m) -> has_warning (e_use E) skip_dedup m = false ->
  Forall (case_of valid_utf8 num X (fun ss l out => exists s, stamp_ok s /\ flash_writes std ss l s out)) cases ->
  test_complex X E cases m = ([], m).
Proof.
  intros STD RI MA UN CS N SK F. apply (handler_passes valid_utf8 num X E _ cases m RI MA N SK) in F; [exact F|].
  intros [t c] (ss & a & l & S0 & G & s & SO & W). cbn [fst snd] in *.
  destruct (C59_flash std num X E _ ss a l t s STD RI MA UN CS N S0 G SO) as (out & L & K).
  apply L in W. injection W as ->. exact K.
Qed.

(** The exception: attributes outside of all groups, one of them named as a group
    that is opened after them and stays empty.  slog drops the group, flash writes
    the attribute, and the case calls that a mismatch. *)
Theorem C59_clash std num X E mark b m c z t s :
  stdlib_ok std -> reads_ints num X -> unmarshals_maps E -> unmarshal_ok num E -> casing_ok (e_casing E) -> neutral mark ->
  spells (x_table X) [Attach b m; Open c z []] zero [] t -> good_program valid_utf8 num X [Attach b m] [] ->
  SpecLog.plain (group_name c) = true -> In (group_name c) (map fst m) -> stamp_ok s ->
  exists out, (forall o, logs std simple_options None [WithAttrs m; WithGroup (group_name c)] NoDead (record_of_call (0%Z, test_message, []) s) o <-> o = Done [out] true) /\
    (forall o, logs std simple_options None [WithAttrs m] NoDead (record_of_call (0%Z, test_message, []) s) o <-> o = Done [out] true) /\
    complex_case X mark E t out =
      ((if mark mismatch then [] else [Differs t]), Some (Some (t, program_text [Attach b m; Open c z []] zero []))).
Proof.
  intros STD RI MA UN CS N S0 G PL IN SO. destruct (program_decode X mark valid_utf8 num N RI (fun _ V => V) [Attach b m] [] G) as (fs & rec & J & D & VR & AR).
  assert (MC : exists x m', m = x :: m') by (destruct m as [|x m']; [destruct IN|eauto]).
  assert (OPS : program_ops [Attach b m; Open c z []] = [WithAttrs m; WithGroup (group_name c)] /\ program_ops [Attach b m] = [WithAttrs m]).
  { destruct MC as (x & m' & ->). split; reflexivity. } destruct OPS as [O1 O2].
  assert (A1 : program_attrs [Attach b m; Open c z []] [] = program_attrs [Attach b m] []).
  { unfold program_attrs. cbn [map concat step_attrs app]. now rewrite !app_nil_r. }
  pose proof (good_attrs _ _ _ _ _ G) as GA.
  destruct (flash_line std num X [Attach b m] [] s STD SO GA fs J) as (line & time & t0 & W & T & P).
  assert (L : forall o, logs std simple_options None [WithAttrs m] NoDead (record_of_call (0%Z, test_message, []) s) o <-> o = Done [line ++ [newline]] true).
  { unfold flash_writes in W. rewrite O2 in W. intros o. split; [intros Q; exact (logs_fun std _ _ _ _ _ _ _ Q W)|intros ->; exact W]. }
  exists (line ++ [newline]). split; [|split; [exact L|]].
  { intros o. rewrite <- L. symmetry. apply (C12_flash_empty_groups_elided std simple_options None [WithAttrs m] [group_name c]); [reflexivity|].
    repeat constructor. discriminate. }
  destruct (line_agrees valid_utf8 num X mark E [Attach b m] [] fs rec time t0 _ N RI CS UN (fun _ V => V) G J D T P) as (mm & U & A).
  destruct (case_is X mark valid_utf8 num N RI (fun _ V => V) E MA _ zero [] t _ mm S0 ltac:(rewrite A1; exact GA) U) as (VM & [[H1 H2]|[H1 H2]]); [|exact H2].
  exfalso. apply (agreeing_alike mark E rec mm VR VM) in A.
  pose proof (alike_trans _ _ _ (alike_trans _ _ _ (alike_sym _ _ AR) A) (alike_sym _ _ H1)) as Q.
  assert (V1 : valid (DMap (conc X mark true [] [Attach b m] []))) by (apply (conc_valid X mark valid_utf8 num N RI (fun _ V => V)); [exact GA|repeat constructor]).
  assert (V2 : valid (DMap (conc X mark true [] [Attach b m; Open c z []] []))) by (apply (conc_valid X mark valid_utf8 num N RI (fun _ V => V)); [rewrite A1; exact GA|repeat constructor]).
  pose proof (proj1 (alike_map _ _ (valid_wf _ V1) (valid_wf _ V2)) Q (group_name c)) as Q'. clear Q. rename Q' into Q.
  cbn [conc basics_if adds fold_left] in Q. rewrite !get_basics in Q. destruct (group_not_basic c) as [N1 N2]. rewrite N1, N2, get_put_same in Q.
  change (shown (Some (DMap (adds X mark [] [])))) with (@None dyn) in Q.
  assert (NV : ~ void (get (group_name c) (adds X mark m []))).
  { apply (adds_in X mark valid_utf8 num m); [|exact IN]. apply (sound_all X mark valid_utf8 num N RI (fun _ V => V)).
    unfold program_attrs in GA. cbn [map concat step_attrs] in GA. now rewrite !app_nil_r in GA. }
  rewrite void_shown in NV. destruct (shown _); [inversion Q|contradiction].
Qed.

(** ** sloggy *)

Lemma json_safe_valid print s : json_safe print s = true -> valid_utf8 s = true.
Proof.
  unfold json_safe. destruct (code_points s) as [rs|] eqn:C; [|discriminate]. intros _. apply QuoteProofs.code_points_iff in C.
  destruct C as [C ->]. now apply QuoteProofs.text_valid.
Qed.

(** The time is printed without characters that JSON escapes. *)
Definition sloggy_stamp_ok (std : stdlib) (s : stamp) : Prop :=
  t_zero (s_time s) = false -> json_safe (sl_print std) (t_format (s_time s) RFC3339Nano) = true.

Definition sloggy_writes (std : stdlib) (ss : list step) (l : list attr) (s : stamp) (out : bytes) : Prop :=
  swritten std simple_options (program_ops ss) NoDead (record_of_call (0%Z, test_message, l) s) out true.

Lemma swritten_fun std o ops d r t1 ok1 t2 ok2 : swritten std o ops d r t1 ok1 -> swritten std o ops d r t2 ok2 -> t1 = t2 /\ ok1 = ok2.
Proof.
  intros (w1 & (n1 & H1) & <-) (w2 & (n2 & H2) & <-).
  destruct (H1 (max n1 n2)) as (g1 & D1 & E1); [lia|]. destruct (H2 (max n1 n2)) as (g2 & D2 & E2); [lia|].
  rewrite D1 in D2. injection D2 as <-. rewrite E1 in E2. injection E2 as -> ->. now split.
Qed.

Lemma parse_crlf line v : parse_json line = Some v -> parse_json (line ++ crlf) = Some v.
Proof.
  intros H. apply parse_json_iff in H. destruct H as [w1 [b [w2 [-> [W1 [J W2]]]]]].
  apply parse_json_iff. exists w1, b, (w2 ++ crlf). rewrite <- !app_assoc. split; [reflexivity|]. split; [exact W1|].
  split; [exact J|]. unfold ws in *. rewrite forallb_app, W2. reflexivity.
Qed.

Lemma sound_empty text num X v : sound_value text num X v -> empty_value v = false.
Proof.
  revert v. apply (value_rect' (fun v => sound_value text num X v -> empty_value v = false)); try reflexivity.
  intros l F S0. inversion S0 as [| | | | | | |l' NE FL]; subst. destruct l as [|[k v] l]; [contradiction|].
  change (empty_group ((k, v) :: l) = false). rewrite empty_group_cons. inversion F as [|? ? H1 H2]; subst. inversion FL as [|? ? (K & _ & S1) FL']; subst.
  cbn [fst snd] in *. rewrite H1 by exact S1. destruct k as [|c k]; [contradiction|]. reflexivity.
Qed.

Section Sloggy.
Variable std : stdlib.
Variable num : bytes -> option Qc.
Variable X : tools.
Variable mark : warning -> bool.
Hypothesis N : neutral mark.
Hypothesis RI : reads_ints num X.
Local Notation text := (json_safe (sl_print std)).

Lemma sloggy_mean v : sound_value text num X v -> forall k, k <> [] ->
  smeaning std 100 k v = meaning (fun _ => None) (fun _ => None) (string_json text) (resolved_json text) k v.
Proof.
  revert v. apply (value_rect' (fun v => sound_value text num X v -> forall k, k <> [] ->
    smeaning std 100 k v = meaning (fun _ => None) (fun _ => None) (string_json text) (resolved_json text) k v));
    try (intros x S0 k K; destruct k as [|c k]; [contradiction|]; reflexivity).
  - intros a S0. inversion S0.
  - intros t S0. inversion S0.
  - intros l F S0 k K. inversion S0 as [| | | | | | |l' NE FL]; subst.
    change 100 with (S 99). rewrite smeaning_group, group_mean by exact K. pose proof (sound_empty text num X _ S0) as EG. change (empty_group l = false) in EG. rewrite EG.
    assert (G : sloggy_meanings std l = attrs_json text l).
    { clear NE S0 EG. induction F as [|[k' v'] l H F IH]; [reflexivity|]. inversion FL as [|a b (Q1 & Q2 & Q3) FL']; subst. cbn [fst snd] in *.
      cbn [sloggy_meanings]. rewrite attrs_json_cons. cbn [fst snd]. rewrite H; [|exact Q3|exact Q1].
      rewrite IH by exact FL'. reflexivity. }
    destruct (adds_all X mark text num l (sound_all X mark text num N RI (json_safe_valid _) l FL)) as (fs & E & KS & _). rewrite G, E.
    destruct k as [|c k]; [contradiction|]. destruct fs; [destruct l; [contradiction|discriminate]|reflexivity].
  - intros nx o IH S0 k K. inversion S0 as [| | | | | |s o' TS|]; subst. destruct k as [|c k]; [contradiction|]. reflexivity.
Qed.

Lemma sloggy_attrs l : Forall (sound text num X) l -> sloggy_meanings std l = attrs_json text l.
Proof.
  induction 1 as [|[k v] l (K & _ & S0) F IH]; [reflexivity|]. cbn [sloggy_meanings fst snd] in *. rewrite attrs_json_cons. cbn [fst snd].
  rewrite IH, (sloggy_mean v S0 k K). reflexivity.
Qed.

Lemma sloggy_line ss l s : stdlib_ok std -> sloggy_stamp_ok std s -> good_program text num X ss l -> forall fs, program_json text ss l = Some fs ->
  exists line time t0, sloggy_writes std ss l s (line ++ crlf) /\ (time = [] \/ time = [(TimeKey, JStr t0)] /\ valid_utf8 t0 = true) /\ parse_json (line ++ crlf) = Some (JObj (time ++ fs)).
Proof.
  intros STD ST G fs J. unfold program_json in J. destruct (nest (attrs_json text) (program_ops ss) l) as [gs|] eqn:NE; [|discriminate]. injection J as <-.
  set (time := if t_zero (s_time s) then [] else [(TimeKey, JStr (t_format (s_time s) RFC3339Nano))]).
  assert (HD : sloggy_header std (o_add_source simple_options) (record_of_call (0%Z, test_message, l) s)
    = Some (time ++ [(LevelKey, JStr (B "INFO")); (MessageKey, JStr (B "This is a message"))])).
  { unfold sloggy_header, time. cbn [record_of_call Slog.r_level Slog.r_msg Slog.r_time Slog.r_source simple_options o_add_source].
    change (text test_message) with true.
    destruct (t_zero (s_time s)) eqn:TZ; [reflexivity|]. rewrite ST by exact TZ. reflexivity. }
  assert (NM : nest (sloggy_meanings std) (program_ops ss) l = Some gs).
  { rewrite <- NE. destruct (sound_steps _ _ _ (good_attrs _ _ _ _ _ G)) as [FS FL]. apply nest_ext.
    - now apply sloggy_attrs.
    - apply (program_ops_attrs (fun m => sloggy_meanings std m = attrs_json text m)); [reflexivity|].
      rewrite Forall_forall in *. intros st I. apply sloggy_attrs. now apply FS. }
  destruct (C18_sloggy_record_json std STD simple_options (program_ops ss) (record_of_call (0%Z, test_message, l) s) _ _ eq_refl HD NM) as (line & L & P & _).
  exists line, time, (t_format (s_time s) RFC3339Nano). split; [exact L|]. split.
  - unfold time. destruct (t_zero (s_time s)) eqn:TZ; [now left|right]. split; [reflexivity|]. exact (json_safe_valid _ _ (ST TZ)).
  - apply parse_crlf. rewrite P, <- app_assoc. reflexivity.
Qed.
End Sloggy.

Theorem C59_sloggy std num X E mark ss a l t s :
  stdlib_ok std -> reads_ints num X -> unmarshals_maps E -> unmarshal_ok num E -> casing_ok (e_casing E) -> neutral mark ->
  spells (x_table X) ss a l t -> good_program (json_safe (sl_print std)) num X ss l -> sloggy_stamp_ok std s ->
  exists out, (forall o ok, swritten std simple_options (program_ops ss) NoDead (record_of_call (0%Z, test_message, l) s) o ok <-> o = out /\ ok = true) /\
    complex_case X mark E t out = ([], Some None).
Proof.
  intros STD RI MA UN CS N S0 G SO. destruct (program_decode X mark _ num N RI (json_safe_valid _) ss l G) as (fs & rec & J & D & _).
  destruct (sloggy_line std num X mark N RI ss l s STD SO G fs J) as (line & time & t0 & W & T & P).
  exists (line ++ crlf). split.
  - intros o ok. split; [intros L; exact (swritten_fun std _ _ _ _ _ _ _ _ L W)|intros [-> ->]; exact W].
  - destruct (line_agrees _ num X mark E ss l fs rec time t0 _ N RI CS UN (json_safe_valid _) G J D T P) as (m & U & A).
    destruct (case_agreeing X mark _ num N RI (json_safe_valid _) E MA ss a l t _ m fs rec S0 G J D U) as [[H1 H2]|[H1 H2]]; [exact H2|contradiction].
Qed.

Theorem C59_sloggy_test std num X E cases m :
  stdlib_ok std -> reads_ints num X -> unmarshals_maps E -> unmarshal_ok num E -> casing_ok (e_casing E) ->
  neutral (fun w => has_warning (e_use E) w m) -> has_warning (e_use E) skip_dedup m = false ->
  Forall (case_of (json_safe (sl_print std)) num X (fun ss l out => exists s, sloggy_stamp_ok std s /\ sloggy_writes std ss l s out)) cases ->
  test_complex X E cases m = ([], m).
Proof.
  intros STD RI MA UN CS N SK F. apply (handler_passes _ num X E _ cases m RI MA N SK) in F; [exact F|].
  intros [t c] (ss & a & l & S0 & G & s & SO & W). cbn [fst snd] in *.
  destruct (C59_sloggy std num X E _ ss a l t s STD RI MA UN CS N S0 G SO) as (out & L & K).
  apply L in W. destruct W as [-> _]. exact K.
Qed.

(** ** The programs there are

    Each of the 35 programs is spelled with the table Attributes, and its attributes
    can be logged, whatever time it is. *)
Section Programs.
Variables now pi e : bytes.
Variable o : any_obs.
Variable text : bytes -> bool.
Variable num : bytes -> option Qc.
Variable X : tools.
Hypothesis TABLE : x_table X = attributes_table now pi e o.
Hypothesis ASCII : forall s, forallb (fun c => N.leb 32 (code c) && N.ltb (code c) 127) s = true -> text s = true.
Hypothesis NOW : text now = true.
Hypothesis PI : is_num pi = true /\ num pi = Some (x_float X pi).
Hypothesis EU : is_num e = true /\ num e = Some (x_float X e).

Lemma table_sound c l : x_table X c = Some l -> Forall (sound text num X) l.
Proof.
  rewrite TABLE. unfold attributes_table. intros H.
  repeat match type of H with (if ?b then _ else _) = _ => destruct b end; try discriminate; injection H as <-;
    repeat match goal with
      | |- Forall _ (_ :: _) => constructor
      | |- Forall _ [] => constructor
      | |- sound _ _ _ _ => split; [discriminate|split; [apply ASCII; reflexivity|]]
      | |- _ /\ _ /\ sound_value _ _ _ _ => split; [discriminate|split; [apply ASCII; reflexivity|]]
      | |- sound_value _ _ _ (snd _) => cbn [snd]
      | |- sound_value _ _ _ (VFloat64 _) => constructor; tauto
      | |- sound_value _ _ _ (VString now) => constructor; exact NOW
      | |- sound_value _ _ _ (VString _) => constructor; apply ASCII; reflexivity
      | |- sound_value _ _ _ (VLogValuer _ _) => constructor; apply ASCII; reflexivity
      | |- sound_value _ _ _ (VGroup _) => constructor; [discriminate|]
      | |- sound_value _ _ _ _ => constructor; lia
      end.
Qed.

Lemma table_keys c l k : x_table X c = Some l -> In k (map fst l) -> ~ In k reserved.
Proof.
  rewrite TABLE. unfold attributes_table. intros H.
  repeat match type of H with (if ?b then _ else _) = _ => destruct b end; try discriminate; injection H as <-; cbn [map fst In];
    intros K; decompose [or] K; try contradiction; subst k; cbn; intros J; decompose [or] J; try discriminate; assumption.
Qed.

Lemma spells_sound ss a l t : spells (x_table X) ss a l t -> Forall (sound text num X) (program_attrs ss l).
Proof.
  assert (A : forall x b m, args (x_table X) x b m -> Forall (sound text num X) m).
  { intros x b m [|c l' T]; [constructor|exact (table_sound c l' T)]. }
  induction 1 as [ss a l t S0 IH|c x b m ss a l t AR S0 IH|x b m ss a l t AR S0 IH|x a l t AR _]; [exact IH| | |].
  - unfold program_attrs. cbn [map concat step_attrs]. rewrite <- app_assoc. apply Forall_app. split; [exact (A _ _ _ AR)|exact IH].
  - unfold program_attrs. cbn [map concat step_attrs]. rewrite <- app_assoc. apply Forall_app. split; [exact (A _ _ _ AR)|exact IH].
  - exact (A _ _ _ AR).
Qed.

Lemma spells_outer ss a l t : spells (x_table X) ss a l t -> forall k, In k (outer_keys ss l) -> ~ In k reserved.
Proof.
  assert (A : forall x b m k, args (x_table X) x b m -> In k (map fst m) -> ~ In k reserved).
  { intros x b m k [|c l' T]; [intros []|exact (table_keys c l' k T)]. }
  induction 1 as [ss a l t S0 IH|c x b m ss a l t AR S0 IH|x b m ss a l t AR S0 IH|x a l t AR _]; cbn [outer_keys]; intros k I.
  - exact (IH k I).
  - destruct I.
  - apply in_app_or in I. destruct I as [I|I]; [exact (A _ _ _ _ AR I)|exact (IH k I)].
  - exact (A _ _ _ _ AR I).
Qed.

Ltac spell :=
  match goal with
  | |- spells _ _ _ _ (" "%char :: _) => apply spell_space; spell
  | |- spells _ _ _ _ ("G"%char :: ?c :: "+"%char :: ?b :: ?t) =>
      refine (spell_open _ c ["+"%char; b] b _ _ _ _ t _ _); [rewrite TABLE; apply args_some; reflexivity|spell]
  | |- spells _ _ _ _ ("G"%char :: ?c :: ?t) => refine (spell_open _ c [] zero [] _ _ _ t _ _); [apply args_none|spell]
  | |- spells _ _ _ _ ("W"%char :: "+"%char :: ?b :: ?t) =>
      refine (spell_with _ ["+"%char; b] b _ _ _ _ t _ _); [rewrite TABLE; apply args_some; reflexivity|spell]
  | |- spells _ _ _ _ ["M"%char; "+"%char; ?b] =>
      refine (spell_message _ ["+"%char; b] b _ [] _ _); [rewrite TABLE; apply args_some; reflexivity|constructor]
  | |- spells _ _ _ _ ["M"%char] => refine (spell_message _ [] zero [] [] _ _); [apply args_none|constructor]
  end.

Theorem C59_programs : NoDup programs /\ length programs = 35 /\
  forall t, In t programs -> exists ss a l, spells (x_table X) ss a l t /\ good_program text num X ss l.
Proof.
  split; [|split; [reflexivity|]].
  { unfold programs. repeat (constructor; [cbn [In]; intros K; decompose [or] K; try discriminate; assumption|]). constructor. }
  intros t I.
  assert (Q : exists ss a l, spells (x_table X) ss a l t /\ Forall openable ss /\ clash_free [] ss l).
  { unfold programs in I. cbn [In] in I.
    repeat (destruct I as [<-|I]; [do 3 eexists; split; [cbn [B list_ascii_of_string]; spell|split; [repeat constructor|]]; cbn; repeat split; try discriminate; try (intros _ K); decompose [or] K; try discriminate; try assumption|]).
    destruct I. }
  destruct Q as (ss & a & l & S0 & OP & CF). exists ss, a, l. split; [exact S0|]. constructor; [|exact OP| |exact CF].
  - exact (spells_sound _ _ _ _ S0).
  - exact (spells_outer _ _ _ _ S0).
Qed.
End Programs.

Lemma suite_cases text num X (writes : list step -> list attr -> bytes -> Prop) :
  (forall ss a l t, spells (x_table X) ss a l t -> good_program text num X ss l -> exists out, writes ss l out) ->
  forall ts, (forall t, In t ts -> exists ss a l, spells (x_table X) ss a l t /\ good_program text num X ss l) ->
  exists cases, map fst cases = ts /\ Forall (case_of text num X writes) cases.
Proof.
  intros W. induction ts as [|t ts IH]; intros H; [exists []; split; [reflexivity|constructor]|].
  destruct IH as (cases & <- & F); [intros u I; apply H; now right|].
  destruct (H t (or_introl eq_refl)) as (ss & a & l & S0 & G). destruct (W ss a l t S0 G) as (out & O).
  exists ((t, out) :: cases). split; [reflexivity|]. constructor; [|exact F]. exists ss, a, l. auto.
Qed.

(** The test as it is: at any time both handlers write one record per program, and
    pass.  (For sloggy [now] must be text that it quotes as JSON does.) *)
Theorem C59_suite std num X E m now pi e o :
  stdlib_ok std -> reads_ints num X -> unmarshals_maps E -> unmarshal_ok num E -> casing_ok (e_casing E) ->
  neutral (fun w => has_warning (e_use E) w m) -> has_warning (e_use E) skip_dedup m = false ->
  x_table X = attributes_table now pi e o -> json_safe (sl_print std) now = true -> valid_utf8 now = true ->
  is_num pi = true /\ num pi = Some (x_float X pi) -> is_num e = true /\ num e = Some (x_float X e) ->
  (forall s, stamp_ok s -> exists cases, map fst cases = programs /\
     Forall (case_of valid_utf8 num X (fun ss l out => flash_writes std ss l s out)) cases /\ test_complex X E cases m = ([], m)) /\
  (forall s, sloggy_stamp_ok std s -> exists cases, map fst cases = programs /\
     Forall (case_of (json_safe (sl_print std)) num X (fun ss l out => sloggy_writes std ss l s out)) cases /\ test_complex X E cases m = ([], m)).
Proof.
  intros STD RI MA UN CS N SK TB NJ NV PI EU. split; intros s SO.
  - destruct (suite_cases valid_utf8 num X (fun ss l out => flash_writes std ss l s out)) with (ts := programs) as (cases & M & F).
    + intros ss a l t S0 G. destruct (C59_flash std num X E _ ss a l t s STD RI MA UN CS N S0 G SO) as (out & L & _). exists out. now apply L.
    + apply (C59_programs now pi e o valid_utf8 num X TB); [|exact NV|exact PI|exact EU].
      intros u A. apply valid_ascii. rewrite forallb_forall in *. intros x I. specialize (A x I). apply andb_true_iff in A. destruct A as [_ A].
      apply N.ltb_lt in A. apply N.ltb_lt. lia.
    + exists cases. split; [exact M|]. split; [exact F|]. apply (C59_flash_test std num X E cases m STD RI MA UN CS N SK).
      eapply Forall_impl; [|exact F]. intros tc (ss & a & l & S0 & G & W). exists ss, a, l. eauto.
  - destruct (suite_cases (json_safe (sl_print std)) num X (fun ss l out => sloggy_writes std ss l s out)) with (ts := programs) as (cases & M & F).
    + intros ss a l t S0 G. destruct (C59_sloggy std num X E _ ss a l t s STD RI MA UN CS N S0 G SO) as (out & L & _). exists out. now apply L.
    + apply (C59_programs now pi e o (json_safe (sl_print std)) num X TB); [|exact NJ|exact PI|exact EU].
      intros u A. now apply ascii_safe.
    + exists cases. split; [exact M|]. split; [exact F|]. apply (C59_sloggy_test std num X E cases m STD RI MA UN CS N SK).
      eapply Forall_impl; [|exact F]. intros tc (ss & a & l & S0 & G & W). exists ss, a, l. eauto.
Qed.

Print Assumptions C59_oracle.
Print Assumptions C59_test.
Print Assumptions C59_not_json.
Print Assumptions C59_flash.
Print Assumptions C59_flash_test.
Print Assumptions C59_sloggy.
Print Assumptions C59_sloggy_test.
Print Assumptions C59_clash.
Print Assumptions C59_programs.
Print Assumptions C59_suite.

(** ** Examples *)

Definition e_text0 : bytes := B "2.718281828459045".
Definition now0 : bytes := B "2024-03-01T10:00:00Z".
Definition tools0 : tools :=
  {| x_float := fun t => match num0 t with Some q => q | None => 0%Qc end; x_int := fun z => Q2Qc (inject_Z z);
     x_seconds := fun z => Q2Qc (inject_Z z); x_duration := fun _ => B "1h3m22s"; x_string := fun _ => []; x_other := fun _ => DNull;
     x_table := attributes_table now0 pi_text0 e_text0 obj0 |}.

Example C59_hypotheses_ex : stdlib_ok std0 /\ reads_ints num0 tools0 /\ unmarshals_maps (env0 true) /\ unmarshal_ok num0 (env0 true) /\
  casing_ok (e_casing (env0 true)) /\ neutral (fun w => has_warning true w (manager0 [])) /\ has_warning true skip_dedup (manager0 []) = false /\
  json_safe (sl_print std0) now0 = true /\ valid_utf8 now0 = true /\
  (is_num pi_text0 = true /\ num0 pi_text0 = Some (x_float tools0 pi_text0)) /\ (is_num e_text0 = true /\ num0 e_text0 = Some (x_float tools0 e_text0)) /\
  stamp_ok stamp0 /\ sloggy_stamp_ok std0 stamp0 /\ t_zero (s_time stamp0) = false.
Proof.
  split; [exact std0_ok|]. split; [intros z _; apply num0_int|]. split.
  { intros c m. cbn [env0 e_unmarshal]. unfold unmarshal0. destruct (parse_json c) as [[]|]; try discriminate.
    destruct (decode num0 (JObj l)) as [[]|] eqn:D; try discriminate. intros [= <-]. exact (decode_valid num0 _ _ D). }
  split; [apply env0_unmarshal|]. split; [exact casing0_ok|]. split; [repeat constructor|].
  repeat split; vm_compute; reflexivity || discriminate.
Qed.

(** What flash writes for a program, by running the model. *)
Definition ran (t : bytes) : bytes * bytes :=
  (t, match p_calls (fst (parse tools0 (fun _ => false) (new_parser t))) with
      | [(ops, l)] => match run std0 40 simple_options None ops NoDead (record_of_call (0%Z, test_message, l) stamp0) with
                      | Some (Done [out] true) => out
                      | _ => []
                      end
      | _ => []
      end).
Definition cases0 : list (bytes * bytes) := map ran programs.

Example C59_flash_ex : test_complex tools0 (env0 true) cases0 (manager0 []) = ([], manager0 []).
Proof. vm_compute. reflexivity. Qed.

(** The records of the programs one later in the list are all mismatches, reported
    in one warning; a program whose output is not JSON ends the test without it. *)
Definition shifted0 : list (bytes * bytes) := combine programs (map snd (tl cases0)).
Example C59_wrong_ex :
  test_complex tools0 (env0 true) shifted0 (manager0 []) =
    (map (fun tc => Differs (fst tc)) shifted0,
     snd (test_complex tools0 (env0 true) shifted0 (manager0 []))) /\
  length shifted0 = 34 /\ length (m_warnings (snd (test_complex tools0 (env0 true) shifted0 (manager0 [])))) = 1 /\
  test_complex tools0 (env0 true) (shifted0 ++ [(B "M", B "{")]) (manager0 []) =
    (map (fun tc => Differs (fst tc)) shifted0 ++ [Not_json], manager0 []).
Proof. vm_compute. repeat split; reflexivity. Qed.

(** An attribute named as a group that stays empty. *)
Definition tools1 : tools :=
  {| x_float := x_float tools0; x_int := x_int tools0; x_seconds := x_seconds tools0; x_duration := x_duration tools0; x_string := x_string tools0;
     x_other := x_other tools0; x_table := fun c => if Ascii.eqb c "A"%char then Some [(B "group1", VInt64 7); (B "x", VBool true)] else None |}.
Example C59_clash_ex :
  let m := [(B "group1", VInt64 7); (B "x", VBool true)] in
  spells (x_table tools1) [Attach "A"%char m; Open "1"%char zero []] zero [] (B "W+A G1 M") /\ good_program valid_utf8 num0 tools1 [Attach "A"%char m] [] /\
  SpecLog.plain (group_name "1"%char) = true /\ In (group_name "1"%char) (map fst m) /\
  complex_case tools1 (fun _ => false) (env0 true) (B "W+A G1 M")
    (B "{""time"": ""2024-03-01T10:00:00Z"", ""level"": ""INFO"", ""msg"": ""This is a message"", ""group1"": 7, ""x"": true}" ++ [newline]) =
    ([Differs (B "W+A G1 M")], Some (Some (B "W+A G1 M", B "log.With(""A"").WithGroup(""group1"").Info(""This is a message"")"))).
Proof.
  intros m. split; [|split; [|split; [reflexivity|split; [now left|vm_compute; reflexivity]]]].
  - refine (spell_with _ ["+"%char; "A"%char] _ _ _ _ _ (B " G1 M") _ _); [now apply args_some|]. apply spell_space.
    refine (spell_open _ _ [] _ _ _ _ _ (B " M") _ _); [apply args_none|]. apply spell_space.
    refine (spell_message _ [] _ _ [] _ _); constructor.
  - constructor.
    + repeat constructor; try discriminate; cbn; lia.
    + repeat constructor.
    + cbn. intros k K J. decompose [or] K; subst; decompose [or] J; discriminate || assumption.
    + cbn. exact I.
Qed.
