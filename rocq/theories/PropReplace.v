(** Properties of package replace: C25 (Multiple) and C26 (the builders). *)

From Coq Require Import Ascii String List ZArith NArith Bool Lia.
From Verif Require Import Bytes BytesProofs GoQuote SpecText QuoteProofs Slog SlogProofs Replace.
Import ListNotations.

(** ** Specification *)

(** Running a list of functions one after the other as long as the attribute is
    there: the attribute and state at the end, the calls made being a prefix of
    the list. *)
Inductive in_turn {S} (gs : list bytes) : list (effect S) -> S -> attr -> S -> attr -> Prop :=
| turn_none s a : in_turn gs [] s a s a
| turn_gone fn rest s a s' : fn s gs a = Some (s', empty_attr) ->
    in_turn gs (fn :: rest) s a s' empty_attr
| turn_next fn rest s a s1 a1 s2 a2 : fn s gs a = Some (s1, a1) -> a1 <> empty_attr ->
    in_turn gs rest s1 a1 s2 a2 -> in_turn gs (fn :: rest) s a s2 a2.

(** The runes read from a string: a byte that does not begin a well-formed
    character counts as U+FFFD. *)
Inductive reads : bytes -> list N -> Prop :=
| reads_nil : reads [] []
| reads_rune r s rs : scalar r = true -> reads s rs -> reads (utf8_encode r ++ s) (r :: rs)
| reads_bad c s rs : decode_rune (c :: s) = None -> reads s rs -> reads (c :: s) (65533%N :: rs).

(** Two strings equal up to case. *)
Definition same_fold (cs : casing) (a b : bytes) : Prop :=
  exists ra rb, reads a ra /\ reads b rb /\ map (cs_fold cs) ra = map (cs_fold cs) rb.

(** The attributes a builder is aimed at. *)
Definition target (cs : casing) (key : bytes) (insensitive : bool) (chk : group_check)
    (gs : list bytes) (a : attr) : Prop :=
  (if insensitive then same_fold cs (fst a) key else fst a = key) /\
  (forall f, chk = Some f -> f gs = true).

(** What the Unicode tables and Value.String are known to do. *)
Definition ascii_lower (r : N) : N := if N.leb 65 r && N.leb r 90 then (r + 32)%N else r.
Definition ascii_upper (r : N) : N := if N.leb 97 r && N.leb r 122 then (r - 32)%N else r.

Record casing_ok (cs : casing) : Prop := {
  up_scalar : forall r, scalar r = true -> scalar (cs_upper cs r) = true;
  up_twice  : forall r, scalar r = true -> cs_upper cs (cs_upper cs r) = cs_upper cs r;
  lo_scalar : forall r, scalar r = true -> scalar (cs_lower cs r) = true;
  lo_twice  : forall r, scalar r = true -> cs_lower cs (cs_lower cs r) = cs_lower cs r;
  up_ascii  : forall r, (r < 128)%N -> cs_upper cs r = ascii_upper r;
  lo_ascii  : forall r, (r < 128)%N -> cs_lower cs r = ascii_lower r;
  fo_ascii  : forall r, (r < 128)%N -> cs_fold cs (ascii_lower r) = cs_fold cs r;
  string_id : forall s, cs_string cs (VString s) = s
}.

(** ** Lemmas *)

Lemma is_empty_iff a : is_empty a = true <-> a = empty_attr.
Proof.
  split; [|intros ->; reflexivity].
  destruct a as [[|c k] v]; cbn; [|discriminate].
  destruct v as [[|o]| | | | | | | | |]; try discriminate. reflexivity.
Qed.

Lemma is_empty_not a : is_empty a = false <-> a <> empty_attr.
Proof.
  rewrite <- is_empty_iff. destruct (is_empty a); split; congruence.
Qed.

Lemma decode_length s r rest : decode_rune s = Some (r, rest) -> length rest < length s.
Proof.
  intros H. apply decode_iff in H. destruct H as [_ ->].
  destruct (encode_nonempty r) as (c & t & ->). cbn. rewrite app_length. lia.
Qed.

Lemma runes_n_enough n : forall m s, length s <= n -> length s <= m -> runes_n n s = runes_n m s.
Proof.
  induction n as [|n IH]; intros m s Hn Hm.
  - destruct s; [|cbn in Hn; lia]. destruct m; reflexivity.
  - destruct s as [|c r]; [destruct m; reflexivity|].
    destruct m as [|m]; [cbn in Hm; lia|].
    cbn [runes_n]. destruct (decode_rune (c :: r)) as [[u rest]|] eqn:D.
    + pose proof (decode_length _ _ _ D) as L. cbn in *. f_equal. apply IH; lia.
    + cbn in *. f_equal. apply IH; lia.
Qed.

Lemma runes_rune r s : scalar r = true -> runes (utf8_encode r ++ s) = r :: runes s.
Proof.
  intros H. unfold runes. destruct (encode_nonempty r) as (c & t & E).
  assert (D := encode_decode r s H). rewrite E in *. cbn [app length runes_n] in *.
  rewrite D. f_equal. apply runes_n_enough; rewrite ?app_length; lia.
Qed.

Lemma runes_bad c s : decode_rune (c :: s) = None -> runes (c :: s) = rune_error :: runes s.
Proof. intros H. unfold runes. cbn [length runes_n]. rewrite H. reflexivity. Qed.

Lemma reads_runes s rs : reads s rs -> rs = runes s.
Proof.
  induction 1.
  - reflexivity.
  - rewrite runes_rune by assumption. congruence.
  - rewrite runes_bad by assumption. unfold rune_error. congruence.
Qed.

Lemma runes_reads_n n : forall s, length s <= n -> reads s (runes s).
Proof.
  induction n as [|n IH]; intros s L.
  - destruct s; [constructor|cbn in L; lia].
  - destruct s as [|c r]; [constructor|].
    destruct (decode_rune (c :: r)) as [[u rest]|] eqn:D.
    + pose proof (decode_length _ _ _ D) as L'. apply decode_iff in D. destruct D as [Hs ->].
      rewrite runes_rune by assumption. constructor; [assumption|]. apply IH. cbn in *; lia.
    + rewrite runes_bad by assumption. constructor; [assumption|]. apply IH. cbn in *; lia.
Qed.

Lemma runes_reads s : reads s (runes s).
Proof. apply (runes_reads_n (length s)). lia. Qed.

Lemma runes_scalar s : forallb scalar (runes s) = true.
Proof.
  generalize (runes_reads s). generalize (runes s). intros rs H. induction H; cbn [forallb].
  - reflexivity.
  - rewrite H. exact IHreads.
  - exact IHreads.
Qed.

Lemma runes_text rs : forallb scalar rs = true -> runes (text rs) = rs.
Proof.
  induction rs as [|r rs IH]; intros H; [reflexivity|].
  cbn [forallb] in H. apply andb_true_iff in H. destruct H as [H1 H2].
  rewrite text_cons, runes_rune by assumption. f_equal. auto.
Qed.

Lemma map_runes_text f s : map_runes f s = text (map f (runes s)).
Proof. unfold map_runes, text. rewrite map_map. reflexivity. Qed.

Lemma map_runes_twice f s :
  (forall r, scalar r = true -> scalar (f r) = true) ->
  (forall r, scalar r = true -> f (f r) = f r) ->
  map_runes f (map_runes f s) = map_runes f s.
Proof.
  intros Hs Ht. rewrite !map_runes_text. rewrite runes_text.
  - f_equal. rewrite map_map. apply map_ext_in. intros r Hr.
    apply Ht. pose proof (runes_scalar s) as A. rewrite forallb_forall in A. auto.
  - rewrite forallb_forall. intros r Hr. apply in_map_iff in Hr. destruct Hr as (x & <- & Hx).
    apply Hs. pose proof (runes_scalar s) as A. rewrite forallb_forall in A. auto.
Qed.

Lemma fold_eq_iff cs a : forall b, fold_eq cs a b = true <-> map (cs_fold cs) a = map (cs_fold cs) b.
Proof.
  induction a as [|x a IH]; intros [|y b]; cbn; try (split; congruence).
  rewrite andb_true_iff, N.eqb_eq, IH. split; [intros [-> ->]; reflexivity|].
  intros H; injection H; auto.
Qed.

Lemma equal_fold_iff cs a b : equal_fold cs a b = true <-> same_fold cs a b.
Proof.
  unfold equal_fold, same_fold. rewrite fold_eq_iff. split.
  - intros H. exists (runes a), (runes b). auto using runes_reads.
  - intros (ra & rb & Ha & Hb & H). apply reads_runes in Ha, Hb. congruence.
Qed.

Lemma check_iff cs gs a key ins chk :
  check_field_groups cs gs a key ins chk = true <-> target cs key ins chk gs a.
Proof.
  unfold check_field_groups, target. rewrite andb_true_iff.
  assert (A : (if ins then equal_fold cs (fst a) key else beq (fst a) key) = true <->
              (if ins then same_fold cs (fst a) key else fst a = key)).
  { destruct ins; [apply equal_fold_iff|apply beq_eq]. }
  rewrite A. destruct chk as [f|]; split; intros [H1 H2]; split; auto; try discriminate.
  intros g E. injection E as <-. exact H2.
Qed.

Lemma check_not cs gs a key ins chk :
  check_field_groups cs gs a key ins chk = false <-> ~ target cs key ins chk gs a.
Proof. rewrite <- check_iff. destruct check_field_groups; split; congruence. Qed.

(** ** C25 *)

(** Multiple runs its functions in turn and stops at the first that removes the
    attribute. *)
Theorem C25_in_turn {S} (fns : list (effect S)) gs s a s' a' :
  multiple fns s gs a = Some (s', a') <-> in_turn gs fns s a s' a'.
Proof.
  split.
  - revert s a. induction fns as [|fn rest IH]; intros s a H; cbn in H.
    + injection H as <- <-. constructor.
    + destruct (fn s gs a) as [[s1 a1]|] eqn:E; [|discriminate].
      destruct (is_empty a1) eqn:Em.
      * injection H as <- <-. apply is_empty_iff in Em. subst. constructor. exact E.
      * apply is_empty_not in Em. eapply turn_next; eauto.
  - induction 1; cbn.
    + reflexivity.
    + rewrite H. reflexivity.
    + rewrite H. apply is_empty_not in H0. rewrite H0. exact IHin_turn.
Qed.
Print Assumptions C25_in_turn.

(** A list in two parts: the second runs on the outcome of the first unless the
    first (not the empty list) removed the attribute. *)
Theorem C25_append {S} (l1 l2 : list (effect S)) s gs a :
  multiple (l1 ++ l2) s gs a =
  match multiple l1 s gs a with
  | None => None
  | Some (s', a') =>
      match l1 with
      | [] => multiple l2 s gs a
      | _ => if is_empty a' then Some (s', empty_attr) else multiple l2 s' gs a'
      end
  end.
Proof.
  destruct l1 as [|f l1]; [reflexivity|]. revert f s a.
  induction l1 as [|g l1 IH]; intros f s a; cbn [app].
  - cbn. destruct (f s gs a) as [[s' a']|]; [|reflexivity].
    destruct (is_empty a') eqn:E; rewrite E; [|reflexivity].
    apply is_empty_iff in E. subst. reflexivity.
  - change (multiple (f :: g :: l1 ++ l2) s gs a) with
      (match f s gs a with None => None
       | Some (s', a') => if is_empty a' then Some (s', a') else multiple ((g :: l1) ++ l2) s' gs a' end).
    change (multiple (f :: g :: l1) s gs a) with
      (match f s gs a with None => None
       | Some (s', a') => if is_empty a' then Some (s', a') else multiple (g :: l1) s' gs a' end).
    destruct (f s gs a) as [[s' a']|]; [|reflexivity].
    destruct (is_empty a') eqn:E.
    + rewrite E. apply is_empty_iff in E. subst. reflexivity.
    + rewrite IH. reflexivity.
Qed.
Print Assumptions C25_append.

(** The empty list changes nothing, and one function is itself. *)
Theorem C25_unit {S} (f : effect S) s gs a :
  multiple [] s gs a = Some (s, a) /\ multiple [f] s gs a = f s gs a.
Proof.
  split; [reflexivity|]. cbn. destruct (f s gs a) as [[s' a']|]; [|reflexivity].
  destruct (is_empty a'); reflexivity.
Qed.
Print Assumptions C25_unit.

(** Once a function has removed the attribute the others are not called: whatever
    they would do to the state, and even if they would panic. *)
Theorem C25_stops {S} (l1 : list (effect S)) f l2 s gs a s1 a1 s2 :
  in_turn gs l1 s a s1 a1 -> (l1 = [] \/ a1 <> empty_attr) -> f s1 gs a1 = Some (s2, empty_attr) ->
  multiple (l1 ++ f :: l2) s gs a = Some (s2, empty_attr).
Proof.
  intros H Ha Hf. apply C25_in_turn in H. rewrite C25_append, H.
  destruct l1 as [|g l1].
  - cbn in H. injection H as <- <-. cbn. rewrite Hf. reflexivity.
  - destruct Ha as [Ha|Ha]; [discriminate|]. apply is_empty_not in Ha. rewrite Ha.
    cbn. rewrite Hf. reflexivity.
Qed.
Print Assumptions C25_stops.

(** Multiple of Multiples is Multiple of the concatenation, on an attribute that
    is not empty. *)
Theorem C25_flatten {S} (ls : list (list (effect S))) s gs a : a <> empty_attr ->
  multiple (map multiple ls) s gs a = multiple (concat ls) s gs a.
Proof.
  revert s a. induction ls as [|l ls IH]; intros s a Ha; [reflexivity|].
  cbn [map concat]. rewrite C25_append. cbn [multiple].
  destruct l as [|f l].
  - cbn [multiple]. apply is_empty_not in Ha as E. rewrite E. apply IH, Ha.
  - destruct (multiple (f :: l) s gs a) as [[s' a']|]; [|reflexivity].
    destruct (is_empty a') eqn:E.
    + apply is_empty_iff in E. subst. reflexivity.
    + apply IH. apply is_empty_not, E.
Qed.
Print Assumptions C25_flatten.

(** For functions without effects. *)
Theorem C25_pure {S} (fns : list attr_fn) (s : S) gs a :
  multiple (map pure fns) s gs a = Some (s, multiple_fns fns gs a).
Proof.
  revert a. induction fns as [|f fns IH]; intros a; cbn; [reflexivity|].
  destruct (is_empty (f gs a)); [reflexivity|apply IH].
Qed.
Print Assumptions C25_pure.

(** ** C26 *)

(** The four builders. *)
Inductive builder : Type :=
| BKey (to : bytes) | BValue (chg : value -> value) | BCase (c : N) | BRemove.

Definition build (cs : casing) (b : builder) (key : bytes) (ins : bool) (chk : group_check) : attr_fn :=
  match b with
  | BKey to => change_key cs key to ins chk
  | BValue chg => change_value cs key chg ins chk
  | BCase c => change_case cs key c ins chk
  | BRemove => remove_key cs key ins chk
  end.

(** What is advertised for an attribute aimed at. *)
Definition advertised (cs : casing) (b : builder) (a : attr) : attr :=
  match b with
  | BKey to => (to, snd a)
  | BValue chg => (fst a, chg (snd a))
  | BCase 1 => (fst a, VString (text (map (cs_lower cs) (runes (cs_string cs (snd a))))))
  | BCase 2 => (fst a, VString (text (map (cs_upper cs) (runes (cs_string cs (snd a))))))
  | BCase _ => a
  | BRemove => ([], VAny AnyNil)
  end.

(** Any other attribute comes back unchanged. *)
Theorem C26_others cs b key ins chk gs a :
  ~ target cs key ins chk gs a -> build cs b key ins chk gs a = a.
Proof.
  intros H. apply check_not in H.
  destruct b; cbn; unfold change_key, change_value, remove_key, change_case; rewrite ?H; try reflexivity.
  destruct (negb _); [|reflexivity]. destruct (case_fn cs c); [|reflexivity].
  unfold change_value. rewrite H. reflexivity.
Qed.
Print Assumptions C26_others.

(** An attribute aimed at gets exactly the advertised change. *)
Theorem C26_target cs b key ins chk gs a :
  target cs key ins chk gs a -> build cs b key ins chk gs a = advertised cs b a.
Proof.
  intros H. apply check_iff in H.
  destruct b; cbn; unfold change_key, change_value, remove_key, change_case; rewrite ?H; try reflexivity.
  destruct c as [|[p|[p|p|]|]]; cbn; try reflexivity;
    unfold change_value; rewrite H, map_runes_text; reflexivity.
Qed.
Print Assumptions C26_target.

(** Which attributes are aimed at: the group checks. *)
Theorem C26_top cs key ins gs a :
  target cs key ins (Some top_check) gs a <-> target cs key ins None gs a /\ gs = [].
Proof.
  unfold target. split.
  - intros [H1 H2]. specialize (H2 _ eq_refl). split; [split; [exact H1|discriminate]|].
    destruct gs; [reflexivity|discriminate].
  - intros [[H1 _] ->]. split; [exact H1|]. intros f E. injection E as <-. reflexivity.
Qed.
Print Assumptions C26_top.

Theorem C26_current cs key ins name gs a :
  target cs key ins (Some (current name)) gs a <->
  target cs key ins None gs a /\ exists outer, gs = outer ++ [name].
Proof.
  assert (A : current name gs = true <-> exists outer, gs = outer ++ [name]).
  { unfold current. destruct gs as [|g gs] using rev_ind; [cbn; split; [discriminate|]|clear IHgs].
    - intros [o H]. destruct o; discriminate.
    - rewrite app_length. cbn [length]. replace (length gs + 1 - 1) with (length gs) by lia.
      replace (0 <? length gs + 1) with true by (symmetry; apply Nat.ltb_lt; lia).
      rewrite app_nth2, Nat.sub_diag by lia. cbn [nth andb]. rewrite beq_eq. split.
      + intros ->. exists gs. reflexivity.
      + intros [o H]. apply app_inj_tail in H. tauto. }
  unfold target. rewrite <- A. split.
  - intros [H1 H2]. split; [split; [exact H1|discriminate]|]. exact (H2 _ eq_refl).
  - intros [[H1 _] H2]. split; [exact H1|]. intros f E. injection E as <-. exact H2.
Qed.
Print Assumptions C26_current.

(** Case-insensitive matching is an equivalence containing equality and the ASCII
    case pairs. *)
Theorem C26_insensitive cs : casing_ok cs ->
  (forall a, same_fold cs a a) /\
  (forall a b, same_fold cs a b -> same_fold cs b a) /\
  (forall a b c, same_fold cs a b -> same_fold cs b c -> same_fold cs a c) /\
  (forall a, forallb (fun c => N.ltb (code c) 128) a = true ->
     same_fold cs a (map (fun c => chr (ascii_lower (code c))) a)).
Proof.
  intros ok. split; [|split; [|split]].
  - intros a. exists (runes a), (runes a). auto using runes_reads.
  - intros a b (x & y & H1 & H2 & H3). exists y, x. auto.
  - intros a b c (x & y & H1 & H2 & H3) (y' & z & H4 & H5 & H6).
    apply reads_runes in H2, H4. exists x, z. repeat split; auto. congruence.
  - intros a H. exists (map code a), (map (fun c => ascii_lower (code c)) a).
    induction a as [|c a IH]; [repeat split; constructor|].
    cbn [forallb] in H. apply andb_true_iff in H. destruct H as [H1 H2].
    apply N.ltb_lt in H1. destruct (IH H2) as (R1 & R2 & R3). cbn [map].
    assert (L : (ascii_lower (code c) < 128)%N).
    { unfold ascii_lower. destruct (N.leb 65 (code c) && N.leb (code c) 90) eqn:E; [|exact H1].
      apply andb_true_iff in E. destruct E as [_ E]. apply N.leb_le in E. lia. }
    assert (En : forall r, (r < 128)%N -> utf8_encode r = [chr r]).
    { intros r Hr. unfold utf8_encode. apply N.ltb_lt in Hr. rewrite Hr. reflexivity. }
    assert (Sc : forall r, (r < 128)%N -> scalar r = true).
    { intros r Hr. unfold scalar. replace (N.ltb r 55296) with true; [reflexivity|].
      symmetry. apply N.ltb_lt. lia. }
    repeat split.
    + replace (c :: a) with (utf8_encode (code c) ++ a) by (rewrite En, chr_code by exact H1; reflexivity).
      constructor; auto.
    + replace (chr (ascii_lower (code c)) :: map (fun c0 => chr (ascii_lower (code c0))) a)
        with (utf8_encode (ascii_lower (code c)) ++ map (fun c0 => chr (ascii_lower (code c0))) a)
        by (rewrite En by exact L; reflexivity).
      constructor; auto.
    + f_equal; [|exact R3]. symmetry. apply (fo_ascii cs ok). exact H1.
Qed.
Print Assumptions C26_insensitive.

(** Changing the case twice is changing it once, whatever the value was. *)
Theorem C26_case_twice cs key c ins chk gs a : casing_ok cs ->
  let f := change_case cs key c ins chk in f gs (f gs a) = f gs a.
Proof.
  intros ok f. destruct (check_field_groups cs gs a key ins chk) eqn:E.
  - assert (E' : forall v, check_field_groups cs gs (fst a, v) key ins chk = true).
    { intros v. exact E. }
    unfold f, change_case. destruct (negb (N.eqb c CaseNone)); [|reflexivity].
    unfold case_fn. destruct (N.eqb c CaseLower); [|destruct (N.eqb c CaseUpper); [|reflexivity]];
      unfold change_value; rewrite E, E'; cbn [fst snd]; rewrite (string_id cs ok); do 2 f_equal;
      apply map_runes_twice; apply ok.
  - assert (H : f gs a = a). { apply (C26_others cs (BCase c)). apply check_not, E. }
    rewrite !H. reflexivity.
Qed.
Print Assumptions C26_case_twice.

(** On ASCII text the case change is the familiar one, byte for byte. *)
Theorem C26_case_ascii cs key ins chk gs k s : casing_ok cs ->
  target cs key ins chk gs (k, VString s) ->
  forallb (fun c => N.ltb (code c) 128) s = true ->
  change_case cs key CaseUpper ins chk gs (k, VString s)
    = (k, VString (map (fun c => chr (ascii_upper (code c))) s)) /\
  change_case cs key CaseLower ins chk gs (k, VString s)
    = (k, VString (map (fun c => chr (ascii_lower (code c))) s)).
Proof.
  intros ok T A.
  assert (En : forall r, (r < 128)%N -> utf8_encode r = [chr r]).
  { intros r Hr. unfold utf8_encode. apply N.ltb_lt in Hr. rewrite Hr. reflexivity. }
  assert (Sc : forall r, (r < 128)%N -> scalar r = true).
  { intros r Hr. unfold scalar. replace (N.ltb r 55296) with true; [reflexivity|].
    symmetry. apply N.ltb_lt. lia. }
  assert (R : runes s = map code s).
  { clear T. induction s as [|c s IH]; [reflexivity|]. cbn [forallb] in A.
    apply andb_true_iff in A. destruct A as [A1 A2]. apply N.ltb_lt in A1.
    replace (c :: s) with (utf8_encode (code c) ++ s) at 1
      by (rewrite En, chr_code by exact A1; reflexivity).
    rewrite runes_rune by auto. cbn [map]. f_equal. auto. }
  assert (G : forall f g, (forall r, (r < 128)%N -> f r = g r /\ (g r < 128)%N) ->
              text (map f (runes s)) = map (fun c => chr (g (code c))) s).
  { intros f g H. rewrite R, map_map. clear T R.
    induction s as [|c s IH]; [reflexivity|]. cbn [forallb] in A.
    apply andb_true_iff in A. destruct A as [A1 A2]. apply N.ltb_lt in A1.
    cbn [map]. rewrite text_cons, IH by exact A2. destruct (H _ A1) as [H1 H2].
    rewrite H1, En by exact H2. reflexivity. }
  pose proof (C26_target cs (BCase CaseUpper) key ins chk gs _ T) as EU.
  pose proof (C26_target cs (BCase CaseLower) key ins chk gs _ T) as EL.
  cbn [build] in EU, EL. rewrite EU, EL. cbn. rewrite (string_id cs ok). split; do 2 f_equal; apply G; intros r Hr.
  - rewrite (up_ascii cs ok) by exact Hr. split; [reflexivity|].
    unfold ascii_upper. destruct (_ && _); lia.
  - rewrite (lo_ascii cs ok) by exact Hr. split; [reflexivity|].
    unfold ascii_lower. destruct (N.leb 65 r && N.leb r 90) eqn:E; [|exact Hr].
    apply andb_true_iff in E. destruct E as [_ E]. apply N.leb_le in E. lia.
Qed.
Print Assumptions C26_case_ascii.

(** ** Examples *)

(** A casing with the ASCII tables and the Kelvin sign. *)
Definition casing0 : casing := {|
  cs_upper := ascii_upper;
  cs_lower := fun r => if N.eqb r 8490 then 107%N else ascii_lower r;
  cs_fold  := fun r => if N.eqb r 8490 then 107%N else ascii_lower r;
  cs_string := fun v => match v with VString s => s | _ => B "other" end
|}.

Lemma casing0_ok : casing_ok casing0.
Proof.
  assert (U : forall r, ascii_upper (ascii_upper r) = ascii_upper r).
  { intros r. unfold ascii_upper. destruct (N.leb 97 r && N.leb r 122) eqn:E; [|rewrite E; reflexivity].
    apply andb_true_iff in E. destruct E as [E1 E2]. apply N.leb_le in E1, E2.
    replace (N.leb 97 (r - 32)) with false; [reflexivity|]. symmetry. apply N.leb_gt. lia. }
  assert (L : forall r, ascii_lower (ascii_lower r) = ascii_lower r).
  { intros r. unfold ascii_lower. destruct (N.leb 65 r && N.leb r 90) eqn:E; [|rewrite E; reflexivity].
    apply andb_true_iff in E. destruct E as [E1 E2]. apply N.leb_le in E1, E2.
    replace (N.leb (r + 32) 90) with false; [rewrite andb_false_r; reflexivity|].
    symmetry. apply N.leb_gt. lia. }
  assert (K : forall r, N.eqb r 8490 = false -> N.eqb (ascii_lower r) 8490 = false).
  { intros r H. unfold ascii_lower. destruct (N.leb 65 r && N.leb r 90) eqn:E; [|exact H].
    apply andb_true_iff in E. destruct E as [E1 E2]. apply N.leb_le in E1, E2.
    apply N.eqb_neq. lia. }
  assert (S1 : forall r, (r < 55296)%N -> scalar r = true).
  { intros r Hr. unfold scalar. replace (N.ltb r 55296) with true; [reflexivity|].
    symmetry. apply N.ltb_lt. exact Hr. }
  split; cbn.
  - intros r H. unfold ascii_upper. destruct (N.leb 97 r && N.leb r 122) eqn:E; [|exact H].
    apply andb_true_iff in E. destruct E as [E1 E2]. apply N.leb_le in E1, E2. apply S1. lia.
  - intros r _. apply U.
  - intros r H. destruct (N.eqb r 8490); [reflexivity|]. unfold ascii_lower.
    destruct (N.leb 65 r && N.leb r 90) eqn:E; [|exact H].
    apply andb_true_iff in E. destruct E as [E1 E2]. apply N.leb_le in E1, E2. apply S1. lia.
  - intros r _. destruct (N.eqb r 8490) eqn:E; [reflexivity|]. rewrite K by exact E. apply L.
  - reflexivity.
  - intros r H. destruct (N.eqb r 8490) eqn:E; [apply N.eqb_eq in E; lia|reflexivity].
  - intros r H. destruct (N.eqb r 8490) eqn:E; [apply N.eqb_eq in E; lia|].
    rewrite K by exact E. apply L.
  - reflexivity.
Qed.

(** C25: a log of the calls; the third function is not called although it is nil. *)
Definition noting (n : nat) (f : attr_fn) : effect (list nat) :=
  fun s gs a => Some (s ++ [n], f gs a).

Example C25_ex_stop :
  multiple [noting 1 (change_key casing0 (B "a") (B "b") false None);
            noting 2 (remove_key casing0 (B "B") true (Some top_check));
            nil_fn] [] [] (B "a", VInt64 1)
  = Some ([1; 2], empty_attr).
Proof. reflexivity. Qed.

Example C25_ex_group :
  multiple [noting 1 (change_key casing0 (B "a") (B "b") false None);
            noting 2 (remove_key casing0 (B "B") true (Some top_check));
            noting 3 (change_value casing0 (B "b") (set_value_to (VBool true)) false (Some (current (B "g"))))]
    [] [B "g"] (B "a", VInt64 1)
  = Some ([1; 2; 3], (B "b", VBool true)).
Proof. reflexivity. Qed.

(** A nil function panics when it is reached. *)
Example C25_ex_nil : multiple [noting 1 (fun _ a => a); nil_fn] [] [] (B "a", VInt64 1) = None.
Proof. reflexivity. Qed.

(** The law without its condition is false: the empty list does not stop on an
    attribute that is empty to begin with. *)
Example C25_ex_empty :
  multiple ([] ++ [noting 1 (fun _ a => a)]) [] [] empty_attr = Some ([1], empty_attr) /\
  multiple [multiple []; multiple [noting 1 (fun _ a => a)]] [] [] empty_attr = Some ([], empty_attr).
Proof. split; reflexivity. Qed.

(** C26: the targets, with the Kelvin sign matching the letter k. *)
Example C26_ex_kelvin :
  target casing0 (B "key") true (Some top_check) [] (utf8_encode 8490 ++ B "EY", VBool true).
Proof. apply check_iff. vm_compute. reflexivity. Qed.

Example C26_ex_not :
  ~ target casing0 (B "key") false (Some top_check) [] (B "KEY", VBool true) /\
  ~ target casing0 (B "key") false (Some top_check) [B "g"] (B "key", VBool true) /\
  ~ target casing0 (B "key") false (Some (current (B "g"))) [B "g"; B "h"] (B "key", VBool true).
Proof. repeat split; apply check_not; vm_compute; reflexivity. Qed.

(** An invalid byte becomes U+FFFD; a value that is not a string becomes one. *)
Example C26_ex_case :
  change_case casing0 (B "level") CaseUpper false (Some top_check) [] (B "level", VString (B "info" ++ [chr 255]))
    = (B "level", VString (B "INFO" ++ [chr 239; chr 191; chr 189])) /\
  change_case casing0 (B "level") CaseUpper false None [] (B "level", VBool true)
    = (B "level", VString (B "OTHER")) /\
  change_case casing0 (B "level") 7 false None [] (B "level", VBool true) = (B "level", VBool true).
Proof. vm_compute. repeat split; reflexivity. Qed.
