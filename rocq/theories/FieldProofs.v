(** Proofs about the field counter: fuel, progress, and a grammar over runes. *)

From Coq Require Import Ascii String List NArith Bool Arith Lia.
From Verif Require Import Bytes GoQuote Replace FieldCounter.
Import ListNotations.

(** ** More fuel does not change a result *)

Lemma more_fuel u n :
  (forall st r, parse_value n u st = Some r -> parse_value (S n) u st = Some r) /\
  (forall e st r, parse_array n u e st = Some r -> parse_array (S n) u e st = Some r) /\
  (forall f e st r, parse_field n u f e st = Some r -> parse_field (S n) u f e st = Some r) /\
  (forall k e st r, parse_object n u k e st = Some r -> parse_object (S n) u k e st = Some r).
Proof.
  induction n as [|n (IV & IA & IF & IO)].
  { repeat split; intros; discriminate. }
  repeat split.
  - intros [c s] r H. remember (S n) as m eqn:Em. cbn [parse_value]. rewrite Em in H. cbn [parse_value] in H. subst m.
    destruct s as [|x t]; [exact H|].
    destruct (u_space u x); [auto|]. destruct (keyword_rune x); [exact H|].
    destruct (N.eqb x 34); [exact H|]. destruct (u_digit u x || N.eqb x 45); [exact H|].
    destruct (N.eqb x 91); [auto|]. destruct (N.eqb x 123); [auto|]. exact H.
  - intros e [c s] r H. remember (S n) as m eqn:Em. cbn [parse_array]. rewrite Em in H. cbn [parse_array] in H. subst m.
    destruct s as [|x t]; [exact H|].
    destruct (u_space u x); [auto|]. destruct (N.eqb x 44); [destruct e; auto|].
    destruct (N.eqb x 93); [exact H|]. destruct e; [exact H|].
    destruct (parse_value n u (c, x :: t)) as [[st'|eof st']|] eqn:E; [| |discriminate];
      rewrite (IV _ _ E); auto.
  - intros f e [c s] r H. remember (S n) as m eqn:Em. cbn [parse_field]. rewrite Em in H. cbn [parse_field] in H. subst m.
    destruct s as [|x t]; [exact H|].
    destruct (u_space u x); [auto|]. destruct (N.eqb x 58); [destruct e; auto|].
    destruct e; [exact H|]. destruct (N.eqb x 123).
    + destruct (beq f (B "fields")); auto.
    + destruct (N.eqb x 91); auto.
  - intros k e [c s] r H. remember (S n) as m eqn:Em. cbn [parse_object]. rewrite Em in H. cbn [parse_object] in H. subst m.
    destruct s as [|x t]; [exact H|].
    destruct (u_space u x); [auto|]. destruct (N.eqb x 44); [destruct e; auto|].
    destruct (N.eqb x 34); [|exact H]. destruct e; [exact H|].
    destruct (parse_string t) as [[a cut] rest]. destruct cut; [exact H|].
    destruct (parse_field n u (built a) true (if k then bump (built a) c else c, rest)) as [[st'|eof st']|] eqn:E;
      [| |discriminate]; rewrite (IF _ _ _ _ E); auto.
Qed.

Lemma fuel_value u n m st r : parse_value n u st = Some r -> n <= m -> parse_value m u st = Some r.
Proof. intros H L. induction L; [exact H|]. apply more_fuel. exact IHL. Qed.
Lemma fuel_array u n m e st r : parse_array n u e st = Some r -> n <= m -> parse_array m u e st = Some r.
Proof. intros H L. induction L; [exact H|]. apply more_fuel. exact IHL. Qed.
Lemma fuel_field u n m f e st r : parse_field n u f e st = Some r -> n <= m -> parse_field m u f e st = Some r.
Proof. intros H L. induction L; [exact H|]. apply more_fuel. exact IHL. Qed.
Lemma fuel_object u n m k e st r : parse_object n u k e st = Some r -> n <= m -> parse_object m u k e st = Some r.
Proof. intros H L. induction L; [exact H|]. apply more_fuel. exact IHL. Qed.

Lemma fuel_top u n m st r : parse_top n u st = Some r -> n <= m -> parse_top m u st = Some r.
Proof.
  revert m st r. induction n as [|n IH]; intros m st r H L; [discriminate|].
  destruct m as [|m]; [lia|]. cbn [parse_top] in *. destruct st as [c s]. destruct s as [|x t]; [exact H|].
  destruct (u_space u x); [apply IH; [exact H|lia]|]. destruct (N.eqb x 123); [|exact H].
  destruct (parse_object n u true false (c, t)) as [[st'|eof [c' s']]|] eqn:E; [| |discriminate];
    rewrite (fuel_object u n m _ _ _ _ E) by lia; [exact H|].
  destruct eof; [apply IH; [exact H|lia]|exact H].
Qed.

(** ** Progress *)

Lemma parse_string_length s : let '(_, _, rest) := parse_string s in length rest <= length s.
Proof.
  enough (H : forall n s, length s <= n -> let '(_, _, rest) := parse_string s in length rest <= length s)
    by (apply (H (length s)); lia).
  clear. induction n as [|n IH]; intros s L; (destruct s as [|r t]; [cbn; lia|]); [cbn in L; lia|].
  cbn [parse_string]. cbn in L. destruct (N.eqb r 92).
  - destruct t as [|e t']; [cbn; lia|]. specialize (IH t'). destruct (parse_string t') as [[a c] rest].
    cbn in *. lia.
  - destruct (N.eqb r 34); [cbn; lia|]. specialize (IH t). destruct (parse_string t) as [[a c] rest].
    cbn in *. lia.
Qed.

Lemma parse_keyword_length u s : let (_, rest) := parse_keyword u s in length rest <= length s.
Proof.
  induction s as [|r t IH]; [cbn; lia|]. cbn [parse_keyword]. destruct (u_letter u r); [|cbn; lia].
  destruct (parse_keyword u t) as [a rest]. cbn. lia.
Qed.

Lemma parse_number_length u s : forall f rest, parse_number u f s = Some rest -> length rest <= length s.
Proof.
  induction s as [|r t IH]; intros f rest H; cbn [parse_number] in H.
  - injection H as <-. lia.
  - destruct (num_step u f r) as [f'| |]; [|injection H as <-; lia|discriminate]. apply IH in H. cbn. lia.
Qed.

Definition rest_of (r : result) : list N := match r with Ok (_, s) | Err _ (_, s) => s end.

(** A call that succeeds has read something unless there was nothing. *)
Definition progress (s : list N) (r : result) : Prop := s = [] \/ length (rest_of r) < length s.

Lemma progress_more x t r : progress t r -> progress (x :: t) r \/ t = [] /\ length (rest_of r) > 0.
Proof.
  intros [ -> |H].
  - destruct (rest_of r) eqn:E; [left; right; rewrite E; cbn; lia|right; cbn; split; [reflexivity|lia]].
  - left. right. cbn. lia.
Qed.

Lemma parse_progress u n :
  (forall c s r, parse_value n u (c, s) = Some r -> length (rest_of r) <= length s /\ progress s r) /\
  (forall e c s r, parse_array n u e (c, s) = Some r -> length (rest_of r) <= length s /\ progress s r) /\
  (forall f e c s r, parse_field n u f e (c, s) = Some r -> length (rest_of r) <= length s /\ progress s r) /\
  (forall k e c s r, parse_object n u k e (c, s) = Some r -> length (rest_of r) <= length s /\ progress s r).
Proof.
  unfold progress.
  induction n as [|n (IV & IA & IF & IO)].
  { repeat split; intros; discriminate. }
  assert (T : forall x (t : list N) r, length (rest_of r) <= length t ->
    length (rest_of r) <= length (x :: t) /\ (x :: t = [] \/ length (rest_of r) < length (x :: t)))
    by (intros; cbn; lia).
  assert (Z : forall r c, Some (Ok (c, [])) = Some r ->
    length (rest_of r) <= length (@nil N) /\ (@nil N = [] \/ length (rest_of r) < length (@nil N)))
    by (intros r c H; injection H as <-; cbn; auto).
  split; [|split; [|split]].
  - intros c s r H. cbn [parse_value] in H. destruct s as [|x t]; [eauto|]. apply T.
    destruct (u_space u x); [apply IV in H; apply H|]. destruct (keyword_rune x).
    { pose proof (parse_keyword_length u t) as K. destruct (parse_keyword u t) as [a rest].
      destruct (good_keyword u (x :: a)); injection H as <-; exact K. }
    destruct (N.eqb x 34).
    { pose proof (parse_string_length t) as K. destruct (parse_string t) as [[a cut] rest].
      destruct cut; injection H as <-; exact K. }
    destruct (u_digit u x || N.eqb x 45).
    { pose proof (parse_number_length u t num_start) as K. destruct (parse_number u num_start t);
        injection H as <-; cbn; [apply K; reflexivity|lia]. }
    destruct (N.eqb x 91); [apply IA in H; apply H|]. destruct (N.eqb x 123); [apply IO in H; apply H|].
    injection H as <-. cbn. lia.
  - intros e c s r H. cbn [parse_array] in H. destruct s as [|x t]; [eauto|].
    destruct (u_space u x); [apply T; apply IA in H; apply H|].
    destruct (N.eqb x 44).
    { apply T. destruct e; [apply IA in H; apply H|injection H as <-; cbn; lia]. }
    destruct (N.eqb x 93); [apply T; injection H as <-; cbn; lia|].
    destruct e; [apply T; injection H as <-; cbn; lia|].
    destruct (parse_value n u (c, x :: t)) as [[[c' s']|eof st']|] eqn:E; [| |discriminate].
    + apply IV in E. cbn [rest_of] in E. apply IA in H. destruct E as [_ [E|E]]; [discriminate|].
      split; [lia|right; lia].
    + injection H as <-. apply IV in E. exact E.
  - intros f e c s r H. cbn [parse_field] in H. destruct s as [|x t]; [eauto|].
    destruct (u_space u x); [apply T; apply IF in H; apply H|].
    destruct (N.eqb x 58).
    { apply T. destruct e; [apply IF in H; apply H|injection H as <-; cbn; lia]. }
    destruct e; [apply T; injection H as <-; cbn; lia|].
    destruct (N.eqb x 123); [apply T; destruct (beq f (B "fields")); apply IO in H; apply H|].
    destruct (N.eqb x 91); [apply T; apply IA in H; apply H|]. apply IV in H. exact H.
  - intros k e c s r H. cbn [parse_object] in H. destruct s as [|x t]; [eauto|]. apply T.
    destruct (u_space u x); [apply IO in H; apply H|].
    destruct (N.eqb x 44).
    { destruct e; [apply IO in H; apply H|injection H as <-; cbn; lia]. }
    destruct (N.eqb x 34).
    { destruct e; [injection H as <-; cbn; lia|].
      pose proof (parse_string_length t) as K. destruct (parse_string t) as [[a cut] rest].
      destruct cut; [injection H as <-; exact K|].
      destruct (parse_field n u (built a) true (if k then bump (built a) c else c, rest)) as [[[c' s']|eof st']|] eqn:E;
        [| |discriminate].
      - apply IF in E. apply IO in H. cbn [rest_of] in E. lia.
      - injection H as <-. apply IF in E. lia. }
    destruct (N.eqb x 125); injection H as <-; cbn; lia.
Qed.

(** ** Enough fuel *)

Lemma parse_total u n :
  (forall c s, 2 * length s + 1 <= n -> parse_value n u (c, s) <> None) /\
  (forall e c s, 2 * length s + 2 <= n -> parse_array n u e (c, s) <> None) /\
  (forall f e c s, 2 * length s + 2 <= n -> parse_field n u f e (c, s) <> None) /\
  (forall k e c s, 2 * length s + 2 <= n -> parse_object n u k e (c, s) <> None).
Proof.
  induction n as [|n (IV & IA & IF & IO)].
  { repeat split; intros; lia. }
  split; [|split; [|split]].
  - intros c s L. cbn [parse_value]. destruct s as [|x t]; [discriminate|]. cbn [length] in L.
    destruct (u_space u x); [apply IV; lia|]. destruct (keyword_rune x).
    { destruct (parse_keyword u t). destruct (good_keyword u (x :: l)); discriminate. }
    destruct (N.eqb x 34). { destruct (parse_string t) as [[a cut] rest]. discriminate. }
    destruct (u_digit u x || N.eqb x 45). { destruct (parse_number u num_start t); discriminate. }
    destruct (N.eqb x 91); [apply IA; lia|]. destruct (N.eqb x 123); [apply IO; lia|]. discriminate.
  - intros e c s L. cbn [parse_array]. destruct s as [|x t]; [discriminate|]. cbn [length] in L.
    destruct (u_space u x); [apply IA; lia|].
    destruct (N.eqb x 44). { destruct e; [apply IA; lia|discriminate]. }
    destruct (N.eqb x 93); [discriminate|]. destruct e; [discriminate|].
    specialize (IV c (x :: t)). cbn [length] in IV.
    destruct (parse_value n u (c, x :: t)) as [[[c' s']|eof st']|] eqn:E; [|discriminate|exfalso; apply IV; [lia|reflexivity]].
    apply (proj1 (parse_progress u n)) in E. cbn [rest_of length] in E. destruct E as [_ [E|E]]; [discriminate|].
    cbn [length rest_of] in E. apply IA. lia.
  - intros f e c s L. cbn [parse_field]. destruct s as [|x t]; [discriminate|]. cbn [length] in L.
    destruct (u_space u x); [apply IF; lia|].
    destruct (N.eqb x 58). { destruct e; [apply IF; lia|discriminate]. }
    destruct e; [discriminate|].
    destruct (N.eqb x 123); [destruct (beq f (B "fields")); apply IO; lia|].
    destruct (N.eqb x 91); [apply IA; lia|]. apply IV. cbn [length]. lia.
  - intros k e c s L. cbn [parse_object]. destruct s as [|x t]; [discriminate|]. cbn [length] in L.
    destruct (u_space u x); [apply IO; lia|].
    destruct (N.eqb x 44). { destruct e; [apply IO; lia|discriminate]. }
    destruct (N.eqb x 34); [|destruct (N.eqb x 125); discriminate].
    destruct e; [discriminate|].
    pose proof (parse_string_length t) as K. destruct (parse_string t) as [[a cut] rest].
    destruct cut; [discriminate|].
    specialize (IF (built a) true (if k then bump (built a) c else c) rest).
    destruct (parse_field n u (built a) true (if k then bump (built a) c else c, rest)) as [[[c' s']|eof st']|] eqn:E;
      [|discriminate|exfalso; apply IF; [lia|reflexivity]].
    apply (proj1 (proj2 (proj2 (parse_progress u n)))) in E. cbn [rest_of] in E. apply IO. lia.
Qed.

Lemma top_total u n : forall c s, 2 * length s + 3 <= n -> parse_top n u (c, s) <> None.
Proof.
  induction n as [|n IH]; intros c s L; [lia|]. cbn [parse_top]. destruct s as [|x t]; [discriminate|].
  cbn [length] in L. destruct (u_space u x); [apply IH; lia|]. destruct (N.eqb x 123); [|discriminate].
  pose proof (proj2 (proj2 (proj2 (parse_total u n))) true false c t) as T.
  destruct (parse_object n u true false (c, t)) as [[st'|eof [c' s']]|] eqn:E; [discriminate| |exfalso; apply T; [lia|reflexivity]].
  destruct eof; [|discriminate]. apply IH.
  apply (proj2 (proj2 (proj2 (parse_progress u n)))) in E. cbn [rest_of] in E.
  rewrite skipn_length. lia.
Qed.

Lemma runes_n_length n : forall s, length (runes_n n s) <= n.
Proof.
  induction n as [|n IH]; intros s; [cbn; lia|]. cbn [runes_n]. destruct s as [|c s]; [cbn; lia|].
  destruct (decode_rune (c :: s)) as [[u rest]|]; cbn [length].
  - specialize (IH rest). lia.
  - specialize (IH s). lia.
Qed.

Lemma input_length s : length (input s) <= length s.
Proof. unfold input. rewrite map_length. apply runes_n_length. Qed.

Lemma count_total u src : count_fields u src <> None.
Proof. apply top_total. pose proof (input_length src). lia. Qed.

(** A result with some fuel is the result. *)
Lemma count_run u src n r : parse_top n u ([], input src) = Some r -> count_fields u src = Some r.
Proof.
  intros H. destruct (count_fields u src) as [r'|] eqn:E; [|exfalso; eapply count_total, E].
  unfold count_fields in E. apply (fuel_top _ _ (n + (2 * length src + 3))) in H; [|lia].
  apply (fuel_top _ _ (n + (2 * length src + 3))) in E; [|lia]. congruence.
Qed.
