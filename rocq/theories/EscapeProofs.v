(** Lemmas about flash addEscaped (Flash.escape_buf). *)

From Coq Require Import Ascii String List ZArith NArith Bool Lia.
From Verif Require Import Bytes BytesProofs Json JsonProofs Slog Flash.
Import ListNotations.

(** Strings in which every lead byte is followed by as many harmless bytes as
    it announces. *)
Definition lead2 (c : ascii) := N.eqb (N.land (code c) 224) 192.
Definition lead3 (c : ascii) := N.eqb (N.land (code c) 240) 224.
Definition lead4 (c : ascii) := N.eqb (N.land (code c) 248) 240.

Inductive framed : bytes -> Prop :=
| fr_nil : framed []
| fr_one c s : lead2 c = false -> lead3 c = false -> lead4 c = false ->
    framed s -> framed (c :: s)
| fr_two c d s : lead2 c = true -> plain_char d = true -> framed s -> framed (c :: d :: s)
| fr_three c d e s : lead3 c = true -> plain_char d = true -> plain_char e = true ->
    framed s -> framed (c :: d :: e :: s)
| fr_four c d e f s : lead4 c = true -> plain_char d = true -> plain_char e = true ->
    plain_char f = true -> framed s -> framed (c :: d :: e :: f :: s).

(** Escape of a byte that is not a lead byte. *)
Definition esc1 (c : ascii) : bytes :=
  let n := code c in
  if N.eqb n 92 || N.eqb n 47 || N.eqb n 34 then [backslash; c]
  else if N.eqb n 8 then B "\b"
  else if N.eqb n 12 then B "\f"
  else if N.eqb n 10 then B "\n"
  else if N.eqb n 13 then B "\r"
  else if N.eqb n 9 then B "\t"
  else if N.leb 32 n && N.ltb n 127 then [c]
  else if N.ltb n 128 then B "\u00" ++ [hex_digit (N.shiftr n 4)] ++ [hex_digit (N.land n 15)]
  else [c].

Inductive escapes : bytes -> bytes -> Prop :=
| es_nil : escapes [] []
| es_one c s t : lead2 c = false -> lead3 c = false -> lead4 c = false ->
    escapes s t -> escapes (c :: s) (esc1 c ++ t)
| es_two c d s t : lead2 c = true -> plain_char d = true -> escapes s t ->
    escapes (c :: d :: s) (c :: d :: t)
| es_three c d e s t : lead3 c = true -> plain_char d = true -> plain_char e = true ->
    escapes s t -> escapes (c :: d :: e :: s) (c :: d :: e :: t)
| es_four c d e f s t : lead4 c = true -> plain_char d = true -> plain_char e = true ->
    plain_char f = true -> escapes s t -> escapes (c :: d :: e :: f :: s) (c :: d :: e :: f :: t).

Lemma framed_escapes s : framed s -> exists t, escapes s t.
Proof.
  induction 1 as [|c s H2 H3 H4 _ (t & IH)|c d s H2 P1 _ (t & IH)|c d e s H3 P1 P2 _ (t & IH)
                 |c d e f s H4 P1 P2 P3 _ (t & IH)]; eexists.
  - apply es_nil.
  - apply es_one; eauto.
  - apply es_two; eauto.
  - apply es_three; eauto.
  - apply es_four; eauto.
Qed.

(** The byte loop on slices seen as values. *)
Definition loop := @esc_loop bytes happ.

Definition finish (s : bytes) (r : bytes * nat) : bytes :=
  let (b', beg) := r in
  let idx := pred (length s) in
  if Nat.leb beg idx && Nat.ltb idx (length s) then b' ++ slice s beg (S idx) else b'.

Lemma slice_app d r i : i <= length d -> slice (d ++ r) i (length d) = skipn i d.
Proof.
  intros H. unfold slice. rewrite skipn_app.
  replace (i - length d) with 0 by lia. simpl.
  rewrite firstn_app, skipn_length, Nat.sub_diag. simpl.
  rewrite app_nil_r. apply firstn_all2. rewrite skipn_length. lia.
Qed.

Lemma flush_app b d r beg : beg <= length d ->
  flush happ b (d ++ r) beg (length d) = b ++ skipn beg d.
Proof.
  intros H. unfold flush. destruct (Nat.ltb_spec beg (length d)).
  - rewrite slice_app by lia. reflexivity.
  - rewrite skipn_all2 by lia. rewrite app_nil_r. reflexivity.
Qed.

Lemma finish_end s b beg : beg <= length s -> finish s (b, beg) = b ++ skipn beg s.
Proof.
  intros H. unfold finish. destruct s as [|c s].
  - simpl in *. assert (beg = 0) by lia. subst. simpl. rewrite app_nil_r. reflexivity.
  - cbn [length pred]. destruct (Nat.leb_spec beg (length s)).
    + destruct (Nat.ltb_spec (length s) (S (length s))); [|lia]. simpl andb. cbv iota.
      change (S (length s)) with (length (c :: s)).
      rewrite <- (app_nil_r (c :: s)) at 1. rewrite slice_app by (simpl; lia). reflexivity.
    + simpl andb. cbv iota. simpl in H. rewrite skipn_all2 by (simpl; lia). rewrite app_nil_r. reflexivity.
Qed.

Lemma skipn_snoc beg (d : bytes) c : beg <= length d -> skipn beg (d ++ [c]) = skipn beg d ++ [c].
Proof. intros H. rewrite skipn_app. replace (beg - length d) with 0 by lia. reflexivity. Qed.

Lemma skipn_len (d : bytes) n : length d = n -> skipn n d = [].
Proof. intros <-. apply skipn_all. Qed.

(** One step on a byte that is not a lead byte. *)
Lemma loop_one d c r beg b :
  lead2 c = false -> lead3 c = false -> lead4 c = false -> beg <= length d ->
  exists beg' b', loop (d ++ c :: r) (c :: r) (length d) beg [] 0 b
    = loop (d ++ c :: r) r (S (length d)) beg' [] 0 b' /\
  beg' <= S (length d) /\
  b' ++ skipn beg' (d ++ [c]) = b ++ skipn beg d ++ esc1 c.
Proof.
  intros H2 H3 H4 Hb. unfold loop. cbn [esc_loop]. unfold esc1.
  unfold lead2, lead3, lead4 in *. rewrite H2, H3, H4.
  rewrite !flush_app by lia.
  assert (E : skipn (S (length d)) (d ++ [c]) = []).
  { apply skipn_len. rewrite app_length. simpl. lia. }
  repeat match goal with
  | |- context[if ?x then _ else _] => destruct x
  end;
  do 2 eexists; (split; [reflexivity|]; split; [lia|]);
  rewrite ?E, ?app_nil_r; unfold happ; rewrite <- ?app_assoc; auto;
  rewrite skipn_snoc by lia; reflexivity.
Qed.

Lemma lead_tests c : lead2 c || lead3 c || lead4 c = true ->
  (N.eqb (code c) 92 || N.eqb (code c) 47 || N.eqb (code c) 34) = false /\
  N.eqb (code c) 8 = false /\ N.eqb (code c) 12 = false /\ N.eqb (code c) 10 = false /\
  N.eqb (code c) 13 = false /\ N.eqb (code c) 9 = false /\
  (N.leb 32 (code c) && N.ltb (code c) 127) = false.
Proof. bytecase c; repeat split. Qed.

Lemma lead3_not2 c : lead3 c = true -> lead2 c = false.
Proof. bytecase c. Qed.

Lemma lead4_not c : lead4 c = true -> lead2 c = false /\ lead3 c = false.
Proof. bytecase c; repeat split. Qed.

Lemma loop_lead d c r beg b k :
  (lead2 c = true /\ k = 1 \/ lead3 c = true /\ k = 2 \/ lead4 c = true /\ k = 3) ->
  beg <= length d ->
  loop (d ++ c :: r) (c :: r) (length d) beg [] 0 b =
  loop (d ++ c :: r) r (S (length d)) beg [c] k (b ++ skipn beg d).
Proof.
  intros H Hb. unfold loop. cbn [esc_loop app]. rewrite flush_app by lia.
  assert (L : lead2 c || lead3 c || lead4 c = true).
  { destruct H as [[-> _]|[[-> _]|[-> _]]]; rewrite ?orb_true_r; reflexivity. }
  apply lead_tests in L as (-> & -> & -> & -> & -> & -> & ->).
  destruct H as [[H ->]|[[H ->]|[H ->]]].
  - unfold lead2 in H. rewrite H. reflexivity.
  - pose proof (lead3_not2 c H) as N2. unfold lead2, lead3 in *. rewrite N2, H. reflexivity.
  - destruct (lead4_not c H) as [N2 N3]. unfold lead2, lead3, lead4 in *. rewrite N2, N3, H. reflexivity.
Qed.

Lemma loop_more s c r idx beg uni k b :
  loop s (c :: r) idx beg uni (S (S k)) b = loop s r (S idx) beg (uni ++ [c]) (S k) b.
Proof. reflexivity. Qed.

Lemma loop_last s c r idx beg uni b :
  loop s (c :: r) idx beg uni 1 b = loop s r (S idx) (S idx) [] 0 (b ++ (uni ++ [c])).
Proof. reflexivity. Qed.

Lemma loop_escapes s t : escapes s t -> forall d beg b, beg <= length d ->
  finish (d ++ s) (loop (d ++ s) s (length d) beg [] 0 b) = b ++ skipn beg d ++ t.
Proof.
  assert (Len : forall (d : bytes) l, length (d ++ l) = length l + length d).
  { intros. rewrite app_length. lia. }
  induction 1 as [|c s t H2 H3 H4 _ IH|c c1 s t H2 P1 _ IH|c c1 c2 s t H3 P1 P2 _ IH
                 |c c1 c2 c3 s t H4 P1 P2 P3 _ IH]; intros d beg b Hb.
  - unfold loop. cbn [esc_loop]. rewrite !app_nil_r. rewrite finish_end by lia. reflexivity.
  - destruct (loop_one d c s beg b H2 H3 H4 Hb) as (beg' & b' & -> & Hb' & E).
    specialize (IH (d ++ [c]) beg' b').
    rewrite <- app_assoc in IH. cbn [app] in IH. rewrite Len in IH. cbn [length plus] in IH.
    rewrite IH by lia. rewrite app_assoc, E. rewrite <- !app_assoc. reflexivity.
  - assert (E : loop (d ++ c :: c1 :: s) (c :: c1 :: s) (length d) beg [] 0 b
        = loop (d ++ c :: c1 :: s) s (S (S (length d))) (S (S (length d))) [] 0
            ((b ++ skipn beg d) ++ [c; c1])).
    { rewrite (loop_lead d c (c1 :: s) beg b 1) by auto. rewrite loop_last. reflexivity. }
    rewrite E. specialize (IH (d ++ [c; c1]) (S (S (length d))) ((b ++ skipn beg d) ++ [c; c1])).
    rewrite <- app_assoc in IH. cbn [app] in IH. rewrite Len in IH. cbn [length plus] in IH.
    rewrite IH by lia. match goal with |- context[skipn (S ?n) ?l] => rewrite (@skipn_all2 _ (S n) l) by (rewrite ?app_length; cbn [length]; lia) end.
    rewrite <- !app_assoc. reflexivity.
  - assert (E : loop (d ++ c :: c1 :: c2 :: s) (c :: c1 :: c2 :: s) (length d) beg [] 0 b
        = loop (d ++ c :: c1 :: c2 :: s) s (S (S (S (length d)))) (S (S (S (length d)))) [] 0
            ((b ++ skipn beg d) ++ [c; c1; c2])).
    { rewrite (loop_lead d c (c1 :: c2 :: s) beg b 2) by auto. rewrite loop_more, loop_last. reflexivity. }
    rewrite E. specialize (IH (d ++ [c; c1; c2]) (S (S (S (length d)))) ((b ++ skipn beg d) ++ [c; c1; c2])).
    rewrite <- app_assoc in IH. cbn [app] in IH. rewrite Len in IH. cbn [length plus] in IH.
    rewrite IH by lia. match goal with |- context[skipn (S ?n) ?l] => rewrite (@skipn_all2 _ (S n) l) by (rewrite ?app_length; cbn [length]; lia) end.
    rewrite <- !app_assoc. reflexivity.
  - assert (E : loop (d ++ c :: c1 :: c2 :: c3 :: s) (c :: c1 :: c2 :: c3 :: s) (length d) beg [] 0 b
        = loop (d ++ c :: c1 :: c2 :: c3 :: s) s (S (S (S (S (length d))))) (S (S (S (S (length d))))) [] 0
            ((b ++ skipn beg d) ++ [c; c1; c2; c3])).
    { rewrite (loop_lead d c (c1 :: c2 :: c3 :: s) beg b 3) by auto. rewrite !loop_more, loop_last. reflexivity. }
    rewrite E. specialize (IH (d ++ [c; c1; c2; c3]) (S (S (S (S (length d))))) ((b ++ skipn beg d) ++ [c; c1; c2; c3])).
    rewrite <- app_assoc in IH. cbn [app] in IH. rewrite Len in IH. cbn [length plus] in IH.
    rewrite IH by lia. match goal with |- context[skipn (S ?n) ?l] => rewrite (@skipn_all2 _ (S n) l) by (rewrite ?app_length; cbn [length]; lia) end.
    rewrite <- !app_assoc. reflexivity.
Qed.

Lemma escape_buf_finish b s : escape_buf happ b s = finish s (loop s s 0 0 [] 0 b).
Proof. reflexivity. Qed.

Lemma escape_framed b s t : escapes s t -> escape_buf happ b s = b ++ t.
Proof.
  intros H. rewrite escape_buf_finish.
  exact (loop_escapes s t H [] 0 b (le_n 0)).
Qed.

Lemma plain_body c : plain_char c = true -> forall s t, jbody s t -> jbody (c :: s) (c :: t).
Proof. intros. constructor; auto. Qed.

Lemma lead_plain c : lead2 c || lead3 c || lead4 c = true -> plain_char c = true.
Proof. unfold lead2, lead3, lead4. bytecase c. Qed.

Lemma esc1_body c s t : jbody s t -> jbody (c :: s) (esc1 c ++ t).
Proof.
  intros H.
  assert (P : forall k, plain_char c = true -> esc1 c = [c] -> k = c -> jbody (c :: s) (esc1 c ++ t)).
  { intros k P E _. rewrite E. constructor; auto. }
  assert (D : forall d e, esc1 c = [backslash; e] -> simple_escape e = Some d -> d = c ->
              jbody (c :: s) (esc1 c ++ t)).
  { intros d e E S <-. rewrite E. apply jb_simple; auto. }
  assert (U : forall h1 h2 h3 h4 n, esc1 c = backslash :: chr 117 :: h1 :: h2 :: h3 :: h4 :: [] ->
              hex4 h1 h2 h3 h4 = Some n -> high_surrogate n = false -> low_surrogate n = false ->
              utf8_encode n = [c] -> jbody (c :: s) (esc1 c ++ t)).
  { intros h1 h2 h3 h4 n E Hx A1 A2 A3. rewrite E. change (c :: s) with ([c] ++ s).
    rewrite <- A3. apply jb_unicode; auto. }
  destruct c as [[] [] [] [] [] [] [] []];
    first [ exact (P _ eq_refl eq_refl eq_refl)
          | exact (D _ _ eq_refl eq_refl eq_refl)
          | exact (U _ _ _ _ _ eq_refl eq_refl eq_refl eq_refl eq_refl) ].
Qed.

Lemma escapes_body s t : escapes s t -> jbody s t.
Proof.
  induction 1.
  - constructor.
  - apply esc1_body; auto.
  - apply plain_body; [apply lead_plain; rewrite H; auto|]. apply plain_body; auto.
  - apply plain_body; [apply lead_plain; rewrite H, ?orb_true_r; auto|]. repeat (apply plain_body; auto).
  - apply plain_body; [apply lead_plain; rewrite H, ?orb_true_r; auto|]. repeat (apply plain_body; auto).
Qed.

(** Valid UTF-8 is framed. *)
Lemma cont_plain c : cont c = true -> plain_char c = true.
Proof. bytecase c. Qed.

Lemma btw_plain lo hi c : N.leb 128 lo = true -> btw lo hi c = true -> plain_char c = true.
Proof.
  intros H K. unfold btw in K. apply andb_prop in K as [K _].
  apply N.leb_le in H, K. assert (X : N.leb 128 (code c) = true) by (apply N.leb_le; lia).
  revert X. clear. bytecase c.
Qed.

Ltac byte_fact c := revert c; apply all_bytes_impl; reflexivity.

Lemma low_not_lead c : N.ltb (code c) 128 = true -> lead2 c = false /\ lead3 c = false /\ lead4 c = false.
Proof. bytecase c; auto. Qed.

Lemma lead2_of c : btw 194 223 c = true -> lead2 c = true.
Proof. bytecase c. Qed.

Lemma lead3_of c : (N.eqb (code c) 224 || (btw 225 236 c || btw 238 239 c) || N.eqb (code c) 237) = true -> lead3 c = true.
Proof. bytecase c. Qed.

Lemma lead4_of c : (N.eqb (code c) 240 || btw 241 243 c || N.eqb (code c) 244) = true -> lead4 c = true.
Proof. bytecase c. Qed.

Ltac split_and := repeat match goal with H : _ && _ = true |- _ => apply andb_prop in H as [? ?] end.

(** Induction over the characters of valid UTF-8 text. *)
Lemma utf8_ind (P : bytes -> Prop) :
  P [] ->
  (forall c s, N.ltb (code c) 128 = true -> valid_utf8 s = true -> P s -> P (c :: s)) ->
  (forall c d s, lead2 c = true -> valid_utf8 [c; d] = true -> plain_char d = true -> N.leb 128 (code d) = true ->
     valid_utf8 s = true -> P s -> P (c :: d :: s)) ->
  (forall c d e s, lead3 c = true -> valid_utf8 [c; d; e] = true -> plain_char d = true -> plain_char e = true ->
     N.leb 128 (code d) = true -> N.leb 128 (code e) = true ->
     valid_utf8 s = true -> P s -> P (c :: d :: e :: s)) ->
  (forall c d e f s, lead4 c = true -> valid_utf8 [c; d; e; f] = true ->
     plain_char d = true -> plain_char e = true -> plain_char f = true ->
     N.leb 128 (code d) = true -> N.leb 128 (code e) = true -> N.leb 128 (code f) = true ->
     valid_utf8 s = true -> P s -> P (c :: d :: e :: f :: s)) ->
  forall s, valid_utf8 s = true -> P s.
Proof.
  intros H0 H1 H2 H3 H4 s.
  assert (G : forall n s, length s <= n -> valid_utf8 s = true -> P s).
  2:{ apply (G (length s)). lia. }
  clear s. induction n as [|n IH]; intros s L V.
  { destruct s; [auto|simpl in L; lia]. }
  assert (Hc : forall c, cont c = true -> plain_char c = true /\ N.leb 128 (code c) = true).
  { clear. intros c. bytecase c; auto. }
  assert (Hb : forall lo hi c, N.leb 128 lo = true -> btw lo hi c = true ->
             plain_char c = true /\ N.leb 128 (code c) = true).
  { clear. intros lo hi c Hl Hb. split; [eapply btw_plain; eauto|].
    unfold btw in Hb. apply andb_prop in Hb as [K _]. apply N.leb_le in Hl, K. apply N.leb_le. lia. }
  destruct s as [|c s]; [auto|]. simpl in L. cbn [valid_utf8] in V.
  destruct (N.ltb (code c) 128) eqn:E; [apply H1; auto; apply IH; auto; lia|].
  destruct s as [|d s]; [discriminate|]. simpl in L.
  destruct (btw 194 223 c) eqn:E2.
  { split_and. destruct (Hc d) as [? ?]; auto.
    apply H2; auto; [apply lead2_of; auto| |apply IH; auto; lia].
    cbn [valid_utf8]. rewrite E, E2. rewrite H. reflexivity. }
  destruct s as [|e s]; [discriminate|]. simpl in L.
  destruct (N.eqb (code c) 224) eqn:E3.
  { split_and. destruct (Hb 160 191 d)%N as [? ?]; auto. destruct (Hc e) as [? ?]; auto.
    apply H3; auto; [apply lead3_of; rewrite E3; auto| |apply IH; auto; lia].
    cbn [valid_utf8]. rewrite E, E2, E3, H, H6. reflexivity. }
  destruct (btw 225 236 c || btw 238 239 c) eqn:E4.
  { split_and. destruct (Hc d) as [? ?]; auto. destruct (Hc e) as [? ?]; auto.
    apply H3; auto; [apply lead3_of; rewrite E4, orb_true_r; auto| |apply IH; auto; lia].
    cbn [valid_utf8]. rewrite E, E2, E3, E4, H, H6. reflexivity. }
  destruct (N.eqb (code c) 237) eqn:E5.
  { split_and. destruct (Hb 128 159 d)%N as [? ?]; auto. destruct (Hc e) as [? ?]; auto.
    apply H3; auto; [apply lead3_of; rewrite E5, orb_true_r; auto| |apply IH; auto; lia].
    cbn [valid_utf8]. rewrite E, E2, E3, E4, E5, H, H6. reflexivity. }
  destruct s as [|f s]; [discriminate|]. simpl in L.
  destruct (N.eqb (code c) 240) eqn:E6.
  { split_and. destruct (Hb 144 191 d)%N as [? ?]; auto. destruct (Hc e) as [? ?]; auto. destruct (Hc f) as [? ?]; auto.
    apply H4; auto; [apply lead4_of; rewrite E6; auto| |apply IH; auto; lia].
    cbn [valid_utf8]. rewrite E, E2, E3, E4, E5, E6. repeat match goal with X : _ = true |- _ => rewrite X end. reflexivity. }
  destruct (btw 241 243 c) eqn:E7.
  { split_and. destruct (Hc d) as [? ?]; auto. destruct (Hc e) as [? ?]; auto. destruct (Hc f) as [? ?]; auto.
    apply H4; auto; [apply lead4_of; rewrite E7, ?orb_true_r; auto| |apply IH; auto; lia].
    cbn [valid_utf8]. rewrite E, E2, E3, E4, E5, E6, E7. repeat match goal with X : _ = true |- _ => rewrite X end. reflexivity. }
  destruct (N.eqb (code c) 244) eqn:E8; [|discriminate].
  { split_and. destruct (Hb 128 143 d)%N as [? ?]; auto. destruct (Hc e) as [? ?]; auto. destruct (Hc f) as [? ?]; auto.
    apply H4; auto; [apply lead4_of; rewrite E8, ?orb_true_r; auto| |apply IH; auto; lia].
    cbn [valid_utf8]. rewrite E, E2, E3, E4, E5, E6, E7, E8. repeat match goal with X : _ = true |- _ => rewrite X end. reflexivity. }
Qed.

Lemma utf8_framed s : valid_utf8 s = true -> framed s.
Proof.
  revert s. apply utf8_ind; intros.
  - constructor.
  - destruct (low_not_lead c) as (? & ? & ?); auto. apply fr_one; auto.
  - apply fr_two; auto.
  - apply fr_three; auto.
  - apply fr_four; auto.
Qed.

(** Valid UTF-8 is closed under concatenation. *)
Lemma valid_cons1 c s : N.ltb (code c) 128 = true -> valid_utf8 (c :: s) = valid_utf8 s.
Proof. intros H. cbn [valid_utf8]. rewrite H. reflexivity. Qed.

Lemma valid_app a b : valid_utf8 a = true -> valid_utf8 b = true -> valid_utf8 (a ++ b) = true.
Proof.
  intros Ha Hb. revert a Ha. apply (utf8_ind (fun a => valid_utf8 (a ++ b) = true)); auto.
  - intros c s H _ IH. cbn [app]. rewrite valid_cons1; auto.
  - intros c d s _ V _ _ _ IH. cbn [app]. cbn [valid_utf8] in V |- *.
    destruct (N.ltb (code c) 128) eqn:E0.
    { destruct (N.ltb (code d) 128) eqn:E1; auto. discriminate. }
    destruct (btw 194 223 c); [|discriminate]. rewrite andb_true_r in V. rewrite V. auto.
  - intros c d e s L3 V _ _ _ _ _ IH. cbn [app]. cbn [valid_utf8] in V |- *.
    assert (E0 : N.ltb (code c) 128 = false) by (revert L3; clear; bytecase c).
    assert (E1 : btw 194 223 c = false) by (revert L3; clear; bytecase c).
    rewrite E0, E1 in *.
    repeat match type of V with
    | (if ?x then _ else _) = true => destruct x; [rewrite andb_true_r in V; rewrite V; auto|]
    end. discriminate.
  - intros c d e f s L4 V _ _ _ _ _ _ _ IH. cbn [app]. cbn [valid_utf8] in V |- *.
    assert (E0 : N.ltb (code c) 128 = false) by (revert L4; clear; bytecase c).
    assert (E1 : btw 194 223 c = false) by (revert L4; clear; bytecase c).
    assert (E2 : N.eqb (code c) 224 = false) by (revert L4; clear; bytecase c).
    assert (E3 : btw 225 236 c || btw 238 239 c = false) by (revert L4; clear; bytecase c).
    assert (E4 : N.eqb (code c) 237 = false) by (revert L4; clear; bytecase c).
    rewrite E0, E1, E2, E3, E4 in *.
    repeat match type of V with
    | (if ?x then _ else _) = true => destruct x; [rewrite andb_true_r in V; rewrite V; auto|]
    end. discriminate.
Qed.

Lemma valid_ascii s : forallb (fun c => N.ltb (code c) 128) s = true -> valid_utf8 s = true.
Proof.
  induction s as [|c s IH]; auto. cbn [forallb]. intros H. apply andb_prop in H as [H1 H2].
  rewrite valid_cons1; auto.
Qed.

Lemma valid_split a b : valid_utf8 (a ++ b) = true -> valid_utf8 a = true -> valid_utf8 b = true.
Proof.
  intros H Ha. revert a Ha H. apply (utf8_ind (fun a => valid_utf8 (a ++ b) = true -> valid_utf8 b = true)); auto.
  - intros c s H _ IH. cbn [app]. rewrite valid_cons1; auto.
  - intros c d s L2 V _ _ _ IH. cbn [app]. cbn [valid_utf8].
    assert (E0 : N.ltb (code c) 128 = false) by (revert L2; clear; bytecase c). rewrite E0.
    cbn [valid_utf8] in V. rewrite E0 in V. destruct (btw 194 223 c); [|discriminate].
    intros H. split_and. auto.
  - intros c d e s L3 V _ _ _ _ _ IH. cbn [app]. cbn [valid_utf8] in V |- *.
    assert (E0 : N.ltb (code c) 128 = false) by (revert L3; clear; bytecase c).
    assert (E1 : btw 194 223 c = false) by (revert L3; clear; bytecase c).
    rewrite E0, E1 in *.
    repeat match type of V with
    | (if ?x then _ else _) = true => destruct x; [intros; split_and; auto|]
    end. discriminate.
  - intros c d e f s L4 V _ _ _ _ _ _ _ IH. cbn [app]. cbn [valid_utf8] in V |- *.
    assert (E0 : N.ltb (code c) 128 = false) by (revert L4; clear; bytecase c).
    assert (E1 : btw 194 223 c = false) by (revert L4; clear; bytecase c).
    assert (E2 : N.eqb (code c) 224 = false) by (revert L4; clear; bytecase c).
    assert (E3 : btw 225 236 c || btw 238 239 c = false) by (revert L4; clear; bytecase c).
    assert (E4 : N.eqb (code c) 237 = false) by (revert L4; clear; bytecase c).
    rewrite E0, E1, E2, E3, E4 in *.
    repeat match type of V with
    | (if ?x then _ else _) = true => destruct x; [intros; split_and; auto|]
    end. discriminate.
Qed.

(** ** Clean text: no control characters, valid UTF-8 *)

Definition no_ctl (t : bytes) : bool := forallb (fun c => N.leb 32 (code c)) t.

Lemma no_ctl_app a b : no_ctl (a ++ b) = no_ctl a && no_ctl b.
Proof. apply forallb_app. Qed.

Lemma plain_no_ctl c : plain_char c = true -> N.leb 32 (code c) = true.
Proof. bytecase c. Qed.

Lemma esc1_no_ctl c : no_ctl (esc1 c) = true.
Proof. bytecase c. Qed.

Lemma escapes_no_ctl s t : escapes s t -> no_ctl t = true.
Proof.
  induction 1; auto.
  - rewrite no_ctl_app, esc1_no_ctl. auto.
  - cbn [no_ctl forallb]. rewrite (plain_no_ctl c), (plain_no_ctl d); auto.
    apply lead_plain; rewrite H; auto.
  - cbn [no_ctl forallb]. rewrite (plain_no_ctl c), (plain_no_ctl d), (plain_no_ctl e); auto.
    apply lead_plain; rewrite H, ?orb_true_r; auto.
  - cbn [no_ctl forallb]. rewrite (plain_no_ctl c), (plain_no_ctl d), (plain_no_ctl e), (plain_no_ctl f); auto.
    apply lead_plain; rewrite H, ?orb_true_r; auto.
Qed.

Lemma esc1_ascii c : N.ltb (code c) 128 = true -> forallb (fun c => N.ltb (code c) 128) (esc1 c) = true.
Proof. bytecase c. Qed.

Lemma utf8_escapes s : valid_utf8 s = true -> exists t, escapes s t /\ valid_utf8 t = true.
Proof.
  revert s. apply utf8_ind.
  - exists []. split; constructor.
  - intros c s H _ (t & E & V). destruct (low_not_lead c H) as (? & ? & ?).
    exists (esc1 c ++ t). split; [apply es_one; auto|].
    apply valid_app; auto. apply valid_ascii, esc1_ascii; auto.
  - intros c d s L V Pd _ _ (t & E & Vt). exists (c :: d :: t). split; [apply es_two; auto|].
    apply (valid_app [c; d] t); auto.
  - intros c d e s L V Pd Pe _ _ _ (t & E & Vt). exists (c :: d :: e :: t).
    split; [apply es_three; auto|]. apply (valid_app [c; d; e] t); auto.
  - intros c d e f s L V Pd Pe Pf _ _ _ _ (t & E & Vt). exists (c :: d :: e :: f :: t).
    split; [apply es_four; auto|]. apply (valid_app [c; d; e; f] t); auto.
Qed.

(** ** The loop is independent of what precedes the current segment *)

Lemma slice_shift (d s : bytes) i j : slice (d ++ s) (length d + i) (length d + j) = slice s i j.
Proof.
  unfold slice. replace (length d + j - (length d + i)) with (j - i) by lia.
  rewrite skipn_app. rewrite skipn_all2 by lia. simpl. f_equal. f_equal. lia.
Qed.

Lemma flush_shift b d s i j : flush happ b (d ++ s) (length d + i) (length d + j) = b ++ flush happ [] s i j.
Proof.
  unfold flush, happ. rewrite slice_shift.
  destruct (Nat.ltb_spec (length d + i) (length d + j)), (Nat.ltb_spec i j); try lia; auto.
  rewrite app_nil_r. reflexivity.
Qed.

Lemma flush_out b s i j : flush happ b s i j = b ++ flush happ [] s i j.
Proof. unfold flush, happ. destruct (Nat.ltb i j); simpl; auto. rewrite app_nil_r. auto. Qed.

Lemma loop_out s rest : forall idx beg uni more b,
  loop s rest idx beg uni more b =
  (b ++ fst (loop s rest idx beg uni more []), snd (loop s rest idx beg uni more [])).
Proof.
  induction rest as [|c rest IH]; intros idx beg uni more b.
  - unfold loop. cbn [esc_loop fst snd]. rewrite app_nil_r. reflexivity.
  - assert (G : forall i' beg' uni' more' x y,
        x = b ++ y ->
        loop s rest i' beg' uni' more' x =
        (b ++ fst (loop s rest i' beg' uni' more' y), snd (loop s rest i' beg' uni' more' y))).
    { intros. subst x. rewrite IH, (IH _ _ _ _ y). cbn [fst snd]. rewrite app_assoc. reflexivity. }
    unfold loop in *. cbn [esc_loop]. destruct more as [|[|m]].
    + rewrite !(flush_out b).
      repeat match goal with
      | |- (if ?x then _ else _) = _ => destruct x
      end; apply G; unfold happ; rewrite <- ?app_assoc; auto; rewrite app_nil_r; auto.
    + apply G. reflexivity.
    + apply G. rewrite app_nil_r. reflexivity.
Qed.

Lemma loop_shift d s rest : forall idx beg uni more b,
  loop (d ++ s) rest (length d + idx) (length d + beg) uni more b =
  (fst (loop s rest idx beg uni more b), length d + snd (loop s rest idx beg uni more b)).
Proof.
  induction rest as [|c rest IH]; intros idx beg uni more b.
  - reflexivity.
  - unfold loop in *. cbn [esc_loop].
    assert (S1 : S (length d + idx) = length d + S idx) by lia. rewrite S1.
    assert (F : flush happ b (d ++ s) (length d + beg) (length d + idx) = flush happ b s beg idx).
    { rewrite flush_shift, <- flush_out. reflexivity. }
    rewrite F. destruct more as [|[|m]]; auto.
    repeat match goal with
    | |- (if ?x then _ else _) = _ => destruct x
    end; auto.
Qed.

Lemma finish_shift d s b beg : 0 < length d ->
  finish (d ++ s) (b, length d + beg) = finish s (b, beg).
Proof.
  intros Hd. unfold finish. rewrite app_length. destruct s as [|c s].
  - cbn [length pred]. rewrite !Nat.add_0_r.
    destruct (Nat.leb_spec (length d + beg) (pred (length d))); [lia|]. simpl andb. cbv iota.
    rewrite andb_false_r. reflexivity.
  - cbn [length].
    replace (pred (length d + S (length s))) with (length d + length s) by lia.
    replace (S (length d + length s)) with (length d + S (length s)) by lia.
    rewrite slice_shift. cbn [pred].
    destruct (Nat.leb_spec (length d + beg) (length d + length s)), (Nat.leb_spec beg (length s)); try lia; auto.
    destruct (Nat.ltb_spec (length d + length s) (length d + S (length s))),
             (Nat.ltb_spec (length s) (S (length s))); try lia; auto.
Qed.

Lemma finish_out s b r : finish s (b ++ fst r, snd r) = b ++ finish s r.
Proof. destruct r as [x beg]. unfold finish. cbn [fst snd]. destruct (_ && _); auto. rewrite app_assoc. auto. Qed.

(** Restarting after [d] with nothing pending is escaping the rest. *)
Lemma loop_restart d s b : 0 < length d ->
  finish (d ++ s) (loop (d ++ s) s (length d) (length d) [] 0 b) = b ++ escape_buf happ [] s.
Proof.
  intros H. pose proof (loop_shift d s s 0 0 [] 0 b) as E. rewrite !Nat.add_0_r in E. rewrite E.
  rewrite finish_shift by auto. rewrite escape_buf_finish. rewrite loop_out. cbn [fst snd].
  rewrite finish_out. destruct (loop s s 0 0 [] 0 []). reflexivity.
Qed.

Lemma loop_prefix p t : escapes p t -> forall d r beg b, beg <= length d ->
  exists beg' b', loop (d ++ p ++ r) (p ++ r) (length d) beg [] 0 b
    = loop (d ++ p ++ r) r (length (d ++ p)) beg' [] 0 b' /\
  beg' <= length (d ++ p) /\ b' ++ skipn beg' (d ++ p) = b ++ skipn beg d ++ t.
Proof.
  assert (Len : forall (d : bytes) l, length (d ++ l) = length l + length d).
  { intros. rewrite app_length. lia. }
  assert (Multi : forall m s t, m <> [] ->
    (forall d r beg b, beg <= length d ->
      loop (d ++ m ++ s ++ r) (m ++ s ++ r) (length d) beg [] 0 b =
      loop (d ++ m ++ s ++ r) (s ++ r) (length (d ++ m)) (length (d ++ m)) [] 0 ((b ++ skipn beg d) ++ m)) ->
    (forall d r beg b, beg <= length d ->
      exists beg' b', loop (d ++ s ++ r) (s ++ r) (length d) beg [] 0 b
        = loop (d ++ s ++ r) r (length (d ++ s)) beg' [] 0 b' /\
      beg' <= length (d ++ s) /\ b' ++ skipn beg' (d ++ s) = b ++ skipn beg d ++ t) ->
    forall d r beg b, beg <= length d ->
      exists beg' b', loop (d ++ (m ++ s) ++ r) ((m ++ s) ++ r) (length d) beg [] 0 b
        = loop (d ++ (m ++ s) ++ r) r (length (d ++ m ++ s)) beg' [] 0 b' /\
      beg' <= length (d ++ m ++ s) /\ b' ++ skipn beg' (d ++ m ++ s) = b ++ skipn beg d ++ m ++ t).
  { intros m s t0 Hm E IH d r beg b Hb. rewrite <- (app_assoc m s r). rewrite E by auto.
    destruct (IH (d ++ m) r (length (d ++ m)) ((b ++ skipn beg d) ++ m) (le_n _)) as (beg' & b' & E1 & L & E2).
    rewrite <- !app_assoc in *. exists beg', b'. split; [exact E1|]. split; auto.
    rewrite E2. rewrite skipn_all. rewrite <- ?app_assoc. reflexivity. }
  induction 1 as [|c s t H2 H3 H4 _ IH|c c1 s t H2 P1 _ IH|c c1 c2 s t H3 P1 P2 _ IH
                 |c c1 c2 c3 s t H4 P1 P2 P3 _ IH].
  - intros d r beg b Hb. exists beg, b. rewrite !app_nil_r. auto.
  - intros d r beg b Hb. cbn [app].
    destruct (loop_one d c (s ++ r) beg b H2 H3 H4 Hb) as (beg' & b' & E1 & Hb' & E).
    destruct (IH (d ++ [c]) r beg' b') as (beg2 & b2 & E2 & L2 & E3).
    { rewrite Len. simpl. lia. }
    rewrite <- !app_assoc in E2, L2, E3. cbn [app] in E2, L2, E3.
    rewrite (Len d [c]) in E2. cbn [length plus] in E2.
    exists beg2, b2. split; [rewrite E1, E2, <- (app_assoc d [c] s); reflexivity|]. split; [exact L2|].
    rewrite E3. rewrite app_assoc, E, <- !app_assoc. reflexivity.
  - apply (Multi [c; c1] s t); auto; [discriminate|]. intros d r beg b Hb. cbn [app].
    rewrite (loop_lead d c (c1 :: s ++ r) beg b 1) by auto. rewrite loop_last.
    rewrite Len. reflexivity.
  - apply (Multi [c; c1; c2] s t); auto; [discriminate|]. intros d r beg b Hb. cbn [app].
    rewrite (loop_lead d c (c1 :: c2 :: s ++ r) beg b 2) by auto. rewrite loop_more, loop_last.
    rewrite Len. reflexivity.
  - apply (Multi [c; c1; c2; c3] s t); auto; [discriminate|]. intros d r beg b Hb. cbn [app].
    rewrite (loop_lead d c (c1 :: c2 :: c3 :: s ++ r) beg b 3) by auto. rewrite !loop_more, loop_last.
    rewrite Len. reflexivity.
Qed.

(** A two-byte lead copies the next byte raw, whatever it is. *)
Lemma escape_swallow p t c q s : escapes p t -> lead2 c = true ->
  escape_buf happ [] (p ++ c :: q :: s) = t ++ c :: q :: escape_buf happ [] s.
Proof.
  intros H Hc. rewrite escape_buf_finish.
  destruct (loop_prefix p t H [] (c :: q :: s) 0 [] (le_n _)) as (beg & b & E & L & F).
  cbn [app] in E, L, F. cbn [length] in E. rewrite E.
  rewrite (loop_lead p c (q :: s) beg b 1) by auto. rewrite loop_last. rewrite F. cbn [app skipn].
  replace (p ++ c :: q :: s) with ((p ++ [c; q]) ++ s) by (rewrite <- app_assoc; reflexivity).
  replace (S (S (length p))) with (length (p ++ [c; q])) by (rewrite app_length; simpl; lia).
  rewrite loop_restart by (rewrite app_length; simpl; lia).
  rewrite <- app_assoc. reflexivity.
Qed.

(** A lead byte at the very end repeats the pending text. *)
Lemma escape_truncated p t c : escapes p t -> lead2 c || lead3 c || lead4 c = true ->
  exists pend pre, p = pre ++ pend /\
    escape_buf happ [] (p ++ [c]) = t ++ pend ++ [c].
Proof.
  intros H Hc. rewrite escape_buf_finish.
  destruct (loop_prefix p t H [] [c] 0 [] (le_n _)) as (beg & b & E & L & F).
  cbn [app] in E, L, F. cbn [length] in E. rewrite E. cbn [skipn app] in F.
  exists (skipn beg p), (firstn beg p). split; [symmetry; apply firstn_skipn|].
  assert (K : exists k, lead2 c = true /\ k = 1 \/ lead3 c = true /\ k = 2 \/ lead4 c = true /\ k = 3).
  { apply orb_prop in Hc as [Hc|Hc]; [apply orb_prop in Hc as [Hc|Hc]|]; eauto 7. }
  destruct K as (k & K). rewrite (loop_lead p c [] beg b k) by auto.
  rewrite F. unfold loop. cbn [esc_loop]. rewrite finish_end by (rewrite app_length; simpl; lia).
  rewrite skipn_snoc by lia. reflexivity.
Qed.

Lemma no_lead_framed s : forallb (fun c => N.ltb (code c) 192) s = true -> framed s.
Proof.
  induction s as [|c s IH]; [constructor|]. cbn [forallb]. intros H. apply andb_prop in H as [H1 H2].
  apply fr_one; auto; revert H1; clear; bytecase c.
Qed.

(** Printable ASCII that is not escaped. *)
Definition unescaped (c : ascii) : bool :=
  N.leb 32 (code c) && N.ltb (code c) 127 &&
  negb (N.eqb (code c) 92 || N.eqb (code c) 47 || N.eqb (code c) 34).

Lemma unescaped_step s c r idx beg b : unescaped c = true ->
  loop s (c :: r) idx beg [] 0 b = loop s r (S idx) beg [] 0 b.
Proof.
  intros H. unfold loop. cbn [esc_loop].
  assert (F : (N.eqb (code c) 92 || N.eqb (code c) 47 || N.eqb (code c) 34) = false /\
    N.eqb (code c) 8 = false /\ N.eqb (code c) 12 = false /\ N.eqb (code c) 10 = false /\
    N.eqb (code c) 13 = false /\ N.eqb (code c) 9 = false /\
    (N.leb 32 (code c) && N.ltb (code c) 127) = true).
  { revert H. clear. bytecase c; repeat split. }
  destruct F as (-> & -> & -> & -> & -> & -> & ->). reflexivity.
Qed.

Lemma unescaped_loop a : forall s r idx beg b, forallb unescaped a = true ->
  loop s (a ++ r) idx beg [] 0 b = loop s r (idx + length a) beg [] 0 b.
Proof.
  induction a as [|c a IH]; intros s r idx beg b H.
  - simpl. rewrite Nat.add_0_r. reflexivity.
  - cbn [forallb] in H. apply andb_prop in H as [H1 H2]. cbn [app length].
    rewrite unescaped_step by auto. rewrite IH by auto. f_equal. lia.
Qed.

Lemma escape_repeats a c : forallb unescaped a = true -> lead2 c || lead3 c || lead4 c = true ->
  escape_buf happ [] (a ++ [c]) = a ++ a ++ [c].
Proof.
  intros H Hc. rewrite escape_buf_finish, unescaped_loop by auto.
  assert (K : exists k, lead2 c = true /\ k = 1 \/ lead3 c = true /\ k = 2 \/ lead4 c = true /\ k = 3).
  { apply orb_prop in Hc as [Hc|Hc]; [apply orb_prop in Hc as [Hc|Hc]|]; eauto 7. }
  destruct K as (k & K). cbn [plus]. rewrite (loop_lead a c [] 0 [] k) by (auto; lia).
  unfold loop. cbn [esc_loop]. rewrite finish_end by lia. reflexivity.
Qed.

Lemma unescaped_plain c : unescaped c = true -> plain_char c = true.
Proof. bytecase c. Qed.

Lemma plain_jbody s : forallb plain_char s = true -> jbody s s.
Proof.
  induction s as [|c s IH]; cbn [forallb]; intros H; constructor;
    apply andb_prop in H as [? ?]; auto.
Qed.

(** ** Statements used by PropFlashEscape.v *)

Lemma string_buf_out b s : string_buf happ b s = b ++ string_buf happ [] s.
Proof.
  unfold string_buf. rewrite !escape_buf_finish. unfold happ.
  rewrite loop_out, finish_out, (loop_out s s 0 0 [] 0 ([] ++ [quote])), finish_out.
  rewrite <- !app_assoc. reflexivity.
Qed.

Lemma string_buf_escape s : string_buf happ [] s = quote :: escape_buf happ [] s ++ [quote].
Proof.
  unfold string_buf. rewrite !escape_buf_finish. unfold happ.
  rewrite loop_out, finish_out. cbn [app]. destruct (loop s s 0 0 [] 0 []). reflexivity.
Qed.

Lemma flash_string_lossless b s : valid_utf8 s = true ->
  exists body, string_buf happ b s = b ++ quote :: body ++ [quote] /\
    (forall rest, parse_body (body ++ quote :: rest) = Some (s, rest)) /\
    forallb (fun c => N.leb 32 (code c)) body = true /\ valid_utf8 body = true.
Proof.
  intros H. destruct (utf8_escapes s H) as (t & E & V). exists t.
  rewrite string_buf_out, string_buf_escape, (escape_framed [] s t E).
  repeat split; auto.
  - intros rest. apply parse_body_complete, escapes_body; auto.
  - apply (escapes_no_ctl s t); auto.
Qed.

Lemma flash_quote_injection p s : valid_utf8 p = true ->
  exists body, string_buf happ [] (p ++ chr 195 :: quote :: s) =
      quote :: body ++ quote :: escape_buf happ [] s ++ [quote] /\
    forall rest, parse_body (body ++ quote :: rest) = Some (p ++ [chr 195], rest).
Proof.
  intros H. destruct (utf8_escapes p H) as (t & E & V). exists (t ++ [chr 195]). split.
  - rewrite string_buf_escape, (escape_swallow p t) by auto. rewrite <- !app_assoc. reflexivity.
  - intros rest. apply parse_body_complete.
    clear V H. induction E; cbn [app]; rewrite <- ?app_assoc.
    + apply plain_body; [reflexivity|constructor].
    + apply esc1_body. auto.
    + apply plain_body; [apply lead_plain; rewrite H; auto|]. apply plain_body; auto.
    + apply plain_body; [apply lead_plain; rewrite H, ?orb_true_r; auto|]. repeat (apply plain_body; auto).
    + apply plain_body; [apply lead_plain; rewrite H, ?orb_true_r; auto|]. repeat (apply plain_body; auto).
Qed.

Lemma flash_raw_newline p s : valid_utf8 p = true ->
  In newline (string_buf happ [] (p ++ chr 195 :: newline :: s)).
Proof.
  intros H. destruct (utf8_escapes p H) as (t & E & V).
  rewrite string_buf_escape, (escape_swallow p t) by auto.
  right. rewrite <- app_assoc. apply in_or_app. right. right. left. reflexivity.
Qed.

Lemma flash_repeats a c : forallb unescaped a = true -> lead2 c || lead3 c || lead4 c = true ->
  string_buf happ [] (a ++ [c]) = quote :: (a ++ a ++ [c]) ++ [quote] /\
  forall rest, parse_body ((a ++ a ++ [c]) ++ quote :: rest) = Some (a ++ a ++ [c], rest).
Proof.
  intros H Hc. split.
  - rewrite string_buf_escape, escape_repeats by auto. reflexivity.
  - intros rest. apply parse_body_complete, plain_jbody.
    rewrite !forallb_app. cbn [forallb]. rewrite (lead_plain c Hc).
    assert (P : forallb plain_char a = true).
    { clear - H. induction a as [|x a IH]; auto. cbn [forallb] in *. apply andb_prop in H as [H1 H2].
      rewrite unescaped_plain; auto. }
    rewrite P. reflexivity.
Qed.

Lemma flash_no_lead s : forallb (fun c => N.ltb (code c) 192) s = true ->
  exists body, string_buf happ [] s = quote :: body ++ [quote] /\
    (forall rest, parse_body (body ++ quote :: rest) = Some (s, rest)) /\
    forallb (fun c => N.leb 32 (code c)) body = true.
Proof.
  intros H. destruct (framed_escapes s (no_lead_framed s H)) as (t & E). exists t.
  rewrite string_buf_escape, (escape_framed [] s t E). repeat split.
  - intros rest. apply parse_body_complete, escapes_body; auto.
  - apply (escapes_no_ctl s t); auto.
Qed.
