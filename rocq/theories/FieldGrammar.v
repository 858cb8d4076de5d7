(** The field counter on well-formed texts and their beginnings, over runes. *)

From Coq Require Import Ascii String List NArith Bool Arith Lia.
From Verif Require Import Bytes BytesProofs Json GoQuote Replace FieldCounter SpecFields FieldProofs.
Import ListNotations.

(** ** Contract of the classes *)

Definition ascii_space (r : N) : bool := N.leb 9 r && N.leb r 13 || N.eqb r 32.
Definition ascii_letter (r : N) : bool := N.leb 65 r && N.leb r 90 || N.leb 97 r && N.leb r 122.
Definition ascii_digit (r : N) : bool := N.leb 48 r && N.leb r 57.
Definition ascii_lower (r : N) : N := if N.leb 65 r && N.leb r 90 then (r + 32)%N else r.

Definition classes_ok (u : classes) : Prop := forall r, (r < 128)%N ->
  u_space u r = ascii_space r /\ u_letter u r = ascii_letter r /\ u_digit u r = ascii_digit r /\
  u_lower u r = ascii_lower r.

(** ** What is counted *)

Section Tally.
Variable tally : bool -> layout -> counts -> counts.

Definition tally_value (k : bytes) (v : layout) (c : counts) : counts :=
  match v with
  | LObj _ => if beq k (B "fields") then tally true v (delete k c) else tally false v c
  | _ => tally false v c
  end.

Fixpoint tally_members (count : bool) (ms : members) (c : counts) : counts :=
  match ms with
  | [] => c
  | (k, v) :: ms' => tally_members count ms' (tally_value k v (if count then bump k c else c))
  end.

Fixpoint tally_elems (l : list layout) (c : counts) : counts :=
  match l with [] => c | v :: l' => tally_elems l' (tally false v c) end.
End Tally.

Fixpoint tally (count : bool) (l : layout) (c : counts) : counts :=
  match l with
  | LScalar => c
  | LArr vs => tally_elems tally vs c
  | LObj ms => tally_members tally count ms c
  end.

(** ** Runs *)

Definition value_run u c s r := exists n, parse_value n u (c, s) = Some r.
Definition array_run u e c s r := exists n, parse_array n u e (c, s) = Some r.
Definition field_run u f e c s r := exists n, parse_field n u f e (c, s) = Some r.
Definition object_run u k e c s r := exists n, parse_object n u k e (c, s) = Some r.

Section Runs.
Variable u : classes.

Lemma value_nil c : value_run u c [] (Ok (c, [])).
Proof. exists 1. reflexivity. Qed.
Lemma array_nil e c : array_run u e c [] (Ok (c, [])).
Proof. exists 1. reflexivity. Qed.
Lemma field_nil f e c : field_run u f e c [] (Ok (c, [])).
Proof. exists 1. reflexivity. Qed.
Lemma object_nil k e c : object_run u k e c [] (Ok (c, [])).
Proof. exists 1. reflexivity. Qed.

Lemma value_space x c t r : u_space u x = true -> value_run u c t r -> value_run u c (x :: t) r.
Proof. intros H [n R]. exists (S n). cbn [parse_value]. rewrite H. exact R. Qed.
Lemma array_space x e c t r : u_space u x = true -> array_run u e c t r -> array_run u e c (x :: t) r.
Proof. intros H [n R]. exists (S n). cbn [parse_array]. rewrite H. exact R. Qed.
Lemma field_space x f e c t r : u_space u x = true -> field_run u f e c t r -> field_run u f e c (x :: t) r.
Proof. intros H [n R]. exists (S n). cbn [parse_field]. rewrite H. exact R. Qed.
Lemma object_space x k e c t r : u_space u x = true -> object_run u k e c t r -> object_run u k e c (x :: t) r.
Proof. intros H [n R]. exists (S n). cbn [parse_object]. rewrite H. exact R. Qed.

Lemma array_value x c t c' s' r :
  u_space u x = false -> N.eqb x 44 = false -> N.eqb x 93 = false ->
  value_run u c (x :: t) (Ok (c', s')) -> array_run u true c' s' r -> array_run u false c (x :: t) r.
Proof.
  intros H1 H2 H3 [n Rv] [m Ra]. exists (S (n + m)). cbn [parse_array]. rewrite H1, H2, H3.
  rewrite (fuel_value _ _ (n + m) _ _ Rv) by lia. apply (fuel_array _ _ (n + m) _ _ _ Ra). lia.
Qed.
Lemma array_value_err x c t eof st :
  u_space u x = false -> N.eqb x 44 = false -> N.eqb x 93 = false ->
  value_run u c (x :: t) (Err eof st) -> array_run u false c (x :: t) (Err eof st).
Proof.
  intros H1 H2 H3 [n Rv]. exists (S n). cbn [parse_array]. rewrite H1, H2, H3, Rv. reflexivity.
Qed.

Hypothesis ok : classes_ok u.

Ltac ascii := let H := fresh in
  match goal with |- context [u_space u ?x] => destruct (ok x eq_refl) as (H & _); rewrite H; clear H end.

Lemma array_comma c t r : array_run u false c t r -> array_run u true c (44 :: t)%N r.
Proof. intros [n R]. exists (S n). cbn [parse_array]. ascii. exact R. Qed.
Lemma array_end e c t : array_run u e c (93 :: t)%N (Ok (c, t)).
Proof. exists 1. cbn [parse_array]. ascii. reflexivity. Qed.

Lemma field_colon f c t r : field_run u f false c t r -> field_run u f true c (58 :: t)%N r.
Proof. intros [n R]. exists (S n). cbn [parse_field]. ascii. exact R. Qed.
Lemma field_object f c t r :
  (if beq f (B "fields") then object_run u true false (delete f c) t r else object_run u false false c t r) ->
  field_run u f false c (123 :: t)%N r.
Proof.
  intros R. destruct (beq f (B "fields")) eqn:E; destruct R as [n R]; exists (S n); cbn [parse_field]; ascii;
    cbn [ascii_space N.eqb Pos.eqb andb orb N.leb N.compare Pos.compare Pos.compare_cont]; rewrite E; exact R.
Qed.
Lemma field_array f c t r : array_run u false c t r -> field_run u f false c (91 :: t)%N r.
Proof. intros [n R]. exists (S n). cbn [parse_field]. ascii. exact R. Qed.
Lemma field_value f c x t r : u_space u x = false -> N.eqb x 58 = false -> N.eqb x 123 = false -> N.eqb x 91 = false ->
  value_run u c (x :: t) r -> field_run u f false c (x :: t) r.
Proof. intros H1 H2 H3 H4 [n R]. exists (S n). cbn [parse_field]. rewrite H1, H2, H3, H4. exact R. Qed.

Lemma object_comma k c t r : object_run u k false c t r -> object_run u k true c (44 :: t)%N r.
Proof. intros [n R]. exists (S n). cbn [parse_object]. ascii. exact R. Qed.
Lemma object_end k e c t : object_run u k e c (125 :: t)%N (Ok (c, t)).
Proof. exists 1. cbn [parse_object]. ascii. reflexivity. Qed.
Lemma object_field (k : bool) c t a rest c' s' r : parse_string t = (a, false, rest) ->
  field_run u (built a) true (if k then bump (built a) c else c) rest (Ok (c', s')) ->
  object_run u k true c' s' r -> object_run u k false c (34 :: t)%N r.
Proof.
  intros P [n Rf] [m Ro]. exists (S (n + m)). cbn [parse_object]. ascii.
  change (ascii_space 34) with false. cbn [N.eqb Pos.eqb]. rewrite P.
  rewrite (fuel_field _ _ (n + m) _ _ _ _ Rf) by lia. apply (fuel_object _ _ (n + m) _ _ _ _ Ro). lia.
Qed.
Lemma object_field_err (k : bool) c t a rest eof st : parse_string t = (a, false, rest) ->
  field_run u (built a) true (if k then bump (built a) c else c) rest (Err eof st) ->
  object_run u k false c (34 :: t)%N (Err eof st).
Proof.
  intros P [n Rf]. exists (S n). cbn [parse_object]. ascii.
  change (ascii_space 34) with false. cbn [N.eqb Pos.eqb]. rewrite P, Rf. reflexivity.
Qed.
Lemma object_string_err k c t a rest : parse_string t = (a, true, rest) ->
  object_run u k false c (34 :: t)%N (Err true (c, rest)).
Proof.
  intros P. exists 1. cbn [parse_object]. ascii.
  change (ascii_space 34) with false. cbn [N.eqb Pos.eqb]. rewrite P. reflexivity.
Qed.

Lemma value_array c t r : array_run u false c t r -> value_run u c (91 :: t)%N r.
Proof.
  intros [n R]. exists (S n). cbn [parse_value]. ascii. destruct (ok 91%N eq_refl) as (_ & _ & -> & _). exact R.
Qed.
Lemma value_object c t r : object_run u false false c t r -> value_run u c (123 :: t)%N r.
Proof.
  intros [n R]. exists (S n). cbn [parse_value]. ascii. destruct (ok 123%N eq_refl) as (_ & _ & -> & _). exact R.
Qed.
Lemma value_string c t a cut rest : parse_string t = (a, cut, rest) ->
  value_run u c (34 :: t)%N (if cut then Err true (c, rest) else Ok (c, rest)).
Proof.
  intros P. exists 1. cbn [parse_value]. ascii. change (ascii_space 34) with false.
  cbn [keyword_rune existsb N.eqb Pos.eqb orb]. rewrite P. reflexivity.
Qed.
Lemma value_number c x t rest : (ascii_digit x || N.eqb x 45 = true) -> parse_number u num_start t = Some rest ->
  value_run u c (x :: t) (Ok (c, rest)).
Proof.
  intros H P. assert (L : (45 <= x <= 57)%N).
  { unfold ascii_digit in H. rewrite orb_true_iff, andb_true_iff, !N.leb_le, N.eqb_eq in H. lia. }
  destruct (ok x) as (Hs & _ & Hd & _); [lia|]. exists 1. cbn [parse_value]. rewrite Hs, Hd.
  replace (ascii_space x) with false.
  2:{ symmetry. unfold ascii_space. rewrite orb_false_iff, andb_false_iff, !N.leb_gt, N.eqb_neq. lia. }
  replace (keyword_rune x) with false.
  2:{ symmetry. unfold keyword_rune. cbn [existsb]. rewrite !orb_false_iff, !N.eqb_neq. lia. }
  replace (N.eqb x 34) with false by (symmetry; apply N.eqb_neq; lia).
  rewrite H, P. reflexivity.
Qed.
Lemma value_keyword c x t a rest : In x [116; 102; 110]%N -> parse_keyword u t = (a, rest) ->
  value_run u c (x :: t) (if good_keyword u (x :: a) then Ok (c, rest) else Err false (c, rest)).
Proof.
  intros H P. exists 1. cbn [parse_value].
  assert (u_space u x = false) as ->.
  { destruct H as [<-|[<-|[<-|[]]]]; match goal with |- u_space u ?y = _ => destruct (ok y eq_refl) as (-> & _) end; reflexivity. }
  assert (keyword_rune x = true) as -> by (destruct H as [<-|[<-|[<-|[]]]]; reflexivity).
  rewrite P. destruct (good_keyword u (x :: a)); reflexivity.
Qed.

(** ** Grammar over runes *)

Definition rws (s : list N) : Prop := forallb (fun r => N.eqb r 32 || N.eqb r 9 || N.eqb r 13) s = true.

Inductive rbody : list N -> Prop :=
| rb_nil : rbody []
| rb_plain r b : r <> 34%N -> r <> 92%N -> rbody b -> rbody (r :: b)
| rb_escape r b : rbody b -> rbody (92%N :: r :: b).

(** A number goes through the loop without stopping. *)
Fixpoint num_run (f : numflags) (s : list N) : bool :=
  match s with
  | [] => true
  | r :: t => match num_step u f r with NGo f' => num_run f' t | _ => false end
  end.

Definition keywords : list (list N) :=
  [[116; 114; 117; 101]; [102; 97; 108; 115; 101]; [110; 117; 108; 108]]%N.

Inductive rtext : layout -> list N -> Prop :=
| rt_key a : In a keywords -> rtext LScalar a
| rt_num r t : ascii_digit r || N.eqb r 45 = true -> num_run num_start t = true -> rtext LScalar (r :: t)
| rt_str b : rbody b -> rtext LScalar (34%N :: b ++ [34%N])
| rt_arr0 w : rws w -> rtext (LArr []) (91%N :: w ++ [93%N])
| rt_arr l b : relems l b -> rtext (LArr l) (91%N :: b ++ [93%N])
| rt_obj0 w : rws w -> rtext (LObj []) (123%N :: w ++ [125%N])
| rt_obj l b : rmembers l b -> rtext (LObj l) (123%N :: b ++ [125%N])
with relems : list layout -> list N -> Prop :=
| re_one v w1 b w2 : rws w1 -> rtext v b -> rws w2 -> relems [v] (w1 ++ b ++ w2)
| re_cons v w1 b w2 l t : rws w1 -> rtext v b -> rws w2 -> relems l t ->
    relems (v :: l) (w1 ++ b ++ w2 ++ 44%N :: t)
with rmembers : members -> list N -> Prop :=
| rm_one kb v w1 w2 w3 b w4 : rws w1 -> rbody kb -> rws w2 -> rws w3 -> rtext v b -> rws w4 ->
    rmembers [(built kb, v)] (w1 ++ 34%N :: kb ++ 34%N :: w2 ++ 58%N :: w3 ++ b ++ w4)
| rm_cons kb v w1 w2 w3 b w4 l t :
    rws w1 -> rbody kb -> rws w2 -> rws w3 -> rtext v b -> rws w4 -> rmembers l t ->
    rmembers ((built kb, v) :: l)
      (w1 ++ 34%N :: kb ++ 34%N :: w2 ++ 58%N :: w3 ++ b ++ w4 ++ 44%N :: t).

Scheme rtext_ind' := Minimality for rtext Sort Prop
with relems_ind' := Minimality for relems Sort Prop
with rmembers_ind' := Minimality for rmembers Sort Prop.
Combined Scheme rune_grammar_ind from rtext_ind', relems_ind', rmembers_ind'.

Lemma ws_space x : N.eqb x 32 || N.eqb x 9 || N.eqb x 13 = true -> u_space u x = true.
Proof.
  intros H. rewrite !orb_true_iff, !N.eqb_eq in H. destruct (ok x) as (-> & _); [lia|].
  destruct H as [[-> | ->]| ->]; reflexivity.
Qed.

Lemma value_ws w c t r : rws w -> value_run u c t r -> value_run u c (w ++ t) r.
Proof.
  unfold rws. induction w as [|x w IH]; intros H R; [exact R|]. cbn in H. apply andb_true_iff in H.
  cbn. apply value_space; [apply ws_space, H|apply IH; [apply H|exact R]].
Qed.
Lemma array_ws w e c t r : rws w -> array_run u e c t r -> array_run u e c (w ++ t) r.
Proof.
  unfold rws. induction w as [|x w IH]; intros H R; [exact R|]. cbn in H. apply andb_true_iff in H.
  cbn. apply array_space; [apply ws_space, H|apply IH; [apply H|exact R]].
Qed.
Lemma field_ws w f e c t r : rws w -> field_run u f e c t r -> field_run u f e c (w ++ t) r.
Proof.
  unfold rws. induction w as [|x w IH]; intros H R; [exact R|]. cbn in H. apply andb_true_iff in H.
  cbn. apply field_space; [apply ws_space, H|apply IH; [apply H|exact R]].
Qed.
Lemma object_ws w k e c t r : rws w -> object_run u k e c t r -> object_run u k e c (w ++ t) r.
Proof.
  unfold rws. induction w as [|x w IH]; intros H R; [exact R|]. cbn in H. apply andb_true_iff in H.
  cbn. apply object_space; [apply ws_space, H|apply IH; [apply H|exact R]].
Qed.

Lemma string_full b t : rbody b -> parse_string (b ++ 34%N :: t) = (b, false, t).
Proof.
  induction 1 as [|r b H1 H2 H IH|r b H IH]; [reflexivity| |].
  - cbn [app parse_string]. apply N.eqb_neq in H1, H2. rewrite H1, H2, IH. reflexivity.
  - cbn [app parse_string N.eqb Pos.eqb]. rewrite IH. reflexivity.
Qed.

Lemma string_cut b p q : rbody b -> b = p ++ q -> exists a cut, parse_string p = (a, cut, []).
Proof.
  intros H. revert p q. induction H as [|r b H1 H2 H IH|r b H IH]; intros p q E.
  - destruct p; [|discriminate]. cbn. eauto.
  - destruct p as [|x p]; [cbn; eauto|]. injection E as <- E. destruct (IH _ _ E) as (a & cut & P).
    cbn [parse_string]. apply N.eqb_neq in H1, H2. rewrite H1, H2, P. eauto.
  - destruct p as [|x p]; [cbn; eauto|]. injection E as <- E. destruct p as [|y p]; [cbn; eauto|].
    injection E as <- E. destruct (IH _ _ E) as (a & cut & P). cbn [parse_string N.eqb Pos.eqb]. rewrite P. eauto.
Qed.

(** What may follow a value. *)
Definition follow (k : list N) : Prop := match k with [] => True | r :: _ => In r [32; 9; 13; 44; 93; 125]%N end.

Lemma number_full s k : follow k -> forall f, num_run f s = true -> parse_number u f (s ++ k) = Some k.
Proof.
  intros F. induction s as [|r s IH]; intros f H; cbn [app].
  - destruct k as [|x k]; [reflexivity|]. cbn [parse_number]. replace (num_step u f x) with NStop; [reflexivity|].
    cbn in F. unfold num_step. destruct (ok x) as (_ & _ & -> & _); [intuition (subst; reflexivity)|].
    intuition (subst; reflexivity).
  - cbn [parse_number num_run] in *. destruct (num_step u f r); [auto|discriminate|discriminate].
Qed.

Lemma number_cut s p q : s = p ++ q -> forall f, num_run f s = true -> parse_number u f p = Some [].
Proof.
  revert p. induction s as [|r s IH]; intros p E f H.
  - destruct p; [reflexivity|discriminate].
  - destruct p as [|x p]; [reflexivity|]. injection E as <- E. cbn [parse_number num_run] in *.
    destruct (num_step u f r); [eauto|discriminate|discriminate].
Qed.

Lemma keyword_full s k : follow k -> forallb ascii_letter s = true -> parse_keyword u (s ++ k) = (s, k).
Proof.
  intros F. induction s as [|r s IH]; intros H; cbn [app].
  - destruct k as [|x k]; [reflexivity|]. cbn [parse_keyword].
    cbn in F. destruct (ok x) as (_ & -> & _); [intuition (subst; reflexivity)|].
    intuition (subst; reflexivity).
  - cbn in H. apply andb_true_iff in H. destruct H as [H1 H2]. cbn [parse_keyword].
    destruct (ok r) as (_ & -> & _).
    { unfold ascii_letter in H1. rewrite orb_true_iff, !andb_true_iff, !N.leb_le in H1. lia. }
    rewrite H1, IH by exact H2. reflexivity.
Qed.

Lemma good_true rs : In rs keywords -> good_keyword u rs = true.
Proof.
  intros H. assert (L : map_runes (u_lower u) (built rs) = built rs).
  { unfold map_runes. destruct H as [<-|[<-|[<-|[]]]];
    match goal with |- context [runes ?b] => let r := eval vm_compute in (runes b) in change (runes b) with r end;
    cbn [map]; repeat match goal with |- context [u_lower u ?x] => destruct (ok x eq_refl) as (_ & _ & _ & ->) end;
    reflexivity. }
  unfold good_keyword. rewrite L. destruct H as [<-|[<-|[<-|[]]]]; reflexivity.
Qed.

(** ** Well-formed texts *)

Lemma text_start v b : rtext v b -> exists x t, b = x :: t /\ u_space u x = false /\ N.eqb x 44 = false /\
  N.eqb x 93 = false /\ N.eqb x 58 = false /\ N.eqb x 34 || N.eqb x 91 || N.eqb x 123 || ascii_digit x ||
    N.eqb x 45 || existsb (N.eqb x) [116; 102; 110]%N = true.
Proof.
  assert (G : forall x t, (x < 128)%N -> ascii_space x = false -> N.eqb x 44 = false -> N.eqb x 93 = false ->
    N.eqb x 58 = false -> N.eqb x 34 || N.eqb x 91 || N.eqb x 123 || ascii_digit x ||
    N.eqb x 45 || existsb (N.eqb x) [116; 102; 110]%N = true ->
    exists x' t', x :: t = x' :: t' /\ u_space u x' = false /\ N.eqb x' 44 = false /\
     N.eqb x' 93 = false /\ N.eqb x' 58 = false /\ N.eqb x' 34 || N.eqb x' 91 || N.eqb x' 123 || ascii_digit x' ||
    N.eqb x' 45 || existsb (N.eqb x') [116; 102; 110]%N = true).
  { intros x t L Hs H1 H2 H3 H4. exists x, t. destruct (ok x L) as (-> & _). auto 7. }
  destruct 1 as [a H|r t H Hn|b H|w H|l b H|w H|l b H]; try (apply G; reflexivity).
  - destruct H as [<-|[<-|[<-|[]]]]; apply G; reflexivity.
  - assert (L : (45 <= r <= 57)%N /\ r <> 46%N).
    { unfold ascii_digit in H. rewrite orb_true_iff, andb_true_iff, !N.leb_le, N.eqb_eq in H. lia. }
    apply G; [lia| | | | |].
    + unfold ascii_space. rewrite orb_false_iff, andb_false_iff, !N.leb_gt, N.eqb_neq. lia.
    + apply N.eqb_neq. lia.
    + apply N.eqb_neq. lia.
    + apply N.eqb_neq. unfold ascii_digit in H. rewrite orb_true_iff, andb_true_iff, !N.leb_le, N.eqb_eq in H. lia.
    + rewrite !orb_true_iff in *. tauto.
Qed.

Lemma follow_ws w k : rws w -> follow k -> follow (w ++ k).
Proof.
  destruct w as [|x w]; [auto|]. unfold rws. cbn. rewrite andb_true_iff, !orb_true_iff, !N.eqb_eq.
  intros [[[->| ->]| ->] _] _; auto 7.
Qed.

Lemma texts_full :
  (forall v b, rtext v b ->
     (forall c k, follow k -> value_run u c (b ++ k) (Ok (tally false v c, k))) /\
     (forall f c k, follow k -> field_run u f false c (b ++ k) (Ok (tally_value tally f v c, k))) /\
     (forall l, v = LObj l -> forall cnt c k, exists t, b = 123%N :: t /\
        object_run u cnt false c (t ++ k) (Ok (tally cnt v c, k)))) /\
  (forall l b, relems l b -> forall c k,
     array_run u false c (b ++ 93%N :: k) (Ok (tally_elems tally l c, k))) /\
  (forall ms b, rmembers ms b -> forall cnt c k,
     object_run u cnt false c (b ++ 125%N :: k) (Ok (tally_members tally cnt ms c, k))).
Proof.
  apply rune_grammar_ind.
  - intros a H. assert (V : forall c k, follow k -> value_run u c (a ++ k) (Ok (c, k))).
    { intros c k F. destruct a as [|x t]; [destruct H as [H|[H|[H|[]]]]; discriminate|].
      assert (Hx : In x [116; 102; 110]%N) by (destruct H as [H|[H|[H|[]]]]; injection H as <- _; cbn; auto).
      assert (Ht : forallb ascii_letter t = true) by (destruct H as [H|[H|[H|[]]]]; injection H as _ <-; reflexivity).
      pose proof (value_keyword c x (t ++ k) t k Hx (keyword_full t k F Ht)) as R.
      rewrite (good_true (x :: t)) in R by exact H. exact R. }
    split; [exact V|]. split; [|discriminate]. intros f c k F. specialize (V c k F).
    destruct H as [<-|[<-|[<-|[]]]]; cbn [app] in *; apply field_value; try reflexivity; try exact V;
      match goal with |- u_space u ?y = _ => destruct (ok y eq_refl) as (-> & _) end; reflexivity.
  - intros r t Hr Hn. assert (V : forall c k, follow k -> value_run u c (r :: t ++ k) (Ok (c, k))).
    { intros c k F. apply value_number; [exact Hr|]. apply number_full; assumption. }
    split; [exact V|]. split; [|discriminate]. intros f c k F. specialize (V c k F). cbn [app].
    destruct (text_start LScalar (r :: t) (rt_num r t Hr Hn)) as (x & t' & E & Hs & _ & _ & H58 & _).
    injection E as <- <-. apply field_value; try assumption.
    + apply N.eqb_neq. intros ->. discriminate.
    + apply N.eqb_neq. intros ->. discriminate.
  - intros b H. assert (V : forall c k, value_run u c (34%N :: (b ++ [34%N]) ++ k) (Ok (c, k))).
    { intros c k. rewrite <- app_assoc. cbn [app].
      exact (value_string c (b ++ 34%N :: k) b false k (string_full b k H)). }
    split; [intros; apply V|]. split; [|discriminate]. intros f c k F. cbn [app].
    apply field_value; try reflexivity; [|apply V]. destruct (ok 34%N eq_refl) as (-> & _). reflexivity.
  - intros w H. assert (A : forall c k, array_run u false c ((w ++ [93%N]) ++ k) (Ok (c, k))).
    { intros c k. rewrite <- app_assoc. apply array_ws; [exact H|]. apply array_end. }
    split; [intros c k _; apply value_array, A|]. split; [|discriminate]. intros f c k _. apply field_array, A.
  - intros l b _ IH. assert (A : forall c k, array_run u false c ((b ++ [93%N]) ++ k) (Ok (tally_elems tally l c, k))).
    { intros c k. rewrite <- app_assoc. apply IH. }
    split; [intros c k _; apply value_array, A|]. split; [|discriminate]. intros f c k _. apply field_array, A.
  - intros w H. assert (O : forall cnt c k, object_run u cnt false c ((w ++ [125%N]) ++ k) (Ok (c, k))).
    { intros cnt c k. rewrite <- app_assoc. apply object_ws; [exact H|]. apply object_end. }
    split; [intros c k _; apply value_object, O|]. split.
    + intros f c k _. apply field_object. cbn [tally_value]. destruct (beq f (B "fields")); apply O.
    + intros l _ cnt c k. eexists. split; [reflexivity|]. apply O.
  - intros l b _ IH. assert (O : forall cnt c k, object_run u cnt false c ((b ++ [125%N]) ++ k) (Ok (tally cnt (LObj l) c, k))).
    { intros cnt c k. rewrite <- app_assoc. apply IH. }
    split; [intros c k _; apply value_object, O|]. split.
    + intros f c k _. apply field_object. cbn [tally_value]. destruct (beq f (B "fields")); apply O.
    + intros l' _ cnt c k. eexists. split; [reflexivity|]. apply O.
  - intros v w1 b w2 H1 Hv IH H2 c k. rewrite <- !app_assoc. apply array_ws; [exact H1|].
    destruct (text_start v b Hv) as (x & t & E & Hs & H44 & H93 & _). destruct IH as (IH & _).
    specialize (IH c (w2 ++ 93%N :: k)). rewrite E in *. cbn [app] in *.
    eapply array_value; [exact Hs|exact H44|exact H93| |].
    + apply IH. apply follow_ws; [exact H2|]. cbn. auto 8.
    + apply array_ws; [exact H2|]. apply array_end.
  - intros v w1 b w2 l t0 H1 Hv IH H2 Hl IHl c k. rewrite <- !app_assoc. apply array_ws; [exact H1|].
    destruct (text_start v b Hv) as (x & t & E & Hs & H44 & H93 & _). destruct IH as (IH & _).
    specialize (IH c (w2 ++ (44%N :: t0) ++ 93%N :: k)). rewrite E in *. cbn [app] in *.
    eapply array_value; [exact Hs|exact H44|exact H93| |].
    + apply IH. apply follow_ws; [exact H2|]. cbn. auto 8.
    + apply array_ws; [exact H2|]. apply array_comma. apply IHl.
  - intros kb v w1 w2 w3 b w4 H1 Hk H2 H3 Hv IH H4 cnt c k. destruct IH as (_ & IH & _).
    repeat (rewrite <- ?app_assoc; cbn [app]). apply object_ws; [exact H1|].
    eapply object_field; [apply string_full; exact Hk| |].
    + apply field_ws; [exact H2|]. apply field_colon. apply field_ws; [exact H3|].
      apply IH. apply follow_ws; [exact H4|]. cbn. auto 8.
    + apply object_ws; [exact H4|]. apply object_end.
  - intros kb v w1 w2 w3 b w4 l t0 H1 Hk H2 H3 Hv IH H4 Hl IHl cnt c k. destruct IH as (_ & IH & _).
    repeat (rewrite <- ?app_assoc; cbn [app]). apply object_ws; [exact H1|].
    eapply object_field; [apply string_full; exact Hk| |].
    + apply field_ws; [exact H2|]. apply field_colon. apply field_ws; [exact H3|].
      apply IH. apply follow_ws; [exact H4|]. cbn. auto 8.
    + apply object_ws; [exact H4|]. apply object_comma. apply IHl.
Qed.

(** ** Beginnings of texts *)

Definition cut_key (p : list N) : Prop :=
  exists q a b, p = q ++ a /\ a <> [] /\ b <> [] /\ In (a ++ b) keywords.

Lemma cut_key_app a p : ~ cut_key (a ++ p) -> ~ cut_key p.
Proof. intros H (q & x & b & -> & K). apply H. exists (a ++ q), x, b. rewrite app_assoc. auto. Qed.

(** At the end of the input: no error, or one that wraps io.EOF. *)
Definition stops (r : result) : Prop := exists c, r = Ok (c, []) \/ r = Err true (c, []).

Lemma stops_ok c : stops (Ok (c, [])).
Proof. exists c. auto. Qed.

Lemma prefix_app {A} (a b p q : list A) : a ++ b = p ++ q ->
  (exists q', a = p ++ q' /\ q' <> []) \/ (exists p', p = a ++ p' /\ b = p' ++ q).
Proof.
  revert p. induction a as [|x a IH]; intros p E.
  - right. exists p. auto.
  - destruct p as [|y p].
    + left. exists (x :: a). split; [reflexivity|discriminate].
    + injection E as <- E. destruct (IH p E) as [(q' & -> & N)|(p' & -> & H)].
      * left. exists q'. auto.
      * right. exists p'. auto.
Qed.

Lemma prefix_cons {A} (x : A) b p q : x :: b = p ++ q -> p = [] \/ exists p', p = x :: p' /\ b = p' ++ q.
Proof. destruct p as [|y p]; [auto|]. intros E. injection E as <- E. right. eauto. Qed.

Lemma rws_prefix p q : rws (p ++ q) -> rws p.
Proof. unfold rws. rewrite forallb_app, andb_true_iff. tauto. Qed.

Lemma follow_blank w : rws w -> follow w.
Proof. intros H. rewrite <- (app_nil_r w). apply follow_ws; [exact H|exact I]. Qed.

Definition array_stops (c : counts) (p : list N) : Prop := exists r, array_run u false c p r /\ stops r.
Definition value_stops (c : counts) (p : list N) : Prop := exists r, value_run u c p r /\ stops r.
Definition field_stops f (c : counts) (p : list N) : Prop := exists r, field_run u f false c p r /\ stops r.
Definition object_stops k (c : counts) (p : list N) : Prop := exists r, object_run u k false c p r /\ stops r.

Lemma array_ws_stops e c w : rws w -> array_run u e c w (Ok (c, [])).
Proof. intros H. rewrite <- (app_nil_r w) at 1. apply array_ws; [exact H|]. apply array_nil. Qed.
Lemma field_ws_stops f e c w : rws w -> field_run u f e c w (Ok (c, [])).
Proof. intros H. rewrite <- (app_nil_r w) at 1. apply field_ws; [exact H|]. apply field_nil. Qed.
Lemma object_ws_stops k e c w : rws w -> object_run u k e c w (Ok (c, [])).
Proof. intros H. rewrite <- (app_nil_r w) at 1. apply object_ws; [exact H|]. apply object_nil. Qed.

(** A member cut off after its key. *)
Lemma member_cut k c kb s :
  rbody kb ->
  (forall c, exists r, field_run u (built kb) true c s r /\ stops r) ->
  object_stops k c (34%N :: kb ++ 34%N :: s).
Proof.
  intros Hk H. destruct (H (if k then bump (built kb) c else c)) as (r & R & c' & [-> | ->]).
  - exists (Ok (c', [])). split; [|apply stops_ok].
    eapply object_field; [apply string_full; exact Hk|exact R|apply object_nil].
  - exists (Err true (c', [])). split; [|exists c'; auto].
    eapply object_field_err; [apply string_full; exact Hk|exact R].
Qed.

(** The beginnings of a member, its value cut off. *)
Lemma member_prefix k c w1 kb w2 w3 b p q :
  rws w1 -> rbody kb -> rws w2 -> rws w3 ->
  (forall p q, b = p ++ q -> q <> [] -> ~ cut_key p -> forall f c, field_stops f c p) ->
  w1 ++ 34%N :: kb ++ 34%N :: w2 ++ 58%N :: w3 ++ b = p ++ q -> q <> [] -> ~ cut_key p -> object_stops k c p.
Proof.
  intros H1 Hk H2 H3 Hb E Nq Nc.
  apply prefix_app in E. destruct E as [(q' & -> & _)|(p1 & -> & E)].
  { exists (Ok (c, [])). split; [|apply stops_ok]. apply object_ws_stops. eapply rws_prefix, H1. }
  assert (G : object_stops k c p1).
  2:{ destruct G as (r & R & S0). exists r. split; [|exact S0]. apply object_ws; assumption. }
  apply prefix_cons in E. destruct E as [-> |(p2 & -> & E)].
  { exists (Ok (c, [])). split; [apply object_nil|apply stops_ok]. }
  apply prefix_app in E. destruct E as [(q' & Eb & _)|(p3 & -> & E)].
  { destruct (string_cut kb p2 q' Hk Eb) as (a & cut & P). destruct cut.
    - exists (Err true (c, [])). split; [|exists c; auto]. eapply object_string_err, P.
    - eexists (Ok (_, [])). split; [|apply stops_ok].
      eapply object_field; [exact P|apply field_nil|apply object_nil]. }
  apply prefix_cons in E. destruct E as [-> |(p4 & -> & E)].
  { rewrite app_nil_r. destruct (string_cut kb kb [] Hk (eq_sym (app_nil_r kb))) as (a & cut & P). destruct cut.
    - exists (Err true (c, [])). split; [|exists c; auto]. eapply object_string_err, P.
    - eexists (Ok (_, [])). split; [|apply stops_ok].
      eapply object_field; [exact P|apply field_nil|apply object_nil]. }
  apply member_cut; [exact Hk|]. clear c. intros c.
  apply prefix_app in E. destruct E as [(q' & Ew & _)|(p5 & -> & E)].
  { exists (Ok (c, [])). split; [|apply stops_ok]. apply field_ws_stops. rewrite Ew in H2. eapply rws_prefix, H2. }
  apply prefix_cons in E. destruct E as [-> |(p6 & -> & E)].
  { exists (Ok (c, [])). split; [|apply stops_ok]. rewrite app_nil_r. apply field_ws_stops, H2. }
  apply prefix_app in E. destruct E as [(q' & Ew & _)|(p7 & -> & E)].
  { exists (Ok (c, [])). split; [|apply stops_ok]. apply field_ws; [exact H2|]. apply field_colon.
    apply field_ws_stops. rewrite Ew in H3. eapply rws_prefix, H3. }
  assert (Nc' : ~ cut_key p7).
  { intros K. apply Nc. destruct K as (x & a & y & -> & K).
    exists (w1 ++ 34%N :: kb ++ 34%N :: w2 ++ 58%N :: w3 ++ x), a, y. split; [|exact K].
    repeat (rewrite <- ?app_assoc; cbn [app]). reflexivity. }
  destruct (Hb p7 q E Nq Nc' (built kb) c) as (r & R & S0). exists r. split; [|exact S0].
  apply field_ws; [exact H2|]. apply field_colon. apply field_ws; assumption.
Qed.

Lemma value_of_field f c x t : u_space u x = false -> N.eqb x 58 = false -> N.eqb x 123 = false -> N.eqb x 91 = false ->
  value_stops c (x :: t) -> field_stops f c (x :: t).
Proof. intros H1 H2 H3 H4 (r & R & S0). exists r. split; [|exact S0]. apply field_value; assumption. Qed.

Lemma value_empty c : value_stops c [].
Proof. exists (Ok (c, [])). split; [apply value_nil|apply stops_ok]. Qed.
Lemma field_empty f c : field_stops f c [].
Proof. exists (Ok (c, [])). split; [apply field_nil|apply stops_ok]. Qed.

(** A value in an array, cut off. *)
Lemma elem_prefix c w1 v b p q : rws w1 -> rtext v b ->
  (forall p q, b = p ++ q -> q <> [] -> ~ cut_key p -> forall c, value_stops c p) ->
  w1 ++ b = p ++ q -> q <> [] -> ~ cut_key p -> array_stops c p.
Proof.
  intros H1 Hv Hb E Nq Nc.
  apply prefix_app in E. destruct E as [(q' & -> & _)|(p1 & -> & E)].
  { exists (Ok (c, [])). split; [|apply stops_ok]. apply array_ws_stops. eapply rws_prefix, H1. }
  assert (G : array_stops c p1).
  2:{ destruct G as (r & R & S0). exists r. split; [|exact S0]. apply array_ws; assumption. }
  destruct (Hb p1 q E Nq (cut_key_app _ _ Nc) c) as (r & R & S0).
  destruct p1 as [|y p1]; [exists (Ok (c, [])); split; [apply array_nil|apply stops_ok]|].
  destruct (text_start v b Hv) as (x & t & Ex & Hs & H44 & H93 & _).
  rewrite Ex in E. injection E as <- E. destruct S0 as (c' & [-> | ->]).
  - exists (Ok (c', [])). split; [|apply stops_ok]. eapply array_value; try eassumption. apply array_nil.
  - exists (Err true (c', [])). split; [|exists c'; auto]. apply array_value_err; assumption.
Qed.

Lemma texts_cut :
  (forall v b, rtext v b -> forall p q, b = p ++ q -> q <> [] -> ~ cut_key p ->
     (forall c, value_stops c p) /\ (forall f c, field_stops f c p) /\
     (forall l, v = LObj l -> forall cnt c p', p = 123%N :: p' -> object_stops cnt c p')) /\
  (forall l b, relems l b -> forall p q, b = p ++ q -> ~ cut_key p -> forall c, array_stops c p) /\
  (forall ms b, rmembers ms b -> forall p q, b = p ++ q -> ~ cut_key p -> forall cnt c, object_stops cnt c p).
Proof.
  apply rune_grammar_ind.
  - intros a H p q E Nq Nc. assert (p = []) as ->.
    { destruct p as [|x p]; [reflexivity|]. exfalso. apply Nc. exists [], (x :: p), q.
      split; [reflexivity|]. split; [discriminate|]. split; [exact Nq|]. rewrite <- E. exact H. }
    split; [intros; apply value_empty|]. split; [intros; apply field_empty|discriminate].
  - intros r t Hr Hn p q E Nq Nc. apply prefix_cons in E. destruct E as [-> |(p' & -> & E)].
    { split; [intros; apply value_empty|]. split; [intros; apply field_empty|discriminate]. }
    assert (V : forall c, value_stops c (r :: p')).
    { intros c. exists (Ok (c, [])). split; [|apply stops_ok]. apply value_number; [exact Hr|].
      eapply number_cut; eassumption. }
    split; [exact V|]. split; [|discriminate]. intros f c.
    destruct (text_start LScalar (r :: t) (rt_num r t Hr Hn)) as (x & t' & Ex & Hs & _ & _ & H58 & _).
    injection Ex as <- <-. apply value_of_field; try assumption; [| |apply V];
      apply N.eqb_neq; intros ->; discriminate.
  - intros b H p q E Nq Nc. apply prefix_cons in E. destruct E as [-> |(p' & -> & E)].
    { split; [intros; apply value_empty|]. split; [intros; apply field_empty|discriminate]. }
    assert (P : exists a cut, parse_string p' = (a, cut, [])).
    { apply prefix_app in E. destruct E as [(q' & Eb & _)|(p2 & -> & E)]; [eapply string_cut; eassumption|].
      apply prefix_cons in E. destruct E as [-> |(p3 & -> & E)].
      - rewrite app_nil_r. eapply string_cut; [exact H|]. symmetry. apply app_nil_r.
      - destruct p3; [|discriminate]. cbn in E. congruence. }
    destruct P as (a & cut & P).
    assert (V : forall c, value_stops c (34%N :: p')).
    { intros c. eexists. split; [eapply value_string, P|]. destruct cut; exists c; auto. }
    split; [exact V|]. split; [|discriminate]. intros f c.
    apply value_of_field; try reflexivity; [|apply V]. destruct (ok 34%N eq_refl) as (-> & _). reflexivity.
  - intros w H p q E Nq Nc. apply prefix_cons in E. destruct E as [-> |(p' & -> & E)].
    { split; [intros; apply value_empty|]. split; [intros; apply field_empty|discriminate]. }
    assert (A : forall c, array_stops c p').
    { intros c. exists (Ok (c, [])). split; [|apply stops_ok]. apply array_ws_stops.
      apply prefix_app in E. destruct E as [(q' & -> & _)|(p2 & -> & E)]; [eapply rws_prefix, H|].
      apply prefix_cons in E. destruct E as [-> |(p3 & -> & E)]; [rewrite app_nil_r; exact H|].
      destruct p3; [|discriminate]. cbn in E. congruence. }
    split; [|split; [|discriminate]].
    + intros c. destruct (A c) as (r & R & S0). exists r. split; [apply value_array, R|exact S0].
    + intros f c. destruct (A c) as (r & R & S0). exists r. split; [apply field_array, R|exact S0].
  - intros l b Hl IH p q E Nq Nc. apply prefix_cons in E. destruct E as [-> |(p' & -> & E)].
    { split; [intros; apply value_empty|]. split; [intros; apply field_empty|discriminate]. }
    assert (A : forall c, array_stops c p').
    { intros c. apply (cut_key_app [91%N]) in Nc.
      apply prefix_app in E. destruct E as [(q' & Eb & _)|(p2 & Ep & E)]; [eapply IH; eassumption|].
      apply prefix_cons in E. destruct E as [-> |(p3 & -> & E)].
      - rewrite app_nil_r in Ep. subst p'. apply (IH b []); [symmetry; apply app_nil_r|exact Nc].
      - destruct p3; [|discriminate]. cbn in E. congruence. }
    split; [|split; [|discriminate]].
    + intros c. destruct (A c) as (r & R & S0). exists r. split; [apply value_array, R|exact S0].
    + intros f c. destruct (A c) as (r & R & S0). exists r. split; [apply field_array, R|exact S0].
  - intros w H p q E Nq Nc. apply prefix_cons in E. destruct E as [-> |(p' & -> & E)].
    { split; [intros; apply value_empty|]. split; [intros; apply field_empty|intros; discriminate]. }
    assert (O : forall k c, object_stops k c p').
    { intros k c. exists (Ok (c, [])). split; [|apply stops_ok]. apply object_ws_stops.
      apply prefix_app in E. destruct E as [(q' & -> & _)|(p2 & -> & E)]; [eapply rws_prefix, H|].
      apply prefix_cons in E. destruct E as [-> |(p3 & -> & E)]; [rewrite app_nil_r; exact H|].
      destruct p3; [|discriminate]. cbn in E. congruence. }
    split; [|split].
    + intros c. destruct (O false c) as (r & R & S0). exists r. split; [apply value_object, R|exact S0].
    + intros f c. destruct (beq f (B "fields")) eqn:Ef.
      * destruct (O true (delete f c)) as (r & R & S0). exists r. split; [|exact S0]. apply field_object. rewrite Ef. exact R.
      * destruct (O false c) as (r & R & S0). exists r. split; [|exact S0]. apply field_object. rewrite Ef. exact R.
    + intros l _ cnt c p'' Ep. injection Ep as <-. apply O.
  - intros l b Hl IH p q E Nq Nc. apply prefix_cons in E. destruct E as [-> |(p' & -> & E)].
    { split; [intros; apply value_empty|]. split; [intros; apply field_empty|intros; discriminate]. }
    assert (O : forall k c, object_stops k c p').
    { intros k c. apply (cut_key_app [123%N]) in Nc.
      apply prefix_app in E. destruct E as [(q' & Eb & _)|(p2 & Ep & E)]; [eapply IH; eassumption|].
      apply prefix_cons in E. destruct E as [-> |(p3 & -> & E)].
      - rewrite app_nil_r in Ep. subst p'. apply (IH b []); [symmetry; apply app_nil_r|exact Nc].
      - destruct p3; [|discriminate]. cbn in E. congruence. }
    split; [|split].
    + intros c. destruct (O false c) as (r & R & S0). exists r. split; [apply value_object, R|exact S0].
    + intros f c. destruct (beq f (B "fields")) eqn:Ef.
      * destruct (O true (delete f c)) as (r & R & S0). exists r. split; [|exact S0]. apply field_object. rewrite Ef. exact R.
      * destruct (O false c) as (r & R & S0). exists r. split; [|exact S0]. apply field_object. rewrite Ef. exact R.
    + intros l' _ cnt c p'' Ep. injection Ep as <-. apply O.
  - intros v w1 b w2 H1 Hv IH H2 p q E Nc c. rewrite app_assoc in E.
    apply prefix_app in E. destruct E as [(q' & E & Nq')|(p2 & -> & E)].
    + eapply elem_prefix; [exact H1|exact Hv| |exact E|exact Nq'|exact Nc].
      intros p0 q0 E0 N0 C0. apply (IH p0 q0 E0 N0 C0).
    + exists (Ok (tally false v c, [])). split; [|apply stops_ok]. rewrite <- app_assoc. apply array_ws; [exact H1|].
      assert (H2' : rws p2) by (rewrite E in H2; eapply rws_prefix, H2).
      destruct (text_start v b Hv) as (x & t & Ex & Hs & H44 & H93 & _).
      pose proof (proj1 (proj1 texts_full v b Hv) c p2 (follow_blank _ H2')) as R.
      rewrite Ex in *. cbn [app] in *. eapply array_value; [exact Hs|exact H44|exact H93|exact R|].
      apply array_ws_stops, H2'.
  - intros v w1 b w2 l t0 H1 Hv IH H2 Hl IHl p q E Nc c. rewrite app_assoc in E.
    apply prefix_app in E. destruct E as [(q' & E & Nq')|(p2 & -> & E)].
    + eapply elem_prefix; [exact H1|exact Hv| |exact E|exact Nq'|exact Nc].
      intros p0 q0 E0 N0 C0. apply (IH p0 q0 E0 N0 C0).
    + assert (G : forall c, exists r, array_run u true c p2 r /\ stops r).
      { clear c. intros c. apply prefix_app in E. destruct E as [(q' & E & Nq')|(p3 & -> & E)].
        - exists (Ok (c, [])). split; [|apply stops_ok]. apply array_ws_stops. rewrite E in H2. eapply rws_prefix, H2.
        - apply prefix_cons in E. destruct E as [-> |(p4 & -> & E)].
          + exists (Ok (c, [])). split; [|apply stops_ok]. rewrite app_nil_r. apply array_ws_stops, H2.
          + destruct (IHl p4 q E) with (c := c) as (r & R & S0).
            * intros K. apply Nc. destruct K as (x & a & y & -> & K). exists ((w1 ++ b) ++ w2 ++ 44%N :: x), a, y.
              split; [|exact K]. repeat (rewrite <- ?app_assoc; cbn [app]). reflexivity.
            * exists r. split; [|exact S0]. apply array_ws; [exact H2|]. apply array_comma, R. }
      destruct (G (tally false v c)) as (r & R & S0). exists r. split; [|exact S0].
      rewrite <- app_assoc. apply array_ws; [exact H1|].
      assert (F : follow p2).
      { apply prefix_app in E. destruct E as [(q' & E & Nq')|(p3 & -> & E)].
        - apply follow_blank. rewrite E in H2. eapply rws_prefix, H2.
        - apply follow_ws; [exact H2|]. apply prefix_cons in E. destruct E as [-> |(p4 & -> & E)]; cbn; auto 7. }
      destruct (text_start v b Hv) as (x & t & Ex & Hs & H44 & H93 & _).
      pose proof (proj1 (proj1 texts_full v b Hv) c p2 F) as Rv.
      rewrite Ex in *. cbn [app] in *. eapply array_value; [exact Hs|exact H44|exact H93|exact Rv|exact R].
  - intros kb v w1 w2 w3 b w4 H1 Hk H2 H3 Hv IH H4 p q E Nc cnt c.
    replace (w1 ++ 34%N :: kb ++ 34%N :: w2 ++ 58%N :: w3 ++ b ++ w4)
      with ((w1 ++ 34%N :: kb ++ 34%N :: w2 ++ 58%N :: w3 ++ b) ++ w4) in E
      by (repeat (rewrite <- ?app_assoc; cbn [app]); reflexivity).
    apply prefix_app in E. destruct E as [(q' & E & Nq')|(p2 & -> & E)].
    + eapply member_prefix; [exact H1|exact Hk|exact H2|exact H3| |exact E|exact Nq'|exact Nc].
      intros p0 q0 E0 N0 C0 f c0. apply (IH p0 q0 E0 N0 C0).
    + repeat (rewrite <- ?app_assoc; cbn [app]). assert (H4' : rws p2) by (rewrite E in H4; eapply rws_prefix, H4).
      eexists. split; [|apply stops_ok]. apply object_ws; [exact H1|].
      eapply object_field; [apply string_full; exact Hk| |].
      * apply field_ws; [exact H2|]. apply field_colon. apply field_ws; [exact H3|].
        apply (proj1 (proj2 (proj1 texts_full v b Hv))). apply follow_blank, H4'.
      * apply object_ws_stops, H4'.
  - intros kb v w1 w2 w3 b w4 l t0 H1 Hk H2 H3 Hv IH H4 Hl IHl p q E Nc cnt c.
    replace (w1 ++ 34%N :: kb ++ 34%N :: w2 ++ 58%N :: w3 ++ b ++ w4 ++ 44%N :: t0)
      with ((w1 ++ 34%N :: kb ++ 34%N :: w2 ++ 58%N :: w3 ++ b) ++ w4 ++ 44%N :: t0) in E
      by (repeat (rewrite <- ?app_assoc; cbn [app]); reflexivity).
    apply prefix_app in E. destruct E as [(q' & E & Nq')|(p2 & -> & E)].
    + eapply member_prefix; [exact H1|exact Hk|exact H2|exact H3| |exact E|exact Nq'|exact Nc].
      intros p0 q0 E0 N0 C0 f c0. apply (IH p0 q0 E0 N0 C0).
    + assert (G : forall c, exists r, object_run u cnt true c p2 r /\ stops r).
      { clear c. intros c. apply prefix_app in E. destruct E as [(q' & E & Nq')|(p3 & -> & E)].
        - exists (Ok (c, [])). split; [|apply stops_ok]. apply object_ws_stops. rewrite E in H4. eapply rws_prefix, H4.
        - apply prefix_cons in E. destruct E as [-> |(p4 & -> & E)].
          + exists (Ok (c, [])). split; [|apply stops_ok]. rewrite app_nil_r. apply object_ws_stops, H4.
          + destruct (IHl p4 q E) with (cnt := cnt) (c := c) as (r & R & S0).
            * intros K. apply Nc. destruct K as (x & a & y & -> & K).
              exists ((w1 ++ 34%N :: kb ++ 34%N :: w2 ++ 58%N :: w3 ++ b) ++ w4 ++ 44%N :: x), a, y.
              split; [|exact K]. repeat (rewrite <- ?app_assoc; cbn [app]). reflexivity.
            * exists r. split; [|exact S0]. apply object_ws; [exact H4|]. apply object_comma, R. }
      assert (F : follow p2).
      { apply prefix_app in E. destruct E as [(q' & E & Nq')|(p3 & -> & E)].
        - apply follow_blank. rewrite E in H4. eapply rws_prefix, H4.
        - apply follow_ws; [exact H4|]. apply prefix_cons in E. destruct E as [-> |(p4 & -> & E)]; cbn; auto 7. }
      destruct (G (tally_value tally (built kb) v (if cnt then bump (built kb) c else c))) as (r & R & S0).
      exists r. split; [|exact S0].
      repeat (rewrite <- ?app_assoc; cbn [app]). apply object_ws; [exact H1|].
      eapply object_field; [apply string_full; exact Hk| |exact R].
      apply field_ws; [exact H2|]. apply field_colon. apply field_ws; [exact H3|].
      apply (proj1 (proj2 (proj1 texts_full v b Hv))). exact F.
Qed.
End Runs.
