(** C49: what the charts of the server show. *)

From Coq Require Import Ascii String List NArith ZArith QArith Qcanon Qround Bool Permutation Sorted Arith Lia Lqa.
From Verif Require Import Bytes BytesProofs GoSort Slog Replace Regex Bench Num NumProofs ScoreProofs Enums PropReplace PropEnums Chart.
Import ListNotations.
Local Open Scope nat_scope.

(** ** Specification *)

(** The bars for a list of tags, in order: the tags that have a record, each with its
    name and its value. *)
Inductive bars (name : bytes -> bytes) (recs : gomap trec) (i : item) : list bytes -> list (bytes * Q) -> Prop :=
| no_bars : bars name recs i [] []
| bar_at t ts r l : get t recs = Some r -> bars name recs i ts l -> bars name recs i (t :: ts) ((name t, item_value r i) :: l)
| bar_not t ts l : get t recs = None -> bars name recs i ts l -> bars name recs i (t :: ts) l.

(** The integer a text stands for: a sign or none, and decimal digits. *)
Inductive decimal : bytes -> Z -> Prop :=
| dec_one c : (48 <= code c <= 57)%N -> decimal [c] (Z.of_N (code c) - 48)
| dec_more ds n c : decimal ds n -> (48 <= code c <= 57)%N -> decimal (ds ++ [c]) (10 * n + (Z.of_N (code c) - 48)).
Inductive integer : bytes -> Z -> Prop :=
| int_plain ds n : decimal ds n -> integer ds n
| int_plus ds n : decimal ds n -> integer (B "+" ++ ds) n
| int_minus ds n : decimal ds n -> integer (B "-" ++ ds) (- n).
Definition int64 (n : Z) : Prop := (- 2 ^ 63 <= n < 2 ^ 63)%Z.

(** A score against a bound: NaN is neither below nor at least anything. *)
Definition at_least (v : xnum) (q : Qc) : Prop := match v with Fin p => (q <= p)%Qc | Inf negative => negative = false | NaN => False end.
Definition below (v : xnum) (q : Qc) : Prop := match v with Fin p => (p < q)%Qc | Inf negative => negative = true | NaN => False end.
Definition above (v : xnum) (q : Qc) : Prop := match v with Fin p => (q < p)%Qc | Inf negative => negative = false | NaN => False end.
(** The lowest score a size shows. *)
Definition lowest (k : nat) : Qc := Qc_of_Z (25 * Z.of_nat k).

Lemma beq_spec a b : reflect (a = b) (beq a b).
Proof. destruct (beq a b) eqn:E; constructor; [apply beq_eq, E|apply beq_neq, E]. Qed.

(** ** Reversal and bars *)

Lemma set_at_app {A} (a : list A) x y c : set_at (length a) x (a ++ y :: c) = a ++ x :: c.
Proof. induction a as [|z a IH]; [reflexivity|]. cbn. f_equal. exact IH. Qed.

Lemma nth_error_mid {A} (a : list A) x c : nth_error (a ++ x :: c) (length a) = Some x.
Proof. rewrite nth_error_app2, Nat.sub_diag; [reflexivity|lia]. Qed.

Lemma swap_ends {A} (a m c : list A) x y :
  swap (length a) (length a + S (length m)) (a ++ (x :: m ++ [y]) ++ c) = (a ++ [y]) ++ m ++ x :: c.
Proof.
  unfold swap.
  assert (E1 : a ++ (x :: m ++ [y]) ++ c = a ++ x :: (m ++ y :: c)) by (cbn; rewrite <- !app_assoc; reflexivity).
  assert (E2 : a ++ x :: (m ++ y :: c) = (a ++ x :: m) ++ y :: c) by (rewrite <- app_assoc; reflexivity).
  assert (L : length a + S (length m) = length (a ++ x :: m)) by (rewrite app_length; cbn; lia).
  rewrite E1, nth_error_mid, L. rewrite E2 at 1. rewrite nth_error_mid, set_at_app.
  assert (L2 : length (a ++ x :: m) = length (a ++ y :: m)) by (rewrite !app_length; cbn; lia).
  rewrite L2. replace (a ++ y :: m ++ y :: c) with ((a ++ y :: m) ++ y :: c) by (rewrite <- app_assoc; reflexivity).
  rewrite set_at_app, <- !app_assoc. reflexivity.
Qed.

Lemma reverse_loop_rev {A} (n : nat) : forall (a m c : list A), length m <= n ->
  reverse_loop n (Z.of_nat (length a)) (Z.of_nat (length a) + Z.of_nat (length m) - 1) (a ++ m ++ c) = a ++ rev m ++ c.
Proof.
  induction n as [|n IH]; intros a m c L.
  - destruct m; [reflexivity|cbn in L; lia].
  - cbn [reverse_loop]. destruct m as [|x m].
    { destruct (Z.ltb_spec (Z.of_nat (length a)) (Z.of_nat (length a) + Z.of_nat (@length A []) - 1)); [cbn in *; lia|reflexivity]. }
    destruct (@exists_last _ (x :: m)) as (m0 & y & E); [discriminate|]. destruct m0 as [|x0 m'].
    + cbn in E. injection E as -> ->. destruct (Z.ltb_spec (Z.of_nat (length a)) (Z.of_nat (length a) + Z.of_nat (length [y]) - 1));
        [cbn in *; lia|reflexivity].
    + cbn in E. injection E as <- ->. cbn [length] in *. rewrite app_length in *. cbn [length] in *.
      destruct (Z.ltb_spec (Z.of_nat (length a)) (Z.of_nat (length a) + Z.of_nat (S (length m' + 1)) - 1)) as [_|X]; [|lia].
      replace (Z.to_nat (Z.of_nat (length a))) with (length a) by lia.
      replace (Z.to_nat (Z.of_nat (length a) + Z.of_nat (S (length m' + 1)) - 1)) with (length a + S (length m')) by lia.
      rewrite swap_ends.
      replace (Z.of_nat (length a) + 1)%Z with (Z.of_nat (length (a ++ [y]))) by (rewrite app_length; cbn; lia).
      replace (Z.of_nat (length a) + Z.of_nat (S (length m' + 1)) - 1 - 1)%Z
        with (Z.of_nat (length (a ++ [y])) + Z.of_nat (length m') - 1)%Z by (rewrite app_length; cbn; lia).
      rewrite IH by lia. rewrite <- !app_assoc. f_equal. cbn. rewrite rev_app_distr. cbn. rewrite <- app_assoc. reflexivity.
Qed.

(** reverse: the loop over two indices reverses any slice. *)
Theorem C49_reverse {A} (l : list A) : reverse l = rev l.
Proof.
  unfold reverse. pose proof (reverse_loop_rev (length l) [] l [] (le_n _)) as H. cbn [length app] in H.
  rewrite !app_nil_r in H. exact H.
Qed.

Lemma chart_fold name recs i tags : forall ls vs l, bars name recs i tags l ->
  fold_left (fun lv tag => match get tag recs with Some r => (fst lv ++ [name tag], snd lv ++ [item_value r i]) | None => lv end)
    tags (ls, vs) = (ls ++ map fst l, vs ++ map snd l).
Proof.
  intros ls vs l H. revert ls vs. induction H as [|t ts r l G _ IH|t ts l G _ IH]; intros ls vs; cbn [fold_left map].
  - rewrite !app_nil_r. reflexivity.
  - rewrite G. cbn [fst snd]. rewrite IH, <- !app_assoc. reflexivity.
  - rewrite G. apply IH.
Qed.

Lemma bars_exist name recs i tags : exists l, bars name recs i tags l.
Proof.
  induction tags as [|t ts [l IH]]; [eexists; constructor|].
  destruct (get t recs) eqn:G; [eexists; eapply bar_at; eauto|exists l; apply bar_not; auto].
Qed.

(** The labels and the values of a bar chart: the bars for the tags from last to first,
    each label in the place of its value. *)
Theorem C49_bars name recs i tags : exists l, bars name recs i tags l /\
  chart_data name recs i tags = (map fst (rev l), map snd (rev l)).
Proof.
  destruct (bars_exist name recs i tags) as [l H]. exists l. split; [exact H|].
  unfold chart_data. rewrite (chart_fold _ _ _ _ [] [] l H). cbn [fst snd app]. rewrite !C49_reverse, !map_rev. reflexivity.
Qed.

(** If the tags are those of the records and more, every record has exactly one bar. *)
Theorem C49_all_bars name recs i tags labels values : wf recs -> NoDup tags -> (forall t, In t (keys recs) -> In t tags) ->
  chart_data name recs i tags = (labels, values) ->
  Permutation (combine labels values) (map (fun e => (name (fst e), item_value (snd e) i)) recs) /\ length labels = length values.
Proof.
  intros W ND Inc E. destruct (C49_bars name recs i tags) as (l & H & E'). rewrite E' in E. injection E as <- <-.
  assert (C : forall k : list (bytes * Q), combine (map fst k) (map snd k) = k) by (induction k as [|[? ?] k IH]; cbn; congruence).
  rewrite C, !map_length. split; [|reflexivity]. rewrite <- Permutation_rev. clear C E'.
  revert recs l W Inc H ND. induction tags as [|t ts IH]; intros recs l W Inc H ND.
  - inversion H; subst. destruct recs as [|[k v] recs]; [constructor|]. destruct (Inc k). left. reflexivity.
  - inversion ND as [|? ? NI ND' [E1 E2]]. subst. inversion H as [|? ? r l' G H'|? ? l' G H']; subst.
    + assert (P : exists recs', Permutation recs ((t, r) :: recs')).
      { apply get_in in G; [|exact W]. apply in_split in G. destruct G as (a & c & ->). exists (a ++ c). symmetry. apply Permutation_middle. }
      destruct P as [recs' P]. rewrite P. cbn [map fst snd]. constructor.
      assert (W' : wf ((t, r) :: recs')). { unfold wf, keys in *. eapply Permutation_NoDup; [|exact W]. apply Permutation_map. exact P. }
      pose proof W' as W2. unfold wf in W2. cbn in W2. inversion W2 as [|? ? NI2 W3 [E1 E2]]. subst.
      apply IH; auto.
      * intros u Iu. destruct (Inc u) as [<-|]; [|contradiction|auto].
        unfold keys. eapply Permutation_in; [apply Permutation_map; symmetry; exact P|]. right. exact Iu.
      * clear -H' P W W' NI. induction H' as [|u us q l G H IH|u us l G H IH].
        -- constructor.
        -- apply bar_at; [|apply IH; intros X; apply NI; right; exact X].
           apply get_in in G; [|exact W]. apply get_in; [inversion W'; assumption|].
           eapply Permutation_in in G; [|exact P]. destruct G as [G|G]; [|exact G]. injection G as -> ->. destruct NI. left. reflexivity.
        -- apply bar_not; [|apply IH; intros X; apply NI; right; exact X].
           apply get_none. apply get_none in G. intros X. apply G. unfold keys. eapply Permutation_in; [apply Permutation_map; symmetry; exact P|].
           right. exact X.
    + apply IH; auto. intros u Iu. destruct (Inc u Iu) as [<-|]; [|assumption]. apply get_none in G. contradiction.
Qed.

(** ** The size asked for *)

Lemma digits_snoc ds c : digits_value (ds ++ [c]) = (digits_value ds * 10 + (code c - 48))%N.
Proof. unfold digits_value. rewrite fold_left_app. reflexivity. Qed.

Lemma is_digit_ok c : is_digit_ c = true <-> (48 <= code c <= 57)%N.
Proof. unfold is_digit_. rewrite andb_true_iff, !N.leb_le. reflexivity. Qed.

Lemma decimal_digits ds n : decimal ds n -> ds <> [] /\ forallb is_digit_ ds = true /\ n = Z.of_N (digits_value ds).
Proof.
  induction 1 as [c H|ds n c _ (N0 & F & E) H].
  - split; [discriminate|]. cbn [forallb]. apply is_digit_ok in H as X. rewrite X. split; [reflexivity|].
    change [c] with ([] ++ [c]). rewrite digits_snoc. unfold digits_value; cbn [fold_left]. lia.
  - split; [destruct ds; discriminate|]. rewrite forallb_app, F. cbn [forallb]. apply is_digit_ok in H as X. rewrite X.
    split; [reflexivity|]. rewrite digits_snoc. lia.
Qed.

Lemma digits_decimal ds : ds <> [] -> forallb is_digit_ ds = true -> decimal ds (Z.of_N (digits_value ds)).
Proof.
  induction ds as [|c ds IH] using rev_ind; [congruence|]. intros _ F. rewrite forallb_app in F. apply andb_true_iff in F.
  destruct F as [F G]. cbn in G. rewrite andb_true_r in G. apply is_digit_ok in G. rewrite digits_snoc.
  destruct ds as [|d ds].
  - cbn [app]. unfold digits_value; cbn [fold_left]. replace (Z.of_N (0 * 10 + (code c - 48))) with (Z.of_N (code c) - 48)%Z by lia.
    constructor. exact G.
  - replace (Z.of_N (digits_value (d :: ds) * 10 + (code c - 48)))
      with (10 * Z.of_N (digits_value (d :: ds)) + (Z.of_N (code c) - 48))%Z by lia.
    apply dec_more; [apply IH; [discriminate|exact F]|exact G].
Qed.

Lemma digits_no_sign c ds : forallb is_digit_ (c :: ds) = true -> Ascii.eqb c (chr 45) = false /\ Ascii.eqb c (chr 43) = false.
Proof.
  cbn [forallb]. intros H. apply andb_true_iff in H. destruct H as [H _]. apply is_digit_ok in H.
  split.
  - destruct (Ascii.eqb_spec c (chr 45)) as [->|]; [|reflexivity]. change (code (chr 45)) with 45%N in H. lia.
  - destruct (Ascii.eqb_spec c (chr 43)) as [->|]; [|reflexivity]. change (code (chr 43)) with 43%N in H. lia.
Qed.

(** The value of strconv.Atoi: the integer the text stands for, if an int64 holds it. *)
Lemma atoi_spec s n : atoi s = Some n <-> integer s n /\ int64 n.
Proof.
  unfold int64. split.
  - unfold atoi. destruct s as [|c s]; [discriminate|].
    destruct (Ascii.eqb_spec c (chr 45)) as [->|N1]; [|destruct (Ascii.eqb_spec c (chr 43)) as [->|N2]].
    + destruct s as [|d s]; [discriminate|]. destruct (forallb is_digit_ (d :: s)) eqn:F; [|discriminate].
      pose proof (digits_decimal (d :: s) ltac:(discriminate) F) as D.
      destruct (N.leb_spec (digits_value (d :: s)) (2 ^ 63)) as [L|]; [|discriminate]. intros E. injection E as <-.
      split; [apply (int_minus _ _ D)|]. lia.
    + destruct s as [|d s]; [discriminate|]. destruct (forallb is_digit_ (d :: s)) eqn:F; [|discriminate].
      pose proof (digits_decimal (d :: s) ltac:(discriminate) F) as D.
      destruct (N.ltb_spec (digits_value (d :: s)) (2 ^ 63)) as [L|]; [|discriminate]. intros E. injection E as <-.
      split; [apply (int_plus _ _ D)|]. lia.
    + destruct (forallb is_digit_ (c :: s)) eqn:F; [|discriminate].
      pose proof (digits_decimal (c :: s) ltac:(discriminate) F) as D.
      destruct (N.ltb_spec (digits_value (c :: s)) (2 ^ 63)) as [L|]; [|discriminate]. intros E. injection E as <-.
      split; [apply (int_plain _ _ D)|]. lia.
  - intros [I R]. destruct I as [ds n D|ds n D|ds n D]; destruct (decimal_digits _ _ D) as (N0 & F & ->); unfold atoi.
    + destruct ds as [|c ds]; [congruence|]. destruct (digits_no_sign _ _ F) as [-> ->]. cbn beta iota. rewrite F.
      destruct (N.ltb_spec (digits_value (c :: ds)) (2 ^ 63)); [reflexivity|lia].
    + change (B "+" ++ ds) with (chr 43 :: ds). cbn beta iota. change (Ascii.eqb (chr 43) (chr 45)) with false.
      change (Ascii.eqb (chr 43) (chr 43)) with true. cbn beta iota.
      destruct ds as [|c ds]; [congruence|]. rewrite F.
      destruct (N.ltb_spec (digits_value (c :: ds)) (2 ^ 63)); [reflexivity|lia].
    + change (B "-" ++ ds) with (chr 45 :: ds). cbn beta iota. change (Ascii.eqb (chr 45) (chr 45)) with true. cbn beta iota. destruct ds as [|c ds]; [congruence|]. rewrite F.
      destruct (N.leb_spec (digits_value (c :: ds)) (2 ^ 63)); [reflexivity|lia].
Qed.

(** The size is always one of the four; a number (of 64 bits) is clamped to them, and any
    other text, larger numbers included, gives the full size. *)
Theorem C49_size text :
  (0 <= score_chart_size text <= 3)%Z /\
  (forall n, integer text n -> int64 n -> score_chart_size text = Z.max 0 (Z.min 3 n)) /\
  ((forall n, integer text n -> ~ int64 n) -> score_chart_size text = 0%Z).
Proof.
  assert (R : forall n, (if (0 <? (if n <? 0 then 0 else n)) && (3 <? (if n <? 0 then 0 else n)) then 3 else if n <? 0 then 0 else n)%Z
              = Z.max 0 (Z.min 3 n)).
  { intros n. destruct (Z.ltb_spec n 0); destruct (Z.ltb_spec 0 n), (Z.ltb_spec 3 n); cbn; try lia. }
  destruct text as [|c text].
  - split; [cbn; lia|]. split; [|reflexivity]. intros n I. exfalso. inversion I as [ds m D E| |]. destruct (decimal_digits _ _ D) as (X & _). congruence.
  - unfold score_chart_size. change (Z.of_nat (length sizes) - 1)%Z with 3%Z. destruct (atoi (c :: text)) as [n|] eqn:E.
    + cbv zeta. rewrite R. split; [lia|]. apply atoi_spec in E as X. destruct X as [I J]. split.
      * intros m Im Jm. assert (Y : atoi (c :: text) = Some m) by (apply atoi_spec; auto). congruence.
      * intros H. destruct (H n I J).
    + split; [cbn; lia|]. split; [|reflexivity]. intros n I J. assert (Y : atoi (c :: text) = Some n) by (apply atoi_spec; auto). congruence.
Qed.

(** ** The handlers shown *)

Lemma sizes_low k : k <= 3 -> sz_low_x (size_at k) = Fin (lowest k) /\ sz_low_y (size_at k) = Fin (lowest k).
Proof. intros H. destruct k as [|[|[|[|k]]]]; [split; reflexivity..|lia]. Qed.

Lemma xge_spec v q : xge v (Fin q) = true <-> at_least v q.
Proof.
  destruct v as [p|n|]; cbn; [|destruct n; cbn; split; congruence|split; [discriminate|intros []]].
  rewrite negb_true_iff. pose proof (Qc_ltb_spec p q) as S. destruct (Qc_ltb p q).
  - split; [discriminate|]. intros H. assert (p < q)%Qc by (apply S; reflexivity). exfalso. qcl.
  - split; [|reflexivity]. intros _. destruct (Qclt_le_dec p q) as [L|L]; [|exact L]. apply S in L. discriminate.
Qed.

Lemma xlt_spec v q : xlt v (Fin q) = true <-> below v q.
Proof. destruct v as [p|n|]; cbn; [apply Qc_ltb_spec|reflexivity|split; [discriminate|intros []]]. Qed.

Section Shown.
Variables xs ys : bytes -> option xnum.

Definition listed (h : bytes) (l : list bytes) : bool := existsb (beq h) l.
Lemma listed_in h l : listed h l = true <-> In h l.
Proof.
  unfold listed. rewrite existsb_exists. split.
  - intros (x & I & E). apply beq_eq in E. subst. exact I.
  - intros I. exists h. split; [exact I|]. apply beq_refl.
Qed.

Lemma add_ys_get low tags : forall m m', add_ys ys low tags m = Some m' -> forall h,
  get h m' = if listed h tags then match ys h with Some y => if xge y low then Some (Fin 0, y) else get h m | None => None end
             else get h m.
Proof.
  induction tags as [|t ts IH]; intros m m' E h; cbn in E |- *; [injection E as <-; reflexivity|].
  destruct (ys t) as [yt|] eqn:Y; [|discriminate]. rewrite (IH _ _ E h). clear IH E. unfold listed. cbn [existsb].
  destruct (beq_spec h t) as [->|N1]; cbn [orb].
  - rewrite Y. destruct (xge yt low); [|destruct (existsb (beq t) ts); reflexivity].
    rewrite get_put_same. destruct (existsb (beq t) ts); reflexivity.
  - destruct (xge yt low); [|reflexivity]. rewrite get_put_other by congruence. reflexivity.
Qed.

Lemma add_ys_asked low tags : forall m m', add_ys ys low tags m = Some m' -> forall h, In h tags -> ys h <> None.
Proof.
  induction tags as [|t ts IH]; intros m m' E h []; cbn in E; destruct (ys t) eqn:Y; try discriminate; [congruence|eauto].
Qed.

Lemma add_xs_get low tags : forall m m', add_xs xs low tags m = Some m' -> forall h,
  match get h m with
  | None => get h m' = None
  | Some (x0, y) => if listed h tags then exists x, xs h = Some x /\ get h m' = (if xge x low then Some (x, y) else None)
                    else get h m' = Some (x0, y)
  end.
Proof.
  induction tags as [|t ts IH]; intros m m' E h; cbn in E |- *.
  - injection E as <-. destruct (get h m) as [[x0 y]|]; reflexivity.
  - unfold listed. cbn [existsb]. destruct (get t m) as [[xt yt]|] eqn:G.
    + destruct (xs t) as [x|] eqn:X; [|discriminate]. pose proof (IH _ _ E h) as I. clear IH E.
      destruct (beq_spec h t) as [->|N1]; cbn [orb].
      * rewrite G. exists x. split; [exact X|]. destruct (xge x low) eqn:GE.
        -- rewrite get_put_same in I. unfold listed in I. destruct (existsb (beq t) ts); [|exact I].
           destruct I as (x' & X' & I). assert (x' = x) by congruence. subst. rewrite GE in I. exact I.
        -- rewrite get_drop, beq_refl in I. exact I.
      * destruct (xge x low); [rewrite get_put_other in I by congruence|rewrite get_drop in I; destruct (beq_spec t h); [congruence|]]; exact I.
    + pose proof (IH _ _ E h) as I. destruct (beq_spec h t) as [->|N1]; cbn [orb]; [|exact I]. rewrite G in *. exact I.
Qed.

(** What a chart of a size holds: a handler of the keeper, if its y is at least the low
    of the size, and its x also unless the warnings do not list it; then x is 0. *)
Theorem C49_shown handlers warned k m : k <= 3 -> new_chart_data xs ys handlers warned (size_at k) = Some m -> forall h x y,
  get h m = Some (x, y) <->
  In h handlers /\ ys h = Some y /\ at_least y (lowest k) /\
  ((In h warned /\ xs h = Some x /\ at_least x (lowest k)) \/ (~ In h warned /\ x = Fin 0)).
Proof.
  intros K E h x y. unfold new_chart_data in E. destruct (sizes_low k K) as [LX LY]. rewrite LX, LY in E.
  destruct (add_ys ys (Fin (lowest k)) handlers []) as [m0|] eqn:EY; [|discriminate].
  pose proof (add_ys_get _ _ _ _ EY h) as GY. pose proof (add_xs_get _ _ _ _ E h) as GX. pose proof (add_ys_asked _ _ _ _ EY h) as AY.
  rewrite <- !listed_in. rewrite <- listed_in in AY. destruct (listed h handlers).
  - destruct (ys h) as [y0|]; [|destruct AY; reflexivity]. pose proof (xge_spec y0 (lowest k)) as SY. destruct (xge y0 (Fin (lowest k))).
    + assert (AL : at_least y0 (lowest k)) by (apply SY; reflexivity). rewrite GY in GX. destruct (listed h warned).
      * destruct GX as (x0 & X0 & GX). rewrite X0. pose proof (xge_spec x0 (lowest k)) as SX. rewrite GX. destruct (xge x0 (Fin (lowest k))).
        -- split; [intros H; injection H as <- <-; repeat split; auto; left; repeat split; apply SX; reflexivity|].
           intros (_ & H & _ & [(_ & H' & _)|[H' _]]); congruence.
        -- split; [discriminate|]. intros (_ & H & _ & [(_ & H' & A)|[H' _]]); [|congruence]. injection H' as <-. apply SX in A. discriminate.
      * rewrite GX. split; [intros H; injection H as <- <-; repeat split; auto|]. intros (_ & H & _ & [(H' & _)|[_ H']]); congruence.
    + rewrite GY in GX. cbn in GX. rewrite GX. split; [discriminate|]. intros (_ & H & A & _). injection H as <-. apply SY in A. discriminate.
  - rewrite GY in GX. cbn in GX. rewrite GX. split; [discriminate|]. intros (H & _). discriminate.
Qed.

(** So a negative score or NaN is shown at no size. *)
Corollary shown_scores handlers warned k m h x y : k <= 3 -> new_chart_data xs ys handlers warned (size_at k) = Some m ->
  get h m = Some (x, y) -> at_least y 0 /\ at_least x 0.
Proof.
  intros K E G. apply (C49_shown _ _ _ _ K E) in G. destruct G as (_ & _ & A & D).
  assert (L : (0 <= lowest k)%Qc) by (destruct k as [|[|[|[|k]]]]; [vm_compute; discriminate..|lia]).
  assert (T : forall v, at_least v (lowest k) -> at_least v 0). { intros [q|n|]; cbn; auto. intros H. qcl. }
  split; [apply T, A|]. destruct D as [(_ & _ & D)|[_ ->]]; [apply T, D|]. cbn. qcl.
Qed.

(** ** The size chosen *)

Definition low_at (k : nat) (h : bytes) : Prop :=
  exists v, (ys h = Some v \/ xs h = Some v) /\ below v (lowest k).
Definition scored_at (k : nat) (h : bytes) : Prop :=
  exists x y, xs h = Some x /\ ys h = Some y /\ ~ below x (lowest k) /\ ~ below y (lowest k).

Lemma any_below_spec k hs res : k <= 3 -> any_below xs ys (size_at k) hs = Some res ->
  if res then exists h, In h hs /\ low_at k h else forall h, In h hs -> scored_at k h.
Proof.
  intros K. destruct (sizes_low k K) as [LX LY]. induction hs as [|h hs IH]; cbn [any_below In]; [intros E; injection E as <-; intros ? []|].
  rewrite LX, LY. destruct (ys h) as [y|] eqn:Y; [|discriminate]. pose proof (xlt_spec y (lowest k)) as SY. destruct (xlt y (Fin (lowest k))).
  { intros E. injection E as <-. exists h. split; [auto|]. exists y. split; [auto|]. apply SY. reflexivity. }
  destruct (xs h) as [x|] eqn:X; [|discriminate]. pose proof (xlt_spec x (lowest k)) as SX. destruct (xlt x (Fin (lowest k))).
  { intros E. injection E as <-. exists h. split; [auto|]. exists x. split; [auto|]. apply SX. reflexivity. }
  intros E. specialize (IH E). destruct res.
  - destruct IH as (h' & I & L). exists h'. auto.
  - intros h' [<-|I]; [|auto]. exists x, y. repeat split; auto; intros B'; [apply SX in B'|apply SY in B']; discriminate.
Qed.

Lemma any_below_total s hs : (forall h, In h hs -> xs h <> None /\ ys h <> None) -> any_below xs ys s hs <> None.
Proof.
  induction hs as [|h hs IH]; cbn; [discriminate|]. intros H. destruct (H h) as [X Y]; [auto|].
  destruct (ys h) as [y|]; [|congruence]. destruct (xlt y _); [discriminate|]. destruct (xs h) as [x|]; [|congruence].
  destruct (xlt x _); [discriminate|]. apply IH. auto.
Qed.

(** The size chosen: no handler has a score below its low, unless it is the full size;
    at each higher size one has.  (The first needs the scores of all handlers.) *)
Theorem C49_smallest handlers n : smallest_chart_size xs ys handlers = Some n ->
  n <= 3 /\ (forall h, In h handlers -> n = 0 \/ scored_at n h) /\
  (forall k, n < k <= 3 -> exists h, In h handlers /\ low_at k h).
Proof.
  assert (UP : forall k k' h, k <= k' -> k' <= 3 -> low_at k h -> low_at k' h).
  { intros k k' h L L' (v & V & Bv). exists v. split; [exact V|]. destruct v as [p|neg|]; cbn in *; auto.
    assert (X : (lowest k <= lowest k')%Qc).
    { unfold lowest, Qcle. rewrite !this_Z. rewrite <- Zle_Qle. lia. }
    qcl. }
  unfold smallest_chart_size. change (tl sizes) with [size_at 1; size_at 2; size_at 3]. cbn [smallest_from].
  destruct (any_below xs ys (size_at 1) handlers) as [[|]|] eqn:E1; [|..|discriminate].
  { apply any_below_spec in E1; [|lia]. destruct E1 as (h & I & L). intros E. injection E as <-. split; [lia|]. split; [auto|].
    intros k K. exists h. split; [exact I|]. apply (UP 1); auto; lia. }
  apply any_below_spec in E1; [|lia].
  destruct (any_below xs ys (size_at 2) handlers) as [[|]|] eqn:E2; [|..|discriminate].
  { apply any_below_spec in E2; [|lia]. destruct E2 as (h & I & L). intros E. injection E as <-. split; [lia|]. split; [auto|].
    intros k K. exists h. split; [exact I|]. apply (UP 2); auto; lia. }
  apply any_below_spec in E2; [|lia].
  destruct (any_below xs ys (size_at 3) handlers) as [[|]|] eqn:E3; [|..|discriminate].
  { apply any_below_spec in E3; [|lia]. destruct E3 as (h & I & L). intros E. injection E as <-. split; [lia|]. split; [auto|].
    intros k K. exists h. split; [exact I|]. apply (UP 3); auto; lia. }
  apply any_below_spec in E3; [|lia]. intros E. injection E as <-. split; [lia|]. split; [auto|]. intros k K. lia.
Qed.

(** It is found when both axes have a score for each handler. *)
Theorem C49_found handlers : (forall h, In h handlers -> xs h <> None /\ ys h <> None) ->
  exists n, smallest_chart_size xs ys handlers = Some n.
Proof.
  intros H. pose proof (fun s => any_below_total s handlers H) as T. unfold smallest_chart_size.
  change (tl sizes) with [size_at 1; size_at 2; size_at 3]. cbn [smallest_from].
  specialize (T (size_at 1)) as T1. specialize (T (size_at 2)) as T2. specialize (T (size_at 3)) as T3.
  destruct (any_below xs ys (size_at 1) handlers) as [[|]|]; [eauto| |congruence].
  destruct (any_below xs ys (size_at 2) handlers) as [[|]|]; [eauto| |congruence].
  destruct (any_below xs ys (size_at 3) handlers) as [[|]|]; [eauto| |congruence]. eauto.
Qed.

(** At the size chosen every handler is shown whose scores are numbers, not negative. *)
Theorem C49_shows_all handlers warned n m : smallest_chart_size xs ys handlers = Some n ->
  new_chart_data xs ys handlers warned (size_at n) = Some m -> forall h,
  (exists x, get h m = Some x) <->
  In h handlers /\ (exists y, ys h = Some y /\ at_least y 0) /\ (In h warned -> exists x, xs h = Some x /\ at_least x 0).
Proof.
  intros S E h. destruct (C49_smallest _ _ S) as (K & A & _). split.
  - intros [[x y] G]. pose proof (shown_scores _ _ _ _ _ _ _ K E G) as [Ay Ax]. apply (C49_shown _ _ _ _ K E) in G.
    destruct G as (I & Y & _ & D). split; [exact I|]. split; [eauto|]. intros W. destruct D as [(_ & X & _)|[NW _]]; [eauto|contradiction].
  - intros (I & (y & Y & Ay) & X). assert (T : forall v, at_least v 0 -> ~ below v (lowest n) -> at_least v (lowest n)).
    { intros [p|neg|]; cbn; auto. intros _ NB. destruct (Qclt_le_dec p (lowest n)); [contradiction|assumption]. }
    assert (Z0 : forall v, at_least v 0 -> ~ below v (lowest 0)).
    { intros [p|neg|]; cbn; auto; [|congruence]. intros H H'. unfold lowest in H'. cbn in H'. qcl. }
    assert (Yn : ~ below y (lowest n)).
    { destruct (A h I) as [->|(x & y' & _ & Y' & _ & NB)]; [apply Z0, Ay|congruence]. }
    destruct (in_dec (list_eq_dec ascii_dec) h warned) as [W|W].
    + destruct (X W) as (x & Xh & Ax). exists (x, y). apply (C49_shown _ _ _ _ K E). repeat split; auto. left. repeat split; auto.
      apply T; [exact Ax|]. destruct (A h I) as [->|(x' & y' & X' & _ & NB & _)]; [apply Z0, Ax|congruence].
    + exists (Fin 0, y). apply (C49_shown _ _ _ _ K E). repeat split; auto.
Qed.

End Shown.

(** ** Markers *)

(** The points of a chart: the handlers whose y is more than 1/100000, with their names. *)
Inductive plotted (name : bytes -> bytes) : list (bytes * (xnum * xnum)) -> list (bytes * (xnum * xnum)) -> Prop :=
| pl_none : plotted name [] []
| pl_point h x y es l : above y (Q2Qc (1 # 100000)) -> plotted name es l ->
    plotted name ((h, (x, y)) :: es) ((name h, (x, y)) :: l)
| pl_hidden h x y es l : ~ above y (Q2Qc (1 # 100000)) -> plotted name es l -> plotted name ((h, (x, y)) :: es) l.
Definition point (k : marker) : bytes * (xnum * xnum) := (mk_label k, (mk_x k, mk_y k)).

Lemma visible_spec h x y : visible (h, (x, y)) = true <-> above y (Q2Qc (1 # 100000)).
Proof. unfold visible, tiny. cbn [snd]. destruct y as [q|n|]; cbn [xlt above]; [apply Qc_ltb_spec|destruct n; cbn; split; congruence|split; [discriminate|intros []]]. Qed.

Lemma plotted_filter name es : plotted name es (map (fun e => (name (fst e), snd e)) (filter visible es)).
Proof.
  induction es as [|[h [x y]] es IH]; cbn [filter map]; [constructor|]. pose proof (visible_spec h x y) as S.
  destruct (visible (h, (x, y))); cbn [map fst snd]; [apply pl_point|apply pl_hidden]; auto; [apply S; reflexivity|].
  intros A. apply S in A. discriminate.
Qed.

Lemma place_points name s items : forall top, map point (place name s top items) = map (fun e => (name (fst e), snd e)) items.
Proof. induction items as [|[h [x y]] items IH]; intros top; cbn [place map fst snd]; [reflexivity|]. rewrite IH. reflexivity. Qed.

Lemma filter_perm {A} (p : A -> bool) l l' : Permutation l l' -> Permutation (filter p l) (filter p l').
Proof.
  induction 1 as [|x l l' H IH|x y l|l l' l'' H IH H' IH']; cbn.
  - constructor.
  - destruct (p x); [constructor|]; exact IH.
  - destruct (p x), (p y); try reflexivity. constructor.
  - etransitivity; eauto.
Qed.

(** Each point is marked once, with its name, whatever order the map and the sort give. *)
Theorem C49_markers name s m out : data_markers name s m out ->
  exists l, plotted name m l /\ Permutation (map point out) l.
Proof.
  intros (l & sorted & P & Q & ->). exists (map (fun e => (name (fst e), snd e)) (filter visible m)).
  split; [apply plotted_filter|]. rewrite place_points. apply Permutation_map. symmetry. etransitivity; [apply filter_perm, P|exact Q].
Qed.

Lemma fold_finite (f : xnum -> bytes * (xnum * xnum) -> xnum) (F : forall t e, f t e = t \/ f t e = snd (snd e)) items :
  (forall e, In e items -> exists q, snd (snd e) = Fin q) -> forall q0, exists q, fold_left f items (Fin q0) = Fin q.
Proof.
  induction items as [|e items IH]; intros H q0; [cbn; eauto|]. cbn [fold_left].
  destruct (F (Fin q0) e) as [->| ->]; [apply IH; intros; apply H; right; auto|].
  destruct (H e) as [q ->]; [left; reflexivity|]. apply IH. intros; apply H; right; auto.
Qed.

Lemma place_nth name s items : forall q i k, nth_error (place name s (Fin q) items) i = Some k ->
  mk_label_y k = Fin (q - Qc_of_Z (Z.of_nat i) * (sz_adjust s + 1))%Qc.
Proof.
  induction items as [|[h [x y]] items IH]; intros q i k E; [destruct i; discriminate|]. cbn [place] in E. destruct i as [|i].
  - injection E as <-. cbn [mk_label_y]. f_equal. apply Qc_is_canon. qc_goal. change (inject_Z (Z.of_nat 0)) with 0%Q. ring.
  - cbn [nth_error xsub xadd xneg] in E. apply IH in E. rewrite E. f_equal. apply Qc_is_canon. qc_goal.
    rewrite Nat2Z.inj_succ, <- Z.add_1_r, inject_Z_plus. change (inject_Z 1) with 1%Q. ring.
Qed.

(** The labels go down from at most 100 in equal steps. *)
Theorem C49_labels name s m out : (forall h x y, In (h, (x, y)) m -> exists q, y = Fin q) -> data_markers name s m out ->
  exists top, (top <= Qc_of_Z 100)%Qc /\
    forall i k, nth_error out i = Some k -> mk_label_y k = Fin (top - Qc_of_Z (Z.of_nat i) * (sz_adjust s + 1))%Qc.
Proof.
  intros H (l & sorted & P & Q & ->).
  assert (F : exists q, first_label s (length m) (filter visible l) = Fin q /\ (q <= Qc_of_Z 100)%Qc).
  { assert (H' : forall e, In e (filter visible l) -> exists q, snd (snd e) = Fin q).
    { intros [h [x y]] I. apply filter_In in I. destruct I as [I _]. apply (H h x y). eapply Permutation_in; [symmetry; exact P|exact I]. }
    unfold first_label. cbv zeta.
    destruct (fold_finite span_top (fun t e => ltac:(unfold span_top; destruct (xlt t _); auto)) _ H' (Qc_of_Z 0)) as [t T].
    destruct (fold_finite span_bottom (fun t e => ltac:(unfold span_bottom; destruct (xlt _ t); auto)) _ H' (Qc_of_Z 100)) as [b Bt].
    unfold pct. rewrite T, Bt. cbn [xadd xdiv].
    change (Qc_eq_bool (Qc_of_Z 2) 0) with false. cbn [xadd xlt].
    match goal with |- context [Qc_ltb ?a ?b] => pose proof (Qc_ltb_spec a b) as S; destruct (Qc_ltb a b) eqn:E end.
    - eexists. split; [reflexivity|]. apply Qcle_refl.
    - eexists. split; [reflexivity|]. match goal with |- (?a <= ?b)%Qc => destruct (Qclt_le_dec b a) as [L|L]; [apply S in L; discriminate|exact L] end. }
  destruct F as (q & -> & L). exists q. split; [exact L|]. intros i k. apply place_nth.
Qed.

(** ** Ticks *)

Local Open Scope Q_scope.
Definition whole (d t : Q) : Prop := exists z, t == inject_Z z * d.

Lemma next_tick_floor d t : 0 < d -> next_tick d t == inject_Z (Qfloor (t / d) + 1) * d.
Proof.
  intros D. unfold next_tick, multiple. rewrite inject_Z_plus. change (inject_Z 1) with 1.
  destruct (Qeq_bool (inject_Z (Qfloor (t / d)) * d) t) eqn:E.
  - apply Qeq_bool_eq in E. rewrite Qmult_plus_distr_l, E. ring.
  - assert (N0 : ~ inject_Z (Qfloor (t / d)) * d == t) by (intros X; apply Qeq_bool_iff in X; congruence).
    apply Qmult_comp; [|reflexivity]. rewrite <- (inject_Z_plus _ 1). apply inject_Z_injective.
    assert (X1 : inject_Z (Qfloor (t / d)) < t / d).
    { destruct (Qle_lt_or_eq _ _ (Qfloor_le (t / d))) as [L|L]; [exact L|]. destruct N0. rewrite L. field. lra. }
    pose proof (Qlt_floor (t / d)) as X2. pose proof (Qle_ceiling (t / d)) as X3. pose proof (Qceiling_lt (t / d)) as X4.
    set (f := Qfloor (t / d)) in *. set (c := Qceiling (t / d)) in *. clearbody f c.
    assert (Y1 : (f < c)%Z) by (rewrite Zlt_Qlt; lra).
    assert (Y2 : (c - 1 < f + 1)%Z) by (rewrite Zlt_Qlt; lra). lia.
Qed.

Lemma next_tick_up d t : 0 < d -> t < next_tick d t /\ next_tick d t <= t + d /\ whole d (next_tick d t) /\
  (forall u, whole d u -> t < u -> next_tick d t <= u).
Proof.
  intros D. pose proof (next_tick_floor d t D) as E.
  assert (T : t == t / d * d) by (field; lra).
  pose proof (Qlt_floor (t / d)) as X2. pose proof (Qfloor_le (t / d)) as X1. set (f := Qfloor (t / d)) in *. set (r := t / d) in *. clearbody f r.
  rewrite inject_Z_plus in E, X2. change (inject_Z 1) with 1 in *.
  repeat split.
  - rewrite E, T. nra.
  - rewrite E, T. nra.
  - exists (f + 1)%Z. rewrite inject_Z_plus. exact E.
  - intros u [z Z0] L. rewrite E, Z0. rewrite Z0, T in L. assert (Y : r < inject_Z z) by nra.
    assert (Y2 : (f < z)%Z) by (rewrite Zlt_Qlt; lra). assert (Y3 : (f + 1 <= z)%Z) by lia. rewrite Zle_Qle, inject_Z_plus in Y3.
    change (inject_Z 1) with 1 in Y3. nra.
Qed.

Lemma whole_gap d t u : 0 < d -> whole d t -> whole d u -> t < u -> t + d <= u.
Proof.
  intros D [a A] [b E] L. rewrite A, E in *. assert (X : inject_Z a < inject_Z b) by nra. rewrite <- Zlt_Qlt in X.
  assert (Y : (a + 1 <= b)%Z) by lia. rewrite Zle_Qle, inject_Z_plus in Y. change (inject_Z 1) with 1 in Y. nra.
Qed.

(** Once at a multiple, the ticks left are fewer than (100 - t) / d + 1. *)
Lemma ticks_from_spec d : 0 < d -> forall n t, (t <= 100 -> 100 - t < inject_Z (Z.of_nat n) * d) ->
  (whole d t \/ (t <= 100 -> 100 - next_tick d t < inject_Z (Z.of_nat n - 1) * d)) ->
  (forall u, In u (ticks_from n d t) -> u = t /\ t <= 100 \/ whole d u /\ t < u <= 100) /\
  (forall u, whole d u -> t < u <= 100 -> exists v, v == u /\ In v (ticks_from n d t)) /\
  (t <= 100 -> exists l, ticks_from n d t = t :: l) /\
  StronglySorted Qlt (ticks_from n d t).
Proof.
  intros D. induction n as [|n IH]; intros t H W.
  { assert (X : 100 < t) by (destruct (Qlt_le_dec 100 t) as [L|L]; [exact L|]; specialize (H L); change (inject_Z (Z.of_nat 0)) with 0 in H; lra).
    cbn [ticks_from]. repeat split; [intros ? []|intros u _ ?; lra|intros; lra|constructor]. }
  cbn [ticks_from]. destruct (Qle_bool t 100) eqn:E.
  2:{ assert (X : ~ t <= 100) by (intros X; apply Qle_bool_iff in X; congruence).
      repeat split; [intros ? []|intros u _ ?; lra|intros; contradiction|constructor]. }
  apply Qle_bool_iff in E. destruct (next_tick_up d t D) as (U1 & U2 & U3 & U4).
  assert (S1 : inject_Z (Z.of_nat (S n)) == inject_Z (Z.of_nat n) + 1).
  { rewrite Nat2Z.inj_succ, <- Z.add_1_r, inject_Z_plus. reflexivity. }
  destruct (IH (next_tick d t)) as (I1 & I2 & I3 & I4).
  { intros _. specialize (H E). rewrite S1 in H. destruct W as [W|W].
    - assert (X : t + d <= next_tick d t) by (apply whole_gap; auto). nra.
    - specialize (W E). replace (Z.of_nat (S n) - 1)%Z with (Z.of_nat n) in W by lia. exact W. }
  { left. exact U3. }
  assert (B1 : forall u, In u (ticks_from n d (next_tick d t)) -> whole d u /\ t < u <= 100).
  { intros u Iu. destruct (I1 u Iu) as [[-> L]|[L1 L2]]; [split; [exact U3|split; [exact U1|exact L]]|]. split; [exact L1|]. lra. }
  repeat split.
  - intros u [<-|Iu]; [left; auto|right; apply B1, Iu].
  - intros u Wu [L1 L2]. pose proof (U4 u Wu L1) as L3. destruct (Qle_lt_or_eq _ _ L3) as [L|L].
    + destruct (I2 u Wu) as (v & V & Iv); [lra|]. exists v. split; [exact V|right; exact Iv].
    + destruct I3 as [l X]; [lra|]. exists (next_tick d t). split; [exact L|right]. rewrite X. left. reflexivity.
  - intros _. eexists. reflexivity.
  - constructor; [exact I4|]. apply Forall_forall. intros u Iu. apply (B1 u Iu).
Qed.

(** The ticks of an axis: none above 100; otherwise the low first and then, in order,
    the multiples of the distance up to 100, which are all there. *)
Theorem C49_ticks low :
  (100 < low -> ticks low = []) /\
  (low <= 100 -> exists l, ticks low = low :: l /\ StronglySorted Qlt (ticks low) /\
     (forall u, In u l -> whole (tick_distance low) u /\ low < u <= 100) /\
     (forall u, whole (tick_distance low) u -> low < u <= 100 -> exists v, v == u /\ In v l)).
Proof.
  assert (D : 0 < tick_distance low) by (unfold tick_distance; repeat destruct (Qle_bool _ _); lra).
  unfold ticks. set (d := tick_distance low) in *. clearbody d. split.
  - intros H. cbn [plus ticks_from]. destruct (Qle_bool low 100) eqn:E; [apply Qle_bool_iff in E; lra|reflexivity].
  - intros H. pose proof (Qle_ceiling ((100 - low) / d)) as C. set (c := Qceiling ((100 - low) / d)) in *.
    assert (T : 100 - low == (100 - low) / d * d) by (field; lra).
    assert (C2 : 100 - low <= inject_Z c * d) by (rewrite T; nra).
    assert (C0 : (0 <= c)%Z). { rewrite Zle_Qle. change (inject_Z 0) with 0. nra. }
    assert (S1 : inject_Z (Z.of_nat (2 + Z.to_nat c)) == inject_Z c + 2).
    { rewrite Nat2Z.inj_add, Z2Nat.id by exact C0. rewrite Z.add_comm, inject_Z_plus. reflexivity. }
    destruct (ticks_from_spec d D (2 + Z.to_nat c) low) as (I1 & I2 & I3 & I4).
    { intros _. rewrite S1. nra. }
    { right. intros _. destruct (next_tick_up d low D) as (U1 & _).
      replace (Z.of_nat (2 + Z.to_nat c) - 1)%Z with (c + 1)%Z by lia. rewrite inject_Z_plus. change (inject_Z 1) with 1. nra. }
    destruct (I3 H) as [l L]. exists l. rewrite L in *. inversion I4 as [|? ? I5 I6]. subst. split; [reflexivity|]. split; [exact I4|]. split.
    + intros u Iu. destruct (I1 u (or_intror Iu)) as [[-> _]|X]; [|exact X].
      rewrite Forall_forall in I6. specialize (I6 _ Iu). lra.
    + intros u W [L1 L2]. destruct (I2 u W) as (v & V & [<-|Iv]); [auto|lra|]. eauto.
Qed.
Local Close Scope Q_scope.

(** ** The cache *)

Section Served.
Variable cs : casing.
Hypothesis ok : casing_ok cs.
Variable b : bench.
Variables (htags ttags : list bytes).
Variable render : bytes -> list bytes -> list Q -> bytes.
Variable panics : bytes -> Z -> bool.
Variable draws : bytes -> Z -> option bytes -> Prop.

(** The answers a request can get when nothing is cached. *)
Inductive fresh : request -> response -> Prop :=
| f_silent tag it : bar_item cs it = None -> fresh (BarFor tag it) Silent
| f_no_records tag it i : bar_item cs it = Some i -> bar_chart b htags ttags tag i = None -> fresh (BarFor tag it) BadRequest
| f_bars tag it i labels values : bar_item cs it = Some i -> bar_chart b htags ttags tag i = Some (labels, values) ->
    fresh (BarFor tag it) (Image (render (long_name i) labels values))
| f_panics k sz : panics k (score_chart_size sz) = true -> fresh (ScoreFor_ k sz) Panicked
| f_undrawn k sz : panics k (score_chart_size sz) = false -> draws k (score_chart_size sz) None -> fresh (ScoreFor_ k sz) (Image [])
| f_scores k sz svg : panics k (score_chart_size sz) = false -> draws k (score_chart_size sz) (Some svg) ->
    fresh (ScoreFor_ k sz) (Image svg).

Definition no_colon (s : bytes) : Prop := ~ In (chr 58) s.
Lemma last_colon a c : forall a' c', no_colon c -> no_colon c' -> a ++ chr 58 :: c = a' ++ chr 58 :: c' -> a = a' /\ c = c'.
Proof.
  intros a' c' N1 N2. revert a'. induction a as [|x a IH]; intros [|x' a'] E; cbn in E.
  - injection E as ->. auto.
  - injection E as <- ->. destruct N1. apply in_or_app. right. left. reflexivity.
  - injection E as -> <-. destruct N2. apply in_or_app. right. left. reflexivity.
  - injection E as <- E. destruct (IH a' E) as [-> ->]. auto.
Qed.

Lemma parsed_item it i : bar_item cs it = Some i -> (i < 7)%N.
Proof.
  unfold bar_item. intros H. apply (C50_parse cs ok _ _ _ _ i d_items) in H. destruct H as (name & A & _).
  unfold at_ in A. assert (X : nth_error [B "Runs"; B "Nanos"; B "MemAllocs"; B "MemBytes"; B "MbPerSec"; B "GbPerSec"; B "TbPerSec"] (N.to_nat i) <> None) by congruence.
  apply nth_error_Some in X. cbn in X. lia.
Qed.

Lemma item_cases (i : N) (P : N -> Prop) : (i < 7)%N -> P 0%N -> P 1%N -> P 2%N -> P 3%N -> P 4%N -> P 5%N -> P 6%N -> P i.
Proof.
  intros H. destruct (N.eq_dec i 0) as [->|]; [auto|]. destruct (N.eq_dec i 1) as [->|]; [auto|]. destruct (N.eq_dec i 2) as [->|]; [auto|].
  destruct (N.eq_dec i 3) as [->|]; [auto|]. destruct (N.eq_dec i 4) as [->|]; [auto|]. destruct (N.eq_dec i 5) as [->|]; [auto|].
  destruct (N.eq_dec i 6) as [->|]; [auto|]. lia.
Qed.
Lemma size_cases (n : Z) (P : Z -> Prop) : (0 <= n <= 3)%Z -> P 0%Z -> P 1%Z -> P 2%Z -> P 3%Z -> P n.
Proof.
  intros H. destruct (Z.eq_dec n 0) as [->|]; [auto|]. destruct (Z.eq_dec n 1) as [->|]; [auto|]. destruct (Z.eq_dec n 2) as [->|]; [auto|].
  destruct (Z.eq_dec n 3) as [->|]; [auto|]. lia.
Qed.

Ltac no_colon := let H := fresh in intros H; vm_compute in H; repeat destruct H as [H|H]; try discriminate H; exact H.
Lemma item_no_colon i : (i < 7)%N -> no_colon (enum_string items i).
Proof. intros H. pattern i. apply item_cases; [exact H|no_colon..]. Qed.
Lemma size_no_colon n : (0 <= n <= 3)%Z -> no_colon (dec_of_Z n).
Proof. intros H. pattern n. apply size_cases; [exact H|no_colon..]. Qed.

Lemma bar_keys tag i tag' i' : (i < 7)%N -> (i' < 7)%N -> bar_key tag i = bar_key tag' i' -> tag = tag' /\ i = i'.
Proof.
  intros H H' E. unfold bar_key in E. destruct (last_colon _ _ _ _ (item_no_colon i H) (item_no_colon i' H') E) as [-> X].
  split; [reflexivity|]. eapply C50_injective; eauto using d_items.
Qed.
Lemma score_keys k n k' n' : (0 <= n <= 3)%Z -> (0 <= n' <= 3)%Z -> score_key k n = score_key k' n' -> k = k' /\ n = n'.
Proof.
  intros H H' E. unfold score_key in E. destruct (last_colon _ _ _ _ (size_no_colon n H) (size_no_colon n' H') E) as [X Y].
  split; [apply (app_inv_head _ _ _ X)|]. revert Y. pattern n. apply size_cases; [exact H| | | |]; pattern n'; (apply size_cases; [exact H'| | | |]);
    intros Y; reflexivity || discriminate Y.
Qed.
Lemma mixed_keys tag i k n : (i < 7)%N -> (0 <= n <= 3)%Z -> bar_key tag i <> score_key k n.
Proof.
  intros H H' E. unfold score_key, bar_key in E. destruct (last_colon _ _ _ _ (item_no_colon i H) (size_no_colon n H') E) as [X Y].
  revert Y. pattern i. apply item_cases; [exact H|..]; pattern n; (apply size_cases; [exact H'|..]); intros Y; discriminate Y.
Qed.

(** Every cached image is what a request of its key could be answered. *)
Definition sound (c : gomap bytes) : Prop := forall key svg, get key c = Some svg ->
  (forall tag it i, bar_item cs it = Some i -> bar_key tag i = key -> fresh (BarFor tag it) (Image svg)) /\
  (forall k sz, score_key k (score_chart_size sz) = key -> panics k (score_chart_size sz) = false -> fresh (ScoreFor_ k sz) (Image svg)).

Lemma size_range sz : (0 <= score_chart_size sz <= 3)%Z.
Proof. apply C49_size. Qed.

Lemma advance_sound c r p c' p' : advance cs b htags ttags render panics draws c r p c' p' -> sound c ->
  sound c' /\ forall a, p' = Answered a -> fresh r a.
Proof.
  intros A S. destruct A as [tag it E|tag it i svg E G|tag it i E G|tag it i E C|tag it i ls vs E C|k sz svg G|k sz G|k sz P|k sz P D|k sz svg P D].
  - split; [exact S|]. intros a X. injection X as <-. constructor. exact E.
  - split; [exact S|]. intros a X. injection X as <-. destruct (S _ _ G) as [H _]. eapply H; eauto.
  - split; [exact S|]. discriminate.
  - split; [exact S|]. intros a X. injection X as <-. eapply f_no_records; eauto.
  - split; [|intros a X; injection X as <-; eapply f_bars; eauto].
    intros key svg. rewrite get_put. destruct (beq_spec (bar_key tag i) key) as [<-|N1]; [|apply S]. intros X. injection X as <-. split.
    + intros tag' it' i' E' K. apply bar_keys in K; eauto using parsed_item. destruct K as [-> ->]. eapply f_bars; eauto.
    + intros k sz K. symmetry in K. apply mixed_keys in K; [contradiction|eauto using parsed_item|apply size_range].
  - split; [exact S|]. intros a X. destruct (panics k (score_chart_size sz)) eqn:P; injection X as <-; [constructor; exact P|].
    destruct (S _ _ G) as [_ H]. apply H; auto.
  - split; [exact S|]. discriminate.
  - split; [exact S|]. intros a X. injection X as <-. constructor. exact P.
  - split; [exact S|]. intros a X. injection X as <-. apply f_undrawn; auto.
  - split; [|intros a X; injection X as <-; apply f_scores; auto].
    intros key svg'. rewrite get_put. destruct (beq_spec (score_key k (score_chart_size sz)) key) as [<-|N1]; [|apply S].
    intros X. injection X as <-. split.
    + intros tag it i E K. apply mixed_keys in K; [contradiction|eauto using parsed_item|apply size_range].
    + intros k' sz' K P'. apply score_keys in K; try apply size_range. destruct K as [-> E]. rewrite <- E in *. apply f_scores; rewrite <- E || idtac; auto;
        rewrite E; auto.
Qed.

Lemma nth_set_at {A} (l : list A) : forall i x j, nth_error (set_at i x l) j = if Nat.eqb i j then (match nth_error l i with Some _ => Some x | None => None end) else nth_error l j.
Proof.
  induction l as [|y l IH]; intros i x j; [destruct i, j; cbn; try reflexivity; destruct (Nat.eqb i j); reflexivity|].
  destruct i as [|i], j as [|j]; cbn; try reflexivity. apply IH.
Qed.

(** Whatever requests there are and however they interleave, each answer is one the
    request could get with nothing cached. *)
Theorem C49_cache c rs : turns cs b htags ttags render panics draws ([], []) (c, rs) ->
  forall i r a, nth_error rs i = Some (r, Answered a) -> fresh r a.
Proof.
  assert (G : forall s s', turns cs b htags ttags render panics draws s s' ->
    (sound (fst s) /\ forall i r a, nth_error (snd s) i = Some (r, Answered a) -> fresh r a) ->
    sound (fst s') /\ forall i r a, nth_error (snd s') i = Some (r, Answered a) -> fresh r a).
  { intros s s' T. induction T as [s|s s' s'' T IH ST]; [auto|]. intros H. destruct (IH H) as [S A]. clear IH H.
    inversion ST as [c0 rs0 r E1 E2|c0 rs0 i r p c' p' N1 ADV E1 E2]; subst; cbn [fst snd] in *.
    - split; [exact S|]. intros i q a N1. destruct (Nat.lt_ge_cases i (length rs0)) as [L|L].
      + rewrite nth_error_app1 in N1 by exact L. eauto.
      + rewrite nth_error_app2 in N1 by exact L. destruct (i - length rs0) as [|k]; [discriminate|destruct k; discriminate].
    - destruct (advance_sound _ _ _ _ _ ADV S) as [S' A']. split; [exact S'|]. intros j q a. rewrite nth_set_at.
      destruct (Nat.eqb i j); [rewrite N1; intros X; injection X as <- ->; auto|apply A]. }
  intros T. apply (G _ _ T). split; [intros key svg H; discriminate H|]. intros [|i] r a H; discriminate H.
Qed.

End Served.

Print Assumptions C49_reverse.
Print Assumptions C49_bars.
Print Assumptions C49_all_bars.
Print Assumptions C49_size.
Print Assumptions C49_shown.
Print Assumptions C49_smallest.
Print Assumptions C49_found.
Print Assumptions C49_shows_all.
Print Assumptions C49_markers.
Print Assumptions C49_labels.
Print Assumptions C49_ticks.
Print Assumptions C49_cache.

(** ** Cases *)

Definition rec0 (n : N) : trec := {| t_runs := n; t_nanos := 7; t_bytes := 1; t_allocs := 2; t_mb := 3; t_gb := 4; t_tb := 5 |}.
Definition names0 (t : bytes) : bytes := B "name of " ++ t.

Example C49_bars_ex : chart_data names0 [(B "b", rec0 5); (B "a", rec0 9)] Runs [B "a"; B "none"; B "b"] =
  ([B "name of b"; B "name of a"], [5; 9]%Q) /\
  reverse [1; 2; 3; 4; 5] = [5; 4; 3; 2; 1] /\ reverse [1; 2; 3; 4] = [4; 3; 2; 1] /\
  wf [(B "b", rec0 5); (B "a", rec0 9)] /\ NoDup [B "a"; B "none"; B "b"].
Proof.
  repeat split; try (vm_compute; reflexivity); unfold wf; cbn [keys map fst];
    repeat (constructor; [cbn; intros H; repeat destruct H as [H|H]; try discriminate H; exact H|]); constructor.
Qed.

Example C49_size_ex : integer (B "-2") (-2) /\ integer (B "07") 7 /\ int64 7 /\
  map score_chart_size [B ""; B "0"; B "+2"; B "07"; B "-2"; B "two"; B "9223372036854775807"; B "9223372036854775808"]
    = [0; 0; 2; 3; 0; 0; 3; 0]%Z.
Proof.
  split; [apply (int_minus [chr 50] 2), (dec_one (chr 50)); vm_compute; split; discriminate|].
  split; [apply int_plain, (dec_more [chr 48] 0 (chr 55)); [apply (dec_one (chr 48))|]; vm_compute; split; discriminate|].
  split; [split; vm_compute; [discriminate|reflexivity]|vm_compute; reflexivity].
Qed.

(** Three handlers: the third without warnings, the fourth of the warnings unknown to the
    keeper; and one whose score is NaN, which no size shows. *)
Definition ys0 (h : bytes) : option xnum :=
  get h [(B "a", pct 90); (B "b", pct 60); (B "c", pct 55)].
Definition xs0 (h : bytes) : option xnum :=
  get h [(B "a", pct 80); (B "b", pct 51); (B "c", pct 70)].
Definition ysn (h : bytes) : option xnum := get h [(B "a", pct 90); (B "b", NaN)].
Definition xsn (h : bytes) : option xnum := get h [(B "a", pct 80); (B "b", pct 85)].

Example C49_shown_ex :
  smallest_chart_size xs0 ys0 [B "a"; B "b"; B "c"] = Some 2 /\
  new_chart_data xs0 ys0 [B "a"; B "b"; B "c"] [B "b"; B "a"; B "z"] (size_at 2) =
    Some [(B "a", (pct 80, pct 90)); (B "b", (pct 51, pct 60)); (B "c", (Fin 0, pct 55))] /\
  new_chart_data xs0 ys0 [B "a"; B "b"; B "c"] [B "b"; B "a"; B "z"] (size_at 3) = Some [(B "a", (pct 80, pct 90))] /\
  smallest_chart_size xsn ysn [B "a"; B "b"] = Some 3 /\
  new_chart_data xsn ysn [B "a"; B "b"] [B "b"; B "a"] (size_at 3) = Some [(B "a", (pct 80, pct 90))].
Proof. repeat split; vm_compute; reflexivity. Qed.

Example C49_markers_ex : data_markers names0 (size_at 0) [(B "a", (pct 80, pct 90)); (B "z", (pct 3, pct 0)); (B "b", (pct 10, pct 20))]
  [{| mk_label := B "name of a"; mk_x := pct 80; mk_y := pct 90; mk_label_y := Fin (Q2Qc (255 # 4)) |};
   {| mk_label := B "name of b"; mk_x := pct 10; mk_y := pct 20; mk_label_y := Fin (Q2Qc (466 # 8)) |}].
Proof.
  eexists _, _. split; [apply Permutation_refl|]. split; [apply Permutation_refl|]. vm_compute. reflexivity.
Qed.

Example C49_ticks_ex : map (map Qred) [ticks 75; ticks 0; ticks 101; ticks (201 # 2)] =
  map (map inject_Z) [[75; 76; 78; 80; 82; 84; 86; 88; 90; 92; 94; 96; 98; 100]; [0; 10; 20; 30; 40; 50; 60; 70; 80; 90; 100]; []; []]%Z /\
  map Qred (ticks (113 # 2)) = (113 # 2)%Q :: map inject_Z [60; 65; 70; 75; 80; 85; 90; 95; 100]%Z /\
  whole (tick_distance (113 # 2)) 60 /\ (113 # 2 < 60 <= 100)%Q.
Proof.
  repeat split; try (vm_compute; reflexivity); [exists 12%Z; vm_compute; reflexivity|discriminate].
Qed.

(** Two requests for the same chart that both miss, and a third, spelled differently, that
    is answered from the cache. *)
Definition bench0 : bench := {|
  b_by_test := [(B "t", [(B "h", rec0 4)])]; b_by_handler := [(B "h", [(B "t", rec0 4)])]; b_tests := []; b_handlers := [];
  b_test_names := []; b_cpus := []; b_handler_names := [(B "h", B "Handler")]; b_warning_text := []; b_lookup := None |}.
Definition render0 (title : bytes) (labels : list bytes) (values : list Q) : bytes := title ++ concat labels.
Example C49_cache_ex : exists s,
  turns casing0 bench0 [B "h"] [B "t"] render0 (fun _ _ => false) (fun _ _ o => o = None) ([], []) s /\
  s = ([(B "t:Runs", B "Test runsHandler")],
     [(BarFor (B "t") (B "Runs.svg"), Answered (Image (B "Test runsHandler")));
      (BarFor (B "t") (B "runs"), Answered (Image (B "Test runsHandler")));
      (BarFor (B "t") (B "RUNS"), Answered (Image (B "Test runsHandler")))]).
Proof.
  eexists. split.
  eapply ts_more. eapply ts_more. eapply ts_more. eapply ts_more. eapply ts_more. eapply ts_more. eapply ts_more. eapply ts_more.
  apply ts_none. apply (t_arrive _ _ _ _ _ _ _ [] [] (BarFor (B "t") (B "Runs.svg"))).
  apply (t_arrive _ _ _ _ _ _ _ [] _ (BarFor (B "t") (B "runs"))).
  eapply (t_advance _ _ _ _ _ _ _ _ _ 0); [reflexivity|]. apply (a_bar_miss _ _ _ _ _ _ _ _ _ _ 0%N); vm_compute; reflexivity.
  eapply (t_advance _ _ _ _ _ _ _ _ _ 1); [reflexivity|]. apply (a_bar_miss _ _ _ _ _ _ _ _ _ _ 0%N); vm_compute; reflexivity.
  eapply (t_advance _ _ _ _ _ _ _ _ _ 1); [reflexivity|]. apply (a_bar_drawn _ _ _ _ _ _ _ _ _ _ 0%N [B "Handler"] [4%Q]); vm_compute; reflexivity.
  eapply (t_advance _ _ _ _ _ _ _ _ _ 0); [reflexivity|]. apply (a_bar_drawn _ _ _ _ _ _ _ _ _ _ 0%N [B "Handler"] [4%Q]); vm_compute; reflexivity.
  apply (t_arrive _ _ _ _ _ _ _ _ _ (BarFor (B "t") (B "RUNS"))).
  eapply (t_advance _ _ _ _ _ _ _ _ _ 2); [reflexivity|]. apply (a_bar_hit _ _ _ _ _ _ _ _ _ _ 0%N (B "Test runsHandler")); vm_compute; reflexivity.
  vm_compute. reflexivity.
Qed.
