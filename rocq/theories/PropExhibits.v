(** C75: what the pages show of the weights is what the scores use. *)

From Coq Require Import Ascii String List NArith ZArith Bool Lia Permutation Sorted QArith Qcanon.
From Verif Require PropMerge.
From Verif Require Import Bytes BytesProofs GoSort Warnings WarnParser Bench PropBench PropTags Num NumProofs Scoring SpecScore ScoreProofs PropScore Keepers PropKeepers Exhibits.
Import ListNotations.
Local Open Scope nat_scope.
Local Open Scope list_scope.

(** ** Numbers *)

Lemma itoa_inj a b : (a < 2 ^ 64)%N -> (b < 2 ^ 64)%N -> itoa a = itoa b -> a = b.
Proof.
  intros A C E. apply dec_of_Z_inj in E. destruct (N.ltb_spec a (2 ^ 63)), (N.ltb_spec b (2 ^ 63));
    change (2 ^ 64)%Z with (Z.of_N (2 ^ 64)) in E; lia.
Qed.

Lemma itoa_small n : (n < 2 ^ 63)%N -> itoa n = dec_of_N n.
Proof.
  intros H. unfold itoa. apply N.ltb_lt in H. rewrite H. now destruct n.
Qed.

(** ** The tables *)

(** The weights in a map of Go are below 2^64. *)
Definition uints {K} (m : K -> option N) : Prop := forall k n, m k = Some n -> (n < 2 ^ 64)%N.

Lemma rows_in {K} name (m : K -> option N) order row : In row (weight_rows name m order) <->
  exists k n, In k order /\ m k = Some n /\ row = [name k; itoa n].
Proof.
  induction order as [|k order IH]; cbn [weight_rows]; [split; [intros []|now intros (? & ? & [] & _)]|].
  destruct (m k) as [n|] eqn:E; [cbn [In]|]; rewrite IH.
  - split.
    + intros [<-|(k' & n' & I & H)]; [exists k, n; now repeat split; [left|..]|exists k', n'; split; [now right|exact H]].
    + intros (k' & n' & [<-|I] & H & R); [left|right; now exists k', n'].
      rewrite E in H. injection H as <-. now symmetry.
  - split; intros (k' & n' & I & H & R); [exists k', n'; split; [now right|now split]|].
    destruct I as [<-|I]; [congruence|]. now exists k', n'.
Qed.

Lemma rows_heads {K} name (m : K -> option N) order : map (hd []) (weight_rows name m order) =
  map name (List.filter (fun k => match m k with Some _ => true | None => false end) order).
Proof.
  induction order as [|k order IH]; [reflexivity|]. cbn [weight_rows List.filter]. destruct (m k); cbn [map]; now rewrite IH.
Qed.

Lemma rows_tell {K} name (m1 m2 : K -> option N) order :
  (forall a b, In a order -> In b order -> name a = name b -> a = b) -> uints m1 -> uints m2 ->
  weight_rows name m1 order = weight_rows name m2 order -> forall k, In k order -> m1 k = m2 k.
Proof.
  intros N U1 U2 E k I.
  assert (X : forall m m' n, uints m -> uints m' -> weight_rows name m order = weight_rows name m' order ->
            m k = Some n -> m' k = Some n).
  { intros m m' n U U' R H. assert (J : In [name k; itoa n] (weight_rows name m order)) by (apply rows_in; now exists k, n).
    rewrite R in J. apply rows_in in J. destruct J as (k' & n' & J & H' & [= En Ei]).
    apply (N k k' I J) in En. subst k'. apply itoa_inj in Ei; [now subst|exact (U k n H)|exact (U' k n' H')]. }
  destruct (m1 k) as [n|] eqn:E1; [symmetry; now apply (X m1 m2)|].
  destruct (m2 k) as [n|] eqn:E2; [|reflexivity]. rewrite (X m2 m1 n U2 U1 (eq_sym E) E2) in E1. discriminate E1.
Qed.

Definition quantities : list (weight * bytes) :=
  [(Nanoseconds, B "Nanoseconds"); (AllocBytes, B "Alloc Bytes"); (Allocations, B "Allocations")].
Definition levels : list (N * bytes) :=
  [(4%N, B "Required"); (3%N, B "Implied"); (2%N, B "Suggested"); (1%N, B "Administrative")].

(** A table that shows, in this order, the entries that have a weight, with the weight. *)
Definition tells {K} (entries : list (K * bytes)) (m : K -> option N) (rows : list (list bytes)) : Prop :=
  exists shown, map (hd []) rows = map snd shown /\ (exists keep, shown = List.filter keep entries) /\
    (forall k s, In (k, s) shown <-> In (k, s) entries /\ m k <> None) /\
    (forall k s n, In (k, s) entries -> m k = Some n -> (n < 2 ^ 63)%N -> In [s; dec_of_N n] rows).

Lemma tells_rows {K} (name : K -> bytes) (m : K -> option N) (entries : list (K * bytes)) :
  (forall k s, In (k, s) entries -> name k = s) -> tells entries m (weight_rows name m (map fst entries)).
Proof.
  intros H. exists (List.filter (fun e => match m (fst e) with Some _ => true | None => false end) entries).
  split; [|split; [now eexists|split]].
  - rewrite rows_heads. induction entries as [|[k s] entries IH]; [reflexivity|]. cbn [map List.filter fst].
    destruct (m k); cbn [map snd]; rewrite IH by (intros a b I; apply H; now right); [|reflexivity].
    now rewrite (H k s (or_introl eq_refl)).
  - intros k s. rewrite filter_In. cbn [fst]. destruct (m k); split; intros [I J]; split; congruence.
  - intros k s n I E L. apply rows_in. exists k, n. split; [apply (in_map fst _ _ I)|]. split; [exact E|].
    rewrite (H k s I). now rewrite itoa_small.
Qed.

(** The first exhibit of a benchmark axis and the last of a warning axis are the tables of
    their weights, lists of included and excluded tests follow where the options have them. *)
Theorem C75_shown v o (m : bench_weights) (lm : level_weights) before :
  (exists rows more, bench_exhibits v o m before = Table [] [B "Data"; B "Weight"] rows :: more /\ tells quantities m rows /\
     (forall l, bo_include o = Some l -> In (Listing (B "Included") (map (test_name v) l)) more) /\
     (forall l, bo_exclude o = Some l -> In (Listing (B "Excluded") (map (test_name v) l)) more) /\
     (forall e, In e more -> exists c l, e = Listing c (map (test_name v) l) /\
        (c = B "Included" /\ bo_include o = Some l \/ c = B "Excluded" /\ bo_exclude o = Some l))) /\
  exists rows, warn_exhibits lm before = before ++ [Table [] [B "Level"; B "Weight"] rows] /\ tells levels lm rows.
Proof.
  split.
  - eexists _, _. split; [reflexivity|]. split.
    + apply (tells_rows weight_name m quantities). intros k s [E|[E|[E|[]]]]; injection E as <- <-; reflexivity.
    + split; [|split].
      * intros l E. rewrite E. apply in_or_app. left. now left.
      * intros l E. rewrite E. apply in_or_app. right. now left.
      * intros e I. apply in_app_or in I. destruct I as [I|I].
        -- destruct (bo_include o) as [l|]; [|destruct I]. destruct I as [<-|[]]. exists (B "Included"), l. split; [reflexivity|]. left. now split.
        -- destruct (bo_exclude o) as [l|]; [|destruct I]. destruct I as [<-|[]]. exists (B "Excluded"), l. split; [reflexivity|]. right. now split.
  - eexists. split; [reflexivity|]. apply (tells_rows level_string lm levels).
    intros k s [E|[E|[E|[E|[]]]]]; injection E as <- <-; reflexivity.
Qed.
Print Assumptions C75_shown.

Example C75_shown_ex : bench_exhibits PropMerge.world0 {| bo_name := B "Large"; bo_include := Some large_tests; bo_exclude := Some [] |} simple_bench_weight [] =
  [Table [] [B "Data"; B "Weight"] [[B "Nanoseconds"; B "2"]; [B "Allocations"; B "1"]];
   Listing (B "Included") (map (test_name PropMerge.world0) [B "Bench.BigGroup"; B "Bench.Logging"]); Listing (B "Excluded") []] /\
  warn_exhibits simple_level_weight [] = [Table [] [B "Level"; B "Weight"] [[B "Required"; B "2"]; [B "Implied"; B "1"]]].
Proof. split; reflexivity. Qed.

(** Weights of 2^63 and more are shown negative. *)
Theorem C75_large (m : bench_weights) w n v o before : m w = Some n -> (2 ^ 63 <= n < 2 ^ 64)%N ->
  exists columns rows more digits, bench_exhibits v o m before = Table [] columns rows :: more /\ In [weight_name w; chr 45 :: digits] rows.
Proof.
  intros E [L H]. eexists _, _, _, (dec_of_N (2 ^ 64 - n)). split; [reflexivity|]. apply rows_in. exists w, n.
  split; [destruct w; cbn; tauto|]. split; [exact E|]. do 2 f_equal. unfold itoa.
  destruct (N.ltb_spec n (2 ^ 63)); [lia|].
  change (2 ^ 64)%Z with (Z.of_N (2 ^ 64)). destruct (2 ^ 64 - n)%N as [|p] eqn:D; [lia|].
  replace (Z.of_N n - Z.of_N (2 ^ 64))%Z with (Z.neg p) by lia. reflexivity.
Qed.
Print Assumptions C75_large.

Example C75_large_ex : hd_error (bench_exhibits PropMerge.world0 no_options (fun w => match w with Nanoseconds => Some (2 ^ 64 - 5)%N | _ => None end) []) =
  Some (Table [] [B "Data"; B "Weight"] [[B "Nanoseconds"; B "-5"]]).
Proof. reflexivity. Qed.

(** Setting up again leaves the exhibits of a benchmark axis as they are, and gives a
    warning axis one more table. *)
Fixpoint times {A} (n : nat) (f : A -> A) (x : A) : A := match n with O => x | S n' => f (times n' f x) end.
Theorem C75_again v o m lm n :
  (n <> 0 -> times n (bench_exhibits v o m) [] = bench_exhibits v o m []) /\
  exists t, warn_exhibits lm [] = [t] /\ times n (warn_exhibits lm) [] = repeat t n.
Proof.
  split.
  - destruct n; [congruence|]. reflexivity.
  - eexists. split; [reflexivity|]. induction n as [|n IH]; [reflexivity|]. cbn [times]. rewrite IH.
    unfold warn_exhibits at 1. cbn [app]. symmetry. apply (repeat_cons n).
Qed.
Print Assumptions C75_again.

(** ** Nothing else counts *)

Lemma fold_ext {A B} (f g : A -> B -> A) l : (forall a b, In b l -> f a b = g a b) -> forall a, fold_left f l a = fold_left g l a.
Proof.
  induction l as [|b l IH]; intros H a; [reflexivity|]. cbn [fold_left]. rewrite (H a b (or_introl eq_refl)).
  apply IH. intros a' b' I. apply H. now right.
Qed.

Section Same.
Context (A : arith) (of_Q : Q -> num A).
Variables bw1 bw2 : weight -> N.
Hypothesis E : forall w, bw1 w = bw2 w.

Lemma same_weight_score rng test r s w : score_weight A of_Q bw1 rng test r s w = score_weight A of_Q bw2 rng test r s w.
Proof. unfold score_weight. now rewrite E. Qed.
Lemma same_test rng test r s : score_test A of_Q bw1 rng test r s = score_test A of_Q bw2 rng test r s.
Proof. unfold score_test. rewrite (fold_ext _ (score_weight A of_Q bw2 rng test r)); [reflexivity|]. intros a w _. apply same_weight_score. Qed.
Lemma same_original rng r o : original_test A of_Q bw1 rng r o = original_test A of_Q bw2 rng r o.
Proof.
  unfold original_test. rewrite (fold_ext _ (original_part A of_Q bw2 rng r)); [reflexivity|].
  intros a w _. unfold original_part. now rewrite E.
Qed.
Lemma same_tests sel rngs recs : forall o s, score_tests A of_Q bw1 sel rngs recs o s = score_tests A of_Q bw2 sel rngs recs o s.
Proof.
  induction recs as [|[t r] recs IH]; intros o s; [reflexivity|]. cbn [score_tests]. destruct (sel t); [|apply IH].
  destruct (rngs t) as [[rng org]|]; [|reflexivity]. rewrite same_original, same_test. apply IH.
Qed.
Lemma same_handler sel rngs recs s : score_handler A of_Q bw1 sel rngs recs s = score_handler A of_Q bw2 sel rngs recs s.
Proof.
  unfold score_handler. rewrite same_tests. destruct (score_tests _ _ _ _ _ _ _ _) as [[o s']|]; [|reflexivity].
  do 3 f_equal; try (apply fold_ext; intros a w _; now rewrite E);
  now rewrite (fold_ext (fun s w => set_over_data A (avg_add_multiple A (avg_average A (s_sub A s w)) (bw1 w) (s_over_data A s)) s)
      (fun s w => set_over_data A (avg_add_multiple A (avg_average A (s_sub A s w)) (bw2 w) (s_over_data A s)) s)) by (intros a w _; now rewrite E).
Qed.
Lemma same_handlers sel rngs order hs : forall d,
  score_handlers A of_Q bw1 sel rngs order hs d = score_handlers A of_Q bw2 sel rngs order hs d.
Proof.
  induction hs as [|h hs IH]; intros d; [reflexivity|]. cbn [score_handlers]. rewrite same_handler.
  destruct (score_handler _ _ _ _ _ _ _); [apply IH|reflexivity].
Qed.
Lemma same_setup o b d res b' : bench_axis_setup A of_Q bw1 o b d res b' -> bench_axis_setup A of_Q bw2 o b d res b'.
Proof.
  intros (tests & b1 & hs & order & T & H & O & t1 & t2 & O1 & O2 & R).
  exists tests, b1, hs, order. split; [exact T|]. split; [exact H|]. split; [exact O|]. exists t1, t2.
  split; [exact O1|]. split; [exact O2|]. cbn zeta in *. now rewrite <- same_handlers.
Qed.
End Same.

Section SameLevels.
Context (A : arith) (registered : N -> list bytes).
Variables lw1 lw2 : N -> N.
Hypothesis E : forall l, In l level_order -> lw1 l = lw2 l.

Lemma same_warn_handler m t s : score_warn_handler A registered lw1 m t s = score_warn_handler A registered lw2 m t s.
Proof.
  unfold score_warn_handler. rewrite (fold_ext _ (score_level A registered lw2 m t)).
  - destruct (fold_left _ _ _) as [s' a].
    assert (X : original_warn_score A registered lw1 m t = original_warn_score A registered lw2 m t).
    { unfold original_warn_score, max_score.
      rewrite (fold_ext (fun a l => (a + lw1 l * level_count registered m l)%N) (fun a l => (a + lw2 l * level_count registered m l)%N))
        by (intros a' l I; now rewrite E).
      rewrite (fold_ext (fun a l => (a + lw1 l * N.of_nat (length (at_level t l)))%N) (fun a l => (a + lw2 l * N.of_nat (length (at_level t l)))%N))
        by (intros a' l I; now rewrite E).
      reflexivity. }
    now rewrite X.
  - intros [s' a] l I. unfold score_level. now rewrite E.
Qed.
Lemma same_warn_setup w d res w' : warn_axis_setup A registered lw1 w d res w' -> warn_axis_setup A registered lw2 w d res w'.
Proof.
  intros (tests & w1 & hs & T & H & R). exists tests, w1, hs. split; [exact T|]. split; [exact H|]. rewrite R. clear R H T.
  revert d. induction hs as [|h hs IH]; intros d; [reflexivity|]. cbn [score_warn_handlers].
  destruct (get h _); [|reflexivity]. now rewrite same_warn_handler, IH.
Qed.
End SameLevels.

(** Axes with the same exhibits and the same tests score alike, whatever the data and the
    arithmetic: the scores depend on no weight that is not shown. *)
Theorem C75_tells (A : arith) of_Q v o (m1 m2 : bench_weights) b d res b' : uints m1 -> uints m2 ->
  bench_exhibits v o m1 [] = bench_exhibits v o m2 [] ->
  (bench_axis_setup A of_Q (used m1) (scoring_options o) b d res b' <->
   bench_axis_setup A of_Q (used m2) (scoring_options o) b d res b').
Proof.
  intros U1 U2 E. injection E as E.
  assert (X : forall w, used m1 w = used m2 w).
  { intros w. unfold used. rewrite (rows_tell weight_name m1 m2 weight_order); try assumption; [reflexivity| |destruct w; cbn; tauto].
    intros a c _ _. destruct a, c; (reflexivity || discriminate). }
  split; apply same_setup; [exact X|now intros w].
Qed.
Print Assumptions C75_tells.

Theorem C75_tells_levels (A : arith) registered (m1 m2 : level_weights) w d res w' : uints m1 -> uints m2 ->
  warn_exhibits m1 [] = warn_exhibits m2 [] ->
  (warn_axis_setup A registered (used m1) w d res w' <-> warn_axis_setup A registered (used m2) w d res w').
Proof.
  intros U1 U2 E. injection E as E.
  assert (X : forall l, In l level_order -> used m1 l = used m2 l).
  { intros l I. unfold used. rewrite (rows_tell level_string m1 m2 level_order); try assumption; [reflexivity|].
    intros a c Ia Ic. revert Ic. destruct Ia as [<-|[<-|[<-|[<-|[]]]]]; intros [<-|[<-|[<-|[<-|[]]]]]; (reflexivity || discriminate). }
  split; apply same_warn_setup; [exact X|intros l I; symmetry; now apply X].
Qed.
Print Assumptions C75_tells_levels.

(** Two maps of levels, different at a level that is none of the four, with the same table;
    two of quantities, which differ in nothing that a program can tell. *)
Example C75_tells_ex :
  let m2 : level_weights := fun l => if N.eqb l 7 then Some 9%N else default_level_weight l in
  uints default_level_weight /\ uints m2 /\ default_level_weight 7%N <> m2 7%N /\
  warn_exhibits default_level_weight [] = warn_exhibits m2 [] /\ uints default_bench_weight /\
  forall v o, bench_exhibits v o default_bench_weight [] <> bench_exhibits v o simple_bench_weight [].
Proof.
  cbn zeta. assert (U : uints default_level_weight).
  { intros k n. unfold default_level_weight. repeat (destruct (N.eqb k _); [intros [= <-]; reflexivity|]). discriminate. }
  split; [exact U|]. split.
  { intros k n. destruct (N.eqb k 7); [intros [= <-]; reflexivity|apply U]. }
  split; [discriminate|]. split; [reflexivity|]. split; [now intros [| |] n [= <-]|]. intros v o. discriminate.
Qed.

(** ** Quantities without a weight *)

(** The same records, except perhaps for quantities that are not shown, or shown with
    weight zero. *)
Definition same_shown (m : bench_weights) : list (bytes * trec) -> list (bytes * trec) -> Prop :=
  Forall2 (fun e1 e2 => fst e1 = fst e2 /\ forall w n, m w = Some n -> n <> 0%N -> quantity (snd e1) w = quantity (snd e2) w).

Definition same_weighed (bw : weight -> N) : list (bytes * trec) -> list (bytes * trec) -> Prop :=
  Forall2 (fun e1 e2 => fst e1 = fst e2 /\ forall w, bw w <> 0%N -> quantity (snd e1) w = quantity (snd e2) w).

Lemma shown_weighed m l1 l2 : same_shown m l1 l2 -> same_weighed (used m) l1 l2.
Proof.
  induction 1 as [|e1 e2 l1 l2 [F Q] _ IH]; constructor; [|exact IH]. split; [exact F|]. intros w. specialize (Q w). unfold used.
  destruct (m w) as [n|]; intros N; [now apply (Q n)|now destruct N].
Qed.
Lemma weighed_shown m l1 l2 : same_weighed (used m) l1 l2 -> same_shown m l1 l2.
Proof.
  induction 1 as [|e1 e2 l1 l2 [F Q] _ IH]; constructor; [|exact IH]. split; [exact F|]. intros w n E N. apply Q. unfold used. now rewrite E.
Qed.

Definition heavy (e : option Qc * N) : bool := negb (N.eqb (snd e) 0).

Lemma add_up_heavy l : (forall e, In e l -> fst e <> None) -> add_up l = add_up (List.filter heavy l).
Proof.
  induction l as [|[x n] l IH]; intros H; [reflexivity|]. destruct x as [x|]; [|now destruct (H _ (or_introl eq_refl))].
  assert (IH' := IH (fun e I => H e (or_intror I))). cbn [List.filter]. unfold heavy at 1. cbn [snd].
  destruct (N.eqb_spec n 0) as [->|NZ]; cbn [negb add_up]; rewrite IH'; [|reflexivity].
  destruct (add_up (List.filter heavy l)) as [[s m]|]; [|reflexivity]. rewrite of_N_0, N.add_0_l.
  do 2 f_equal. ring.
Qed.

Lemma mean_heavy l1 l2 : (forall e, In e l1 -> fst e <> None) -> (forall e, In e l2 -> fst e <> None) ->
  List.filter heavy l1 = List.filter heavy l2 -> mean l1 = mean l2.
Proof. intros H1 H2 E. unfold mean. now rewrite (add_up_heavy l1), (add_up_heavy l2), E. Qed.

Lemma mean_some l x : mean l = Some x -> forall e, In e l -> fst e <> None.
Proof.
  unfold mean. destruct (add_up l) as [[s m]|] eqn:E; [|discriminate]. intros _. clear x. revert s m E.
  induction l as [|[[x|] n] l IH]; intros s m E e I; [destruct I| |discriminate E].
  cbn [add_up] in E. destruct (add_up l) as [[s' m']|]; [|discriminate E].
  destruct I as [<-|I]; [discriminate|]. now apply (IH s' m').
Qed.

Section Unlisted.
Variable bw : weight -> N.
Variables rs1 rs2 : bytes -> list (bytes * trec).
Hypothesis same : forall t, same_weighed bw (rs1 t) (rs2 t).

Lemma same_quantities t w : bw w <> 0%N ->
  map (fun e : bytes * trec => quantity (snd e) w) (rs1 t) = map (fun e : bytes * trec => quantity (snd e) w) (rs2 t).
Proof. intros N. induction (same t) as [|e1 e2 l1 l2 [_ Q] _ IH]; [reflexivity|]. cbn [map]. now rewrite IH, (Q w N). Qed.

Lemma same_rate t r1 r2 w : bw w <> 0%N -> quantity r1 w = quantity r2 w -> rate rs1 t r1 w = rate rs2 t r2 w.
Proof. intros N Q. unfold rate. now rewrite (same_quantities t w N), Q. Qed.

Lemma same_test_score e1 e2 : fst e1 = fst e2 -> (forall w, bw w <> 0%N -> quantity (snd e1) w = quantity (snd e2) w) ->
  test_score bw rs1 e1 = test_score bw rs2 e2.
Proof.
  intros F Q. unfold test_score. rewrite F. apply mean_heavy.
  - intros e I. apply in_flat_map in I. destruct I as (w & _ & I). destruct (rate _ _ _ w); [|destruct I]. now destruct I as [<-|[]].
  - intros e I. apply in_flat_map in I. destruct I as (w & _ & I). destruct (rate _ _ _ w); [|destruct I]. now destruct I as [<-|[]].
  - induction weight_order as [|w ws IH]; [reflexivity|]. cbn [flat_map]. rewrite !filter_app, IH. f_equal.
    destruct (N.eq_dec (bw w) 0) as [Z|Z].
    + assert (X : forall o : option Qc, List.filter heavy (match o with Some x => [(Some x, bw w)] | None => [] end) = []).
      { intros [x|]; [|reflexivity]. cbn [List.filter]. unfold heavy. cbn [snd]. now rewrite Z. }
      now rewrite !X.
    + now rewrite (same_rate (fst e2) (snd e1) (snd e2) w Z (Q w Z)).
Qed.

Lemma same_by_test l1 l2 : same_weighed bw l1 l2 -> score_by_test bw rs1 l1 = score_by_test bw rs2 l2.
Proof.
  intros S. unfold score_by_test. f_equal. induction S as [|e1 e2 l1 l2 [F Q] _ IH]; [reflexivity|].
  cbn [map]. now rewrite IH, (same_test_score e1 e2 F Q).
Qed.

Lemma same_quantity_score l1 l2 w : same_weighed bw l1 l2 -> bw w <> 0%N -> quantity_score rs1 l1 w = quantity_score rs2 l2 w.
Proof.
  intros S N. unfold quantity_score. do 2 f_equal. induction S as [|e1 e2 l1 l2 [F Q] _ IH]; [reflexivity|].
  cbn [map]. now rewrite IH, F, (same_rate (fst e2) (snd e1) (snd e2) w N (Q w N)).
Qed.

Lemma same_by_data l1 l2 x1 x2 : same_weighed bw l1 l2 -> score_by_data bw rs1 l1 = Some x1 -> score_by_data bw rs2 l2 = Some x2 -> x1 = x2.
Proof.
  intros S E1 E2. assert (E : score_by_data bw rs1 l1 = score_by_data bw rs2 l2); [|congruence].
  unfold score_by_data in *. apply mean_heavy; [exact (mean_some _ _ E1)|exact (mean_some _ _ E2)|]. clear E1 E2.
  induction weight_order as [|w ws IH]; [reflexivity|]. cbn [map List.filter]. rewrite IH.
  assert (X : forall x : option Qc, heavy (x, bw w) = negb (N.eqb (bw w) 0)) by reflexivity. rewrite !X.
  destruct (N.eqb_spec (bw w) 0) as [Z|Z]; cbn [negb]; [reflexivity|]. now rewrite (same_quantity_score l1 l2 w S Z).
Qed.
End Unlisted.

Lemma part_same bw o b1 b2 h : same_weighed bw (test_records_for b1 h) (test_records_for b2 h) ->
  same_weighed bw (handler_part o b1 h) (handler_part o b2 h).
Proof.
  unfold handler_part. induction 1 as [|e1 e2 l1 l2 [F Q] _ IH]; [constructor|]. cbn [List.filter]. rewrite F.
  destruct (selected o (fst e2)); [constructor; [now split|exact IH]|exact IH].
Qed.

Lemma same_get bw t l1 l2 : same_weighed bw l1 l2 ->
  match get t l1, get t l2 with
  | Some r1, Some r2 => forall w, bw w <> 0%N -> quantity r1 w = quantity r2 w
  | None, None => True
  | _, _ => False
  end.
Proof.
  induction 1 as [|[t1 r1] [t2 r2] l1 l2 [F Q] _ IH]; [exact I|]. cbn in F, Q. subst t2. cbn [get].
  destruct (beq t1 t); [exact Q|exact IH].
Qed.

(** A quantity that the table does not show cannot change the scores of the tests and
    their mean, and the score by data only from or to not-a-number. *)
Theorem C75_unlisted v pf (m : bench_weights) o b1 b2 d1 d2 b1' b2' h : pf_ok pf ->
  bench_state v pf b1 -> current b1 -> bench_state v pf b2 -> current b2 ->
  (forall t, same_shown m (handler_records_for b1 t) (handler_records_for b2 t)) ->
  same_shown m (test_records_for b1 h) (test_records_for b2 h) ->
  scored_handler b1 h -> scored_handler b2 h ->
  bench_axis_setup exact xQ (used m) (scoring_options o) b1 [] (Some d1) b1' ->
  bench_axis_setup exact xQ (used m) (scoring_options o) b2 [] (Some d2) b2' ->
  (forall t, b_score_for_test exact d1 h t = b_score_for_test exact d2 h t) /\
  b_score_for_type exact d1 h ByTest = b_score_for_type exact d2 h ByTest /\
  forall ty, ty = ByData \/ ty = Default ->
    b_score_for_type exact d1 h ty = b_score_for_type exact d2 h ty \/
    b_score_for_type exact d1 h ty = Some NaN \/ b_score_for_type exact d2 h ty = Some NaN.
Proof.
  intros P S1 C1 S2 C2 R0 Rh0 H1 H2 A1 A2. pose proof (fun t => shown_weighed _ _ _ (R0 t)) as R. pose proof (shown_weighed _ _ _ Rh0) as Rh.
  destruct (C44_scores v pf P (used m) (scoring_options o) b1 _ b1' S1 C1 A1) as (e1 & [= <-] & F1).
  destruct (C44_scores v pf P (used m) (scoring_options o) b2 _ b2' S2 C2 A2) as (e2 & [= <-] & F2).
  destruct (proj1 (F1 h) H1) as (P1 & T1 & D1 & Z1). destruct (proj1 (F2 h) H2) as (P2 & T2 & D2 & Z2).
  pose proof (part_same _ (scoring_options o) b1 b2 h Rh) as Q.
  pose proof (same_by_test (used m) _ _ R _ _ Q) as BT.
  split.
  { intros t. rewrite P1, P2. pose proof (same_get _ t _ _ Q) as G.
    destruct (get t (handler_part _ b1 h)) as [r1|], (get t (handler_part _ b2 h)) as [r2|]; try now destruct G.
    now rewrite (same_test_score (used m) _ _ R (t, r1) (t, r2) eq_refl G). }
  split; [now rewrite T1, T2, BT|].
  pose proof (same_by_data (used m) _ _ R) as BD.
  intros ty [->| ->].
  - rewrite D1, D2. destruct (score_by_data (used m) (handler_records_for b1) _) as [x1|] eqn:X1; [|right; now left].
    destruct (score_by_data (used m) (handler_records_for b2) _) as [x2|] eqn:X2; [|right; now right].
    left. now rewrite (BD _ _ _ _ Q X1 X2).
  - rewrite Z1, Z2. unfold score_default. rewrite BT.
    destruct (score_by_data (used m) (handler_records_for b1) _) as [x1|] eqn:X1; [|right; now left].
    destruct (score_by_data (used m) (handler_records_for b2) _) as [x2|] eqn:X2; [|right; now right].
    left. now rewrite (BD _ _ _ _ Q X1 X2).
Qed.
Print Assumptions C75_unlisted.

(** The bytes of beta and gamma are others, which the simple weights do not show. *)
Definition text4 : bytes := line1 "alfa" "One" "100" "0" "0" ++ line1 "beta" "One" "150" "200" "1" ++ line1 "gamma" "One" "300" "16" "4"
  ++ line1 "alfa" "Two" "20.5" "0" "0" ++ line1 "beta" "Two" "10.5" "0" "0" ++ line1 "gamma" "Two" "50.5" "8" "0".
Definition bench4 : bench := fst (parse_bench PropMerge.world0 pf1 text4 new_bench).
Definition set_up (bw : weight -> N) (o : options) (b : bench) : option (gomap (scored exact)) * bench :=
  let tests := sort_by (on (b_test_name b) blt) (keys (b_by_test b)) in
  let handlers := sort_by (on (b_handler_name b) blt) (keys (b_by_handler b)) in
  let sel := tagged (tag_map o tests) in
  (score_handlers exact xQ bw sel
     (fun t => if existsb (beq t) tests && sel t then Some (ranges_of exact xQ (handler_records_for b t), original_ranges exact xQ (handler_records_for b t)) else None)
     (test_records_for b) handlers [], set_handlers handlers (set_tests tests b)).
Lemma set_up_ok bw o b : b_tests b = [] -> b_handlers b = [] -> bench_axis_setup exact xQ bw o b [] (fst (set_up bw o b)) (snd (set_up bw o b)).
Proof.
  intros E1 E2. set (tests := sort_by (on (b_test_name b) blt) (keys (b_by_test b))).
  set (handlers := sort_by (on (b_handler_name b) blt) (keys (b_by_handler b))).
  exists tests, (set_tests tests b), handlers, (test_records_for b).
  split; [split; [rewrite E1; apply sorted_keys_some|reflexivity]|].
  split; [split; [cbn [set_tests b_handlers]; rewrite E2; apply sorted_keys_some|reflexivity]|].
  split; [reflexivity|]. exists (handler_records_for b), (handler_records_for b). split; [reflexivity|]. split; [reflexivity|]. reflexivity.
Qed.
Definition scores_of (bw : weight -> N) (b : bench) : option (option (option Q) * option (option Q)) :=
  match set_up bw all3 b with
  | (Some d, _) => Some (shown (b_score_for_type exact d (B "beta") ByTest), shown (b_score_for_type exact d (B "beta") ByData))
  | _ => None
  end.
Lemma same_weighed_check bw l1 l2 : map fst l1 = map fst l2 ->
  forallb (fun w => N.eqb (bw w) 0 || forallb (fun p => if Qc_eq_dec (fst p) (snd p) then true else false)
     (combine (map (fun e : bytes * trec => quantity (snd e) w) l1) (map (fun e : bytes * trec => quantity (snd e) w) l2))) weight_order = true ->
  same_weighed bw l1 l2.
Proof.
  revert l2. induction l1 as [|e1 l1 IH]; intros [|e2 l2] F H; try discriminate F; [constructor|]. injection F as F1 F2.
  rewrite forallb_forall in H. constructor.
  - split; [exact F1|]. intros w N. specialize (H w). destruct (N.eqb_spec (bw w) 0) as [Z|_]; [now destruct N|].
    cbn [orb map combine forallb fst snd] in H. destruct (Qc_eq_dec (quantity (snd e1) w) (quantity (snd e2) w)) as [E|_]; [exact E|].
    discriminate H. destruct w; cbn; tauto.
  - apply IH; [exact F2|]. apply forallb_forall. intros w I. specialize (H w I). destruct (N.eqb (bw w) 0); [reflexivity|].
    cbn [orb map combine forallb] in H |- *. now apply andb_prop in H.
Qed.
Example C75_unlisted_ex :
  (forall t, same_shown simple_bench_weight (handler_records_for bench3 t) (handler_records_for bench4 t)) /\
  same_shown simple_bench_weight (test_records_for bench3 (B "beta")) (test_records_for bench4 (B "beta")) /\
  bench_state PropMerge.world0 pf1 bench4 /\ current bench4 /\ scored_handler bench3 (B "beta") /\ scored_handler bench4 (B "beta") /\
  (exists res b', bench_axis_setup exact xQ (used simple_bench_weight) (scoring_options no_options) bench4 [] res b') /\
  scores_of (used simple_bench_weight) bench3 = scores_of (used simple_bench_weight) bench4 /\
  scores_of (used default_bench_weight) bench3 <> scores_of (used default_bench_weight) bench4 /\
  scores_of (used default_bench_weight) bench3 = Some (Some (Some (175 # 2)%Q), Some (Some (325 # 4)%Q)).
Proof.
  assert (E1 : b_tests bench4 = []) by (vm_compute; reflexivity). assert (E2 : b_handlers bench4 = []) by (vm_compute; reflexivity).
  assert (E3 : b_handlers bench3 = []) by (vm_compute; reflexivity).
  split; [|split; [apply weighed_shown, same_weighed_check; vm_compute; reflexivity|]].
  - intros t. destruct (in_dec (list_eq_dec ascii_dec) t [B "Bench.One"; B "Bench.Two"]) as [[<-|[<-|[]]]|N].
    + apply weighed_shown, same_weighed_check; vm_compute; reflexivity.
    + apply weighed_shown, same_weighed_check; vm_compute; reflexivity.
    + assert (X : forall b, keys (b_by_test b) = [B "Bench.One"; B "Bench.Two"] -> handler_records_for b t = []).
      { intros b K. unfold handler_records_for, inner. destruct (get t (b_by_test b)) as [x|] eqn:G; [|reflexivity].
        exfalso. apply N. rewrite <- K. apply get_keys. now exists x. }
      rewrite !X by (vm_compute; reflexivity). constructor.
  - split; [apply bs_parse; constructor|]. split; [intros t _; left; exact E1|].
    split; [unfold scored_handler; rewrite E3; exists (B "Bench.One"); eexists; vm_compute; reflexivity|].
    split; [unfold scored_handler; rewrite E2; exists (B "Bench.One"); eexists; vm_compute; reflexivity|].
    split; [eexists _, _; now apply set_up_ok|]. split; [vm_compute; reflexivity|]. split; [vm_compute; discriminate|vm_compute; reflexivity].
Qed.

(** And it does so when all handlers have the same of it in each test of the handler, shown
    or not; with some other weight above zero this is the only way to not-a-number besides
    another quantity being so. *)
Theorem C75_alike v pf (m : bench_weights) o b d b' h : pf_ok pf -> bench_state v pf b -> current b -> scored_handler b h ->
  bench_axis_setup exact xQ (used m) (scoring_options o) b [] (Some d) b' ->
  let same w := forall t r e1 e2, In (t, r) (test_records_for b h) -> selected (scoring_options o) t = true ->
    In e1 (handler_records_for b t) -> In e2 (handler_records_for b t) -> quantity (snd e1) w = quantity (snd e2) w in
  ((exists w, same w) -> b_score_for_type exact d h ByData = Some NaN /\ b_score_for_type exact d h Default = Some NaN) /\
  ((exists w n, m w = Some n /\ n <> 0%N) -> (forall w, ~ same w) -> b_score_for_type exact d h ByData <> Some NaN).
Proof.
  intros P S C H A. cbn zeta. destruct (C44_nan v pf P (used m) (scoring_options o) b b' d S C A h H) as (_ & _ & D & Z).
  split.
  - intros (w & W).
    assert (X : exists w, forall t r, In (t, r) (handler_part (scoring_options o) b h) -> alike b t w).
    { exists w. intros t r I. apply filter_In in I. destruct I as [I Sel]. intros e1 e2 I1 I2. now apply (W t r). }
    split; [apply D; now right|apply Z; right; right; now right].
  - intros (w & n & E & N) K F. apply D in F. destruct F as [F|(w' & F)].
    + specialize (F w). unfold used in F. rewrite E in F. contradiction.
    + apply (K w'). intros t r e1 e2 I Sel. apply (F t r). apply filter_In. now split.
Qed.
Print Assumptions C75_alike.

(** Nobody allocates: the simple weights have nothing to say about bytes, and yet. *)
Definition text5 : bytes := line1 "alfa" "One" "100" "0" "2" ++ line1 "beta" "One" "150" "0" "1".
Example C75_alike_ex : let b := fst (parse_bench PropMerge.world0 pf1 text5 new_bench) in
  scored_handler b (B "beta") /\ simple_bench_weight AllocBytes = None /\
  forallb (fun e => if Qc_eq_dec (quantity (snd e) AllocBytes) 0 then true else false) (handler_records_for b (B "Bench.One")) = true /\
  scores_of (used simple_bench_weight) b = Some (Some (Some (100 # 3)%Q), Some None).
Proof.
  cbn zeta. split; [|split; [reflexivity|split; vm_compute; reflexivity]].
  unfold scored_handler. match goal with |- match ?l with [] => _ | _ => _ end => replace l with (@nil bytes) by (vm_compute; reflexivity) end.
  exists (B "Bench.One"); eexists; vm_compute; reflexivity.
Qed.

(** ** The keepers *)

Lemma register_new cap size r : r_keepers r = [] ->
  keeper_setup cap size r = (false, {| r_keepers := setups cap size; r_tags := None |}).
Proof. intros E. unfold keeper_setup, setups. cbn [register]. unfold add_keeper. rewrite E. reflexivity. Qed.

Lemma register_reached l : forall calls r r', register l r = (false, r') -> reached Exhibits.keeper calls r -> reached _ (calls ++ l) r'.
Proof.
  induction l as [|[tag k] l IH]; intros calls r r' E R; cbn [register] in E.
  - injection E as <-. now rewrite app_nil_r.
  - destruct (add_keeper tag k r) as [[|] r1] eqn:A; [discriminate E|].
    change (calls ++ (tag, k) :: l) with (calls ++ [(tag, k)] ++ l). rewrite app_assoc. apply (IH _ r1); [exact E|].
    replace r1 with (snd (add_keeper tag k r)) by now rewrite A. now constructor.
Qed.
Lemma setups_reached cap size : reached _ (setups cap size) {| r_keepers := setups cap size; r_tags := None |}.
Proof. apply (register_reached (setups cap size) [] no_keepers); [now apply register_new|constructor]. Qed.

(** The names, the weights in the tables, the tests, the handlers. *)
Definition keeper_is (k : Exhibits.keeper) (x y : bytes) (levels quantities : list (list bytes)) (inc exc : option (list bytes)) (made : Keepers.filter -> Prop) : Prop :=
  axis_name (k_x k) = x /\ axis_name (k_y k) = y /\ (forall f, filter_made (k_filter k) f <-> made f) /\ k_caption k <> [] /\ k_title k <> [] /\
  forall (v : world) before,
  match k_x k with
  | Warns m => warn_exhibits m [] = [Table [] [B "Level"; B "Weight"] levels]
  | Benches m o => bo_include o = inc /\ bo_exclude o = None /\ hd_error (bench_exhibits v o m before) = Some (Table [] [B "Data"; B "Weight"] quantities)
  end /\
  match k_y k with
  | Warns _ => False
  | Benches m o => bo_include o = None /\ bo_exclude o = exc /\ hd_error (bench_exhibits v o m before) = Some (Table [] [B "Data"; B "Weight"] quantities)
  end.

Definition row (name weight : string) : list bytes := [B name; B weight].
Definition default_levels := [row "Required" "8"; row "Implied" "4"; row "Suggested" "2"; row "Administrative" "1"].
Definition default_quantities := [row "Nanoseconds" "3"; row "Alloc Bytes" "2"; row "Allocations" "1"].
Definition simple_levels := [row "Required" "2"; row "Implied" "1"].
Definition simple_quantities := [row "Nanoseconds" "2"; row "Allocations" "1"].
Definition large := [B "Bench.BigGroup"; B "Bench.Logging"].

(** Setting up gives these five keepers, listed in this order; setting up a second time is
    an error and changes nothing. *)
Theorem C75_keepers cap size r : r_keepers r = [] -> exists r',
  keeper_setup cap size r = (false, r') /\ keeper_setup cap size r' = (true, r') /\
  (forall res r'', keepers r' res r'' -> res = Some [B "Default"; B "Simple"; B "Size"; B "+Dedup"; B "+ReplAttr"]) /\
  (exists k, get_keeper (B "Default") r' = Some k /\ keeper_is k (B "Warnings") (B "Benchmarks") default_levels default_quantities None None basic_filter) /\
  (exists k, get_keeper (B "Simple") r' = Some k /\ keeper_is k (B "Warnings") (B "Benchmarks") simple_levels simple_quantities None None basic_filter) /\
  (exists k, get_keeper (B "+Dedup") r' = Some k /\ keeper_is k (B "Warnings") (B "Benchmarks") default_levels default_quantities None None dedup_filter) /\
  (exists k, get_keeper (B "+ReplAttr") r' = Some k /\ keeper_is k (B "Warnings") (B "Benchmarks") default_levels default_quantities None None replattr_filter) /\
  (exists k, get_keeper (B "Size") r' = Some k /\ keeper_is k (B "Large") (B "Small") [] default_quantities (Some large) (Some large) basic_filter) /\
  (forall tag, ~ In tag [B "Default"; B "Simple"; B "Size"; B "+Dedup"; B "+ReplAttr"] -> get_keeper tag r' = None).
Proof.
  intros E. exists {| r_keepers := setups cap size; r_tags := None |}. split; [now apply register_new|].
  split; [reflexivity|]. split; [|split; [|split; [|split; [|split; [|split]]]]].
  - intros res r'' K. 
    destruct (C48_list _ (setups cap size) _ res r'' (setups_reached cap size)) as (l & -> & N & I & S); [|exact K|].
    { intros X. cbn in X. repeat (destruct X as [X|X]; [discriminate X|]). destruct X. }
    f_equal. apply sorted_same; [exact N| | |exact S|].
    + repeat constructor; cbn; intros X; repeat (destruct X as [X|X]; [discriminate X|]); destruct X.
    + intros t. rewrite I. cbn. tauto.
    + repeat match goal with
      | |- StronglySorted _ _ => constructor
      | |- Forall _ _ => constructor
      | |- comes_before _ _ => apply less_before; [discriminate|discriminate|reflexivity]
      end.
  - eexists. split; [reflexivity|]. split; [reflexivity|]. split; [reflexivity|]. split; [intros f; exact (iff_refl _)|]. repeat split; (reflexivity || discriminate || (destruct cap, size; discriminate)).
  - eexists. split; [reflexivity|]. split; [reflexivity|]. split; [reflexivity|]. split; [intros f; exact (iff_refl _)|]. repeat split; (reflexivity || discriminate || (destruct cap, size; discriminate)).
  - eexists. split; [reflexivity|]. split; [reflexivity|]. split; [reflexivity|]. split; [intros f; exact (iff_refl _)|]. repeat split; (reflexivity || discriminate || (destruct cap, size; discriminate)).
  - eexists. split; [reflexivity|]. split; [reflexivity|]. split; [reflexivity|]. split; [intros f; exact (iff_refl _)|]. repeat split; (reflexivity || discriminate || (destruct cap, size; discriminate)).
  - eexists. split; [reflexivity|]. split; [reflexivity|]. split; [reflexivity|]. split; [intros f; exact (iff_refl _)|]. repeat split; (reflexivity || discriminate || (destruct cap, size; discriminate)).
  - intros tag N. unfold get_keeper. cbn [r_keepers]. destruct (get tag (setups cap size)) eqn:G; [|reflexivity].
    exfalso. apply N.
    assert (X : In tag (keys (setups cap size))) by (apply get_keys; now exists k). cbn in X |- *. tauto.
Qed.
Print Assumptions C75_keepers.
