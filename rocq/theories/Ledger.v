(** Slices held under names, extended step by step by several parties. *)

From Coq Require Import List Arith Lia Bool.
From Verif Require Import Slices History HistoryProofs FlashDerive.
Import ListNotations.

Lemma set_same {A} (f : nat -> A) i x : set f i x i = x.
Proof. unfold set. rewrite Nat.eqb_refl. reflexivity. Qed.

Lemma set_other {A} (f : nat -> A) i x j : j <> i -> set f i x j = f j.
Proof. intros H. unfold set. apply Nat.eqb_neq in H. rewrite H. reflexivity. Qed.

Section Ledger.
Variable T : Type.
Variable zero : T.
Variable grow : policy.

(** [S x] is the slice held under [x] and [V x] what it reads; [U x] allows that
    somebody else extends it; [F x] allows its holder to extend it. *)
Definition ledger (h : heap T) (S : nat -> option gslice) (V : nat -> list T) (U F : nat -> bool) : Prop :=
  exists es I, owned h es /\
    (forall x y, S x <> None -> S y <> None -> x <> y -> I x <> I y) /\
    (forall x s, S x = Some s -> exists e, nth_error es (I x) = Some e /\ e_slice e = s /\ e_value e = V x /\
       (e_used e = true -> U x = true)) /\
    (forall x s, S x = Some s -> F x = true -> sl_len s = 0 -> sl_cap s > 0 ->
       (forall e, In e es -> sl_len (e_slice e) > 0 -> sl_arr (e_slice e) <> sl_arr s) /\
       (forall y s', S y = Some s' -> y <> x -> F y = true -> sl_len s' = 0 -> sl_cap s' > 0 ->
          sl_arr s' <> sl_arr s)).

Lemma ledger_ext h S V U F S' V' U' F' :
  ledger h S V U F ->
  (forall x, S' x = S x) -> (forall x, S x <> None -> V' x = V x) ->
  (forall x, U x = true -> U' x = true) -> (forall x, F' x = true -> F x = true) ->
  ledger h S' V' U' F'.
Proof.
  intros (es & I & O & J & H & Q) ES EV EU EF. exists es, I. split; [exact O|]. split; [|split].
  - intros x y. rewrite !ES. apply J.
  - intros x s. rewrite ES. intros E. destruct (H x s E) as (e & N & A & B & C). exists e.
    split; [exact N|]. split; [exact A|]. split; [rewrite EV; [exact B|congruence]|]. auto.
  - intros x s. rewrite ES. intros E Fx Z C. destruct (Q x s E (EF x Fx) Z C) as [Q1 Q2].
    split; [exact Q1|]. intros y s'. rewrite ES. intros Ey Ne Fy Zy Cy. apply (Q2 y s'); auto.
Qed.

Lemma ledger_read h S V U F x s : ledger h S V U F -> S x = Some s -> wf h s /\ gread h s = V x.
Proof.
  intros (es & I & O & J & H & Q) E. destruct (H x s E) as (e & N & <- & <- & _).
  apply O. eapply nth_error_In; eauto.
Qed.

Lemma ledger_none h : ledger h (fun _ => None) (fun _ => []) (fun _ => false) (fun _ => false).
Proof.
  exists [], (fun x => x). split; [apply owned_nil|]. split; [|split]; intros; congruence.
Qed.

(** Adding a holder with a new entry. *)
Lemma ledger_add h h' es es' (I : nat -> nat) S V U F x s v u f :
  S x = None ->
  owned h es ->
  (forall x y, S x <> None -> S y <> None -> x <> y -> I x <> I y) ->
  (forall x s, S x = Some s -> exists e, nth_error es (I x) = Some e /\ e_slice e = s /\ e_value e = V x /\
       (e_used e = true -> U x = true)) ->
  length es' = length es ->
  (forall k e, nth_error es k = Some e -> exists e', nth_error es' k = Some e' /\ e_slice e' = e_slice e /\
     e_value e' = e_value e /\ (e_used e' = true -> e_used e = true \/ forall y, S y <> None -> I y = k -> U y = true)) ->
  owned h' (es' ++ [{| e_slice := s; e_value := v; e_used := false |}]) ->
  (forall y s', set S x (Some s) y = Some s' -> set F x f y = true -> sl_len s' = 0 -> sl_cap s' > 0 ->
       (forall e, In e (es' ++ [{| e_slice := s; e_value := v; e_used := false |}]) ->
          sl_len (e_slice e) > 0 -> sl_arr (e_slice e) <> sl_arr s') /\
       (forall z s'', set S x (Some s) z = Some s'' -> z <> y -> set F x f z = true -> sl_len s'' = 0 -> sl_cap s'' > 0 ->
          sl_arr s'' <> sl_arr s')) ->
  ledger h' (set S x (Some s)) (set V x v) (set U x u) (set F x f).
Proof.
  intros Sx O J H Le Old O' Q.
  exists (es' ++ [{| e_slice := s; e_value := v; e_used := false |}]), (set I x (length es)).
  assert (Lt : forall y, S y <> None -> I y < length es).
  { intros y Hy. destruct (S y) as [sy|] eqn:Ey; [|congruence]. destruct (H y sy Ey) as (e & N & _).
    apply nth_error_Some. congruence. }
  split; [exact O'|]. split; [|split; [|exact Q]].
  - intros a b Ha Hb Ne. unfold set in *. destruct (Nat.eqb_spec a x) as [->|Na], (Nat.eqb_spec b x) as [->|Nb]; try congruence.
    + specialize (Lt b Hb). lia.
    + specialize (Lt a Ha). lia.
    + apply J; auto.
  - intros y s'. unfold set. destruct (Nat.eqb_spec y x) as [->|Ny].
    + intros E. injection E as <-. eexists. split; [rewrite <- Le; apply nth_last|]. cbn. repeat (split; [reflexivity|]). discriminate.
    + intros E. destruct (H y s' E) as (e & N & A & B & C). destruct (Old _ _ N) as (e' & N' & A' & B' & C').
      exists e'. split; [apply nth_old; exact N'|]. split; [congruence|]. split; [congruence|].
      intros X. destruct (C' X) as [X'|X']; [auto|]. apply X'; [congruence|reflexivity].
Qed.

(** A new array. *)
Lemma ledger_make h S V U F x cap f : ledger h S V U F -> S x = None ->
  let (h', s) := gmake zero h cap in
  ledger h' (set S x (Some s)) (set V x []) (set U x false) (set F x f).
Proof.
  intros (es & I & O & J & H & Q) Sx.
  pose proof (owned_make_extend _ zero grow h es cap [] O) as O'. pose proof (make_ok _ zero h cap) as M.
  destruct (gmake zero h cap) as [h' s]. cbn in O'. destruct M as (W & R & Z & A & C & L & K).
  assert (New : forall e, In e es -> sl_len (e_slice e) > 0 -> sl_arr (e_slice e) < length h).
  { intros e Ie P. destruct (proj1 O e Ie) as [[Q1 Q2] _]. destruct Q2 as [Q2|[Q2 _]]; lia. }
  assert (NewS : forall y s', S y = Some s' -> sl_cap s' > 0 -> sl_arr s' < length h).
  { intros y s' E P. destruct (H y s' E) as (e & N & <- & _). destruct (proj1 O e (nth_error_In _ _ N)) as [[Q1 Q2] _].
    destruct Q2 as [Q2|[Q2 _]]; lia. }
  eapply (ledger_add h h' es es I); eauto.
  { intros k e N. exists e. auto. }
  intros y s' Ey Fy Zy Cy. unfold set in *. destruct (Nat.eqb_spec y x) as [->|Ny].
  - injection Ey as <-. split.
    + intros e Ie P E. apply in_app_or in Ie as [Ie|[<-|[]]]; [specialize (New e Ie P); lia|]. cbn in P. lia.
    + intros z s'' Ez Ne Fz Zz Cz E. destruct (Nat.eqb_spec z x) as [->|Nz]; [congruence|]. specialize (NewS z s'' Ez Cz). lia.
  - destruct (Q y s' Ey Fy Zy Cy) as [Q1 Q2]. split.
    + intros e Ie P. apply in_app_or in Ie as [Ie|[<-|[]]]; [auto|]. cbn in P. lia.
    + intros z s'' Ez Ne Fz Zz Cz E. destruct (Nat.eqb_spec z x) as [->|Nz].
      * injection Ez as <-. specialize (NewS y s' Ey Cy). lia.
      * exact (Q2 z s'' Ez Ne Fz Zz Cz E).
Qed.

(** An empty slice, shared or nil. *)
Lemma ledger_zero h S V U F x s f : ledger h S V U F -> S x = None -> wf h s -> sl_len s = 0 ->
  (f = true -> sl_cap s = 0) ->
  ledger h (set S x (Some s)) (set V x []) (set U x false) (set F x f).
Proof.
  intros (es & I & O & J & H & Q) Sx W Z C.
  eapply (ledger_add h h es es I); eauto using owned_empty.
  { intros k e N. exists e. auto. }
  intros y s' Ey Fy Zy Cy. unfold set in *. destruct (Nat.eqb_spec y x) as [->|Ny].
  - injection Ey as <-. specialize (C Fy). lia.
  - destruct (Q y s' Ey Fy Zy Cy) as [Q1 Q2]. split.
    + intros e Ie P. apply in_app_or in Ie as [Ie|[<-|[]]]; [auto|]. cbn in P. lia.
    + intros z s'' Ez Ne Fz Zz Cz E. destruct (Nat.eqb_spec z x) as [->|Nz].
      * injection Ez as <-. specialize (C Fz). lia.
      * exact (Q2 z s'' Ez Ne Fz Zz Cz E).
Qed.

Lemma in_use (es : list (entry T)) i e : In e (use es i) -> exists e0, In e0 es /\ e_slice e0 = e_slice e.
Proof.
  intros X. apply In_nth_error in X as (k & N). rewrite use_nth in N.
  destruct (nth_error es k) as [e0|] eqn:E; [|discriminate]. apply nth_error_In in E.
  exists e0. split; [exact E|]. destruct (Nat.eqb i k); injection N as <-; reflexivity.
Qed.

(** Sharing the slice of [y], to extend it: nobody else may have done so. *)
Lemma ledger_share h S V U F x y s f : ledger h S V U F -> S x = None -> S y = Some s ->
  sl_len s > 0 -> U y = false ->
  ledger h (set S x (Some s)) (set V x (V y)) (set (set U y true) x false) (set F x f).
Proof.
  intros (es & I & O & J & H & Q) Sx Sy P Uy.
  destruct (H y s Sy) as (e & N & Es & Ev & Eu).
  assert (Ue : e_used e = false) by (destruct (e_used e); [specialize (Eu eq_refl); congruence|reflexivity]).
  pose proof (owned_extend _ zero grow h es (I y) e [] O N Ue) as O'. rewrite Es in O'. specialize (O' P).
  cbn in O'. rewrite Ev, app_nil_r in O'.
  eapply (ledger_add h h es (use es (I y)) I S V (set U y true)); eauto.
  - intros z s' E. destruct (H z s' E) as (e' & N' & A & B & C). exists e'. repeat (split; [assumption|]).
    intros X. unfold set. destruct (Nat.eqb z y); auto.
  - apply use_length.
  - intros k e' N'. rewrite use_nth, N'. destruct (Nat.eqb_spec (I y) k) as [<-|Nk].
    + eexists. split; [reflexivity|]. cbn. repeat (split; [reflexivity|]). intros _. right. intros z Hz Ez.
      destruct (Nat.eq_dec z y) as [->|Nz]; [apply set_same|]. exfalso. revert Ez. apply J; auto. congruence.
    + eexists. split; [reflexivity|]. auto.
  - intros z s' Ez Fz Zz Cz. unfold set in Ez, Fz. destruct (Nat.eqb_spec z x) as [->|Nz]; [injection Ez as <-; lia|].
    destruct (Q z s' Ez Fz Zz Cz) as [Q1 Q2]. split.
    + intros e' Ie P'. apply in_app_or in Ie as [Ie|[<-|[]]].
      * apply in_use in Ie as (e0 & I0 & E0). rewrite <- E0 in *. auto.
      * cbn. rewrite <- Es. apply Q1; [eapply nth_error_In; eauto|congruence].
    + intros a s'' Ea Ne Fa Za Ca E. unfold set in Ea, Fa. destruct (Nat.eqb_spec a x) as [->|Na]; [injection Ea as <-; lia|].
      exact (Q2 a s'' Ea Ne Fa Za Ca E).
Qed.

(** Extending one's own. *)
Lemma ledger_append h S V U F x s c : ledger h S V U F -> S x = Some s -> F x = true -> U x = false ->
  let (h', s') := gappend zero grow h s c in
  ledger h' (set S x (Some s')) (set V x (V x ++ c)) U F.
Proof.
  intros (es & I & O & J & H & Q) Sx Fx Ux.
  destruct (H x s Sx) as (e & N & Es & Ev & Eu).
  assert (Ue : e_used e = false) by (destruct (e_used e); [specialize (Eu eq_refl); congruence|reflexivity]).
  destruct (proj1 O e (nth_error_In _ _ N)) as [W R]. rewrite Es in W, R.
  assert (O' : let (h', s') := gappends zero grow (h, s) [c] in
            owned h' (use es (I x) ++ [{| e_slice := s'; e_value := V x ++ c; e_used := false |}])).
  { destruct (Nat.eq_dec (sl_len s) 0) as [Z|Z].
    - assert (Vx : V x = []). { rewrite <- Ev, <- R. unfold gread. rewrite Z. reflexivity. }
      pose proof (owned_fresh _ zero grow h (use es (I x)) s [c] (owned_use _ _ _ _ O) W Z) as X.
      rewrite Vx. cbn [concat] in X. rewrite app_nil_r in X. apply X.
      destruct (Nat.eq_dec (sl_cap s) 0) as [C|C]; [left; exact C|right].
      intros e' Ie P. apply in_use in Ie as (e0 & I0 & E0). rewrite <- E0 in *. apply (Q x s Sx Fx Z); auto. lia.
    - pose proof (owned_extend _ zero grow h es (I x) e [c] O N Ue) as X. rewrite Es in X. specialize (X ltac:(lia)).
      cbn [concat] in X. rewrite app_nil_r, Ev in X. exact X. }
  change (gappends zero grow (h, s) [c]) with (gappend zero grow h s c) in O'.
  pose proof (append_ok _ zero grow h s c W) as A.
  assert (Len : sl_len (snd (gappend zero grow h s c)) = sl_len s + length c).
  { unfold gappend. destruct (_ <=? _); reflexivity. }
  destruct (gappend zero grow h s c) as [h' s']. cbn in Len. destruct A as (W' & R' & K & Af).
  exists (use es (I x) ++ [{| e_slice := s'; e_value := V x ++ c; e_used := false |}]), (set I x (length es)).
  assert (Lt : forall y, S y <> None -> I y < length es).
  { intros y Hy. destruct (S y) as [sy|] eqn:Ey; [|congruence]. destruct (H y sy Ey) as (e' & N' & _).
    apply nth_error_Some. congruence. }
  assert (NewS : forall y s', S y = Some s' -> sl_cap s' > 0 -> sl_arr s' < length h).
  { intros y s0 E P. destruct (H y s0 E) as (e0 & N0 & <- & _). destruct (proj1 O e0 (nth_error_In _ _ N0)) as [[Q1 Q2] _].
    destruct Q2 as [Q2|[Q2 _]]; lia. }
  split; [exact O'|]. split; [|split].
  - intros a b Ha Hb Ne. unfold set in *. destruct (Nat.eqb_spec a x) as [->|Na], (Nat.eqb_spec b x) as [->|Nb]; try congruence.
    + specialize (Lt b Hb). lia.
    + specialize (Lt a Ha). lia.
    + apply J; auto.
  - intros y s0. unfold set. destruct (Nat.eqb_spec y x) as [->|Ny].
    + intros E. injection E as <-. eexists. split; [rewrite <- (use_length _ es (I x)); apply nth_last|]. cbn.
      repeat (split; [reflexivity|]). discriminate.
    + intros E. destruct (H y s0 E) as (e0 & N0 & A0 & B0 & C0). exists e0.
      split; [|auto]. apply nth_old. rewrite use_nth, N0.
      assert (I x <> I y) as X by (apply J; congruence). apply Nat.eqb_neq in X. rewrite X. reflexivity.
  - (* arrays of one's own *)
    assert (Arr : forall y s0, S y = Some s0 -> y <> x -> F y = true -> sl_len s0 = 0 -> sl_cap s0 > 0 ->
              sl_len s' > 0 \/ sl_cap s' > 0 -> sl_arr s' <> sl_arr s0).
    { intros y s0 Ey Ny Fy Zy Cy Pos. destruct Af as [(A1 & A2 & A3)|Af]; [|specialize (NewS y s0 Ey Cy); lia].
      rewrite A1. destruct (Q y s0 Ey Fy Zy Cy) as [Q1 Q2]. destruct (Nat.eq_dec (sl_len s) 0) as [Z|Z].
      - apply (Q2 x s Sx ltac:(auto) Fx Z). destruct W'. lia.
      - rewrite <- Es. apply (Q1 e (nth_error_In _ _ N)). rewrite Es. lia. }
    intros y s0 Ey Fy Zy Cy. unfold set in Ey. destruct (Nat.eqb_spec y x) as [->|Ny].
    + injection Ey as <-. assert (Z : sl_len s = 0) by lia.
      assert (Z' : length c = 0) by lia. destruct c as [|c0 c]; [|discriminate Z'].
      destruct Af as [(A1 & A2 & A3)|Af].
      * destruct (Q x s Sx Fx Z ltac:(lia)) as [Q1 Q2]. rewrite A1. split.
        -- intros e' Ie P. apply in_app_or in Ie as [Ie|[<-|[]]]; [|cbn in P; lia].
           apply in_use in Ie as (e0 & I0 & E0). rewrite <- E0 in *. auto.
        -- intros a s'' Ea Na Fa Za Ca. unfold set in Ea. destruct (Nat.eqb_spec a x) as [->|_]; [congruence|].
           apply (Q2 a s''); auto.
      * split.
        -- intros e' Ie P. apply in_app_or in Ie as [Ie|[<-|[]]]; [|cbn in P; lia].
           apply in_use in Ie as (e0 & I0 & E0). rewrite <- E0 in *.
           destruct (proj1 O e0 I0) as [[Q1 Q2] _]. destruct Q2 as [Q2|[Q2 _]]; lia.
        -- intros a s'' Ea Na Fa Za Ca. unfold set in Ea. destruct (Nat.eqb_spec a x) as [->|_]; [congruence|].
           specialize (NewS a s'' Ea Ca). lia.
    + destruct (Q y s0 Ey Fy Zy Cy) as [Q1 Q2]. split.
      * intros e' Ie P. apply in_app_or in Ie as [Ie|[<-|[]]].
        -- apply in_use in Ie as (e0 & I0 & E0). rewrite <- E0 in *. auto.
        -- cbn in *. apply (Arr y s0); auto.
      * intros a s'' Ea Na Fa Za Ca. unfold set in Ea. destruct (Nat.eqb_spec a x) as [->|Nax].
        -- injection Ea as <-. apply (Arr y s0); auto.
        -- apply (Q2 a s''); auto.
Qed.

End Ledger.
