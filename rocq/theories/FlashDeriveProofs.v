(** Derivation of flash handlers by several goroutines. *)

From Coq Require Import Ascii String List ZArith NArith Bool Arith Lia.
From Verif Require Import Bytes Slog SpecLog SpecFlash Flash FlashProofs History HistoryProofs Slices FlashHeap FlashHom
  FlashHeapProofs FlashDerive SpecDerive Ledger.
Import ListNotations.

(** Which handler value composes the line. *)
Fixpoint vtarget (d : dead) (g : hdl) (r : record) : option handler :=
  match g with
  | HBase h => Some h
  | HGroup h name parent =>
    match d with
    | DeadOther => None
    | _ =>
      let deadname := match d with DeadName s => s | _ => [] end in
      let delegate :=
        match first_attr (r_attrs r) with
        | None => true
        | Some (k, v) =>
          negb (beq deadname []) && beq k deadname &&
          match v with VGroup _ => true | _ => false end
        end in
      if delegate then vtarget (DeadName name) parent r else Some h
    end
  end.

Lemma vtarget_view w r : forall f d, vtarget d (fview_hdl w f) r = option_map (fview w) (ftarget d f r).
Proof.
  induction f as [h|h nm p IH]; intros d; cbn; [reflexivity|]. destruct d; cbn; try reflexivity;
  match goal with |- context [if ?x then _ else _] => destruct x end; auto.
Qed.

Lemma vtarget_handle std m r : forall g d, handle_hdl std m d g r =
  match vtarget d g r with None => Some Panic | Some h => handle std m h r end.
Proof.
  induction g as [h|h nm p IH]; intros d; cbn; [reflexivity|]. destruct d; cbn; try reflexivity;
  match goal with |- context [if ?x then _ else _] => destruct x end; auto.
Qed.

Lemma ftarget_chain r h : forall f d, ftarget d f r = Some h -> In h (chain f).
Proof.
  induction f as [h'|h' nm p IH]; intros d; cbn.
  - intros E. injection E as <-. auto.
  - destruct d; try discriminate; match goal with |- context [if ?x then _ else _] => destruct x end; intros E;
      try (injection E as <-; auto); right; eapply IH; eauto.
Qed.

Section Proofs.
Variable std : stdlib.
Variable grow : policy.
Variable n : nat.
Variable D : nat -> def.

Lemma with_attrs_prefix h l h' : with_attrs std n h l = Some h' ->
  exists t, h_prefix h' = h_prefix h ++ t /\ h_groups h' = h_groups h.
Proof.
  unfold with_attrs. set (st := match h_prefix h with [] => false | _ => _ end). intros E.
  pose proof (chunks_appended std grow n st (o_replace (h_options h)) (h_groups h) (h_extras h) l) as C.
  destruct (add_attributes lapp std n _ l) as [[c ok]|].
  - destruct C as [_ C]. destruct (C (h_prefix h)) as (st' & X). rewrite X in E. injection E as <-. cbn. eauto.
  - destruct C as [_ C]. rewrite C in E. discriminate.
Qed.

Lemma step_group_prefix g o g' : step std n g o = Some g' ->
  (h_groups (inner g) <> [] -> h_prefix (inner g) <> []) ->
  h_groups (inner g') <> [] -> h_prefix (inner g') <> [].
Proof.
  destruct o as [l|[|c nm]]; cbn; unfold with_attrs_hdl; intros E H.
  - destruct (with_attrs std n (inner g) l) as [h'|] eqn:W; [|discriminate]. injection E as <-. cbn.
    destruct (with_attrs_prefix _ _ _ W) as (t & P & G). rewrite P, G. intros X. specialize (H X).
    destruct (h_prefix (inner g)); [congruence|discriminate].
  - injection E as <-. exact H.
  - injection E as <-. cbn. intros _ X. apply (f_equal (@length ascii)) in X. rewrite !app_length in X. cbn in X. lia.
Qed.

Lemma group_prefix ops : forall g g', derive std n g ops = Some g' ->
  (h_groups (inner g) <> [] -> h_prefix (inner g) <> []) ->
  h_groups (inner g') <> [] -> h_prefix (inner g') <> [].
Proof.
  induction ops as [|o ops IH]; intros g g'; cbn [derive].
  - intros E. injection E as <-. auto.
  - destruct (step std n g o) as [g1|] eqn:S; [|discriminate]. intros E H. apply (IH g1 g' E).
    eapply step_group_prefix; eauto.
Qed.

Lemma path_group_prefix p g : of_path std n p = Some g -> h_groups (inner g) <> [] -> h_prefix (inner g) <> [].
Proof. intros E. eapply group_prefix; [exact E|]. cbn. congruence. Qed.

(** ** The invariant *)

Definition pslice (s : slot) : option gslice :=
  match s with Absent => None | Building b => Some (b_pre b) | Published f => Some (f_prefix (finner f)) end.
Definition sslice (s : slot) : option gslice :=
  match s with Absent => None | Building b => Some (b_suf b) | Published f => Some (f_suffix (finner f)) end.
Definition gslice' (s : slot) : option gslice :=
  match s with Absent => None | Building b => Some (b_grp b) | Published f => Some (f_groups (finner f)) end.

Definition chain_pub (sl : nat -> slot) (f : fhdl) : Prop :=
  forall h, In h (chain f) -> exists y fy, sl y = Published fy /\ h = finner fy.

Definition slot_ok (w : world) (sl : nat -> slot) (Vp : nat -> bytes) (Vg : nat -> list bytes)
    (U Fp Fg : nat -> bool) (x : nat) : Prop :=
  match sl x with
  | Absent => U x = false
  | Building b =>
      U x = false /\
      (b_prest b <> [] -> Fp x = true) /\ (b_grest b <> [] -> Fg x = true) /\
      (sl_len (b_grp b) = 0 -> b_grp b = nil_slice) /\
      Forall (fun c => c = [brace]) (b_srest b) /\
      exists p g, path_of D x p /\ of_path std n p = Some g /\
        h_options (inner g) = b_options b /\ h_extras (inner g) = b_extras b /\
        h_prefix (inner g) = Vp x ++ concat (b_prest b) /\
        h_suffix (inner g) = gread (w_suffix w) (b_suf b) ++ concat (b_srest b) /\
        h_groups (inner g) = Vg x ++ concat (b_grest b) /\
        match b_wrap b with
        | None => g = HBase (inner g)
        | Some (nm, f) => g = HGroup (inner g) nm (fview_hdl w f) /\ chain_pub sl f
        end
  | Published f =>
      (U x = true -> exists z o, D z = DFrom x o /\ sl z <> Absent) /\
      (sl_len (f_groups (finner f)) = 0 -> f_groups (finner f) = nil_slice) /\
      chain_pub sl f /\
      exists p, path_of D x p /\ of_path std n p = Some (fview_hdl w f)
  end.

Definition reading_ok (w : world) (sl : nat -> slot) (ph : dphase) : Prop :=
  match ph with
  | DReading x d r h pre suf grp =>
      exists f, sl x = Published f /\ ftarget d f r = Some h /\
        (exists t, gread (w_prefix w) (f_prefix h) = pre ++ t) /\
        (exists t, gread (w_suffix w) (f_suffix h) = suf ++ t) /\
        (exists t, gread (w_groups w) (f_groups h) = grp ++ t)
  | _ => True
  end.

Definition log_ok (l : logged) : Prop :=
  exists p g, path_of D (l_name l) p /\ of_path std n p = Some g /\
    vtarget (l_dead l) g (l_record l) = Some (l_handler l).

Definition core (w : world) (sl : nat -> slot) Vp Vg U Fp Fg : Prop :=
  ledger _ (w_prefix w) (fun x => pslice (sl x)) Vp U Fp /\
  ledger _ (w_groups w) (fun x => gslice' (sl x)) Vg U Fg /\
  (forall x s, sslice (sl x) = Some s -> all_c _ brace (w_suffix w) s) /\
  (forall x, slot_ok w sl Vp Vg U Fp Fg x).

Definition dinv (st : dstate) : Prop :=
  (exists Vp Vg U Fp Fg, core (d_world st) (d_slot st) Vp Vg U Fp Fg) /\
  (forall i, reading_ok (d_world st) (d_slot st) (t_at (d_thr st i))) /\
  Forall log_ok (d_log st).

(** What has been published reads the same. *)
Lemma view_stable w sl Vp Vg U Fp Fg w' sl' Vp' Vg' U' Fp' Fg' :
  core w sl Vp Vg U Fp Fg ->
  ledger _ (w_prefix w') (fun x => pslice (sl' x)) Vp' U' Fp' ->
  ledger _ (w_groups w') (fun x => gslice' (sl' x)) Vg' U' Fg' ->
  (forall x s, sslice (sl' x) = Some s -> all_c _ brace (w_suffix w') s) ->
  (forall x f, sl x = Published f -> sl' x = Published f /\ Vp' x = Vp x /\ Vg' x = Vg x) ->
  forall f h, chain_pub sl f -> In h (chain f) -> fview w' h = fview w h.
Proof.
  intros (Lp & Lg & A & _) Lp' Lg' A' K f h C I. destruct (C h I) as (y & fy & Ey & ->).
  destruct (K y fy Ey) as (Ey' & E1 & E2). unfold fview. f_equal.
  - rewrite (proj2 (ledger_read _ _ _ _ _ _ y _ Lp ltac:(cbv beta; rewrite Ey; reflexivity))).
    rewrite (proj2 (ledger_read _ _ _ _ _ _ y _ Lp' ltac:(cbv beta; rewrite Ey'; reflexivity))). exact E1.
  - rewrite (proj2 (A y _ ltac:(cbv beta; rewrite Ey; reflexivity))). apply (A' y). rewrite Ey'. reflexivity.
  - rewrite (proj2 (ledger_read _ _ _ _ _ _ y _ Lg ltac:(cbv beta; rewrite Ey; reflexivity))).
    rewrite (proj2 (ledger_read _ _ _ _ _ _ y _ Lg' ltac:(cbv beta; rewrite Ey'; reflexivity))). exact E2.
Qed.

(** One name changes. *)
Lemma core_step w sl Vp Vg U Fp Fg w' x s' Vp' Vg' U' Fp' Fg' :
  core w sl Vp Vg U Fp Fg ->
  (forall f, sl x <> Published f) -> s' <> Absent ->
  ledger _ (w_prefix w') (fun y => pslice (set sl x s' y)) Vp' U' Fp' ->
  ledger _ (w_groups w') (fun y => gslice' (set sl x s' y)) Vg' U' Fg' ->
  (forall t, all_c _ brace (w_suffix w) t -> all_c _ brace (w_suffix w') t) ->
  (forall s, sslice s' = Some s -> all_c _ brace (w_suffix w') s) ->
  (forall y, y <> x -> Vp' y = Vp y /\ Vg' y = Vg y /\ (Fp y = true -> Fp' y = true) /\ (Fg y = true -> Fg' y = true) /\
     (U' y = true -> U y = true \/ exists f o, sl y = Published f /\ D x = DFrom y o)) ->
  ((forall f, chain_pub sl f -> fview_hdl w' f = fview_hdl w f) ->
   (forall f, chain_pub sl f -> chain_pub (set sl x s') f) ->
   slot_ok w' (set sl x s') Vp' Vg' U' Fp' Fg' x) ->
  core w' (set sl x s') Vp' Vg' U' Fp' Fg' /\
  (forall f h, chain_pub sl f -> In h (chain f) -> fview w' h = fview w h).
Proof.
  intros C Nx Ns Lp' Lg' A A' K Sx.
  assert (Pub : forall y f, sl y = Published f -> set sl x s' y = Published f).
  { intros y f E. rewrite set_other; [exact E|]. intros ->. exact (Nx f E). }
  assert (All : forall y s, sslice (set sl x s' y) = Some s -> all_c _ brace (w_suffix w') s).
  { intros y s. destruct (Nat.eq_dec y x) as [->|Ny].
    - rewrite set_same. auto.
    - rewrite set_other by auto. intros E. apply A. apply C in E. exact E. }
  assert (V : forall f h, chain_pub sl f -> In h (chain f) -> fview w' h = fview w h).
  { eapply view_stable; eauto. intros y f E. split; [auto|].
    assert (y <> x) as Ny by (intros ->; exact (Nx f E)). destruct (K y Ny) as (E1 & E2 & _). auto. }
  assert (Cp : forall f, chain_pub sl f -> chain_pub (set sl x s') f).
  { intros f Cf h I. destruct (Cf h I) as (y & fy & E & ->). exists y, fy. auto. }
  assert (Vh : forall f, chain_pub sl f -> fview_hdl w' f = fview_hdl w f).
  { intros f Cf. apply fview_same. intros h I. eapply V; eauto. }
  split; [|exact V]. split; [exact Lp'|]. split; [exact Lg'|]. split; [exact All|].
  intros y. destruct (Nat.eq_dec y x) as [->|Ny]; [auto|].
  destruct C as (Lp & Lg & Al & Sl). specialize (Sl y). destruct (K y Ny) as (E1 & E2 & E3 & E4 & E5).
  unfold slot_ok in *. rewrite set_other by auto. pose proof (Al y) as Aly. destruct (sl y) as [|b|f] eqn:Ey.
  - destruct (U' y) eqn:Eu; [|reflexivity]. destruct (E5 eq_refl) as [X|(f & o & X & _)]; congruence.
  - destruct Sl as (S1 & S2 & S3 & S4 & S5 & p & g & P & G & G1 & G2 & G3 & G4 & G5 & Wr).
    split. { destruct (U' y) eqn:Eu; [|reflexivity]. destruct (E5 eq_refl) as [X|(f & o & X & _)]; congruence. }
    split; [auto|]. split; [auto|]. split; [exact S4|]. split; [exact S5|].
    exists p, g. split; [exact P|]. split; [exact G|]. split; [exact G1|]. split; [exact G2|].
    split; [congruence|]. split.
    { rewrite G4. f_equal. specialize (Aly _ eq_refl). rewrite (proj2 Aly). symmetry. apply (A _ Aly). }
    split; [congruence|]. destruct (b_wrap b) as [[nm f]|]; [|exact Wr]. destruct Wr as [Wr Cf]. rewrite Vh by auto. auto.
  - destruct Sl as (S1 & S2 & S3 & p & P & G). split.
    { intros Eu. destruct (E5 Eu) as [X|(f' & o & _ & X)].
      - destruct (S1 X) as (z & o & Dz & Nz). exists z, o. split; [exact Dz|]. unfold set. destruct (Nat.eqb z x); auto.
      - exists x, o. split; [exact X|]. rewrite set_same. exact Ns. }
    split; [exact S2|]. split; [auto|]. exists p. split; [exact P|]. rewrite Vh by auto. exact G.
Qed.

(** From one name to the state. *)
Lemma inv_core st w' x s' t' lg Vp Vg U Fp Fg Vp' Vg' U' Fp' Fg' :
  core (d_world st) (d_slot st) Vp Vg U Fp Fg ->
  (forall i, reading_ok (d_world st) (d_slot st) (t_at (d_thr st i))) -> Forall log_ok lg ->
  (forall f, d_slot st x <> Published f) ->
  core w' (set (d_slot st) x s') Vp' Vg' U' Fp' Fg' /\
    (forall f h, chain_pub (d_slot st) f -> In h (chain f) -> fview w' h = fview (d_world st) h) ->
  (forall i, t_at (t' i) = t_at (d_thr st i) \/ reading_ok w' (set (d_slot st) x s') (t_at (t' i))) ->
  dinv (mkd w' (set (d_slot st) x s') t' lg).
Proof.
  intros C R L Nx [C' V] Th. split; [do 5 eexists; exact C'|]. split; [|exact L].
  intros i. cbn. destruct (Th i) as [E|Y]; [|exact Y]. rewrite E. specialize (R i).
  destruct (t_at (d_thr st i)) as [|y|y d r h pre suf grp]; cbn in *; auto.
  destruct R as (f & Ey & Ft & R). exists f. split.
  { rewrite set_other; [exact Ey|]. intros ->. exact (Nx f Ey). }
  split; [exact Ft|].
  assert (Cf : chain_pub (d_slot st) f).
  { destruct C as (_ & _ & _ & S). specialize (S y). unfold slot_ok in S. rewrite Ey in S. apply S. }
  specialize (V f h Cf (ftarget_chain _ _ _ _ Ft)). unfold fview in V. injection V as E1 E2 E3.
  rewrite E1, E2, E3. exact R.
Qed.

(** ** The steps *)

Lemma begin_prefix h S V U F x y s :
  ledger _ h S V U F -> S x = None -> S y = Some s -> (sl_len s > 0 -> U y = false) ->
  let (h', s') := or_make h s lenPrefix in
  ledger _ h' (set S x (Some s')) (set V x (V y)) (set U y true) (set F x true).
Proof.
  intros L Sx Sy Un. unfold or_make. destruct (Nat.ltb_spec 0 (sl_len s)) as [P|P].
  - pose proof (ledger_share _ NUL grow h S V U F x y s true L Sx Sy P (Un P)) as L'.
    eapply ledger_ext; [exact L'|auto|auto| |auto].
    intros z. unfold set. destruct (Nat.eqb z x); [discriminate|auto].
  - pose proof (ledger_make _ NUL grow h S V U F x lenPrefix true L Sx) as L'.
    destruct (gmake NUL h lenPrefix) as [h' s'].
    assert (Vy : V y = []).
    { rewrite <- (proj2 (ledger_read _ _ _ _ _ _ _ _ L Sy)). apply read_zero. lia. }
    rewrite Vy. eapply ledger_ext; [exact L'|auto|auto| |auto].
    intros z. unfold set. destruct (Nat.eqb z x); [discriminate|]. destruct (Nat.eqb z y); auto.
Qed.

Lemma begin_same {T0} (zero : T0) h S V U F x y s f :
  ledger T0 h S V U F -> S x = None -> S y = Some s -> (sl_len s > 0 -> U y = false) ->
  (f = true -> sl_len s = 0 -> sl_cap s = 0) ->
  ledger _ h (set S x (Some s)) (set V x (V y)) (set U y true) (set F x f).
Proof.
  intros L Sx Sy Un Z. destruct (Nat.eq_dec (sl_len s) 0) as [P|P].
  - destruct (ledger_read _ _ _ _ _ _ _ _ L Sy) as [W R].
    pose proof (ledger_zero _ h S V U F x s f L Sx W P (fun E => Z E P)) as L'.
    assert (Vy : V y = []). { rewrite <- R. apply read_zero. exact P. }
    rewrite Vy. eapply ledger_ext; [exact L'|auto|auto| |auto].
    intros z. unfold set. destruct (Nat.eqb z x); [discriminate|]. destruct (Nat.eqb z y); auto.
  - pose proof (ledger_share _ zero grow h S V U F x y s f L Sx Sy ltac:(lia) (Un ltac:(lia))) as L'.
    eapply ledger_ext; [exact L'|auto|auto| |auto].
    intros z. unfold set. destruct (Nat.eqb z x); [discriminate|auto].
Qed.

(** A slot set, seen through one of its slices. *)
Lemma ledger_slot {T0} h (pr : slot -> option gslice) sl x s' s V U F :
  ledger T0 h (set (fun y => pr (sl y)) x (Some s)) V U F -> pr s' = Some s ->
  ledger T0 h (fun y => pr (set sl x s' y)) V U F.
Proof.
  intros L E. eapply ledger_ext; [exact L| | | |]; auto.
  intros y. unfold set. destruct (Nat.eqb y x); auto.
Qed.

Lemma ledger_same {T0} h (pr : slot -> option gslice) sl x s' V U F :
  ledger T0 h (fun y => pr (sl y)) V U F -> pr s' = pr (sl x) ->
  ledger T0 h (fun y => pr (set sl x s' y)) V U F.
Proof.
  intros L E. eapply ledger_ext; [exact L| | | |]; auto.
  intros y. unfold set. destruct (Nat.eqb_spec y x) as [->|]; auto.
Qed.

Lemma prefix_inv i st st' : dinv st -> dact std grow n D i APrefix st = Some st' -> dinv st'.
Proof.
  intros ((Vp & Vg & U & Fp & Fg & C) & R & L) E. unfold dact in E.
  destruct (t_at (d_thr st i)) as [|x|]; try discriminate.
  destruct (d_slot st x) as [|b|] eqn:Sx; try discriminate.
  destruct (b_prest b) as [|c cs] eqn:Pr; [discriminate|].
  pose proof C as (Lp & Lg & A & Sl). pose proof (Sl x) as Slx. unfold slot_ok in Slx. rewrite Sx in Slx.
  destruct Slx as (S1 & S2 & S3 & S4 & S5 & p & g & P & G & G1 & G2 & G3 & G4 & G5 & Wr).
  rewrite Pr in *. specialize (S2 ltac:(discriminate)).
  pose proof (ledger_append _ NUL grow _ _ _ _ _ x (b_pre b) c Lp ltac:(cbv beta; rewrite Sx; reflexivity) S2 S1) as Lp'.
  destruct (gappend NUL grow (w_prefix (d_world st)) (b_pre b) c) as [ph ps]. injection E as <-.
  eapply (inv_core st _ x _ _ _ Vp Vg U Fp Fg (set Vp x (Vp x ++ c)) Vg U Fp Fg); auto.
  { intros f. congruence. }
  apply (core_step _ _ Vp Vg U Fp Fg); auto.
  - intros f. congruence.
  - discriminate.
  - eapply ledger_slot; [exact Lp'|reflexivity].
  - eapply ledger_same; [exact Lg|]. rewrite Sx. reflexivity.
  - intros s E. apply (A x). rewrite Sx. exact E.
  - intros y Ny. rewrite set_other by auto. repeat (split; [reflexivity || auto|]). auto.
  - intros Vh Cp. unfold slot_ok. rewrite !set_same. cbn.
    split; [exact S1|]. split; [auto|]. split; [exact S3|]. split; [exact S4|]. split; [exact S5|].
    exists p, g. cbn [concat] in G3. rewrite app_assoc in G3. repeat (split; [assumption|]).
    destruct (b_wrap b) as [[nm f]|]; [|exact Wr]. destruct Wr as [Wr Cf]. rewrite Vh by auto. auto.
Qed.

Lemma groups_inv i st st' : dinv st -> dact std grow n D i AGroups st = Some st' -> dinv st'.
Proof.
  intros ((Vp & Vg & U & Fp & Fg & C) & R & L) E. unfold dact in E.
  destruct (t_at (d_thr st i)) as [|x|]; try discriminate.
  destruct (d_slot st x) as [|b|] eqn:Sx; try discriminate.
  destruct (b_grest b) as [|c cs] eqn:Pr; [discriminate|].
  pose proof C as (Lp & Lg & A & Sl). pose proof (Sl x) as Slx. unfold slot_ok in Slx. rewrite Sx in Slx.
  destruct Slx as (S1 & S2 & S3 & S4 & S5 & p & g & P & G & G1 & G2 & G3 & G4 & G5 & Wr).
  rewrite Pr in *. specialize (S3 ltac:(discriminate)).
  pose proof (ledger_append _ (nil : bytes) grow _ _ _ _ _ x (b_grp b) c Lg ltac:(cbv beta; rewrite Sx; reflexivity) S3 S1) as Lg'.
  assert (Nil : sl_len (snd (gappend (nil : bytes) grow (w_groups (d_world st)) (b_grp b) c)) = 0 ->
            snd (gappend (nil : bytes) grow (w_groups (d_world st)) (b_grp b) c) = nil_slice).
  { unfold gappend. destruct (Nat.leb_spec (sl_len (b_grp b) + length c) (sl_cap (b_grp b))) as [Le|Le]; cbn; intros Z.
    - rewrite S4 in * by lia. cbn in *. rewrite Z. reflexivity.
    - lia. }
  destruct (gappend (nil : bytes) grow (w_groups (d_world st)) (b_grp b) c) as [gh gs]. injection E as <-. cbn in Nil.
  eapply (inv_core st _ x _ _ _ Vp Vg U Fp Fg Vp (set Vg x (Vg x ++ c)) U Fp Fg); auto.
  { intros f. congruence. }
  apply (core_step _ _ Vp Vg U Fp Fg); auto.
  - intros f. congruence.
  - discriminate.
  - eapply ledger_same; [exact Lp|]. rewrite Sx. reflexivity.
  - eapply ledger_slot; [exact Lg'|reflexivity].
  - intros s E. apply (A x). rewrite Sx. exact E.
  - intros y Ny. rewrite set_other by auto. repeat (split; [reflexivity || auto|]). auto.
  - intros Vh Cp. unfold slot_ok. rewrite !set_same. cbn.
    split; [exact S1|]. split; [auto|]. split; [auto|]. split; [exact Nil|]. split; [exact S5|].
    exists p, g. cbn [concat] in G5. rewrite app_assoc in G5. repeat (split; [assumption|]).
    destruct (b_wrap b) as [[nm f]|]; [|exact Wr]. destruct Wr as [Wr Cf]. rewrite Vh by auto. auto.
Qed.

Lemma suffix_inv i st st' : dinv st -> dact std grow n D i ASuffix st = Some st' -> dinv st'.
Proof.
  intros ((Vp & Vg & U & Fp & Fg & C) & R & L) E. unfold dact in E.
  destruct (t_at (d_thr st i)) as [|x|]; try discriminate.
  destruct (d_slot st x) as [|b|] eqn:Sx; try discriminate.
  destruct (b_srest b) as [|c cs] eqn:Pr; [discriminate|].
  pose proof C as (Lp & Lg & A & Sl). pose proof (Sl x) as Slx. unfold slot_ok in Slx. rewrite Sx in Slx.
  destruct Slx as (S1 & S2 & S3 & S4 & S5 & p & g & P & G & G1 & G2 & G3 & G4 & G5 & Wr).
  rewrite Pr in *. inversion S5 as [|? ? Ec Ecs]. subst c.
  pose proof (A x _ ltac:(rewrite Sx; reflexivity)) as Ab. cbn in Ab.
  pose proof (fun t => all_c_append _ NUL grow brace _ (b_suf b) t Ab) as Ao.
  pose proof (all_c_result _ NUL grow brace _ (b_suf b) Ab) as Ar.
  destruct (gappend NUL grow (w_suffix (d_world st)) (b_suf b) [brace]) as [sh ss]. injection E as <-.
  cbn [fst] in Ao. destruct Ar as [Ar Rr].
  eapply (inv_core st _ x _ _ _ Vp Vg U Fp Fg Vp Vg U Fp Fg); auto.
  { intros f. congruence. }
  apply (core_step _ _ Vp Vg U Fp Fg); auto.
  - intros f. congruence.
  - discriminate.
  - eapply ledger_same; [exact Lp|]. rewrite Sx. reflexivity.
  - eapply ledger_same; [exact Lg|]. rewrite Sx. reflexivity.
  - cbn. intros s E. injection E as <-. exact Ar.
  - intros y Ny. repeat (split; [reflexivity || auto|]). auto.
  - intros Vh Cp. unfold slot_ok. rewrite !set_same. cbn.
    split; [exact S1|]. split; [auto|]. split; [auto|]. split; [exact S4|]. split; [exact Ecs|].
    exists p, g. cbn [concat] in G4. rewrite app_assoc, <- Rr in G4. repeat (split; [assumption|]).
    destruct (b_wrap b) as [[nm f]|]; [|exact Wr]. destruct Wr as [Wr Cf]. rewrite Vh by auto. auto.
Qed.

Lemma publish_inv i st st' : dinv st -> dact std grow n D i APublish st = Some st' -> dinv st'.
Proof.
  intros ((Vp & Vg & U & Fp & Fg & C) & R & L) E. unfold dact in E.
  destruct (t_at (d_thr st i)) as [|x|]; try discriminate.
  destruct (d_slot st x) as [|b|] eqn:Sx; try discriminate.
  destruct (b_prest b) eqn:Pr; [|discriminate]. destruct (b_srest b) eqn:Sr; [|discriminate].
  destruct (b_grest b) eqn:Gr; [|discriminate].
  pose proof C as (Lp & Lg & A & Sl). pose proof (Sl x) as Slx. unfold slot_ok in Slx. rewrite Sx in Slx.
  destruct Slx as (S1 & S2 & S3 & S4 & S5 & p & g & P & G & G1 & G2 & G3 & G4 & G5 & Wr).
  rewrite Pr, Sr, Gr in *. cbn [concat] in *. rewrite app_nil_r in *. injection E as <-.
  assert (Fi : finner (built b) = {| f_options := b_options b; f_extras := b_extras b; f_prefix := b_pre b;
              f_suffix := b_suf b; f_groups := b_grp b |}).
  { unfold built. destruct (b_wrap b) as [[nm f]|]; reflexivity. }
  eapply (inv_core st _ x _ _ _ Vp Vg U Fp Fg Vp Vg U Fp Fg); auto.
  { intros f. congruence. }
  2: { intros j. unfold set. destruct (Nat.eqb j i); [right; exact I|left; reflexivity]. }
  apply (core_step _ _ Vp Vg U Fp Fg); auto.
  - intros f. congruence.
  - discriminate.
  - eapply ledger_same; [exact Lp|]. cbn. rewrite Sx, Fi. reflexivity.
  - eapply ledger_same; [exact Lg|]. cbn. rewrite Sx, Fi. reflexivity.
  - cbn. intros s E. apply (A x). rewrite Sx, <- E, Fi. reflexivity.
  - intros y Ny. repeat (split; [reflexivity || auto|]). auto.
  - intros Vh Cp. unfold slot_ok. rewrite !set_same.
    split; [congruence|]. split; [rewrite Fi; exact S4|]. split.
    + intros h I. unfold built in I. destruct (b_wrap b) as [[nm f]|] eqn:Wb.
      * destruct I as [<-|I].
        -- exists x, (built b). rewrite set_same, Fi. auto.
        -- destruct Wr as [_ Cf]. apply (Cp f Cf). exact I.
      * destruct I as [<-|[]]. exists x, (built b). rewrite set_same, Fi. auto.
    + exists p. split; [exact P|]. rewrite G. f_equal.
      assert (Hv : inner g = fview (d_world st) (finner (built b))).
      { rewrite Fi. unfold fview. cbn.
        rewrite (proj2 (ledger_read _ _ _ _ _ _ x _ Lp ltac:(cbv beta; rewrite Sx; reflexivity))).
        rewrite (proj2 (ledger_read _ _ _ _ _ _ x _ Lg ltac:(cbv beta; rewrite Sx; reflexivity))).
        destruct (inner g). cbn in *. congruence. }
      unfold built in *. destruct (b_wrap b) as [[nm f]|]; cbn [fview_hdl finner] in *.
      * destruct Wr as [Wr _]. rewrite Wr, Hv. reflexivity.
      * rewrite Wr, Hv. reflexivity.
Qed.

(** What starts a derivation from [y]. *)
Lemma begin_core st x y o g w' b Vp Vg U Fp Fg ps0 ph' gf :
  shared_once std D ->
  core (d_world st) (d_slot st) Vp Vg U Fp Fg ->
  d_slot st x = Absent -> D x = DFrom y o -> d_slot st y = Published g ->
  (ph', ps0) = or_make (w_prefix (d_world st)) (f_prefix (finner g)) lenPrefix /\ b_pre b = ps0 /\ w_prefix w' = ph' \/
    b_pre b = f_prefix (finner g) /\ w_prefix w' = w_prefix (d_world st) /\ b_prest b = [] ->
  w_groups w' = w_groups (d_world st) ->
  b_grp b = f_groups (finner g) \/ b_grp b = nil_slice /\ gf = [] ->
  gf = gread (w_groups (d_world st)) (b_grp b) ->
  (forall t, all_c _ brace (w_suffix (d_world st)) t -> all_c _ brace (w_suffix w') t) ->
  all_c _ brace (w_suffix w') (b_suf b) ->
  Forall (fun c => c = [brace]) (b_srest b) ->
  ((forall f, chain_pub (d_slot st) f -> fview_hdl w' f = fview_hdl (d_world st) f) ->
   forall p, path_of D y p -> of_path std n p = Some (fview_hdl (d_world st) g) ->
   exists v, step std n (fview_hdl (d_world st) g) o = Some v /\
        h_options (inner v) = b_options b /\ h_extras (inner v) = b_extras b /\
        h_prefix (inner v) = gread (w_prefix (d_world st)) (f_prefix (finner g)) ++ concat (b_prest b) /\
        h_suffix (inner v) = gread (w_suffix w') (b_suf b) ++ concat (b_srest b) /\
        h_groups (inner v) = gf ++ concat (b_grest b) /\
        match b_wrap b with
        | None => v = HBase (inner v)
        | Some (nm, f) => v = HGroup (inner v) nm (fview_hdl w' f) /\ f = g
        end) ->
  exists Vp' Vg' U' Fp' Fg',
  core w' (set (d_slot st) x (Building b)) Vp' Vg' U' Fp' Fg' /\
    (forall f h, chain_pub (d_slot st) f -> In h (chain f) -> fview w' h = fview (d_world st) h).
Proof.
  intros Disc C Sx Dx Sy Pre Wg Grp Egf All Ab Sr Val.
  pose proof C as (Lp & Lg & A & Sl).
  pose proof (Sl x) as Slx. unfold slot_ok in Slx. rewrite Sx in Slx.
  pose proof (Sl y) as Sly. unfold slot_ok in Sly. rewrite Sy in Sly. destruct Sly as (Uz & Nil & Cy & p & P & G).
  assert (Nxy : x <> y) by congruence.
  pose proof (ledger_read _ _ _ _ _ _ y _ Lp ltac:(cbv beta; rewrite Sy; reflexivity)) as [Wp Rp].
  pose proof (ledger_read _ _ _ _ _ _ y _ Lg ltac:(cbv beta; rewrite Sy; reflexivity)) as [Wgr Rg].
  assert (Un : sl_len (f_prefix (finner g)) > 0 -> U y = false).
  { intros Pos. destruct (U y) eqn:E; [|reflexivity]. exfalso. destruct (Uz eq_refl) as (z & o' & Dz & Nz).
    assert (Us : unstarted std p) by (apply (Disc x z y o o'); auto; congruence).
    pose proof (unstarted_prefix std n p _ Us G) as Em. rewrite inner_view in Em. cbn in Em.
    apply gread_len in Wp. rewrite Em in Wp. cbn in Wp. lia. }
  assert (Un' : sl_len (f_groups (finner g)) > 0 -> U y = false).
  { intros Pos. apply Un. pose proof (path_group_prefix p _ G) as Q. rewrite inner_view in Q. cbn in Q.
    apply gread_len in Wp. apply gread_len in Wgr.
    destruct (gread (w_groups (d_world st)) (f_groups (finner g))) eqn:E1; [cbn in Wgr; lia|].
    destruct (gread (w_prefix (d_world st)) (f_prefix (finner g))) eqn:E2; [exfalso; apply Q; [discriminate|reflexivity]|].
    cbn in Wp. lia. }
  assert (Lp' : ledger _ (w_prefix w') (set (fun y => pslice (d_slot st y)) x (Some (b_pre b)))
            (set Vp x (Vp y)) (set U y true) (set Fp x (match b_prest b with [] => false | _ => true end))).
  { destruct Pre as [(E & -> & ->)|(-> & -> & ->)].
    - pose proof (begin_prefix (w_prefix (d_world st)) (fun y => pslice (d_slot st y)) Vp U Fp x y (f_prefix (finner g)) Lp
        ltac:(cbv beta; rewrite Sx; reflexivity) ltac:(cbv beta; rewrite Sy; reflexivity) Un) as X.
      rewrite <- E in X. eapply ledger_ext; [exact X|auto|auto|auto|].
      intros z. unfold set. destruct (Nat.eqb z x); auto.
    - apply (begin_same NUL); auto; [rewrite Sx; reflexivity|rewrite Sy; reflexivity|discriminate]. }
  assert (Lg' : ledger _ (w_groups w') (set (fun y => gslice' (d_slot st y)) x (Some (b_grp b)))
            (set Vg x gf) (set U y true) (set Fg x true)).
  { rewrite Wg, Egf. destruct Grp as [E|[E Z]]; rewrite E.
    - rewrite Rg. apply (begin_same (nil : bytes)); auto; [rewrite Sx; reflexivity|rewrite Sy; reflexivity|].
      intros _ Z. rewrite (Nil Z). reflexivity.
    - rewrite (read_zero _ nil_slice) by reflexivity.
      eapply ledger_ext; [eapply (ledger_zero _ _ _ _ _ _ x nil_slice true Lg)| | | |]; auto.
      + rewrite Sx. reflexivity.
      + apply wf_nil.
      + intros z. unfold set. destruct (Nat.eqb z x); [discriminate|]. destruct (Nat.eqb z y); auto. }
  do 5 eexists. eapply (core_step _ _ Vp Vg U Fp Fg); eauto.
  - intros f. congruence.
  - discriminate.
  - eapply ledger_slot; [exact Lp'|reflexivity].
  - eapply ledger_slot; [exact Lg'|reflexivity].
  - cbn. intros s E. injection E as <-. exact Ab.
  - intros z Nz. rewrite !(set_other _ x) by auto. repeat (split; [reflexivity || auto|]).
    unfold set. destruct (Nat.eqb_spec z y) as [->|]; [eauto|auto].
  - intros Vh Cp. unfold slot_ok. rewrite !set_same.
    split; [rewrite set_other by auto; exact Slx|].
    split; [destruct (b_prest b); congruence|]. split; [auto|].
    split. { destruct Grp as [E|[E _]]; rewrite E; auto. }
    split; [exact Sr|].
    destruct (Val Vh p P G) as (v & St & V1 & V2 & V3 & V4 & V5 & V6).
    exists (extend_path p o), v. split; [eapply path_from; eauto|].
    split; [rewrite (of_path_extend std n p o _ G); exact St|].
    split; [exact V1|]. split; [exact V2|]. split; [rewrite V3, Rp; reflexivity|]. split; [exact V4|]. split; [exact V5|].
    destruct (b_wrap b) as [[nm f]|]; [|exact V6]. destruct V6 as [V6 ->]. auto.
Qed.

Lemma some_inj {A} (a b : A) : Some a = Some b -> a = b.
Proof. congruence. Qed.

Lemma begin_inv i st st' : shared_once std D -> dinv st -> dact std grow n D i ABegin st = Some st' -> dinv st'.
Proof.
  intros Disc ((Vp & Vg & U & Fp & Fg & C) & R & L) E. unfold dact in E.
  destruct (t_at (d_thr st i)); try discriminate. destruct (t_tasks (d_thr st i)) as [|[x|] rest]; try discriminate.
  destruct (d_slot st x) eqn:Sx; try discriminate. destruct (begin std n D st x) as [[w' b]|] eqn:Bg; [|discriminate].
  injection E as <-.
  assert (X : exists Vp' Vg' U' Fp' Fg',
    core w' (set (d_slot st) x (Building b)) Vp' Vg' U' Fp' Fg' /\
    (forall f h, chain_pub (d_slot st) f -> In h (chain f) -> fview w' h = fview (d_world st) h)).
  2: { destruct X as (Vp' & Vg' & U' & Fp' & Fg' & X).
       eapply (inv_core st w' x (Building b) _ _ Vp Vg U Fp Fg Vp' Vg' U' Fp' Fg'); auto.
       - intros f. congruence.
       - intros j. unfold set. destruct (Nat.eqb j i); [right; exact I|left; reflexivity]. }
  unfold begin in Bg. destruct (D x) as [o e|y o] eqn:Dx.
  { (* NewHandler *)
    apply some_inj in Bg. unfold begin_new in Bg.
    pose proof C as (Lp & Lg & A & Sl). pose proof (Sl x) as Slx. unfold slot_ok in Slx. rewrite Sx in Slx.
    pose proof (ledger_make _ NUL grow _ _ _ _ _ x lenPrefix false Lp ltac:(cbv beta; rewrite Sx; reflexivity)) as Lp'.
    pose proof (ledger_zero _ _ _ _ _ _ x nil_slice false Lg ltac:(cbv beta; rewrite Sx; reflexivity) (wf_nil _ _) eq_refl ltac:(discriminate)) as Lg'.
    pose proof (all_c_make_new _ NUL brace (w_suffix (d_world st)) lenSuffix) as As.
    pose proof (fun t => all_c_make _ NUL brace (w_suffix (d_world st)) lenSuffix t) as Ao.
    pose proof (make_ok _ NUL (w_suffix (d_world st)) lenSuffix) as Ms.
    destruct (gmake NUL (w_prefix (d_world st)) lenPrefix) as [ph ps].
    destruct (gmake NUL (w_suffix (d_world st)) lenSuffix) as [sh ss].
    cbn [fst snd] in As, Ao. destruct Ms as (_ & Rs & _). injection Bg as <- <-.
    do 5 eexists. eapply (core_step _ _ Vp Vg U Fp Fg); eauto.
    - intros f. congruence.
    - discriminate.
    - eapply ledger_slot; [exact Lp'|reflexivity].
    - eapply ledger_slot; [exact Lg'|reflexivity].
    - cbn. intros s E. injection E as <-. exact As.
    - intros z Nz. rewrite !(set_other _ x) by auto. repeat (split; [reflexivity || auto|]). auto.
    - intros Vh Cp. unfold slot_ok. rewrite !set_same. cbn [b_prest b_grest b_grp b_srest b_options b_extras b_wrap b_suf w_suffix heaps].
      split; [reflexivity|]. split; [congruence|]. split; [congruence|]. split; [auto|]. split; [constructor|].
      exists {| p_options := o; p_extras := e; p_ops := [] |}, (HBase (new_handler o e)).
      split; [apply path_new; exact Dx|]. split; [reflexivity|]. rewrite Rs. cbn. auto 10. }
  destruct (d_slot st y) as [| |g] eqn:Sy; try discriminate.
  assert (Ag : all_c _ brace (w_suffix (d_world st)) (f_suffix (finner g))).
  { pose proof C as (_ & _ & A & _). apply (A y). rewrite Sy. reflexivity. }
  assert (Cg : chain_pub (d_slot st) g).
  { pose proof C as (_ & _ & _ & Sl). specialize (Sl y). unfold slot_ok in Sl. rewrite Sy in Sl. apply Sl. }
  destruct o as [l|name].
  - (* WithAttrs *)
    unfold begin_attrs in Bg. cbn [h_prefix h_groups fview] in Bg.
    set (sd := match gread (w_prefix (d_world st)) (f_prefix (finner g)) with [] => false | _ => _ end) in Bg.
    pose proof (fun t => or_make_all (w_suffix (d_world st)) (f_suffix (finner g)) t) as Ao.
    pose proof (or_make_new (w_suffix (d_world st)) (f_suffix (finner g)) Ag) as An.
    destruct (or_make (w_suffix (d_world st)) (f_suffix (finner g)) lenSuffix) as [sh ss].
    cbn [fst snd] in Ao, An. destruct An as [An Rn].
    destruct (or_make (w_prefix (d_world st)) (f_prefix (finner g)) lenPrefix) as [ph ps] eqn:Ep.
    pose proof (chunks_appended std grow n sd (o_replace (f_options (finner g)))
                  (gread (w_groups (d_world st)) (f_groups (finner g))) (f_extras (finner g)) l) as Ck.
    change (fun (l : list bytes) (x : bytes) => l ++ [x]) with lapp in Bg.
    destruct (add_attributes lapp std n _ l) as [[c ok]|]; [|discriminate]. injection Bg as <- <-.
    destruct Ck as [_ Ck].
    apply (begin_core st x y (WithAttrs l) g _ _ Vp Vg U Fp Fg ps ph (gread (w_groups (d_world st)) (f_groups (finner g)))); auto.
    { constructor. }
    intros Vh p P G. destruct (Ck (gread (w_prefix (d_world st)) (f_prefix (finner g)))) as (st2 & Ck').
    cbn [step]. unfold with_attrs_hdl, with_attrs. rewrite inner_view.
    cbn [h_prefix h_groups h_options h_extras h_suffix fview]. fold sd. rewrite Ck'. eexists. split; [reflexivity|].
    cbn [inner h_prefix h_groups h_options h_extras h_suffix c_buffer new_composer
         b_options b_extras b_prest b_suf b_srest b_grest b_grp b_wrap w_suffix heaps concat].
    rewrite Rn, !app_nil_r. auto 10.
  - (* WithGroup *)
    apply some_inj in Bg. unfold begin_group in Bg. destruct name as [|ch name].
    { injection Bg as <- <-.
      apply (begin_core st x y (WithGroup []) g _ _ Vp Vg U Fp Fg nil_slice [] (gread (w_groups (d_world st)) (f_groups (finner g)))); auto.
      - constructor.
      - intros Vh p P G. cbn [step with_group_hdl]. eexists. split; [reflexivity|]. rewrite inner_view.
        cbn [inner h_prefix h_groups h_options h_extras h_suffix fview
             b_options b_extras b_prest b_suf b_srest b_grest b_grp b_wrap w_suffix heaps concat].
        rewrite !app_nil_r. auto 10. }
    set (nm := ch :: name) in *. cbn [h_prefix fview] in Bg.
    set (start := match gread (w_prefix (d_world st)) (f_prefix (finner g)) with [] => [] | _ => _ end) in Bg.
    pose proof (fun t => or_make_all (w_suffix (d_world st)) (f_suffix (finner g)) t) as Ao.
    pose proof (Ao _ Ag) as Ag'.
    set (sh := fst (or_make (w_suffix (d_world st)) (f_suffix (finner g)) lenSuffix)) in *.
    destruct (or_make (w_prefix (d_world st)) (f_prefix (finner g)) lenPrefix) as [ph ps] eqn:Ep.
    assert (Rs : gread sh (f_suffix (finner g)) = gread (w_suffix (d_world st)) (f_suffix (finner g))).
    { destruct Ag' as [_ X]. destruct Ag as [_ Y]. congruence. }
    destruct (o_replace (f_options (finner g))) as [rep|] eqn:Or; injection Bg as <- <-.
    + apply (begin_core st x y (WithGroup nm) g _ _ Vp Vg U Fp Fg ps ph (gread (w_groups (d_world st)) (f_groups (finner g)))); auto.
      { constructor; [reflexivity|constructor]. }
      intros Vh p P G. cbn [step with_group_hdl]. unfold nm at 1. cbn [with_group_hdl]. fold nm. eexists. split; [reflexivity|].
      unfold with_group. rewrite inner_view.
      cbn [inner h_prefix h_groups h_options h_extras h_suffix fview
         b_options b_extras b_prest b_suf b_srest b_grest b_grp b_wrap w_suffix heaps concat].
      fold start. rewrite Rs, Or, !app_nil_r. rewrite Vh by exact Cg. auto 10.
    + apply (begin_core st x y (WithGroup nm) g _ _ Vp Vg U Fp Fg ps ph []); auto.
      { constructor; [reflexivity|constructor]. }
      intros Vh p P G. cbn [step with_group_hdl]. unfold nm at 1. cbn [with_group_hdl]. fold nm. eexists. split; [reflexivity|].
      unfold with_group. rewrite inner_view.
      cbn [inner h_prefix h_groups h_options h_extras h_suffix fview
         b_options b_extras b_prest b_suf b_srest b_grest b_grp b_wrap w_suffix heaps concat].
      fold start. rewrite Rs, Or, !app_nil_r. rewrite Vh by exact Cg. auto 10.
Qed.

(** Steps of log calls leave the handlers alone. *)
Lemma inv_thr st i t lg : dinv st -> reading_ok (d_world st) (d_slot st) (t_at t) ->
  Forall log_ok lg -> dinv (mkd (d_world st) (d_slot st) (set (d_thr st) i t) lg).
Proof.
  intros (C & R & L) Rt Ll. split; [exact C|]. split; [|exact Ll].
  intros j. cbn. unfold set. destruct (Nat.eqb j i); auto.
Qed.

Lemma read_next {T0} (zero : T0) h s (pre t : list T0) :
  gread h s = pre ++ t -> length pre < sl_len s -> wf h s ->
  exists t', gread h s = (pre ++ [nth (length pre) (array h s) zero]) ++ t'.
Proof.
  intros E Lt W. pose proof (gread_len _ _ W) as Len. rewrite E, app_length in Len.
  destruct t as [|x t]; [cbn in Len; lia|]. exists t. rewrite E, <- app_assoc. cbn. do 2 f_equal.
  assert (N : nth_error (gread h s) (length pre) = Some x).
  { rewrite E, nth_error_app2, Nat.sub_diag by lia. reflexivity. }
  unfold gread in N. symmetry. apply nth_error_nth.
  rewrite <- (firstn_skipn (sl_len s) (array h s)), nth_error_app1; [exact N|].
  apply nth_error_Some. congruence.
Qed.

Lemma reading_wf st x d r h pre suf grp : dinv st -> reading_ok (d_world st) (d_slot st) (DReading x d r h pre suf grp) ->
  wf (w_prefix (d_world st)) (f_prefix h) /\ wf (w_suffix (d_world st)) (f_suffix h) /\ wf (w_groups (d_world st)) (f_groups h).
Proof.
  intros ((Vp & Vg & U & Fp & Fg & Lp & Lg & A & Sl) & _) (f & Ex & Ft & _).
  pose proof (Sl x) as Slx. unfold slot_ok in Slx. rewrite Ex in Slx. destruct Slx as (_ & _ & Cf & _).
  destruct (Cf h (ftarget_chain _ _ _ _ Ft)) as (y & fy & Ey & ->).
  split; [|split].
  - apply (ledger_read _ _ _ _ _ _ y _ Lp). rewrite Ey. reflexivity.
  - apply (A y). rewrite Ey. reflexivity.
  - apply (ledger_read _ _ _ _ _ _ y _ Lg). rewrite Ey. reflexivity.
Qed.

Lemma whole {T0} (l pre t : list T0) k : l = pre ++ t -> length l = k -> length pre = k -> l = pre.
Proof.
  intros -> L P. rewrite app_length in L. destruct t; [apply app_nil_r|cbn in L; lia].
Qed.

Theorem dact_inv i a st st' : shared_once std D -> dinv st -> dact std grow n D i a st = Some st' -> dinv st'.
Proof.
  intros Disc Inv E. destruct a;
    [eapply begin_inv; eauto|eapply prefix_inv; eauto|eapply suffix_inv; eauto|eapply groups_inv; eauto|eapply publish_inv; eauto| | | | |];
    unfold dact in E; pose proof Inv as (C & R & L); pose proof (R i) as Ri;
    destruct (t_at (d_thr st i)) as [|x|x d r h pre suf grp] eqn:Ti; try discriminate.
  - (* a log call starts *)
    destruct (t_tasks (d_thr st i)) as [|[x|x d r] rest]; try discriminate.
    destruct (d_slot st x) as [| |g] eqn:Ex; try discriminate. destruct (ftarget d g r) as [h|] eqn:Ft; [|discriminate].
    injection E as <-. apply inv_thr; auto. cbn. exists g. repeat (split; [assumption|]). split; [|split]; eexists; reflexivity.
  - destruct (Nat.ltb_spec (length pre) (sl_len (f_prefix h))) as [Lt|]; [|discriminate]. injection E as <-.
    apply inv_thr; auto. cbn [t_at]. destruct (reading_wf _ _ _ _ _ _ _ _ Inv Ri) as (W & _).
    destruct Ri as (f & Ex & Ft & (t & E1) & E2 & E3). exists f. repeat (split; [assumption|]). split; [|auto].
    eapply read_next; eauto.
  - destruct (Nat.ltb_spec (length suf) (sl_len (f_suffix h))) as [Lt|]; [|discriminate]. injection E as <-.
    apply inv_thr; auto. cbn [t_at]. destruct (reading_wf _ _ _ _ _ _ _ _ Inv Ri) as (_ & W & _).
    destruct Ri as (f & Ex & Ft & E1 & (t & E2) & E3). exists f. repeat (split; [assumption|]). split; [|auto].
    eapply read_next; eauto.
  - destruct (Nat.ltb_spec (length grp) (sl_len (f_groups h))) as [Lt|]; [|discriminate]. injection E as <-.
    apply inv_thr; auto. cbn [t_at]. destruct (reading_wf _ _ _ _ _ _ _ _ Inv Ri) as (_ & _ & W).
    destruct Ri as (f & Ex & Ft & E1 & E2 & (t & E3)). exists f. repeat (split; [assumption|]).
    eapply read_next; eauto.
  - (* everything read *)
    destruct (Nat.eqb_spec (length pre) (sl_len (f_prefix h))) as [L1|]; [|discriminate].
    destruct (Nat.eqb_spec (length suf) (sl_len (f_suffix h))) as [L2|]; [|discriminate].
    destruct (Nat.eqb_spec (length grp) (sl_len (f_groups h))) as [L3|]; [|discriminate]. cbn [andb] in E. injection E as <-.
    apply inv_thr; auto; [exact I|]. apply Forall_app. split; [exact L|]. constructor; [|constructor].
    destruct (reading_wf _ _ _ _ _ _ _ _ Inv Ri) as (W1 & W2 & W3).
    destruct Ri as (f & Ex & Ft & (t1 & E1) & (t2 & E2) & (t3 & E3)).
    destruct C as (Vp & Vg & U & Fp & Fg & _ & _ & _ & Sl). specialize (Sl x). unfold slot_ok in Sl. rewrite Ex in Sl.
    destruct Sl as (_ & _ & _ & p & P & G). exists p, (fview_hdl (d_world st) f).
    split; [exact P|]. split; [exact G|]. cbn. rewrite vtarget_view, Ft. cbn. unfold fview. do 2 f_equal.
    + exact (whole _ _ _ _ E1 (gread_len _ _ W1) L1).
    + exact (whole _ _ _ _ E2 (gread_len _ _ W2) L2).
    + exact (whole _ _ _ _ E3 (gread_len _ _ W3) L3).
Qed.

Theorem drun_inv sched : forall st st', shared_once std D -> dinv st -> drun std grow n D sched st = Some st' -> dinv st'.
Proof.
  induction sched as [|[i a] sched IH]; intros st st' Disc Inv E; cbn in E.
  - injection E as <-. exact Inv.
  - destruct (dact std grow n D i a st) as [st1|] eqn:A; [|discriminate]. exact (IH st1 st' Disc (dact_inv _ _ _ _ Disc Inv A) E).
Qed.

Lemma start_inv T0 : dinv (dstart T0).
Proof.
  split; [|split].
  - exists (fun _ => []), (fun _ => []), (fun _ => false), (fun _ => false), (fun _ => false).
    split; [apply ledger_none|]. split; [apply ledger_none|]. split; [discriminate|]. intros x. reflexivity.
  - intros i. exact I.
  - constructor.
Qed.

Theorem gets_inv T0 st : shared_once std D -> gets_to std grow n D T0 st -> dinv st.
Proof. intros Disc (sched & E). eapply drun_inv; [exact Disc|apply start_inv|exact E]. Qed.

(** Whatever has been published reads as if derived alone. *)
Theorem published_reads T0 st x f : shared_once std D -> gets_to std grow n D T0 st -> d_slot st x = Published f ->
  exists p, path_of D x p /\ of_path std n p = Some (fview_hdl (d_world st) f).
Proof.
  intros Disc Ge Ex. destruct (gets_inv T0 st Disc Ge) as ((Vp & Vg & U & Fp & Fg & _ & _ & _ & Sl) & _).
  specialize (Sl x). unfold slot_ok in Sl. rewrite Ex in Sl. apply Sl.
Qed.

Theorem logged_reads T0 st l : shared_once std D -> gets_to std grow n D T0 st -> In l (d_log st) -> log_ok l.
Proof.
  intros Disc Ge I. destruct (gets_inv T0 st Disc Ge) as (_ & _ & L). rewrite Forall_forall in L. auto.
Qed.

(** ** Nobody waits *)

(** Slots and log calls of others are not touched, and nothing published is taken back. *)
Lemma dact_published i a st st' x f : dact std grow n D i a st = Some st' -> d_slot st x = Published f ->
  d_slot st' x = Published f.
Proof.
  intros E Ex. unfold dact in E.
  destruct a; destruct (t_at (d_thr st i)) as [|y|y d r h pre suf grp]; try discriminate;
    repeat (match type of E with
            | match ?t with _ => _ end = _ => destruct t eqn:?
            | (let (_, _) := ?t in _) = _ => destruct t eqn:?
            end; try discriminate);
    injection E as <-; cbn; auto; unfold set;
    match goal with |- context [Nat.eqb x ?y] => destruct (Nat.eqb_spec x y) as [->|]; auto; congruence end.
Qed.

Lemma drun_published sched : forall st st' x f, drun std grow n D sched st = Some st' -> d_slot st x = Published f ->
  d_slot st' x = Published f.
Proof.
  induction sched as [|[i a] sched IH]; intros st st' x f E Ex; cbn in E.
  - injection E as <-. exact Ex.
  - destruct (dact std grow n D i a st) as [st1|] eqn:A; [|discriminate]. eapply IH; eauto. eapply dact_published; eauto.
Qed.

Lemma drun_app s1 : forall s2 st, drun std grow n D (s1 ++ s2) st =
  match drun std grow n D s1 st with None => None | Some st' => drun std grow n D s2 st' end.
Proof.
  induction s1 as [|[i a] s1 IH]; intros s2 st; cbn; [reflexivity|]. destruct (dact std grow n D i a st); auto.
Qed.

(** A goroutine making a handler can always finish it by itself. *)
Theorem making_finishes i x : forall k st b,
  length (b_prest b) + length (b_srest b) + length (b_grest b) = k ->
  t_at (d_thr st i) = DMaking x -> d_slot st x = Building b ->
  exists sched st' f, (forall j a, In (j, a) sched -> j = i) /\ drun std grow n D sched st = Some st' /\
    d_slot st' x = Published f /\ t_at (d_thr st' i) = DIdle.
Proof.
  induction k as [|k IH]; intros st b Len Ti Ex.
  - destruct (b_prest b) eqn:E1; [|cbn in Len; lia]. destruct (b_srest b) eqn:E2; [|cbn in Len; lia].
    destruct (b_grest b) eqn:E3; [|cbn in Len; lia].
    eexists [(i, APublish)], _, _. split.
    { intros j a [E|[]]. congruence. }
    cbn [drun]. unfold dact. rewrite Ti, Ex, E1, E2, E3. split; [reflexivity|]. cbn. rewrite !set_same. auto.
  - assert (X : exists a st1 b1, dact std grow n D i a st = Some st1 /\
               length (b_prest b1) + length (b_srest b1) + length (b_grest b1) = k /\
               t_at (d_thr st1 i) = DMaking x /\ d_slot st1 x = Building b1).
    { destruct (b_prest b) as [|c cs] eqn:E1; [destruct (b_srest b) as [|c cs] eqn:E2; [destruct (b_grest b) as [|c cs] eqn:E3|]|].
      - cbn in Len. lia.
      - exists AGroups. unfold dact. rewrite Ti, Ex, E3. destruct (gappend _ grow _ _ c) as [h s].
        do 2 eexists. split; [reflexivity|]. cbn. rewrite set_same. split; [|split; [exact Ti|reflexivity]].
        cbn. rewrite E1, E2. cbn in *. lia.
      - exists ASuffix. unfold dact. rewrite Ti, Ex, E2. destruct (gappend _ grow _ _ c) as [h s].
        do 2 eexists. split; [reflexivity|]. cbn. rewrite set_same. split; [|split; [exact Ti|reflexivity]].
        cbn. rewrite E1. cbn in *. lia.
      - exists APrefix. unfold dact. rewrite Ti, Ex, E1. destruct (gappend _ grow _ _ c) as [h s].
        do 2 eexists. split; [reflexivity|]. cbn. rewrite set_same. split; [|split; [exact Ti|reflexivity]].
        cbn. cbn in *. lia. }
    destruct X as (a & st1 & b1 & A & Len1 & Ti1 & Ex1).
    destruct (IH st1 b1 Len1 Ti1 Ex1) as (sched & st' & f & O & Rn & Ex' & Ti').
    exists ((i, a) :: sched), st', f. split.
    { intros j a' [E|I]; [congruence|eapply O; eauto]. }
    cbn. rewrite A. auto.
Qed.

(** And a goroutine that logs can finish its call. *)
Theorem reading_finishes i x d r h : forall k st pre suf grp,
  t_at (d_thr st i) = DReading x d r h pre suf grp ->
  length pre <= sl_len (f_prefix h) -> length suf <= sl_len (f_suffix h) -> length grp <= sl_len (f_groups h) ->
  (sl_len (f_prefix h) - length pre) + (sl_len (f_suffix h) - length suf) + (sl_len (f_groups h) - length grp) = k ->
  exists sched st' hv, (forall j a, In (j, a) sched -> j = i) /\ drun std grow n D sched st = Some st' /\
    t_at (d_thr st' i) = DIdle /\ d_log st' = d_log st ++ [mklogged x d r hv].
Proof.
  induction k as [|k IH]; intros st pre suf grp Ti L1 L2 L3 Len.
  - eexists [(i, ALogged)], _, _. split.
    { intros j a [E|[]]. congruence. }
    cbn [drun]. unfold dact. rewrite Ti.
    rewrite (proj2 (Nat.eqb_eq _ _) (ltac:(lia) : length pre = sl_len (f_prefix h))).
    rewrite (proj2 (Nat.eqb_eq _ _) (ltac:(lia) : length suf = sl_len (f_suffix h))).
    rewrite (proj2 (Nat.eqb_eq _ _) (ltac:(lia) : length grp = sl_len (f_groups h))).
    cbn [andb]. split; [reflexivity|]. cbn. rewrite set_same. auto.
  - assert (X : exists a st1 pre1 suf1 grp1, dact std grow n D i a st = Some st1 /\ d_log st1 = d_log st /\
               t_at (d_thr st1 i) = DReading x d r h pre1 suf1 grp1 /\
               length pre1 <= sl_len (f_prefix h) /\ length suf1 <= sl_len (f_suffix h) /\ length grp1 <= sl_len (f_groups h) /\
               (sl_len (f_prefix h) - length pre1) + (sl_len (f_suffix h) - length suf1) + (sl_len (f_groups h) - length grp1) = k).
    { unfold dact. rewrite Ti.
      destruct (Nat.ltb (length pre) (sl_len (f_prefix h))) eqn:E1;
        [|destruct (Nat.ltb (length suf) (sl_len (f_suffix h))) eqn:E2;
          [|destruct (Nat.ltb (length grp) (sl_len (f_groups h))) eqn:E3]].
      - apply Nat.ltb_lt in E1 as E1'. exists AReadPrefix. rewrite ?E1. do 4 eexists. split; [reflexivity|]. split; [reflexivity|].
        cbn. rewrite set_same. split; [reflexivity|]. rewrite !app_length. cbn. lia.
      - apply Nat.ltb_ge in E1 as E1'. apply Nat.ltb_lt in E2 as E2'. exists AReadSuffix. rewrite ?E2. do 4 eexists.
        split; [reflexivity|]. split; [reflexivity|]. cbn. rewrite set_same. split; [reflexivity|]. rewrite !app_length. cbn. lia.
      - apply Nat.ltb_ge in E1 as E1', E2 as E2'. apply Nat.ltb_lt in E3 as E3'. exists AReadGroups. rewrite ?E3. do 4 eexists.
        split; [reflexivity|]. split; [reflexivity|]. cbn. rewrite set_same. split; [reflexivity|]. rewrite !app_length. cbn. lia.
      - apply Nat.ltb_ge in E1, E2, E3. lia. }
    destruct X as (a & st1 & pre1 & suf1 & grp1 & A & El & Ti1 & M1 & M2 & M3 & Len1).
    destruct (IH st1 pre1 suf1 grp1 Ti1 M1 M2 M3 Len1) as (sched & st' & hv & O & Rn & Ti' & El').
    exists ((i, a) :: sched), st', hv. split.
    { intros j a' [E|I]; [congruence|eapply O; eauto]. }
    cbn. rewrite A. split; [exact Rn|]. split; [exact Ti'|]. rewrite El', El. reflexivity.
Qed.

(** Nobody reads too far. *)
Definition bounded (ph : dphase) : Prop :=
  match ph with
  | DReading _ _ _ h pre suf grp =>
      length pre <= sl_len (f_prefix h) /\ length suf <= sl_len (f_suffix h) /\ length grp <= sl_len (f_groups h)
  | _ => True
  end.

Lemma dact_bounded i a st st' : (forall j, bounded (t_at (d_thr st j))) -> dact std grow n D i a st = Some st' ->
  forall j, bounded (t_at (d_thr st' j)).
Proof.
  intros Bd E. unfold dact in E. pose proof (Bd i) as Bi.
  assert (K : forall t, bounded (t_at t) -> forall j, bounded (t_at (set (d_thr st) i t j))).
  { intros t Bt j. unfold set. destruct (Nat.eqb j i); auto. }
  destruct (t_at (d_thr st i)) as [|y|y d r h pre suf grp].
  - destruct a; try discriminate; destruct (t_tasks (d_thr st i)) as [|[z|z d r] rest]; try discriminate.
    + destruct (d_slot st z); try discriminate. destruct (begin std n D st z) as [[w' b]|]; [|discriminate]. injection E as <-. apply K. exact I.
    + destruct (d_slot st z); try discriminate. destruct (ftarget d f r); [|discriminate]. injection E as <-. apply K. cbn. lia.
  - destruct a; try discriminate; destruct (d_slot st y) as [|b|]; try discriminate.
    + destruct (b_prest b); [discriminate|]. destruct (gappend NUL grow _ _ _). injection E as <-. exact Bd.
    + destruct (b_srest b); [discriminate|]. destruct (gappend NUL grow _ _ _). injection E as <-. exact Bd.
    + destruct (b_grest b); [discriminate|]. destruct (gappend (nil : bytes) grow _ _ _). injection E as <-. exact Bd.
    + destruct (b_prest b), (b_srest b), (b_grest b); try discriminate. injection E as <-. apply K. exact I.
  - cbn in Bi. destruct a; try discriminate.
    + destruct (Nat.ltb_spec (length pre) (sl_len (f_prefix h))); [|discriminate]. injection E as <-. apply K. cbn. rewrite app_length. cbn. lia.
    + destruct (Nat.ltb_spec (length suf) (sl_len (f_suffix h))); [|discriminate]. injection E as <-. apply K. cbn. rewrite app_length. cbn. lia.
    + destruct (Nat.ltb_spec (length grp) (sl_len (f_groups h))); [|discriminate]. injection E as <-. apply K. cbn. rewrite app_length. cbn. lia.
    + match type of E with (if ?b then _ else _) = _ => destruct b; [|discriminate] end. injection E as <-. apply K. exact I.
Qed.

Lemma reading_bounds T0 st i x d r h pre suf grp : gets_to std grow n D T0 st ->
  t_at (d_thr st i) = DReading x d r h pre suf grp ->
  length pre <= sl_len (f_prefix h) /\ length suf <= sl_len (f_suffix h) /\ length grp <= sl_len (f_groups h).
Proof.
  intros (sched & E) Ti.
  assert (K : forall sched st0, (forall j, bounded (t_at (d_thr st0 j))) -> drun std grow n D sched st0 = Some st ->
            forall j, bounded (t_at (d_thr st j))).
  { clear. induction sched as [|[i a] sched IH]; intros st0 Bd E; cbn in E.
    - injection E as <-. exact Bd.
    - destruct (dact std grow n D i a st0) as [st1|] eqn:A; [|discriminate].
      exact (IH st1 (dact_bounded i a st0 st1 Bd A) E). }
  specialize (K sched (dstart T0) (fun _ => I) E i). rewrite Ti in K. exact K.
Qed.

End Proofs.
