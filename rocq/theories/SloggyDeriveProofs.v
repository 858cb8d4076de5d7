(** Derivation of sloggy handlers by several goroutines. *)

From Coq Require Import Ascii String List ZArith NArith Bool Arith Lia.
From Verif Require Import Bytes Slog SpecLog SpecSloggy GoQuote History HistoryProofs Slices GroupSlices
  Sloggy SloggyProofs SloggyHandler FlashHeap SloggyHeap SloggyHeapProofs FlashDerive SpecDerive Ledger FlashDeriveProofs
  SloggyDerive SpecSloggyDerive.
Import ListNotations.

Lemma path_unique D x p p' : path_of D x p -> path_of D x p' -> p' = p.
Proof.
  intros P. revert p'. induction P as [x o e E|x y o p E P IH]; intros p' P'; inversion P'; subst; try congruence.
  rewrite E in H. injection H as <- <-. rewrite (IH _ H0). reflexivity.
Qed.

Section Proofs.
Variable std : stdlib.
Variable grow : policy.
Variable n : nat.
Variable D : nat -> def.

(** ** Groups *)

Definition rooted (x : nat) : bool :=
  match D x with
  | DNew _ _ => true
  | DFrom _ (WithGroup (_ :: _)) => true
  | DFrom _ _ => false
  end.

Lemma rooted_origin x : rooted x = true -> origin D x x.
Proof.
  unfold rooted. destruct (D x) as [o e|y [l|[|c nm]]] eqn:E; try discriminate; intros _.
  - eapply origin_new; eauto.
  - eapply origin_group; eauto.
Qed.

Lemma origin_names x z : origin D x z -> forall p, path_of D x p -> exists p', path_of D z p' /\ names (p_ops p') = names (p_ops p).
Proof.
  induction 1 as [x o e E|x y c m E|x y l z E O IH|x y z E O IH]; intros p P; eauto.
  - inversion P as [|x' y' o p0 E' P0]; subst; [congruence|]. rewrite E in E'. injection E' as <- <-.
    destruct (IH p0 P0) as (p' & P' & N). exists p'. split; [exact P'|]. rewrite N. cbn [p_ops extend_path].
    unfold names. rewrite flat_map_app. cbn. rewrite app_nil_r. reflexivity.
  - inversion P as [|x' y' o p0 E' P0]; subst; [congruence|]. rewrite E in E'. injection E' as <- <-.
    destruct (IH p0 P0) as (p' & P' & N). exists p'. split; [exact P'|]. rewrite N. cbn [p_ops extend_path].
    unfold names. rewrite flat_map_app. cbn. rewrite app_nil_r. reflexivity.
Qed.

Definition grp_of (s : sslot) : option gslice :=
  match s with SAbsent => None | SBuilding b => Some (sb_grp b) | SPublished f => Some (q_groups (qinner f)) end.
Definition grest_of (s : sslot) : list (list bytes) :=
  match s with SBuilding b => sb_grest b | _ => [] end.
Definition is_pub (s : sslot) : bool := match s with SPublished _ => true | _ => false end.

Definition gslot (sl : nat -> sslot) (V : nat -> list bytes) (U F : nat -> bool) (x : nat) : Prop :=
  match grp_of (sl x) with
  | None => U x = false
  | Some s =>
      (U x = true -> is_pub (sl x) = true /\ exists x' y c m, D x' = DFrom y (WithGroup (c :: m)) /\ origin D y x /\ sl x' <> SAbsent) /\
      (sl_len s = 0 -> s = nil_slice) /\
      (grest_of (sl x) <> [] -> F x = true /\ rooted x = true) /\
      (exists p, path_of D x p /\ (rooted x = true -> names (p_ops p) = V x ++ concat (grest_of (sl x)))) /\
      (rooted x = false -> exists z fz, origin D x z /\ rooted z = true /\ sl z = SPublished fz /\ s = q_groups (qinner fz))
  end.

Definition gpart (h : heap bytes) (sl : nat -> sslot) : Prop :=
  exists V U F, ledger _ h (fun x => if rooted x then grp_of (sl x) else None) V U F /\ forall x, gslot sl V U F x.

(** One name changes. *)
Lemma gpart_step sl (h' : heap bytes) x s' V U F V' U' F' :
  (forall y, gslot sl V U F y) ->
  (forall f, sl x <> SPublished f) -> s' <> SAbsent ->
  ledger _ h' (fun y => if rooted y then grp_of (set sl x s' y) else None) V' U' F' ->
  (forall y, y <> x -> V' y = V y /\ (F y = true -> F' y = true) /\
     (U' y = true -> U y = true \/ is_pub (sl y) = true /\ exists z c m, D x = DFrom z (WithGroup (c :: m)) /\ origin D z y)) ->
  gslot (set sl x s') V' U' F' x ->
  gpart h' (set sl x s').
Proof.
  intros G Nx Ns L K Gx. exists V', U', F'. split; [exact L|]. intros y. destruct (Nat.eq_dec y x) as [->|Ny]; [exact Gx|].
  specialize (G y). destruct (K y Ny) as (E1 & E2 & E3). unfold gslot in *. rewrite set_other by auto.
  assert (Ne : forall z, sl z <> SAbsent -> set sl x s' z <> SAbsent).
  { intros z Hz. unfold set. destruct (Nat.eqb z x); auto. }
  destruct (sl y) as [|b|f] eqn:Ey; cbn [grp_of grest_of is_pub] in *.
  - destruct (U' y) eqn:Eu; [|reflexivity]. destruct (E3 eq_refl) as [X|[X _]]; congruence.
  - destruct G as (G1 & G2 & G3 & (p & P & G4) & G5). split; [|split; [|split; [|split]]]; auto.
    + intros X. destruct (E3 X) as [X'|[X' _]]; [|discriminate]. destruct (G1 X') as [X2 _]. discriminate.
    + intros X. destruct (G3 X). auto.
    + exists p. split; [exact P|]. rewrite E1. exact G4.
    + intros R. destruct (G5 R) as (z & fz & O & Rz & Ez & Es). exists z, fz. rewrite set_other; [auto|]. intros ->. exact (Nx fz Ez).
  - destruct G as (G1 & G2 & G3 & (p & P & G4) & G5). split; [|split; [|split; [|split]]]; auto.
    + intros X. split; [reflexivity|]. destruct (E3 X) as [X'|[_ (z & c & m & Dx & O)]].
      * destruct (G1 X') as (_ & x' & y' & c & m & Dx & O & Na). exists x', y', c, m. auto.
      * exists x, z, c, m. rewrite set_same. auto.
    + exists p. split; [exact P|]. rewrite E1. exact G4.
    + intros R. destruct (G5 R) as (z & fz & O & Rz & Ez & Es). exists z, fz. rewrite set_other; [auto|]. intros ->. exact (Nx fz Ez).
Qed.

(** Changes that leave the groups of [x] alone. *)
Lemma gpart_same h sl x s' : gpart h sl -> (forall f, sl x <> SPublished f) -> sl x <> SAbsent -> s' <> SAbsent ->
  grp_of s' = grp_of (sl x) -> grest_of s' = grest_of (sl x) -> gpart h (set sl x s').
Proof.
  intros (V & U & F & L & G) Nx Na Ns Eg Er. eapply (gpart_step sl h x s' V U F V U F); auto.
  - eapply ledger_ext; [exact L| | | |]; auto. intros y. unfold set. destruct (Nat.eqb_spec y x) as [->|]; [rewrite Eg|]; reflexivity.
  - specialize (G x). unfold gslot in *. rewrite set_same, Eg, Er. destruct (grp_of (sl x)) as [s|] eqn:E; [|exact G].
    destruct G as (G1 & G2 & G3 & G4 & G5). split; [|split; [|split; [|split]]]; auto.
    + intros X. destruct (G1 X) as [X' _]. destruct (sl x); try discriminate. destruct (Nx f); reflexivity.
    + intros R. destruct (G5 R) as (z & fz & O & Rz & Ez & Es). exists z, fz. rewrite set_other; [auto|]. intros ->. exact (Nx fz Ez).
Qed.

Lemma gpart_groups st b x h g c cs : gpart (ss_names st) (ss_slot st) -> ss_slot st x = SBuilding b -> sb_grest b = c :: cs ->
  gappend (nil : bytes) grow (ss_names st) (sb_grp b) c = (h, g) ->
  forall s', grp_of s' = Some g -> grest_of s' = cs -> is_pub s' = false -> gpart h (set (ss_slot st) x s').
Proof.
  intros (V & U & F & L & G) Sx Er Eg s' Es' Ec Np. pose proof (G x) as Gx. unfold gslot in Gx. rewrite Sx in Gx. cbn [grp_of grest_of] in Gx.
  destruct Gx as (G1 & G2 & G3 & (p & P & G4) & G5). rewrite Er in *. destruct (G3 ltac:(discriminate)) as [Fx Rx].
  assert (Ux : U x = false). { destruct (U x); [|reflexivity]. destruct (G1 eq_refl). discriminate. }
  pose proof (ledger_append _ (nil : bytes) grow _ _ _ _ _ x (sb_grp b) c L ltac:(cbv beta; rewrite Rx, Sx; reflexivity) Fx Ux) as L'.
  assert (Nil : sl_len (snd (gappend (nil : bytes) grow (ss_names st) (sb_grp b) c)) = 0 ->
            snd (gappend (nil : bytes) grow (ss_names st) (sb_grp b) c) = nil_slice).
  { unfold gappend. destruct (Nat.leb_spec (sl_len (sb_grp b) + length c) (sl_cap (sb_grp b))) as [Le|Le]; cbn; intros Z.
    - rewrite G2 in * by lia. cbn in *. rewrite Z. reflexivity.
    - lia. }
  rewrite Eg in L', Nil. cbn in Nil.
  eapply (gpart_step _ h x s' V U F (set V x (V x ++ c)) U F); auto.
  - intros f. congruence.
  - destruct s'; discriminate.
  - eapply ledger_ext; [exact L'| | | |]; auto. intros y. unfold set. destruct (Nat.eqb_spec y x) as [->|]; [rewrite Rx, Es'|]; reflexivity.
  - intros y Ny. rewrite set_other by auto. auto.
  - unfold gslot. rewrite set_same, Es', Ec. split; [|split; [|split; [|split]]]; auto; try congruence.
    exists p. split; [exact P|]. intros _. rewrite set_same, <- app_assoc. apply G4. exact Rx.
Qed.

(** The origin of a published handler. *)
Lemma gpart_origin sl V U F y g : (forall x, gslot sl V U F x) -> sl y = SPublished g ->
  exists z fz, origin D y z /\ rooted z = true /\ sl z = SPublished fz /\ q_groups (qinner g) = q_groups (qinner fz).
Proof.
  intros G Sy. pose proof (G y) as Gy. unfold gslot in Gy. rewrite Sy in Gy. cbn in Gy. destruct Gy as (_ & _ & _ & _ & G5).
  destruct (rooted y) eqn:R; [|auto]. exists y, g. repeat (split; [auto using rooted_origin|]). reflexivity.
Qed.

Lemma gpart_begin st x b : opened_once D -> gpart (ss_names st) (ss_slot st) -> ss_slot st x = SAbsent ->
  sbegin_at std n D st x = Some b -> gpart (ss_names st) (set (ss_slot st) x (SBuilding b)).
Proof.
  intros Once (V & U & F & L & G) Sx Bg. pose proof (G x) as Gx. unfold gslot in Gx. rewrite Sx in Gx. cbn in Gx.
  unfold sbegin_at in Bg. destruct (D x) as [o e|y o] eqn:Dx.
  { injection Bg as <-. assert (Rx : rooted x = true) by (unfold rooted; rewrite Dx; reflexivity).
    pose proof (ledger_zero _ _ _ _ _ _ x nil_slice false L ltac:(cbv beta; rewrite Rx, Sx; reflexivity) (wf_nil _ _) eq_refl ltac:(discriminate)) as L'.
    eapply (gpart_step _ _ x _ V U F (set V x []) (set U x false) (set F x false)); auto.
    - congruence.
    - discriminate.
    - eapply ledger_ext; [exact L'| | | |]; auto. intros z. unfold set. destruct (Nat.eqb_spec z x) as [->|]; [rewrite Rx|]; reflexivity.
    - intros z Nz. rewrite !set_other by auto. auto.
    - unfold gslot. rewrite !set_same. cbn. split; [discriminate|]. split; [auto|]. split; [congruence|]. split; [|congruence].
      eexists. split; [apply path_new; exact Dx|]. intros _. reflexivity. }
  destruct (ss_slot st y) as [| |g] eqn:Sy; try discriminate.
  destruct (gpart_origin _ _ _ _ y g G Sy) as (z & fz & Oz & Rz & Sz & Ez).
  pose proof (G y) as Gy. unfold gslot in Gy. rewrite Sy in Gy. cbn in Gy. destruct Gy as (_ & Nil & _ & (p & P & _) & _).
  assert (Shared : rooted x = false -> origin D x z -> sb_grp b = q_groups (qinner g) -> sb_grest b = [] ->
            gpart (ss_names st) (set (ss_slot st) x (SBuilding b))).
  { intros Rx Ox Eb Er. eapply (gpart_step _ _ x _ V U F V U F); auto.
    - congruence.
    - discriminate.
    - eapply ledger_ext; [exact L| | | |]; auto. intros w. unfold set. destruct (Nat.eqb_spec w x) as [->|]; [rewrite Rx|]; reflexivity.
    - unfold gslot. rewrite !set_same. cbn. rewrite Er. split; [congruence|]. split; [rewrite Eb; exact Nil|]. split; [congruence|]. split.
      + exists (extend_path p o). split; [eapply path_from; eauto|congruence].
      + intros _. exists z, fz. rewrite set_other by congruence. repeat (split; [auto|]). congruence. }
  destruct o as [l|[|c m]].
  - unfold sbegin_attrs in Bg. destruct (sadd_attributes _ _ _ _ l) as [[c' ok]|]; [|discriminate]. injection Bg as <-.
    apply Shared; auto; [unfold rooted; rewrite Dx; reflexivity|eapply origin_attrs; eauto].
  - injection Bg as <-. apply Shared; auto; [unfold rooted; rewrite Dx; reflexivity|eapply origin_none; eauto].
  - injection Bg as <-. clear Shared. assert (Rx : rooted x = true) by (unfold rooted; rewrite Dx; reflexivity).
    pose proof (G z) as Gz. unfold gslot in Gz. rewrite Sz in Gz. cbn in Gz. destruct Gz as (Uz & Nilz & _ & (pz & Pz & Nz) & _).
    specialize (Nz Rz). rewrite app_nil_r in Nz.
    assert (Lz : (fun x => if rooted x then grp_of (ss_slot st x) else None) z = Some (q_groups (qinner g))).
    { cbv beta. rewrite Rz, Sz, Ez. reflexivity. }
    assert (Un : sl_len (q_groups (qinner g)) > 0 -> U z = false).
    { intros Pos. destruct (U z) eqn:E; [|reflexivity]. exfalso.
      destruct (Uz eq_refl) as (_ & x' & y' & c' & m' & Dx' & O' & Na).
      assert (Em : names (p_ops pz) = []). { eapply (Once x x' y y' c m c' m' z pz); eauto. congruence. }
      destruct (ledger_read _ _ _ _ _ _ z _ L Lz) as [W R]. apply gread_length in W. rewrite R, <- Nz, Em in W. cbn in W. lia. }
    pose proof (begin_same grow (nil : bytes) _ _ _ _ _ x z _ true L ltac:(cbv beta; rewrite Rx, Sx; reflexivity) Lz Un
                  ltac:(intros _ Z; rewrite (Nil Z); reflexivity)) as L'.
    eapply (gpart_step _ _ x _ V U F (set V x (V z)) (set U z true) (set F x true)); auto.
    + congruence.
    + discriminate.
    + eapply ledger_ext; [exact L'| | | |]; auto. intros w. unfold set. destruct (Nat.eqb_spec w x) as [->|]; [rewrite Rx|]; reflexivity.
    + intros w Nw. rewrite !(set_other _ x) by auto. repeat (split; [reflexivity || auto|]). unfold set.
      destruct (Nat.eqb_spec w z) as [->|]; [|auto]. intros _. right. rewrite Sz. split; [reflexivity|]. exists y, c, m. auto.
    + unfold gslot. rewrite !set_same. cbn. rewrite set_other by congruence. split; [congruence|]. split; [exact Nil|].
      split; [auto|]. split; [|congruence].
      exists (extend_path p (WithGroup (c :: m))). split; [eapply path_from; eauto|]. intros _. rewrite <- Nz.
      destruct (origin_names y z Oz p P) as (p' & P' & En). rewrite (path_unique _ _ _ _ Pz P') in En. rewrite En.
      cbn [p_ops extend_path]. rewrite names_snoc. reflexivity.
Qed.

Lemma gpart_step_by i a st st' : opened_once D -> gpart (ss_names st) (ss_slot st) ->
  sstep_by std grow n D i a st = Some st' -> gpart (ss_names st') (ss_slot st').
Proof.
  intros Once G E. unfold sstep_by in E. destruct (st_at (ss_thr st i)) as [|x|x d r h pre suf grp].
  - destruct a; try discriminate; destruct (st_tasks (ss_thr st i)) as [|[x|x d r] rest]; try discriminate.
    + destruct (ss_slot st x) eqn:Sx; try discriminate. destruct (sbegin_at std n D st x) as [b|] eqn:Bg; [|discriminate].
      injection E as <-. cbn. apply gpart_begin; auto.
    + destruct (ss_slot st x); try discriminate. destruct (starget d f r); [|discriminate]. injection E as <-. exact G.
  - destruct (ss_slot st x) as [|b|] eqn:Sx; try discriminate.
    assert (W : match swrite grow st a b with None => None | Some (bh, gh, b') => Some (sset_slot st bh gh x (SBuilding b')) end = Some st' ->
              gpart (ss_names st') (ss_slot st')).
    { intros E'. destruct (swrite grow st a b) as [[[bh gh] b']|] eqn:Ew; [|discriminate]. injection E' as <-. cbn [ss_names ss_slot sset_slot].
      assert (Same : gh = ss_names st -> sb_grp b' = sb_grp b -> sb_grest b' = sb_grest b -> gpart gh (set (ss_slot st) x (SBuilding b'))).
      { intros -> E1 E2. apply gpart_same; auto; try congruence; rewrite Sx; cbn; congruence. }
      unfold swrite in Ew. destruct a; try discriminate.
      - destruct (sb_pcopy b); [|discriminate]. destruct (gappend _ _ _ _ _) as [h p]. injection Ew as <- <- <-. apply Same; reflexivity.
      - destruct (sb_pcopy b); [discriminate|]. destruct (sb_prest b); [discriminate|]. destruct (gappend _ _ _ _ _) as [h p]. injection Ew as <- <- <-. apply Same; reflexivity.
      - destruct (sb_scopy b); [|discriminate]. destruct (gappend _ _ _ _ _) as [h p]. injection Ew as <- <- <-. apply Same; reflexivity.
      - destruct (sb_scopy b); [discriminate|]. destruct (sb_srest b); [discriminate|]. destruct (gappend _ _ _ _ _) as [h p]. injection Ew as <- <- <-. apply Same; reflexivity.
      - destruct (sb_grest b) as [|c cs] eqn:Er; [discriminate|]. destruct (gappend (nil : bytes) grow (ss_names st) (sb_grp b) c) as [h g] eqn:Eg.
        injection Ew as <- <- <-. eapply gpart_groups; eauto. }
    destruct a; try (exact (W E)). clear W. destruct (complete b) eqn:Co; [|discriminate]. injection E as <-. cbn.
    apply gpart_same; auto; try congruence; rewrite Sx; cbn.
    + unfold sbuilt. destruct (sb_wrap b) as [[nm f]|]; reflexivity.
    + unfold complete in Co. destruct (sb_pcopy b), (sb_prest b), (sb_scopy b), (sb_srest b), (sb_grest b); try discriminate. reflexivity.
  - destruct a; try discriminate; match type of E with (if ?b then _ else _) = _ => destruct b; [|discriminate] end; injection E as <-; exact G.
Qed.

(** The groups of published handlers are right. *)
Definition gok (h : heap bytes) (sl : nat -> sslot) : Prop := forall x f p, sl x = SPublished f -> path_of D x p ->
  wf h (q_groups (qinner f)) /\ gread h (q_groups (qinner f)) = names (p_ops p).

Lemma gpart_ok h sl : gpart h sl -> gok h sl.
Proof.
  intros (V & U & F & L & G) x f p Sx P. destruct (gpart_origin _ _ _ _ x f G Sx) as (z & fz & Oz & Rz & Sz & ->).
  pose proof (G z) as Gz. unfold gslot in Gz. rewrite Sz in Gz. cbn in Gz. destruct Gz as (_ & _ & _ & (pz & Pz & Nz) & _).
  specialize (Nz Rz). rewrite app_nil_r in Nz.
  destruct (ledger_read _ _ _ _ _ _ z _ L ltac:(cbv beta; rewrite Rz, Sz; reflexivity)) as [W R]. split; [exact W|]. rewrite R, <- Nz.
  destruct (origin_names x z Oz p P) as (p' & P' & En). rewrite (path_unique _ _ _ _ Pz P') in En. exact En.
Qed.

Lemma gpart_start T0 : gpart (ss_names (sstart T0)) (ss_slot (sstart T0)).
Proof.
  exists (fun _ => []), (fun _ => false), (fun _ => false). split.
  - eapply ledger_ext; [apply ledger_none| | | |]; auto. intros x. cbn. destruct (rooted x); reflexivity.
  - intros x. reflexivity.
Qed.

(** ** Bytes *)

(** The prefix ([true]) or the suffix of a slot, and whether it is still written to. *)
Definition bsl (s : sslot) (sd : bool) : option gslice :=
  match s with
  | SAbsent => None
  | SBuilding b => Some (if sd then sb_pre b else sb_suf b)
  | SPublished f => Some (if sd then q_prefix (qinner f) else q_suffix (qinner f))
  end.

Definition bgrow (s : sslot) (sd : bool) : bool :=
  match s with
  | SBuilding b =>
      match (if sd then sb_pcopy b else sb_scopy b), (if sd then sb_prest b else sb_srest b) with
      | None, [] => false
      | _, _ => true
      end
  | _ => false
  end.

Definition bpart (h : heap ascii) (sl : nat -> sslot) : Prop :=
  (forall x sd s, bsl (sl x) sd = Some s -> wf h s) /\
  (forall x sd s y sd' t, bgrow (sl x) sd = true -> bsl (sl x) sd = Some s -> bsl (sl y) sd' = Some t ->
     (y, sd') <> (x, sd) -> apart t s).

Lemma apart_sym s t : apart s t -> apart t s.
Proof. unfold apart. intros [H|[H|H]]; auto. Qed.

Lemma bpart_append h sl x sd s c h' s1 s' : bpart h sl -> bsl (sl x) sd = Some s -> bgrow (sl x) sd = true ->
  gappend NUL grow h s c = (h', s1) -> bsl s' sd = Some s1 -> bsl s' (negb sd) = bsl (sl x) (negb sd) ->
  (bgrow s' (negb sd) = true -> bgrow (sl x) (negb sd) = true) ->
  bpart h' (set sl x s') /\ gread h' s1 = gread h s ++ c /\
  (forall y sd' t, bsl (sl y) sd' = Some t -> (y, sd') <> (x, sd) -> gread h' t = gread h t).
Proof.
  intros [W A] Bx Gx Ea B1 B2 G2. pose proof (append_ok _ NUL grow h s c (W _ _ _ Bx)) as Ok. rewrite Ea in Ok.
  destruct Ok as (W1 & R1 & _).
  assert (Oth : forall y sd' t, bsl (sl y) sd' = Some t -> (y, sd') <> (x, sd) -> wf h' t /\ gread h' t = gread h t /\ apart t s1).
  { intros y sd' t By Ne. pose proof (apart_append NUL grow h s t c (W _ _ _ Bx) (W _ _ _ By) (A x sd s y sd' t Gx Bx By Ne)) as X.
    rewrite Ea in X. exact X. }
  (* what the other keys hold afterwards they held before *)
  assert (Bk : forall y sd' t, bsl (set sl x s' y) sd' = Some t -> (y, sd') = (x, sd) /\ t = s1 \/ (y, sd') <> (x, sd) /\ bsl (sl y) sd' = Some t).
  { intros y sd' t. unfold set. destruct (Nat.eqb_spec y x) as [->|Ny].
    - destruct (Bool.bool_dec sd' sd) as [->|Ns].
      + rewrite B1. intros E. injection E as <-. auto.
      + assert (sd' = negb sd) as -> by (destruct sd, sd'; cbn; congruence). rewrite B2. intros E. right. split; [congruence|exact E].
    - intros E. right. split; [congruence|exact E]. }
  assert (Gk : forall y sd', (y, sd') <> (x, sd) -> bgrow (set sl x s' y) sd' = true -> bgrow (sl y) sd' = true).
  { intros y sd' Ne. unfold set. destruct (Nat.eqb_spec y x) as [->|Ny]; [|auto].
    assert (sd' = negb sd) as -> by (destruct sd, sd'; cbn; congruence). exact G2. }
  split; [|split; [exact R1|intros y sd' t By Ne; apply (Oth y sd' t By Ne)]].
  split.
  - intros y sd' t By. destruct (Bk _ _ _ By) as [[_ ->]|[Ne By0]]; [exact W1|apply (Oth _ _ _ By0 Ne)].
  - intros y sd1 t z sd2 t' Gy By Bz Ne. destruct (Bk _ _ _ By) as [[Ey ->]|[Ny By0]].
    + destruct (Bk _ _ _ Bz) as [[Ez ->]|[Nz Bz0]]; [congruence|]. apply (Oth _ _ _ Bz0). congruence.
    + destruct (Bk _ _ _ Bz) as [[Ez ->]|[Nz Bz0]].
      * apply apart_sym. apply (Oth _ _ _ By0). congruence.
      * apply (A y sd1 t z sd2 t'); auto.
Qed.

(** Slices that nobody writes to are added. *)
Lemma bpart_begin h sl x s' : bpart h sl -> sl x = SAbsent ->
  (forall sd s, bsl s' sd = Some s -> s = nil_slice \/
     bgrow s' sd = false /\ exists y f, sl y = SPublished f /\ bsl (sl y) sd = Some s) ->
  bpart h (set sl x s').
Proof.
  intros [W A] Sx H. split.
  - intros y sd t. unfold set. destruct (Nat.eqb_spec y x) as [->|]; [|apply W].
    intros E. destruct (H _ _ E) as [->|(_ & z & f & _ & Ez)]; [apply wf_nil|eapply W; eauto].
  - intros y sd t z sd' t'. unfold set. destruct (Nat.eqb_spec y x) as [->|Ny].
    + intros Gy By Bz Ne. destruct (H _ _ By) as [->|[G _]]; [right; left; reflexivity|congruence].
    + destruct (Nat.eqb_spec z x) as [->|Nz]; [|apply A].
      intros Gy By Bz Ne. destruct (H _ _ Bz) as [->|(_ & u & f & Eu & Bu)]; [left; reflexivity|].
      apply (A y sd t u sd' t'); auto. intros E. injection E as -> ->. rewrite Eu in Gy. discriminate.
Qed.

Lemma bpart_publish h sl x s' : bpart h sl -> (forall sd, bsl s' sd = bsl (sl x) sd) ->
  (forall sd, bgrow s' sd = true -> bgrow (sl x) sd = true) -> bpart h (set sl x s').
Proof.
  intros [W A] E G. assert (E' : forall y sd, bsl (set sl x s' y) sd = bsl (sl y) sd).
  { intros y sd. unfold set. destruct (Nat.eqb_spec y x) as [->|]; auto. }
  assert (G' : forall y sd, bgrow (set sl x s' y) sd = true -> bgrow (sl y) sd = true).
  { intros y sd. unfold set. destruct (Nat.eqb_spec y x) as [->|]; auto. }
  split.
  - intros y sd s. rewrite E'. apply W.
  - intros y sd s z sd' t Gy. rewrite !E'. apply A. auto.
Qed.

(** ** Handlers *)

Definition chain_ok (sl : nat -> sslot) (o : options) (f : qhdl) : Prop :=
  forall h, In h (qchain f) -> q_options h = o /\ exists y fy, sl y = SPublished fy /\ h = qinner fy.

Definition cp (h : heap ascii) (o : option gslice) : bytes := match o with None => [] | Some s => gread h s end.

Definition pub_copy (sl : nat -> sslot) (sd : bool) (o : option gslice) : Prop :=
  match o with None => True | Some s => exists y f, sl y = SPublished f /\ bsl (sl y) sd = Some s end.

(** What [b] is going to be. *)
Definition wanted (bh : heap ascii) (b : sbuild) (p : path) : shandler :=
  {| sh_options := sb_options b;
     sh_prefix := gread bh (sb_pre b) ++ cp bh (sb_pcopy b) ++ concat (sb_prest b);
     sh_suffix := gread bh (sb_suf b) ++ cp bh (sb_scopy b) ++ concat (sb_srest b);
     sh_groups := names (p_ops p) |}.

Definition vslot (bh : heap ascii) (gh : heap bytes) (sl : nat -> sslot) (x : nat) : Prop :=
  match sl x with
  | SAbsent => True
  | SBuilding b =>
      pub_copy sl true (sb_pcopy b) /\ pub_copy sl false (sb_scopy b) /\
      exists p, path_of D x p /\ sb_options b = p_options p /\
        match sb_wrap b with None => True | Some (_, f) => chain_ok sl (p_options p) f end /\
        (group_safe D p -> exists g, of_spath std n p = Some g /\ norm (sinner g) = norm (wanted bh b p) /\
           match sb_wrap b with
           | None => g = SBase (sinner g)
           | Some (nm, f) => exists gp, g = SGroup (sinner g) nm gp /\ norm_hdl gp = norm_hdl (qview_hdl (sworld bh gh) f)
           end)
  | SPublished f =>
      exists p, path_of D x p /\ chain_ok sl (p_options p) f /\
        (group_safe D p -> exists g, of_spath std n p = Some g /\ norm_hdl g = norm_hdl (qview_hdl (sworld bh gh) f))
  end.

(** Published handlers read the same. *)
Definition same_bytes (sl : nat -> sslot) (bh bh' : heap ascii) : Prop :=
  forall y f sd s, sl y = SPublished f -> bsl (sl y) sd = Some s -> gread bh' s = gread bh s.

Lemma view_same_h bh gh sl bh' gh' sl' p f h :
  (forall y, vslot bh gh sl y) -> (forall y f, sl y = SPublished f -> sl' y = SPublished f) ->
  same_bytes sl bh bh' -> (opened_once D -> gok gh sl) -> (opened_once D -> gok gh' sl') ->
  chain_ok sl (p_options p) f -> group_safe D p -> In h (qchain f) ->
  norm (qview (sworld bh' gh') h) = norm (qview (sworld bh gh) h).
Proof.
  intros V Pub Sb G G' C S I. destruct (C h I) as (Eo & y & fy & Ey & ->). unfold norm, qview. cbn.
  rewrite (Sb y fy true _ Ey ltac:(rewrite Ey; reflexivity)), (Sb y fy false _ Ey ltac:(rewrite Ey; reflexivity)). f_equal.
  destruct (o_replace (q_options (qinner fy))) eqn:Er; [|reflexivity]. destruct S as [S|S]; [congruence|].
  pose proof (V y) as Vy. unfold vslot in Vy. rewrite Ey in Vy. destruct Vy as (py & Py & _).
  destruct (G S y fy py Ey Py) as [_ ->]. destruct (G' S y fy py (Pub _ _ Ey) Py) as [_ ->]. reflexivity.
Qed.

Lemma view_same bh gh sl bh' gh' sl' p f :
  (forall y, vslot bh gh sl y) -> (forall y f, sl y = SPublished f -> sl' y = SPublished f) ->
  same_bytes sl bh bh' -> (opened_once D -> gok gh sl) -> (opened_once D -> gok gh' sl') ->
  chain_ok sl (p_options p) f -> group_safe D p ->
  norm_hdl (qview_hdl (sworld bh' gh') f) = norm_hdl (qview_hdl (sworld bh gh) f).
Proof.
  intros V Pub Sb G G' C S. apply qview_same. intros h I. eapply view_same_h; eauto.
Qed.

Lemma wanted_same bh bh' b p : gread bh' (sb_pre b) = gread bh (sb_pre b) -> gread bh' (sb_suf b) = gread bh (sb_suf b) ->
  cp bh' (sb_pcopy b) = cp bh (sb_pcopy b) -> cp bh' (sb_scopy b) = cp bh (sb_scopy b) -> wanted bh' b p = wanted bh b p.
Proof. unfold wanted. intros -> -> -> ->. reflexivity. Qed.

Lemma cp_same sl bh bh' sd o : same_bytes sl bh bh' -> pub_copy sl sd o -> cp bh' o = cp bh o.
Proof. intros Sb. destruct o as [s|]; [|reflexivity]. cbn. intros (y & f & Ey & Es). eapply Sb; eauto. Qed.

(** One name changes. *)
Lemma vstep bh gh sl bh' gh' x s' :
  (forall y, vslot bh gh sl y) -> (forall f, sl x <> SPublished f) ->
  (opened_once D -> gok gh sl) -> (opened_once D -> gok gh' (set sl x s')) ->
  same_bytes sl bh bh' ->
  (forall y sd t, y <> x -> bsl (sl y) sd = Some t -> gread bh' t = gread bh t) ->
  vslot bh' gh' (set sl x s') x ->
  forall y, vslot bh' gh' (set sl x s') y.
Proof.
  intros V Nx G G' Sb So Vx y. destruct (Nat.eq_dec y x) as [->|Ny]; [exact Vx|].
  assert (Pub : forall z f, sl z = SPublished f -> set sl x s' z = SPublished f).
  { intros z f E. rewrite set_other; [exact E|]. intros ->. exact (Nx f E). }
  assert (Co : forall o f, chain_ok sl o f -> chain_ok (set sl x s') o f).
  { intros o f C h I. destruct (C h I) as (Eo & z & fz & Ez & ->). split; [exact Eo|]. exists z, fz. auto. }
  assert (Pc : forall sd o, pub_copy sl sd o -> pub_copy (set sl x s') sd o).
  { intros sd [s|]; [|auto]. intros (z & f & Ez & Es). exists z, f. rewrite (Pub _ _ Ez), <- Ez. auto. }
  pose proof (V y) as Vy. unfold vslot in *. rewrite set_other by auto. destruct (sl y) as [|b|f] eqn:Sy; [exact I| |].
  - destruct Vy as (P1 & P2 & p & P & Eo & Cw & Val). split; [auto|]. split; [auto|]. exists p. split; [exact P|]. split; [exact Eo|]. split.
    { destruct (sb_wrap b) as [[nm f]|]; auto. }
    intros S. destruct (Val S) as (g & Og & Ng & Wg). exists g. split; [exact Og|]. split.
    + rewrite (wanted_same bh bh'); auto.
      * apply (So y true); auto. rewrite Sy. reflexivity.
      * apply (So y false); auto. rewrite Sy. reflexivity.
      * eapply cp_same; eauto.
      * eapply cp_same; eauto.
    + destruct (sb_wrap b) as [[nm f]|]; [|exact Wg]. destruct Wg as (gp & E1 & E2). exists gp. split; [exact E1|].
      rewrite E2. symmetry. eapply view_same; eauto.
  - destruct Vy as (p & P & C & Val). exists p. split; [exact P|]. split; [auto|]. intros S. destruct (Val S) as (g & Og & Ng).
    exists g. split; [exact Og|]. rewrite Ng. symmetry. eapply view_same; eauto.
Qed.

(** ** Log calls *)

Fixpoint svtarget (d : dead) (g : shdl) (r : record) : option shandler :=
  match g with
  | SBase h => Some h
  | SGroup h name parent =>
    match d with
    | DeadOther => None
    | _ =>
      let deadname := match d with DeadName s => s | _ => [] end in
      let delegate :=
        match sfirst_attr (r_attrs r) with
        | None => true
        | Some (k, v) =>
          negb (beq deadname []) && beq k deadname &&
          match v with VGroup _ => true | _ => false end
        end in
      if delegate then svtarget (DeadName name) parent r else Some h
    end
  end.

Lemma svtarget_view w r : forall f d, svtarget d (qview_hdl w f) r = option_map (qview w) (starget d f r).
Proof.
  induction f as [h|h nm p IH]; intros d; cbn; [reflexivity|]. destruct d; cbn; try reflexivity;
  match goal with |- context [if ?x then _ else _] => destruct x end; auto.
Qed.

Lemma svtarget_norm r : forall g d, svtarget d (norm_hdl g) r = option_map norm (svtarget d g r).
Proof.
  induction g as [h|h nm p IH]; intros d; cbn; [reflexivity|]. destruct d; cbn; try reflexivity;
  match goal with |- context [if ?x then _ else _] => destruct x end; auto.
Qed.

Lemma svtarget_handle m r w : forall g d, shandle_hdl log_write std m d g r w =
  match svtarget d g r with None => Some SPanic | Some h => sresult_of (shandle log_write std m h r w) end.
Proof.
  induction g as [h|h nm p IH]; intros d; cbn; [reflexivity|]. destruct d; cbn; try reflexivity;
  match goal with |- context [if ?x then _ else _] => destruct x end; auto.
Qed.

Lemma starget_chain r h : forall f d, starget d f r = Some h -> In h (qchain f).
Proof.
  induction f as [h'|h' nm p IH]; intros d; cbn.
  - intros E. injection E as <-. auto.
  - destruct d; try discriminate; match goal with |- context [if ?x then _ else _] => destruct x end; intros E;
      try (injection E as <-; auto); right; eapply IH; eauto.
Qed.

Definition sreading_ok (bh : heap ascii) (gh : heap bytes) (sl : nat -> sslot) (ph : sphase) : Prop :=
  match ph with
  | SReading x d r h pre suf grp =>
      exists f, sl x = SPublished f /\ starget d f r = Some h /\
        (exists t, gread bh (q_prefix h) = pre ++ t) /\
        (exists t, gread bh (q_suffix h) = suf ++ t) /\
        (opened_once D -> exists t, gread gh (q_groups h) = grp ++ t)
  | _ => True
  end.

Definition slog_ok (l : slogged) : Prop :=
  exists p, path_of D (sl_name l) p /\ (group_safe D p -> exists g h0, of_spath std n p = Some g /\
    svtarget (sl_dead l) g (sl_record l) = Some h0 /\ norm h0 = norm (sl_handler l)).

Definition sinv (st : sstate) : Prop :=
  (opened_once D -> gpart (ss_names st) (ss_slot st)) /\
  bpart (ss_bytes st) (ss_slot st) /\
  (forall x, vslot (ss_bytes st) (ss_names st) (ss_slot st) x) /\
  (forall i, sreading_ok (ss_bytes st) (ss_names st) (ss_slot st) (st_at (ss_thr st i))) /\
  Forall slog_ok (ss_log st).

(** One name changes. *)
Lemma sinv_slot st bh' gh' x s' t' :
  sinv st -> (forall f, ss_slot st x <> SPublished f) ->
  (opened_once D -> gpart gh' (set (ss_slot st) x s')) ->
  bpart bh' (set (ss_slot st) x s') ->
  (forall y sd t, y <> x -> bsl (ss_slot st y) sd = Some t -> gread bh' t = gread (ss_bytes st) t) ->
  ((forall p f, chain_ok (ss_slot st) (p_options p) f -> group_safe D p ->
      norm_hdl (qview_hdl (sworld bh' gh') f) = norm_hdl (qview_hdl (sworld (ss_bytes st) (ss_names st)) f)) ->
   (forall o f, chain_ok (ss_slot st) o f -> chain_ok (set (ss_slot st) x s') o f) ->
   (forall sd o, pub_copy (ss_slot st) sd o -> pub_copy (set (ss_slot st) x s') sd o) ->
   same_bytes (ss_slot st) (ss_bytes st) bh' ->
   vslot bh' gh' (set (ss_slot st) x s') x) ->
  (forall j, st_at (t' j) = st_at (ss_thr st j) \/ forall y d r h pre suf grp, st_at (t' j) <> SReading y d r h pre suf grp) ->
  sinv (mks bh' gh' (set (ss_slot st) x s') t' (ss_log st)).
Proof.
  intros (G & Bp & V & R & L) Nx G' Bp' So Vx Ht.
  assert (Pub : forall z f, ss_slot st z = SPublished f -> set (ss_slot st) x s' z = SPublished f).
  { intros z f E. rewrite set_other; [exact E|]. intros ->. exact (Nx f E). }
  assert (Co : forall o f, chain_ok (ss_slot st) o f -> chain_ok (set (ss_slot st) x s') o f).
  { intros o f C h I. destruct (C h I) as (Eo & z & fz & Ez & ->). split; [exact Eo|]. exists z, fz. auto. }
  assert (Pc : forall sd o, pub_copy (ss_slot st) sd o -> pub_copy (set (ss_slot st) x s') sd o).
  { intros sd [s|]; [|auto]. intros (z & f & Ez & Es). exists z, f. rewrite (Pub _ _ Ez), <- Ez. auto. }
  assert (Sb : same_bytes (ss_slot st) (ss_bytes st) bh').
  { intros y f sd s Ey Es. apply (So y sd s); [|exact Es]. intros E. rewrite E in Ey. exact (Nx f Ey). }
  assert (K : opened_once D -> gok (ss_names st) (ss_slot st)) by (intros O; apply gpart_ok; auto).
  assert (K' : opened_once D -> gok gh' (set (ss_slot st) x s')) by (intros O; apply gpart_ok; auto).
  split; [exact G'|]. split; [exact Bp'|]. split; [|split; [|exact L]]; cbn.
  - refine (vstep _ _ _ _ _ x s' V Nx K K' Sb So (Vx _ Co Pc Sb)). intros p f C S.
    exact (view_same _ _ _ _ _ _ p f V Pub Sb K K' C S).
  - intros j. destruct (Ht j) as [->|N].
    + specialize (R j). destruct (st_at (ss_thr st j)) as [|z|z d r h pre suf grp]; [exact I|exact I|].
      destruct R as (f & Ez & Ft & (t1 & E1) & (t2 & E2) & E3). exists f. split; [auto|]. split; [exact Ft|].
      pose proof (V z) as Vz. unfold vslot in Vz. rewrite Ez in Vz. destruct Vz as (p & P & C & _).
      destruct (C h (starget_chain _ _ _ _ Ft)) as (_ & y & fy & Ey & ->).
      split; [|split].
      * exists t1. rewrite (Sb y fy true _ Ey ltac:(rewrite Ey; reflexivity)). exact E1.
      * exists t2. rewrite (Sb y fy false _ Ey ltac:(rewrite Ey; reflexivity)). exact E2.
      * intros O. destruct (E3 O) as (t3 & E3'). exists t3. rewrite <- E3'.
        pose proof (V y) as Vy. unfold vslot in Vy. rewrite Ey in Vy. destruct Vy as (py & Py & _).
        destruct (K O y fy py Ey Py) as [_ ->]. destruct (K' O y fy py (Pub _ _ Ey) Py) as [_ ->]. reflexivity.
    + destruct (st_at (t' j)) as [| |z d r h pre suf grp]; [exact I|exact I|]. destruct (N z d r h pre suf grp). reflexivity.
Qed.

(** ** Steps *)

Lemma write_inv i x a b st st' bh gh b' : sinv st -> st_at (ss_thr st i) = SMaking x -> ss_slot st x = SBuilding b ->
  sstep_by std grow n D i a st = Some st' -> st' = sset_slot st bh gh x (SBuilding b') ->
  swrite grow st a b = Some (bh, gh, b') -> sinv st'.
Proof.
  intros Inv Ti Sx Step -> Ew. pose proof Inv as (G & Bp & V & R & L).
  assert (Nx : forall f, ss_slot st x <> SPublished f) by congruence.
  assert (G' : opened_once D -> gpart gh (set (ss_slot st) x (SBuilding b'))).
  { intros O. exact (gpart_step_by i a st _ O (G O) Step). }
  clear Step Ti i. pose proof (V x) as Vx. unfold vslot in Vx. rewrite Sx in Vx.
  destruct Vx as (P1 & P2 & p & P & Eo & Cw & Val).
  (* one buffer is written to *)
  assert (Key : forall sd sl c, bsl (ss_slot st x) sd = Some sl -> bgrow (ss_slot st x) sd = true ->
    (exists s1, gappend NUL grow (ss_bytes st) sl c = (bh, s1) /\ bsl (SBuilding b') sd = Some s1) ->
    bsl (SBuilding b') (negb sd) = bsl (ss_slot st x) (negb sd) ->
    (bgrow (SBuilding b') (negb sd) = true -> bgrow (ss_slot st x) (negb sd) = true) ->
    sb_options b' = sb_options b -> sb_wrap b' = sb_wrap b ->
    (sb_pcopy b' = sb_pcopy b \/ sb_pcopy b' = None) -> (sb_scopy b' = sb_scopy b \/ sb_scopy b' = None) ->
    ((forall y sd' t, bsl (ss_slot st y) sd' = Some t -> (y, sd') <> (x, sd) -> gread bh t = gread (ss_bytes st) t) ->
      same_bytes (ss_slot st) (ss_bytes st) bh ->
      (forall s1, bsl (SBuilding b') sd = Some s1 -> gread bh s1 = gread (ss_bytes st) sl ++ c) ->
      wanted bh b' p = wanted (ss_bytes st) b p) ->
    sinv (sset_slot st bh gh x (SBuilding b'))).
  { intros sd sl c Bx Gx (s1 & Ea & B1) B2 G2 Eo' Ew' Ep Es Wn.
    destruct (bpart_append _ _ x sd sl c bh s1 (SBuilding b') Bp Bx Gx Ea B1 B2 G2) as (Bp' & R1 & So).
    unfold sset_slot. apply sinv_slot; auto.
    - intros y sd' t Ny By. apply (So y sd' t By). congruence.
    - intros Vw Co Pc Sb. unfold vslot. rewrite set_same.
      assert (Pp : pub_copy (set (ss_slot st) x (SBuilding b')) true (sb_pcopy b')) by (destruct Ep as [->| ->]; [auto|exact I]).
      assert (Ps : pub_copy (set (ss_slot st) x (SBuilding b')) false (sb_scopy b')) by (destruct Es as [->| ->]; [auto|exact I]).
      split; [exact Pp|]. split; [exact Ps|]. exists p. split; [exact P|]. split; [congruence|]. split.
      + rewrite Ew'. destruct (sb_wrap b) as [[nm f]|]; auto.
      + intros S. destruct (Val S) as (g & Og & Ng & Wg). exists g. split; [exact Og|]. split.
        * rewrite Wn; auto. intros s2 E2. rewrite B1 in E2. injection E2 as <-. exact R1.
        * rewrite Ew'. destruct (sb_wrap b) as [[nm f]|]; [|exact Wg]. destruct Wg as (gp & E1 & E2). exists gp. split; [exact E1|].
          rewrite E2. symmetry. apply (Vw p); auto. }
  unfold swrite in Ew. destruct a; try discriminate.
  - destruct (sb_pcopy b) as [s|] eqn:Ec; [|discriminate].
    destruct (gappend NUL grow (ss_bytes st) (sb_pre b) (gread (ss_bytes st) s)) as [h q] eqn:Ea. injection Ew as <- <- <-.
    apply (Key true (sb_pre b) (gread (ss_bytes st) s)); rewrite ?Sx; cbn; rewrite ?Ec; eauto.
    intros So Sb Rd. unfold wanted. cbn. rewrite (Rd _ eq_refl), Ec. cbn [cp]. rewrite (cp_same _ _ _ _ _ Sb P2).
    rewrite (So x false (sb_suf b)); [rewrite <- app_assoc; reflexivity|rewrite Sx; reflexivity|congruence].
  - destruct (sb_pcopy b) as [s|] eqn:Ec; [discriminate|]. destruct (sb_prest b) as [|c cs] eqn:Er; [discriminate|].
    destruct (gappend NUL grow (ss_bytes st) (sb_pre b) c) as [h q] eqn:Ea. injection Ew as <- <- <-.
    apply (Key true (sb_pre b) c); rewrite ?Sx; cbn; rewrite ?Ec, ?Er; eauto.
    intros So Sb Rd. unfold wanted. cbn. rewrite (Rd _ eq_refl), Ec, Er. cbn [cp]. rewrite (cp_same _ _ _ _ _ Sb P2).
    rewrite (So x false (sb_suf b)); [rewrite <- app_assoc; reflexivity|rewrite Sx; reflexivity|congruence].
  - destruct (sb_scopy b) as [s|] eqn:Ec; [|discriminate].
    destruct (gappend NUL grow (ss_bytes st) (sb_suf b) (gread (ss_bytes st) s)) as [h q] eqn:Ea. injection Ew as <- <- <-.
    apply (Key false (sb_suf b) (gread (ss_bytes st) s)); rewrite ?Sx; cbn; rewrite ?Ec; eauto.
    intros So Sb Rd. unfold wanted. cbn. rewrite (Rd _ eq_refl), Ec. cbn [cp]. rewrite (cp_same _ _ _ _ _ Sb P1).
    rewrite (So x true (sb_pre b)); [rewrite <- app_assoc; reflexivity|rewrite Sx; reflexivity|congruence].
  - destruct (sb_scopy b) as [s|] eqn:Ec; [discriminate|]. destruct (sb_srest b) as [|c cs] eqn:Er; [discriminate|].
    destruct (gappend NUL grow (ss_bytes st) (sb_suf b) c) as [h q] eqn:Ea. injection Ew as <- <- <-.
    apply (Key false (sb_suf b) c); rewrite ?Sx; cbn; rewrite ?Ec, ?Er; eauto.
    intros So Sb Rd. unfold wanted. cbn. rewrite (Rd _ eq_refl), Ec, Er. cbn [cp]. rewrite (cp_same _ _ _ _ _ Sb P1).
    rewrite (So x true (sb_pre b)); [rewrite <- app_assoc; reflexivity|rewrite Sx; reflexivity|congruence].
  - clear Key. destruct (sb_grest b) as [|c cs] eqn:Er; [discriminate|].
    destruct (gappend (nil : bytes) grow (ss_names st) (sb_grp b) c) as [h q] eqn:Ea. injection Ew as <- <- <-.
    unfold sset_slot. apply sinv_slot; auto.
    + apply bpart_publish; auto; intros sd; rewrite Sx; auto.
    + intros Vw Co Pc Sb. unfold vslot. rewrite set_same. cbn. split; [auto|]. split; [auto|]. exists p. split; [exact P|].
      split; [exact Eo|]. split.
      { destruct (sb_wrap b) as [[nm f]|]; auto. }
      intros S. destruct (Val S) as (g & Og & Ng & Wg). exists g. split; [exact Og|]. split; [exact Ng|].
      destruct (sb_wrap b) as [[nm f]|]; [|exact Wg]. destruct Wg as (gp & E1 & E2). exists gp. split; [exact E1|].
      rewrite E2. symmetry. apply (Vw p); auto.
Qed.

Lemma publish_sinv i x b st st' : sinv st -> st_at (ss_thr st i) = SMaking x -> ss_slot st x = SBuilding b ->
  sstep_by std grow n D i SPublish st = Some st' -> complete b = true ->
  st' = sset_thr (sset_slot st (ss_bytes st) (ss_names st) x (SPublished (sbuilt b))) i (mksthr SIdle (st_tasks (ss_thr st i))) ->
  sinv st'.
Proof.
  intros Inv Ti Sx Step Co0 ->. pose proof Inv as (G & Bp & V & R & L).
  assert (Nx : forall f, ss_slot st x <> SPublished f) by congruence.
  assert (G' : opened_once D -> gpart (ss_names st) (set (ss_slot st) x (SPublished (sbuilt b)))).
  { intros O. exact (gpart_step_by i _ st _ O (G O) Step). }
  pose proof (V x) as Vx. unfold vslot in Vx. rewrite Sx in Vx. destruct Vx as (P1 & P2 & p & P & Eo & Cw & Val).
  assert (Inn : qinner (sbuilt b) = {| q_options := sb_options b; q_prefix := sb_pre b; q_suffix := sb_suf b; q_groups := sb_grp b |}).
  { unfold sbuilt. destruct (sb_wrap b) as [[nm f]|]; reflexivity. }
  unfold complete in Co0. destruct (sb_pcopy b) eqn:E1; [discriminate|]. destruct (sb_prest b) eqn:E2; [|discriminate].
  destruct (sb_scopy b) eqn:E3; [discriminate|]. destruct (sb_srest b) eqn:E4; [|discriminate]. clear Co0.
  unfold sset_thr, sset_slot. cbn [ss_bytes ss_names ss_slot ss_thr ss_log]. apply sinv_slot; auto.
  - apply bpart_publish; auto.
    + intros sd. rewrite Sx. cbn. rewrite Inn. reflexivity.
    + intros sd. cbn. discriminate.
  - intros Vw Co Pc Sb. unfold vslot. rewrite set_same. exists p. split; [exact P|].
    assert (Self : q_options (qinner (sbuilt b)) = p_options p /\
              exists y fy, set (ss_slot st) x (SPublished (sbuilt b)) y = SPublished fy /\ qinner (sbuilt b) = qinner fy).
    { split; [rewrite Inn; exact Eo|]. exists x, (sbuilt b). rewrite set_same. auto. }
    split.
    { unfold chain_ok. unfold sbuilt in *. destruct (sb_wrap b) as [[nm f]|]; cbn [qchain].
      - intros h [<-|I]; [exact Self|]. apply (Co _ _ Cw). exact I.
      - intros h [<-|[]]. exact Self. }
    intros S. destruct (Val S) as (g & Og & Ng & Wg). exists g. split; [exact Og|].
    assert (Nv : norm (wanted (ss_bytes st) b p) = norm (qview (sworld (ss_bytes st) (ss_names st)) (qinner (sbuilt b)))).
    { rewrite Inn. unfold norm, wanted, qview. cbn. rewrite E1, E2, E3, E4. cbn. rewrite !app_nil_r. f_equal.
      destruct (o_replace (sb_options b)) eqn:Er; [|reflexivity]. destruct S as [S|S]; [congruence|].
      destruct (gpart_ok _ _ (G' S) x (sbuilt b) p) as [_ X]; [apply set_same|exact P|]. rewrite Inn in X. cbn in X. auto. }
    rewrite Nv in Ng. unfold sbuilt in *. destruct (sb_wrap b) as [[nm f]|]; cbn [qview_hdl qinner] in *.
    + destruct Wg as (gp & Eg & Egp). rewrite Eg. cbn [norm_hdl]. rewrite Ng, Egp. reflexivity.
    + rewrite Wg. cbn [norm_hdl]. rewrite Ng. reflexivity.
  - intros j. unfold set. destruct (Nat.eqb j i); [right; cbn; congruence|auto].
Qed.

Lemma attrs_wanted w h l b : sbegin_attrs std n w h l = Some b ->
  exists ch, b = mksbuild (q_options h) nil_slice (to_copy (q_prefix h)) ch nil_slice (to_copy (q_suffix h)) [] (q_groups h) [] None /\
  swith_attrs std n (qview w h) l = Some (sextend (qview w h) (concat ch)).
Proof.
  unfold sbegin_attrs. rewrite swith_attrs_eq. set (v := qview w h).
  change (TextProofs.started_of (sh_prefix v) false) with
    (match sh_prefix v with [] => false | _ => negb (ends_with (chr 123) (sh_prefix v)) end).
  set (s0 := match sh_prefix v with [] => false | _ => _ end). intros E.
  change (o_replace (sh_options v)) with (o_replace (q_options h)).
  destruct (ems std (o_replace (q_options h)) n (sh_groups v) s0 l) as [[[ch s'] ok]|] eqn:Em.
  - destruct (runs_attributes std (o_replace (q_options h)) _ log_write (sh_groups v) n [] s0 l ch s' ok Em) as (s2 & Er & _).
    rewrite Er in E. cbn [s_writer snew_composer] in E. rewrite feed_log in E. cbn [fst app] in E. injection E as <-.
    exists ch. auto.
  - rewrite (none_attributes std (o_replace (q_options h)) _ log_write (sh_groups v) n [] s0 l) in E; auto; [discriminate|].
    apply log_reliable.
Qed.

Lemma cp_to_copy bh s : wf bh s -> cp bh (to_copy s) = gread bh s.
Proof.
  intros W. unfold to_copy. destruct (Nat.ltb_spec 0 (sl_len s)) as [Lt|Le]; [reflexivity|]. cbn. unfold gread. replace (sl_len s) with 0 by lia. reflexivity.
Qed.

Lemma begin_sinv i x b rest st st' : sinv st -> ss_slot st x = SAbsent ->
  sstep_by std grow n D i SBegin st = Some st' -> sbegin_at std n D st x = Some b ->
  st' = sset_thr (sset_slot st (ss_bytes st) (ss_names st) x (SBuilding b)) i (mksthr (SMaking x) rest) -> sinv st'.
Proof.
  intros Inv Sx Step Bg ->. pose proof Inv as (G & Bp & V & R & L).
  assert (Nx : forall f, ss_slot st x <> SPublished f) by congruence.
  assert (G' : opened_once D -> gpart (ss_names st) (set (ss_slot st) x (SBuilding b))).
  { intros O. exact (gpart_step_by i _ st _ O (G O) Step). }
  assert (Thr : forall j, st_at (set (ss_thr st) i (mksthr (SMaking x) rest) j) = st_at (ss_thr st j) \/
            forall y d r h pre suf grp, st_at (set (ss_thr st) i (mksthr (SMaking x) rest) j) <> SReading y d r h pre suf grp).
  { intros j. unfold set. destruct (Nat.eqb j i); [right; cbn; congruence|auto]. }
  unfold sset_thr, sset_slot. cbn [ss_bytes ss_names ss_slot ss_thr ss_log].
  unfold sbegin_at in Bg. destruct (D x) as [o e|y o] eqn:Dx.
  { injection Bg as <-. apply sinv_slot; auto.
    - apply bpart_begin; auto. intros sd s E. left. destruct sd; cbn in E; congruence.
    - intros Vw Co Pc Sb. unfold vslot. rewrite set_same. cbn. split; [exact I|]. split; [exact I|].
      eexists. split; [apply path_new; exact Dx|]. split; [reflexivity|]. split; [exact I|]. intros S.
      eexists. split; [reflexivity|]. split; [|reflexivity]. reflexivity. }
  destruct (ss_slot st y) as [| |g] eqn:Sy; try discriminate.
  pose proof (V y) as Vy. unfold vslot in Vy. rewrite Sy in Vy. destruct Vy as (p & P & C & Val).
  set (w := sworld (ss_bytes st) (ss_names st)) in *. set (h := qinner g) in *.
  assert (Wp : wf (ss_bytes st) (q_prefix h)) by (apply (proj1 Bp y true); rewrite Sy; reflexivity).
  assert (Ws : wf (ss_bytes st) (q_suffix h)) by (apply (proj1 Bp y false); rewrite Sy; reflexivity).
  assert (Opt : q_options h = p_options p). { apply (C h). unfold h. destruct g; cbn; auto. }
  assert (Cpy : forall b', pub_copy (set (ss_slot st) x (SBuilding b')) true (to_copy (q_prefix h)) /\
                           pub_copy (set (ss_slot st) x (SBuilding b')) false (to_copy (q_suffix h))).
  { intros b'. unfold to_copy. split; destruct (Nat.ltb _ _); try exact I; exists y, g; rewrite set_other by congruence; rewrite Sy; auto. }
  assert (Pth : forall o', D x = DFrom y o' -> path_of D x (extend_path p o')) by (intros; eapply path_from; eauto).
  (* the parent's groups *)
  assert (Gr : forall S : group_safe D p, sh_groups (norm (qview w h)) =
                 match o_replace (q_options h) with None => [] | Some _ => names (p_ops p) end).
  { intros S. cbn. destruct (o_replace (q_options h)) eqn:Er; [|reflexivity]. destruct S as [S|S]; [congruence|].
    destruct (gpart_ok _ _ (G S) y g p Sy P) as [_ X]. exact X. }
  assert (Nin : forall g0, norm_hdl g0 = norm_hdl (qview_hdl w g) -> norm (sinner g0) = norm (qview w h)).
  { intros g0 E0. rewrite <- norm_inner, E0, norm_inner, qinner_view. reflexivity. }
  destruct o as [l|[|c m]].
  - destruct (attrs_wanted _ _ _ _ Bg) as (ch & -> & Ea). apply sinv_slot; auto.
    + apply bpart_begin; auto. intros sd s E. left. destruct sd; cbn in E; congruence.
    + intros Vw Co Pc Sb. unfold vslot. rewrite set_same. cbn. split; [apply Cpy|]. split; [apply Cpy|].
      exists (extend_path p (WithAttrs l)). split; [auto|]. split; [exact Opt|]. split; [exact I|]. intros S.
      destruct (Val S) as (g0 & O0 & E0). rewrite (of_spath_extend std n p _ g0 O0). cbn [sstep].
      pose proof (swith_attrs_norm std n (sinner g0) (qview w h) l (Nin g0 E0)) as Sn. rewrite Ea in Sn.
      destruct (swith_attrs std n (sinner g0) l) as [h'|]; [|discriminate]. cbn [option_map] in Sn. apply some_inj in Sn.
      eexists. split; [reflexivity|]. split; [|reflexivity]. cbn [sinner]. rewrite Sn. unfold norm, sextend, wanted. cbn.
      rewrite !cp_to_copy by auto. rewrite !app_nil_r. f_equal.
      pose proof (Gr S) as X. cbn in X. rewrite X. unfold names. rewrite flat_map_app. cbn. rewrite app_nil_r. reflexivity.
  - injection Bg as <-. apply sinv_slot; auto.
    + apply bpart_begin; auto. intros sd s E. right. split; [destruct sd; reflexivity|]. exists y, g. rewrite Sy. split; [reflexivity|].
      destruct sd; exact E.
    + intros Vw Co Pc Sb. unfold vslot. rewrite set_same. cbn. split; [exact I|]. split; [exact I|].
      exists (extend_path p (WithGroup [])). split; [auto|]. split; [exact Opt|]. split; [exact I|]. intros S.
      destruct (Val S) as (g0 & O0 & E0). rewrite (of_spath_extend std n p _ g0 O0). cbn [sstep].
      eexists. split; [reflexivity|]. split; [|reflexivity]. cbn [sinner]. rewrite (Nin g0 E0). unfold norm, wanted. cbn.
      rewrite !app_nil_r. f_equal. pose proof (Gr S) as X. cbn in X. rewrite X. unfold names. rewrite flat_map_app. cbn. rewrite app_nil_r. reflexivity.
  - injection Bg as <-. apply sinv_slot; auto.
    + apply bpart_begin; auto. intros sd s E. left. destruct sd; cbn in E; congruence.
    + intros Vw Co Pc Sb. unfold vslot. rewrite set_same. cbn [sbegin_group sb_pcopy sb_scopy sb_options sb_wrap].
      split; [apply Cpy|]. split; [apply Cpy|].
      exists (extend_path p (WithGroup (c :: m))). split; [auto|]. split; [exact Opt|]. split; [apply Co; exact C|]. intros S.
      destruct (Val S) as (g0 & O0 & E0). rewrite (of_spath_extend std n p _ g0 O0). cbn [sstep].
      eexists. split; [reflexivity|]. split; [|exists g0; split; [reflexivity|exact E0]].
      cbn [sinner]. rewrite (swith_group_norm _ _ (c :: m) (Nin g0 E0)). unfold norm, swith_group, wanted.
      cbn [sh_options sh_prefix sh_suffix sh_groups sb_options sb_pre sb_pcopy sb_prest sb_suf sb_scopy sb_srest].
      rewrite !cp_to_copy by auto. cbn [concat]. rewrite !app_nil_r. f_equal.
      subst h. pose proof (Gr S) as X. cbn in X |- *. destruct (o_replace (q_options (qinner g))); [|reflexivity]. rewrite X.
      change (flat_map _ (p_ops p ++ [WithGroup (c :: m)])) with (names (p_ops p ++ [WithGroup (c :: m)])). rewrite names_snoc. reflexivity.
Qed.

Lemma sinv_thr st i t lg : sinv st -> sreading_ok (ss_bytes st) (ss_names st) (ss_slot st) (st_at t) ->
  Forall slog_ok lg -> sinv (mks (ss_bytes st) (ss_names st) (ss_slot st) (set (ss_thr st) i t) lg).
Proof.
  intros (G & Bp & V & R & L) Rt Ll. split; [exact G|]. split; [exact Bp|]. split; [exact V|]. split; [|exact Ll].
  intros j. cbn. unfold set. destruct (Nat.eqb j i); auto.
Qed.

Lemma sreading_wf st x d r h pre suf grp : sinv st ->
  sreading_ok (ss_bytes st) (ss_names st) (ss_slot st) (SReading x d r h pre suf grp) ->
  wf (ss_bytes st) (q_prefix h) /\ wf (ss_bytes st) (q_suffix h) /\ (opened_once D -> wf (ss_names st) (q_groups h)).
Proof.
  intros (G & Bp & V & R & L) (f & Ex & Ft & _).
  pose proof (V x) as Vx. unfold vslot in Vx. rewrite Ex in Vx. destruct Vx as (p & P & C & _).
  destruct (C h (starget_chain _ _ _ _ Ft)) as (_ & y & fy & Ey & ->).
  pose proof (V y) as Vy. unfold vslot in Vy. rewrite Ey in Vy. destruct Vy as (py & Py & _). split; [|split].
  - apply (proj1 Bp y true). rewrite Ey. reflexivity.
  - apply (proj1 Bp y false). rewrite Ey. reflexivity.
  - intros O. apply (gpart_ok _ _ (G O) y fy py Ey Py).
Qed.

Theorem sstep_inv i a st st' : sinv st -> sstep_by std grow n D i a st = Some st' -> sinv st'.
Proof.
  intros Inv Step. pose proof Step as E. pose proof Inv as (G & Bp & V & R & L). pose proof (R i) as Ri. unfold sstep_by in E.
  destruct (st_at (ss_thr st i)) as [|x|x d r h pre suf grp] eqn:Ti.
  - destruct a; try discriminate; destruct (st_tasks (ss_thr st i)) as [|[x|x d r] rest] eqn:Tk; try discriminate.
    + destruct (ss_slot st x) eqn:Sx; try discriminate. destruct (sbegin_at std n D st x) as [b|] eqn:Bg; [|discriminate].
      apply some_inj in E. symmetry in E. eapply begin_sinv; eauto.
    + destruct (ss_slot st x) as [| |g] eqn:Ex; try discriminate. destruct (starget d g r) as [h|] eqn:Ft; [|discriminate].
      injection E as <-. apply sinv_thr; auto. cbn. exists g. repeat (split; [assumption|]). split; [|split]; [| |intros _]; eexists; reflexivity.
  - destruct (ss_slot st x) as [|b|] eqn:Sx; try discriminate.
    destruct a;
      try (match type of E with context [swrite grow st ?a b] => destruct (swrite grow st a b) as [[[bh gh] b']|] eqn:Ew; [|discriminate] end;
           apply some_inj in E; symmetry in E; exact (write_inv i x _ b st st' bh gh b' Inv Ti Sx Step E Ew)).
    destruct (complete b) eqn:Co; [|discriminate]. apply some_inj in E. symmetry in E. eapply publish_sinv; eauto.
  - destruct (sreading_wf _ _ _ _ _ _ _ _ Inv Ri) as (W1 & W2 & W3). destruct Ri as (f & Ex & Ft & (t1 & E1) & (t2 & E2) & E3).
    destruct a; try discriminate.
    + destruct (Nat.ltb_spec (length pre) (sl_len (q_prefix h))) as [Lt|]; [|discriminate]. injection E as <-.
      apply sinv_thr; auto. cbn [st_at]. exists f. repeat (split; [assumption|]). split; [|split; eauto]. eapply read_next; eauto.
    + destruct (Nat.ltb_spec (length suf) (sl_len (q_suffix h))) as [Lt|]; [|discriminate]. injection E as <-.
      apply sinv_thr; auto. cbn [st_at]. exists f. repeat (split; [assumption|]). split; [eauto|split; [|auto]]. eapply read_next; eauto.
    + destruct (Nat.ltb_spec (length grp) (sl_len (q_groups h))) as [Lt|]; [|discriminate]. injection E as <-.
      apply sinv_thr; auto. cbn [st_at]. exists f. repeat (split; [assumption|]). split; [eauto|split; [eauto|]].
      intros O. destruct (E3 O) as (t3 & E3'). eapply read_next; eauto.
    + destruct (Nat.eqb_spec (length pre) (sl_len (q_prefix h))) as [L1|]; [|discriminate].
      destruct (Nat.eqb_spec (length suf) (sl_len (q_suffix h))) as [L2|]; [|discriminate].
      destruct (Nat.eqb_spec (length grp) (sl_len (q_groups h))) as [L3|]; [|discriminate]. cbn [andb] in E. injection E as <-.
      apply sinv_thr; auto; [exact I|]. apply Forall_app. split; [exact L|]. constructor; [|constructor].
      pose proof (V x) as Vx. unfold vslot in Vx. rewrite Ex in Vx. destruct Vx as (p & P & C & Val).
      exists p. split; [exact P|]. intros S. destruct (Val S) as (g & Og & Ng). cbn [sl_dead sl_record sl_handler].
      pose proof (svtarget_norm r g d) as X. rewrite Ng, svtarget_norm, svtarget_view, Ft in X. cbn [option_map] in X.
      destruct (svtarget d g r) as [h0|] eqn:Eh; [|discriminate]. cbn [option_map] in X. apply some_inj in X.
      exists g, h0. split; [exact Og|]. split; [exact Eh|]. rewrite <- X. unfold norm, qview. cbn. f_equal.
      * exact (whole _ _ _ _ E1 (gread_length _ _ W1) L1).
      * exact (whole _ _ _ _ E2 (gread_length _ _ W2) L2).
      * destruct (o_replace (q_options h)) eqn:Er; [|reflexivity].
        destruct (C h (starget_chain _ _ _ _ Ft)) as (Eo & _). destruct S as [S|S]; [congruence|].
        destruct (E3 S) as (t3 & E3'). exact (whole _ _ _ _ E3' (gread_length _ _ (W3 S)) L3).
Qed.

Theorem srun_inv sched : forall st st', sinv st -> srun std grow n D sched st = Some st' -> sinv st'.
Proof.
  induction sched as [|[i a] sched IH]; intros st st' Inv E; cbn in E.
  - injection E as <-. exact Inv.
  - destruct (sstep_by std grow n D i a st) as [st1|] eqn:A; [|discriminate]. exact (IH _ _ (sstep_inv i a st st1 Inv A) E).
Qed.

Lemma sstart_inv T0 : sinv (sstart T0).
Proof.
  split; [intros _; apply gpart_start|]. split; [split; intros; discriminate|]. split; [intros x; exact I|]. split; [intros i; exact I|constructor].
Qed.

Theorem sgets_inv T0 st : sgets_to std grow n D T0 st -> sinv st.
Proof. intros (sched & E). eapply srun_inv; [apply sstart_inv|exact E]. Qed.

(** ** Nobody waits *)

Lemma sstep_published i a st st' x f : sstep_by std grow n D i a st = Some st' -> ss_slot st x = SPublished f ->
  ss_slot st' x = SPublished f.
Proof.
  intros E Ex. unfold sstep_by in E. destruct (st_at (ss_thr st i)) as [|y|y d r h pre suf grp].
  - destruct a; try discriminate; destruct (st_tasks (ss_thr st i)) as [|[z|z d r] rest]; try discriminate.
    + destruct (ss_slot st z) eqn:Sz; try discriminate. destruct (sbegin_at std n D st z); [|discriminate]. injection E as <-. cbn.
      rewrite set_other; [exact Ex|congruence].
    + destruct (ss_slot st z); try discriminate. destruct (starget d f0 r); [|discriminate]. injection E as <-. exact Ex.
  - destruct (ss_slot st y) as [|b|] eqn:Sy; try discriminate.
    destruct a;
      try (match type of E with context [swrite grow st ?a b] => destruct (swrite grow st a b) as [[[bh gh] b']|] eqn:Ew; [|discriminate] end;
           injection E as <-; cbn; rewrite set_other; [exact Ex|congruence]).
    destruct (complete b); [|discriminate]. injection E as <-. cbn. rewrite set_other; [exact Ex|congruence].
  - destruct a; try discriminate; match type of E with (if ?b then _ else _) = _ => destruct b; [|discriminate] end; injection E as <-; exact Ex.
Qed.

Lemma srun_published sched : forall st st' x f, srun std grow n D sched st = Some st' -> ss_slot st x = SPublished f ->
  ss_slot st' x = SPublished f.
Proof.
  induction sched as [|[i a] sched IH]; intros st st' x f E Ex; cbn in E.
  - injection E as <-. exact Ex.
  - destruct (sstep_by std grow n D i a st) as [st1|] eqn:A; [|discriminate]. eapply IH; eauto. eapply sstep_published; eauto.
Qed.

Lemma srun_app s1 : forall s2 st, srun std grow n D (s1 ++ s2) st =
  match srun std grow n D s1 st with None => None | Some st' => srun std grow n D s2 st' end.
Proof.
  induction s1 as [|[i a] s1 IH]; intros s2 st; cbn; [reflexivity|]. destruct (sstep_by std grow n D i a st); auto.
Qed.

Definition left_to_do (b : sbuild) : nat :=
  (match sb_pcopy b with None => 0 | Some _ => 1 end) + length (sb_prest b) +
  (match sb_scopy b with None => 0 | Some _ => 1 end) + length (sb_srest b) + length (sb_grest b).

(** A goroutine making a handler can always finish it by itself. *)
Theorem smaking_finishes i x : forall k st b, left_to_do b = k ->
  st_at (ss_thr st i) = SMaking x -> ss_slot st x = SBuilding b ->
  exists sched st' f, (forall j a, In (j, a) sched -> j = i) /\ srun std grow n D sched st = Some st' /\
    ss_slot st' x = SPublished f /\ st_at (ss_thr st' i) = SIdle.
Proof.
  induction k as [|k IH]; intros st b Len Ti Ex; unfold left_to_do in Len.
  - assert (Co : complete b = true).
    { unfold complete. destruct (sb_pcopy b), (sb_prest b), (sb_scopy b), (sb_srest b), (sb_grest b); cbn in Len; (lia || reflexivity). }
    eexists [(i, SPublish)], _, _. split.
    { intros j a [E|[]]. congruence. }
    cbn [srun]. unfold sstep_by. rewrite Ti, Ex, Co. split; [reflexivity|]. cbn. rewrite !set_same. auto.
  - assert (X : exists a bh gh b1, swrite grow st a b = Some (bh, gh, b1) /\ left_to_do b1 = k).
    { unfold swrite, left_to_do. destruct (sb_pcopy b) as [s|] eqn:E1.
      { exists SCopyPrefix. destruct (gappend _ grow _ _ _) as [h q]. do 3 eexists. split; [reflexivity|]. cbn. lia. }
      destruct (sb_prest b) as [|c cs] eqn:E2.
      2: { exists SPrefix. destruct (gappend _ grow _ _ _) as [h q]. do 3 eexists. split; [reflexivity|]. cbn in *. lia. }
      destruct (sb_scopy b) as [s|] eqn:E3.
      { exists SCopySuffix. destruct (gappend _ grow _ _ _) as [h q]. do 3 eexists. split; [reflexivity|]. cbn. rewrite ?E1, ?E2. cbn in *. lia. }
      destruct (sb_srest b) as [|c cs] eqn:E4.
      2: { exists SSuffix. destruct (gappend _ grow _ _ _) as [h q]. do 3 eexists. split; [reflexivity|]. cbn in *. rewrite ?E1, ?E2. cbn. lia. }
      destruct (sb_grest b) as [|c cs] eqn:E5; [cbn in Len; lia|].
      exists SGroups. destruct (gappend (nil : bytes) grow _ _ _) as [h q]. do 3 eexists. split; [reflexivity|]. cbn in *. rewrite ?E1, ?E2, ?E3, ?E4. cbn. lia. }
    destruct X as (a & bh & gh & b1 & Ew & Len1).
    assert (A : sstep_by std grow n D i a st = Some (sset_slot st bh gh x (SBuilding b1))).
    { unfold sstep_by. rewrite Ti, Ex, Ew. destruct a; try reflexivity. discriminate. }
    destruct (IH (sset_slot st bh gh x (SBuilding b1)) b1 Len1 Ti ltac:(cbn; apply set_same)) as (sched & st' & f & O & Rn & Ex' & Ti').
    exists ((i, a) :: sched), st', f. split.
    { intros j a' [E|I]; [congruence|eapply O; eauto]. }
    cbn. rewrite A. auto.
Qed.

(** And a goroutine that logs can finish its call. *)
Theorem sreading_finishes i x d r h : forall k st pre suf grp,
  st_at (ss_thr st i) = SReading x d r h pre suf grp ->
  length pre <= sl_len (q_prefix h) -> length suf <= sl_len (q_suffix h) -> length grp <= sl_len (q_groups h) ->
  (sl_len (q_prefix h) - length pre) + (sl_len (q_suffix h) - length suf) + (sl_len (q_groups h) - length grp) = k ->
  exists sched st' hv, (forall j a, In (j, a) sched -> j = i) /\ srun std grow n D sched st = Some st' /\
    st_at (ss_thr st' i) = SIdle /\ ss_log st' = ss_log st ++ [mkslogged x d r hv].
Proof.
  induction k as [|k IH]; intros st pre suf grp Ti L1 L2 L3 Len.
  - eexists [(i, SLogged)], _, _. split.
    { intros j a [E|[]]. congruence. }
    cbn [srun]. unfold sstep_by. rewrite Ti.
    rewrite (proj2 (Nat.eqb_eq (length pre) _)) by lia. rewrite (proj2 (Nat.eqb_eq (length suf) _)) by lia.
    rewrite (proj2 (Nat.eqb_eq (length grp) _)) by lia. cbn [andb]. split; [reflexivity|]. cbn. rewrite set_same. auto.
  - assert (X : exists a st1 pre1 suf1 grp1, sstep_by std grow n D i a st = Some st1 /\ ss_log st1 = ss_log st /\
               st_at (ss_thr st1 i) = SReading x d r h pre1 suf1 grp1 /\
               length pre1 <= sl_len (q_prefix h) /\ length suf1 <= sl_len (q_suffix h) /\ length grp1 <= sl_len (q_groups h) /\
               (sl_len (q_prefix h) - length pre1) + (sl_len (q_suffix h) - length suf1) + (sl_len (q_groups h) - length grp1) = k).
    { destruct (Nat.ltb (length pre) (sl_len (q_prefix h))) eqn:E1; [|destruct (Nat.ltb (length suf) (sl_len (q_suffix h))) eqn:E2;
        [|destruct (Nat.ltb (length grp) (sl_len (q_groups h))) eqn:E3]].
      - exists SReadPrefix. unfold sstep_by. rewrite Ti, E1. apply Nat.ltb_lt in E1. do 4 eexists. split; [reflexivity|].
        split; [reflexivity|]. cbn. rewrite set_same. split; [reflexivity|]. rewrite !app_length. cbn. lia.
      - exists SReadSuffix. unfold sstep_by. rewrite Ti, E2. apply Nat.ltb_lt in E2. apply Nat.ltb_ge in E1. do 4 eexists. split; [reflexivity|].
        split; [reflexivity|]. cbn. rewrite set_same. split; [reflexivity|]. rewrite !app_length. cbn. lia.
      - exists SReadGroups. unfold sstep_by. rewrite Ti, E3. apply Nat.ltb_lt in E3. apply Nat.ltb_ge in E1, E2. do 4 eexists. split; [reflexivity|].
        split; [reflexivity|]. cbn. rewrite set_same. split; [reflexivity|]. rewrite !app_length. cbn. lia.
      - apply Nat.ltb_ge in E1, E2, E3. lia. }
    destruct X as (a & st1 & pre1 & suf1 & grp1 & A & El & Ti1 & M1 & M2 & M3 & Len1).
    destruct (IH st1 pre1 suf1 grp1 Ti1 M1 M2 M3 Len1) as (sched & st' & hv & O & Rn & Ti' & El').
    exists ((i, a) :: sched), st', hv. split.
    { intros j a' [E|I]; [congruence|eapply O; eauto]. }
    cbn. rewrite A. split; [exact Rn|]. split; [exact Ti'|]. rewrite El', El. reflexivity.
Qed.

(** A step does not touch the bytes of published handlers. *)
Lemma sstep_bytes i a st st' x f sd s : sinv st -> sstep_by std grow n D i a st = Some st' ->
  ss_slot st x = SPublished f -> bsl (ss_slot st x) sd = Some s -> gread (ss_bytes st') s = gread (ss_bytes st) s.
Proof.
  intros (_ & Bp & _) E Ex Es. unfold sstep_by in E. destruct (st_at (ss_thr st i)) as [|y|y d r h pre suf grp].
  - destruct a; try discriminate; destruct (st_tasks (ss_thr st i)) as [|[z|z d r] rest]; try discriminate.
    + destruct (ss_slot st z); try discriminate. destruct (sbegin_at std n D st z); [|discriminate]. injection E as <-. reflexivity.
    + destruct (ss_slot st z); try discriminate. destruct (starget d f0 r); [|discriminate]. injection E as <-. reflexivity.
  - destruct (ss_slot st y) as [|b|] eqn:Sy; try discriminate.
    assert (K : forall sd' q c h q', bsl (ss_slot st y) sd' = Some q -> bgrow (ss_slot st y) sd' = true ->
              gappend NUL grow (ss_bytes st) q c = (h, q') -> gread h s = gread (ss_bytes st) s).
    { intros sd' q c h q' By Gy Ea.
      assert (Ne : (x, sd) <> (y, sd')) by congruence.
      pose proof (proj2 Bp y sd' q x sd s Gy By Es Ne) as Ap.
      pose proof (apart_append NUL grow (ss_bytes st) q s c (proj1 Bp _ _ _ By) (proj1 Bp _ _ _ Es) Ap) as X. rewrite Ea in X. apply X. }
    destruct a; cbn [swrite] in E; try discriminate.
    + destruct (sb_pcopy b) as [q|] eqn:Ec; [|discriminate]. destruct (gappend NUL grow _ _ _) as [h q'] eqn:Ea. injection E as <-. cbn.
      apply (K true _ _ _ _ ltac:(rewrite Sy; reflexivity) ltac:(rewrite Sy; cbn; rewrite Ec; reflexivity) Ea).
    + destruct (sb_pcopy b) as [q|] eqn:Ec; [discriminate|]. destruct (sb_prest b) as [|c cs] eqn:Er; [discriminate|].
      destruct (gappend NUL grow _ _ _) as [h q'] eqn:Ea. injection E as <-. cbn.
      apply (K true _ _ _ _ ltac:(rewrite Sy; reflexivity) ltac:(rewrite Sy; cbn; rewrite Ec, Er; reflexivity) Ea).
    + destruct (sb_scopy b) as [q|] eqn:Ec; [|discriminate]. destruct (gappend NUL grow _ _ _) as [h q'] eqn:Ea. injection E as <-. cbn.
      apply (K false _ _ _ _ ltac:(rewrite Sy; reflexivity) ltac:(rewrite Sy; cbn; rewrite Ec; reflexivity) Ea).
    + destruct (sb_scopy b) as [q|] eqn:Ec; [discriminate|]. destruct (sb_srest b) as [|c cs] eqn:Er; [discriminate|].
      destruct (gappend NUL grow _ _ _) as [h q'] eqn:Ea. injection E as <-. cbn.
      apply (K false _ _ _ _ ltac:(rewrite Sy; reflexivity) ltac:(rewrite Sy; cbn; rewrite Ec, Er; reflexivity) Ea).
    + destruct (sb_grest b); [discriminate|]. destruct (gappend (nil : bytes) grow _ _ _). injection E as <-. reflexivity.
    + destruct (complete b); [|discriminate]. injection E as <-. reflexivity.
  - destruct a; try discriminate; match type of E with (if ?b then _ else _) = _ => destruct b; [|discriminate] end; injection E as <-; reflexivity.
Qed.

(** Nobody reads too far. *)
Definition bounded (ph : sphase) : Prop :=
  match ph with
  | SReading _ _ _ h pre suf grp =>
      length pre <= sl_len (q_prefix h) /\ length suf <= sl_len (q_suffix h) /\ length grp <= sl_len (q_groups h)
  | _ => True
  end.

Lemma sstep_bounded i a st st' : (forall j, bounded (st_at (ss_thr st j))) -> sstep_by std grow n D i a st = Some st' ->
  forall j, bounded (st_at (ss_thr st' j)).
Proof.
  intros Bd E. unfold sstep_by in E. pose proof (Bd i) as Bi.
  assert (K : forall t, bounded (st_at t) -> forall j, bounded (st_at (set (ss_thr st) i t j))).
  { intros t Bt j. unfold set. destruct (Nat.eqb j i); auto. }
  destruct (st_at (ss_thr st i)) as [|y|y d r h pre suf grp].
  - destruct a; try discriminate; destruct (st_tasks (ss_thr st i)) as [|[z|z d r] rest]; try discriminate.
    + destruct (ss_slot st z); try discriminate. destruct (sbegin_at std n D st z); [|discriminate]. injection E as <-. apply K. exact I.
    + destruct (ss_slot st z); try discriminate. destruct (starget d f r); [|discriminate]. injection E as <-. apply K. cbn. lia.
  - destruct (ss_slot st y) as [|b|] eqn:Sy; try discriminate.
    destruct a;
      try (match type of E with context [swrite grow st ?a b] => destruct (swrite grow st a b) as [[[bh gh] b']|] eqn:Ew; [|discriminate] end;
           injection E as <-; exact Bd).
    destruct (complete b); [|discriminate]. injection E as <-. apply K. exact I.
  - cbn in Bi. destruct a; try discriminate.
    + destruct (Nat.ltb_spec (length pre) (sl_len (q_prefix h))); [|discriminate]. injection E as <-. apply K. cbn. rewrite app_length. cbn. lia.
    + destruct (Nat.ltb_spec (length suf) (sl_len (q_suffix h))); [|discriminate]. injection E as <-. apply K. cbn. rewrite app_length. cbn. lia.
    + destruct (Nat.ltb_spec (length grp) (sl_len (q_groups h))); [|discriminate]. injection E as <-. apply K. cbn. rewrite app_length. cbn. lia.
    + match type of E with (if ?b then _ else _) = _ => destruct b; [|discriminate] end. injection E as <-. apply K. exact I.
Qed.

Lemma sreading_bounds T0 st i x d r h pre suf grp : sgets_to std grow n D T0 st ->
  st_at (ss_thr st i) = SReading x d r h pre suf grp ->
  length pre <= sl_len (q_prefix h) /\ length suf <= sl_len (q_suffix h) /\ length grp <= sl_len (q_groups h).
Proof.
  intros (sched & E) Ti.
  assert (K : forall sched st0, (forall j, bounded (st_at (ss_thr st0 j))) -> srun std grow n D sched st0 = Some st ->
            forall j, bounded (st_at (ss_thr st j))).
  { clear. induction sched as [|[i a] sched IH]; intros st0 Bd E; cbn in E.
    - injection E as <-. exact Bd.
    - destruct (sstep_by std grow n D i a st0) as [st1|] eqn:A; [|discriminate].
      exact (IH st1 (sstep_bounded i a st0 st1 Bd A) E). }
  specialize (K sched (sstart T0) (fun _ => I) E i). rewrite Ti in K. exact K.
Qed.

End Proofs.
