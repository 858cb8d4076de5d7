(** The record a program should give, and the map the interpreter builds. *)

From Coq Require Import Ascii String List ZArith NArith Bool Arith Lia QArith Qcanon.
From Verif Require Import Bytes BytesProofs GoSort Json Slog SlogProofs SpecLog Replace Warnings BenchChecks SpecChecks ChecksProofs
  Complex SpecComplex ComplexProofs.
Import ListNotations.
Local Open Scope nat_scope.
Local Open Scope list_scope.

Section Decoded.
Variable X : tools.
Variable mark : warning -> bool.
Variable text : bytes -> bool.
Variable num : bytes -> option Qc.
Hypothesis NEUTRAL : neutral mark.
Hypothesis INTS : reads_ints num X.
Hypothesis TEXTS : forall s, text s = true -> valid_utf8 s = true.

Notation adds := (adds X mark).
Notation conc := (conc X mark).
Notation mean := (meaning (fun _ => None) (fun _ => None) (string_json text) (resolved_json text)).

(** ** Attributes *)

Definition decodes (k : bytes) (v : value) : Prop :=
  exists j d, mean k v = Some [(k, j)] /\ decode num j = Some d /\ attr_value X mark false v = Some d /\ ~ hollow d /\ valid d /\
    valid_utf8 k = true.

Lemma key_one k j : text k = true -> one (string_json text) k (Some j) = Some [(k, j)].
Proof. unfold one, string_json. intros ->. reflexivity. Qed.

Lemma attrs_json_cons a l : attrs_json text (a :: l) =
  match mean (fst a) (snd a), attrs_json text l with Some x, Some y => Some (x ++ y) | _, _ => None end.
Proof. reflexivity. Qed.

Lemma group_mean l k : k <> [] -> mean k (VGroup l) =
  match attrs_json text l with
  | Some [] => if empty_group l then Some [] else None
  | Some fs => one (string_json text) k (Some (JObj fs))
  | None => None
  end.
Proof.
  intros K. destruct k as [|c k]; [contradiction|]. cbn [meaning].
  assert (G : forall l, (fix go (l : list (bytes * value)) : option fields :=
           match l with
           | [] => Some []
           | (k', v') :: l' => match mean k' v', go l' with Some a, Some b => Some (a ++ b) | _, _ => None end
           end) l = attrs_json text l).
  { clear. induction l as [|[k v] l IH]; [reflexivity|]. rewrite attrs_json_cons, IH. reflexivity. }
  rewrite G. reflexivity.
Qed.

Lemma adds_cons a l d : adds (a :: l) d = adds l (match attr_value X mark false (snd a) with Some v => put (fst a) v d | None => d end).
Proof. reflexivity. Qed.

Lemma adds_all l : Forall (fun a => decodes (fst a) (snd a)) l -> exists fs, attrs_json text l = Some fs /\ map fst fs = map fst l /\
  forall d, decode_fields num fs d = Some (adds l d).
Proof.
  induction 1 as [|[k v] l (j & x & H1 & H2 & H3 & _ & _ & VK) F (fs & E & K & D)]; [exists []; repeat split; reflexivity|].
  cbn [fst snd] in *. exists ((k, j) :: fs). rewrite attrs_json_cons. cbn [fst snd]. rewrite H1, E. split; [reflexivity|]. split; [cbn; now rewrite K|].
  intros d. cbn [decode_fields]. rewrite VK, H2, D, adds_cons. cbn [fst snd]. now rewrite H3.
Qed.

Lemma valid_put k v (d : dmap) : valid v -> valid (DMap d) -> valid (DMap (put k v d)).
Proof.
  intros V D. apply valid_of; [apply wf_put, valid_wf, D|]. intros x u. rewrite get_put.
  destruct (beq k x); [now intros [= <-]|apply (valid_get x u d D)].
Qed.

Lemma adds_valid l : Forall (fun a => decodes (fst a) (snd a)) l -> forall d, valid (DMap d) -> valid (DMap (adds l d)).
Proof.
  induction 1 as [|[k v] l (j & x & _ & _ & H3 & _ & V & _) F IH]; intros d D; [exact D|].
  rewrite adds_cons. cbn [fst snd] in *. rewrite H3. apply IH. now apply valid_put.
Qed.

Lemma hollow_get (d : dmap) k v : hollow (DMap d) -> get k d = Some v -> hollow v.
Proof. intros H G. inversion H as [l F]; subst. rewrite Forall_forall in F. apply get_some_in in G. apply (F _ G). Qed.

Lemma adds_key l : Forall (fun a => decodes (fst a) (snd a)) l -> forall d k, get k (adds l d) = None \/ (In k (map fst l) /\ ~ void (get k (adds l d))) \/ get k (adds l d) = get k d.
Proof.
  induction 1 as [|[k0 v] l (j & x & _ & _ & H3 & NH & _) F IH]; intros d k; [right; right; reflexivity|].
  rewrite adds_cons. cbn [fst snd] in *. rewrite H3. destruct (IH (put k0 x d) k) as [E|[[I N]|E]]; [now left|right; left; split; [now right|exact N]|].
  rewrite E, get_put. destruct (beq k0 k) eqn:Q; [|tauto]. apply beq_eq in Q. subst. right. left. split; [now left|exact NH].
Qed.

Lemma adds_in l : Forall (fun a => decodes (fst a) (snd a)) l -> forall d k, In k (map fst l) -> ~ void (get k (adds l d)).
Proof.
  induction 1 as [|[k0 v] l (j & x & _ & _ & H3 & NH & _) F IH]; intros d k I; [destruct I|].
  rewrite adds_cons. cbn [fst snd map] in *. rewrite H3. destruct (in_dec (list_eq_dec ascii_dec) k (map fst l)) as [I'|NI]; [now apply IH|].
  destruct I as [->|I]; [|contradiction].
  destruct (adds_key l F (put k x d) k) as [E|[[I _]|E]]; [|contradiction|].
  - assert (G : forall l (d : dmap), get k d <> None -> get k (adds l d) <> None).
    { clear. induction l as [|a l IH]; intros d G; [exact G|]. rewrite adds_cons. apply IH.
      destruct (attr_value X mark false (snd a)); [|exact G]. rewrite get_put. destruct (beq (fst a) k); [discriminate|exact G]. }
    destruct (G l (put k x d)); [rewrite get_put_same; discriminate|exact E].
  - rewrite E, get_put_same. exact NH.
Qed.

Lemma adds_out l d k : ~ In k (map fst l) -> get k (adds l d) = get k d.
Proof.
  revert d. induction l as [|a l IH]; intros d NI; [reflexivity|]. rewrite adds_cons. rewrite IH by (intros I; apply NI; now right).
  destruct (attr_value X mark false (snd a)); [|reflexivity]. rewrite get_put.
  destruct (beq (fst a) k) eqn:Q; [|reflexivity]. apply beq_eq in Q. subst. destruct NI. now left.
Qed.

Lemma sound_decodes v : sound_value text num X v -> forall k, k <> [] -> text k = true -> decodes k v.
Proof.
  destruct (marks mark NEUTRAL) as (_ & _ & MR & MD & M1 & M2 & M3).
  revert v. apply (value_rect' (fun v => sound_value text num X v -> forall k, k <> [] -> text k = true -> decodes k v)).
  - intros a S0. inversion S0.
  - intros b _ k K T. exists (JBool b), (DBool b). destruct k as [|c k]; [contradiction|]. cbn [meaning is_empty leaf].
    rewrite key_one by exact T. repeat split; try constructor; [intros H; inversion H|now apply TEXTS].
  - intros z S0 k K T. inversion S0; subst. exists (JNum (dec_of_Z z)), (DNum (x_int X z)). destruct k as [|c k]; [contradiction|]. cbn [meaning is_empty leaf].
    rewrite key_one by exact T. cbn [decode attr_value]. rewrite INTS by lia. rewrite MD, M1, M2, M3. cbn [andb].
    repeat split; try constructor; [intros H; inversion H|now apply TEXTS].
  - intros f S0 k K T. inversion S0 as [| | | |t N1 N2| | |]; subst. exists (JNum t), (DNum (x_float X t)). destruct k as [|c k]; [contradiction|]. cbn [meaning is_empty leaf].
    rewrite N1. rewrite key_one by exact T. cbn [decode attr_value]. rewrite N2.
    repeat split; try constructor; [intros H; inversion H|now apply TEXTS].
  - intros z S0 k K T. inversion S0; subst. exists (JNum (dec_of_Z z)), (DNum (x_int X z)). destruct k as [|c k]; [contradiction|]. cbn [meaning is_empty leaf].
    rewrite key_one by exact T. cbn [decode attr_value]. rewrite INTS by lia.
    repeat split; try constructor; [intros H; inversion H|now apply TEXTS].
  - intros s S0 k K T. inversion S0 as [| | | | |s' TS| |]; subst. exists (JStr s), (DStr s). pose proof (TEXTS s TS) as VS. destruct k as [|c k]; [contradiction|]. cbn [meaning is_empty leaf].
    unfold string_json at 2. rewrite TS. rewrite key_one by exact T. cbn [decode]. rewrite VS.
    repeat split; try constructor; [intros H; inversion H|now apply TEXTS].
  - intros t S0. inversion S0.
  - intros n S0 k K T. inversion S0; subst. exists (JNum (dec_of_Z (Z.of_N n))), (DNum (x_int X (Z.of_N n))). destruct k as [|c k]; [contradiction|]. cbn [meaning is_empty leaf].
    assert (DN : dec_of_Z (Z.of_N n) = dec_of_N n) by (destruct n; reflexivity). rewrite <- DN.
    rewrite key_one by exact T. cbn [decode attr_value]. rewrite INTS by lia.
    repeat split; try constructor; [intros H; inversion H|now apply TEXTS].
  - intros l F S0 k K T. inversion S0 as [| | | | | | |l' NE FL]; subst.
    assert (FD : Forall (fun a => decodes (fst a) (snd a)) l).
    { rewrite Forall_forall in *. intros a I. destruct (FL a I) as (A1 & A2 & A3). now apply (F a I). }
    destruct (adds_all l FD) as (fs & E & KE & D).
    exists (JObj fs), (DMap (adds l [])). rewrite group_mean by exact K. rewrite E.
    destruct l as [|a l]; [contradiction|]. destruct fs as [|f fs]; [discriminate|].
    split; [now apply key_one|]. split; [rewrite decode_obj, D; reflexivity|]. split; [apply value_group|]. split.
    + intros H. apply (adds_in (a :: l) FD [] (fst a)); [now left|].
      destruct (get (fst a) (adds (a :: l) [])) as [u|] eqn:G; cbn [void]; [|exact I]. exact (hollow_get _ _ _ H G).
    + split; [apply adds_valid; [exact FD|repeat constructor]|now apply TEXTS].
  - intros nx o IH S0 k K T. inversion S0 as [| | | | | |s o' TS|]; subst. exists (JStr s), (DStr s). pose proof (TEXTS s TS) as VS. cbn [meaning].
    change (resolve (VLogValuer (VString s) o)) with (VString s). destruct k as [|c k]; [contradiction|]. cbn [is_empty resolved_json].
    unfold string_json at 2. rewrite TS. rewrite key_one by exact T. cbn [decode]. rewrite VS. cbn [attr_value]. rewrite MR.
    repeat split; try constructor; [intros H; inversion H|now apply TEXTS].
Qed.

Lemma sound_all l : Forall (sound text num X) l -> Forall (fun a => decodes (fst a) (snd a)) l.
Proof. intros F. rewrite Forall_forall in *. intros a I. destruct (F a I) as (A1 & A2 & A3). now apply sound_decodes. Qed.

(** ** Programs *)

Lemma nest_attached (m : list attr) ops l : nest (attrs_json text) (attached m ++ ops) l =
  match attrs_json text m, nest (attrs_json text) ops l with Some a, Some b => Some (a ++ b) | _, _ => None end.
Proof.
  destruct m as [|a m]; [|reflexivity]. cbn [attached app]. change (attrs_json text []) with (@Some fields []).
  destruct (nest _ ops l); reflexivity.
Qed.

Lemma untouched_app l o1 o2 : untouched l (o1 ++ o2) = untouched l o2 && forallb named_group o1.
Proof. unfold untouched. rewrite forallb_app. destruct (forallb is_empty l), (forallb named_group o1), (forallb named_group o2); reflexivity. Qed.

Lemma untouched_bare m ss l : Forall (sound text num X) l -> untouched l (attached m ++ program_ops ss) = true -> m ++ program_attrs ss l = [].
Proof.
  intros F U. rewrite untouched_app in U. apply andb_true_iff in U. destruct U as [U A].
  destruct m as [|a m]; [|discriminate]. cbn [app]. clear A.
  induction ss as [|[c b m|b m] ss IH].
  - cbn [program_ops map concat] in U. unfold untouched in U. cbn in U. rewrite andb_true_r in U.
    destruct l as [|[k v] l]; [reflexivity|]. inversion F as [|a l' S0 F']; subst. destruct S0 as (K & _). cbn [forallb fst] in *.
    destruct k as [|c k]; [contradiction|]. discriminate.
  - unfold program_ops in U. cbn [map concat step_ops] in U. rewrite <- app_comm_cons in U. change (WithGroup (group_name c) :: attached m ++ concat (map step_ops ss)) with ([WithGroup (group_name c)] ++ (attached m ++ program_ops ss)) in U.
    rewrite !untouched_app in U. apply andb_true_iff in U. destruct U as [U _]. apply andb_true_iff in U. destruct U as [U A].
    destruct m as [|x m]; [|discriminate]. unfold program_attrs. cbn [map concat step_attrs app]. now apply IH.
  - unfold program_ops in U. cbn [map concat step_ops] in U. fold (program_ops ss) in U. rewrite untouched_app in U.
    apply andb_true_iff in U. destruct U as [U A]. destruct m as [|x m]; [|discriminate]. unfold program_attrs. cbn [map concat step_attrs app]. now apply IH.
Qed.

Lemma bare_hollow ss l : program_attrs ss l = [] -> hollow (DMap (conc false [] ss l)).
Proof.
  unfold program_attrs. induction ss as [|[c b m|b m] ss IH]; cbn [map concat step_attrs app]; intros E.
  - subst. cbn. repeat constructor.
  - rewrite <- app_assoc in E. apply app_eq_nil in E. destruct E as [-> E]. cbn [ComplexProofs.conc basics_if put]. constructor. constructor; [|constructor].
    cbn [snd]. apply IH. exact E.
  - rewrite <- app_assoc in E. apply app_eq_nil in E. destruct E as [-> E]. cbn [ComplexProofs.conc]. apply IH. exact E.
Qed.

Lemma conc_valid ss l : Forall (sound text num X) (program_attrs ss l) -> forall first d, valid (DMap d) -> valid (DMap (conc first d ss l)).
Proof.
  unfold program_attrs.
  assert (BV : forall first d, valid (DMap d) -> valid (DMap (basics_if first d))).
  { intros [] d V; [|exact V]. apply valid_put; [constructor|]. apply valid_put; [constructor|exact V]. }
  induction ss as [|[c b m|b m] ss IH]; cbn [map concat step_attrs app ComplexProofs.conc]; intros F first d V.
  - apply adds_valid; [now apply sound_all|now apply BV].
  - rewrite <- app_assoc in F. apply Forall_app in F. destruct F as [Fm F]. apply BV. apply valid_put; [|exact V].
    apply IH; [exact F|]. apply adds_valid; [now apply sound_all|repeat constructor].
  - rewrite <- app_assoc in F. apply Forall_app in F. destruct F as [Fm F]. apply IH; [exact F|].
    apply adds_valid; [now apply sound_all|exact V].
Qed.

Lemma group_name_plain c : group_name c = "g"%char :: tl (group_name c).
Proof. reflexivity. Qed.

Lemma group_name_valid c : valid_utf8 (group_name c) = true.
Proof. destruct c as [[] [] [] [] [] [] [] []]; reflexivity. Qed.

Lemma decode_fields_valid fs : forall d r, valid (DMap d) -> decode_fields num fs d = Some r -> valid (DMap r).
Proof.
  induction fs as [|[k j] fs IH]; intros d r V; cbn [decode_fields]; [now intros [= <-]|].
  destruct (valid_utf8 k); [|discriminate]. destruct (decode num j) as [v|] eqn:D; [|discriminate]. apply IH. apply valid_put; [now apply (decode_valid num j)|exact V].
Qed.

Lemma put_alike k v w (d : dmap) : valid (DMap d) -> alike v w -> alike (DMap (put k v d)) (DMap (put k w d)).
Proof.
  intros V A. apply alike_map; [now apply wf_put, valid_wf|now apply wf_put, valid_wf|]. intros x. rewrite !get_put.
  destruct (beq k x); [now apply shown_alike|apply same_option_refl].
Qed.

Lemma nest_decode ss l : Forall (sound text num X) (program_attrs ss l) -> Forall openable ss -> forall beside, clash_free beside ss l ->
  exists fs, nest (attrs_json text) (program_ops ss) l = Some fs /\
    forall d, valid (DMap d) -> (forall c, In (group_name c) (keys d) -> In (group_name c) beside) ->
    exists r, decode_fields num fs d = Some r /\ alike (DMap r) (DMap (conc false d ss l)).
Proof.
  induction ss as [|[c b m|b m] ss IH]; intros F O beside C.
  - destruct (adds_all l (sound_all l F)) as (fs & E & _ & D). exists fs. split; [exact E|]. intros d V _. exists (adds l d).
    split; [apply D|apply alike_refl].
  - unfold program_attrs in F. cbn [map concat step_attrs] in F. rewrite <- app_assoc in F. apply Forall_app in F. destruct F as [Fm F].
    inversion O as [|s ss' Oc Os]; subst. cbn [openable] in Oc. cbn [clash_free] in C. destruct C as [C1 C2].
    unfold program_ops. cbn [map concat step_ops]. rewrite <- app_comm_cons. fold (program_ops ss).
    assert (N0 : forall ops, nest (attrs_json text) (WithGroup (group_name c) :: ops) l =
      if negb (SpecLog.plain (group_name c)) then None
      else if untouched l ops then Some []
      else match nest (attrs_json text) ops l with Some b => Some [(group_name c, JObj b)] | None => None end) by reflexivity.
    rewrite N0, Oc. cbn [negb]. clear N0.
    destruct (untouched l (attached m ++ program_ops ss)) eqn:U.
    + exists []. split; [reflexivity|]. intros d V K. exists d. split; [reflexivity|].
      assert (FL : Forall (sound text num X) l) by (apply Forall_app in F; tauto).
      pose proof (untouched_bare m ss l FL U) as Bare. specialize (C1 Bare).
      apply app_eq_nil in Bare. destruct Bare as [-> Bare]. cbn [ComplexProofs.conc basics_if]. change (adds [] []) with (@nil (bytes * dyn)).
      apply alike_map; [now apply valid_wf|apply wf_put; now apply valid_wf|]. intros x. rewrite get_put.
      destruct (beq (group_name c) x) eqn:Q; [|apply same_option_refl]. apply beq_eq in Q. subst x.
      assert (G : get (group_name c) d = None) by (apply get_none; intros I; apply C1; now apply K).
      rewrite G. cbn [shown]. assert (HB : hollowb (DMap (conc false [] ss l)) = true) by (apply hollowb_ok, bare_hollow; exact Bare).
      rewrite HB. constructor.
    + rewrite nest_attached. destruct (adds_all m (sound_all m Fm)) as (fm & Em & _ & Dm). rewrite Em.
      destruct (IH F Os (map fst m) C2) as (fs & E & D). rewrite E. eexists. split; [reflexivity|]. intros d V K.
      destruct (D (adds m [])) as (r & R1 & R2).
      { apply adds_valid; [now apply sound_all|repeat constructor]. }
      { intros c' I. destruct (in_dec (list_eq_dec ascii_dec) (group_name c') (map fst m)) as [Y|NY]; [exact Y|].
        apply get_keys in I. destruct I as [v G]. rewrite adds_out in G by exact NY. discriminate. }
      exists (put (group_name c) (DMap r) d). split.
      { cbn [decode_fields]. rewrite group_name_valid, decode_obj, decode_app, Dm, R1. reflexivity. }
      cbn [ComplexProofs.conc basics_if]. now apply put_alike.
  - unfold program_attrs in F. cbn [map concat step_attrs] in F. rewrite <- app_assoc in F. apply Forall_app in F. destruct F as [Fm F].
    inversion O as [|s ss' Oc Os]; subst. cbn [clash_free] in C.
    unfold program_ops. cbn [map concat step_ops]. fold (program_ops ss). rewrite nest_attached.
    destruct (adds_all m (sound_all m Fm)) as (fm & Em & _ & Dm). rewrite Em.
    destruct (IH F Os _ C) as (fs & E & D). rewrite E. eexists. split; [reflexivity|]. intros d V K.
    destruct (D (adds m d)) as (r & R1 & R2).
    { apply adds_valid; [now apply sound_all|exact V]. }
    { intros c' I. apply in_or_app. destruct (in_dec (list_eq_dec ascii_dec) (group_name c') (map fst m)) as [Y|NY]; [now right|left].
      apply K. apply get_keys. apply get_keys in I. destruct I as [v G]. rewrite adds_out in G by exact NY. now exists v. }
    exists r. split; [|exact R2]. rewrite decode_app, Dm. exact R1.
Qed.

Lemma adds_at l k : forall d d' : dmap, get k d = get k d' -> get k (adds l d) = get k (adds l d').
Proof.
  induction l as [|a l IH]; intros d d' H; [exact H|]. rewrite !adds_cons. apply IH.
  destruct (attr_value X mark false (snd a)); [|exact H]. rewrite !get_put. destruct (beq (fst a) k); [reflexivity|exact H].
Qed.

Lemma get_basics d k : get k (basics d) =
  if beq MessageKey k then Some (DStr test_message) else if beq LevelKey k then Some (DStr (B "INFO")) else get k d.
Proof. unfold basics. now rewrite !get_put. Qed.

Lemma group_not_basic c : beq MessageKey (group_name c) = false /\ beq LevelKey (group_name c) = false.
Proof. split; reflexivity. Qed.

Lemma conc_first ss l : (forall k, In k (outer_keys ss l) -> ~ In k [LevelKey; MessageKey]) -> forall d d' : dmap, (forall k, get k (basics d) = get k d') ->
  forall k, get k (conc true d ss l) = get k (conc false d' ss l).
Proof.
  induction ss as [|[c b m|b m] ss IH]; cbn [outer_keys ComplexProofs.conc basics_if]; intros O d d' H k.
  - apply adds_at, H.
  - rewrite get_basics. rewrite !get_put. destruct (group_not_basic c) as [N1 N2].
    destruct (beq (group_name c) k) eqn:Q.
    + apply beq_eq in Q. subst k. rewrite N1, N2. reflexivity.
    + rewrite <- H, get_basics. reflexivity.
  - apply IH; [intros x I; apply O; apply in_or_app; now right|]. intros x. rewrite get_basics.
    assert (NK : forall y, In y [LevelKey; MessageKey] -> ~ In y (map fst m)) by (intros y Iy I; apply (O y); [apply in_or_app; now left|exact Iy]).
    destruct (beq MessageKey x) eqn:E1.
    { apply beq_eq in E1. subst x. rewrite adds_out by (apply NK; cbn; tauto). rewrite <- H, get_basics, beq_refl. reflexivity. }
    destruct (beq LevelKey x) eqn:E2.
    { apply beq_eq in E2. subst x. rewrite adds_out by (apply NK; cbn; tauto). rewrite <- H, get_basics, E1, beq_refl. reflexivity. }
    apply adds_at. rewrite <- H, get_basics, E1, E2. reflexivity.
Qed.

Lemma program_decode ss l : good_program text num X ss l -> exists fs (rec : dmap), program_json text ss l = Some fs /\
  decode num (JObj fs) = Some (DMap rec) /\ valid (DMap rec) /\ alike (DMap rec) (DMap (conc true [] ss l)).
Proof.
  intros [GA GN GO GC]. destruct (nest_decode ss l GA GN [] GC) as (fs & E & D).
  assert (VB : valid (DMap (basics []))) by (apply valid_put; [constructor|]; apply valid_put; [constructor|repeat constructor]).
  destruct (D (basics []) VB) as (r & R1 & R2).
  { intros c I. exfalso. apply get_keys in I. destruct I as [v G]. rewrite get_basics in G. destruct (group_not_basic c) as [N1 N2].
    rewrite N1, N2 in G. discriminate. }
  exists ([(LevelKey, JStr (B "INFO")); (MessageKey, JStr (B "This is a message"))] ++ fs), r.
  assert (DR : decode num (JObj ([(LevelKey, JStr (B "INFO")); (MessageKey, JStr (B "This is a message"))] ++ fs)) = Some (DMap r)).
  { rewrite decode_obj, decode_app.
    assert (P : decode_fields num [(LevelKey, JStr (B "INFO")); (MessageKey, JStr (B "This is a message"))] [] = Some (basics [])) by reflexivity.
    rewrite P, R1. reflexivity. }
  split; [unfold program_json; rewrite E; reflexivity|]. split; [exact DR|]. split; [exact (decode_valid num _ _ DR)|].
  eapply alike_trans; [exact R2|]. apply alike_map.
  - apply valid_wf. apply conc_valid; [exact GA|exact VB].
  - apply valid_wf. apply conc_valid; [exact GA|repeat constructor].
  - intros k. rewrite <- (fun H => conc_first ss l H [] (basics []) (fun k => eq_refl)); [apply same_option_refl|].
    intros x I J. apply (GO x I). cbn in *. tauto.
Qed.

(** ** One case *)

Variable E : env.
Hypothesis MAPS : unmarshals_maps E.

Definition fixed (m : dmap) : dmap :=
  let m := drop TimeKey m in
  let m := match get (B "message") m with
           | Some v => drop (B "message") (put MessageKey v m)
           | None => m
           end in
  if mark level_case then
    match get LevelKey m with
    | Some (DStr s) => put LevelKey (DStr (map_runes (cs_upper (e_casing E)) s)) m
    | _ => m
    end
  else m.

Lemma fix_actual_is m : fix_actual mark (e_casing E) m = prune_list (fixed m).
Proof. unfold fix_actual. now rewrite remove_is. Qed.

Definition upper : option casing := if mark level_case then Some (e_casing E) else None.

Lemma get_fixed m k : get k (fixed m) = looked_at upper m k.
Proof.
  unfold fixed, looked_at, upper.
  set (m1 := match get (B "message") (drop TimeKey m) with Some v => _ | None => _ end).
  assert (G1 : get k m1 = if beq TimeKey k then None else if beq (B "message") k then None
    else if beq MessageKey k then match get (B "message") m with Some v => Some v | None => get k m end else get k m).
  { unfold m1. rewrite get_drop. change (beq TimeKey (B "message")) with false. cbv iota.
    destruct (get (B "message") m) as [v|] eqn:V.
    - rewrite get_drop, get_put, get_drop. destruct (beq (B "message") k) eqn:K2; [destruct (beq TimeKey k); reflexivity|].
      destruct (beq MessageKey k) eqn:K3; [|reflexivity]. apply beq_eq in K3. subst k. reflexivity.
    - rewrite get_drop. destruct (beq TimeKey k); [reflexivity|]. destruct (beq (B "message") k) eqn:K2.
      + apply beq_eq in K2. now subst k.
      + destruct (beq MessageKey k); reflexivity. }
  assert (GL : get LevelKey m1 = get LevelKey m).
  { unfold m1. rewrite get_drop. change (beq TimeKey (B "message")) with false. cbv iota.
    destruct (get (B "message") m) as [v|]; [rewrite get_drop, get_put|]; rewrite get_drop; reflexivity. }
  destruct (mark level_case).
  - rewrite GL. destruct (beq LevelKey k) eqn:KL.
    + apply beq_eq in KL. subst k. change (beq TimeKey LevelKey) with false in *. change (beq (B "message") LevelKey) with false in *.
      change (beq MessageKey LevelKey) with false in *. cbv iota in *.
      destruct (get LevelKey m) as [[]|] eqn:G; try (rewrite G1; reflexivity). now rewrite get_put_same.
    + transitivity (get k m1); [destruct (get LevelKey m) as [[]|]; try reflexivity; now rewrite get_put, KL|].
      rewrite G1. destruct (beq TimeKey k); [reflexivity|]. destruct (beq (B "message") k); [reflexivity|].
      destruct (beq MessageKey k); [reflexivity|]. destruct (get k m) as [[]|]; reflexivity.
  - rewrite G1. destruct (beq TimeKey k); [reflexivity|]. destruct (beq (B "message") k); [reflexivity|].
    destruct (beq MessageKey k); [reflexivity|]. destruct (get k m) as [[]|]; reflexivity.
Qed.

Lemma fixed_valid m : valid (DMap m) -> valid (DMap (fixed m)).
Proof.
  intros V. apply valid_of.
  - unfold fixed. set (m1 := match get (B "message") (drop TimeKey m) with Some v => _ | None => _ end).
    assert (W1 : wf m1).
    { unfold m1. destruct (get (B "message") (drop TimeKey m)); [apply wf_drop, wf_put|]; apply wf_drop, valid_wf, V. }
    destruct (mark level_case); [|exact W1]. destruct (get LevelKey m1) as [[]|]; try exact W1. now apply wf_put.
  - intros k v. rewrite get_fixed. unfold looked_at. destruct (beq TimeKey k); [discriminate|]. destruct (beq (B "message") k); [discriminate|].
    destruct (beq MessageKey k).
    + destruct (get (B "message") m) as [u|] eqn:U; [intros [= <-]; now apply (valid_get _ _ _ V U)|apply (valid_get k v m V)].
    + destruct upper, (get k m) as [[]|] eqn:G; try discriminate; try (intros [= <-]; now apply (valid_get _ _ _ V G)).
      destruct (beq LevelKey k); intros [= <-]; constructor.
Qed.

Lemma agreeing_alike (rec m : dmap) : valid (DMap rec) -> valid (DMap m) -> agreeing upper rec m <-> alike (DMap rec) (DMap (fixed m)).
Proof.
  intros V W. rewrite agree_alike by (try exact V; now apply fixed_valid). unfold agreeing. split.
  - intros A. apply agree_map. intros k. rewrite get_fixed. apply A.
  - intros A k. inversion A as [v w NM S0|l m0 G]; subst; [destruct NM; now eexists|]. specialize (G k). now rewrite get_fixed in G.
Qed.

Lemma equal_alike (a m : dmap) : valid (DMap a) -> valid (DMap m) ->
  deep_equal (DMap (prune_list a)) (DMap (fix_actual mark (e_casing E) m)) = true <-> alike (DMap a) (DMap (fixed m)).
Proof.
  intros V W. rewrite fix_actual_is. rewrite <- !prune_map. apply deep_equal_same; apply valid_prune; [exact V|now apply fixed_valid].
Qed.

(** The case as a function of whether the records agree. *)
Lemma case_is ss a l t captured m : spells (x_table X) ss a l t -> Forall (sound text num X) (program_attrs ss l) ->
  e_unmarshal E captured = (Some m, None) -> valid (DMap m) /\
  ((alike (DMap (conc true [] ss l)) (DMap (fixed m)) /\ complex_case X mark E t captured = ([], Some None)) \/
   (~ alike (DMap (conc true [] ss l)) (DMap (fixed m)) /\
    complex_case X mark E t captured = ((if mark mismatch then [] else [Differs t]), Some (Some (t, program_text ss a l))))).
Proof.
  intros S0 GA U. pose proof (MAPS captured m U) as V. split; [exact V|].
  destruct (run_ok X mark NEUTRAL ss a l t S0) as (p & P1 & P2 & _ & P4).
  assert (CV : valid (DMap (conc true [] ss l))) by (apply conc_valid; [exact GA|repeat constructor]).
  pose proof (equal_alike (conc true [] ss l) m CV V) as Q.
  unfold complex_case. rewrite P1, U, P2, P4.
  destruct (deep_equal (DMap (prune_list (conc true [] ss l))) (DMap (fix_actual mark (e_casing E) m))) eqn:DE.
  - left. split; [now apply Q|]. destruct (mark mismatch); reflexivity.
  - right. split; [intros A; apply Q in A; congruence|]. destruct (mark mismatch); reflexivity.
Qed.

Lemma case_agreeing ss a l t captured m fs rec : spells (x_table X) ss a l t -> good_program text num X ss l ->
  program_json text ss l = Some fs -> decode num (JObj fs) = Some (DMap rec) -> e_unmarshal E captured = (Some m, None) ->
  (agreeing upper rec m /\ complex_case X mark E t captured = ([], Some None)) \/
  (~ agreeing upper rec m /\
    complex_case X mark E t captured = ((if mark mismatch then [] else [Differs t]), Some (Some (t, program_text ss a l)))).
Proof.
  intros S0 G J D U. destruct (program_decode ss l G) as (fs' & rec' & J' & D' & VR & A).
  rewrite J in J'. injection J' as <-. rewrite D in D'. injection D' as <-.
  destruct (case_is ss a l t captured m S0 (good_attrs _ _ _ _ _ G) U) as [V H].
  pose proof (agreeing_alike rec m VR V) as Q.
  destruct H as [[H1 H2]|[H1 H2]]; [left|right]; (split; [|exact H2]).
  - apply Q. eapply alike_trans; [exact A|exact H1].
  - intros Y. apply H1. eapply alike_trans; [apply alike_sym, A|now apply Q].
Qed.
End Decoded.
