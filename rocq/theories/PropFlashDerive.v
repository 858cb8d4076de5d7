(** Property C66: deriving handlers while others derive and log. *)

From Coq Require Import Ascii String List ZArith NArith Bool Arith Lia.
From Verif Require Import Bytes Slog SpecLog SpecFlash Flash FlashProofs FlashCompose Samples History HistoryProofs
  Slices FlashHeap FlashHom FlashHeapProofs FlashConc FlashDerive SpecDerive Ledger FlashDeriveProofs PropDerive.
Import ListNotations.

(** Whatever goroutines derive and log at the same time: as long as a handler
    that has stored something is derived from at most once, every handler that
    has been published logs, at any moment, what a handler derived alone the
    same way logs. *)
Theorem C66_published std grow n D T st x f :
  shared_once std D -> gets_to std grow n D T st -> d_slot st x = Published f ->
  exists p, path_of D x p /\ forall d r out,
    flogs std (d_world st) f d r out <-> logs std (p_options p) (p_extras p) (p_ops p) d r out.
Proof.
  intros Disc Ge Ex. destruct (published_reads std grow n D T st x f Disc Ge Ex) as (p & P & G).
  exists p. split; [exact P|]. intros d r out. apply (flogs_of_path std n). exact G.
Qed.
Print Assumptions C66_published.

(** A log call that reads its handler byte by byte meanwhile has read the right
    handler: composing the record with what it has read writes what logging
    through a handler derived alone writes. *)
Theorem C66_logged std grow n D T st l :
  shared_once std D -> gets_to std grow n D T st -> In l (d_log st) ->
  exists p, path_of D (l_name l) p /\ forall out,
    logs std (p_options p) (p_extras p) (p_ops p) (l_dead l) (l_record l) out <->
    exists n0, forall m, n0 <= m -> handle std m (l_handler l) (l_record l) = Some out.
Proof.
  intros Disc Ge I. destruct (logged_reads std grow n D T st l Disc Ge I) as (p & g & P & G & V).
  exists p. split; [exact P|]. intros out. unfold of_path in G. split.
  - intros (n0 & H). exists (max n n0). intros m L. destruct (H m ltac:(lia)) as (g' & D' & Hh).
    rewrite (derive_mono std n m ltac:(lia) _ _ _ G) in D'. injection D' as <-.
    rewrite vtarget_handle, V in Hh. exact Hh.
  - intros (n0 & H). apply (logs_intro std _ _ _ _ _ (max n n0) g).
    + apply (derive_mono std n); auto; lia.
    + rewrite vtarget_handle, V. apply H. lia.
Qed.
Print Assumptions C66_logged.

(** And the call is the one that the machine of Handle calls (C09, C10) makes of
    a handler derived alone. *)
Lemma vtarget_call std m q r : forall g d, call_hdl std m q d g r =
  match vtarget d g r with None => None | Some h => call_of std m q h r end.
Proof.
  induction g as [h|h nm p IH]; intros d; cbn; [reflexivity|]. destruct d; cbn; try reflexivity;
  match goal with |- context [if ?x then _ else _] => destruct x end; auto.
Qed.

Theorem C66_calls std grow n D T st l :
  shared_once std D -> gets_to std grow n D T st -> In l (d_log st) ->
  exists p g, path_of D (l_name l) p /\ of_path std n p = Some g /\ forall m q,
    call_hdl std m q (l_dead l) g (l_record l) = call_of std m q (l_handler l) (l_record l).
Proof.
  intros Disc Ge I. destruct (logged_reads std grow n D T st l Disc Ge I) as (p & g & P & G & V).
  exists p, g. split; [exact P|]. split; [exact G|]. intros m q. rewrite vtarget_call, V. reflexivity.
Qed.
Print Assumptions C66_calls.

(** What is published stays, and stays the same. *)
Theorem C66_stable std grow n D T st sched st' x f :
  shared_once std D -> gets_to std grow n D T st -> drun std grow n D sched st = Some st' ->
  d_slot st x = Published f ->
  d_slot st' x = Published f /\
  forall d r out, flogs std (d_world st) f d r out <-> flogs std (d_world st') f d r out.
Proof.
  intros Disc Ge Rn Ex. pose proof (drun_published std grow n D sched st st' x f Rn Ex) as Ex'. split; [exact Ex'|].
  assert (Ge' : gets_to std grow n D T st').
  { destruct Ge as (s0 & E). exists (s0 ++ sched). rewrite drun_app, E. exact Rn. }
  destruct (published_reads std grow n D T st x f Disc Ge Ex) as (p & P & G).
  destruct (published_reads std grow n D T st' x f Disc Ge' Ex') as (p' & P' & G').
  assert (p' = p).
  { clear - P P'. revert p' P'. induction P as [x o e E|x y o p E P IH]; intros p' P'; inversion P'; subst; try congruence.
    rewrite E in H. injection H as <- <-. rewrite (IH _ H0). reflexivity. }
  subst p'. intros d r out.
  rewrite (flogs_of_path std n (d_world st) f p d r out G), (flogs_of_path std n (d_world st') f p d r out G'). reflexivity.
Qed.
Print Assumptions C66_stable.

(** Nobody waits for anybody: a goroutine that is making a handler can finish it
    by its own steps, whatever the others are doing. *)
Theorem C66_finishes std grow n D st i x b :
  t_at (d_thr st i) = DMaking x -> d_slot st x = Building b ->
  exists sched st' f, (forall j a, In (j, a) sched -> j = i) /\ drun std grow n D sched st = Some st' /\
    d_slot st' x = Published f /\ t_at (d_thr st' i) = DIdle.
Proof. intros Ti Ex. eapply making_finishes; eauto. Qed.
Print Assumptions C66_finishes.

(** A log call that is under way can finish by its own steps too; no discipline is
    needed for that. *)
Theorem C66_log_finishes std grow n D T st i x d r h pre suf grp : gets_to std grow n D T st ->
  t_at (d_thr st i) = DReading x d r h pre suf grp ->
  exists sched st' l, (forall j a, In (j, a) sched -> j = i) /\ drun std grow n D sched st = Some st' /\
    t_at (d_thr st' i) = DIdle /\ d_log st' = d_log st ++ [l] /\
    l_name l = x /\ l_dead l = d /\ l_record l = r.
Proof.
  intros Ge Ti. destruct (reading_bounds std grow n D T st i x d r h pre suf grp Ge Ti) as (L1 & L2 & L3).
  destruct (reading_finishes std grow n D i x d r h _ st pre suf grp Ti L1 L2 L3 eq_refl) as (sched & st' & hv & O & Rn & Ti' & El).
  exists sched, st', (mklogged x d r hv). auto 10.
Qed.
Print Assumptions C66_log_finishes.

(** ** Examples *)

(** One root, two children of it, a chain below the first. *)
Definition D0 (x : nat) : def :=
  match x with
  | 1 => DFrom 0 (WithAttrs [(B "a", VInt64 1)])
  | 2 => DFrom 0 (WithGroup (B "g"))
  | 3 => DFrom 1 (WithAttrs [(B "b", VInt64 2)])
  | _ => DNew (options1 None) None
  end.

(** Goroutine 0 makes the root and its first child, 1 the second child, 2 the
    grandchild; 3 logs through the first child. *)
Definition T0 (i : nat) : list task :=
  match i with
  | 0 => [Make 0; Make 1]
  | 1 => [Make 2]
  | 2 => [Make 3]
  | 3 => [Log 1 NoDead (record1 [])]
  | _ => []
  end.

Definition often (k : nat) (s : nat * act) : list (nat * act) := repeat s k.

(** The children are made at the same time; the log call reads half of the
    prefix, then the grandchild is made in the same array, then it reads the rest. *)
Definition sched0 : list (nat * act) :=
  [(0, ABegin); (0, APublish); (0, ABegin); (1, ABegin); (0, APrefix); (1, APrefix); (1, ASuffix)] ++
  often 4 (0, APrefix) ++ [(0, APublish); (3, AStart)] ++ often 3 (3, AReadPrefix) ++
  [(2, ABegin)] ++ often 6 (2, APrefix) ++ [(2, APublish); (1, APublish)] ++
  often 3 (3, AReadPrefix) ++ [(3, ALogged)].

Definition published (s : slot) : bool := match s with Published _ => true | _ => false end.

Lemma D0_once : shared_once std0 D0.
Proof.
  intros x x' y o o' p Ne E E' P. assert (y = 0) as ->.
  { destruct x as [|[|[|[|x]]]], x' as [|[|[|[|x']]]]; try discriminate; cbn in E, E'; congruence. }
  inversion P; subst; cbn in H; [|discriminate]. injection H as <- <-. exists 1. eexists. split; reflexivity.
Qed.

Example C66_ex grow : shared_once std0 D0 /\ exists st,
  drun std0 grow 10 D0 sched0 (dstart T0) = Some st /\
  map (fun x => published (d_slot st x)) [0; 1; 2; 3] = [true; true; true; true] /\
  map (fun l => (l_name l, handle std0 10 (l_handler l) (l_record l))) (d_log st) =
    [(1, Some (Done [B "{""level"": ""INFO"", ""msg"": ""m"", ""a"": 1}
"] true))].
Proof.
  split; [exact D0_once|].
  assert (E : option_map (fun st => (map (fun x => published (d_slot st x)) [0; 1; 2; 3],
      map (fun l => (l_name l, handle std0 10 (l_handler l) (l_record l))) (d_log st)))
      (drun std0 grow 10 D0 sched0 (dstart T0)) =
    Some ([true; true; true; true],
      [(1, Some (Done [B "{""level"": ""INFO"", ""msg"": ""m"", ""a"": 1}
"] true))])) by (vm_compute; reflexivity).
  destruct (drun std0 grow 10 D0 sched0 (dstart T0)) as [st|]; [|discriminate].
  exists st. split; [reflexivity|]. cbn [option_map] in E. apply some_inj, pair_equal_spec in E. exact E.
Qed.

(** While a goroutine is making a handler (as in C66_finishes). *)
Example C66_making_ex grow : exists st b,
  drun std0 grow 10 D0 [(0, ABegin); (0, APublish); (0, ABegin); (1, ABegin); (0, APrefix)] (dstart T0) = Some st /\
  t_at (d_thr st 0) = DMaking 1 /\ d_slot st 1 = Building b /\ length (b_prest b) = 4.
Proof.
  assert (E : option_map (fun st => (t_at (d_thr st 0), match d_slot st 1 with Building b => Some (length (b_prest b)) | _ => None end))
      (drun std0 grow 10 D0 [(0, ABegin); (0, APublish); (0, ABegin); (1, ABegin); (0, APrefix)] (dstart T0)) =
    Some (DMaking 1, Some 4)) by (vm_compute; reflexivity).
  destruct (drun std0 grow 10 D0 _ (dstart T0)) as [st|]; [|discriminate].
  cbn [option_map] in E. injection E as E1 E2. destruct (d_slot st 1) as [|b|] eqn:Eb; try discriminate.
  exists st, b. injection E2 as E2. auto.
Qed.

(** While a goroutine is logging (as in C66_log_finishes). *)
Example C66_reading_ex grow : exists st h pre suf grp,
  drun std0 grow 10 D0 (firstn 16 sched0) (dstart T0) = Some st /\
  t_at (d_thr st 3) = DReading 1 NoDead (record1 []) h pre suf grp /\ length pre = 3.
Proof.
  assert (E : option_map (fun st => match t_at (d_thr st 3) with DReading x d r _ pre _ _ => Some (x, d, r, length pre) | _ => None end)
      (drun std0 grow 10 D0 (firstn 16 sched0) (dstart T0)) = Some (Some (1, NoDead, record1 [], 3))) by (vm_compute; reflexivity).
  destruct (drun std0 grow 10 D0 _ (dstart T0)) as [st|]; [|discriminate].
  cbn [option_map] in E. apply some_inj in E.
  destruct (t_at (d_thr st 3)) as [| |x d r h pre suf grp] eqn:Et; try discriminate. apply some_inj in E.
  apply pair_equal_spec in E as [E L]. apply pair_equal_spec in E as [E ->]. apply pair_equal_spec in E as [-> ->].
  exists st, h, pre, suf, grp. auto.
Qed.

(** Two groups below one handler that has stored an attribute.  Goroutine 0 makes
    the handler and the first group, 1 makes the second group while 2 logs
    through the first: the line has a group that nobody ever opened. *)
Definition D1 (x : nat) : def :=
  match x with
  | 1 => DFrom 0 (WithAttrs [(B "a", VInt64 1)])
  | 2 => DFrom 1 (WithGroup (B "xx"))
  | 3 => DFrom 1 (WithGroup (B "yy"))
  | _ => DNew (options1 None) None
  end.

Definition T1 (i : nat) : list task :=
  match i with
  | 0 => [Make 0; Make 1; Make 2]
  | 1 => [Make 3]
  | 2 => [Log 2 NoDead (record1 [(B "k", VInt64 7)])]
  | _ => []
  end.

Definition sched1 : list (nat * act) :=
  [(0, ABegin); (0, APublish); (0, ABegin)] ++ often 5 (0, APrefix) ++
  [(0, APublish); (0, ABegin); (0, APrefix); (0, ASuffix); (0, APublish); (2, AStart)] ++
  often 10 (2, AReadPrefix) ++ [(1, ABegin); (1, APrefix)] ++ often 5 (2, AReadPrefix) ++
  [(2, AReadSuffix); (2, ALogged)].

Lemma map_single {A C} (f : A -> C) l v : map f l = [v] -> exists a, l = [a] /\ f a = v.
Proof. destruct l as [|a [|b l]]; cbn; try discriminate. intros E. exists a. split; [reflexivity|congruence]. Qed.

Theorem C66_torn grow : exists st l p,
  drun std0 grow 10 D1 sched1 (dstart T1) = Some st /\ d_log st = [l] /\
  path_of D1 (l_name l) p /\
  logs std0 (p_options p) (p_extras p) (p_ops p) (l_dead l) (l_record l)
    (Done [B "{""level"": ""INFO"", ""msg"": ""m"", ""a"": 1, ""xx"": {""k"": 7}}
"] true) /\
  handle std0 10 (l_handler l) (l_record l) =
    Some (Done [B "{""level"": ""INFO"", ""msg"": ""m"", ""a"": 1, ""xy"": {""k"": 7}}
"] true).
Proof.
  assert (E : option_map (fun st => map (fun l => (l_name l, l_dead l, l_record l, handle std0 10 (l_handler l) (l_record l))) (d_log st))
      (drun std0 grow 10 D1 sched1 (dstart T1)) =
    Some [(2, NoDead, record1 [(B "k", VInt64 7)],
           Some (Done [B "{""level"": ""INFO"", ""msg"": ""m"", ""a"": 1, ""xy"": {""k"": 7}}
"] true))]) by (vm_compute; reflexivity).
  destruct (drun std0 grow 10 D1 sched1 (dstart T1)) as [st|]; [|discriminate].
  apply some_inj, map_single in E. destruct E as (l & El & E').
  apply pair_equal_spec in E' as [E' E4]. apply pair_equal_spec in E' as [E' E3]. apply pair_equal_spec in E' as [E1 E2].
  exists st, l. eexists. split; [reflexivity|]. split; [exact El|]. rewrite E1. split.
  { eapply path_from; [reflexivity|]. eapply path_from; [reflexivity|]. apply path_new. reflexivity. }
  split; [|exact E4]. rewrite E2, E3.
  eapply (logs_intro std0 _ _ _ _ _ 10); [vm_compute; reflexivity|]. vm_compute. reflexivity.
Qed.
Print Assumptions C66_torn.
