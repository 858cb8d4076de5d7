(** C71: what programs that log through a trace handler print. *)

From Coq Require Import Ascii String List ZArith NArith Bool Arith Lia.
From Verif Require Import Bytes BytesProofs Regex RegexProofs Slog Samples WarnRoundTrip Trace.
Import ListNotations.
Local Open Scope list_scope.

(** ** Specification *)

(** The calls the handlers get, with the number of derivations between the first
    handler and the one called. *)
Inductive event : Type :=
| EvEnabled (level : Z)
| EvHandle (level : Z) (msg : bytes) (attrs : list attr)
| EvAttrs (attrs : list attr)
| EvGroup (name : bytes).

Definition no_members (a : attr) : Prop := snd a = VGroup [].
(** The attributes without empty groups. *)
Inductive without_empty : list attr -> list attr -> Prop :=
| we_nil : without_empty [] []
| we_keep a l l' : ~ no_members a -> without_empty l l' -> without_empty (a :: l) (a :: l')
| we_drop a l l' : no_members a -> without_empty l l' -> without_empty (a :: l) l'.

(** [calls ds p evs]: with loggers of depths [ds], the program [p] makes the calls
    [evs].  A derivation that changes nothing is no call and gives a logger of the
    same depth. *)
Inductive calls : list nat -> list (nat * lcall) -> list (nat * event) -> Prop :=
| c_end ds : calls ds [] []
| c_nobody ds i c p evs : length ds <= i -> calls ds p evs -> calls ds ((i, c) :: p) evs
| c_same ds i d c p evs : nth_error ds i = Some d -> c = LWith [] \/ c = LGroup [] ->
    calls (ds ++ [d]) p evs -> calls ds ((i, c) :: p) evs
| c_attrs ds i d l p evs : nth_error ds i = Some d -> l <> [] ->
    calls (ds ++ [d + 1]) p evs -> calls ds ((i, LWith l) :: p) ((d, EvAttrs l) :: evs)
| c_group ds i d n p evs : nth_error ds i = Some d -> n <> [] ->
    calls (ds ++ [d + 1]) p evs -> calls ds ((i, LGroup n) :: p) ((d, EvGroup n) :: evs)
| c_enabled ds i d l p evs : nth_error ds i = Some d ->
    calls ds p evs -> calls ds ((i, LEnabled l) :: p) ((d, EvEnabled l) :: evs)
| c_log ds i d l t src m attrs attrs' p evs : nth_error ds i = Some d -> without_empty attrs attrs' ->
    calls ds p evs -> calls ds ((i, LLog l t src m attrs) :: p) ((d, EvEnabled l) :: (d, EvHandle l m attrs') :: evs).

Section Spec.
Variable value_string : value -> bytes.
Variable indent : bytes.

Definition pair_text (a : attr) : bytes := fst a ++ B "=" ++ value_string (snd a).
Definition joined (sep : bytes) (l : list bytes) : bytes :=
  match l with [] => [] | s :: l' => s ++ concat (map (fun x => sep ++ x) l') end.

(** The argument as it is shown. *)
Definition shown (e : event) : bytes :=
  match e with
  | EvEnabled l => B "Enabled(" ++ level_string l
  | EvHandle l m [] => B "Handle(" ++ level_string l ++ B " """ ++ m ++ B """"
  | EvHandle l m attrs => B "Handle(" ++ level_string l ++ B " """ ++ m ++ B """ {" ++ joined (B ", ") (map pair_text attrs) ++ B "}"
  | EvAttrs attrs => B "WithAttrs([" ++ joined (B " ") (map pair_text attrs) ++ B "]"
  | EvGroup n => B "WithGroup(" ++ n
  end.
(** The line of a call: the first indentation, two spaces for each derivation, the call. *)
Definition trace_line (x : nat * event) : bytes :=
  indent ++ repeat space (2 * fst x) ++ shown (snd x) ++ B ")".
End Spec.

(** The method called. *)
Definition method (e : event) : nat := match e with EvEnabled _ => 0 | EvHandle _ _ _ => 1 | EvAttrs _ => 2 | EvGroup _ => 3 end.

(** ** Proofs *)

Section Proofs.
Variable vs : value -> bytes.
Variable indent : bytes.

Definition at_depth (d : nat) : thandler := {| th_indent := indent ++ repeat space (2 * d) |}.

Lemma deeper d : {| th_indent := th_indent (at_depth d) ++ B "  " |} = at_depth (d + 1).
Proof.
  unfold at_depth. cbn [th_indent]. f_equal. rewrite <- app_assoc. f_equal. change (B "  ") with (repeat space 2).
  rewrite <- repeat_app. f_equal. lia.
Qed.

Lemma spaced_joined l : spaced l = joined (B " ") l.
Proof.
  destruct l as [|s l]; [reflexivity|]. revert s. induction l as [|s' l IH]; intros s; [cbn; now rewrite app_nil_r|].
  change (spaced (s :: s' :: l)) with (s ++ B " " ++ spaced (s' :: l)). rewrite IH. reflexivity.
Qed.

Lemma image_joined l : forall sep, l <> [] -> image_attrs vs sep l = sep ++ joined (B ", ") (map (pair_text vs) l).
Proof.
  assert (X : forall l, image_attrs vs (B ", ") l = concat (map (fun x => B ", " ++ x) (map (pair_text vs) l))).
  { clear l. induction l as [|a l IH]; [reflexivity|]. cbn [image_attrs map concat]. rewrite IH. now rewrite <- !app_assoc. }
  intros sep N. destruct l as [|a l]; [contradiction|]. cbn [image_attrs map joined]. now rewrite X.
Qed.

Lemma filter_without attrs : without_empty attrs (filter (fun a => match snd a with VGroup [] => false | _ => true end) attrs).
Proof.
  induction attrs as [|[k v] l IH]; [constructor|]. cbn [filter snd].
  destruct v as [ | | | | | | | | l0 | ]; try (apply we_keep; [discriminate|exact IH]).
  destruct l0; [apply we_drop; [reflexivity|exact IH]|apply we_keep; [discriminate|exact IH]].
Qed.

Lemma without_fun l a : without_empty l a -> forall b, without_empty l b -> a = b.
Proof.
  induction 1 as [|x l l' N W IH|x l l' N W IH]; intros b Hb; inversion Hb; subst; try contradiction; [reflexivity|f_equal|]; now apply IH.
Qed.

Lemma show_line d name e arg : shown vs e = B name ++ B "(" ++ arg ->
  tshow (at_depth d) name arg = trace_line vs indent (d, e) ++ [newline].
Proof.
  intros E. unfold tshow, trace_line. cbn [th_indent at_depth fst snd]. rewrite E. now rewrite <- !app_assoc.
Qed.

Lemma log_lines d l t src m attrs attrs' : without_empty attrs attrs' ->
  lcall_run vs (at_depth d) (LLog l t src m attrs) =
  ((trace_line vs indent (d, EvEnabled l) ++ [newline]) ++ trace_line vs indent (d, EvHandle l m attrs') ++ [newline], None).
Proof.
  intros W. cbn [lcall_run trace_enabled]. cbv iota. f_equal. f_equal; [now apply show_line|].
  unfold trace_handle. cbn [fst]. apply show_line. rewrite (without_fun _ _ (filter_without attrs) attrs' W).
  unfold record_image. cbn [r_level r_msg r_attrs]. destruct attrs' as [|a attrs']; [cbn [shown]; rewrite app_nil_r; reflexivity|].
  rewrite image_joined by discriminate. cbn [shown]. rewrite <- !app_assoc. reflexivity.
Qed.

Lemma calls_exist p : forall ds, exists evs, calls ds p evs.
Proof.
  induction p as [|[i c] p IH]; intros ds; [exists []; constructor|].
  destruct (nth_error ds i) as [d|] eqn:E.
  - destruct c as [[|a l]|[|b n]|l|l t src m attrs].
    + destruct (IH (ds ++ [d])) as (evs & X). exists evs. eapply c_same; eauto.
    + destruct (IH (ds ++ [d + 1])) as (evs & X). eexists. eapply c_attrs; [exact E|discriminate|exact X].
    + destruct (IH (ds ++ [d])) as (evs & X). exists evs. eapply c_same; eauto.
    + destruct (IH (ds ++ [d + 1])) as (evs & X). eexists. eapply c_group; [exact E|discriminate|exact X].
    + destruct (IH ds) as (evs & X). eexists. eapply c_enabled; eauto.
    + destruct (IH ds) as (evs & X). eexists. eapply c_log; [exact E|apply filter_without|exact X].
  - destruct (IH ds) as (evs & X). exists evs. apply c_nobody; [now apply nth_error_None|exact X].
Qed.

Lemma run_lines ds p evs : calls ds p evs ->
  lrun vs (map at_depth ds) p = concat (map (fun x => trace_line vs indent x ++ [newline]) evs).
Proof.
  induction 1 as [ds|ds i c p evs L C IH|ds i d c p evs E S C IH|ds i d l p evs E N C IH|ds i d n p evs E N C IH|ds i d l p evs E C IH|ds i d l t src m attrs attrs' p evs E W C IH];
    cbn [lrun]; try reflexivity.
  - rewrite (proj2 (nth_error_None (map at_depth ds) i)) by (rewrite map_length; exact L). exact IH.
  - rewrite (map_nth_error _ _ _ E). rewrite map_app in IH. destruct S as [-> | ->]; exact IH.
  - rewrite (map_nth_error _ _ _ E). destruct l as [|a l]; [contradiction|]. cbn [lcall_run trace_with_attrs map concat].
    rewrite deeper. rewrite map_app in IH. cbn [map] in IH. rewrite IH. f_equal. apply show_line. unfold attrs_image. rewrite spaced_joined. reflexivity.
  - rewrite (map_nth_error _ _ _ E). destruct n as [|b n]; [contradiction|]. cbn [lcall_run trace_with_group map concat].
    rewrite deeper. rewrite map_app in IH. cbn [map] in IH. rewrite IH. f_equal. apply show_line. reflexivity.
  - rewrite (map_nth_error _ _ _ E). cbn [lcall_run trace_enabled fst map concat]. rewrite IH. f_equal. apply show_line. reflexivity.
  - rewrite (map_nth_error _ _ _ E), (log_lines d l t src m attrs attrs' W). cbv iota. cbn [map concat]. rewrite IH. now rewrite <- !app_assoc.
Qed.

Lemma calls_fun ds p evs : calls ds p evs -> forall evs', calls ds p evs' -> evs = evs'.
Proof.
  induction 1 as [ds|ds i c p evs L C IH|ds i d c p evs E S C IH|ds i d l p evs E N C IH|ds i d n p evs E N C IH|ds i d l p evs E C IH|ds i d l t src m attrs attrs' p evs E W C IH];
    intros evs' X; inversion X; subst; try reflexivity;
    repeat match goal with
    | H1 : nth_error ?a ?b = Some ?x, H2 : nth_error ?a ?b = Some ?y |- _ => assert (x = y) by congruence; subst; clear H2
    | H1 : length ?a <= ?b, H2 : nth_error ?a ?b = Some _ |- _ => exfalso; apply nth_error_None in H1; congruence
    | H : _ \/ _ |- _ => destruct H as [H|H]; try discriminate H; try (injection H as ->)
    end; try contradiction; try congruence; try (f_equal; auto; fail); auto.
  rewrite (without_fun _ _ W _ ltac:(eassumption)). f_equal. f_equal. auto.
Qed.
End Proofs.

(** The output of a program is one text per call the handlers get. *)
Theorem C71_output vs indent p : exists evs, calls [0] p evs /\ (forall evs', calls [0] p evs' -> evs' = evs) /\
  lrun vs [trace_new indent] p = concat (map (fun x => trace_line vs indent x ++ [newline]) evs).
Proof.
  destruct (calls_exist p [0]) as (evs & C). exists evs. split; [exact C|]. split.
  - intros evs' C'. symmetry. exact (calls_fun [0] p evs C evs' C').
  - rewrite <- (run_lines vs indent [0] p evs C). cbn [map]. unfold at_depth. cbn [Nat.mul repeat]. now rewrite app_nil_r.
Qed.
Print Assumptions C71_output.

(** Text without line breaks. *)
Definition unbroken (s : bytes) : Prop := ~ In newline s.
Definition attr_unbroken (vs : value -> bytes) (a : attr) : Prop := unbroken (fst a) /\ unbroken (vs (snd a)).
Definition event_unbroken (vs : value -> bytes) (e : event) : Prop :=
  match e with
  | EvEnabled _ => True
  | EvHandle _ m l => unbroken m /\ Forall (attr_unbroken vs) l
  | EvAttrs l => Forall (attr_unbroken vs) l
  | EvGroup n => unbroken n
  end.

Lemma unbroken_app a b : unbroken (a ++ b) <-> unbroken a /\ unbroken b.
Proof. unfold unbroken. split; [intros H; split; intros K; apply H, in_or_app; auto|intros [H1 H2] K; apply in_app_or in K; tauto]. Qed.

Lemma unbroken_closed s : existsb (Ascii.eqb newline) s = false -> unbroken s.
Proof.
  intros H K. assert (X : existsb (Ascii.eqb newline) s = true) by (apply existsb_exists; exists newline; split; [exact K|apply Ascii.eqb_refl]).
  congruence.
Qed.

Lemma digits_unbroken n : unbroken (dec_of_N n).
Proof.
  intros K. pose proof (dec_of_N_digits n) as D. rewrite forallb_forall in D. apply D in K. discriminate K.
Qed.

Lemma level_unbroken l : unbroken (level_string l).
Proof.
  assert (S : forall z, unbroken (signed_dec z)).
  { intros z. unfold signed_dec, dec_of_Z. destruct z; (apply (unbroken_app [_]); split; [apply unbroken_closed; reflexivity|apply digits_unbroken]). }
  assert (X : forall b z, unbroken (B b) -> unbroken (level_str b z)).
  { intros b z H. unfold level_str. destruct (Z.eqb z 0); [exact H|apply unbroken_app; auto]. }
  unfold level_string. repeat match goal with |- context [if ?c then _ else _] => destruct c end; apply X, unbroken_closed; reflexivity.
Qed.

Lemma joined_unbroken vs sep l : unbroken sep -> Forall (attr_unbroken vs) l -> unbroken (joined sep (map (pair_text vs) l)).
Proof.
  intros Hs F. assert (P : Forall unbroken (map (pair_text vs) l)).
  { apply Forall_map. revert F. apply Forall_impl. intros a [H1 H2]. unfold pair_text. apply unbroken_app. split; [exact H1|].
    apply unbroken_app. split; [apply unbroken_closed; reflexivity|exact H2]. }
  destruct P as [|s ss Ps P]; [intros []|]. cbn [joined]. apply unbroken_app. split; [exact Ps|].
  induction P as [|x xs Px P IH]; [intros []|]. cbn [map concat]. apply unbroken_app. split; [apply unbroken_app; auto|exact IH].
Qed.

Lemma shown_unbroken vs e : event_unbroken vs e -> unbroken (shown vs e).
Proof.
  destruct e as [l|l m attrs|attrs|n]; cbn [event_unbroken shown].
  - intros _. apply unbroken_app. split; [apply unbroken_closed; reflexivity|apply level_unbroken].
  - intros [Hm F]. destruct attrs as [|a attrs]; rewrite !unbroken_app.
    + split; [apply unbroken_closed; reflexivity|]. split; [apply level_unbroken|]. split; [apply unbroken_closed; reflexivity|].
      split; [exact Hm|apply unbroken_closed; reflexivity].
    + split; [apply unbroken_closed; reflexivity|]. split; [apply level_unbroken|]. split; [apply unbroken_closed; reflexivity|].
      split; [exact Hm|]. split; [apply unbroken_closed; reflexivity|]. split; [|apply unbroken_closed; reflexivity].
      apply joined_unbroken; [apply unbroken_closed; reflexivity|exact F].
  - intros F. rewrite !unbroken_app. split; [apply unbroken_closed; reflexivity|]. split; [|apply unbroken_closed; reflexivity]. apply joined_unbroken; [apply unbroken_closed; reflexivity|exact F].
  - intros H. apply unbroken_app. split; [apply unbroken_closed; reflexivity|exact H].
Qed.

Lemma trace_line_unbroken vs indent d e : unbroken indent -> event_unbroken vs e -> unbroken (trace_line vs indent (d, e)).
Proof.
  intros Hi He. unfold trace_line. cbn [fst snd]. repeat (apply unbroken_app; split); [exact Hi| |now apply shown_unbroken|apply unbroken_closed; reflexivity].
  intros K. apply repeat_spec in K. discriminate K.
Qed.

(** Depth and method of a line. *)
Lemma spaces_same a : forall b s t, repeat space a ++ s = repeat space b ++ t -> hd_error s <> Some space -> hd_error t <> Some space -> a = b /\ s = t.
Proof.
  induction a as [|a IH]; intros [|b] s t E Hs Ht; cbn [repeat app] in E.
  - auto.
  - subst s. now destruct Hs.
  - subst t. now destruct Ht.
  - injection E as E. destruct (IH b s t E Hs Ht). auto.
Qed.

Lemma line_reads vs indent d d' e e' : trace_line vs indent (d, e) = trace_line vs indent (d', e') -> d = d' /\ method e = method e'.
Proof.
  unfold trace_line. cbn [fst snd]. intros E. apply app_inv_head in E.
  assert (H : forall x r, hd_error (shown vs x ++ r) <> Some space).
  { intros x r. destruct x as [l|l m [|]|l|n]; cbn; discriminate. }
  destruct (spaces_same _ _ _ _ E (H _ _) (H _ _)) as [E1 E2]. split; [lia|].
  destruct e as [l|l m [|]|l|n], e' as [l'|l' m' [|]|l'|n']; cbn in E2; try reflexivity; discriminate E2.
Qed.

Lemma lines_same (l l' : list bytes) : Forall unbroken l -> Forall unbroken l' ->
  concat (map (fun x => x ++ [newline]) l) = concat (map (fun x => x ++ [newline]) l') -> l = l'.
Proof.
  intros F. revert l'. induction F as [|x l Hx F IH]; intros [|x' l'] F' E; cbn [map concat] in E.
  - reflexivity.
  - destruct x'; discriminate E.
  - destruct x; discriminate E.
  - inversion F' as [|? ? Hx' F'']; subst. rewrite <- !app_assoc in E.
    assert (X : x = x').
    { clear IH F F' F''. revert x' Hx' E. induction x as [|c x IHx]; intros [|c' x'] Hx' E.
      - reflexivity.
      - injection E as E0 _. exfalso. apply Hx'. left. now symmetry.
      - injection E as E0 _. exfalso. apply Hx. now left.
      - injection E as -> E. f_equal. apply IHx; [intros K; apply Hx; now right|intros K; apply Hx'; now right|exact E]. }
    subst x'. f_equal. apply app_inv_head in E. injection E as E. apply IH; [exact F''|exact E].
Qed.

(** Without line breaks in the arguments the output has one line per call, and tells
    how deep the called handlers are and which methods are called: two programs with
    the same output make the same calls but for the arguments. *)
Theorem C71_reads vs indent p p' evs evs' : unbroken indent ->
  calls [0] p evs -> calls [0] p' evs' ->
  Forall (fun x => event_unbroken vs (snd x)) evs -> Forall (fun x => event_unbroken vs (snd x)) evs' ->
  length (split_on newline (lrun vs [trace_new indent] p)) = length evs + 1 /\
  (lrun vs [trace_new indent] p = lrun vs [trace_new indent] p' ->
   map (fun x => (fst x, method (snd x))) evs = map (fun x => (fst x, method (snd x))) evs').
Proof.
  intros Hi C C' F F'. destruct (C71_output vs indent p) as (e1 & C1 & U1 & E1). destruct (C71_output vs indent p') as (e2 & C2 & U2 & E2).
  rewrite <- (U1 _ C) in E1. rewrite <- (U2 _ C') in E2. rewrite E1, E2. clear C C' C1 C2 U1 U2 E1 E2 e1 e2.
  assert (U : forall es, Forall (fun x => event_unbroken vs (snd x)) es -> Forall unbroken (map (trace_line vs indent) es)).
  { intros es. intros Fe. apply Forall_map. revert Fe. apply Forall_impl. intros [d e] He. now apply trace_line_unbroken. }
  split.
  - specialize (U evs F). clear F F' evs'. induction evs as [|x evs IH]; [reflexivity|]. cbn [map concat length] in *. inversion U as [|? ? Ux Ur]; subst.
    rewrite <- app_assoc. cbn [app]. rewrite split_app by (apply without_in; exact Ux). cbn [length]. rewrite IH by exact Ur. reflexivity.
  - intros E. pose proof (U _ F) as U1. pose proof (U _ F') as U2.
    assert (M : forall es, map (fun x => trace_line vs indent x ++ [newline]) es = map (fun x => x ++ [newline]) (map (trace_line vs indent) es)).
    { intros es. now rewrite map_map. }
    rewrite !M in E. apply (lines_same _ _ U1 U2) in E. clear - E. revert evs' E. induction evs as [|[d e] evs IH]; intros [|[d' e'] evs'] E; try discriminate E; [reflexivity|].
    injection E as E1 E2. apply line_reads in E1. destruct E1 as [-> Em]. cbn [map fst snd]. rewrite Em, (IH _ E2). reflexivity.
Qed.
Print Assumptions C71_reads.

(** The arguments cannot be read back: one attribute may look like two. *)
Theorem C71_ambiguous indent : exists vs p p' l m attrs attrs',
  calls [0] p [(0, EvEnabled l); (0, EvHandle l m attrs)] /\ calls [0] p' [(0, EvEnabled l); (0, EvHandle l m attrs')] /\
  Forall (attr_unbroken vs) (attrs ++ attrs') /\ length attrs <> length attrs' /\
  lrun vs [trace_new indent] p = lrun vs [trace_new indent] p'.
Proof.
  set (vs := fun v => match v with VString s => s | _ => B "?" end).
  exists vs, [(0, LLog 0 time0 None (B "m") [(B "a", VString (B "1, b=2"))])],
    [(0, LLog 0 time0 None (B "m") [(B "a", VString (B "1")); (B "b", VString (B "2"))])].
  exists 0%Z, (B "m"), [(B "a", VString (B "1, b=2"))], [(B "a", VString (B "1")); (B "b", VString (B "2"))].
  split; [eapply c_log; [reflexivity|repeat constructor; discriminate|constructor]|].
  split; [eapply c_log; [reflexivity|repeat constructor; discriminate|constructor]|].
  split; [repeat constructor; apply unbroken_closed; reflexivity|]. split; [discriminate|].
  cbn [lrun nth_error lcall_run trace_enabled]. cbv iota. reflexivity.
Qed.
Print Assumptions C71_ambiguous.

(** A program with derived loggers, one of them not by a call, used alternately. *)
Definition program0 : list (nat * lcall) :=
  [(0, LWith [(B "id", VString (B "7"))]); (1, LGroup (B "g")); (0, LWith []); (9, LEnabled 4);
   (2, LLog 4 time0 None (B "hello") [(B "k", VString (B "v")); (B "e", VGroup []); (B "l", VString (B "w"))]);
   (3, LLog 0 time0 None (B "bye") [])].
Definition string0 (v : value) : bytes := match v with VString s => s | _ => B "?" end.

Example C71_ex : exists evs, calls [0] program0 evs /\ Forall (fun x => event_unbroken string0 (snd x)) evs /\
  lrun string0 [trace_new (B "-> ")] program0 =
    B "-> WithAttrs([id=7])" ++ newline :: B "->   WithGroup(g)" ++ newline :: B "->     Enabled(WARN)" ++ newline ::
    B "->     Handle(WARN ""hello"" {k=v, l=w})" ++ newline :: B "-> Enabled(INFO)" ++ newline :: B "-> Handle(INFO ""bye"")" ++ [newline].
Proof.
  eexists. split; [|split; [|vm_compute; reflexivity]].
  - eapply c_attrs; [reflexivity|discriminate|]. eapply c_group; [reflexivity|discriminate|]. eapply c_same; [reflexivity|now left|].
    eapply c_nobody; [cbn; lia|]. eapply c_log; [reflexivity| |].
    { apply we_keep; [discriminate|]. apply we_drop; [reflexivity|]. apply we_keep; [discriminate|constructor]. }
    eapply c_log; [reflexivity|constructor|constructor].
  - repeat constructor; apply unbroken_closed; reflexivity.
Qed.
