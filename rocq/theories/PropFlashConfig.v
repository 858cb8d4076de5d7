(** Properties C15 to C17: level filtering, level names and Extras.  A program
    is any list of actions from the empty world; handlers are numbered in the
    order they are made. *)

From Coq Require Import Ascii String List ZArith NArith Bool Lia.
From Verif Require Import Bytes BytesProofs Json JsonProofs Slog SlogProofs SpecLog SpecFlash
  Flash FlashProofs FlashRecord FlashConfig ConfigProofs Samples.
Import ListNotations.

(** ** C15 (the same code in flash and sloggy) *)

(** In every reachable state a handler has a threshold: Enabled does not panic
    and is exactly comparison with it. *)
Theorem C15_threshold prog w h : acts world0 prog = Some w -> h < length (w_handlers w) ->
  exists t, forall l, enabled w h l = Some (Z.leb t l).
Proof. apply enabled_threshold. Qed.
Print Assumptions C15_threshold.

Theorem C15_monotone prog w h l l' : acts world0 prog = Some w -> h < length (w_handlers w) ->
  (l <= l')%Z -> enabled w h l = Some true -> enabled w h l' = Some true.
Proof.
  intros P H L. destruct (C15_threshold prog w h P H) as (t & Ht). rewrite !Ht.
  intros [= E]. f_equal. apply Z.leb_le in E. apply Z.leb_le. lia.
Qed.
Print Assumptions C15_monotone.

(** No options: Info, for ever. *)
Theorem C15_default_info pre w e w1 post w2 l : acts world0 pre = Some w ->
  act w (NewHandler None e) = Some w1 -> acts w1 post = Some w2 ->
  enabled w2 (length (w_handlers w)) l = Some (Z.leb 0 l).
Proof. intros _. apply enabled_default. Qed.
Print Assumptions C15_default_info.

(** Options without a Leveler: Info, for ever; options with one: the level the
    Leveler returns when Enabled is called. *)
Theorem C15_leveler pre w p lo e w1 post w2 l : acts world0 pre = Some w ->
  nth_error (w_options w) p = Some lo ->
  act w (NewHandler (Some p) e) = Some w1 -> acts w1 post = Some w2 ->
  enabled w2 (length (w_handlers w)) l =
  Some (Z.leb match lo with None => 0 | Some (Fixed z) => z | Some (Dynamic v) => w_vars w2 v end l).
Proof. intros _ H A P. rewrite (enabled_given w p lo e w1 post w2 l H A P). destruct lo as [[z|v]|]; reflexivity. Qed.
Print Assumptions C15_leveler.

(** A handler made with a LevelVar follows the last Set. *)
Theorem C15_level_var pre w p v e w1 mid w2 z w3 post w4 l : acts world0 pre = Some w ->
  nth_error (w_options w) p = Some (Some (Dynamic v)) ->
  act w (NewHandler (Some p) e) = Some w1 -> acts w1 mid = Some w2 ->
  act w2 (SetVar v z) = Some w3 -> acts w3 post = Some w4 ->
  (forall a z', In a post -> a <> SetVar v z') ->
  enabled w4 (length (w_handlers w)) l = Some (Z.leb z l).
Proof.
  intros _ H A M S P N.
  assert (Pm : forall l a b c, acts a l = Some b -> forall l', acts b l' = Some c -> acts a (l ++ l') = Some c).
  { induction l0 as [|x l0 IH]; intros a b c Hl l' Hl'; cbn [acts app] in *; [congruence|].
    destruct (act a x); [|discriminate]. eapply IH; eauto. }
  assert (P' : acts w1 (mid ++ SetVar v z :: post) = Some w4).
  { eapply Pm; eauto. cbn [acts]. rewrite S. exact P. }
  rewrite (enabled_given w p _ e w1 _ w4 l H A P'). cbn [level_of].
  rewrite (vars_follow v z post w2 w3 w4 S P); auto.
  apply forallb_forall. intros a Ha. destruct a; auto. cbn. destruct (Nat.eqb_spec v0 v) as [->|]; auto.
  exfalso. eapply N; eauto.
Qed.
Print Assumptions C15_level_var.

(** A derived handler always agrees with its parent. *)
Theorem C15_derived pre w h w1 post w2 l : acts world0 pre = Some w ->
  act w (Derive h) = Some w1 -> acts w1 post = Some w2 ->
  enabled w2 (length (w_handlers w)) l = enabled w2 h l.
Proof. intros _ A P. apply (derived_same w h w1 post w2 A P). Qed.
Print Assumptions C15_derived.

(** The caller's options are completed in place. *)
Theorem C15_options_completed pre w p e w1 : acts world0 pre = Some w ->
  nth_error (w_options w) p = Some None -> act w (NewHandler (Some p) e) = Some w1 ->
  nth_error (w_options w1) p = Some (Some (Fixed 0%Z)).
Proof.
  intros _ H A. apply new_handler_spec in A as (po & pe & lo & lx & [-> Ho] & _ & _ & _ & H1 & _).
  rewrite H in Ho. injection Ho as <-. exact H1.
Qed.
Print Assumptions C15_options_completed.

(** A program with two families of handlers, one of them following a LevelVar
    (it splits as [C15_level_var] and [C15_derived] require, the last Set being
    the one in force). *)
Definition prog0 : list action :=
  [MakeOptions (Some (Dynamic 7)); MakeExtras blank_extras; NewHandler (Some 0) (Some 0); Derive 0;
   SetVar 7 (-4)%Z; NewHandler None None; Derive 2; SetVar 7 8%Z].

Example C15_runs : option_map (fun w => map (fun h => map (enabled w h) [(-5)%Z; 0%Z; 7%Z; 8%Z]) [0; 1; 2; 3; 4])
    (acts world0 prog0) =
  Some [[Some false; Some false; Some false; Some true]; [Some false; Some false; Some false; Some true];
        [Some false; Some true; Some true; Some true]; [Some false; Some true; Some true; Some true];
        [None; None; None; None]].
Proof. vm_compute. reflexivity. Qed.

(** ** C16 (flash) *)

(** The name flash logs, from the user's map. *)
Definition flash_level_text (ex : option extras) (l : Z) : bytes :=
  let user := match ex with None => [] | Some x => x_level_names x l end in
  match user with
  | _ :: _ => user
  | [] => if existsb (Z.eqb l) [(-4)%Z; 0%Z; 4%Z; 8%Z] then level_string l else []
  end.

Lemma level_text_names ex l : flash_level_text ex l = x_level_names (fix_extras ex) l.
Proof.
  rewrite names_spec. unfold flash_level_text, configured, standard.
  destruct (match ex with None => [] | Some x => x_level_names x l end); [|reflexivity].
  cbn [beq existsb]. unfold LevelDebug, LevelInfo, LevelWarn, LevelError.
  rewrite orb_false_r, !orb_assoc. reflexivity.
Qed.

(** The line has the level's text under the level key. *)
Theorem C16_flash_logged std : stdlib_ok std -> forall o ex ops r bs fs,
  o_replace o = None ->
  flash_header (keys (fix_extras ex)) (x_time_format (fix_extras ex)) (flash_level_text ex)
    (o_add_source o) r = Some bs ->
  nest (flash_meanings std (x_time_format (fix_extras ex))) ops (r_attrs r) = Some fs ->
  exists line flds, logs std o ex ops NoDead r (Done [line ++ [newline]] true) /\
    parse_json line = Some (JObj flds) /\
    In (x_level_key (fix_extras ex), JStr (flash_level_text ex (r_level r))) flds.
Proof.
  intros Hs o ex ops r bs fs No Hd Hn.
  assert (Hd' : flash_header (keys (fix_extras ex)) (x_time_format (fix_extras ex)) (x_level_names (fix_extras ex))
    (o_add_source o) r = Some bs).
  { rewrite <- Hd. unfold flash_header. rewrite level_text_names. reflexivity. }
  destruct (flash_record_json std Hs o ex ops r bs fs No Hd' Hn) as (line & L & P & _).
  exists line, (bs ++ fs). repeat split; auto. apply in_or_app. left.
  unfold flash_header in Hd. cbn [keys] in Hd.
  destruct (_ && _); [|discriminate].
  destruct (if t_zero (r_time r) then _ else _) as [t|]; [|discriminate].
  match type of Hd with match ?m with _ => _ end = _ => destruct m as [s|]; [|discriminate] end.
  injection Hd as <-. apply in_or_app. right. left. reflexivity.
Qed.
Print Assumptions C16_flash_logged.

Theorem C16_flash_standard ex l : In l [(-4)%Z; 0%Z; 4%Z; 8%Z] ->
  flash_level_text ex l <> [] /\
  (match ex with None => [] | Some x => x_level_names x l end = [] -> flash_level_text ex l = level_string l).
Proof.
  intros H.
  assert (S : existsb (Z.eqb l) [(-4)%Z; 0%Z; 4%Z; 8%Z] = true).
  { apply existsb_exists. exists l. split; auto. apply Z.eqb_refl. }
  split; unfold flash_level_text.
  - destruct (match ex with None => [] | Some x => x_level_names x l end); [|discriminate].
    rewrite S. apply level_string_nonempty.
  - intros ->. rewrite S. reflexivity.
Qed.
Print Assumptions C16_flash_standard.

Theorem C16_flash_unknown_empty ex l : ~ In l [(-4)%Z; 0%Z; 4%Z; 8%Z] ->
  match ex with None => [] | Some x => x_level_names x l end = [] -> flash_level_text ex l = [].
Proof.
  intros H E. unfold flash_level_text. rewrite E.
  destruct (existsb _ _) eqn:X; auto. apply existsb_exists in X as (z & Hz & Ez). apply Z.eqb_eq in Ez. subst z. contradiction.
Qed.
Print Assumptions C16_flash_unknown_empty.

(** Names for two levels, one of them not standard. *)
Definition extras16 : extras :=
  {| x_time_format := []; x_level_names := fun l => if Z.eqb l 0 then B "info" else if Z.eqb l 12 then B "FATAL" else [];
     x_level_key := B "severity"; x_message_key := []; x_source_key := []; x_time_key := [] |}.

Example C16_names : map (flash_level_text (Some extras16)) [(-4)%Z; 0%Z; 1%Z; 4%Z; 8%Z; 12%Z] =
  [B "DEBUG"; B "info"; []; B "WARN"; B "ERROR"; B "FATAL"].
Proof. reflexivity. Qed.

Example C16_flash_applies : exists bs fs,
  flash_header (keys (fix_extras (Some extras16))) (x_time_format (fix_extras (Some extras16)))
    (flash_level_text (Some extras16)) true (record0 attrs0) = Some bs /\
  nest (flash_meanings std0 (x_time_format (fix_extras (Some extras16)))) [WithGroup (B "g")]
    (r_attrs (record0 attrs0)) = Some fs.
Proof. eexists. eexists. split; vm_compute; reflexivity. Qed.

(** ** C17 *)

Theorem C17_idempotent ex : fix_extras (Some (fix_extras ex)) = fix_extras ex.
Proof. apply fix_idempotent. Qed.
Print Assumptions C17_idempotent.

(** Every non-empty setting stays. *)
Theorem C17_keeps x :
  let y := fix_extras (Some x) in
  (x_time_format x <> [] -> x_time_format y = x_time_format x) /\
  (x_level_key x <> [] -> x_level_key y = x_level_key x) /\
  (x_message_key x <> [] -> x_message_key y = x_message_key x) /\
  (x_source_key x <> [] -> x_source_key y = x_source_key x) /\
  (x_time_key x <> [] -> x_time_key y = x_time_key x) /\
  (forall l, x_level_names x l <> [] -> x_level_names y l = x_level_names x l).
Proof. apply fix_keeps. Qed.
Print Assumptions C17_keeps.

(** Nothing needed is left empty, and names are only added for the four
    standard levels. *)
Theorem C17_complete ex : let x := fix_extras ex in
  x_time_format x <> [] /\ x_level_key x <> [] /\ x_message_key x <> [] /\ x_source_key x <> [] /\
  x_time_key x <> [] /\
  (forall l, In l [(-4)%Z; 0%Z; 4%Z; 8%Z] -> x_level_names x l <> []) /\
  (forall l, ~ In l [(-4)%Z; 0%Z; 4%Z; 8%Z] ->
     x_level_names x l = match ex with None => [] | Some y => x_level_names y l end).
Proof.
  cbn zeta. destruct (fix_nonempty ex) as (H1 & H2 & H3 & H4 & H5). repeat split; auto.
  - intros l H. rewrite <- level_text_names. apply C16_flash_standard. exact H.
  - intros l H. rewrite <- level_text_names.
    destruct (match ex with None => [] | Some y => x_level_names y l end) as [|c t] eqn:E.
    + apply C16_flash_unknown_empty; auto.
    + unfold flash_level_text. rewrite E. reflexivity.
Qed.
Print Assumptions C17_complete.

(** With nothing set: slog's keys, RFC 3339 with nanoseconds, slog's names. *)
Theorem C17_defaults ex : ex = None \/ ex = Some blank_extras ->
  let x := fix_extras ex in
  x_time_format x = B "2006-01-02T15:04:05.999999999Z07:00" /\
  x_level_key x = B "level" /\ x_message_key x = B "msg" /\ x_source_key x = B "source" /\ x_time_key x = B "time" /\
  map (x_level_names x) [(-4)%Z; 0%Z; 4%Z; 8%Z] = [B "DEBUG"; B "INFO"; B "WARN"; B "ERROR"].
Proof. intros [->| ->]; repeat split. Qed.
Print Assumptions C17_defaults.

(** NewHandler completes the caller's structure, and the handler goes on reading
    it: later changes are seen by the handler ... *)
Theorem C17_in_place pre w o p w1 post w2 : acts world0 pre = Some w ->
  act w (NewHandler o (Some p)) = Some w1 -> acts w1 post = Some w2 ->
  (exists x, nth_error (w_extras w) p = Some x /\ nth_error (w_extras w1) p = Some (fix_extras (Some x))) /\
  settings_of w2 (length (w_handlers w)) = nth_error (w_extras w2) p.
Proof. intros _. apply new_settings. Qed.
Print Assumptions C17_in_place.

(** ... so handlers made from one structure, and handlers derived from them,
    always have the same settings, *)
Theorem C17_shared pre w o p w1 mid w2 o' w3 post w4 : acts world0 pre = Some w ->
  act w (NewHandler o (Some p)) = Some w1 -> acts w1 mid = Some w2 ->
  act w2 (NewHandler o' (Some p)) = Some w3 -> acts w3 post = Some w4 ->
  settings_of w4 (length (w_handlers w)) = settings_of w4 (length (w_handlers w2)).
Proof.
  intros _ A M A' P.
  assert (Pm : forall l a b c, acts a l = Some b -> forall l', acts b l' = Some c -> acts a (l ++ l') = Some c).
  { induction l as [|x l IH]; intros a b c Hl l' Hl'; cbn [acts app] in *; [congruence|].
    destruct (act a x); [|discriminate]. eapply IH; eauto. }
  assert (P' : acts w1 (mid ++ NewHandler o' (Some p) :: post) = Some w4).
  { eapply Pm; eauto. cbn [acts]. rewrite A'. exact P. }
  rewrite (proj2 (new_settings w o p w1 _ w4 A P')), (proj2 (new_settings w2 o' p w3 post w4 A' P)). reflexivity.
Qed.
Print Assumptions C17_shared.

Theorem C17_derived pre w h w1 post w2 : acts world0 pre = Some w ->
  act w (Derive h) = Some w1 -> acts w1 post = Some w2 ->
  settings_of w2 (length (w_handlers w)) = settings_of w2 h.
Proof. intros _ A P. apply (derived_same w h w1 post w2 A P). Qed.
Print Assumptions C17_derived.

(** whereas a handler made without Extras keeps the defaults, whatever happens
    to other structures. *)
Theorem C17_private pre w o w1 post w2 : acts world0 pre = Some w ->
  act w (NewHandler o None) = Some w1 -> acts w1 post = Some w2 ->
  (forall a x, In a post -> a <> WriteExtras (length (w_extras w)) x) ->
  settings_of w2 (length (w_handlers w)) = Some (fix_extras None).
Proof.
  intros _ A P N. apply (private_settings w o w1 post w2 A P).
  apply forallb_forall. intros a Ha. destruct a; auto. cbn.
  destruct (Nat.eqb_spec p (length (w_extras w))) as [->|]; auto. exfalso. eapply N; eauto.
Qed.
Print Assumptions C17_private.

(** Handlers 1 and 3 are made from one structure, 2 is derived from 1. *)
Definition prog17 : list action :=
  [MakeExtras extras16; NewHandler None None; NewHandler None (Some 0); Derive 1;
   WriteExtras 0 blank_extras; NewHandler None (Some 0)].

Example C17_shared_runs : map (fun n => option_map (fun w =>
    map (fun h => option_map x_level_key (settings_of w h)) [0; 1; 2; 3]) (acts world0 (firstn n prog17))) [4; 5; 6] =
  [Some [Some (B "level"); Some (B "severity"); Some (B "severity"); None];
   Some [Some (B "level"); Some []; Some []; None];
   Some [Some (B "level"); Some (B "level"); Some (B "level"); Some (B "level")]].
Proof. vm_compute. reflexivity. Qed.
