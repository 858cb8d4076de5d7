(** Properties C03 to C06 and C11 to C14 for flash. *)

From Coq Require Import Ascii String List ZArith NArith Bool Lia.
From Verif Require Import Bytes BytesProofs Json JsonProofs Slog SlogProofs SpecLog SpecFlash
  Flash EscapeProofs TextProofs FlashProofs FlashRecord FlashLaws FlashCompose Samples.
Import ListNotations.

(** The settings in force for an Extras argument. *)
Local Notation settings ex := (fix_extras ex).
Local Notation view_of std o ex :=
  (flash_view std (x_time_format (settings ex)) (basic_field (settings ex)) (o_replace o)).

(** ** C03 *)

Theorem C03_flash_record_json std : stdlib_ok std -> forall o ex ops r bs fs,
  o_replace o = None ->
  flash_header (keys (settings ex)) (x_time_format (settings ex)) (x_level_names (settings ex))
    (o_add_source o) r = Some bs ->
  nest (flash_meanings std (x_time_format (settings ex))) ops (r_attrs r) = Some fs ->
  exists line, logs std o ex ops NoDead r (Done [line ++ [newline]] true) /\
    parse_json line = Some (JObj (bs ++ fs)).
Proof.
  intros Hs o ex ops r bs fs No Hd Hn.
  destruct (flash_record_json std Hs o ex ops r bs fs No Hd Hn) as (line & L & P & _). eauto.
Qed.
Print Assumptions C03_flash_record_json.

(** Without ReplaceAttr every call has an outcome (no unbounded recursion). *)
Theorem C03_flash_total std o ex ops d r : o_replace o = None ->
  exists out, logs std o ex ops d r out /\ forall out', logs std o ex ops d r out' -> out' = out.
Proof.
  intros No. destruct (logs_total std o ex ops d r No) as (out & L). exists out. split; auto.
  intros out' L'. eapply logs_fun; eauto.
Qed.
Print Assumptions C03_flash_total.

Definition ops0 : list op :=
  [WithAttrs [(B "pre", VUint64 1)]; WithGroup (B "outer"); WithAttrs attrs0; WithGroup []; WithGroup (B "inner")].

Example C03_applies :
  flash_header (keys (settings None)) (x_time_format (settings None)) (x_level_names (settings None)) true
    (record0 attrs0) =
  Some [(B "time", JStr (B "2024-03-01T10:00:00Z")); (B "level", JStr (B "WARN"));
        (B "msg", JStr (B "hello ""world"""));
        (B "source", JObj [(B "function", JStr (B "main.main")); (B "file", JStr (B "/tmp/a b.go"));
                           (B "line", JNum (B "42"))])] /\
  let inner := [(B "n", JNum (B "-7")); (B "inl", JBool true);
                (B "deep", JObj [(B "f", JNum (B "1.5")); (B "t", JStr (B "2024-03-01T10:00:00Z"))]);
                (B "any", JObj [(B "a", JArr [JNum (B "1"); JNum (B "2")])]);
                (B "lv", JStr (B "tab	")); (B "key ""q""", JNum (B "5")); (B "nil", JNull)] in
  nest (flash_meanings std0 (x_time_format (settings None))) ops0 (r_attrs (record0 attrs0)) =
  Some [(B "pre", JNum (B "1")); (B "outer", JObj (inner ++ [(B "inner", JObj inner)]))].
Proof. split; vm_compute; reflexivity. Qed.

(** ** C04 *)

Theorem C04_flash_replaced_json std : stdlib_ok std -> forall o ex ops r gs' bs fs,
  logged (view_of std o ex) str false (r_attrs r) [] ops gs' fs ->
  dens (view_of std o ex) str false gs'
    (flash_basics std (keys (settings ex)) (x_level_names (settings ex)) (o_add_source o) r) bs ->
  exists line, logs std o ex ops NoDead r (Done [line ++ [newline]] true) /\
    parse_json line = Some (JObj (bs ++ fs)).
Proof.
  intros Hs o ex ops r gs' bs fs L D.
  destruct (flash_replaced_json std Hs o ex ops r gs' bs fs L D) as (line & H & P & _). eauto.
Qed.
Print Assumptions C04_flash_replaced_json.

(** A replacement that renames the message, drops the level and drops some members. *)
Example C04_applies :
  let o := options1 (Some (fun gs a => if beq (fst a) (B "level") then empty_attr
                                       else if beq (fst a) (B "x") then (B "groups", VString (concat gs))
                                       else drop_key "a" gs a)) in
  exists gs' bs fs,
  logged (view_of std0 o None) str false [(B "x", VInt64 1); (B "g", VGroup [(B "a", VInt64 2); (B "b", VInt64 3)])]
    [] [WithGroup (B "grp")] gs' fs /\
  dens (view_of std0 o None) str false gs'
    (flash_basics std0 (keys (settings None)) (x_level_names (settings None)) false (record1 [])) bs /\
  bs ++ fs = [(B "message", JStr (B "m"));
              (B "grp", JObj [(B "groups", JStr (B "grp")); (B "g", JObj [(B "b", JNum (B "3"))])])].
Proof.
  eexists _, _, _. split; [|split].
  - apply lg_group; [discriminate|reflexivity|reflexivity|]. apply lg_record.
    eapply dens_cons; [eapply den_leaf; reflexivity|].
    eapply dens_cons; [|apply dens_nil].
    eapply den_group; [reflexivity|discriminate|reflexivity|reflexivity| |].
    + eapply dens_cons; [apply den_gone; reflexivity|].
      eapply dens_cons; [eapply den_leaf; reflexivity|apply dens_nil].
    + intros _ H. discriminate H.
  - eapply dens_cons; [apply den_gone; reflexivity|].
    eapply dens_cons; [eapply den_leaf; reflexivity|apply dens_nil].
  - reflexivity.
Qed.

(** The proviso is needed: when every member of a group is removed the next
    attribute is not separated from the group. *)
Theorem C04_vanished_group_not_json :
  exists f line,
    logs std0 (options1 (Some f)) None [] NoDead
      (record1 [(B "g", VGroup [(B "a", VInt64 1)]); (B "b", VInt64 2)]) (Done [line ++ [newline]] true) /\
    line = B "{""level"": ""INFO"", ""message"": ""m"", ""g"": {}""b"": 2}" /\
    parse_json line = None.
Proof.
  exists (drop_key "a"). eexists. split; [|split; [reflexivity|vm_compute; reflexivity]].
  apply (run_logs 10); vm_compute; reflexivity.
Qed.
Print Assumptions C04_vanished_group_not_json.

(** Generally: after such a group no separator is written, whatever follows. *)
Theorem C04_vanished_group_no_comma std f ex gs (k : bytes) l (k2 : bytes) z n b :
  f gs (k, VGroup l) = (k, VGroup l) -> k <> [] -> empty_group l = false ->
  Forall (fun a => f gs (fst a, resolve (snd a)) = empty_attr) l ->
  f gs (k2, VInt64 z) = (k2, VInt64 z) ->
  basic_field ex k = false -> basic_field ex k2 = false ->
  Forall (fun a => basic_field ex (fst a) = false) l ->
  add_attributes happ std (S (S n)) (new_composer b false (Some f) gs ex) [(k, VGroup l); (k2, VInt64 z)] =
  Some (new_composer (b ++ string_buf happ [] k ++ B ": {}" ++ string_buf happ [] k2 ++ B ": " ++ dec_of_Z z)
          true (Some f) gs ex, true).
Proof.
  intros F1 Hk He Fl F2 B1 B2 Bl. unfold add_attributes. cbn [attrs_loop].
  change (new_composer b false (Some f) gs ex) with (mk (Some f) ex b false gs).
  change (add_attribute happ std (S (S n))) with (att std (S (S n))).
  rewrite att_eq. unfold eff, flash_effective. cbn [fst snd]. rewrite B1. cbn [is_log_valuer].
  change (resolve (VGroup l)) with (VGroup l). rewrite F1. cbn [snd is_log_valuer att_body fst].
  assert (Em : is_empty (k, VGroup l) = false) by (destruct k; reflexivity). rewrite Em, He.
  destruct k as [|kc k]; [congruence|].
  unfold add_key, add_separator. cbn [c_started mk new_composer with_started].
  change (with_started _ true) with (mk (Some f) ex b true gs).
  rewrite string_frame, !add_bytes_mk. 
  change (reset (mk (Some f) ex (((b ++ string_buf happ [] (kc :: k)) ++ B ": ") ++ B "{") true gs)) with
    (mk (Some f) ex (((b ++ string_buf happ [] (kc :: k)) ++ B ": ") ++ B "{") false gs).
  assert (L : forall b', attrs_loop (att std (S n)) (mk (Some f) ex b' false gs) l = Some (mk (Some f) ex b' false gs, true)).
  { intros b'. clear - Fl Bl. revert Bl. induction Fl as [|a l Ha Fl IH]; intros Bl; [reflexivity|].
    inversion_clear Bl. cbn [attrs_loop]. rewrite att_eq. unfold eff, flash_effective. rewrite H, Ha.
    cbn [att_body]. apply IH; auto. }
  rewrite L. rewrite add_bytes_mk, att_eq. unfold eff, flash_effective. cbn [fst snd]. rewrite B2.
  change (resolve (VInt64 z)) with (VInt64 z). rewrite F2. cbn [snd is_log_valuer att_body fst].
  assert (Em2 : is_empty (k2, VInt64 z) = false) by (destruct k2; reflexivity). rewrite Em2.
  cbn [add_leaf]. unfold add_key, add_separator. cbn [c_started mk new_composer with_started].
  change (with_started _ true) with (mk (Some f) ex ((((b ++ string_buf happ [] (kc :: k)) ++ B ": ") ++ B "{") ++ B "}") true gs).
  rewrite string_frame, !add_bytes_mk. unfold mk. rewrite <- !app_assoc. reflexivity.
Qed.
Print Assumptions C04_vanished_group_no_comma.

(** ** C05 *)

Theorem C05_one_line std : stdlib_ok std -> forall o ex ops r gs' bs fs,
  logged (view_of std o ex) str false (r_attrs r) [] ops gs' fs ->
  dens (view_of std o ex) str false gs'
    (flash_basics std (keys (settings ex)) (x_level_names (settings ex)) (o_add_source o) r) bs ->
  exists line, logs std o ex ops NoDead r (Done [line ++ [newline]] true) /\ ~ In newline line.
Proof.
  intros Hs o ex ops r gs' bs fs L D.
  destruct (flash_replaced_json std Hs o ex ops r gs' bs fs L D) as (line & H & _ & C).
  exists line. split; auto. apply clean_no_newline. exact C.
Qed.
Print Assumptions C05_one_line.

(** Splitting the stream of such lines recovers them. *)
Theorem C05_split_recovers std : stdlib_ok std -> forall (calls : list (options * option extras * list op * record)) outs,
  Forall2 (fun c out => let '(o, ex, ops, r) := c in
    (exists gs' bs fs,
      logged (view_of std o ex) str false (r_attrs r) [] ops gs' fs /\
      dens (view_of std o ex) str false gs'
        (flash_basics std (keys (settings ex)) (x_level_names (settings ex)) (o_add_source o) r) bs) /\
    logs std o ex ops NoDead r out) calls outs ->
  exists lines, outs = map (fun l => Done [l ++ [newline]] true) lines /\
    Forall (fun l => exists j, parse_json l = Some (JObj j)) lines /\
    split_lines (concat (map (fun l => l ++ [newline]) lines)) = (lines, []).
Proof.
  intros Hs calls outs F.
  assert (K : exists lines, outs = map (fun l => Done [l ++ [newline]] true) lines /\
    Forall (fun l => (exists j, parse_json l = Some (JObj j)) /\ ~ In newline l) lines).
  { induction F as [|[[[o ex] ops] r] out calls outs [(gs' & bs & fs & L & D) Lg] F (lines & -> & A)].
    - exists []. auto.
    - destruct (flash_replaced_json std Hs o ex ops r gs' bs fs L D) as (line & H & P & C).
      rewrite (logs_fun std _ _ _ _ _ _ _ Lg H). exists (line :: lines). split; [reflexivity|].
      constructor; auto. split; eauto. apply clean_no_newline. exact C. }
  destruct K as (lines & -> & A). exists lines. repeat split.
  - eapply Forall_impl; [|exact A]. cbn. tauto.
  - apply split_stream. eapply Forall_impl; [|exact A]. cbn. tauto.
Qed.
Print Assumptions C05_split_recovers.

(** A newline in a group name is copied raw. *)
Theorem C05_group_newline std o ex name r w : In newline name ->
  forallb is_empty (r_attrs r) = false ->
  logs std o ex [WithGroup name] NoDead r (Done [w] true) ->
  exists a b, w = a ++ newline :: b ++ [newline].
Proof.
  intros I E (n0 & H). destruct (H n0 (le_n _)) as (g & [= <-] & Hh).
  eapply group_newline; eauto.
Qed.
Print Assumptions C05_group_newline.

Example C05_group_newline_applies :
  logs std0 (options1 None) None [WithGroup (B "a" ++ [newline])] NoDead (record1 [(B "k", VInt64 1)])
    (Done [B "{""level"": ""INFO"", ""msg"": ""m"", ""a" ++ newline :: B """: {""k"": 1}}" ++ [newline]] true).
Proof. apply (run_logs 10); vm_compute; reflexivity. Qed.

(** ** C06 *)

Local Notation bad std h :=
  (broken std (basic_field (h_extras h)) (o_replace (h_options h)) (h_groups h)).
Local Notation all_attrs std h r :=
  (flash_basics std (keys (h_extras h)) (x_level_names (h_extras h)) (o_add_source (h_options h)) r ++ r_attrs r).

Theorem C06_all_or_nothing std n g r out :
  handle_hdl std n NoDead g r = Some out ->
  let h := if forallb is_empty (r_attrs r) then ground g else inner g in
  (out = Done [] false /\ Exists (bad std h) (all_attrs std h r)) \/
  (exists line, out = Done [line ++ [newline]] true /\ ends_with (chr 125) line = true /\
     ~ Exists (bad std h) (all_attrs std h r)).
Proof. rewrite handle_nodead. intros H h. eapply handle_outcome. exact H. Qed.
Print Assumptions C06_all_or_nothing.

(** Whatever the context holds, there is at most one Write and an error exactly
    when there was none. *)
Theorem C06_at_most_one_write std n d g r out :
  handle_hdl std n d g r = Some out -> out <> Panic ->
  out = Done [] false \/ exists line, out = Done [line ++ [newline]] true.
Proof.
  intros H NP. apply handle_hdl_in in H as [->|(h & _ & H)]; [congruence|].
  apply handle_outcome in H as [[-> _]|(line & -> & _)]; eauto.
Qed.
Print Assumptions C06_at_most_one_write.

Example C06_both_cases :
  logs std0 (options1 None) None [WithGroup (B "g")] NoDead
    (record1 [(B "a", VInt64 1); (B "g", VGroup [(B "x", VAny (AnyObj bad_obj))])]) (Done [] false) /\
  logs std0 (options1 None) None [] NoDead (record1 [(B "a", VInt64 1)])
    (Done [B "{""level"": ""INFO"", ""msg"": ""m"", ""a"": 1}" ++ [newline]] true).
Proof. split; apply (run_logs 10); vm_compute; reflexivity. Qed.

(** ** C11, flash *)

Theorem C11_flash_attrs_twice std : stdlib_ok std -> forall o ex ops1 ops2 l1 l2 d r out fs,
  dens (view_of std o ex) str false (open_groups ops1) l1 fs ->
  logs std o ex (ops1 ++ [WithAttrs l1; WithAttrs l2] ++ ops2) d r out <->
  logs std o ex (ops1 ++ [WithAttrs (l1 ++ l2)] ++ ops2) d r out.
Proof. intros Hs o ex ops1 ops2 l1 l2 d r out fs D. eapply attrs_twice; eauto. Qed.
Print Assumptions C11_flash_attrs_twice.

Theorem C11_flash_attrs_nothing std o ex ops1 ops2 d r out : grouped ops1 = false ->
  (logs std o ex (ops1 ++ [WithAttrs []] ++ ops2) d r out <-> logs std o ex (ops1 ++ ops2) d r out) /\
  (logs std o ex (ops1 ++ [WithGroup []] ++ ops2) d r out <-> logs std o ex (ops1 ++ ops2) d r out).
Proof. apply attrs_nothing. Qed.
Print Assumptions C11_flash_attrs_nothing.

Theorem C11_flash_attrs_precede std : stdlib_ok std -> forall o ex ops l r out fs,
  dens (view_of std o ex) str false (open_groups ops) l fs ->
  grouped ops = false \/ forallb is_empty (l ++ r_attrs r) = false ->
  logs std o ex (ops ++ [WithAttrs l]) NoDead r out <->
  logs std o ex ops NoDead
    {| r_time := r_time r; r_level := r_level r; r_msg := r_msg r; r_source := r_source r;
       r_attrs := l ++ r_attrs r |} out.
Proof. intros Hs o ex ops l r out fs D G. eapply attrs_preceded; eauto. Qed.
Print Assumptions C11_flash_attrs_precede.

(** Without ReplaceAttr the domain is where the attributes have a meaning. *)
Theorem C11_flash_domain std o ex gs l fs : o_replace o = None ->
  flash_meanings std (x_time_format (settings ex)) l = Some fs ->
  dens (view_of std o ex) str false gs l fs.
Proof.
  intros -> H. refine (meanings_dens flash_any _ str _ _ (str_text [] (fun _ => true)) _ _ _ false gs l fs H).
  - apply vw_group.
  - intros gs0 k v ob j. rewrite vw_lv. split; [intros ->; reflexivity|intros -> ->; reflexivity].
  - apply vw_leaf.
Qed.
Print Assumptions C11_flash_domain.

Example C11_applies :
  flash_meanings std0 (x_time_format (settings None)) attrs0 <> None /\
  grouped ops0 = true /\ grouped (ops0 ++ [WithAttrs attrs0]) = false.
Proof. vm_compute. repeat split; discriminate. Qed.

(** ** C12, flash *)

Theorem C12_flash_empty_groups_elided std o ex ops names r out :
  forallb is_empty (r_attrs r) = true -> Forall (fun name => name <> []) names ->
  logs std o ex ops NoDead r out <-> logs std o ex (ops ++ map WithGroup names) NoDead r out.
Proof. apply groups_elided. Qed.
Print Assumptions C12_flash_empty_groups_elided.

Example C12_applies :
  forall out, logs std0 (options0 None) None ops0 NoDead (record0 [empty_attr]) out <->
  logs std0 (options0 None) None (ops0 ++ map WithGroup [B "g"; B "h"; B "g"]) NoDead (record0 [empty_attr]) out.
Proof. intros out. apply C12_flash_empty_groups_elided; [reflexivity|]. repeat constructor; discriminate. Qed.

(** Limits: each of these writes an empty object. *)
Theorem C12_flash_not_elided :
  let line := B "{""level"": ""INFO"", ""msg"": ""m"", ""g"": {}}" in
  logs std0 (options1 None) None [WithGroup (B "g")] NoDead (record1 [(B "e", VGroup [])])
    (Done [line ++ [newline]] true) /\
  logs std0 (options1 None) None [WithGroup (B "g"); WithAttrs [empty_attr]] NoDead (record1 [])
    (Done [line ++ [newline]] true) /\
  logs std0 (options1 None) None [WithGroup (B "g"); WithGroup []] NoDead (record1 [])
    (Done [line ++ [newline]] true) /\
  logs std0 (options1 None) None [WithGroup (B "g")] NoDead (record1 [])
    (Done [B "{""level"": ""INFO"", ""msg"": ""m""}" ++ [newline]] true).
Proof. repeat split; apply (run_logs 10); vm_compute; reflexivity. Qed.
Print Assumptions C12_flash_not_elided.

(** ** C13, flash *)

(** With no dead group in the context, one handler does the work: the one below
    the groups if the record has no attributes, else the innermost. *)
Theorem C13_flash_context std n g r :
  handle_hdl std n NoDead g r =
  handle std n (if forallb is_empty (r_attrs r) then ground g else inner g) r.
Proof. apply handle_nodead. Qed.
Print Assumptions C13_flash_context.

(** A dead group with a name other than the record's first key has no effect. *)
Theorem C13_flash_other_dead std n s g r :
  (forall k v, first_attr (r_attrs r) = Some (k, v) -> k <> s) ->
  handle_hdl std n (DeadName s) g r = handle_hdl std n NoDead g r.
Proof. apply handle_dead_name. Qed.
Print Assumptions C13_flash_other_dead.

(** But it can move attributes out of their group, and a value that is not a
    string makes every group handler panic. *)
Theorem C13_flash_dead_moves :
  let r := record1 [(B "x", VGroup [(B "a", VInt64 1)])] in
  logs std0 (options1 None) None [WithGroup (B "g")] NoDead r
    (Done [B "{""level"": ""INFO"", ""msg"": ""m"", ""g"": {""x"": {""a"": 1}}}" ++ [newline]] true) /\
  logs std0 (options1 None) None [WithGroup (B "g")] (DeadName (B "x")) r
    (Done [B "{""level"": ""INFO"", ""msg"": ""m"", ""x"": {""a"": 1}}" ++ [newline]] true).
Proof. split; apply (run_logs 10); vm_compute; reflexivity. Qed.
Print Assumptions C13_flash_dead_moves.

Theorem C13_flash_dead_panics std o ex ops name r : name <> [] ->
  (exists n g, derive std n (HBase (new_handler o ex)) ops = Some g) ->
  logs std o ex (ops ++ [WithGroup name]) DeadOther r Panic.
Proof.
  intros Hn (n & g & D). apply logs_intro with (n := n) (g := with_group_hdl g name).
  - rewrite derive_app, D. reflexivity.
  - destruct name; [congruence|reflexivity].
Qed.
Print Assumptions C13_flash_dead_panics.

(** ** C14 *)

Theorem C14_log_valuers_transparent std : stdlib_ok std -> forall o ex ops ops' r attrs' bs fs,
  let r' := {| r_time := r_time r; r_level := r_level r; r_msg := r_msg r; r_source := r_source r; r_attrs := attrs' |} in
  o_replace o = None ->
  Forall2 op_unfold ops ops' -> Forall2 lv_unfold (r_attrs r) attrs' ->
  flash_header (keys (settings ex)) (x_time_format (settings ex)) (x_level_names (settings ex))
    (o_add_source o) r = Some bs ->
  nest (flash_meanings std (x_time_format (settings ex))) ops (r_attrs r) = Some fs ->
  exists line line' j,
    logs std o ex ops NoDead r (Done [line ++ [newline]] true) /\ parse_json line = Some j /\
    logs std o ex ops' NoDead r' (Done [line' ++ [newline]] true) /\ parse_json line' = Some j.
Proof. apply log_valuers_transparent. Qed.
Print Assumptions C14_log_valuers_transparent.

Example C14_applies :
  Forall2 lv_unfold [(B "a", VInt64 1); (B "g", VGroup [(B "s", VString (B "x"))])]
    [(B "a", VLogValuer (VLogValuer (VInt64 1) obj0) obj0); (B "g", VGroup [(B "s", VLogValuer (VString (B "x")) bad_obj)])].
Proof.
  constructor; [apply lu_valuer; reflexivity|]. constructor; [|constructor].
  apply lu_group. constructor; [|constructor]. apply lu_valuer; reflexivity.
Qed.

(** The function's behaviour on LogValuers is irrelevant: it is never called on one. *)
Theorem C14_replace_sees_resolved std f f' src ex ops d r out :
  (forall gs a, is_log_valuer (snd a) = false -> f gs a = f' gs a) ->
  logs std {| o_add_source := src; o_replace := Some f |} ex ops d r out ->
  logs std {| o_add_source := src; o_replace := Some f' |} ex ops d r out.
Proof. intros H. apply (logs_unseen std f f' H). Qed.
Print Assumptions C14_replace_sees_resolved.

(** Groups, times and durations are shown differently behind a LogValuer. *)
Theorem C14_other_kinds_differ :
  let lv v := VLogValuer v obj0 in
  let out (t : string) := Done [B "{""level"": ""INFO"", ""msg"": ""m""" ++ B t ++ B "}" ++ [newline]] true in
  let log v := logs std0 (options1 None) None [] NoDead (record1 [(B "k", v)]) in
  log (VGroup [(B "a", VInt64 1)]) (out ", ""k"": {""a"": 1}"%string) /\
  log (lv (VGroup [(B "a", VInt64 1)])) (out ", ""k"": []"%string) /\
  log (VGroup []) (out ""%string) /\
  log (lv (VGroup [])) (out ", ""k"": []"%string) /\
  log (VTime time0) (out ", ""k"": ""2024-03-01T10:00:00Z"""%string) /\
  log (lv (VTime time0)) (out ", ""k"": ""2024-03-01 10:00:00 UTC"""%string) /\
  log (VDuration 5) (out ", ""k"": 5"%string) /\
  log (lv (VDuration 5)) (out ", ""k"": ""5ns"""%string).
Proof. repeat split; apply (run_logs 10); vm_compute; reflexivity. Qed.
Print Assumptions C14_other_kinds_differ.

(** Generally: a LogValuer that resolves to a group is written as json.Marshal
    of the attribute slice, never dropped and never nested. *)
Theorem C14_group_valuer_marshalled std ex b s gs k v o l m n :
  resolve (VLogValuer v o) = VGroup l -> sl_marshal std (VGroup l) = MOk m ->
  add_attribute happ std (S n) (new_composer b s None gs ex) (k, VLogValuer v o) =
  Some (new_composer (b ++ (if s then B ", " else []) ++ string_buf happ [] k ++ B ": " ++ m) true None gs ex, true).
Proof.
  intros R M. cbn [add_attribute snd fst c_replace new_composer]. rewrite R.
  assert (Em : is_empty (k, VGroup l) = false) by (destruct k; reflexivity). rewrite Em.
  cbn [any_of_value]. rewrite M.
  change (add_key happ (add_separator happ (new_composer b s None gs ex)) k) with
    (add_key happ (add_separator happ (mk None ex b s gs)) k).
  assert (E : add_separator happ (mk None ex b s gs) = mk None ex (b ++ (if s then B ", " else [])) true gs).
  { destruct s; [reflexivity|]. rewrite app_nil_r. reflexivity. }
  rewrite E. unfold add_key. rewrite string_frame, add_bytes_mk.
  unfold add_any, plain_obs. cbn [ao_stringer ao_error ao_jsonm ao_textm ao_marshal].
  rewrite add_bytes_mk, <- !app_assoc. reflexivity.
Qed.
Print Assumptions C14_group_valuer_marshalled.
