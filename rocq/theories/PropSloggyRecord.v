(** Properties C18, C21, C23 and C24, and C11, C12, C13 and C16 for sloggy. *)

From Coq Require Import Ascii String List ZArith NArith Bool Lia.
From Verif Require Import Bytes BytesProofs Json JsonProofs Slog SlogProofs SpecLog SpecFlash SpecText GoQuote
  Flash EscapeProofs TextProofs FlashProofs FlashRecord FlashCompose Samples ConfigProofs QuoteProofs SpecSloggy
  Sloggy SloggyProofs SloggyHandler SloggyMeaning SloggyLaws SloggyAgree PropFlashRecord.
Import ListNotations.

Local Notation sview std o := (sloggy_view std (o_replace o)).
Local Notation crlf := [chr 13; newline].

(** Concrete runs. *)
Definition srun (std : stdlib) (n : nat) (o : options) (ops : list op) (d : dead) (r : record) : option outcome :=
  match sderive std n (SBase (snew_handler o)) ops with
  | Some g => match shandle_hdl log_write std n d g r [] with
              | Some (SDone ws ok) => Some (Done ws ok)
              | Some SPanic => Some Panic
              | None => None
              end
  | None => None
  end.

Lemma srun_slogs n std o ops d r out : srun std n o ops d r = Some out -> slogs std o ops d r out.
Proof.
  unfold srun. destruct (sderive std n (SBase (snew_handler o)) ops) as [g|] eqn:D; [|discriminate].
  destruct (shandle_hdl log_write std n d g r []) as [[ws ok|]|] eqn:H; [| |discriminate];
    intros [= <-]; eapply slogs_intro; eauto.
Qed.

(** All bytes written, and whether nil was returned. *)
Definition swritten (std : stdlib) (o : options) (ops : list op) (d : dead) (r : record) (t : bytes) (ok : bool) : Prop :=
  exists ws, slogs std o ops d r (Done ws ok) /\ concat ws = t.

Lemma srun_written n std o ops d r t ok :
  option_map (fun out => match out with Done ws ok => Some (concat ws, ok) | Panic => None end)
    (srun std n o ops d r) = Some (Some (t, ok)) -> swritten std o ops d r t ok.
Proof.
  destruct (srun std n o ops d r) as [[ws ok'|]|] eqn:E; cbn [option_map]; try discriminate.
  intros [= <- <-]. exists ws. split; auto. eapply srun_slogs; eauto.
Qed.

Local Ltac run := apply (srun_written 10); vm_compute; reflexivity.

(** ** C18 *)

Theorem C18_sloggy_record_json std : stdlib_ok std -> forall o ops r bs fs,
  o_replace o = None ->
  sloggy_header std (o_add_source o) r = Some bs ->
  nest (sloggy_meanings std) ops (r_attrs r) = Some fs ->
  exists line, swritten std o ops NoDead r (line ++ crlf) true /\
    parse_json line = Some (JObj (bs ++ fs)) /\ ~ In newline line.
Proof.
  intros Hs o ops r bs fs No Hh Hn.
  destruct (sloggy_plain_line std Hs o ops r bs fs No Hh Hn) as (ws & line & L & E & P & C).
  exists line. split; [exists ws; auto|]. split; auto. apply clean_no_newline. exact C.
Qed.
Print Assumptions C18_sloggy_record_json.

Example C18_applies :
  sloggy_header std0 true (record0 attrs0) =
  Some [(B "time", JStr (B "2024-03-01T10:00:00Z")); (B "level", JStr (B "WARN"));
        (B "msg", JStr (B "hello ""world"""));
        (B "source", JObj [(B "file", JStr (B "/tmp/a b.go")); (B "function", JStr (B "main.main"));
                           (B "line", JNum (B "42"))])] /\
  let inner := [(B "n", JNum (B "-7")); (B "inl", JBool true);
                (B "deep", JObj [(B "f", JNum (B "1.5")); (B "t", JStr (B "2024-03-01T10:00:00Z"))]);
                (B "any", JObj [(B "a", JArr [JNum (B "1"); JNum (B "2")])]);
                (B "lv", JStr (B "tab	")); (B "key ""q""", JNum (B "5")); (B "nil", JNull)] in
  nest (sloggy_meanings std0) ops0 (r_attrs (record0 attrs0)) =
  Some [(B "pre", JNum (B "1")); (B "outer", JObj (inner ++ [(B "inner", JObj inner)]))].
Proof. split; vm_compute; reflexivity. Qed.

Theorem C18_sloggy_replaced_json std o ops r gs' bs fs :
  logged (sview std o) (sstr std) true (r_attrs r) [] ops gs' fs ->
  dens (sview std o) (sstr std) true gs' (sloggy_basics std (o_add_source o) r) bs ->
  bs <> [] \/ ops = [] ->
  exists line, swritten std o ops NoDead r (line ++ crlf) true /\
    parse_json line = Some (JObj (bs ++ fs)) /\ ~ In newline line.
Proof.
  intros L D Hb.
  destruct (sloggy_line std o ops r gs' bs fs L D Hb) as (ws & line & Lg & E & P & C).
  exists line. split; [exists ws; auto|]. split; auto. apply clean_no_newline. exact C.
Qed.
Print Assumptions C18_sloggy_replaced_json.

(** A group emptied by ReplaceAttr stays as an empty object. *)
Example C18_replaced_applies :
  let o := options1 (Some (drop_key "a")) in
  exists gs' bs fs,
  logged (sview std0 o) (sstr std0) true [(B "g", VGroup [(B "a", VInt64 1)]); (B "b", VInt64 2)] []
    [WithGroup (B "grp")] gs' fs /\
  dens (sview std0 o) (sstr std0) true gs' (sloggy_basics std0 false (record1 [])) bs /\ bs <> [] /\
  bs ++ fs = [(B "level", JStr (B "INFO")); (B "message", JStr (B "m"));
              (B "grp", JObj [(B "g", JObj []); (B "b", JNum (B "2"))])].
Proof.
  eexists _, _, _. split; [|split; [|split]].
  - apply lg_group; [discriminate|reflexivity|reflexivity|]. apply lg_record.
    eapply dens_cons.
    + eapply den_group; [reflexivity|discriminate|reflexivity|reflexivity| |discriminate].
      eapply dens_cons; [apply den_gone; reflexivity|apply dens_nil].
    + eapply dens_cons; [eapply den_leaf; reflexivity|apply dens_nil].
  - eapply dens_cons; [eapply den_leaf; reflexivity|].
    eapply dens_cons; [eapply den_leaf; reflexivity|apply dens_nil].
  - discriminate.
  - reflexivity.
Qed.

(** The proviso is needed: when ReplaceAttr removes every built-in field and the
    first derivation step added something, every line starts with a comma. *)
Lemma comma_not_json t : parse_json (B "{, " ++ t) = None.
Proof. reflexivity. Qed.

Theorem C18_no_basics_not_json std f src l fs : 
  (forall a, standard_key (fst a) = true -> is_empty (f [] a) = true) ->
  dens (sloggy_view std (Some f)) (sstr std) true [] l fs -> fs <> [] ->
  forall ops d r t ok, swritten std {| o_add_source := src; o_replace := Some f |} (WithAttrs l :: ops) d r t ok ->
  exists t', t = B "{, " ++ t' /\ parse_json t = None.
Proof.
  intros Hf Dl Nf ops d r t ok (ws & L & <-).
  apply slogs_iff in L as (n & g & D & H). cbn [sderive sstep] in D. rewrite swith_attrs_eq in D.
  cbn [sinner snew_handler sh_options sh_groups sh_prefix o_replace started_of] in D.
  apply (proj2 (emit_den std _ _)) in Dl as (n0 & Hn).
  destruct (ems std (Some f) n [] false l) as [[[ch s] ok0]|] eqn:E; [|discriminate].
  destruct (Hn (max n n0) ltac:(lia) false) as (ch' & E' & F).
  rewrite (ems_mono std _ n (max n n0) _ _ _ _ ltac:(lia) E) in E'. injection E' as -> _ _.
  destruct (FT_end _ _ _ F Nf) as [Nt _].
  set (h0 := sextend (snew_handler {| o_add_source := src; o_replace := Some f |}) (concat ch')) in *.
  destruct (schosen d g r) as [h|] eqn:C; [|contradiction].
  assert (Np : sh_prefix h <> []).
  { eapply (chain_chosen (fun h => sh_prefix h <> [])); [|exact C].
    eapply chain_prefix; [exact D|]. cbn. exact Nt. }
  assert (No : o_replace (sh_options h) = Some f).
  { refine (chain_chosen (fun h => o_replace (sh_options h) = Some f) g r _ d h C).
    refine (chain_options std (fun o => o_replace o = Some f) n ops _ _ D _). reflexivity. }
  unfold hchunks in H. rewrite sbasics_eq, No in H.
  assert (Eb : forall l, Forall (fun a => standard_key (fst a) = true) l ->
    ems std (Some f) n (sh_groups h) false l = Some ([], false, true) \/ ems std (Some f) n (sh_groups h) false l = None).
  { clear - Hf. induction 1 as [|a l Ha F IH]; [left; reflexivity|]. unfold ems in *. cbn [ems_loop].
    assert (E : em std (Some f) n (sh_groups h) false a = Some ([], false, true) \/ em std (Some f) n (sh_groups h) false a = None).
    { destruct n; [right; reflexivity|left]. cbn [em]. destruct (is_empty a); [reflexivity|].
      unfold sloggy_effective. rewrite Ha, (Hf a Ha). reflexivity. }
    destruct E as [->| ->]; [|right; reflexivity]. destruct IH as [->| ->]; auto. }
  destruct (Eb (sloggy_basics std (o_add_source (sh_options h)) r)) as [Eb'|Eb'].
  { unfold sloggy_basics, basics. destruct (t_zero (r_time r)), (r_source r), (o_add_source (sh_options h));
      repeat constructor. }
  2: { rewrite Eb' in H. discriminate. }
  rewrite Eb' in H.
  assert (Ep : exists p', concat (prefix_chunks (sh_prefix h)) = B ", " ++ p').
  { unfold prefix_chunks. destruct (sh_prefix h); [congruence|]. eexists. reflexivity. }
  destruct Ep as (p' & Ep).
  assert (K : exists t', concat ws = B "{, " ++ t').
  { cbn [app] in H.
    destruct (ems std (Some f) n (sh_groups h) (sstarted (sh_prefix h) false) (r_attrs r)) as [[[c2 s2] []]|]; [| |discriminate];
      injection H as <- _; rewrite <- ?app_assoc; cbn [concat app]; rewrite concat_app, Ep, <- app_assoc; eexists; reflexivity. }
  destruct K as (t' & ->). exists t'. split; [reflexivity|]. apply comma_not_json.
Qed.
Print Assumptions C18_no_basics_not_json.

Example C18_no_basics_applies :
  let f := fun (gs : list bytes) a => if standard_key (fst a) then empty_attr else a in
  (forall a, standard_key (fst a) = true -> is_empty (f [] a) = true) /\
  dens (sloggy_view std0 (Some f)) (sstr std0) true [] [(B "k", VInt64 1)] [(B "k", JNum (B "1"))] /\
  swritten std0 (options1 (Some f)) [WithAttrs [(B "k", VInt64 1)]] NoDead (record1 []) (B "{, ""k"": 1}" ++ crlf) true /\
  swritten std0 (options1 (Some f)) [] NoDead (record1 [(B "k", VInt64 1)]) (B "{""k"": 1}" ++ crlf) true.
Proof.
  intros f. split; [intros a H; unfold f; rewrite H; reflexivity|]. split.
  { eapply (dens_cons _ _ _ _ _ _ [_] []); [eapply den_leaf; reflexivity|apply dens_nil]. }
  split; run.
Qed.

(** ** C21 *)

(** [ws] are the chunks offered when no write fails.  On any writer the chunks
    are offered in this order up to the first refusal, after which Handle
    returns an error. *)
Theorem C21_sloggy_writer std o ops d r ws ok : slogs std o ops d r (Done ws ok) ->
  forall (W : Type) (write : W -> bytes -> W * bool) (w : W),
  exists n0, forall n, n0 <= n -> exists g, sderive std n (SBase (snew_handler o)) ops = Some g /\
    shandle_hdl write std n d g r w =
      Some (SDone (fst (feed write w ws)) (snd (feed write w ws) && ok)).
Proof.
  intros L W write w. apply slogs_iff in L as (n0 & g & D & H). exists n0. intros n Ln. exists g.
  split; [apply (sderive_mono std n0); auto|]. rewrite shandle_chosen.
  destruct (schosen d g r) as [h|]; [|contradiction].
  rewrite (shandle_feed std W write n h r ws ok w) by (apply (hchunks_mono std n0); auto). reflexivity.
Qed.
Print Assumptions C21_sloggy_writer.

(** What an observer of the writer sees is a prefix of the line, and all of it if
    Handle returns nil.  [seen] is any observation to which a successful write
    adds the chunk and a failed one a prefix of it. *)
Theorem C21_sloggy_prefix std o ops d r t ok : swritten std o ops d r t ok ->
  forall (W : Type) (write : W -> bytes -> W * bool) (seen : W -> bytes) (w : W),
  (forall w x, exists y z, x = y ++ z /\ seen (fst (write w x)) = seen w ++ y /\ (snd (write w x) = true -> z = [])) ->
  exists n0, forall n, n0 <= n -> exists g w' ok', sderive std n (SBase (snew_handler o)) ops = Some g /\
    shandle_hdl write std n d g r w = Some (SDone w' ok') /\
    exists p q, t = p ++ q /\ seen w' = seen w ++ p /\ (ok' = true -> q = [] /\ ok = true).
Proof.
  intros (ws & L & <-) W write seen w Hw.
  destruct (C21_sloggy_writer std o ops d r ws ok L W write w) as (n0 & H). exists n0. intros n Ln.
  destruct (H n Ln) as (g & D & E). exists g, (fst (feed write w ws)), (snd (feed write w ws) && ok).
  split; [exact D|]. split; [exact E|].
  assert (K : forall ws w, exists p q, concat ws = p ++ q /\ seen (fst (feed write w ws)) = seen w ++ p /\
    (snd (feed write w ws) = true -> q = [])).
  { clear - Hw. induction ws as [|x ws IH]; intros w; cbn [feed concat].
    - exists [], []. cbn [fst snd app]. rewrite app_nil_r. auto.
    - destruct (Hw w x) as (y & z & -> & S & T). destruct (write w (y ++ z)) as [w1 [|]]; cbn [fst snd] in *.
      + rewrite (T eq_refl) in *. destruct (IH w1) as (p & q & Ec & Es & Eq). exists (y ++ p), q.
        rewrite app_nil_r, Ec, Es, S, <- !app_assoc. auto.
      + exists y, (z ++ concat ws). rewrite <- app_assoc. repeat split; auto. discriminate. }
  destruct (K ws w) as (p & q & Ec & Es & Eq). exists p, q. repeat split; auto; apply andb_prop in H0 as [H1 H2]; auto.
Qed.
Print Assumptions C21_sloggy_prefix.

(** Marshalling is the only other source of errors, and a line for which nil is
    returned is complete. *)
Theorem C21_sloggy_errors std n g r ws ok :
  shandle_hdl log_write std n NoDead g r [] = Some (SDone ws ok) ->
  let h := if forallb is_empty (r_attrs r) then sground g else sinner g in
  (ok = false <-> Exists (sbroken (o_replace (sh_options h)) (sh_groups h))
                   (sloggy_basics std (o_add_source (sh_options h)) r ++ r_attrs r)) /\
  (ok = true -> exists t, concat ws = B "{" ++ t ++ B "}" ++ crlf).
Proof.
  rewrite shandle_nodead. intros H h. fold h in H. rewrite shandle_log in H.
  destruct (hchunks std n h r) as [[ch ok']|] eqn:E; [|discriminate]. cbn in H. injection H as <- <-.
  split; [eapply hchunks_fails; eauto|]. intros ->. unfold hchunks in E.
  destruct (ems std _ n _ false _) as [[[c1 s1] []]|]; try discriminate.
  destruct (ems std _ n _ _ (r_attrs r)) as [[[c2 s2] []]|]; try discriminate.
  injection E as <-. exists (concat (c1 ++ prefix_chunks (sh_prefix h) ++ c2) ++ sh_suffix h).
  cbn [concat]. rewrite !concat_app. cbn [concat]. rewrite <- !app_assoc, app_nil_r. reflexivity.
Qed.
Print Assumptions C21_sloggy_errors.

(** A marshalling error in the last attribute leaves most of a line behind. *)
Example C21_partial_line :
  swritten std0 (options1 None) [WithAttrs [(B "p", VInt64 1)]] NoDead
    (record1 [(B "a", VInt64 2); (B "x", VAny (AnyObj bad_obj))])
    (B "{""level"": ""INFO"", ""msg"": ""m"", ""p"": 1, ""a"": 2, ""x"": ") false.
Proof. run. Qed.

(** ** C11, sloggy *)

Theorem C11_sloggy_attrs_twice std o ops1 ops2 l1 l2 d r out fs :
  dens (sview std o) (sstr std) true (open_groups ops1) l1 fs ->
  slogs std o (ops1 ++ [WithAttrs l1; WithAttrs l2] ++ ops2) d r out <->
  slogs std o (ops1 ++ [WithAttrs (l1 ++ l2)] ++ ops2) d r out.
Proof. apply sattrs_twice. Qed.
Print Assumptions C11_sloggy_attrs_twice.

Theorem C11_sloggy_attrs_nothing std o ops1 ops2 d r out : grouped ops1 = false ->
  (slogs std o (ops1 ++ [WithAttrs []] ++ ops2) d r out <-> slogs std o (ops1 ++ ops2) d r out) /\
  (slogs std o (ops1 ++ [WithGroup []] ++ ops2) d r out <-> slogs std o (ops1 ++ ops2) d r out).
Proof. apply sattrs_nothing. Qed.
Print Assumptions C11_sloggy_attrs_nothing.

(** The same bytes, in different writes. *)
Theorem C11_sloggy_attrs_precede std o ops l r t ok fs :
  dens (sview std o) (sstr std) true (open_groups ops) l fs ->
  (o_replace o = None \/
   exists bs, dens (sview std o) (sstr std) true (open_groups ops) (sloggy_basics std (o_add_source o) r) bs /\ bs <> []) ->
  grouped ops = false \/ forallb is_empty (l ++ r_attrs r) = false ->
  swritten std o (ops ++ [WithAttrs l]) NoDead r t ok <->
  swritten std o ops NoDead
    {| r_time := r_time r; r_level := r_level r; r_msg := r_msg r; r_source := r_source r;
       r_attrs := l ++ r_attrs r |} t ok.
Proof. intros D Hb G. exact (sattrs_preceded std o ops l r fs D Hb G ok t). Qed.
Print Assumptions C11_sloggy_attrs_precede.

Theorem C11_sloggy_domain std o gs l fs : o_replace o = None ->
  sloggy_meanings std l = Some fs -> dens (sview std o) (sstr std) true gs l fs.
Proof. intros ->. apply smeanings_dens. Qed.
Print Assumptions C11_sloggy_domain.

Example C11_sloggy_applies :
  sloggy_meanings std0 attrs0 <> None /\ forallb is_empty (attrs0 ++ []) = false.
Proof. vm_compute. split; [discriminate|reflexivity]. Qed.

(** ** C12, sloggy *)

Theorem C12_sloggy_empty_groups_elided std o ops names r out :
  forallb is_empty (r_attrs r) = true -> Forall (fun name => name <> []) names ->
  slogs std o ops NoDead r out <-> slogs std o (ops ++ map WithGroup names) NoDead r out.
Proof. apply sgroups_elided. Qed.
Print Assumptions C12_sloggy_empty_groups_elided.

Example C12_sloggy_applies :
  forall out, slogs std0 (options0 None) ops0 NoDead (record0 [empty_attr]) out <->
  slogs std0 (options0 None) (ops0 ++ map WithGroup [B "g"; B "h"; B "g"]) NoDead (record0 [empty_attr]) out.
Proof. intros out. apply C12_sloggy_empty_groups_elided; [reflexivity|]. repeat constructor; discriminate. Qed.

Theorem C12_sloggy_not_elided :
  let line := B "{""level"": ""INFO"", ""msg"": ""m"", ""g"": {}}" ++ crlf in
  swritten std0 (options1 None) [WithGroup (B "g")] NoDead (record1 [(B "e", VGroup [])]) line true /\
  swritten std0 (options1 None) [WithGroup (B "g"); WithAttrs [empty_attr]] NoDead (record1 []) line true /\
  swritten std0 (options1 None) [WithGroup (B "g"); WithGroup []] NoDead (record1 []) line true /\
  swritten std0 (options1 None) [WithGroup (B "g")] NoDead (record1 [])
    (B "{""level"": ""INFO"", ""msg"": ""m""}" ++ crlf) true.
Proof. repeat split; run. Qed.
Print Assumptions C12_sloggy_not_elided.

(** ** C13, sloggy *)

Theorem C13_sloggy_context std W (write : W -> bytes -> W * bool) n g r w :
  shandle_hdl write std n NoDead g r w =
  sresult_of (shandle write std n (if forallb is_empty (r_attrs r) then sground g else sinner g) r w).
Proof. apply shandle_nodead. Qed.
Print Assumptions C13_sloggy_context.

Theorem C13_sloggy_other_dead std W (write : W -> bytes -> W * bool) n s g r w :
  (forall k v, sfirst_attr (r_attrs r) = Some (k, v) -> k <> s) ->
  shandle_hdl write std n (DeadName s) g r w = shandle_hdl write std n NoDead g r w.
Proof. apply shandle_dead_name. Qed.
Print Assumptions C13_sloggy_other_dead.

Theorem C13_sloggy_dead_moves :
  let r := record1 [(B "x", VGroup [(B "a", VInt64 1)])] in
  swritten std0 (options1 None) [WithGroup (B "g")] NoDead r
    (B "{""level"": ""INFO"", ""msg"": ""m"", ""g"": {""x"": {""a"": 1}}}" ++ crlf) true /\
  swritten std0 (options1 None) [WithGroup (B "g")] (DeadName (B "x")) r
    (B "{""level"": ""INFO"", ""msg"": ""m"", ""x"": {""a"": 1}}" ++ crlf) true.
Proof. split; run. Qed.
Print Assumptions C13_sloggy_dead_moves.

Theorem C13_sloggy_dead_panics std o ops name r : name <> [] ->
  (exists n g, sderive std n (SBase (snew_handler o)) ops = Some g) ->
  slogs std o (ops ++ [WithGroup name]) DeadOther r Panic.
Proof.
  intros Hn (n & g & D). destruct name as [|c name]; [congruence|].
  apply slogs_intro with (n := n) (g := SGroup (swith_group (sinner g) (c :: name)) (c :: name) g).
  - rewrite sderive_app, D. reflexivity.
  - reflexivity.
Qed.
Print Assumptions C13_sloggy_dead_panics.

(** ** C16, sloggy *)

(** The level field of a line identifies the level, whatever its value. *)
Theorem C16_sloggy_level_logged std : stdlib_ok std -> forall o ops r bs fs,
  o_replace o = None ->
  sloggy_header std (o_add_source o) r = Some bs ->
  nest (sloggy_meanings std) ops (r_attrs r) = Some fs ->
  exists line more1 more2, swritten std o ops NoDead r (line ++ crlf) true /\
    parse_json line = Some (JObj (more1 ++ (B "level", JStr (level_string (r_level r))) :: more2)) /\
    Forall (fun f => fst f = B "time") more1.
Proof.
  intros Hs o ops r bs fs No Hh Hn.
  destruct (C18_sloggy_record_json std Hs o ops r bs fs No Hh Hn) as (line & L & P & _).
  assert (K : exists m1 m2, bs = m1 ++ (B "level", JStr (level_string (r_level r))) :: m2 /\
    Forall (fun f => fst f = B "time") m1).
  { clear - Hh. unfold sloggy_header in Hh. destruct (json_safe _ (r_msg r)); [|discriminate].
    destruct (t_zero (r_time r)).
    - match type of Hh with match ?m with _ => _ end = _ => destruct m as [s|]; [|discriminate] end.
      injection Hh as <-. eexists [], _. split; [reflexivity|constructor].
    - destruct (json_safe _ _); [|discriminate].
      match type of Hh with match ?m with _ => _ end = _ => destruct m as [s|]; [|discriminate] end.
      injection Hh as <-. eexists [_], _. split; [reflexivity|]. repeat constructor. }
  destruct K as (m1 & m2 & -> & F). exists line, m1, (m2 ++ fs). split; [exact L|]. split; [|exact F].
  rewrite P, <- app_assoc. reflexivity.
Qed.
Print Assumptions C16_sloggy_level_logged.

Theorem C16_sloggy_levels_distinct l l' : level_string l = level_string l' -> l = l'.
Proof. apply level_string_inj. Qed.
Print Assumptions C16_sloggy_levels_distinct.

(** ** C23 *)

Theorem C23_flash_sloggy_agree std : stdlib_ok std -> forall src o ops r bs bs' fs fs',
  o = {| o_add_source := src; o_replace := None |} -> src = false \/ r_source r = None ->
  existsb (Z.eqb (r_level r)) [LevelDebug; LevelInfo; LevelWarn; LevelError] = true ->
  Forall alike (flat_map op_attrs ops) -> Forall alike (r_attrs r) ->
  flash_header (keys (fix_extras None)) (x_time_format (fix_extras None)) (x_level_names (fix_extras None)) src r = Some bs ->
  nest (flash_meanings std (x_time_format (fix_extras None))) ops (r_attrs r) = Some fs ->
  sloggy_header std src r = Some bs' ->
  nest (sloggy_meanings std) ops (r_attrs r) = Some fs' ->
  exists line line' j,
    logs std o None ops NoDead r (Done [line ++ [newline]] true) /\ parse_json line = Some j /\
    swritten std o ops NoDead r (line' ++ crlf) true /\ parse_json line' = Some j.
Proof.
  intros Hs src o ops r bs bs' fs fs' -> Hsrc Hl Ho Ha H1 H2 H3 H4.
  destruct (C03_flash_record_json std Hs {| o_add_source := src; o_replace := None |} None ops r bs fs eq_refl H1 H2) as (line & L & P).
  destruct (C18_sloggy_record_json std Hs {| o_add_source := src; o_replace := None |} ops r bs' fs' eq_refl H3 H4) as (line' & L' & P' & _).
  exists line, line', (JObj (bs ++ fs)). repeat split; auto. rewrite P'.
  rewrite (nest_agree std ops (r_attrs r) Ho Ha fs fs' H2 H4).
  assert (E : bs = bs').
  { destruct Hsrc as [->|Hr]; [eapply header_agree; eauto|].
    eapply header_agree; [exact Hl| |].
    - rewrite <- H1. unfold flash_header. rewrite Hr. reflexivity.
    - rewrite <- H3. unfold sloggy_header. rewrite Hr. reflexivity. }
  rewrite E. reflexivity.
Qed.
Print Assumptions C23_flash_sloggy_agree.

Example C23_applies :
  Forall alike (flat_map op_attrs ops0) /\ Forall alike attrs0 /\
  nest (flash_meanings std0 (x_time_format (fix_extras None))) ops0 attrs0 <> None /\
  nest (sloggy_meanings std0) ops0 attrs0 <> None /\
  flash_header (keys (fix_extras None)) (x_time_format (fix_extras None)) (x_level_names (fix_extras None)) false (record0 attrs0) <> None /\
  sloggy_header std0 false (record0 attrs0) <> None.
Proof.
  assert (A : Forall alike attrs0).
  { unfold attrs0. repeat first [apply Forall_nil | apply Forall_cons | apply al_group
      | apply al_plain; cbn; try exact I; split; exact I | apply al_valuer; vm_compute; exact I]. }
  split; [|split; [exact A|]].
  - cbn [ops0 flat_map op_attrs app]. apply Forall_cons; [apply al_plain; exact I|]. rewrite app_nil_r. exact A.
  - repeat split; vm_compute; discriminate.
Qed.

(** Outside: attributes the two handlers show differently. *)
Theorem C23_differ :
  let lv v := VLogValuer v obj0 in
  let both v (t t' : string) :=
    logs std0 (options1 None) None [] NoDead (record1 [(B "k", v)])
      (Done [B "{""level"": ""INFO"", ""msg"": ""m"", ""k"": " ++ B t ++ B "}" ++ [newline]] true) /\
    swritten std0 (options1 None) [] NoDead (record1 [(B "k", v)])
      (B "{""level"": ""INFO"", ""msg"": ""m"", ""k"": " ++ B t' ++ B "}" ++ crlf) true in
  both (lv (VGroup [(B "a", VInt64 1)])) "[]"%string "{""a"": 1}"%string /\
  both (lv (VDuration 5)) """5ns"""%string "5"%string /\
  both (lv (VTime time0)) """2024-03-01 10:00:00 UTC"""%string """2024-03-01T10:00:00Z"""%string /\
  both (VAny (AnyObj {| ao_net := None; ao_error := Some (B "e"); ao_stringer := Some (B "s");
                        ao_jsonm := None; ao_textm := None; ao_marshal := MOk (B "{}") |}))
    """s"""%string """e"""%string.
Proof.
  repeat split; try run; apply (run_logs 10); vm_compute; reflexivity.
Qed.
Print Assumptions C23_differ.

(** ** C24 *)

Theorem C24_sloggy_log_valuers std o ops ops' r attrs' out : o_replace o = None ->
  Forall2 (op_related slv_unfold) ops ops' -> Forall2 slv_unfold (r_attrs r) attrs' ->
  slogs std o ops NoDead r out <->
  slogs std o ops' NoDead
    {| r_time := r_time r; r_level := r_level r; r_msg := r_msg r; r_source := r_source r; r_attrs := attrs' |} out.
Proof. apply slogs_unfold. Qed.
Print Assumptions C24_sloggy_log_valuers.

Example C24_applies :
  Forall2 slv_unfold
    [(B "a", VInt64 1); (B "g", VGroup [(B "s", VString (B "x"))]); ([], VGroup [(B "t", VTime time0)])]
    [(B "a", VLogValuer (VLogValuer (VInt64 1) obj0) obj0);
     (B "g", VLogValuer (VGroup [(B "s", VLogValuer (VString (B "x")) bad_obj)]) obj0);
     ([], VLogValuer (VGroup [(B "t", VTime time0)]) obj0)].
Proof.
  constructor; [|constructor; [|constructor; [|constructor]]].
  - eapply su_valuer; [reflexivity|apply su_same|reflexivity|reflexivity].
  - eapply su_valuer; [reflexivity| |reflexivity|reflexivity]. apply su_group. constructor; [|constructor].
    eapply su_valuer; [reflexivity|apply su_same|reflexivity|reflexivity].
  - eapply su_valuer; [reflexivity|apply su_same|reflexivity|reflexivity].
Qed.

(** The two exceptions: nil under the empty key, and an empty group inside a group. *)
Theorem C24_exceptions :
  let lv v := VLogValuer v obj0 in
  let out (t : string) := B "{""level"": ""INFO"", ""msg"": ""m""" ++ B t ++ B "}" ++ crlf in
  let log a t := swritten std0 (options1 None) [] NoDead (record1 [a]) t true in
  log ([], VAny AnyNil) (out ""%string) /\
  log ([], lv (VAny AnyNil)) (out ", """": null"%string) /\
  log (B "g", VGroup [(B "e", VGroup [])]) (out ""%string) /\
  log (B "g", VGroup [(B "e", lv (VGroup []))]) (out ", ""g"": {}"%string).
Proof. repeat split; run. Qed.
Print Assumptions C24_exceptions.

(** With the identity as ReplaceAttr every LogValuer is logged as the Go object. *)
Theorem C24_identity_logs_object std src ops ops' r attrs' out :
  let o := {| o_add_source := src; o_replace := Some (fun _ a => a) |} in
  Forall2 (op_related lv_object) ops ops' -> Forall2 lv_object (r_attrs r) attrs' ->
  slogs std o ops NoDead r out <->
  slogs std o ops' NoDead
    {| r_time := r_time r; r_level := r_level r; r_msg := r_msg r; r_source := r_source r; r_attrs := attrs' |} out.
Proof. apply slogs_object. Qed.
Print Assumptions C24_identity_logs_object.

Example C24_identity_differs :
  let r := record1 [(B "k", VLogValuer (VString (B "secret")) obj0)] in
  Forall2 lv_object (r_attrs r) [(B "k", VAny (AnyObj obj0))] /\
  swritten std0 (options1 None) [] NoDead r (B "{""level"": ""INFO"", ""msg"": ""m"", ""k"": ""secret""}" ++ crlf) true /\
  swritten std0 (options1 (Some (fun _ a => a))) [] NoDead r
    (B "{""level"": ""INFO"", ""msg"": ""m"", ""k"": {""a"":[1,2]}}" ++ crlf) true.
Proof. split; [repeat constructor|]. split; run. Qed.
