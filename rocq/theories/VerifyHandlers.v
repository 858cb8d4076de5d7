(** flash and sloggy are right handlers. *)

From Coq Require Import Ascii String List ZArith NArith Bool Arith Lia QArith Qcanon Permutation.
From Verif Require Import Bytes BytesProofs GoSort Json Slog SpecLog SpecText SpecFlash SpecSloggy Flash FlashProofs FlashRecord Sloggy SloggyHandler SloggyMeaning FlashConfig
  Replace PropReplace Warnings BenchChecks SpecChecks Complex EscapeProofs TextProofs VerifyChecks VerifyTests SpecVerify VerifyProofs.
Import ListNotations.
Local Open Scope nat_scope.
Local Open Scope list_scope.

(** The subject handles the calls of the tests as flash does; its creator gives nil
    Extras. *)
Definition flash_answers (std : stdlib) (W : surroundings) (H : subject) : Prop :=
  forall c f ws ok, expected W c f -> logs std (k_options c) None (k_ops c) NoDead (k_record c) (Done ws ok) ->
    u_handle H (k_cancelled c) (k_options c) (k_ops c) (k_record c) = (concat ws, ok).

(** Enabled is the same code in flash and sloggy: FlashConfig.v. *)
Definition levels_answer (H : subject) : Prop :=
  forall l x w, acts world0 [MakeOptions (option_map Fixed l); NewHandler (Some 0) None] = Some w -> FlashConfig.enabled w 0 x = Some (u_enabled H l x).

(** The texts of times. *)
Lemma time_chars t c : forallb time_char t = true -> In c t -> In c (B "0123456789-+:.TZ").
Proof.
  intros F I. rewrite forallb_forall in F. specialize (F c I). unfold time_char in F. apply existsb_exists in F as (d & I' & E).
  apply Ascii.eqb_eq in E. now subst.
Qed.
Lemma time_forall t p : forallb time_char t = true -> forallb p (B "0123456789-+:.TZ") = true -> forallb p t = true.
Proof.
  intros F G. apply forallb_forall. intros c I. apply (proj1 (forallb_forall _ _) G). eapply time_chars; eauto.
Qed.
Lemma time_valid t : forallb time_char t = true -> valid_utf8 t = true.
Proof. intros F. apply valid_ascii. apply (time_forall t _ F). reflexivity. Qed.
Lemma time_plain t : forallb time_char t = true -> plain t = true.
Proof. intros F. unfold plain. rewrite (time_valid t F), andb_true_r. apply (time_forall t _ F). reflexivity. Qed.

Section Flash.
Variable std : stdlib.
Variable W : surroundings.
Variable num : bytes -> option Qc.
Hypothesis STD : stdlib_ok std.
Hypothesis OK : surroundings_ok W num.


Lemma meanings_cons any_json time_json text_json resolved k v l f1 f2 :
  meaning any_json time_json text_json resolved k v = Some f1 -> meanings any_json time_json text_json resolved l = Some f2 ->
  meanings any_json time_json text_json resolved ((k, v) :: l) = Some (f1 ++ f2).
Proof. intros E1 E2. cbn [meanings fst snd]. now rewrite E1, E2. Qed.

Lemma flash_plain ops attrs l : plain_call W ops attrs l -> nest (flash_meanings std RFC3339Nano) ops attrs = Some (members l).
Proof.
  intros P. inversion P; subst; try reflexivity.
  - destruct (s_when W num OK) as (_ & PL & _). apply time_plain in PL. apply (meanings_cons _ _ _ _ _ _ _ [(B "when", JStr (t_format (z_when W) RFC3339Nano))]); [|reflexivity].
    change (one str (B "when") (raw_str (t_format (z_when W) RFC3339Nano)) = Some [(B "when", JStr (t_format (z_when W) RFC3339Nano))]). unfold raw_str. now rewrite PL.
  - destruct (escapes_valid x H) as [V1 V2].
    change (Some (members [i_text "esc" (fst x); i_text "exp" (snd x)])) with (Some ([(B "esc", JStr (fst x))] ++ [(B "exp", JStr (snd x))] ++ [])).
    repeat apply meanings_cons; [| |reflexivity].
    + change (one str (B "esc") (str (fst x)) = Some [(B "esc", JStr (fst x))]). unfold str at 2. now rewrite V1.
    + change (one str (B "exp") (str (snd x)) = Some [(B "exp", JStr (snd x))]). unfold str at 2. now rewrite V2.
Qed.

(** *** The lines of flash *)

Lemma flash_head t level attrs src add : t_zero t = false -> plain (t_format t RFC3339Nano) = true ->
  (match src with Some s => valid_utf8 (src_function s) && valid_utf8 (src_file s) | None => true end) = true ->
  let x := fix_extras None in valid_utf8 (x_level_names x level) = true ->
  flash_header (keys x) (x_time_format x) (x_level_names x) add
    {| Slog.r_time := t; Slog.r_level := level; Slog.r_msg := test_message; Slog.r_source := src; Slog.r_attrs := attrs |} =
  Some ([(TimeKey, JStr (t_format t RFC3339Nano)); (LevelKey, JStr (x_level_names x level)); (MessageKey, JStr test_message)] ++
    match src with
    | Some s => if add then [(SourceKey, JObj [(B "function", JStr (src_function s)); (B "file", JStr (src_file s)); (B "line", JNum (dec_of_Z (src_line s)))])] else []
    | None => [] end).
Proof.
  intros Z PL V x VL. unfold flash_header, keys. cbv beta iota. cbn [Slog.r_time Slog.r_level Slog.r_msg Slog.r_source].
  change (x_time_format x) with RFC3339Nano. rewrite Z, PL, VL. destruct src as [s|]; [|reflexivity]. apply andb_true_iff in V. destruct V as [V1 V2].
  rewrite V1, V2. destruct add; reflexivity.
Qed.

(** *** With a ReplaceAttr function *)

Lemma my_key : cs_string (cs W) (VString (B "my key")) = B "my key".
Proof. apply (string_id _ (s_casing W num OK)). Qed.
Lemma message_string : cs_string (cs W) (VString test_message) = test_message.
Proof. apply (string_id _ (s_casing W num OK)). Qed.

Lemma mapped_ascii f g s t : (forall r, (r < 128)%N -> f r = g r) -> forallb (fun r => N.ltb r 128) (runes s) = true ->
  concat (map utf8_encode (map g (runes s))) = t -> map_runes f s = t.
Proof.
  intros E A <-. unfold map_runes. rewrite map_map. f_equal. apply map_ext_in. intros r I. rewrite forallb_forall in A. rewrite E; [reflexivity|].
  apply N.ltb_lt. now apply A.
Qed.

Lemma omega_upper : map_runes (cs_upper (cs W)) (cs_string (cs W) (VString (B "omega"))) = B "OMEGA".
Proof.
  rewrite (string_id _ (s_casing W num OK)). apply (mapped_ascii _ ascii_upper); [apply (up_ascii _ (s_casing W num OK))|reflexivity|reflexivity].
Qed.
Lemma info_lower : map_runes (cs_lower (cs W)) (cs_string (cs W) (VString (B "INFO"))) = B "info".
Proof.
  rewrite (string_id _ (s_casing W num OK)). apply (mapped_ascii _ ascii_lower); [apply (lo_ascii _ (s_casing W num OK))|reflexivity|reflexivity].
Qed.
Lemma lunatic : replace_all (B "luna") (B "moon") (cs_string (cs W) (VString (B "lunatic"))) = B "moontic".
Proof. rewrite (string_id _ (s_casing W num OK)). reflexivity. Qed.

Lemma den_text view text vanish (leaf : value -> option json) gs a k t t' :
  view gs a = Leaf k (leaf (VString t)) -> t = t' -> leaf (VString t') = Some (JStr t') -> text k = Some (JStr k) -> den view text vanish gs a [(k, JStr t')].
Proof. intros V <- L K. apply den_leaf; [now rewrite V, L|exact K]. Qed.

Ltac a_fact := first [exact my_key|exact message_string|exact omega_upper|exact info_lower|exact lunatic].

Ltac den_here :=
  first
    [ apply den_gone; reflexivity
    | eapply den_leaf; [reflexivity|reflexivity]
    | eapply (den_text _ _ _ (flash_leaf RFC3339Nano)); [reflexivity|a_fact|reflexivity|reflexivity]
    | match goal with Z : plain (t_format ?t RFC3339Nano) = true |- _ =>
        apply (den_leaf _ _ _ _ _ TimeKey (JStr (t_format t RFC3339Nano)));
        [change (Leaf TimeKey (raw_str (t_format t RFC3339Nano)) = Leaf TimeKey (Some (JStr (t_format t RFC3339Nano)))); unfold raw_str; now rewrite Z|reflexivity]
      end ].
Ltac dens_here := repeat first [apply dens_nil | eapply dens_cons; [den_here|]].
Ltac logged_here :=
  repeat first [ eapply lg_record; dens_here
               | eapply lg_attrs; [dens_here|]
               | eapply lg_group; [discriminate|reflexivity|reflexivity|] ].

Lemma flash_replaced_lines n fn ops attrs f : replaced_call W fn ops attrs f ->
  let x := fix_extras None in let view := flash_view std RFC3339Nano (basic_field x) (Some fn) in
  let r := record_at W n LevelInfo attrs in
  exists gs' bs fs, logged view str false attrs [] ops gs' fs /\
    dens view str false gs' (flash_basics std (keys x) (x_level_names x) false r) bs /\
    bs ++ fs = members (f (t_format (Slog.r_time r) RFC3339Nano)).
Proof.
  intros P x view r. destruct (s_clock W num OK n) as (Z & PL & _). apply time_plain in PL.
  assert (E : flash_basics std (keys x) (x_level_names x) false r =
    [(TimeKey, VTime (fst (z_now W n))); (LevelKey, VString (B "INFO")); (MessageKey, VString test_message)])
    by (unfold flash_basics, basics, r, record_at; cbn [Slog.r_time Slog.r_level Slog.r_msg Slog.r_source Slog.r_attrs]; rewrite Z; reflexivity).
  rewrite E. clear E. change (Slog.r_time r) with (fst (z_now W n)). subst view x. clear r.
  inversion P; subst; do 3 eexists; (split; [logged_here|split; [dens_here|reflexivity]]).
Qed.

Lemma flash_replaced_basic n :
  let x := fix_extras None in let view := flash_view std RFC3339Nano (basic_field x) (Some (replace_basic W)) in
  exists bs, dens view str false [] (flash_basics std (keys x) (x_level_names x) true (record_at W n LevelInfo [])) bs /\
    bs = members [i_str "level" "Tilted"; i_text "Message" test_message; i_str "source" "all knowledge"].
Proof.
  intros x view. destruct (s_clock W num OK n) as (Z & PL & _). apply time_plain in PL.
  assert (E : flash_basics std (keys x) (x_level_names x) true (record_at W n LevelInfo []) =
    [(TimeKey, VTime (fst (z_now W n))); (LevelKey, VString (B "INFO")); (MessageKey, VString test_message);
     (SourceKey, VAny (AnyObj (plain_obs (sl_source_struct std (snd (z_now W n))))))])
    by (unfold flash_basics, basics, record_at; cbn [Slog.r_time Slog.r_level Slog.r_msg Slog.r_source Slog.r_attrs]; rewrite Z; reflexivity).
  rewrite E. clear E. subst view x. eexists. split; [dens_here|reflexivity].
Qed.

Lemma clock_text t : clock_ok W t -> time_text W (t_format t RFC3339Nano).
Proof. intros (_ & PL & D). split; [now apply time_valid|exact D]. Qed.

(** flash writes this line. *)
Definition flash_line (c : call) (l : list item) : Prop :=
  exists line, logs std (k_options c) None (k_ops c) NoDead (k_record c) (Done [line ++ [newline]] true) /\ spelled (members l) line.

Theorem flash_lines c f : expected W c f -> exists tx src, time_text W tx /\ source_member c src /\ flash_line c (f tx src).
Proof.
    intros X. assert (W0 : exists tx, time_text W tx) by (exists (t_format (z_when W) RFC3339Nano); apply clock_text, (s_when W num OK)).
    assert (plain_line : forall f cancelled n ops attrs level l names, expected W {| k_cancelled := cancelled; k_options := plain_options; k_ops := ops; k_record := record_at W n level attrs |} f ->
      nest (flash_meanings std RFC3339Nano) ops attrs = Some (members l) ->
      x_level_names (fix_extras None) level = B names ->
      valid_utf8 (B names) = true ->
      exists tx src, time_text W tx /\ source_member {| k_cancelled := cancelled; k_options := plain_options; k_ops := ops; k_record := record_at W n level attrs |} src /\
        flash_line {| k_cancelled := cancelled; k_options := plain_options; k_ops := ops; k_record := record_at W n level attrs |}
          (header tx names ++ l)).
    { clear X. intros f0 cancelled n ops attrs level l names X N E V. destruct (s_clock W num OK n) as (Z & PL & D).
      destruct (s_places W num OK n) as (P1 & P2 & _).
      exists (t_format (fst (z_now W n)) RFC3339Nano). eexists. split; [split; [now apply time_valid|exact D]|]. split; [left; reflexivity|].
      apply time_plain in PL. unfold flash_line. cbn [k_options k_ops k_record].
      destruct (flash_record_spelled std STD plain_options None ops (record_at W n level attrs)
        (members (header (t_format (fst (z_now W n)) RFC3339Nano) names)) (members l)) as (line & L & S).
      - reflexivity.
      - cbv beta zeta. unfold record_at. rewrite flash_head; auto.
        + rewrite E. reflexivity.
        + now rewrite P1, P2.
        + now rewrite E.
      - exact N.
      - exists line. split; [exact L|]. unfold members in *. now rewrite map_app. }
    inversion X; subst.
    + apply (plain_line _ _ _ _ _ _ _ _ X); [now apply flash_plain|reflexivity|reflexivity].
    + replace (fun tx (_ : item) => header tx "DEBUG") with (fun tx (_ : item) => header tx "DEBUG" ++ []) by reflexivity.
      apply (plain_line _ _ _ _ _ _ [] _ X); reflexivity.
    + apply (plain_line _ _ _ _ _ _ [] _ X); reflexivity.
    + apply (plain_line _ _ _ _ _ _ [] _ X); reflexivity.
    + destruct (s_when W num OK) as (Z & PL & D). exists (t_format (z_when W) RFC3339Nano), (i_str "" "").
      split; [apply clock_text; repeat split; auto|split; [exact I|]]. apply time_plain in PL. unfold flash_line. cbn [k_options k_ops k_record].
      destruct (flash_record_spelled std STD with_source None [] (new_record (z_when W) None)
        (members (header (t_format (z_when W) RFC3339Nano) "INFO")) []) as (line & L & S); [reflexivity| |reflexivity|exists line; auto].
      cbv beta zeta. unfold new_record. rewrite flash_head; auto.
    + destruct W0 as (tx & TX). exists tx, (i_str "" ""). split; [exact TX|split; [exact I|]]. unfold flash_line. cbn [k_options k_ops k_record].
      apply (flash_record_spelled std STD plain_options None [] (new_record (zero_time_value W) None)
        (members [i_str "level" "INFO"; i_text "msg" test_message]) []); reflexivity.
    + destruct (s_clock W num OK n) as (Z & PL & D). destruct (s_places W num OK n) as (P1 & P2 & _).
      exists (t_format (fst (z_now W n)) RFC3339Nano). eexists. split; [split; [now apply time_valid|exact D]|]. split; [left; reflexivity|].
      apply time_plain in PL. unfold flash_line. cbn [k_options k_ops k_record].
      destruct (flash_record_spelled std STD with_source None [] (record_at W n LevelInfo []) 
        (members (header (t_format (fst (z_now W n)) RFC3339Nano) "INFO" ++
           [i_group "source" [i_text "function" (src_function (snd (z_now W n))); i_text "file" (src_file (snd (z_now W n))); i_int "line" (src_line (snd (z_now W n)))]]))
        []) as (line & L & S); [reflexivity| |reflexivity|exists line; split; [exact L|]].
      * cbv beta zeta. unfold record_at. rewrite flash_head; auto. now rewrite P1, P2.
      * rewrite app_nil_r in S. exact S.
    + destruct (s_clock W num OK n) as (Z & PL & D). exists (t_format (fst (z_now W n)) RFC3339Nano). eexists.
      split; [split; [now apply time_valid|exact D]|]. split; [left; reflexivity|]. unfold flash_line. cbn [k_options k_ops k_record].
      match goal with R : replaced_call _ _ _ _ _ |- _ => destruct (flash_replaced_lines n _ _ _ _ R) as (gs' & bs & fs & L & Dn & E) end.
      destruct (flash_replaced_spelled std STD {| o_add_source := false; o_replace := Some fn |} None ops (record_at W n LevelInfo attrs) gs' bs fs L Dn) as (line & G & S).
      exists line. split; [exact G|]. rewrite E in S. exact S.
    + destruct W0 as (tx & TX). exists tx. eexists. split; [exact TX|split; [left; reflexivity|]]. unfold flash_line. cbn [k_options k_ops k_record].
      destruct (flash_replaced_basic n) as (bs & Dn & E).
      destruct (flash_replaced_spelled std STD {| o_add_source := true; o_replace := Some (replace_basic W) |} None [] (record_at W n LevelInfo []) [] bs []) as (line & G & S).
      * apply lg_record, dens_nil.
      * exact Dn.
      * exists line. split; [exact G|]. rewrite app_nil_r, E in S. exact S.
Qed.

Variable H : subject.
Hypothesis ANSWERS : flash_answers std W H.
Hypothesis LEVELS : levels_answer H.

Theorem flash_right : right_handler W H.
Proof.
  split.
  - intros c f X. destruct (flash_lines c f X) as (tx & src & T & M & line & L & S). exists tx, src. split; [exact T|]. split; [exact M|].
    exists line, [newline]. split; [|split; [exact S|now left]]. rewrite (ANSWERS c f _ _ X L). cbn [concat]. now rewrite app_nil_r.
  - intros l x. pose proof (LEVELS l x _ eq_refl) as E. destruct l; cbn in E; injection E as <-; reflexivity.
Qed.
End Flash.

(** ** sloggy *)

Definition sloggy_answers (std : stdlib) (W : surroundings) (H : subject) : Prop :=
  forall c f ws ok, expected W c f -> slogs std (k_options c) (k_ops c) NoDead (k_record c) (Done ws ok) ->
    u_handle H (k_cancelled c) (k_options c) (k_ops c) (k_record c) = (concat ws, ok).

(** The characters beyond the BMP in the strings of TestStringEscape. *)
Definition emoji : list N := [128512; 128038; 128293; 128165; 127819; 129001]%N.

Section SloggyRight.
Variable std : stdlib.
Variable W : surroundings.
Variable num : bytes -> option Qc.
Hypothesis STD : stdlib_ok std.
Hypothesis EMOJI : forall r, In r emoji -> sl_print std r = true.
Hypothesis OK : surroundings_ok W num.

Lemma time_safe t : forallb time_char t = true -> json_safe (sl_print std) t = true.
Proof. intros F. apply ascii_safe. apply (time_forall t _ F). reflexivity. Qed.

Lemma escapes_safe x : In x escape_cases -> json_safe (sl_print std) (fst x) = true /\ json_safe (sl_print std) (snd x) = true.
Proof.
  assert (A : forall t, json_safe (fun r => existsb (N.eqb r) emoji) t = true -> json_safe (sl_print std) t = true).
  { intros t. unfold json_safe. destruct (code_points t) as [rs|]; [|auto]. rewrite !forallb_forall. intros F r I. specialize (F r I).
    unfold json_rune in *. destruct (existsb (N.eqb r) emoji) eqn:E; [|rewrite andb_orb_distrib_r, andb_false_r, orb_false_r in F; rewrite andb_orb_distrib_r, !orb_assoc, <- !orb_assoc; rewrite !orb_assoc; rewrite F; reflexivity].
    apply existsb_exists in E as (r' & I' & E). apply N.eqb_eq in E. subst. rewrite (EMOJI _ I'). exact F. }
  assert (B : forallb (fun x => json_safe (fun r => existsb (N.eqb r) emoji) (fst x) && json_safe (fun r => existsb (N.eqb r) emoji) (snd x)) escape_cases = true)
    by (vm_compute; reflexivity).
  rewrite forallb_forall in B. intros I. specialize (B x I). apply andb_true_iff in B as [B1 B2]. auto.
Qed.

Lemma smeanings_cons k v l f1 f2 : smeaning std 100 k v = Some f1 -> sloggy_meanings std l = Some f2 ->
  sloggy_meanings std ((k, v) :: l) = Some (f1 ++ f2).
Proof. intros E1 E2. cbn [sloggy_meanings fst snd]. now rewrite E1, E2. Qed.

Lemma sloggy_plain ops attrs l : plain_call W ops attrs l -> nest (sloggy_meanings std) ops attrs = Some (members l).
Proof.
  intros P. inversion P; subst; try reflexivity.
  - destruct (s_when W num OK) as (_ & PL & _). apply time_safe in PL. apply (smeanings_cons _ _ _ [(B "when", JStr (t_format (z_when W) RFC3339Nano))]); [|reflexivity].
    change (one (sstr std) (B "when") (sstr std (t_format (z_when W) RFC3339Nano)) = Some [(B "when", JStr (t_format (z_when W) RFC3339Nano))]). unfold sstr at 2. rewrite PL. reflexivity.
  - destruct (escapes_safe x H) as [V1 V2].
    change (Some (members [i_text "esc" (fst x); i_text "exp" (snd x)])) with (Some ([(B "esc", JStr (fst x))] ++ [(B "exp", JStr (snd x))] ++ [])).
    repeat apply smeanings_cons; [| |reflexivity].
    + change (one (sstr std) (B "esc") (sstr std (fst x)) = Some [(B "esc", JStr (fst x))]). unfold sstr at 2. rewrite V1. reflexivity.
    + change (one (sstr std) (B "exp") (sstr std (snd x)) = Some [(B "exp", JStr (snd x))]). unfold sstr at 2. rewrite V2. reflexivity.
Qed.

Lemma sloggy_head t level attrs src add : t_zero t = false -> forallb time_char (t_format t RFC3339Nano) = true ->
  (match src with Some s => valid_utf8 (src_function s) && valid_utf8 (src_file s) | None => true end) = true ->
  sloggy_header std add
    {| Slog.r_time := t; Slog.r_level := level; Slog.r_msg := test_message; Slog.r_source := src; Slog.r_attrs := attrs |} =
  Some ([(TimeKey, JStr (t_format t RFC3339Nano)); (LevelKey, JStr (Slog.level_string level)); (MessageKey, JStr test_message)] ++
    match src with
    | Some s => if add then [(SourceKey, JObj [(B "file", JStr (src_file s)); (B "function", JStr (src_function s)); (B "line", JNum (dec_of_Z (src_line s)))])] else []
    | None => [] end).
Proof.
  intros Z PL V. apply time_safe in PL. unfold sloggy_header. cbn [Slog.r_time Slog.r_level Slog.r_msg Slog.r_source]. rewrite Z, PL.
  destruct src as [s|]; [|reflexivity]. rewrite V. destruct add; reflexivity.
Qed.

Ltac a_fact := first [exact (my_key W num OK)|exact (message_string W num OK)|exact (omega_upper W num OK)|exact (info_lower W num OK)|exact (lunatic W num OK)].
Ltac den_here :=
  first
    [ apply den_gone; reflexivity
    | eapply den_leaf; [reflexivity|reflexivity]
    | eapply (den_text _ _ _ (sloggy_leaf std)); [reflexivity|a_fact|reflexivity|reflexivity]
    | match goal with Z : json_safe _ (t_format ?t RFC3339Nano) = true |- _ =>
        apply (den_leaf _ _ _ _ _ TimeKey (JStr (t_format t RFC3339Nano)));
        [change (Leaf TimeKey (sstr std (t_format t RFC3339Nano)) = Leaf TimeKey (Some (JStr (t_format t RFC3339Nano)))); unfold sstr; now rewrite Z|reflexivity]
      end ].
Ltac dens_here := repeat first [apply dens_nil | eapply dens_cons; [den_here|]].
Ltac logged_here :=
  repeat first [ eapply lg_record; dens_here
               | eapply lg_attrs; [dens_here|]
               | eapply lg_group; [discriminate|reflexivity|reflexivity|] ].

Lemma sloggy_replaced_lines n fn ops attrs f : replaced_call W fn ops attrs f ->
  let view := sloggy_view std (Some fn) in let r := record_at W n LevelInfo attrs in
  exists gs' bs fs, logged view (sstr std) true attrs [] ops gs' fs /\ dens view (sstr std) true gs' (sloggy_basics std false r) bs /\ bs <> [] /\
    bs ++ fs = members (f (t_format (Slog.r_time r) RFC3339Nano)).
Proof.
  intros P view r. destruct (s_clock W num OK n) as (Z & PL & _). apply time_safe in PL.
  assert (E : sloggy_basics std false r =
    [(TimeKey, VTime (fst (z_now W n))); (LevelKey, VString (B "INFO")); (MessageKey, VString test_message)])
    by (unfold sloggy_basics, basics, r, record_at; cbn [Slog.r_time Slog.r_level Slog.r_msg Slog.r_source Slog.r_attrs]; rewrite Z; reflexivity).
  rewrite E. clear E. change (Slog.r_time r) with (fst (z_now W n)). subst view. clear r.
  inversion P; subst; do 3 eexists; (split; [logged_here|split; [dens_here|split; [discriminate|reflexivity]]]).
Qed.

Lemma sloggy_replaced_basic n :
  let view := sloggy_view std (Some (replace_basic W)) in
  exists bs, dens view (sstr std) true [] (sloggy_basics std true (record_at W n LevelInfo [])) bs /\
    bs = members [i_str "level" "Tilted"; i_text "Message" test_message; i_str "source" "all knowledge"].
Proof.
  intros view. destruct (s_clock W num OK n) as (Z & PL & _). apply time_safe in PL.
  assert (E : sloggy_basics std true (record_at W n LevelInfo []) =
    [(TimeKey, VTime (fst (z_now W n))); (LevelKey, VString (B "INFO")); (MessageKey, VString test_message);
     (SourceKey, VAny (AnyObj (plain_obs (sl_source_map std (snd (z_now W n))))))])
    by (unfold sloggy_basics, basics, record_at; cbn [Slog.r_time Slog.r_level Slog.r_msg Slog.r_source Slog.r_attrs]; rewrite Z; reflexivity).
  rewrite E. clear E. subst view. eexists. split; [dens_here|reflexivity].
Qed.

Variable H : subject.
Hypothesis ANSWERS : sloggy_answers std W H.
Hypothesis LEVELS : levels_answer H.

Lemma sloggy_writes c f l : expected W c f -> (exists ws line, slogs std (k_options c) (k_ops c) NoDead (k_record c) (Done ws true) /\
  concat ws = line ++ [chr 13; newline] /\ spelled (members l) line) -> writes H c l.
Proof.
  intros X (ws & line & L & C & S). exists line, [chr 13; newline]. split; [|split; [exact S|now right]].
  rewrite (ANSWERS c f _ _ X L). now rewrite C.
Qed.

Theorem sloggy_right : right_handler W H.
Proof.
  split.
  - intros c f X. assert (W0 : exists tx, time_text W tx) by (exists (t_format (z_when W) RFC3339Nano); apply clock_text, (s_when W num OK)).
    assert (plain_line : forall f cancelled n ops attrs level l names, expected W {| k_cancelled := cancelled; k_options := plain_options; k_ops := ops; k_record := record_at W n level attrs |} f ->
      nest (sloggy_meanings std) ops attrs = Some (members l) ->
      Slog.level_string level = B names ->
      exists tx src, time_text W tx /\ source_member {| k_cancelled := cancelled; k_options := plain_options; k_ops := ops; k_record := record_at W n level attrs |} src /\
        writes H {| k_cancelled := cancelled; k_options := plain_options; k_ops := ops; k_record := record_at W n level attrs |}
          (header tx names ++ l)).
    { clear X. intros f0 cancelled n ops attrs level l names X N E. destruct (s_clock W num OK n) as (Z & PL & D).
      destruct (s_places W num OK n) as (P1 & P2 & _).
      exists (t_format (fst (z_now W n)) RFC3339Nano). eexists. split; [split; [now apply time_valid|exact D]|]. split; [left; reflexivity|].
      apply (sloggy_writes _ _ _ X). cbn [k_options k_ops k_record].
      destruct (sloggy_plain_spelled std STD plain_options ops (record_at W n level attrs)
        (members (header (t_format (fst (z_now W n)) RFC3339Nano) names)) (members l)) as (ws & line & L & C & S).
      - reflexivity.
      - unfold record_at. cbn [plain_options o_add_source]. rewrite sloggy_head; auto.
        + rewrite E. reflexivity.
        + now rewrite P1, P2.
      - exact N.
      - exists ws, line. split; [exact L|split; [exact C|]]. unfold members in *. now rewrite map_app. }
    inversion X; subst.
    + apply (plain_line _ _ _ _ _ _ _ _ X); [now apply sloggy_plain|reflexivity].
    + apply (plain_line _ _ _ _ _ _ [] _ X); reflexivity.
    + apply (plain_line _ _ _ _ _ _ [] _ X); reflexivity.
    + apply (plain_line _ _ _ _ _ _ [] _ X); reflexivity.
    + destruct (s_when W num OK) as (Z & PL & D). exists (t_format (z_when W) RFC3339Nano), (i_str "" "").
      split; [apply clock_text; repeat split; auto|split; [exact I|]]. apply (sloggy_writes _ _ _ X). cbn [k_options k_ops k_record].
      destruct (sloggy_plain_spelled std STD with_source [] (new_record (z_when W) None)
        (members (header (t_format (z_when W) RFC3339Nano) "INFO")) []) as (ws & line & L & C & S); [reflexivity| |reflexivity|exists ws, line; auto].
      unfold new_record. rewrite sloggy_head; auto.
    + destruct W0 as (tx & TX). exists tx, (i_str "" ""). split; [exact TX|split; [exact I|]]. apply (sloggy_writes _ _ _ X). cbn [k_options k_ops k_record].
      apply (sloggy_plain_spelled std STD plain_options [] (new_record (zero_time_value W) None)
        (members [i_str "level" "INFO"; i_text "msg" test_message]) []); reflexivity.
    + destruct (s_clock W num OK n) as (Z & PL & D). destruct (s_places W num OK n) as (P1 & P2 & _).
      exists (t_format (fst (z_now W n)) RFC3339Nano). eexists. split; [split; [now apply time_valid|exact D]|]. split; [right; reflexivity|].
      apply (sloggy_writes _ _ _ X). cbn [k_options k_ops k_record].
      destruct (sloggy_plain_spelled std STD with_source [] (record_at W n LevelInfo [])
        (members (header (t_format (fst (z_now W n)) RFC3339Nano) "INFO" ++
           [i_group "source" [i_text "file" (src_file (snd (z_now W n))); i_text "function" (src_function (snd (z_now W n))); i_int "line" (src_line (snd (z_now W n)))]]))
        []) as (ws & line & L & C & S); [reflexivity| |reflexivity|exists ws, line; split; [exact L|split; [exact C|]]].
      * unfold record_at. cbn [with_source o_add_source]. rewrite sloggy_head; auto. now rewrite P1, P2.
      * rewrite app_nil_r in S. exact S.
    + destruct (s_clock W num OK n) as (Z & PL & D). exists (t_format (fst (z_now W n)) RFC3339Nano). eexists.
      split; [split; [now apply time_valid|exact D]|]. split; [left; reflexivity|]. apply (sloggy_writes _ _ _ X). cbn [k_options k_ops k_record].
      match goal with R : replaced_call _ _ _ _ _ |- _ => destruct (sloggy_replaced_lines n _ _ _ _ R) as (gs' & bs & fs & L & Dn & NE & E) end.
      destruct (sloggy_spelled_line std {| o_add_source := false; o_replace := Some fn |} ops (record_at W n LevelInfo attrs) gs' bs fs L Dn (or_introl NE)) as (ws & line & G & C & S).
      exists ws, line. split; [exact G|split; [exact C|]]. rewrite E in S. exact S.
    + destruct W0 as (tx & TX). exists tx. eexists. split; [exact TX|split; [left; reflexivity|]]. apply (sloggy_writes _ _ _ X). cbn [k_options k_ops k_record].
      destruct (sloggy_replaced_basic n) as (bs & Dn & E).
      destruct (sloggy_spelled_line std {| o_add_source := true; o_replace := Some (replace_basic W) |} [] (record_at W n LevelInfo []) [] bs []) as (ws & line & G & C & S).
      * apply lg_record, dens_nil.
      * exact Dn.
      * now right.
      * exists ws, line. split; [exact G|split; [exact C|]]. rewrite app_nil_r, E in S. exact S.
  - intros l x. pose proof (LEVELS l x _ eq_refl) as E. destruct l; cbn in E; injection E as <-; reflexivity.
Qed.
End SloggyRight.
