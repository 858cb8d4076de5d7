(** The meaning of records logged by sloggy, with and without ReplaceAttr. *)

From Coq Require Import Ascii String List ZArith NArith Bool Lia.
From Verif Require Import Bytes BytesProofs Json JsonProofs Slog SlogProofs SpecLog SpecText GoQuote
  EscapeProofs TextProofs QuoteProofs SpecSloggy Sloggy SloggyProofs SloggyHandler.
Import ListNotations.

Section Meaning.
Variable std : stdlib.

Local Notation mean n := (smeaning std n).
Local Notation means := (sloggy_meanings std).
Local Notation sden' gs := (den (sloggy_view std None) (sstr std) true gs).
Local Notation sdens' gs := (dens (sloggy_view std None) (sstr std) true gs).

Lemma smeaning_group n k l : mean (S n) k (VGroup l) =
  if empty_group l then Some []
  else match k, means l with
       | [], m => m
       | _ :: _, Some fs => one (sstr std) k (Some (JObj fs))
       | _ :: _, None => None
       end.
Proof.
  assert (E : (fix go (l : list (bytes * value)) : option fields :=
           match l with
           | [] => Some []
           | (k', v') :: l' =>
               match mean 100 k' v', go l' with
               | Some a, Some b => Some (a ++ b)
               | _, _ => None
               end
           end) l = means l).
  { induction l as [|[k' v'] l IH]; [reflexivity|]. cbn [sloggy_meanings fst snd]. rewrite <- IH. reflexivity. }
  rewrite <- E. reflexivity.
Qed.

Lemma smeans_cons a l fs : means (a :: l) = Some fs ->
  exists f1 f2, mean 100 (fst a) (snd a) = Some f1 /\ means l = Some f2 /\ fs = f1 ++ f2.
Proof.
  cbn [sloggy_meanings]. destruct (mean 100 _ _) as [f1|]; [|discriminate].
  destruct (means l) as [f2|]; [|discriminate]. intros [= <-]. eauto.
Qed.

Lemma sstr_ok k j : sstr std k = Some j -> j = JStr k.
Proof. unfold sstr. destruct (json_safe _ _); [|discriminate]. intros [= <-]. reflexivity. Qed.

Lemma sview_none gs k v0 : is_empty (k, v0) = false ->
  sloggy_view std None gs (k, v0) =
  match resolve v0 with
  | VGroup l => Node k l
  | VLogValuer _ o => Leaf k (sloggy_any std o)
  | w => Leaf k (sloggy_leaf std w)
  end.
Proof. intros E. unfold sloggy_view, sloggy_effective. cbv beta iota zeta. rewrite E. cbn [fst snd]. destruct (resolve v0); reflexivity. Qed.

Lemma smeaning_den gs : forall v n k fs v0, mean n k v = Some fs ->
  resolve v0 = resolve_n n v -> (n = 100 /\ v0 = v \/ is_empty (k, v0) = false /\ n < 100) ->
  sden' gs (k, v0) fs.
Proof.
  assert (Lf : forall w n k fs v0, match w with VGroup _ | VLogValuer _ _ => False | _ => True end ->
    (if Nat.eqb n 100 && is_empty (k, w) then Some [] else one (sstr std) k (sloggy_leaf std w)) = Some fs ->
    resolve v0 = w -> (n = 100 /\ v0 = w \/ is_empty (k, v0) = false /\ n < 100) -> sden' gs (k, v0) fs).
  { intros w n k fs v0 Nw H R C.
    assert (E : is_empty (k, v0) = Nat.eqb n 100 && is_empty (k, w)).
    { destruct C as [[-> ->]|[C L]].
      - rewrite Nat.eqb_refl. reflexivity.
      - rewrite C. destruct (Nat.eqb_spec n 100); [lia|]. reflexivity. }
    rewrite <- E in H. destruct (is_empty (k, v0)) eqn:Em.
    - injection H as <-. apply den_gone. unfold sloggy_view. rewrite Em. reflexivity.
    - apply (one_some (sstr std) sstr_ok) in H as (j & Hj & -> & T). apply den_leaf; auto.
      rewrite sview_none, R by auto. rewrite <- Hj. destruct w; try contradiction; reflexivity. }
  assert (L0 : forall k fs v0, one (sstr std) k (sloggy_leaf std too_many) = Some fs ->
    resolve v0 = too_many -> forall v, (0 = 100 /\ v0 = v \/ is_empty (k, v0) = false /\ 0 < 100) ->
    sden' gs (k, v0) fs).
  { intros k fs v0 H R v1 C. apply (Lf too_many 0 k fs v0); auto; [exact I|].
    destruct C as [[C _]|C]; [discriminate|right; exact C]. }
  apply (value_rect' (fun v => forall n k fs v0, mean n k v = Some fs ->
    resolve v0 = resolve_n n v -> (n = 100 /\ v0 = v \/ is_empty (k, v0) = false /\ n < 100) -> sden' gs (k, v0) fs)).
  all: try (intros x n k fs v0 H R C; destruct n as [|n]; [exact (L0 k fs v0 H R _ C)|refine (Lf _ (S n) k fs v0 _ H R C); exact I]).
  - intros l F n k fs v0 H R C.
    destruct n as [|n].
    { exact (L0 k fs v0 H R _ C). }
    rewrite smeaning_group in H. cbn [resolve_n] in R.
    assert (Em : is_empty (k, v0) = false).
    { destruct C as [[_ ->]|[C _]]; auto. destruct k; reflexivity. }
    assert (V : sloggy_view std None gs (k, v0) = Node k l) by (rewrite sview_none, R by auto; reflexivity).
    assert (D : forall fs, means l = Some fs -> sdens' gs l fs).
    { clear - F. induction F as [|a l Ha F IH]; intros fs H.
      - injection H as <-. constructor.
      - apply smeans_cons in H as (f1 & f2 & H1 & H2 & ->). constructor; auto.
        destruct a as [k v]. eapply Ha; [exact H1|reflexivity|left; auto]. }
    destruct (empty_group l) eqn:E.
    + injection H as <-. eapply den_empty; eauto.
    + destruct k as [|c k].
      * eapply den_inline; eauto.
      * destruct (means l) as [f|] eqn:M; [|discriminate].
        apply (one_some (sstr std) sstr_ok) in H as (j & [= <-] & -> & T).
        eapply den_group; eauto; discriminate.
  - intros w o IH n k fs v0 H R C. destruct n as [|n].
    { exact (L0 k fs v0 H R _ C). }
    cbn [smeaning resolve_n] in H, R. apply (IH n k fs v0 H R). right.
    destruct C as [[C1 C2]|[C1 C2]].
    + subst v0. split; [destruct k; reflexivity|lia].
    + split; auto. lia.
Qed.

Lemma smeanings_dens gs l : forall fs, means l = Some fs -> sdens' gs l fs.
Proof.
  induction l as [|[k v] l IH]; intros fs H.
  - injection H as <-. constructor.
  - apply smeans_cons in H as (f1 & f2 & H1 & H2 & ->). constructor; auto.
    eapply smeaning_den; [exact H1|reflexivity|left; auto].
Qed.

Lemma sall_empty l : forallb is_empty l = true -> means l = Some [].
Proof.
  induction l as [|a l IH]; [reflexivity|]. cbn [forallb]. intros H. apply andb_prop in H as [H1 H2].
  cbn [sloggy_meanings]. rewrite IH by auto.
  destruct a as [[|? ?] [[|]| | | | | | | | |]]; try discriminate. reflexivity.
Qed.

Lemma snest_logged ops attrs : forall gs fs, nest means ops attrs = Some fs ->
  exists gs', logged (sloggy_view std None) (sstr std) true attrs gs ops gs' fs.
Proof.
  induction ops as [|[l|[|c name]] ops IH]; intros gs fs H; cbn [nest] in H.
  - exists gs. constructor. apply smeanings_dens; auto.
  - destruct (means l) as [f1|] eqn:E1; [|discriminate].
    destruct (nest means ops attrs) as [f2|] eqn:E2; [|discriminate]. injection H as <-.
    destruct (IH gs f2 eq_refl) as (gs' & L). exists gs'. constructor; auto. apply smeanings_dens; auto.
  - destruct (IH gs fs H) as (gs' & L). exists gs'. constructor; auto.
  - destruct (plain (c :: name)) eqn:P; [|discriminate]. cbn [negb] in H.
    destruct (untouched attrs ops) eqn:U.
    + injection H as <-. exists gs. apply lg_elided; [discriminate|auto|].
      apply smeanings_dens, sall_empty. apply andb_prop in U as [U _]. exact U.
    + destruct (nest means ops attrs) as [b|] eqn:E; [|discriminate]. injection H as <-.
      destruct (IH (gs ++ [c :: name]) b eq_refl) as (gs' & L). exists gs'.
      apply lg_group; auto. discriminate.
Qed.

(** Printable ASCII is safe. *)
Lemma ascii_safe t : forallb (fun c => N.leb 32 (code c) && N.ltb (code c) 127) t = true ->
  json_safe (sl_print std) t = true.
Proof.
  intros H. unfold json_safe.
  assert (C : code_points t = Some (map code t)).
  { apply code_points_iff. split.
    - induction t as [|c t IH]; [reflexivity|]. cbn [forallb map] in *. apply andb_prop in H as [H1 H2].
      rewrite IH by auto. apply andb_prop in H1 as [_ H1]. apply N.ltb_lt in H1. unfold scalar.
      replace (N.ltb (code c) 55296) with true by (symmetry; apply N.ltb_lt; lia). reflexivity.
    - induction t as [|c t IH]; [reflexivity|]. cbn [forallb] in H. apply andb_prop in H as [H1 H2].
      apply andb_prop in H1 as [_ H1]. apply N.ltb_lt in H1. cbn [map]. unfold text in *. cbn [map concat].
      rewrite <- IH by auto. unfold utf8_encode.
      replace (N.ltb (code c) 128) with true by (symmetry; apply N.ltb_lt; lia).
      rewrite chr_code. reflexivity. }
  rewrite C. rewrite forallb_forall in *. intros r I. apply in_map_iff in I as (c & <- & I).
  unfold json_rune. rewrite (H c I). rewrite orb_true_r. reflexivity.
Qed.

(** Level names are plain text. *)
Lemma level_string_ascii z :
  forallb (fun c => N.leb 32 (code c) && N.ltb (code c) 127) (level_string z) = true.
Proof.
  assert (D : forall n, forallb (fun c => N.leb 32 (code c) && N.ltb (code c) 127) (dec_of_N n) = true).
  { intros n. pose proof (dec_of_N_digits n) as H. rewrite forallb_forall in *. intros c I.
    specialize (H c I). unfold is_digit, btw in H. apply andb_prop in H as [H1 H2].
    apply N.leb_le in H1. apply N.leb_le in H2.
    apply andb_true_intro. split; [apply N.leb_le|apply N.ltb_lt]; lia. }
  assert (G : forall s k, forallb (fun c => N.leb 32 (code c) && N.ltb (code c) 127) (B s) = true ->
    forallb (fun c => N.leb 32 (code c) && N.ltb (code c) 127) (level_str s k) = true).
  { intros s k H. unfold level_str. destruct k; cbn [Z.eqb]; auto; rewrite ?forallb_app, ?H; cbn [andb].
    - apply (D (Npos p)).
    - apply (D (Npos p)). }
  unfold level_string. repeat match goal with |- context [if ?b then _ else _] => destruct b end; apply G; reflexivity.
Qed.

Lemma level_string_safe z : json_safe (sl_print std) (level_string z) = true.
Proof. apply ascii_safe, level_string_ascii. Qed.

Hypothesis std_ok : stdlib_ok std.

Lemma sheader_means add r bs : sloggy_header std add r = Some bs ->
  means (sloggy_basics std add r) = Some bs.
Proof.
  unfold sloggy_header, sloggy_basics, basics.
  assert (One : forall (k : bytes) v j l fs, sstr std k = Some (JStr k) -> is_empty (k, v) = false ->
    match v with VGroup _ | VLogValuer _ _ => False | _ => True end ->
    sloggy_leaf std v = Some j -> means l = Some fs -> means ((k, v) :: l) = Some ((k, j) :: fs)).
  { intros k v j l fs Hk He Hv Hl Hm. cbn [sloggy_meanings fst snd]. rewrite Hm.
    assert (M : mean 100 k v = one (sstr std) k (sloggy_leaf std v)).
    { change (mean 100 k v) with (mean (S 99) k v). destruct v; try contradiction; cbn [smeaning];
        rewrite He, andb_false_r; reflexivity. }
    rewrite M. unfold one. rewrite Hk, Hl. reflexivity. }
  assert (K : forall t, json_safe (sl_print std) t = true -> sstr std t = Some (JStr t)).
  { intros t H. unfold sstr. rewrite H. reflexivity. }
  assert (Src : forall rest fs, means rest = Some fs -> fs = [] -> rest = [] ->
    forall src, (match r_source r with
             | Some s =>
               if negb add then Some []
               else if valid_utf8 (src_function s) && valid_utf8 (src_file s)
               then Some [(B "source", JObj [(B "file", JStr (src_file s));
                                             (B "function", JStr (src_function s));
                                             (B "line", JNum (dec_of_Z (src_line s)))])]
               else None
             | None => Some []
             end) = Some src ->
    means (match r_source r with
     | Some s => if add then [(B "source", VAny (AnyObj (plain_obs (sl_source_map std s))))] else []
     | None => []
     end) = Some src).
  { intros rest fs _ _ _ src H. destruct (r_source r) as [s|]; [|exact H].
    destruct add; cbn [negb] in H; [|exact H].
    destruct (valid_utf8 (src_function s)) eqn:V1; [|discriminate].
    destruct (valid_utf8 (src_file s)) eqn:V2; [|discriminate]. cbn [andb] in H. injection H as H. rewrite <- H.
    apply One; [apply K, ascii_safe; reflexivity|reflexivity|exact I| |reflexivity].
    unfold sloggy_leaf, leaf, sloggy_any, plain_obs. cbn [ao_net ao_error ao_stringer ao_jsonm ao_textm ao_marshal].
    apply (so_source_map std std_ok); auto. }
  destruct (json_safe (sl_print std) (r_msg r)) eqn:Sm; [|discriminate].
  set (src := match r_source r with
             | Some s =>
               if negb add then Some []
               else if valid_utf8 (src_function s) && valid_utf8 (src_file s)
               then Some [(B "source", JObj [(B "file", JStr (src_file s));
                                             (B "function", JStr (src_function s));
                                             (B "line", JNum (dec_of_Z (src_line s)))])]
               else None
             | None => Some []
             end) in *.
  destruct (t_zero (r_time r)) eqn:Tz.
  - destruct src as [sv|] eqn:Es; [|discriminate]. intros H. injection H as H. rewrite <- H. cbn [app].
    apply One; [apply K, ascii_safe; reflexivity|reflexivity|exact I|apply K, level_string_safe|].
    apply One; [apply K, ascii_safe; reflexivity|reflexivity|exact I|apply K, Sm|].
    apply (Src [] []); auto.
  - destruct (json_safe (sl_print std) (t_format (r_time r) RFC3339Nano)) eqn:St; [|discriminate].
    destruct src as [sv|] eqn:Es; [|discriminate]. intros H. injection H as H. rewrite <- H. cbn [app].
    apply One; [apply K, ascii_safe; reflexivity|reflexivity|exact I|apply K, St|].
    apply One; [apply K, ascii_safe; reflexivity|reflexivity|exact I|apply K, level_string_safe|].
    apply One; [apply K, ascii_safe; reflexivity|reflexivity|exact I|apply K, Sm|].
    apply (Src [] []); auto.
Qed.

Lemma sheader_nonempty add r bs : sloggy_header std add r = Some bs -> bs <> [].
Proof.
  unfold sloggy_header. cbv zeta.
  destruct (json_safe (sl_print std) (r_msg r)); [|discriminate].
  match goal with |- context [match ?x with Some _ => match ?y with _ => _ end | None => _ end] =>
    destruct x; [destruct y|]; try discriminate end.
  intros [= <-]. destruct l; discriminate.
Qed.

(** The line of a record without ReplaceAttr. *)
Theorem sloggy_plain_spelled o ops r bs fs : o_replace o = None ->
  sloggy_header std (o_add_source o) r = Some bs -> nest means ops (r_attrs r) = Some fs ->
  exists ws line, slogs std o ops NoDead r (Done ws true) /\ concat ws = line ++ [chr 13; newline] /\
    spelled (bs ++ fs) line.
Proof.
  intros R H N. destruct (snest_logged ops (r_attrs r) [] fs N) as (gs' & L).
  eapply sloggy_spelled_line; rewrite ?R; [exact L| |left; eapply sheader_nonempty; eauto].
  apply smeanings_dens, sheader_means, H.
Qed.

Theorem sloggy_plain_line o ops r bs fs : o_replace o = None ->
  sloggy_header std (o_add_source o) r = Some bs -> nest means ops (r_attrs r) = Some fs ->
  exists ws line, slogs std o ops NoDead r (Done ws true) /\ concat ws = line ++ [chr 13; newline] /\
    parse_json line = Some (JObj (bs ++ fs)) /\ clean line = true.
Proof.
  intros R H N. destruct (sloggy_plain_spelled o ops r bs fs R H N) as (ws & line & L & E & S).
  exists ws, line. split; auto. split; auto. apply spelled_parses, S.
Qed.

End Meaning.
