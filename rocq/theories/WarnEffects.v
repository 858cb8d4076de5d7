(** The effect of the lines of a report on the parser's state. *)

From Coq Require Import Ascii String List NArith Bool Arith Lia Permutation.
From Verif Require Import Bytes BytesProofs GoSort Regex RegexProofs RegexFirst Replace PropReplace Warnings WarnParser
  WarnLines SpecReport WarnRoundTrip.
Import ListNotations.

Section Effects.
Variable v : world.
Variable source : bytes.
Variable lookup : gomap bytes.
Let cs := v_casing v.
Hypothesis ok : casing_ok cs.

Notation loop := (parse_loop v source lookup None).
Notation rest := (parse_rest v source).
Notation save := (save v).

(** The data once the pending instance is filed. *)
Definition settled (s : pstate) : wdata := p_data (save s).

Lemma save_inst s : p_inst (save s) = None.
Proof. unfold WarnParser.save. destruct (p_inst s) eqn:E; [|exact E]. destruct (p_cur s); reflexivity. Qed.
Lemma save_handler s : p_handler (save s) = p_handler s.
Proof. unfold WarnParser.save. destruct (p_inst s); [|reflexivity]. destruct (p_cur s); reflexivity. Qed.
Lemma save_level s : p_level (save s) = p_level s.
Proof. unfold WarnParser.save. destruct (p_inst s); [|reflexivity]. destruct (p_cur s); reflexivity. Qed.
Lemma save_cur s : p_cur (save s) = p_cur s.
Proof. unfold WarnParser.save. destruct (p_inst s); [|reflexivity]. destruct (p_cur s) eqn:E; cbn; congruence. Qed.
Lemma save_none s : p_inst s = None -> save s = s.
Proof. intros E. unfold WarnParser.save. rewrite E. reflexivity. Qed.
Lemma settled_none s : p_inst s = None -> settled s = p_data s.
Proof. intros E. unfold settled. rewrite save_none by exact E. reflexivity. Qed.

Lemma loop_ordinary raw line ls s : prepare raw = line -> ordinary line ->
  loop (raw :: ls) s = match rest line s with Some s' => loop ls s' | None => None end.
Proof.
  intros E (N & H1 & H2 & H3). cbn [parse_loop]. rewrite E. destruct line as [|c t]; [congruence|].
  rewrite H1, H2, H3. reflexivity.
Qed.

(** ** Single lines *)

Lemma rest_level l s : p_handler s <> [] -> In l level_order ->
  rest (level_string l) s = Some (with_cur None (with_level l (save s))).
Proof.
  intros N H. unfold parse_rest. destruct (p_handler s) eqn:E; [congruence|].
  replace (matches ptn_none (level_string l)) with false by (destruct H as [<-|[<-|[<-|[<-|[]]]]]; reflexivity).
  pose proof (level_of_name cs ok l H) as L. unfold level_of in L. fold cs. rewrite L. reflexivity.
Qed.

Lemma rest_none s : p_handler s <> [] -> rest (B "None") s =
  Some (let s := match p_cur s with
                 | Some c => if beq (c_handler c) (p_handler s)
                             then with_cur (Some {| c_handler := c_handler c; c_level := c_level c; c_name := c_name c;
                                                    c_summary := c_summary c; c_live := false |}) s
                             else s
                 | None => s
                 end in
        with_data (set_by_handler (put (p_handler s) [] (by_handler (p_data s))) (p_data s)) s).
Proof.
  intros N. unfold parse_rest. destruct (p_handler s) eqn:E; [congruence|]. rewrite none_none. rewrite <- E. reflexivity.
Qed.

Definition new_cur (h : bytes) (lvl : N) (name summary : bytes) : cur :=
  {| c_handler := h; c_level := lvl; c_name := name; c_summary := summary; c_live := true |}.
Definition touch (h : bytes) (lvl : N) (name summary : bytes) (w : wdata) : wdata :=
  set_by_handler (update h (lvl, name) (set_summary summary) (by_handler w)) w.

Lemma digit_head ds r : ds <> [] -> forallb is_digit ds = true ->
  exists c t, ds ++ r = c :: t /\ is_digit c = true /\ is_space c = false.
Proof.
  intros N D. destruct ds as [|c ds]; [congruence|]. exists c, (ds ++ r). split; [reflexivity|].
  cbn in D. apply andb_true_iff in D. destruct D as [D _]. split; [exact D|].
  destruct c as [[] [] [] [] [] [] [] []]; try discriminate D; reflexivity.
Qed.

Lemma digit_not c d : is_digit c = true -> is_digit d = false -> c <> d.
Proof. intros H1 H2 ->. congruence. Qed.

Lemma digits_nonspace ds : forallb is_digit ds = true -> forallb is_nonspace ds = true.
Proof.
  intros H. apply forallb_forall. intros c Hc. rewrite forallb_forall in H. apply H in Hc.
  destruct c as [[] [] [] [] [] [] [] []]; try discriminate Hc; reflexivity.
Qed.

Lemma rest_warning ds name tl summary s : p_handler s <> [] -> p_inst (save s) = None ->
  ds <> [] -> forallb is_digit ds = true -> forallb is_dot name = true -> good_summary summary ->
  tl = summary \/ tl = space :: summary -> last_ok (B "[" ++ name ++ B "]" ++ tl) ->
  let line := ds ++ B " [" ++ name ++ B "]" ++ tl in
  ordinary line /\
  rest line s = Some (with_cur (Some (new_cur (p_handler s) (p_level s) name summary))
                        (with_data (touch (p_handler s) (p_level s) name summary (settled s)) (save s))).
Proof.
  intros N I Nd D Dn S T L line. destruct (digit_head ds (B " [" ++ name ++ B "]" ++ tl) Nd D) as (c & t & E & C1 & C2).
  assert (O : ordinary line).
  { unfold line. rewrite E. apply ordinary_head; [exact C2| | |]; apply digit_not; auto. }
  split; [exact O|]. unfold parse_rest. destruct (p_handler s) eqn:Eh; [congruence|].
  assert (M : matches ptn_none line = false).
  { unfold line. rewrite E. apply none_head; [exact C2|]. apply digit_not; auto. }
  rewrite M.
  assert (V : level_of cs line = None).
  { apply (level_of_words cs ds (B "[" ++ name ++ B "]" ++ tl)); auto using digits_nonspace. discriminate. }
  unfold level_of in V. fold cs. rewrite V.
  destruct (find_warning_line ds name tl summary Nd D Dn S T) as (f & F & F1 & F2). fold line in F. rewrite F, F1, F2.
  f_equal. unfold with_inst, with_cur, with_data, touch, new_cur, settled.
  cbn [p_inst p_cur p_data p_handler p_level p_test]. rewrite save_handler, save_level, I, Eh. reflexivity.
Qed.

(** ** Instances *)

Definition first_inst (f text : bytes) : dinst :=
  let tag := strip_prefixes f in
  {| di_tag := tag; di_source := source; di_name := test_name v tag; di_extra := text; di_line := []; di_log := [] |}.
Definition the_test (f : bytes) : bytes :=
  let tag := strip_prefixes f in match source with [] => tag | _ => source ++ chr 46 :: tag end.
Definition name_test (f : bytes) (w : wdata) : wdata :=
  let t := the_test f in
  set_test_names (match get t (test_names w) with
                  | Some _ => test_names w
                  | None => put t (test_name v (strip_prefixes f)) (test_names w)
                  end) w.
Definition open_inst (f text : bytes) (s : pstate) : pstate :=
  with_inst (Some (first_inst f text)) (with_test (the_test f) (with_data (name_test f (settled s)) (save s))).

Lemma word_start f c : word f -> (forall t, f <> c :: t) -> forall r, exists d t, f ++ r = d :: t /\ d <> c /\ is_space d = false.
Proof.
  intros Hf H r. pose proof (word_head f r Hf) as W. destruct Hf as (N & _). destruct f as [|d f]; [congruence|].
  exists d, (f ++ r). split; [reflexivity|]. split; [intros ->; apply (H f); reflexivity|exact W].
Qed.

Lemma rest_instance f s : p_handler s <> [] -> good_function cs f ->
  ordinary f /\ rest f s = Some (open_inst f [] s).
Proof.
  intros N G. assert (W := good_function_word _ _ G). destruct G as (_ & _ & G1 & G2 & G3 & G4).
  split; [rewrite <- (app_nil_r f); apply ordinary_word; [exact W|left; reflexivity]|].
  unfold parse_rest. destruct (p_handler s) eqn:Eh; [congruence|].
  assert (M : matches ptn_none f = false) by (rewrite <- (app_nil_r f); apply none_word; [exact W|left; reflexivity|exact G3]).
  rewrite M. pose proof (level_of_word cs f W G4) as V. unfold level_of in V. fold cs. rewrite V.
  assert (Wn : find ptn_warning f = None) by (rewrite <- (app_nil_r f); apply warning_word; [exact W|left; reflexivity]).
  rewrite Wn.
  destruct (word_start f (chr 123) W G1 []) as (d & t & E & D1 & D2). rewrite app_nil_r in E.
  assert (Lg : matches ptn_log_line f = false) by (rewrite E; apply log_head; assumption). rewrite Lg.
  destruct (word_start f (chr 43) W G2 []) as (d' & t' & E' & D1' & D2'). rewrite app_nil_r in E'.
  assert (Ex : find ptn_extra f = None) by (rewrite E'; apply extra_head; assumption). rewrite Ex.
  destruct (find_instance f W) as (x & X & X1 & X2). rewrite X, X1, X2. reflexivity.
Qed.

Lemma rest_instance_text f t0 s : p_handler s <> [] -> good_function cs f ->
  t0 <> [] -> forallb is_dot t0 = true -> head_not is_space t0 -> last_ok t0 ->
  ordinary (f ++ B ": " ++ t0) /\ rest (f ++ B ": " ++ t0) s = Some (open_inst f t0 s).
Proof.
  intros N G T D H L. assert (W := good_function_word _ _ G). destruct G as (_ & _ & G1 & G2 & G3 & _).
  assert (C : colon_or_end (B ": " ++ t0)) by (right; exists (" "%char :: t0); reflexivity).
  split; [apply ordinary_word; assumption|].
  unfold parse_rest. destruct (p_handler s) eqn:Eh; [congruence|].
  rewrite (none_word f _ W C G3).
  assert (V : level_of cs (f ++ B ": " ++ t0) = None).
  { change (f ++ B ": " ++ t0) with (f ++ [":"%char] ++ space :: t0). rewrite app_assoc.
    apply (level_of_words cs (f ++ [":"%char]) t0); try assumption.
    - destruct f; discriminate.
    - rewrite forallb_app. destruct W as (_ & -> & _). reflexivity. }
  unfold level_of in V. fold cs. rewrite V. rewrite (warning_word f _ W C).
  destruct (word_start f (chr 123) W G1 (B ": " ++ t0)) as (d & t & E & D1 & D2).
  assert (Lg : matches ptn_log_line (f ++ B ": " ++ t0) = false) by (rewrite E; apply log_head; assumption). rewrite Lg.
  destruct (word_start f (chr 43) W G2 (B ": " ++ t0)) as (d' & t' & E' & D1' & D2').
  assert (Ex : find ptn_extra (f ++ B ": " ++ t0) = None) by (rewrite E'; apply extra_head; assumption). rewrite Ex.
  destruct (find_instance_text f t0 W T D H L) as (x & X & X1 & X2). rewrite X, X1, X2. reflexivity.
Qed.

Definition more_extra (t : bytes) (i : dinst) : dinst :=
  {| di_tag := di_tag i; di_source := di_source i; di_name := di_name i; di_extra := di_extra i ++ newline :: t;
     di_line := di_line i; di_log := di_log i |}.

Lemma rest_extra t s i : p_handler s <> [] -> p_inst s = Some i -> forallb is_dot t = true -> last_ok t ->
  ordinary ("+"%char :: t) /\ rest ("+"%char :: t) s = Some (with_inst (Some (more_extra t i)) s).
Proof.
  intros N I D L. split; [apply ordinary_head; try discriminate; reflexivity|].
  unfold parse_rest. destruct (p_handler s) eqn:Eh; [congruence|].
  rewrite none_head by (try discriminate; reflexivity).
  pose proof (level_of_plus cs ok t) as V. unfold level_of in V. fold cs. rewrite V.
  rewrite warning_head by reflexivity. rewrite log_head by (try discriminate; reflexivity).
  destruct (find_extra t D L) as (x & X & X1). rewrite X, X1, I. reflexivity.
Qed.

Definition set_record (r : bytes) (i : dinst) : dinst :=
  {| di_tag := di_tag i; di_source := di_source i; di_name := di_name i; di_extra := di_extra i;
     di_line := r; di_log := match v_pretty v r with Some x => x | None => di_log i end |}.

Lemma rest_record t s i : p_handler s <> [] -> p_inst s = Some i ->
  ordinary ("{"%char :: t) /\ rest ("{"%char :: t) s = Some (with_inst (Some (set_record ("{"%char :: t) i)) s).
Proof.
  intros N I. split; [apply ordinary_head; try discriminate; reflexivity|].
  unfold parse_rest. destruct (p_handler s) eqn:Eh; [congruence|].
  rewrite none_head by (try discriminate; reflexivity).
  pose proof (level_of_brace cs ok t) as V. unfold level_of in V. fold cs. rewrite V.
  rewrite warning_head by reflexivity. rewrite log_brace, I. reflexivity.
Qed.

(** ** Printed lines *)

Variable p : bytes.
Hypothesis pok : prefix_ok p.

Definition rd (ls : list bytes) : list bytes := map (fun l => drop_cr (full p l)) ls.

Lemma rd_app a b : rd (a ++ b) = rd a ++ rd b.
Proof. apply map_app. Qed.

Lemma prepare_sp n x : n <> 0 -> x <> [] -> head_not is_space x -> last_ok x -> prepare (drop_cr (full p (sp n ++ x))) = x.
Proof.
  intros N X H L. pose proof (prepare_padded p n x 0 pok X H L (or_introl N)) as P. cbn [repeat] in P.
  rewrite app_nil_r in P. exact P.
Qed.

Lemma loop_extras ts : forall s i ls, p_handler s <> [] -> p_inst s = Some i ->
  Forall (fun t => forallb is_dot t = true /\ last_ok t) ts ->
  loop (rd (map (fun l => sp 11 ++ chr 43 :: l) ts) ++ ls) s =
  loop ls (with_inst (Some {| di_tag := di_tag i; di_source := di_source i; di_name := di_name i;
                              di_extra := di_extra i ++ concat (map (cons newline) ts);
                              di_line := di_line i; di_log := di_log i |}) s).
Proof.
  induction ts as [|t ts IH]; intros s i ls N I F.
  - cbn [map concat rd app]. rewrite app_nil_r. f_equal. destruct s, i; cbn in *; subst; reflexivity.
  - inversion F as [|? ? [D L] F']; subst. cbn [map rd app]. fold (rd (map (fun l => sp 11 ++ chr 43 :: l) ts)).
    destruct (rest_extra t s i N I D L) as [O R].
    rewrite (loop_ordinary _ ("+"%char :: t)); [|apply prepare_sp; [discriminate|discriminate|reflexivity|apply last_ok_cons; [reflexivity|exact L]]|exact O].
    rewrite R. rewrite (IH _ (more_extra t i)); [|exact N|reflexivity|exact F'].
    f_equal. unfold with_inst, more_extra. cbn [di_tag di_source di_name di_extra di_line di_log p_data p_handler p_test p_level p_cur map concat].
    rewrite <- app_assoc. reflexivity.
Qed.

(** What is kept of an instance. *)
Definition kept (i : instance) : dinst :=
  {| di_tag := strip_prefixes (i_function i); di_source := source; di_name := test_name v (strip_prefixes (i_function i));
     di_extra := i_text i; di_line := i_record i;
     di_log := match i_record i with [] => [] | r => match v_pretty v r with Some x => x | None => [] end end |}.

Definition at_warning (h : bytes) (lvl : N) (c : cur) (s : pstate) : Prop :=
  p_handler s = h /\ p_level s = lvl /\ p_cur s = Some c.

Definition file (h : bytes) (lvl : N) (c : cur) (i : instance) (w : wdata) : wdata :=
  p_data (save {| p_data := name_test (i_function i) w; p_handler := h; p_test := the_test (i_function i);
                  p_level := lvl; p_cur := Some c; p_inst := Some (kept i) |}).

Lemma join_concat ls : forall l0, join_with newline (l0 :: ls) = l0 ++ concat (map (cons newline) ls).
Proof.
  induction ls as [|x ls IH]; intros l0; cbn [join_with map concat]; [symmetry; apply app_nil_r|].
  f_equal. cbn [app]. f_equal. apply IH.
Qed.

Lemma loop_text i s ls : p_handler s <> [] -> good_function cs (i_function i) -> good_text (i_text i) ->
  loop (rd (text_lines i) ++ ls) s = loop ls (open_inst (i_function i) (i_text i) s).
Proof.
  intros N G T. assert (W := good_function_word _ _ G). unfold text_lines. destruct (i_text i) as [|c t] eqn:E.
  - cbn [rd map app]. destruct (rest_instance _ s N G) as [O R].
    rewrite (loop_ordinary _ (i_function i)); [rewrite R; reflexivity| |exact O].
    apply prepare_sp; [discriminate|apply W|rewrite <- (app_nil_r (i_function i)); apply word_head, W|].
    intros y d Ey. destruct W as (_ & F & _). rewrite Ey, forallb_app in F. apply andb_true_iff in F. destruct F as [_ F].
    cbn in F. rewrite andb_true_r in F. apply negb_true_iff in F. exact F.
  - destruct T as [T|(l0 & l1 & T & L0 & L1 & L2 & L3)]; [discriminate|]. rewrite T.
    apply starts_clean_head in L1. apply ends_clean_last in L2.
    pose proof (split_without newline (c :: t)) as S. rewrite T in S. inversion S as [|? ? S0 S1]; subst.
    change (?x :: map ?f l1) with ([x] ++ map f l1). rewrite rd_app. rewrite <- app_assoc. cbn [rd map app].
    destruct (rest_instance_text _ l0 s N G L0 S0 L1 L2) as [O R].
    rewrite (loop_ordinary _ (i_function i ++ B ": " ++ l0)); [rewrite R| |exact O].
    + fold (rd (map (fun l => sp 11 ++ chr 43 :: l) l1)). rewrite (loop_extras l1 _ (first_inst (i_function i) l0)).
      * f_equal. unfold open_inst, with_inst, first_inst.
        cbn [di_tag di_source di_name di_extra di_line di_log p_data p_handler p_test p_level p_cur].
        do 3 f_equal. rewrite <- join_concat, <- T. apply split_join.
      * unfold open_inst. cbn [p_handler with_inst with_test with_data]. rewrite save_handler. exact N.
      * reflexivity.
      * rewrite Forall_forall in *. intros x Hx. split; [apply S1, Hx|apply ends_clean_last, L3, Hx].
    + apply prepare_sp; [discriminate| | |].
      * destruct W as (Nf & _). destruct (i_function i); [congruence|discriminate].
      * apply word_head, W.
      * intros y d Ey. destruct (exists_last L0) as (l0' & d' & ->). rewrite !app_assoc in Ey.
        apply app_last_inv in Ey. destruct Ey as [_ <-]. exact (L2 l0' d' eq_refl).
Qed.

Lemma loop_instance h lvl c i s ls : h <> [] -> at_warning h lvl c s -> good_instance cs i ->
  exists s', loop (rd (inst_lines i) ++ ls) s = loop ls s' /\ at_warning h lvl c s' /\
             settled s' = file h lvl c i (settled s).
Proof.
  intros N (A1 & A2 & A3) (G & T & R). assert (Ns : p_handler s <> []) by congruence.
  unfold inst_lines. rewrite rd_app, <- app_assoc, loop_text by assumption.
  assert (P : forall j, settled (with_inst (Some j) (open_inst (i_function i) (i_text i) s)) =
    p_data (save {| p_data := name_test (i_function i) (settled s); p_handler := h; p_test := the_test (i_function i);
                  p_level := lvl; p_cur := Some c; p_inst := Some j |})).
  { intros j. unfold settled at 1. f_equal. unfold open_inst, with_inst, with_test, with_data.
    cbn [p_data p_handler p_test p_level p_cur]. rewrite save_handler, save_level, save_cur, A1, A2, A3. reflexivity. }
  assert (Q : forall j, at_warning h lvl c (with_inst (Some j) (open_inst (i_function i) (i_text i) s))).
  { intros j. unfold at_warning, open_inst. cbn [p_handler p_level p_cur with_inst with_test with_data].
    rewrite save_handler, save_level, save_cur. auto. }
  unfold record_lines. destruct (i_record i) as [|x r] eqn:E.
  - cbn [rd map app]. exists (with_inst (Some (first_inst (i_function i) (i_text i))) (open_inst (i_function i) (i_text i) s)).
    split; [reflexivity|]. split; [apply Q|]. rewrite P. unfold file, kept. rewrite E. reflexivity.
  - destruct R as [R|((t & R) & R1 & R2)]; [discriminate|]. injection R as -> ->. cbn [rd map app].
    destruct (rest_record t (open_inst (i_function i) (i_text i) s) (first_inst (i_function i) (i_text i))) as [O K];
      [unfold open_inst; cbn [p_handler with_inst with_test with_data]; rewrite save_handler; exact Ns|reflexivity|].
    rewrite (loop_ordinary _ ("{"%char :: t)); [rewrite K| |exact O].
    + eexists. split; [reflexivity|]. split; [apply Q|]. rewrite P. unfold file, kept. rewrite E. reflexivity.
    + apply prepare_sp; [discriminate|discriminate|reflexivity|apply ends_clean_last, R2].
Qed.

Lemma loop_instances h lvl c is : forall s ls, h <> [] -> at_warning h lvl c s -> Forall (good_instance cs) is ->
  exists s', loop (rd (concat (map inst_lines is)) ++ ls) s = loop ls s' /\ at_warning h lvl c s' /\
             settled s' = fold_left (fun w i => file h lvl c i w) is (settled s).
Proof.
  induction is as [|i is IH]; intros s ls N A F.
  - exists s. auto.
  - inversion F; subst. cbn [map concat]. rewrite rd_app, <- app_assoc.
    destruct (loop_instance h lvl c i s (rd (concat (map inst_lines is)) ++ ls) N A H1) as (s1 & E1 & A1 & P1).
    destruct (IH s1 ls N A1 H2) as (s2 & E2 & A2 & P2). exists s2. split; [congruence|]. split; [exact A2|].
    cbn [fold_left]. rewrite P2, P1. reflexivity.
Qed.

(** The effect of a record. *)
Definition absorb (h : bytes) (w : wdata) (r : instances) : wdata :=
  fold_left (fun w i => file h (r_level r) (new_cur h (r_level r) (r_name r) (r_summary r)) i w) (r_data r)
    (touch h (r_level r) (r_name r) (r_summary r) w).

Lemma warn_line_shape r : exists n, warn_line r = sp (S n) ++ dec_of_N (r_count r) ++ B " [" ++ r_name r ++ B "] " ++ r_summary r.
Proof.
  unfold warn_line, pad4. exists (S (4 - length (dec_of_N (r_count r)))). rewrite <- !app_assoc. reflexivity.
Qed.

Lemma dec_not_nil n : dec_of_N n <> [].
Proof. pose proof (dec_of_N_not_minus n) as H. destruct (dec_of_N n); [destruct H|discriminate]. Qed.

Lemma loop_warning h lvl r s ls : h <> [] -> p_handler s = h -> p_level s = lvl -> r_level r = lvl -> good_warning cs r ->
  exists s', loop (rd (warn_lines r) ++ ls) s = loop ls s' /\ p_handler s' = h /\ p_level s' = lvl /\
             settled s' = absorb h (settled s) r.
Proof.
  intros N A1 A2 El (G1 & (G2 & G3 & G4 & G5) & G6 & G7).
  apply one_line_dot in G1. apply starts_clean_head in G4. assert (G5' := G5). apply ends_clean_last in G5'.
  assert (GS : good_summary (r_summary r)).
  { split; [apply one_line_dot; exact G2|]. split; [apply without_in; exact G3|]. auto. }
  destruct (warn_line_shape r) as (n & W).
  assert (X : exists tl j, B "] " ++ r_summary r = B "]" ++ tl ++ repeat space j /\
     (tl = r_summary r \/ tl = space :: r_summary r) /\ last_ok (B "[" ++ r_name r ++ B "]" ++ tl)).
  { destruct (r_summary r) as [|x y] eqn:Es.
    - exists [], 1. split; [reflexivity|]. split; [left; reflexivity|]. intros t c E. rewrite app_nil_r, app_assoc in E.
      change (B "]") with ["]"%char] in E. apply app_last_inv in E. destruct E as [_ <-]. reflexivity.
    - exists (space :: x :: y), 0. split; [cbn [repeat]; rewrite app_nil_r; reflexivity|]. split; [right; reflexivity|].
      intros t c E. assert (Nx : x :: y <> []) by discriminate. destruct (exists_last Nx) as (z & d & Ez). rewrite Ez in E, G5'.
      change (space :: z ++ [d]) with ((space :: z) ++ [d]) in E. rewrite !app_assoc in E. apply app_last_inv in E.
      destruct E as [_ <-]. exact (G5' z d eq_refl). }
  destruct X as (tl & j & X1 & X2 & X3).
  assert (Ns : p_handler s <> []) by congruence.
  destruct (rest_warning (dec_of_N (r_count r)) (r_name r) tl (r_summary r) s Ns (save_inst s) (dec_not_nil _)
              (dec_of_N_digits _) G1 GS X2 X3) as [O R].
  unfold warn_lines. change (warn_line r :: ?x) with ([warn_line r] ++ x). rewrite rd_app, <- app_assoc. cbn [rd map app].
  fold (rd (concat (map inst_lines (r_data r)))).
  rewrite (loop_ordinary _ (dec_of_N (r_count r) ++ B " [" ++ r_name r ++ B "]" ++ tl)); [rewrite R| |exact O].
  - match goal with |- context [loop _ ?st] =>
      destruct (loop_instances h lvl (new_cur h lvl (r_name r) (r_summary r)) (r_data r) st ls N) as (s' & E & A & P) end.
    + split; [|split]; cbn [p_handler p_level p_cur with_cur with_data].
      * rewrite save_handler. exact A1.
      * rewrite save_level. exact A2.
      * rewrite A1, A2. reflexivity.
    + exact G6.
    + exists s'. split; [exact E|]. destruct A as (B1 & B2 & _). split; [exact B1|]. split; [exact B2|].
      rewrite P. unfold absorb. rewrite El. f_equal. rewrite settled_none by (apply save_inst).
      cbn [p_data with_cur with_data]. rewrite A1, A2. reflexivity.
  - rewrite W. replace (full p (sp (S n) ++ dec_of_N (r_count r) ++ B " [" ++ r_name r ++ B "] " ++ r_summary r))
      with (p ++ repeat space (S n) ++ (dec_of_N (r_count r) ++ B " [" ++ r_name r ++ B "]" ++ tl) ++ repeat space j).
    + apply prepare_padded; [exact pok| | | |left; discriminate].
      * pose proof (dec_not_nil (r_count r)). destruct (dec_of_N (r_count r)); [congruence|discriminate].
      * destruct (digit_head (dec_of_N (r_count r)) (B " [" ++ r_name r ++ B "]" ++ tl) (dec_not_nil _) (dec_of_N_digits _)) as (c & t & -> & _ & K).
        exact K.
      * intros t c E.
        assert (NE : B "[" ++ r_name r ++ B "]" ++ tl <> []) by discriminate.
        destruct (exists_last NE) as (z & d & Ez).
        change (dec_of_N (r_count r) ++ B " [" ++ r_name r ++ B "]" ++ tl)
          with (dec_of_N (r_count r) ++ B " " ++ B "[" ++ r_name r ++ B "]" ++ tl) in E.
        rewrite Ez in E, X3. rewrite !app_assoc in E. apply app_last_inv in E. destruct E as [_ <-]. exact (X3 z d eq_refl).
    + unfold full, sp. rewrite X1, <- !app_assoc. reflexivity.
Qed.

Lemma loop_warnings h lvl rs : forall s ls, h <> [] -> p_handler s = h -> p_level s = lvl ->
  Forall (fun r => r_level r = lvl) rs -> Forall (good_warning cs) rs ->
  exists s', loop (rd (concat (map warn_lines rs)) ++ ls) s = loop ls s' /\ p_handler s' = h /\
             settled s' = fold_left (absorb h) rs (settled s).
Proof.
  induction rs as [|r rs IH]; intros s ls N A1 A2 F G.
  - exists s. auto.
  - inversion F; inversion G; subst. cbn [map concat]. rewrite rd_app, <- app_assoc.
    destruct (loop_warning (p_handler s) (p_level s) r s (rd (concat (map warn_lines rs)) ++ ls) N eq_refl eq_refl) as (s1 & E1 & B1 & B2 & P1); auto.
    destruct (IH s1 ls) as (s2 & E2 & C1 & P2); try congruence.
    exists s2. split; [congruence|]. split; [congruence|]. rewrite P2, P1. reflexivity.
Qed.

Definition level_group (l : list instances) (level : N) : list instances :=
  sort_by (on r_name blt) (filter (fun r => N.eqb (r_level r) level) l).

Lemma loop_level l level : forall s ls, p_handler s <> [] -> In level level_order -> Forall (good_warning cs) l ->
  exists s', loop (rd (level_lines l level) ++ ls) s = loop ls s' /\ p_handler s' = p_handler s /\
             settled s' = fold_left (absorb (p_handler s)) (level_group l level) (settled s).
Proof.
  intros s ls N Hl G. unfold level_lines, level_group.
  assert (Fl : Forall (fun r => r_level r = level) (sort_by (on r_name blt) (filter (fun r => N.eqb (r_level r) level) l))).
  { apply (Permutation_Forall (sort_by_perm _ _)). apply Forall_forall. intros x Hx. apply filter_In in Hx.
    destruct Hx as [_ Hx]. apply N.eqb_eq. exact Hx. }
  assert (Gl : Forall (good_warning cs) (sort_by (on r_name blt) (filter (fun r => N.eqb (r_level r) level) l))).
  { apply (Permutation_Forall (sort_by_perm _ _)). apply Forall_forall. intros x Hx. apply filter_In in Hx.
    rewrite Forall_forall in G. apply G, Hx. }
  destruct (filter (fun r => N.eqb (r_level r) level) l) as [|r rs] eqn:E.
  - exists s. auto.
  - change (?x :: concat ?y) with ([x] ++ concat y). rewrite rd_app, <- app_assoc. cbn [rd map app].
    fold (rd (concat (map warn_lines (sort_by (on r_name blt) (r :: rs))))).
    rewrite (loop_ordinary _ (level_string level)).
    + rewrite (rest_level level s N Hl).
      match goal with |- context [loop _ ?st] => destruct (loop_warnings (p_handler s) level (sort_by (on r_name blt) (r :: rs)) st ls N) as (s' & E1 & A & P) end.
      * cbn. apply save_handler.
      * reflexivity.
      * exact Fl.
      * exact Gl.
      * exists s'. split; [exact E1|]. split; [exact A|]. rewrite P. f_equal. apply settled_none. cbn. apply save_inst.
    + apply (prepare_sp 2); [discriminate| | |]; destruct Hl as [<-|[<-|[<-|[<-|[]]]]]; try discriminate; try reflexivity;
        intros t c Et; match type of Et with ?x = _ => assert (K : rev x = c :: rev t) by (rewrite Et, rev_app_distr; reflexivity) end;
        cbn in K; injection K as <- _; reflexivity.
    + destruct Hl as [<-|[<-|[<-|[<-|[]]]]]; apply ordinary_head; try discriminate; reflexivity.
Qed.

Lemma loop_levels l levels : forall s ls, p_handler s <> [] -> incl levels level_order -> Forall (good_warning cs) l ->
  exists s', loop (rd (concat (map (level_lines l) levels)) ++ ls) s = loop ls s' /\ p_handler s' = p_handler s /\
             settled s' = fold_left (absorb (p_handler s)) (concat (map (level_group l) levels)) (settled s).
Proof.
  induction levels as [|x levels IH]; intros s ls N Hl G.
  - exists s. auto.
  - cbn [map concat]. rewrite rd_app, <- app_assoc.
    destruct (loop_level l x s (rd (concat (map (level_lines l) levels)) ++ ls) N) as (s1 & E1 & A1 & P1);
      [apply Hl; left; reflexivity|exact G|].
    destruct (IH s1 ls) as (s2 & E2 & A2 & P2); [congruence|intros y Hy; apply Hl; right; exact Hy|exact G|].
    exists s2. split; [congruence|]. split; [congruence|]. rewrite fold_left_app, P2, P1, A1. reflexivity.
Qed.

(** The effect of a whole report. *)
Definition name_effect (name : bytes) (w : wdata) : wdata :=
  match get name lookup with
  | Some tag => set_handler_data
      (change_hdata tag (fun d => {| hd_name := name; hd_summary := hd_summary d; hd_links := hd_links d |}) (handler_data w)) w
  | None => set_handler_data
      (change_hdata name (fun d => {| hd_name := join_space (map (default_part v) (split_on (chr 47) name));
                                     hd_summary := hd_summary d; hd_links := hd_links d |}) (handler_data w)) w
  end.
Definition wipe (h : bytes) (w : wdata) : wdata := set_by_handler (put h [] (by_handler w)) w.
Definition report_effect (name : bytes) (l : list instances) (w : wdata) : wdata :=
  let h := tag_of lookup name in
  match l with
  | [] => wipe h (name_effect name w)
  | _ => fold_left (absorb h) (concat (map (level_group l) level_order)) (name_effect name w)
  end.

Lemma name_handler_is name s : name_handler v lookup name s =
  with_handler (tag_of lookup name) (with_data (name_effect name (settled s)) (save s)).
Proof. unfold name_handler, tag_of, name_effect, settled. destruct (get name lookup); reflexivity. Qed.

Lemma loop_report name l s ls : good_handler name -> tag_of lookup name <> [] -> Forall (good_warning cs) l ->
  exists s', loop (rd (report_lines name l) ++ ls) s = loop ls s' /\ settled s' = report_effect name l (settled s).
Proof.
  intros (G1 & G2 & G3) N G. apply one_line_dot in G2. apply starts_clean_head in G3.
  unfold report_lines.
  assert (P0 : prepare (drop_cr (full p [])) = []).
  { destruct pok as [-> | ->]; reflexivity. }
  cbn [rd map app]. cbn [parse_loop]. rewrite P0.
  destruct (find_header name G2 G3 G1) as (f & F1 & F2).
  assert (P1 : prepare (drop_cr (full p (B "Warnings for " ++ name ++ B ":"))) = B "Warnings for " ++ name ++ B ":").
  { pose proof (prepare_padded p 0 (B "Warnings for " ++ name ++ B ":") 0 pok) as K. cbn [repeat] in K.
    rewrite app_nil_r in K. apply K; [discriminate|reflexivity| |right; discriminate].
    intros t c E. rewrite app_assoc in E. change (B ":") with [":"%char] in E. apply app_last_inv in E.
    destruct E as [_ <-]. reflexivity. }
  rewrite P1, F1. change (B "Warnings for " ++ name ++ B ":") with ("W"%char :: B "arnings for " ++ name ++ B ":"). cbv iota.
  rewrite F2, name_handler_is. unfold report_effect. set (h := tag_of lookup name) in *.
  set (s1 := with_handler h (with_data (name_effect name (settled s)) (save s))).
  assert (I1 : p_inst s1 = None) by (apply save_inst).
  assert (D1 : settled s1 = name_effect name (settled s)) by (apply settled_none; exact I1).
  destruct l as [|r l].
  - cbn [rd map app]. rewrite (loop_ordinary _ (B "None")).
    + rewrite rest_none by exact N. eexists. split; [reflexivity|].
      assert (K : forall s2, p_inst s2 = None -> p_data s2 = name_effect name (settled s) -> p_handler s2 = h ->
        settled (with_data (set_by_handler (put (p_handler s2) [] (by_handler (p_data s2))) (p_data s2)) s2)
        = wipe h (name_effect name (settled s))).
      { intros s2 K1 K2 K3. rewrite settled_none by exact K1. cbn [p_data with_data]. rewrite K2, K3. reflexivity. }
      cbv zeta. destruct (p_cur s1) as [c|]; [destruct (beq (c_handler c) (p_handler s1))|]; apply K; try exact I1; reflexivity.
    + apply (prepare_sp 2); [discriminate|discriminate|reflexivity|].
      intros t c Et. assert (K : rev (B "None") = c :: rev t) by (rewrite Et, rev_app_distr; reflexivity).
      cbn in K. injection K as <- _. reflexivity.
    + apply ordinary_head; try discriminate; reflexivity.
  - destruct (loop_levels (r :: l) level_order s1 ls) as (s' & E & A & P); [exact N|apply incl_refl|exact G|].
    exists s'. split; [exact E|]. rewrite P, D1. reflexivity.
Qed.
End Effects.
