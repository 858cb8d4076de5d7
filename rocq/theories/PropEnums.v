(** C50: enumerations and level names round trip.
    C51: converting levels for zap and logrus preserves their order. *)

From Coq Require Import Ascii String List NArith ZArith Bool Lia.
From Verif Require Import Bytes BytesProofs SpecText GoSort Slog Replace Warnings Enums.
From Verif Require PropReplace WarnLines.
Import ListNotations.

(** ** C50: specification

    The members of the three enumerations, as declared in type.go 10-15,
    bench_items.go 12-20 and creator/veqryndedup/creator.go. *)

Inductive declared : enum -> bytes -> list bytes -> Prop :=
| d_types : declared types (B "Type") [B "Default"; B "ByData"; B "Original"; B "ByTest"]
| d_items : declared items (B "BenchItems")
    [B "Runs"; B "Nanos"; B "MemAllocs"; B "MemBytes"; B "MbPerSec"; B "GbPerSec"; B "TbPerSec"]
| d_modes : declared modes (B "Mode") [B "None"; B "Append"; B "Ignore"; B "Increment"; B "Overwrite"].

Definition at_ (ms : list bytes) (i : N) (s : bytes) : Prop := nth_error ms (N.to_nat i) = Some s.
Definition member (ms : list bytes) (i : N) : Prop := exists s, at_ ms i s.

(** The same text but for case: each rune has the same lower case. *)
Definition same_fold (cs : casing) (a b : bytes) : Prop :=
  exists ra rb, PropReplace.reads a ra /\ PropReplace.reads b rb /\ map (cs_lower cs) ra = map (cs_lower cs) rb.

(** The same ASCII text but for case. *)
Inductive same_letter : ascii -> ascii -> Prop :=
| sl_same c : same_letter c c
| sl_lower c d : (65 <= code c <= 90)%N -> code d = (code c + 32)%N -> same_letter c d
| sl_upper c d : (65 <= code d <= 90)%N -> code c = (code d + 32)%N -> same_letter c d.
Definition ascii_text (s : bytes) : Prop := Forall (fun c => (code c < 128)%N) s.

(** The declared warning levels, level.go 20-36, and the names read back. *)
Definition level_spec : list (N * bytes) :=
  [(1%N, B "Administrative"); (2%N, B "Suggested"); (3%N, B "Implied"); (4%N, B "Required")].

(** ** Lemmas *)

Lemma get_pair {A} k (m : gomap A) v : get k m = Some v -> In (k, v) m.
Proof.
  induction m as [|[x w] m IH]; cbn [get In]; [discriminate|].
  destruct (beq x k) eqn:E; intros H; [left|right; auto]. apply beq_eq in E. congruence.
Qed.

Lemma ascii_check s : ascii_text s <-> forallb (fun c => N.ltb (code c) 128) s = true.
Proof. unfold ascii_text. rewrite Forall_forall, forallb_forall. split; intros H c I; [apply N.ltb_lt|apply N.ltb_lt]; apply H, I. Qed.

Section Parse.
Variable cs : casing.
Hypothesis ok : PropReplace.casing_ok cs.

Notation low := (fun c => chr (PropReplace.ascii_lower (code c))).

Lemma to_lower_a s : ascii_text s -> to_lower cs s = map low s.
Proof. intros H. apply WarnLines.to_lower_ascii; [exact ok|apply ascii_check, H]. Qed.

(** Where the key found comes from. *)
Lemma map_entries e ty ms k v : declared e ty ms -> In (k, v) (enum_map e) ->
  exists s, at_ ms v s /\ ascii_text s /\ ascii_text k /\ map low k = map low s.
Proof.
  intros D I. destruct D; vm_compute in I; repeat (destruct I as [I|I]; [injection I as <- <-; eexists; split; [reflexivity|];
    split; [apply ascii_check; vm_compute; reflexivity|]; split; [apply ascii_check; vm_compute; reflexivity|vm_compute; reflexivity]|]); destruct I.
Qed.

Lemma at_ascii e ty ms v s : declared e ty ms -> at_ ms v s -> ascii_text s.
Proof.
  intros D I. apply nth_error_In in I. destruct D; cbn [In] in I; repeat (destruct I as [<-|I]; [apply ascii_check; vm_compute; reflexivity|]); destruct I.
Qed.

Lemma low_distinct e ty ms : declared e ty ms -> NoDup (map (map low) ms).
Proof. intros D; destruct D; vm_compute; repeat (constructor; [cbn [In]; intuition congruence|]); constructor. Qed.

Lemma at_inj e ty ms v w s t : declared e ty ms -> at_ ms v s -> at_ ms w t -> map low s = map low t -> v = w.
Proof.
  intros D A C E. pose proof (low_distinct e ty ms D) as N1. rewrite NoDup_nth_error in N1. apply N2Nat.inj.
  assert (L : N.to_nat v < length ms) by (apply nth_error_Some; unfold at_ in A; congruence).
  apply N1; [rewrite map_length; exact L|]. unfold at_ in *. rewrite (map_nth_error (map low) _ _ A), (map_nth_error (map low) _ _ C). congruence.
Qed.

Lemma get_low e ty ms v s : declared e ty ms -> at_ ms v s -> get (map low s) (enum_map e) = Some v.
Proof.
  intros D A. unfold at_ in A. rewrite <- (N2Nat.id v). destruct D; destruct (N.to_nat v) as [|[|[|[|[|[|[|k]]]]]]]; try (injection A as <-; vm_compute; reflexivity);
    cbn in A; try discriminate; destruct k; discriminate.
Qed.

Lemma get_name e ty ms v s : declared e ty ms -> at_ ms v s -> get s (enum_map e) = Some v.
Proof.
  intros D A. unfold at_ in A. rewrite <- (N2Nat.id v). destruct D; destruct (N.to_nat v) as [|[|[|[|[|[|[|k]]]]]]]; try (injection A as <-; vm_compute; reflexivity);
    cbn in A; try discriminate; destruct k; discriminate.
Qed.

Lemma parse_low e ty ms s v : declared e ty ms ->
  enum_parse cs e s = Some v <-> exists name, at_ ms v name /\ to_lower cs s = to_lower cs name.
Proof.
  intros D. unfold enum_parse. split.
  - destruct (get s (enum_map e)) as [w|] eqn:G.
    + intros E. injection E as <-. destruct (map_entries _ _ _ _ _ D (get_pair _ _ _ G)) as (n & A & X & Y & Z). exists n. split; [exact A|].
      rewrite !to_lower_a by assumption. exact Z.
    + intros E. destruct (map_entries _ _ _ _ _ D (get_pair _ _ _ E)) as (n & A & X & Y & Z). exists n. split; [exact A|].
      rewrite (to_lower_a n X), <- Z, <- to_lower_a by exact Y. symmetry. apply PropReplace.map_runes_twice; apply ok.
  - intros (n & A & E). assert (X : ascii_text n) by (eapply at_ascii; eauto). destruct (get s (enum_map e)) as [w|] eqn:G.
    + destruct (map_entries _ _ _ _ _ D (get_pair _ _ _ G)) as (n' & A' & X' & Y & Z). f_equal. apply (at_inj e ty ms _ _ n' n D A' A).
      rewrite <- Z, <- to_lower_a by exact Y. rewrite E. apply to_lower_a, X.
    + rewrite E, to_lower_a by exact X. eapply get_low; eauto.
Qed.

Lemma lower_fold a b : to_lower cs a = to_lower cs b <-> same_fold cs a b.
Proof.
  unfold to_lower, same_fold. rewrite !PropReplace.map_runes_text. split.
  2:{ intros (ra & rb & Ra & Rb & E). apply PropReplace.reads_runes in Ra, Rb. congruence. }
  intros E. exists (runes a), (runes b). split; [apply PropReplace.runes_reads|]. split; [apply PropReplace.runes_reads|].
  assert (S : forall s, forallb scalar (map (cs_lower cs) (runes s)) = true).
  { intros s. rewrite forallb_forall. intros r I. apply in_map_iff in I. destruct I as (x & <- & I). apply ok.
    pose proof (PropReplace.runes_scalar s) as R. rewrite forallb_forall in R. auto. }
  rewrite <- (PropReplace.runes_text _ (S a)), <- (PropReplace.runes_text _ (S b)), E. reflexivity.
Qed.

Lemma low_letter c d : (code c < 128)%N -> (code d < 128)%N -> low c = low d <-> same_letter c d.
Proof.
  intros C D. split.
  - intros E. apply (f_equal code) in E. unfold PropReplace.ascii_lower in E.
    destruct (N.leb 65 (code c) && N.leb (code c) 90) eqn:E1; destruct (N.leb 65 (code d) && N.leb (code d) 90) eqn:E2;
      rewrite ?andb_true_iff, ?N.leb_le in E1; rewrite ?andb_true_iff, ?N.leb_le in E2; rewrite !code_chr in E by lia.
    + assert (X : code c = code d) by lia. apply (f_equal chr) in X. rewrite !chr_code in X. subst. constructor.
    + apply sl_lower; lia.
    + apply sl_upper; lia.
    + apply (f_equal chr) in E. rewrite !chr_code in E. subst. constructor.
  - intros [x|x y R E|x y R E]; [reflexivity| |]; f_equal; unfold PropReplace.ascii_lower; rewrite E.
    + replace (N.leb 65 (code x)) with true by (symmetry; apply N.leb_le; lia). replace (N.leb (code x) 90) with true by (symmetry; apply N.leb_le; lia).
      replace (N.leb (code x + 32) 90) with false by (symmetry; apply N.leb_gt; lia). rewrite andb_false_r. reflexivity.
    + replace (N.leb 65 (code y)) with true by (symmetry; apply N.leb_le; lia). replace (N.leb (code y) 90) with true by (symmetry; apply N.leb_le; lia).
      replace (N.leb (code y + 32) 90) with false by (symmetry; apply N.leb_gt; lia). rewrite andb_false_r. reflexivity.
Qed.

Lemma low_text a : forall b, ascii_text a -> ascii_text b -> map low a = map low b <-> Forall2 same_letter a b.
Proof.
  induction a as [|c a IH]; intros [|d b] X Y; cbn [map]; try (split; [discriminate|intros H; inversion H]).
  - split; [constructor|reflexivity].
  - inversion X; inversion Y; subst. split.
    + intros E. injection E as E1 E2. constructor; [apply low_letter; [assumption..|]|apply IH; auto].
      congruence.
    + intros E. inversion E; subst. f_equal; [apply low_letter; assumption|apply IH; assumption].
Qed.

Lemma digits_ascii i : ascii_text (dec_of_N i).
Proof.
  pose proof (dec_of_N_digits i) as H. rewrite forallb_forall in H. apply Forall_forall. intros c I. apply H in I.
  unfold is_digit in I. apply andb_true_iff in I. rewrite !N.leb_le in I. lia.
Qed.

(** ** C50: theorems *)

(** Printing a member gives its name and reading the name gives the member. *)
Theorem C50_round e ty ms i s : declared e ty ms -> at_ ms i s ->
  enum_string e i = s /\ enum_parse cs e s = Some i /\ enum_is e i = true.
Proof.
  intros D A. split; [|split].
  - unfold at_ in A. rewrite <- (N2Nat.id i). destruct D; destruct (N.to_nat i) as [|[|[|[|[|[|[|k]]]]]]]; try (injection A as <-; vm_compute; reflexivity);
    cbn in A; try discriminate; destruct k; discriminate.
  - eapply parse_low; eauto.
  - unfold at_ in A. rewrite <- (N2Nat.id i). destruct D; destruct (N.to_nat i) as [|[|[|[|[|[|[|k]]]]]]]; try (vm_compute; reflexivity);
    cbn in A; try discriminate; destruct k; discriminate.
Qed.

(** Reading accepts the names up to case, rune by rune, and nothing else. *)
Theorem C50_parse e ty ms s i : declared e ty ms ->
  enum_parse cs e s = Some i <-> exists name, at_ ms i name /\ same_fold cs s name.
Proof. intros D. rewrite (parse_low e ty ms s i D). setoid_rewrite lower_fold. reflexivity. Qed.

(** For ASCII texts that is up to upper and lower case letters. *)
Theorem C50_ascii e ty ms s i : declared e ty ms -> ascii_text s ->
  enum_parse cs e s = Some i <-> exists name, at_ ms i name /\ Forall2 same_letter s name.
Proof.
  intros D X. rewrite (parse_low e ty ms s i D). split; intros (n & A & E); exists n; (split; [exact A|]);
    assert (Y : ascii_text n) by (eapply at_ascii; eauto).
  - apply low_text; [assumption..|]. rewrite <- !to_lower_a by assumption. exact E.
  - rewrite !to_lower_a by assumption. apply low_text; assumption.
Qed.

Lemma non_member ms i : ~ member ms i -> (N.of_nat (length ms) <= i)%N.
Proof.
  intros H. unfold member, at_ in H. destruct (nth_error ms (N.to_nat i)) as [s|] eqn:E; [destruct H; eauto|].
  apply nth_error_None in E. lia.
Qed.

(** Every other number is printed with the name of the type, and not read back. *)
Theorem C50_others e ty ms i : declared e ty ms -> ~ member ms i ->
  enum_string e i = ty ++ B "(" ++ dec_of_N i ++ B ")" /\ enum_parse cs e (enum_string e i) = None /\ enum_is e i = false.
Proof.
  intros D H. assert (L := non_member ms i H).
  assert (E : enum_string e i = ty ++ B "(" ++ dec_of_N i ++ B ")").
  { unfold enum_string. replace (N.leb (N.of_nat (members e)) i) with true; [destruct D; reflexivity|]. symmetry. apply N.leb_le.
    destruct D; exact L. }
  split; [exact E|]. split.
  - rewrite E. assert (X : ascii_text (ty ++ B "(" ++ dec_of_N i ++ B ")")).
    { unfold ascii_text. rewrite !Forall_app. split; [apply ascii_check; destruct D; reflexivity|]. split; [apply ascii_check; reflexivity|].
      split; [apply digits_ascii|apply ascii_check; reflexivity]. }
    destruct (enum_parse cs e (ty ++ B "(" ++ dec_of_N i ++ B ")")) as [v|] eqn:P; [exfalso|reflexivity].
    apply (parse_low e ty ms _ v D) in P. destruct P as (n & A & P). rewrite !to_lower_a in P by first [assumption|eapply at_ascii; eauto].
    assert (I : In "("%char (map low (ty ++ B "(" ++ dec_of_N i ++ B ")"))).
    { rewrite !map_app, !in_app_iff. right. left. cbn. left. reflexivity. }
    rewrite P in I. apply nth_error_In in A. clear -A I D.
    destruct D; cbn [In] in A; repeat (destruct A as [<-|A]; [vm_compute in I; intuition congruence|]); destruct A.
  - unfold enum_is. destruct (existsb (N.eqb i) (enum_values e)) eqn:X; [exfalso|reflexivity].
    apply existsb_exists in X. destruct X as (j & I & X). apply N.eqb_eq in X. subst j. unfold enum_values in I. apply in_map_iff in I.
    destruct I as (k & <- & I). apply in_seq in I. destruct D; cbn in L, I; lia.
Qed.

(** Different numbers are printed differently. *)
Theorem C50_injective e ty ms i j : declared e ty ms -> enum_string e i = enum_string e j -> i = j.
Proof.
  intros D E. assert (Dec : forall k, member ms k \/ ~ member ms k).
  { intros k. unfold member, at_. destruct (nth_error ms (N.to_nat k)); [left; eauto|right; intros [s X]; discriminate]. }
  destruct (Dec i) as [[s Mi]|Mi], (Dec j) as [[t Mj]|Mj].
  - destruct (C50_round _ _ _ _ _ D Mi) as (X1 & X2 & _), (C50_round _ _ _ _ _ D Mj) as (Y1 & Y2 & _). congruence.
  - destruct (C50_round _ _ _ _ _ D Mi) as (X1 & X2 & _), (C50_others _ _ _ _ D Mj) as (Y1 & Y2 & _). congruence.
  - destruct (C50_others _ _ _ _ D Mi) as (X1 & X2 & _), (C50_round _ _ _ _ _ D Mj) as (Y1 & Y2 & _). congruence.
  - destruct (C50_others _ _ _ _ D Mi) as (X1 & _), (C50_others _ _ _ _ D Mj) as (Y1 & _). rewrite X1, Y1 in E.
    apply app_inv_head in E. apply app_inv_head in E. apply app_inv_tail in E. apply dec_of_N_inj, E.
Qed.

(** The list of score types: the names read, in order, the others left out. *)
Inductive read_names : list bytes -> list N -> Prop :=
| rn_none : read_names [] []
| rn_name s ms i name ts l : declared types ts ms -> at_ ms i name -> same_fold cs s name -> forall ss, read_names ss l -> read_names (s :: ss) (i :: l)
| rn_other s ss l : (forall ts ms i name, declared types ts ms -> at_ ms i name -> ~ same_fold cs s name) -> read_names ss l -> read_names (s :: ss) l.

Theorem C50_list ss l : type_list cs ss = l <-> read_names ss l.
Proof.
  assert (T : declared types (B "Type") [B "Default"; B "ByData"; B "Original"; B "ByTest"]) by constructor.
  assert (F : read_names ss (type_list cs ss)).
  { induction ss as [|s ss IH]; [constructor|]. cbn. destruct (enum_parse cs types s) as [v|] eqn:E.
    - apply (C50_parse _ _ _ _ _ T) in E. destruct E as (n & A & S). cbn. eapply rn_name; eauto.
    - apply rn_other; [|exact IH]. intros ts ms i name D A S. assert (X : enum_parse cs types s = Some i) by (apply (C50_parse _ _ _ _ _ D); eauto). congruence. }
  split; [intros <-; exact F|]. intros H. induction H as [|s ms i n ts l D A S ss H IH|s ss l N1 H IH]; [reflexivity| |].
  - cbn. assert (E : enum_parse cs types s = Some i) by (apply (C50_parse _ _ _ _ _ D); eauto). rewrite E. cbn. f_equal. apply IH.
    clear -F E ok. cbn in F. rewrite E in F. cbn in F. inversion F; subst; [assumption|].
    exfalso. assert (T : declared types (B "Type") [B "Default"; B "ByData"; B "Original"; B "ByTest"]) by constructor.
    apply (C50_parse _ _ _ _ _ T) in E. destruct E as (n & A & S). eapply H1; eauto.
  - cbn. destruct (enum_parse cs types s) as [v|] eqn:E.
    + exfalso. apply (C50_parse _ _ _ _ _ T) in E. destruct E as (n & A & S). eapply N1; eauto.
    + cbn. apply IH. cbn in F. rewrite E in F. cbn in F. inversion F; subst; [|assumption]. exfalso. eapply N1; eauto.
Qed.

(** Warning levels: the same, with one more name. *)
Theorem C50_levels l :
  (forall s, In (l, s) level_spec -> level_string l = s /\ parse_level cs s = Some l) /\
  (~ In l (map fst level_spec) -> level_string l = B "Unknown level " ++ dec_of_N l /\ parse_level cs (level_string l) = None) /\
  (forall s, parse_level cs s = Some l <-> (exists name, In (l, name) level_spec /\ same_fold cs s name) \/ l = 1%N /\ same_fold cs s (B "Admin")).
Proof.
  assert (P : forall s, parse_level cs s = Some l <-> (exists name, In (l, name) level_spec /\ same_fold cs s name) \/ l = 1%N /\ same_fold cs s (B "Admin")).
  { intros s. setoid_rewrite <- lower_fold. unfold parse_level. split.
    - intros G. apply get_pair in G. cbn [level_parse In] in G. destruct G as [G|[G|[G|[G|[G|[]]]]]]; injection G as E <-; rewrite <- E.
      + right. split; [reflexivity|]. rewrite to_lower_a by (apply ascii_check; reflexivity). reflexivity.
      + left. exists (B "Administrative"). split; [left; reflexivity|]. rewrite to_lower_a by (apply ascii_check; reflexivity). reflexivity.
      + left. exists (B "Suggested"). split; [right; left; reflexivity|]. rewrite to_lower_a by (apply ascii_check; reflexivity). reflexivity.
      + left. exists (B "Implied"). split; [right; right; left; reflexivity|]. rewrite to_lower_a by (apply ascii_check; reflexivity). reflexivity.
      + left. exists (B "Required"). split; [right; right; right; left; reflexivity|]. rewrite to_lower_a by (apply ascii_check; reflexivity). reflexivity.
    - intros [(n & I & ->)|[-> ->]]; [|rewrite to_lower_a by (apply ascii_check; reflexivity); reflexivity].
      cbn [level_spec In] in I. destruct I as [I|[I|[I|[I|[]]]]]; injection I as <- <-; rewrite to_lower_a by (apply ascii_check; reflexivity); reflexivity. }
  split; [|split; [|exact P]].
  - intros s I. split.
    + cbn [level_spec In] in I. destruct I as [I|[I|[I|[I|[]]]]]; injection I as <- <-; reflexivity.
    + apply P. left. exists s. split; [exact I|apply lower_fold; reflexivity].
  - intros H. assert (E : level_string l = B "Unknown level " ++ dec_of_N l).
    { unfold level_string. cbn [level_names find_level]. cbn [level_spec map fst In] in H.
      destruct (N.eqb level_admin l) eqn:E1; [apply N.eqb_eq in E1; destruct H; auto|].
      destruct (N.eqb level_suggested l) eqn:E2; [apply N.eqb_eq in E2; destruct H; auto|].
      destruct (N.eqb level_implied l) eqn:E3; [apply N.eqb_eq in E3; destruct H; auto|].
      destruct (N.eqb level_required l) eqn:E4; [apply N.eqb_eq in E4; destruct H; auto|]. reflexivity. }
    split; [exact E|]. rewrite E. unfold parse_level. rewrite to_lower_a by (apply Forall_app; split; [apply ascii_check; reflexivity|apply digits_ascii]).
    reflexivity.
Qed.

End Parse.

(** Distinct members have distinct, non-empty headings and display names; other numbers
    have none. *)
Theorem C50_names i j :
  (col_header i = col_header j -> i = j) /\
  ((i < 7)%N -> short_name i <> [] /\ long_name i <> [] /\ (short_name i = short_name j -> i = j) /\ (long_name i = long_name j -> i = j)) /\
  ((7 <= i)%N -> short_name i = [] /\ long_name i = []).
Proof.
  assert (O : forall k, (7 <= k)%N -> short_name k = [] /\ long_name k = []).
  { intros k H. unfold short_name, long_name, item_names. cbn [find_name]. do 7 (match goal with |- context [N.eqb ?a k] => destruct (N.eqb_spec a k); [subst; lia|] end). split; reflexivity. }
  assert (C : forall k, (k < 7)%N -> In k [0; 1; 2; 3; 4; 5; 6]%N) by (intros k H; cbn [In]; lia).
  split; [|split; [|apply O]].
  - assert (T : declared types (B "Type") [B "Default"; B "ByData"; B "Original"; B "ByTest"]) by constructor.
    assert (U : forall k, (k < 4)%N -> In k [0; 1; 2; 3]%N) by (intros k H; cbn [In]; lia).
    assert (V : forall k, (4 <= k)%N -> col_header k = B "Unknown:" ++ enum_string types k).
    { intros k H. unfold col_header, col_names. cbn [find_name]. do 4 (match goal with |- context [N.eqb ?a k] => destruct (N.eqb_spec a k); [subst; lia|] end). reflexivity. }
    intros E. destruct (N.lt_ge_cases i 4) as [Hi|Hi], (N.lt_ge_cases j 4) as [Hj|Hj].
    + apply U in Hi. apply U in Hj. cbn [In] in Hi, Hj.
      destruct Hi as [<-|[<-|[<-|[<-|[]]]]], Hj as [<-|[<-|[<-|[<-|[]]]]]; vm_compute in E; first [reflexivity|discriminate].
    + rewrite (V j Hj) in E. apply U in Hi. cbn [In] in Hi. destruct Hi as [<-|[<-|[<-|[<-|[]]]]]; discriminate.
    + rewrite (V i Hi) in E. apply U in Hj. cbn [In] in Hj. destruct Hj as [<-|[<-|[<-|[<-|[]]]]]; discriminate.
    + rewrite (V i Hi), (V j Hj) in E. apply app_inv_head in E.
      apply (C50_injective PropReplace.casing0 PropReplace.casing0_ok _ _ _ _ _ T E).
  - intros Hi. apply C in Hi. destruct (N.lt_ge_cases j 7) as [Hj|Hj].
    + apply C in Hj. cbn [In] in Hi, Hj.
      repeat (destruct Hi as [<-|Hi]; [repeat (destruct Hj as [<-|Hj]; [vm_compute; repeat split; first [reflexivity|discriminate]|]); destruct Hj|]); destruct Hi.
    + destruct (O j Hj) as [-> ->]. cbn [In] in Hi. repeat (destruct Hi as [<-|Hi]; [repeat split; discriminate|]); destruct Hi.
Qed.

Print Assumptions C50_round.
Print Assumptions C50_parse.
Print Assumptions C50_ascii.
Print Assumptions C50_others.
Print Assumptions C50_injective.
Print Assumptions C50_list.
Print Assumptions C50_levels.
Print Assumptions C50_names.

(** The lists of all constants and of all names, in the order of declaration. *)
Theorem C50_all e ty ms : declared e ty ms ->
  enum_strings e = ms /\ length (enum_values e) = length ms /\
  forall i v, nth_error (enum_values e) i = Some v -> nth_error ms i = Some (enum_string e v).
Proof.
  intros D. destruct D; (split; [vm_compute; reflexivity|]); (split; [reflexivity|]); intros i v E;
    do 8 (destruct i as [|i]; [try discriminate E; injection E as <-; vm_compute; reflexivity|]); destruct i; discriminate E.
Qed.
Print Assumptions C50_all.

(** An example with a Unicode letter: U+0130 has the lower case i. *)
Definition casing1 : casing := {|
  cs_upper := PropReplace.ascii_upper;
  cs_lower := fun r => if N.eqb r 304 then 105%N else PropReplace.ascii_lower r;
  cs_fold  := PropReplace.ascii_lower;
  cs_string := cs_string PropReplace.casing0
|}.

Lemma casing1_ok : PropReplace.casing_ok casing1.
Proof.
  pose proof PropReplace.casing0_ok as O.
  assert (L : forall r, PropReplace.ascii_lower (PropReplace.ascii_lower r) = PropReplace.ascii_lower r).
  { intros r. unfold PropReplace.ascii_lower. destruct (N.leb 65 r && N.leb r 90) eqn:E; [|rewrite E; reflexivity].
    apply andb_true_iff in E. destruct E as [E1 E2]. apply N.leb_le in E1, E2.
    replace (N.leb (r + 32) 90) with false; [rewrite andb_false_r; reflexivity|]. symmetry. apply N.leb_gt. lia. }
  split; cbn.
  - apply (PropReplace.up_scalar _ O).
  - apply (PropReplace.up_twice _ O).
  - intros r H. destruct (N.eqb r 304); [reflexivity|]. unfold PropReplace.ascii_lower.
    destruct (N.leb 65 r && N.leb r 90) eqn:E; [|exact H]. apply andb_true_iff in E. rewrite !N.leb_le in E. unfold scalar.
    replace (N.ltb (r + 32) 55296) with true; [reflexivity|]. symmetry. apply N.ltb_lt. lia.
  - intros r H. destruct (N.eqb r 304) eqn:E; [reflexivity|]. rewrite L.
    destruct (N.eqb_spec (PropReplace.ascii_lower r) 304) as [X|X]; [|reflexivity]. exfalso. unfold PropReplace.ascii_lower in X.
    destruct (N.leb 65 r && N.leb r 90) eqn:E'; [apply andb_true_iff in E'; rewrite !N.leb_le in E'; lia|apply N.eqb_neq in E; congruence].
  - reflexivity.
  - intros r H. destruct (N.eqb_spec r 304); [lia|reflexivity].
  - intros r _. apply L.
  - reflexivity.
Qed.

Definition original_dotted : bytes := B "OR" ++ utf8_encode 304 ++ B "gInal".

Example C50_ex :
  at_ [B "Default"; B "ByData"; B "Original"; B "ByTest"] 2 (B "Original") /\
  enum_parse casing1 types original_dotted = Some 2%N /\
  enum_parse PropReplace.casing0 types original_dotted = None /\
  enum_parse casing1 items (B "memALLOCS") = Some 2%N /\ enum_parse casing1 items (B " Runs") = None /\
  enum_string modes 9 = B "Mode(9)" /\ ~ member [B "None"; B "Append"; B "Ignore"; B "Increment"; B "Overwrite"] 9 /\
  type_list casing1 [B "bytest"; B "by test"; B "Default"] = [3; 0]%N /\
  parse_level casing1 (B "ADMIN") = Some 1%N /\ level_string 7 = B "Unknown level 7".
Proof. repeat split; try (vm_compute; reflexivity). intros [s H]. discriminate. Qed.

(** ** C51

    A logger at threshold t logs a record of level l if l is at least t: for slog and
    zap by number (zapcore.Level.Enabled); for logrus the numbers go down
    (Logger.IsLevelEnabled). *)

Definition slog_logs (t l : Z) : Prop := (t <= l)%Z.
Definition zap_logs (t l : Z) : Prop := (to_zap t <= to_zap l)%Z.
Definition logrus_logs (t l : Z) : Prop := (to_logrus l <= to_logrus t)%Z.

Ltac levels := unfold slog_logs, zap_logs, logrus_logs, to_zap, to_logrus, zap_debug, zap_info, zap_warn, zap_error,
  logrus_debug, logrus_info, logrus_warn, logrus_error, LevelError, LevelWarn, LevelInfo, LevelDebug in *.
Ltac cases := repeat match goal with
  | |- context [Z.leb ?a ?b] => destruct (Z.leb_spec a b)
  | H : context [Z.leb ?a ?b] |- _ => destruct (Z.leb_spec a b) end.

(** The order of two levels is never reversed, and the standard levels stay distinct. *)
Theorem C51_order a b : (a <= b)%Z -> (to_zap a <= to_zap b)%Z /\ (to_logrus b <= to_logrus a)%Z.
Proof. intros H. levels. cases; lia. Qed.

Theorem C51_standard a b : In a [-4; 0; 4; 8]%Z -> In b [-4; 0; 4; 8]%Z ->
  ((to_zap a < to_zap b)%Z <-> (a < b)%Z) /\ ((to_logrus b < to_logrus a)%Z <-> (a < b)%Z) /\
  (zap_logs a b <-> slog_logs a b) /\ (logrus_logs a b <-> slog_logs a b).
Proof. cbn [In]. intros Ha Hb. levels. cases; lia. Qed.

(** What is logged by the converted threshold: whatever is not below a standard level
    (other than debug) that the threshold has reached. *)
Theorem C51_floor t l :
  (zap_logs t l <-> forall s, In s [0; 4; 8]%Z -> (s <= t)%Z -> (s <= l)%Z) /\ (logrus_logs t l <-> zap_logs t l).
Proof.
  split; [|levels; cases; lia]. split.
  - intros H s I. cbn [In] in I. levels. cases; lia.
  - intros H. pose proof (H 0%Z ltac:(cbn; auto)) as H0. pose proof (H 4%Z ltac:(cbn; auto)) as H4. pose proof (H 8%Z ltac:(cbn; auto)) as H8.
    clear H. levels. cases; lia.
Qed.

(** So no record slog would log is lost, and the filters agree on all records exactly
    if the threshold is info, warn or error.  At debug, records below debug pass. *)
Theorem C51_agree t :
  (forall l, slog_logs t l -> zap_logs t l /\ logrus_logs t l) /\
  ((forall l, zap_logs t l <-> slog_logs t l) <-> In t [0; 4; 8]%Z) /\
  ((forall l, logrus_logs t l <-> slog_logs t l) <-> In t [0; 4; 8]%Z).
Proof.
  assert (F : forall l, In t [0; 4; 8]%Z -> (zap_logs t l <-> slog_logs t l) /\ (logrus_logs t l <-> slog_logs t l)).
  { intros l. cbn [In]. intros I. levels. cases; lia. }
  split; [intros l H; levels; cases; lia|]. split; (split; [|intros I l; apply F, I]).
  - intros H. cbn [In]. pose proof (H (t - 1)%Z) as X. levels. cases; lia.
  - intros H. cbn [In]. pose proof (H (t - 1)%Z) as X. levels. cases; lia.
Qed.

Print Assumptions C51_order.
Print Assumptions C51_standard.
Print Assumptions C51_floor.
Print Assumptions C51_agree.

Example C51_ex : map to_zap [-8; -4; -1; 0; 3; 4; 8; 12]%Z = [-1; -1; -1; 0; 0; 1; 2; 2]%Z /\
  map to_logrus [-8; -4; -1; 0; 3; 4; 8; 12]%Z = [5; 5; 5; 4; 4; 3; 2; 2]%Z /\
  zap_logs (-4) (-8) /\ ~ slog_logs (-4) (-8) /\ logrus_logs 2 0 /\ ~ slog_logs 2 0.
Proof. repeat split; try (vm_compute; reflexivity); vm_compute; try discriminate; intros H; apply H; reflexivity. Qed.
