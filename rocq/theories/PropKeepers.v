(** C47 handler filters, C48 the registry of score keepers. *)

From Coq Require Import Ascii String List NArith Bool Arith Lia Permutation Sorted.
From Verif Require Import Bytes BytesProofs GoSort Keepers.
Import ListNotations.

(** ** C47: what a filter keeps *)

(** What was passed to the constructors: names, groups made the same way, or something
    useless. *)
Inductive tree : Type := TName (s : bytes) | TGroup (l : list tree) | TOther.
Inductive mentions : list tree -> bytes -> Prop :=
| m_name l s : In (TName s) l -> mentions l s
| m_group l l' s : In (TGroup l') l -> mentions l' s -> mentions l s.

Inductive made_item : tree -> item -> Prop :=
| mi_name s : made_item (TName s) (Name s)
| mi_other : made_item TOther Other
| mi_group ts items g : made_items ts items -> new_group items (Some g) -> made_item (TGroup ts) (Grouped (Some g))
with made_items : list tree -> list item -> Prop :=
| mi_nil : made_items [] []
| mi_cons t i ts items : made_item t i -> made_items ts items -> made_items (t :: ts) (i :: items).
Scheme made_item_ind' := Induction for made_item Sort Prop with made_items_ind' := Induction for made_items Sort Prop.
Combined Scheme made_mutind from made_item_ind', made_items_ind'.

(** A group made of [ts]. *)
Definition made (ts : list tree) (g : group) : Prop := exists items, made_items ts items /\ new_group items (Some g).

Definition positive (g : group) : Prop := forall k v, get k g = Some v -> v = true.

Lemma positive_put g s : positive g -> positive (put s true g).
Proof. intros H k v. rewrite get_put. destruct (beq s k); [congruence|apply H]. Qed.

Lemma copy_keeps entries : forall g, (forall e, In e entries -> snd e = true) -> positive g ->
  positive (fold_left copy_entry entries g) /\
  forall h, keep (fold_left copy_entry entries g) h = true <-> keep g h = true \/ In h (map fst entries).
Proof.
  induction entries as [|[k v] entries IH]; intros g E P; cbn [fold_left map In].
  - split; [exact P|]. tauto.
  - assert (X : copy_entry g (k, v) = put k true g) by (unfold copy_entry; cbn [snd fst]; specialize (E (k, v) (or_introl eq_refl)); cbn in E; rewrite E; reflexivity).
    rewrite X. destruct (IH (put k true g) (fun e I => E e (or_intror I)) (positive_put g k P)) as [I1 I2]. split; [exact I1|].
    intros h. rewrite I2. unfold keep. rewrite get_put. cbn [fst]. destruct (beq k h) eqn:B.
    + apply beq_eq in B. subst. tauto.
    + assert (k <> h) by (intros ->; assert (beq h h = true) by (apply beq_eq; reflexivity); congruence). tauto.
Qed.

Lemma keep_entry g h : positive g -> (keep g h = true <-> In h (keys g)).
Proof.
  intros P. unfold keep. rewrite <- get_keys. destruct (get h g) as [v|] eqn:E.
  - specialize (P h v E). subst v. split; [intros _; exists true; reflexivity|reflexivity].
  - split; [discriminate|intros [v K]; discriminate].
Qed.

Lemma get_of_in (g : group) k : In k (keys g) -> exists v, get k g = Some v.
Proof. apply get_keys. Qed.

Definition item_says (i : item) (h : bytes) : Prop :=
  match i with Name s => s = h | Grouped (Some g) => keep g h = true | _ => False end.
Definition sound_item (i : item) : Prop := match i with Grouped (Some g) => positive g /\ wf g | Grouped None => False | _ => True end.

Lemma wf_copy entries : forall g, wf g -> wf (fold_left copy_entry entries g).
Proof.
  induction entries as [|[k v] entries IH]; intros g W; [exact W|]. apply IH. unfold copy_entry. cbn [fst snd]. destruct v; [apply wf_put, W|apply wf_drop, W].
Qed.

Lemma items_keep items g res : add_items items g res -> Forall sound_item items -> positive g -> wf g ->
  exists g', res = Some g' /\ positive g' /\ wf g' /\
    forall h, keep g' h = true <-> keep g h = true \/ exists i, In i items /\ item_says i h.
Proof.
  induction 1 as [g|s items g res A IH|o entries items g res Pm A IH|items g|items g res A IH]; intros F P W.
  - exists g. split; [reflexivity|]. split; [exact P|]. split; [exact W|]. intros h. split; [auto|]. intros [H|(i & [] & _)]. exact H.
  - inversion F as [|? ? F1 F2]; subst. destruct (IH F2 (positive_put g s P) (wf_put s true g W)) as (g' & -> & P' & W' & K).
    exists g'. split; [reflexivity|]. split; [exact P'|]. split; [exact W'|]. intros h. rewrite K. unfold keep at 1. rewrite get_put. destruct (beq s h) eqn:B.
    + apply beq_eq in B. subst s. split; [|intros _; left; reflexivity]. intros _. right. exists (Name h). split; [left|]; reflexivity.
    + fold (keep g h). split.
      * intros [X|(i & I & S)]; [left; exact X|right; exists i; split; [right; exact I|exact S]].
      * intros [X|(i & [ <- |I] & S)]; [left; exact X| |right; exists i; auto]. cbn in S. subst s.
        assert (beq h h = true) by (apply beq_eq; reflexivity). congruence.
  - inversion F as [|? ? F1 F2]; subst. cbn [sound_item] in F1. destruct F1 as [F0 Fw].
    assert (E : forall e, In e entries -> snd e = true).
    { intros [k v] I. apply Permutation_sym in Pm. assert (J : In (k, v) o) by (eapply Permutation_in; [exact Pm|exact I]).
      apply (F0 k v), get_in; [exact Fw|exact J]. }
    destruct (copy_keeps entries g E P) as [P1 K1]. destruct (IH F2 P1 (wf_copy entries g W)) as (g' & -> & P' & W' & K).
    exists g'. split; [reflexivity|]. split; [exact P'|]. split; [exact W'|]. intros h. rewrite K, K1.
    assert (X : In h (map fst entries) <-> keep o h = true).
    { rewrite keep_entry by exact F0. unfold keys. split; apply Permutation_in; [symmetry|]; apply Permutation_map, Pm. }
    rewrite X. split.
    + intros [[Y|Y]|(i & I & S)]; [left; exact Y|right; exists (Grouped (Some o)); split; [left; reflexivity|exact Y]|].
      right. exists i. split; [right; exact I|exact S].
    + intros [Y|(i & [ <- |I] & S)]; [left; left; exact Y|left; right; exact S|right; exists i; auto].
  - inversion F as [|? ? F1 F2]; subst. destruct F1.
  - inversion F as [|? ? F1 F2]; subst. destruct (IH F2 P W) as (g' & -> & P' & W' & K).
    exists g'. split; [reflexivity|]. split; [exact P'|]. split; [exact W'|]. intros h. rewrite K. split.
    + intros [Y|(i & I & S)]; [left; exact Y|right; exists i; split; [right; exact I|exact S]].
    + intros [Y|(i & [ <- |I] & S)]; [left; exact Y|destruct S|right; exists i; auto].
Qed.

Lemma mentions_cons t ts h : mentions (t :: ts) h <-> mentions [t] h \/ mentions ts h.
Proof.
  split.
  - intros H. inversion H as [l s I|l l' s I M]; subst.
    + destruct I as [ -> |I]; [left; apply m_name; left; reflexivity|right; apply m_name; exact I].
    + destruct I as [ -> |I]; [left; apply m_group with l'; [left; reflexivity|exact M]|right; apply m_group with l'; assumption].
  - intros [H|H]; inversion H as [l s I|l l' s I M]; subst.
    + destruct I as [ -> |[]]. apply m_name. left. reflexivity.
    + destruct I as [ -> |[]]. apply m_group with l'; [left; reflexivity|exact M].
    + apply m_name. right. exact I.
    + apply m_group with l'; [right; exact I|exact M].
Qed.

Lemma made_says :
  (forall t i, made_item t i -> sound_item i /\ forall h, item_says i h <-> mentions [t] h) /\
  (forall ts items, made_items ts items -> Forall sound_item items /\
     forall h, (exists i, In i items /\ item_says i h) <-> mentions ts h).
Proof.
  apply (made_mutind
    (fun t i _ => sound_item i /\ forall h, item_says i h <-> mentions [t] h)
    (fun ts items _ => Forall sound_item items /\ forall h, (exists i, In i items /\ item_says i h) <-> mentions ts h)).
  - intros s. split; [exact I|]. intros h. cbn. split.
    + intros ->. apply m_name. left. reflexivity.
    + intros H. inversion H as [l x J|l l' x J M]; subst; destruct J as [E|[]]; [|discriminate]. congruence.
  - split; [exact I|]. intros h. cbn. split; [intros []|]. intros H. inversion H as [l x J|l l' x J M]; destruct J as [E|[]]; discriminate.
  - intros ts items g M [S K] N. destruct (items_keep items [] (Some g) N S) as (g' & E & P & W & KK); [intros k v; discriminate|constructor|].
    injection E as <-. split; [split; assumption|]. intros h. cbn [item_says]. rewrite KK, K. split.
    + intros [X|X]; [discriminate|]. apply m_group with ts; [left; reflexivity|exact X].
    + intros H. right. inversion H as [l x J|l l' x J Y]; subst; destruct J as [X|[]]; [discriminate|]. injection X as <-. exact Y.
  - split; [constructor|]. intros h. split; [intros (i & [] & _)|]. intros H. inversion H as [l x J|l l' x J M]; destruct J.
  - intros t i ts items Mi [S1 K1] Ms [S2 K2]. split; [constructor; assumption|]. intros h. rewrite mentions_cons, <- K1, <- K2. split.
    + intros (j & [ <- |J] & X); [left; exact X|right; exists j; auto].
    + intros [X|(j & J & X)]; [exists i; split; [left; reflexivity|exact X]|exists j; split; [right; exact J|exact X]].
Qed.

(** A group keeps exactly the names it was made of, directly or in other groups,
    in whatever order the maps were traversed. *)
Theorem C47_group ts g : made ts g -> forall h, keep g h = true <-> mentions ts h.
Proof.
  intros (items & M & N) h. destruct (proj2 made_says ts items M) as [S K].
  destruct (items_keep items [] (Some g) N S) as (g' & E & _ & _ & KK); [intros k v; discriminate|constructor|]. injection E as <-.
  rewrite KK, K. split; [intros [X|X]; [discriminate|exact X]|auto].
Qed.
Print Assumptions C47_group.

(** Making a group of such groups never fails, whatever is in them. *)
Theorem C47_made ts items : made_items ts items -> (exists res, new_group items res) /\ ~ new_group items None.
Proof.
  intros M. destruct (proj2 made_says ts items M) as [S _]. split.
  - assert (X : forall l g, exists res, add_items l g res); [|apply X]. induction l as [|[s|[o|]|] l IH]; intros g.
    + eexists. constructor.
    + destruct (IH (put s true g)) as [res R]. exists res. constructor. exact R.
    + destruct (IH (fold_left copy_entry o g)) as [res R]. exists res. econstructor; [reflexivity|exact R].
    + eexists. constructor.
    + destruct (IH g) as [res R]. exists res. constructor. exact R.
  - intros N. destruct (items_keep items [] None N S) as (g' & E & _); [intros k v; discriminate|constructor|discriminate].
Qed.
Print Assumptions C47_made.

(** Only the set of names matters; include and exclude are complementary. *)
Theorem C47_complement ts ts' g g' h : made ts g -> made ts' g' -> (forall s, mentions ts s <-> mentions ts' s) ->
  keeps (Include g) h = keeps (Include g') h /\ keeps (Exclude g) h = keeps (Exclude g') h /\
  keeps (Exclude g) h = negb (keeps (Include g') h) /\
  (keeps (Include g) h = true <-> mentions ts h) /\ (keeps (Exclude g) h = true <-> ~ mentions ts h).
Proof.
  intros M M' S. pose proof (C47_group ts g M h) as K. pose proof (C47_group ts' g' M' h) as K'. cbn [keeps].
  assert (E : keep g h = keep g' h).
  { destruct (keep g h) eqn:E1, (keep g' h) eqn:E2; try reflexivity.
    - assert (X : false = true) by (apply K', S, K; reflexivity). discriminate.
    - assert (X : false = true) by (apply K, S, K'; reflexivity). discriminate. }
  rewrite <- E. split; [reflexivity|]. split; [reflexivity|]. split; [reflexivity|]. split; [exact K|]. rewrite <- K. destruct (keep g h); cbn; intuition congruence.
Qed.
Print Assumptions C47_complement.

(** A keeper with the one and a keeper with the other share out the handlers, in
    the order they come; a keeper without filter has all. *)
Theorem C47_keeper ts g g' name tags : made ts g -> made ts g' ->
  Permutation (keeper_handlers (Some (Include g)) name tags ++ keeper_handlers (Some (Exclude g')) name tags) tags /\
  (forall h, In h (keeper_handlers (Some (Include g)) name tags) <-> In h tags /\ mentions ts (name h)) /\
  (forall h, In h (keeper_handlers (Some (Exclude g')) name tags) <-> In h tags /\ ~ mentions ts (name h)) /\
  keeper_handlers None name tags = tags.
Proof.
  intros M M'. unfold keeper_handlers. split; [|split; [|split]].
  - induction tags as [|t tags IH]; [constructor|]. cbn [List.filter].
    destruct (C47_complement ts ts g g' (name t) M M' ltac:(reflexivity)) as (_ & E1 & E2 & _).
    destruct (C47_complement ts ts g g' (name t) M M' ltac:(reflexivity)) as (E0 & _). unfold keep_tag in *. rewrite <- E1, E2, <- E0.
    destruct (keeps (Include g) (name t)) eqn:Kt; cbn [negb app].
    + apply perm_skip, IH.
    + etransitivity; [symmetry; apply Permutation_middle|apply perm_skip, IH].
  - intros h. rewrite filter_In. destruct (C47_complement ts ts g g' (name h) M M' ltac:(reflexivity)) as (_ & _ & _ & X & _). unfold keep_tag. rewrite X. reflexivity.
  - intros h. rewrite filter_In. destruct (C47_complement ts ts g' g (name h) M' M ltac:(reflexivity)) as (_ & _ & _ & _ & X). unfold keep_tag. rewrite X. reflexivity.
  - induction tags as [|t tags IH]; [reflexivity|]. cbn. rewrite IH. reflexivity.
Qed.
Print Assumptions C47_keeper.

(** *** The filters used *)

Definition dedup_names : list bytes :=
  [B "snqk/meld"; B "veqryn/dedup/Append"; B "veqryn/dedup/Ignore"; B "veqryn/dedup/Increment"; B "veqryn/dedup/Overwrite"].

Lemma names_made l : made_items (map TName l) (map Name l).
Proof. induction l as [|x l IH]; constructor; [constructor|exact IH]. Qed.
Lemma mentions_names l h : mentions (map TName l) h <-> In h l.
Proof.
  split.
  - intros H. inversion H as [l' s I|l' l'' s I M]; subst; apply in_map_iff in I; destruct I as (x & E & I); [|discriminate]. injection E as <-. exact I.
  - intros I. apply m_name, in_map, I.
Qed.
Lemma mentions_group l h : mentions [TGroup l] h <-> mentions l h.
Proof.
  split.
  - intros H. inversion H as [l' s J|l' l'' s J M]; subst; destruct J as [E|[]]; [discriminate|]. injection E as <-. exact M.
  - intros H. apply m_group with l; [left; reflexivity|exact H].
Qed.

(** Every handler is shown by at least one of the filters; the basic one shares a
    handler only with the baselines of the others. *)
Theorem C47_filters b d r : basic_filter b -> dedup_filter d -> replattr_filter r -> forall h,
  (keeps d h = true <-> h = B "slog/JSONHandler" \/ In h dedup_names) /\
  (keeps r h = true <-> h = B "madkins/flash" \/ h = B "madkins/replattr") /\
  (keeps b h = true <-> h <> B "madkins/replattr" /\ ~ In h dedup_names) /\
  (keeps b h = true \/ keeps d h = true \/ keeps r h = true) /\
  (keeps b h = true -> keeps d h = true -> h = B "slog/JSONHandler") /\
  (keeps b h = true -> keeps r h = true -> h = B "madkins/flash") /\
  (keeps d h = true -> keeps r h = true -> False).
Proof.
  intros (r1 & d1 & g1 & R1 & D1 & G1 & ->) (d2 & g2 & D2 & G2 & ->) (r3 & g3 & R3 & G3 & ->) h.
  assert (Md : made_items (map TName dedup_names) dedup_items) by apply names_made.
  assert (Mr : made_items (map TName [B "madkins/replattr"]) replattr_items) by apply names_made.
  assert (B1 : made [TGroup (map TName [B "madkins/replattr"]); TGroup (map TName dedup_names)] g1).
  { eexists. split; [|exact G1]. constructor; [econstructor; [exact Mr|exact R1]|]. constructor; [econstructor; [exact Md|exact D1]|constructor]. }
  assert (B2 : made [TName (B "slog/JSONHandler"); TGroup (map TName dedup_names)] g2).
  { eexists. split; [|exact G2]. constructor; [constructor|]. constructor; [econstructor; [exact Md|exact D2]|constructor]. }
  assert (B3 : made [TName (B "madkins/flash"); TGroup (map TName [B "madkins/replattr"])] g3).
  { eexists. split; [|exact G3]. constructor; [constructor|]. constructor; [econstructor; [exact Mr|exact R3]|constructor]. }
  assert (X1 : keeps (Include g2) h = true <-> h = B "slog/JSONHandler" \/ In h dedup_names).
  { cbn [keeps]. rewrite (C47_group _ _ B2). rewrite mentions_cons, mentions_group, mentions_names.
    change [TName (B "slog/JSONHandler")] with (map TName [B "slog/JSONHandler"]). rewrite mentions_names. cbn [In]. intuition. }
  assert (X2 : keeps (Include g3) h = true <-> h = B "madkins/flash" \/ h = B "madkins/replattr").
  { cbn [keeps]. rewrite (C47_group _ _ B3). rewrite mentions_cons, mentions_group, mentions_names.
    change [TName (B "madkins/flash")] with (map TName [B "madkins/flash"]). rewrite mentions_names. cbn [In]. intuition. }
  assert (X3 : keeps (Exclude g1) h = true <-> h <> B "madkins/replattr" /\ ~ In h dedup_names).
  { cbn [keeps]. rewrite negb_true_iff. rewrite <- not_true_iff_false. rewrite (C47_group _ _ B1). rewrite mentions_cons, !mentions_group, !mentions_names. cbn [In].
    split; [intros H; split; intros K; apply H; auto|intros [H1 H2] [[K|[]]|K]; auto]. }
  assert (D : forall a b : bytes, {a = b} + {a <> b}) by apply list_eq_dec, ascii_dec.
  rewrite X1, X2, X3. split; [reflexivity|]. split; [reflexivity|]. split; [reflexivity|]. split; [|split; [|split]].
  - destruct (D h (B "madkins/replattr")); [right; right; right; assumption|]. destruct (in_dec D h dedup_names); [right; left; right; assumption|left; auto].
  - intros [_ K] [E|E]; [exact E|contradiction].
  - intros [K _] [E|E]; [exact E|contradiction].
  - intros [ -> |I] [E|E]; try discriminate; subst h; repeat (destruct I as [I|I]; [discriminate I|]); destruct I.
Qed.
Print Assumptions C47_filters.

(** The tests of a keeper go through the same filter, by their name: an include filter
    leaves those whose name is a handler's. *)
Theorem C47_tests ts g name has_test tags t : made ts g ->
  (In t (keeper_tests (Some (Include g)) name has_test tags) <-> In t tags /\ has_test t = true /\ mentions ts (name t)) /\
  (In t (keeper_tests (Some (Exclude g)) name has_test tags) <-> In t tags /\ has_test t = true /\ ~ mentions ts (name t)).
Proof.
  intros M. destruct (C47_complement ts ts g g (name t) M M ltac:(reflexivity)) as (_ & _ & _ & X & Y). unfold keeper_tests, keep_tag.
  rewrite !filter_In, !andb_true_iff, X, Y. tauto.
Qed.
Print Assumptions C47_tests.

(** ** C48: the registry *)

(** Alphabetical order, and the order of the list. *)
Inductive alphabetical : bytes -> bytes -> Prop :=
| a_end c s : alphabetical [] (c :: s)
| a_here c d s t : (code c < code d)%N -> alphabetical (c :: s) (d :: t)
| a_later c s t : alphabetical s t -> alphabetical (c :: s) (c :: t).
Definition starred (t : bytes) : Prop := exists s, t = "+"%char :: s.
Definition comes_before (a b : bytes) : Prop :=
  (~ starred a /\ starred b) \/ ((starred a <-> starred b) /\ alphabetical a b).

Lemma blt_alpha a : forall b, blt a b = true <-> alphabetical a b.
Proof.
  induction a as [|x a IH]; intros [|y b]; cbn [blt].
  - split; [discriminate|intros H; inversion H].
  - split; [constructor|reflexivity].
  - split; [discriminate|intros H; inversion H].
  - destruct (N.ltb_spec (code x) (code y)).
    + split; [intros _; apply a_here; assumption|reflexivity].
    + destruct (N.ltb_spec (code y) (code x)).
      * split; [discriminate|]. intros K. inversion K; subst; lia.
      * assert (x = y) as -> by (apply code_inj; lia). rewrite IH. split; [apply a_later|]. intros K. inversion K; subst; [lia|assumption].
Qed.

Lemma special_starred t : t <> [] -> (special t = Some true <-> starred t) /\ (special t = Some false <-> ~ starred t).
Proof.
  destruct t as [|c t]; [congruence|]. intros _. cbn [special]. destruct (Ascii.eqb_spec c (chr 43)) as [ -> |N].
  - split; (split; [|]).
    + intros _. exists t. reflexivity.
    + reflexivity.
    + discriminate.
    + intros H. destruct H. exists t. reflexivity.
  - assert (X : ~ starred (c :: t)) by (intros [s E]; injection E as E _; apply N; rewrite E; reflexivity).
    split; (split; [|]); try discriminate; try contradiction; auto.
Qed.

Lemma less_before a b : a <> [] -> b <> [] -> (keeper_less a b = true <-> comes_before a b).
Proof.
  intros Na Nb. destruct (special_starred a Na) as [A1 A2]. destruct (special_starred b Nb) as [B1 B2].
  unfold keeper_less, comes_before. rewrite <- (blt_alpha a b).
  destruct (special a) as [[]|] eqn:Ea; [| |destruct a; [congruence|discriminate]]; (destruct (special b) as [[]|] eqn:Eb; [| |destruct b; [congruence|discriminate]]).
  - assert (starred a) by tauto. assert (starred b) by tauto. tauto.
  - assert (starred a) by tauto. assert (~ starred b) by tauto. intuition congruence.
  - assert (~ starred a) by tauto. assert (starred b) by tauto. tauto.
  - assert (~ starred a) by tauto. assert (~ starred b) by tauto. tauto.
Qed.

Lemma less_total a b : a <> [] -> b <> [] -> keeper_less a b = false -> keeper_less b a = false -> a = b.
Proof.
  unfold keeper_less. destruct a as [|x a]; [congruence|]. destruct b as [|y b]; [congruence|]. intros _ _. cbn [special].
  destruct (Ascii.eqb x (chr 43)), (Ascii.eqb y (chr 43)); try discriminate; intros H1 H2; apply blt_antisym; assumption.
Qed.

(** What sort.Slice requires. *)
Lemma less_weak : weak_order keeper_less.
Proof.
  split.
  - intros a b. pose proof (blt_asym a b) as T. revert T. unfold keeper_less. destruct a as [|x a], b as [|y b]; cbn [special];
      repeat match goal with |- context [Ascii.eqb ?u ?v] => destruct (Ascii.eqb u v) end; intros T H1; try discriminate; try reflexivity; auto.
  - intros a b c. pose proof (blt_neg a b c) as T. revert T. unfold keeper_less. destruct a as [|x a], b as [|y b], c as [|z c]; cbn [special];
      repeat match goal with |- context [Ascii.eqb ?u ?v] => destruct (Ascii.eqb u v) end; intros T H1 H2; try discriminate; try reflexivity; auto.
Qed.

Section Registry.
Variable keeper : Type.
Notation registry := (registry keeper).

(** Calls of AddKeeper, with calls of Keepers anywhere between them. *)
Inductive reached : list (bytes * keeper) -> registry -> Prop :=
| reached_new : reached [] no_keepers
| reached_add calls r tag k : reached calls r -> reached (calls ++ [(tag, k)]) (snd (add_keeper tag k r))
| reached_list calls r res r' : reached calls r -> keepers r res r' -> reached calls r'.

(** The first keeper registered under a tag. *)
Definition first_call (tag : bytes) (calls : list (bytes * keeper)) : option keeper :=
  option_map snd (find (fun e => beq (fst e) tag) calls).
Definition named (t : bytes) (calls : list (bytes * keeper)) : Prop := In t (map fst calls).
(** The registry lists its tags without panic. *)
Definition listable (calls : list (bytes * keeper)) : Prop := named [] calls -> forall t, named t calls -> t = [].

Lemma get_first tag calls : first_call tag calls <> None <-> named tag calls.
Proof.
  unfold first_call, named. induction calls as [|[t k] calls IH]; cbn [find map In fst].
  - split; [intros H; exfalso; apply H; reflexivity|intros []].
  - destruct (beq t tag) eqn:E.
    + apply beq_eq in E. split; [left; exact E|discriminate].
    + rewrite IH. split; [auto|]. intros [ -> |H]; [|exact H]. assert (beq tag tag = true) by (apply beq_eq; reflexivity). congruence.
Qed.
Lemma find_app' (f : bytes * keeper -> bool) a b : find f (a ++ b) = match find f a with Some x => Some x | None => find f b end.
Proof. induction a as [|x a IH]; [reflexivity|]. cbn. destruct (f x); [reflexivity|exact IH]. Qed.

Lemma reached_inv calls r : reached calls r ->
  wf (r_keepers r) /\ (forall tag, get tag (r_keepers r) = first_call tag calls) /\
  forall l, r_tags r = Some l -> Permutation (keys (r_keepers r)) l /\
    (sort_panics (keys (r_keepers r)) = false -> StronglySorted (fun a b => keeper_less b a = false) l).
Proof.
  induction 1 as [|calls r tag k R (W & G & T)|calls r res r' R (W & G & T) K].
  - split; [apply wf_nil|]. split; [reflexivity|]. intros l. discriminate.
  - unfold add_keeper. destruct (get tag (r_keepers r)) as [k'|] eqn:E; cbn [snd].
    + split; [exact W|]. split; [|exact T]. intros t. rewrite G. unfold first_call. rewrite find_app'.
      destruct (find (fun e => beq (fst e) t) calls) as [x|] eqn:F; [reflexivity|]. cbn [find fst]. destruct (beq tag t) eqn:Bt; [|reflexivity].
      apply beq_eq in Bt. subst t. rewrite G in E. unfold first_call in E. rewrite F in E. discriminate.
    + cbn [r_keepers r_tags]. split; [apply wf_put, W|]. split; [|intros l; discriminate]. intros t. rewrite get_put, G. unfold first_call. rewrite find_app'.
      destruct (beq tag t) eqn:Bt.
      * apply beq_eq in Bt. subst t. rewrite G in E. unfold first_call in E. destruct (find (fun e => beq (fst e) tag) calls); [discriminate|].
        cbn [find fst]. assert (beq tag tag = true) as -> by (apply beq_eq; reflexivity). reflexivity.
      * destruct (find (fun e => beq (fst e) t) calls); [reflexivity|]. cbn [find fst]. rewrite Bt. reflexivity.
  - unfold keepers in K. destruct (r_tags r) as [l|] eqn:E.
    + destruct K as [_ ->]. split; [exact W|]. split; [exact G|]. intros l'. rewrite E. apply T.
    + destruct K as (l & -> & K). cbn [r_keepers r_tags]. split; [exact W|]. split; [exact G|]. intros l' X. injection X as <-.
      destruct (sort_panics (keys (r_keepers r))); [split; [apply K|discriminate]|]. destruct K as (_ & l0 & P & S1 & S2).
      split; [rewrite P; exact S1|intros _; exact S2].
Qed.

Lemma keys_named calls r : reached calls r -> forall t, In t (keys (r_keepers r)) <-> named t calls.
Proof.
  intros R t. destruct (reached_inv calls r R) as (_ & G & _). rewrite <- get_first, <- G, <- get_keys.
  destruct (get t (r_keepers r)) as [v|].
  - split; [intros _ K; discriminate|intros _; exists v; reflexivity].
  - split; [intros [v K]; discriminate|intros K; destruct K; reflexivity].
Qed.

Lemma panics_iff calls r : reached calls r -> (sort_panics (keys (r_keepers r)) = false <-> listable calls).
Proof.
  intros R. pose proof (keys_named calls r R) as K. destruct (reached_inv calls r R) as (W & _ & _). unfold wf in W.
  unfold sort_panics, listable. set (l := keys (r_keepers r)) in *. split.
  - intros H N t Nt. apply K in N. apply K in Nt.
    destruct t as [|c t]; [reflexivity|]. exfalso. apply andb_false_iff in H. destruct H as [H|H].
    + apply N.ltb_ge in H. destruct l as [|a [|b l']]; [destruct N| |cbn in H; lia]. destruct N as [N|[]], Nt as [Nt|[]]. congruence.
    + assert (X : existsb (fun t => match t with [] => true | _ => false end) l = true) by (apply existsb_exists; exists []; auto). congruence.
  - intros H. apply andb_false_iff. destruct (existsb (fun t => match t with [] => true | _ => false end) l) eqn:E; [left|right; reflexivity]. apply existsb_exists in E. destruct E as (t & I & T).
    destruct t; [|discriminate]. apply N.ltb_ge. assert (A : forall t, In t l -> t = []) by (intros t J; apply H; apply K; assumption).
    destruct l as [|a [|b l']]; cbn; try lia. exfalso. inversion W as [|? ? N1 N2]; subst. apply N1. left. rewrite (A a), (A b); auto with datatypes.
Qed.

(** A second registration of a tag is refused and changes nothing; any other is
    accepted. *)
Theorem C48_refused calls r tag k : reached calls r ->
  (fst (add_keeper tag k r) = true <-> named tag calls) /\
  (fst (add_keeper tag k r) = true -> snd (add_keeper tag k r) = r).
Proof.
  intros R. destruct (reached_inv calls r R) as (_ & G & _). rewrite <- get_first, <- G. unfold add_keeper.
  destruct (get tag (r_keepers r)); cbn [fst snd]; split; try (split; congruence); congruence.
Qed.

(** GetKeeper yields what was registered first. *)
Theorem C48_get calls r tag : reached calls r -> get_keeper tag r = first_call tag calls.
Proof. intros R. apply (reached_inv calls r R). Qed.

(** The list is always up to date: every tag once, the starred ones last,
    alphabetically otherwise. *)
Theorem C48_list calls r res r' : reached calls r -> listable calls -> keepers r res r' ->
  exists l, res = Some l /\ NoDup l /\ (forall t, In t l <-> named t calls) /\ StronglySorted comes_before l.
Proof.
  intros R L K. destruct (reached_inv calls r R) as (W & G & T). pose proof (keys_named calls r R) as KN.
  pose proof (proj2 (panics_iff calls r R) L) as NP.
  assert (X : exists l, res = Some l /\ Permutation (keys (r_keepers r)) l /\ StronglySorted (fun a b => keeper_less b a = false) l).
  { unfold keepers in K. destruct (r_tags r) as [l|] eqn:E.
    - destruct K as [-> _]. exists l. destruct (T l eq_refl) as [P S]. auto.
    - destruct K as (l & _ & K). rewrite NP in K. destruct K as (-> & l0 & P & S1 & S2). exists l. split; [reflexivity|]. split; [rewrite P; exact S1|exact S2]. }
  destruct X as (l & -> & P & S). exists l. split; [reflexivity|].
  assert (N : NoDup l) by (eapply Permutation_NoDup; [exact P|exact W]). split; [exact N|].
  assert (I : forall t, In t l <-> named t calls) by (intros t; rewrite <- KN; split; apply Permutation_in; [symmetry|]; exact P).
  split; [exact I|].
  assert (D : (exists a b, In a l /\ In b l /\ a <> b) -> forall t, In t l -> t <> []).
  { intros (a & b & Ia & Ib & Nab) t It ->. apply Nab. rewrite (L (proj1 (I []) It) a), (L (proj1 (I []) It) b); [reflexivity|apply I, Ib|apply I, Ia]. }
  clear - N S D. induction S as [|x l S IH F]; [constructor|]. inversion N as [|? ? N1 N2]; subst. constructor.
  - apply IH; [exact N2|]. intros (a & b & Ia & Ib & Nab) t It. apply D; [exists a, b; cbn; auto|right; exact It].
  - rewrite Forall_forall in F |- *. intros y Iy. specialize (F y Iy). assert (Nxy : x <> y) by (intros ->; contradiction).
    assert (NE : forall t, In t (x :: l) -> t <> []) by (apply D; exists x, y; cbn; auto).
    apply less_before; [apply NE; left; reflexivity|apply NE; right; exact Iy|].
    destruct (keeper_less x y) eqn:E; [reflexivity|]. exfalso. apply Nxy, less_total; [apply NE; left; reflexivity|apply NE; right; exact Iy|exact E|exact F].
Qed.

Lemma before_asym a b : comes_before a b -> comes_before b a -> False.
Proof.
  assert (A : forall a b, alphabetical a b -> alphabetical b a -> False).
  { intros x y H1 H2. apply blt_alpha in H1. apply blt_alpha in H2. apply blt_asym in H1. congruence. }
  intros [[H1 H2]|[H1 H2]] [[H3 H4]|[H3 H4]]; try tauto. eapply A; eassumption.
Qed.

Lemma sorted_same l1 : forall l2, NoDup l1 -> NoDup l2 -> (forall t, In t l1 <-> In t l2) ->
  StronglySorted comes_before l1 -> StronglySorted comes_before l2 -> l1 = l2.
Proof.
  induction l1 as [|x l1 IH]; intros l2 N1 N2 I S1 S2.
  - destruct l2 as [|y l2]; [reflexivity|]. destruct (proj2 (I y)). left. reflexivity.
  - destruct l2 as [|y l2]; [destruct (proj1 (I x)); left; reflexivity|].
    inversion S1 as [|? ? T1 F1]; inversion S2 as [|? ? T2 F2]; inversion N1 as [|? ? M1 M1']; inversion N2 as [|? ? M2 M2']; subst.
    rewrite Forall_forall in F1, F2.
    assert (E : x = y).
    { destruct (proj1 (I x) (or_introl eq_refl)) as [E|J]; [congruence|]. destruct (proj2 (I y) (or_introl eq_refl)) as [E|J']; [congruence|].
      exfalso. eapply before_asym; [apply F1, J'|apply F2, J]. }
    subst y. f_equal. apply IH; try assumption. intros t. split; intros J.
    + destruct (proj1 (I t) (or_intror J)) as [E|K]; [subst t; contradiction|exact K].
    + destruct (proj2 (I t) (or_intror J)) as [E|K]; [subst t; contradiction|exact K].
Qed.

(** It does not depend on the order of registration, nor on when it was asked for
    before, nor on the order of the map. *)
Theorem C48_order calls1 calls2 r1 r2 res1 res2 r1' r2' : reached calls1 r1 -> reached calls2 r2 ->
  (forall t, named t calls1 <-> named t calls2) -> listable calls1 ->
  keepers r1 res1 r1' -> keepers r2 res2 r2' -> res1 = res2.
Proof.
  intros R1 R2 E L K1 K2. assert (L2 : listable calls2) by (intros N t Nt; apply L; apply E; assumption).
  destruct (C48_list _ _ _ _ R1 L K1) as (l1 & -> & N1 & I1 & S1). destruct (C48_list _ _ _ _ R2 L2 K2) as (l2 & -> & N2 & I2 & S2).
  f_equal. apply sorted_same; try assumption. intros t. rewrite I1, I2. apply E.
Qed.

(** An empty tag beside another one: the first call of Keepers panics; the next one
    returns the tags in an order that is not specified. *)
Theorem C48_panics calls r tag k : reached calls r -> ~ named tag calls -> ~ listable (calls ++ [(tag, k)]) ->
  let r1 := snd (add_keeper tag k r) in
  (forall res r2, keepers r1 res r2 -> res = None /\
     forall res' r3, keepers r2 res' r3 -> exists l, res' = Some l /\ NoDup l /\ forall t, In t l <-> named t (calls ++ [(tag, k)])) /\
  (forall l, NoDup l -> (forall t, In t l <-> named t (calls ++ [(tag, k)])) -> exists r2, keepers r1 None r2 /\ keepers r2 (Some l) r2).
Proof.
  intros R N L r1. assert (R1 : reached (calls ++ [(tag, k)]) r1) by (apply reached_add, R).
  pose proof (keys_named _ _ R1) as KN. destruct (reached_inv _ _ R1) as (W & _ & _).
  assert (P : sort_panics (keys (r_keepers r1)) = true) by (destruct (sort_panics (keys (r_keepers r1))) eqn:E; [reflexivity|destruct (L (proj1 (panics_iff _ _ R1) E))]).
  assert (T : r_tags r1 = None).
  { unfold r1, add_keeper. destruct (get tag (r_keepers r)) as [k'|] eqn:E; [|reflexivity]. exfalso. apply N. apply (keys_named _ _ R). apply get_keys. eauto. }
  split.
  - intros res r2 K. unfold keepers in K. rewrite T, P in K. destruct K as (l & -> & -> & Pm). split; [reflexivity|].
    intros res' r3 K. unfold keepers in K. cbn [r_tags] in K. destruct K as [-> _]. exists l. split; [reflexivity|].
    split; [eapply Permutation_NoDup; [exact Pm|exact W]|]. intros t. rewrite <- KN. split; apply Permutation_in; [symmetry|]; exact Pm.
  - intros l Nl I. exists {| r_keepers := r_keepers r1; r_tags := Some l |}. split.
    + unfold keepers. rewrite T, P. exists l. split; [reflexivity|]. split; [reflexivity|]. apply NoDup_Permutation; [exact W|exact Nl|]. intros t. rewrite I. apply KN.
    + unfold keepers. cbn [r_tags]. split; reflexivity.
Qed.
End Registry.

Print Assumptions C48_refused.
Print Assumptions C48_get.
Print Assumptions C48_list.
Print Assumptions C48_order.
Print Assumptions C48_panics.

(** ** Examples *)

(** A group with a name twice, another group and something useless in it. *)
Example C47_ex : exists g,
  made [TName (B "Kitten"); TGroup [TName (B "Puppy"); TOther; TGroup [TName (B "Fawn")]]; TName (B "Kitten")] g /\
  keeps (Include g) (B "Fawn") = true /\ keeps (Exclude g) (B "Fawn") = false /\
  keeps (Include g) (B "Cat") = false /\ keeps (Exclude g) (B "Cat") = true /\
  keeper_handlers (Some (Include g)) (fun t => t) [B "Cat"; B "Puppy"; B "Kitten"] = [B "Puppy"; B "Kitten"].
Proof.
  eexists. split.
  - eexists. split.
    + constructor; [constructor|]. constructor; [|constructor; [constructor|constructor]].
      econstructor.
      * constructor; [constructor|]. constructor; [constructor|]. constructor; [|constructor].
        econstructor; [constructor; [constructor|constructor]|]. constructor. constructor.
      * constructor. constructor. econstructor; [reflexivity|]. constructor.
    + constructor. econstructor; [reflexivity|]. constructor. constructor.
  - vm_compute. repeat split.
Qed.
Example C47_filters_ex : exists b d r, basic_filter b /\ dedup_filter d /\ replattr_filter r /\
  map (keeps b) [B "madkins/sloggy"; B "veqryn/dedup/Ignore"; B "slog/JSONHandler"] = [true; false; true] /\
  map (keeps d) [B "madkins/sloggy"; B "veqryn/dedup/Ignore"; B "slog/JSONHandler"] = [false; true; true] /\
  map (keeps r) [B "madkins/flash"; B "madkins/replattr"; B "slog/JSONHandler"] = [true; true; false].
Proof.
  do 3 eexists. split; [|split; [|split]].
  - do 3 eexists. split; [repeat constructor|]. split; [repeat constructor|]. split; [|reflexivity].
    econstructor; [reflexivity|]. econstructor; [reflexivity|]. constructor.
  - do 2 eexists. split; [repeat constructor|]. split; [|reflexivity]. constructor. econstructor; [reflexivity|]. constructor.
  - do 2 eexists. split; [repeat constructor|]. split; [|reflexivity]. constructor. econstructor; [reflexivity|]. constructor.
  - vm_compute. repeat split.
Qed.

(** The keepers of the server (internal/scoring/keeper), one of them twice; asked in
    between. *)
Example C48_ex : exists r l0,
  reached nat [(B "Default", 1); (B "Simple", 2); (B "+ReplAttr", 3); (B "Simple", 9); (B "+Dedup", 4); (B "Size", 5)] r /\
  listable nat [(B "Default", 1); (B "Simple", 2); (B "+ReplAttr", 3); (B "Simple", 9); (B "+Dedup", 4); (B "Size", 5)] /\
  l0 = [B "Default"; B "Simple"; B "Size"; B "+Dedup"; B "+ReplAttr"] /\
  keepers r (Some l0) {| r_keepers := r_keepers r; r_tags := Some l0 |} /\ get_keeper (B "Simple") r = Some 2.
Proof.
  set (add := fun t k r => snd (@add_keeper nat (B t) k r)).
  set (r2 := add "Simple"%string 2 (add "Default"%string 1 no_keepers)).
  set (r2' := {| r_keepers := r_keepers r2; r_tags := Some [B "Default"; B "Simple"] |}).
  exists (add "Size"%string 5 (add "+Dedup"%string 4 (add "Simple"%string 9 (add "+ReplAttr"%string 3 r2')))). eexists. split; [|split; [|split; [reflexivity|split]]].
  - apply (reached_add nat [(B "Default", 1); (B "Simple", 2); (B "+ReplAttr", 3); (B "Simple", 9); (B "+Dedup", 4)] _ (B "Size") 5).
    apply (reached_add nat [(B "Default", 1); (B "Simple", 2); (B "+ReplAttr", 3); (B "Simple", 9)] _ (B "+Dedup") 4).
    apply (reached_add nat [(B "Default", 1); (B "Simple", 2); (B "+ReplAttr", 3)] _ (B "Simple") 9).
    apply (reached_add nat [(B "Default", 1); (B "Simple", 2)] _ (B "+ReplAttr") 3).
    eapply reached_list with (r := r2) (res := Some [B "Default"; B "Simple"]).
    + apply (reached_add nat [(B "Default", 1)] _ (B "Simple") 2). apply (reached_add nat [] _ (B "Default") 1). constructor.
    + unfold keepers. cbn [r_tags r2 add add_keeper snd]. exists [B "Default"; B "Simple"]. split; [reflexivity|].
      split; [reflexivity|]. exists (keys (r_keepers r2)). split; [reflexivity|]. apply (sort_by_ok keeper_less less_weak (keys (r_keepers r2))).
  - intros N. cbn in N. repeat (destruct N as [N|N]; [discriminate N|]). destruct N.
  - unfold keepers. cbn [r_tags add add_keeper snd]. eexists. split; [reflexivity|]. split; [reflexivity|]. eexists. split; [reflexivity|].
    match goal with |- sort_slice _ ?k _ => change [B "Default"; B "Simple"; B "Size"; B "+Dedup"; B "+ReplAttr"] with (sort_by keeper_less k) end.
    apply sort_by_ok, less_weak.
  - reflexivity.
Qed.
