(** Proofs about the interpreter of the verification suite's programs. *)

From Coq Require Import Ascii String List ZArith NArith Bool Arith Lia QArith Qcanon.
From Verif Require Import Bytes BytesProofs GoSort Json Slog SlogProofs SpecLog Replace Warnings BenchChecks SpecChecks ChecksProofs Complex SpecComplex.
Import ListNotations.
Local Open Scope nat_scope.
Local Open Scope list_scope.

(** ** Removing groups without content *)

Fixpoint prune (v : dyn) : dyn :=
  match v with
  | DMap l => DMap
      ((fix go (l : list (bytes * dyn)) : list (bytes * dyn) :=
          match l with
          | [] => []
          | (k, w) :: l' => match prune w with DMap [] => go l' | w' => (k, w') :: go l' end
          end) l)
  | _ => v
  end.

Fixpoint prune_list (l : dmap) : dmap :=
  match l with
  | [] => []
  | (k, w) :: l' => match prune w with DMap [] => prune_list l' | w' => (k, w') :: prune_list l' end
  end.

Lemma prune_map (l : dmap) : prune (DMap l) = DMap (prune_list l).
Proof. reflexivity. Qed.

Definition hollowb (v : dyn) : bool := match prune v with DMap [] => true | _ => false end.

Lemma prune_cons k w (l : dmap) : prune_list ((k, w) :: l) = if hollowb w then prune_list l else (k, prune w) :: prune_list l.
Proof. unfold hollowb. cbn [prune_list]. destruct (prune w) as [| | | | |[|x y]]; reflexivity. Qed.

Lemma remove_prune mark v : forall depth, remove_in mark v depth = prune v.
Proof.
  induction v using dyn_rect'; intros depth; try reflexivity. cbn [remove_in]. rewrite prune_map. f_equal.
  induction H as [|[k w] l Hw Hl IH]; [reflexivity|]. cbn [snd] in Hw. cbn [prune_list].
  destruct w as [| | | | |g]; try (cbn [prune]; f_equal; exact IH).
  assert (W : (if Nat.ltb 0 (length g) then remove_in mark (DMap g) (S depth) else DMap g) = prune (DMap g)).
  { destruct g as [|x g]; [reflexivity|]. cbn [length Nat.ltb Nat.leb]. apply Hw. }
  rewrite W. rewrite IH. destruct (Nat.ltb 0 depth), (mark group_empty); cbn [negb orb]; rewrite prune_map; destruct (prune_list g); reflexivity.
Qed.

Lemma remove_is mark m depth : remove_empty_groups mark m depth = prune_list m.
Proof. unfold remove_empty_groups. rewrite remove_prune, prune_map. reflexivity. Qed.

Lemma hollowb_ok v : hollowb v = true <-> hollow v.
Proof.
  induction v using dyn_rect'; try (split; [discriminate|intros X; inversion X]).
  unfold hollowb. rewrite prune_map. split.
  - intros E. constructor. assert (P : prune_list l = []) by (destruct (prune_list l); [reflexivity|discriminate]). clear E.
    induction H as [|[k w] l Hw Hl IH]; [constructor|]. rewrite prune_cons in P. destruct (hollowb w) eqn:W; [|discriminate].
    constructor; [now apply Hw|auto].
  - intros E. inversion E as [l' F]; subst.
    assert (P : prune_list l = []); [|now rewrite P].
    clear E. induction H as [|[k w] l Hw Hl IH]; [reflexivity|]. inversion F; subst. rewrite prune_cons.
    cbn [snd] in *. apply Hw in H1. rewrite H1. auto.
Qed.

Definition shown (o : option dyn) : option dyn :=
  match o with Some v => if hollowb v then None else Some (prune v) | None => None end.

Lemma prune_keys (l : dmap) k : In k (keys (prune_list l)) -> In k (keys l).
Proof.
  induction l as [|[x w] l IH]; [intros []|]. rewrite prune_cons. unfold keys in *. destruct (hollowb w); cbn [map fst In]; [auto|].
  intros [->|I]; auto.
Qed.

Lemma wf_prune (l : dmap) : wf l -> wf (prune_list l).
Proof.
  unfold wf. induction l as [|[x w] l IH]; [auto|]. intros N. unfold keys in N. cbn [map fst] in N. inversion N; subst. rewrite prune_cons.
  destruct (hollowb w); [now apply IH|]. unfold keys. cbn [map fst]. constructor; [|now apply IH].
  intros I. apply H1. now apply prune_keys.
Qed.

Lemma get_prune (l : dmap) k : wf l -> get k (prune_list l) = shown (get k l).
Proof.
  unfold wf. induction l as [|[x w] l IH]; [reflexivity|]. intros N. unfold keys in N. cbn [map fst] in N. inversion N as [|x' l' NI N']; subst.
  rewrite prune_cons. cbn [get]. destruct (beq x k) eqn:E.
  - apply beq_eq in E. subst x. cbn [shown]. destruct (hollowb w) eqn:W.
    + apply get_none. intros I. apply NI. now apply prune_keys.
    + cbn [get]. rewrite beq_refl. reflexivity.
  - destruct (hollowb w); [now apply IH|]. cbn [get]. rewrite E. now apply IH.
Qed.

Lemma valid_prune v : valid v -> valid (prune v).
Proof.
  induction v using dyn_rect'; intros V; try exact V. rewrite prune_map. inversion V as [| | | | |l' N F]; subst.
  apply valid_of; [now apply wf_prune|]. intros k v. rewrite get_prune by exact N.
  destruct (get k l) as [w|] eqn:G; cbn [shown]; [|discriminate]. destruct (hollowb w); [discriminate|]. intros [= <-].
  rewrite Forall_forall in H. apply get_some_in in G. apply (H _ G). rewrite Forall_forall in F. apply (F _ G).
Qed.

(** ** Agreement *)

Definition alike (v w : dyn) : Prop := same (prune v) (prune w).

Lemma alike_refl v : alike v v.
Proof. apply same_refl. Qed.
Lemma alike_sym v w : alike v w -> alike w v.
Proof. apply same_sym. Qed.
Lemma alike_trans v w x : alike v w -> alike w x -> alike v x.
Proof. apply same_trans. Qed.

Lemma alike_map (l m : dmap) : wf l -> wf m -> alike (DMap l) (DMap m) <-> forall k, same_option (shown (get k l)) (shown (get k m)).
Proof.
  intros L M. unfold alike. rewrite !prune_map. split.
  - intros S0 k. inversion S0 as [| | | | |x y G]; subst. specialize (G k). now rewrite !get_prune in G.
  - intros G. constructor. intros k. rewrite !get_prune by assumption. apply G.
Qed.

Lemma same_option_refl o : same_option o o.
Proof. destruct o; constructor. apply same_refl. Qed.

Lemma same_empty v : same (DMap []) v -> v = DMap [].
Proof.
  intros S0. inversion S0 as [| | | | |x y G]; subst. destruct y as [|[k w] y]; [reflexivity|].
  specialize (G k). cbn [get] in G. rewrite beq_refl in G. inversion G.
Qed.

Lemma alike_hollow v w : alike v w -> hollowb v = true -> hollowb w = true.
Proof.
  unfold alike, hollowb. intros S0 H. destruct (prune v) as [| | | | |[|x y]]; try discriminate.
  apply same_empty in S0. now rewrite S0.
Qed.

Lemma shown_alike v w : alike v w -> same_option (shown (Some v)) (shown (Some w)).
Proof.
  intros A. cbn [shown]. destruct (hollowb v) eqn:V.
  - rewrite (alike_hollow _ _ A V). constructor.
  - destruct (hollowb w) eqn:W.
    + apply alike_sym in A. rewrite (alike_hollow _ _ A W) in V. discriminate.
    + constructor. exact A.
Qed.

Lemma void_shown o : void o <-> shown o = None.
Proof.
  destruct o as [v|]; cbn [void shown]; [|tauto]. rewrite <- hollowb_ok. destruct (hollowb v); [tauto|split; discriminate].
Qed.

Lemma map_or_not v : is_map v \/ (~ is_map v /\ prune v = v).
Proof.
  destruct v; try (right; split; [intros [? ?]; discriminate|reflexivity]). left. now eexists.
Qed.

Lemma agree_alike v : forall w, valid v -> valid w -> alike v w <-> agree v w.
Proof.
  assert (LEAF : forall v w, ~ is_map v -> prune v = v -> alike v w <-> agree v w).
  { clear v. intros v w NM P. unfold alike. rewrite P. destruct (map_or_not w) as [[m ->]|[NW PW]].
    - rewrite prune_map. split.
      + intros S0. destruct NM. apply same_sym in S0. apply (same_is_map _ _ S0). now eexists.
      + intros A. inversion A; subst; [|destruct NM; now eexists].
        destruct NM. apply same_sym in H0. apply (same_is_map _ _ H0). now eexists.
    - rewrite PW. split; [now constructor|]. intros A. inversion A; subst; [assumption|destruct NM; now eexists]. }
  induction v using dyn_rect'; intros w V W; try (apply LEAF; [intros [? ?]; discriminate|reflexivity]).
  destruct (map_or_not w) as [[m ->]|[NW PW]].
  2:{ split.
      - unfold alike. rewrite PW. intros S0. destruct NW. apply (same_is_map _ _ S0). now eexists.
      - intros A. inversion A; subst; [destruct H0; now eexists|destruct NW; now eexists]. }
  rewrite alike_map by now apply valid_wf. split.
  - intros G. apply agree_map. intros k. specialize (G k).
    destruct (shown (get k l)) as [x|] eqn:X, (shown (get k m)) as [y|] eqn:Y; try (now inversion G).
    + destruct (get k l) as [v|] eqn:Gv; [|discriminate]. destruct (get k m) as [u|] eqn:Gu; [|discriminate].
      cbn [shown] in X, Y. destruct (hollowb v); [discriminate|]. destruct (hollowb u); [discriminate|].
      injection X as <-. injection Y as <-. apply slot_both.
      rewrite Forall_forall in H. apply (H (k, v)); [now apply get_some_in|now apply (valid_get k v l)|now apply (valid_get k u m)|].
      cbn [snd]. inversion G; subst. exact H2.
    + apply slot_void; now apply void_shown.
  - intros A. inversion A as [|x y G]; subst; [destruct H0; now eexists|]. intros k. specialize (G k).
    inversion G as [a b Va Vb|v u Q Ev Eu].
    + apply void_shown in Va. apply void_shown in Vb. rewrite Va, Vb. constructor.
    + apply shown_alike. symmetry in Ev, Eu. rewrite Forall_forall in H.
      apply (H (k, v)); [now apply get_some_in|now apply (valid_get k v l)|now apply (valid_get k u m)|exact Q].
Qed.

Lemma same_alike v : forall w, valid v -> valid w -> same v w -> alike v w.
Proof.
  induction v using dyn_rect'; intros w V W S0; try (inversion S0; subst; exact S0).
  inversion S0 as [| | | | |x y G]; subst. apply alike_map; [now apply valid_wf|now apply valid_wf|]. intros k. specialize (G k).
  destruct (get k l) as [v|] eqn:Gv, (get k y) as [u|] eqn:Gu; try (now inversion G).
  apply shown_alike. inversion G as [|a b S1 Ea Eb]; subst. rewrite Forall_forall in H.
  apply (H (k, v)); [now apply get_some_in|now apply (valid_get k v l)|now apply (valid_get k u y)|exact S1].
Qed.

(** ** The maps that are built *)

Section Built.
Variable X : tools.
Variable mark : warning -> bool.

Definition adds (l : list attr) (d : dmap) : dmap :=
  fold_left (fun m a => match attr_value X mark false (snd a) with Some v => put (fst a) v m | None => m end) l d.

Definition basics (d : dmap) : dmap := put MessageKey (DStr test_message) (put LevelKey (DStr (B "INFO")) d).
Definition basics_if (first : bool) (d : dmap) : dmap := if first then basics d else d.

Fixpoint conc (first : bool) (d : dmap) (ss : list step) (l : list attr) : dmap :=
  match ss with
  | [] => adds l (basics_if first d)
  | Attach _ m :: ss' => conc first (adds m d) ss' l
  | Open c _ m :: ss' => basics_if first (put (group_name c) (DMap (conc false (adds m []) ss' l)) d)
  end.

Definition lift (d : dmap) : gomap hval := map (fun e => (fst e, HVal (snd e))) d.

Lemma map_put {A C : Type} (f : A -> C) k v (m : gomap A) :
  map (fun e => (fst e, f (snd e))) (put k v m) = put k (f v) (map (fun e => (fst e, f (snd e))) m).
Proof.
  induction m as [|[x w] m IH]; [reflexivity|]. cbn [put map fst snd]. destruct (beq x k); [reflexivity|].
  cbn [map fst snd]. now rewrite IH.
Qed.

Lemma lift_put k v (d : dmap) : put k (HVal v) (lift d) = lift (put k v d).
Proof. symmetry. apply (map_put HVal). Qed.

Lemma value_inside v : mark group_duration = false -> attr_value X mark true v = attr_value X mark false v.
Proof.
  intros M. revert v. apply (value_rect' (fun v => attr_value X mark true v = attr_value X mark false v)); try reflexivity.
  - intros z. cbn [attr_value]. rewrite M. reflexivity.
  - intros l F. cbn [attr_value]. do 2 f_equal.
    assert (G : forall m : dmap,
      (fix go (l : list (bytes * value)) (m : dmap) : dmap :=
         match l with
         | [] => m
         | (k, w) :: l' => go l' (match attr_value X mark true w with Some d => put k d m | None => m end)
         end) l m =
      (fix go (l : list (bytes * value)) (m : dmap) : dmap :=
         match l with
         | [] => m
         | (k, w) :: l' => go l' (match attr_value X mark false w with Some d => put k d m | None => m end)
         end) l m).
    { induction F as [|[k w] l Hw Hl IH]; intros m; [reflexivity|]. cbn [snd] in Hw. rewrite Hw. apply IH. }
    apply G.
Qed.

Lemma value_group l : attr_value X mark false (VGroup l) = Some (DMap (adds l [])).
Proof.
  cbn [attr_value]. do 2 f_equal. unfold adds. generalize (@nil (bytes * dyn)) as m.
  induction l as [|[k w] l IH]; intros m; [reflexivity|]. cbn [fold_left fst snd]. apply IH.
Qed.

Lemma add_attrs_lift inside (d : dmap) l : mark group_duration = false -> add_attrs_to X mark inside (lift d) l = lift (adds l d).
Proof.
  intros M. unfold add_attrs_to, adds. revert d. induction l as [|[k v] l IH]; intros d; [reflexivity|].
  cbn [fold_left fst snd]. rewrite <- IH. f_equal.
  assert (V : attr_value X mark inside v = attr_value X mark false v) by (destruct inside; [now apply value_inside|reflexivity]).
  rewrite V. destruct (attr_value X mark false v); [apply lift_put|reflexivity].
Qed.

Definition hbasics (m : gomap hval) : gomap hval := put MessageKey (HVal (DStr test_message)) (put LevelKey (HVal (DStr (B "INFO"))) m).
Definition hbasics_if (first : bool) (m : gomap hval) : gomap hval := if first then hbasics m else m.

Fixpoint hchain (first : bool) (base : nat) (d : dmap) (ss : list step) (l : list attr) : heap :=
  match ss with
  | [] => [lift (adds l (basics_if first d))]
  | Attach _ m :: ss' => hchain first base (adds m d) ss' l
  | Open c _ m :: ss' => hbasics_if first (put (group_name c) (HRef (S base)) (lift d)) :: hchain false (S base) (adds m []) ss' l
  end.

(** *** From the heap to the map *)

Definition conv (n : nat) (h : heap) (x : hval) : dyn :=
  match x with HVal v => v | HRef b => DMap (match n with O => [] | S n' => tree n' h b end) end.

Lemma tree_eq n h a : tree n h a = map (fun e => (fst e, conv n h (snd e))) (nth a h []).
Proof. destruct n; reflexivity. Qed.

Lemma conv_lift n h (d : dmap) : map (fun e => (fst e, conv n h (snd e))) (lift d) = d.
Proof. unfold lift. rewrite map_map. rewrite <- (map_id d) at 2. apply map_ext. intros [k v]. reflexivity. Qed.

Lemma conv_basics n h m : map (fun e => (fst e, conv n h (snd e))) (hbasics m) = basics (map (fun e => (fst e, conv n h (snd e))) m).
Proof. unfold hbasics, basics. rewrite !(map_put (conv n h)). reflexivity. Qed.

Lemma chain_length ss l : forall first base d, 0 < length (hchain first base d ss l).
Proof. induction ss as [|[c b m|b m] ss IH]; intros first base d; cbn [hchain length]; [lia|lia|apply IH]. Qed.

Lemma tree_chain ss l : forall first d pre n, length (hchain first (length pre) d ss l) <= S n ->
  tree n (pre ++ hchain first (length pre) d ss l) (length pre) = conc first d ss l.
Proof.
  induction ss as [|[c b m|b m] ss IH]; intros first d pre n L; rewrite tree_eq; cbn [hchain conc] in *.
  - rewrite app_nth2 by lia. rewrite Nat.sub_diag. cbn [nth]. apply conv_lift.
  - rewrite app_nth2 by lia. rewrite Nat.sub_diag. cbn [nth].
    cbn [length] in L. pose proof (chain_length ss l false (S (length pre)) (adds m [])) as CL. destruct n as [|n]; [lia|].
    set (h := pre ++ _).
    assert (T : tree n h (S (length pre)) = conc false (adds m []) ss l).
    { specialize (IH false (adds m []) (pre ++ [hbasics_if first (put (group_name c) (HRef (S (length pre))) (lift d))]) n).
      rewrite app_length in IH. cbn [length] in IH. rewrite Nat.add_1_r in IH. rewrite <- app_assoc in IH. apply IH. lia. }
    assert (Q : map (fun e => (fst e, conv (S n) h (snd e))) (put (group_name c) (HRef (S (length pre))) (lift d)) =
                put (group_name c) (DMap (conc false (adds m []) ss l)) d).
    { rewrite (map_put (conv (S n) h)), conv_lift. f_equal. cbn [conv]. now rewrite T. }
    unfold hbasics_if, basics_if. destruct first; [|exact Q]. rewrite conv_basics. now rewrite Q.
  - rewrite <- tree_eq. now apply IH.
Qed.

(** *** Running the interpreter *)

Hypothesis NEUTRAL : neutral mark.

Lemma marks : mark group_with_top = false /\ mark group_attr_msg_top = false /\ mark resolver = false /\ mark group_duration = false /\
  mark duration_string = false /\ mark duration_seconds = false /\ mark duration_millis = false.
Proof.
  unfold neutral in NEUTRAL. repeat match goal with H : Forall _ (_ :: _) |- _ => inversion H; clear H; subst end. auto 10.
Qed.

Definition final (pre : heap) (d : dmap) (ss : list step) (l : list attr) : heap :=
  match pre with
  | [] => hchain true 0 d ss l
  | p0 :: pr => (hbasics p0 :: pr) ++ hchain false (length pre) d ss l
  end.

Lemma update_last (pre : heap) x f : update (length pre) f (pre ++ [x]) = pre ++ [f x].
Proof. induction pre as [|y pre IH]; [reflexivity|]. cbn [length app update]. now rewrite IH. Qed.

Lemma spells_head ss a l t : spells (x_table X) ss a l t -> match t with c :: _ => c <> "+"%char | [] => False end.
Proof. intros H. destruct H; discriminate. Qed.

Lemma get_attrs_ok x b m t p : args (x_table X) x b m -> match t with c :: _ => c <> "+"%char | [] => True end ->
  p_definition p = x ++ t -> get_attrs X p = (set_definition t p, Some (m, b)).
Proof.
  intros A T D. unfold get_attrs. rewrite D. destruct A as [|c l A].
  - cbn [app] in *. assert (S0 : set_definition t p = p) by (destruct p; cbn in *; now subst). rewrite S0.
    destruct t as [|c0 [|c1 t]]; try reflexivity. destruct (Ascii.eqb_spec c0 "+"%char); [contradiction|reflexivity].
  - cbn [app]. rewrite Ascii.eqb_refl, A. reflexivity.
Qed.

Lemma blanks_head t : blanks t -> match t with c :: _ => c <> "+"%char | [] => True end.
Proof. intros []; [exact I|discriminate]. Qed.

Lemma parse_blanks t : blanks t -> forall n p, length t <= n -> p_definition p = t -> parse_n X mark n p = (set_definition [] p, true).
Proof.
  induction 1 as [|t Bt IH]; intros n p L D.
  - assert (S0 : set_definition [] p = p) by (destruct p; cbn in *; now subst). rewrite S0. destruct n; cbn [parse_n]; [reflexivity|now rewrite D].
  - destruct n as [|n]; [cbn in L; lia|]. cbn [parse_n]. rewrite D. unfold execute. rewrite D. change (Ascii.eqb " "%char " "%char) with true. cbv iota.
    rewrite IH; [|cbn in L; lia|reflexivity]. reflexivity.
Qed.

Lemma parse_ok ss a l t : spells (x_table X) ss a l t -> forall n p pre d, length t <= n ->
  p_definition p = t -> p_heap p = pre ++ [lift d] -> p_ptr p = length pre ->
  exists p', parse_n X mark n p = (p', true) /\ p_heap p' = final pre d ss l /\
    p_calls p' = p_calls p ++ [(p_ops p ++ program_ops ss, l)] /\
    p_stmt p' = p_stmt p ++ concat (map step_text ss) ++ B ".Info(" ++ quoted test_message ++
      match l with [] => [] | _ => B ", '" ++ utf8_encode (code a) ++ B "'" end ++ B ")".
Proof.
  destruct marks as (MT & MM & _ & MD & _).
  induction 1 as [ss a l t S0 IH|c x b m ss a l t A S0 IH|x b m ss a l t A S0 IH|x a l t A Bt]; intros n p pre d L D HH HP.
  - destruct n as [|n]; [cbn in L; lia|]. cbn [parse_n]. rewrite D. unfold execute. rewrite D.
    change (Ascii.eqb " "%char " "%char) with true. cbv iota. apply (IH n (set_definition t p) pre d); auto. cbn in L. lia.
  - destruct n as [|n]; [cbn in L; lia|]. cbn [parse_n]. rewrite D. unfold execute. rewrite D.
    change (Ascii.eqb "G"%char " "%char) with false. change (Ascii.eqb "G"%char "G"%char) with true. cbv iota.
    unfold exec_group. cbn [set_definition p_definition].
    set (nm := (B "group" ++ char_text c)). change nm with (group_name c). clear nm. cbv beta iota zeta.
    set (q := set_in true false _).
    assert (HQ : p_heap q = (pre ++ [put (group_name c) (HRef (S (length pre))) (lift d)]) ++ [[]]).
    { unfold q. cbn [set_in push_map write_stmt push_log set_heap set_definition p_heap p_ptr]. rewrite HH, HP, app_length, Nat.add_1_r.
      rewrite update_last. reflexivity. }
    assert (PQ : p_ptr q = length (pre ++ [put (group_name c) (HRef (S (length pre))) (lift d)])).
    { unfold q. cbn [set_in push_map p_ptr write_stmt push_log set_heap set_definition p_heap]. now rewrite HH, !app_length. }
    assert (DQ : p_definition q = x ++ t) by reflexivity.
    assert (GA : get_attrs X q = (set_definition t q, Some (m, b))).
    { apply (get_attrs_ok x); [exact A| |exact DQ]. pose proof (spells_head _ _ _ _ S0) as Hh. destruct t; [exact I|exact Hh]. }
    rewrite GA.
    assert (LT : length t <= n) by (cbn [length] in L; rewrite app_length in L; cbn in L; lia).
    destruct m as [|m0 m].
    + destruct (IH n (set_definition t q) (pre ++ [put (group_name c) (HRef (S (length pre))) (lift d)]) [] LT eq_refl HQ PQ) as (p' & E1 & E2 & E3 & E4).
      exists p'. rewrite E1. split; [reflexivity|]. split; [|split].
      * rewrite E2. unfold final. destruct pre as [|p0 pr]; [reflexivity|]. cbn [app hchain adds fold_left hbasics_if].
        rewrite <- app_assoc. cbn [app length]. rewrite app_length, Nat.add_1_r. reflexivity.
      * rewrite E3. cbn [q set_definition set_in push_map write_stmt push_log set_heap p_calls p_ops]. unfold program_ops. cbn [map concat step_ops attached].
        rewrite <- ?app_assoc. reflexivity.
      * rewrite E4. cbn [q set_definition set_in push_map write_stmt push_log set_heap p_stmt]. cbn [map concat step_text]. unfold quoted.
        rewrite <- ?app_assoc. cbn [app]. rewrite <- ?app_assoc. reflexivity.
    + cbv beta iota zeta. rewrite MT. set (ms := m0 :: m) in *.
      set (q2 := add_attrs X mark ms _).
      assert (HQ2 : p_heap q2 = (pre ++ [put (group_name c) (HRef (S (length pre))) (lift d)]) ++ [lift (adds ms [])]).
      { unfold q2, add_attrs, add_attrs_at. cbn [set_heap p_heap set_in write_stmt p_ptr p_in_group]. unfold with_args, ms.
        cbn [push_log p_heap p_ptr p_in_group set_definition]. rewrite HQ, PQ, update_last. fold ms.
        change (@nil (bytes * hval)) with (lift []). now rewrite add_attrs_lift. }
      destruct (IH n q2 (pre ++ [put (group_name c) (HRef (S (length pre))) (lift d)]) (adds ms []) LT eq_refl HQ2 PQ) as (p' & E1 & E2 & E3 & E4).
      exists p'. rewrite E1. split; [reflexivity|]. split; [|split].
      * rewrite E2. unfold final. destruct pre as [|p0 pr]; [reflexivity|]. cbn [app hchain hbasics_if].
        rewrite <- app_assoc. cbn [app length]. rewrite app_length, Nat.add_1_r. reflexivity.
      * rewrite E3. unfold q2, add_attrs, add_attrs_at, with_args, ms.
        cbn [q set_definition set_in push_map write_stmt push_log set_heap p_calls p_ops]. unfold program_ops. cbn [map concat step_ops attached].
        rewrite <- ?app_assoc. reflexivity.
      * rewrite E4. unfold q2, add_attrs, add_attrs_at, with_args, ms.
        cbn [q set_definition set_in push_map write_stmt push_log set_heap p_stmt]. cbn [map concat step_text]. unfold quoted, char_text.
        rewrite <- ?app_assoc. cbn [app]. rewrite <- ?app_assoc. reflexivity.
  - destruct n as [|n]; [cbn in L; lia|]. cbn [parse_n]. rewrite D. unfold execute. rewrite D.
    change (Ascii.eqb "W"%char " "%char) with false. change (Ascii.eqb "W"%char "G"%char) with false.
    change (Ascii.eqb "W"%char "M"%char) with false. change (Ascii.eqb "W"%char "W"%char) with true. cbv iota.
    unfold exec_with.
    assert (GA : get_attrs X (set_definition (x ++ t) p) = (set_definition t p, Some (m, b))).
    { rewrite (get_attrs_ok x b m t); [reflexivity|exact A| |reflexivity]. pose proof (spells_head _ _ _ _ S0) as Hh. destruct t; [exact I|exact Hh]. }
    rewrite GA. cbv beta iota zeta.
    assert (LT : length t <= n) by (cbn [length] in L; rewrite app_length in L; cbn in L; lia).
    set (q := add_attrs X mark m _).
    assert (HQ : p_heap q = pre ++ [lift (adds m d)]).
    { unfold q, add_attrs, add_attrs_at. unfold with_args. destruct m; cbn [set_heap push_log write_stmt set_definition p_heap p_ptr p_in_group];
        rewrite HH, HP, update_last; now rewrite add_attrs_lift. }
    destruct (IH n q pre (adds m d) LT) as (p' & E1 & E2 & E3 & E4); [unfold q, with_args; destruct m; reflexivity|exact HQ|unfold q, with_args; destruct m; exact HP|].
    exists p'. rewrite E1. split; [reflexivity|]. split; [|split].
    + rewrite E2. unfold final. destruct pre; reflexivity.
    + rewrite E3. unfold q, with_args. unfold program_ops. destruct m; cbn [add_attrs add_attrs_at set_heap push_log write_stmt set_definition p_calls p_ops map concat step_ops attached];
        rewrite <- ?app_assoc; reflexivity.
    + rewrite E4. unfold q, with_args. cbn [map concat step_text]. unfold quoted, char_text.
      destruct m; cbn [add_attrs add_attrs_at set_heap push_log write_stmt set_definition p_stmt]; rewrite <- ?app_assoc; cbn [app]; rewrite <- ?app_assoc; reflexivity.
  - destruct n as [|n]; [cbn in L; lia|]. cbn [parse_n]. rewrite D. unfold execute. rewrite D.
    change (Ascii.eqb "M"%char " "%char) with false. change (Ascii.eqb "M"%char "G"%char) with false.
    change (Ascii.eqb "M"%char "M"%char) with true. cbv iota.
    unfold exec_message.
    assert (GA : get_attrs X (set_definition (x ++ t) p) = (set_definition t p, Some (l, a))).
    { rewrite (get_attrs_ok x a l t); [reflexivity|exact A|now apply blanks_head|reflexivity]. }
    rewrite GA. cbv beta iota zeta. rewrite MM. cbn [andb].
    set (q := add_attrs X mark l _).
    assert (LT : length t <= n) by (cbn [length] in L; rewrite app_length in L; cbn in L; lia).
    rewrite (parse_blanks t Bt n q LT eq_refl). exists (set_definition [] q). split; [reflexivity|]. split; [|split].
    + unfold q, add_attrs, add_attrs_at. cbn [set_heap set_definition write_stmt call_info p_heap p_ptr p_in_group]. rewrite HH, HP.
      unfold final. destruct pre as [|p0 pr].
      * cbn [app update length hchain basics_if]. do 1 f_equal. change (fun m => _) with hbasics.
        assert (B0 : put MessageKey (HVal (DStr test_message)) (put LevelKey (HVal (DStr (B "INFO"))) (lift d)) = lift (basics d)).
        { unfold basics. now rewrite !lift_put. }
        rewrite B0. now apply add_attrs_lift.
      * cbn [app update length]. f_equal. rewrite update_last. cbn [hchain basics_if]. now rewrite add_attrs_lift.
    + unfold q. cbn [add_attrs add_attrs_at set_heap set_definition write_stmt call_info p_calls p_ops]. unfold program_ops. cbn [map concat]. now rewrite app_nil_r.
    + unfold q. cbn [add_attrs add_attrs_at set_heap set_definition write_stmt call_info p_stmt map concat]. unfold quoted, char_text. cbn [app].
      rewrite <- ?app_assoc. destruct l; reflexivity.
Qed.

Lemma run_ok ss a l t : spells (x_table X) ss a l t -> exists p, parse X mark (new_parser t) = (p, true) /\
  expected mark p = prune_list (conc true [] ss l) /\ p_calls p = [(program_ops ss, l)] /\ p_stmt p = program_text ss a l.
Proof.
  intros S0. destruct (parse_ok ss a l t S0 (length t) (new_parser t) [] [] (le_n _) eq_refl eq_refl eq_refl) as (p & E1 & E2 & E3 & E4).
  exists p. split; [exact E1|]. split; [|split; [exact E3|rewrite E4; reflexivity]].
  unfold expected. rewrite remove_is. f_equal. rewrite E2. unfold final. apply (tree_chain ss l true [] []). cbn [length]. lia.
Qed.

End Built.
