(** C74: the pages of the web server. *)

From Coq Require Import Ascii String List NArith Bool Arith Lia.
From Verif Require Import Bytes BytesProofs GoSort WarnParser Bench Chart Server.
Import ListNotations.
Local Open Scope nat_scope.
Local Open Scope list_scope.

(** ** Vocabulary *)

Definition within (x s : bytes) : Prop := exists a b, s = a ++ x ++ b.
Definition begins (x s : bytes) : Prop := exists b, s = x ++ b.

(** The file of an item was there and was not empty when the server started. *)
Definition has_file (read : bytes -> option bytes) (i : text_item) (d : bytes) : Prop :=
  read (ti_path i) = Some d /\ d <> [].

(** ** The cache of texts *)

Section Text.
Variable read : bytes -> option bytes.
Variable md : bytes -> bytes.

Definition readable (i : text_item) : bool := match read (ti_path i) with Some (_ :: _) => true | _ => false end.

Lemma readable_spec i : readable i = true <-> exists d, has_file read i d.
Proof.
  unfold readable, has_file. destruct (read (ti_path i)) as [[|c d]|]; split.
  - discriminate.
  - intros (d & [= <-] & N). now destruct N.
  - intros _. exists (c :: d). now split.
  - reflexivity.
  - discriminate.
  - intros (d & ? & _). discriminate.
Qed.

Definition shown (i : text_item) : text_item := {|
  ti_name := ti_name i; ti_path := ti_path i; ti_summary := md (ti_summary i);
  ti_data := match read (ti_path i) with Some d => d | None => [] end |}.

Lemma load_cons i items c ns : load read md (i :: items) c ns =
  if readable i then load read md items (put (ti_name i) (shown i) c) (ns ++ [ti_name i]) else load read md items c ns.
Proof.
  unfold readable, shown. cbn [load]. destruct (read (ti_path i)) as [[|x d]|]; reflexivity.
Qed.

Lemma load_names items : forall c ns, snd (load read md items c ns) = ns ++ map ti_name (filter readable items).
Proof.
  induction items as [|i items IH]; intros c ns; [cbn; now rewrite app_nil_r|].
  rewrite load_cons. cbn [filter]. destruct (readable i); rewrite IH; [|reflexivity].
  cbn [map]. now rewrite <- app_assoc.
Qed.

Lemma load_other items : forall c ns name, (forall i, In i items -> ti_name i = name -> readable i = false) ->
  get name (fst (load read md items c ns)) = get name c.
Proof.
  induction items as [|i items IH]; intros c ns name H; [reflexivity|]. rewrite load_cons.
  destruct (readable i) eqn:R.
  - rewrite IH by (intros j J; apply H; now right). rewrite get_put_other; [reflexivity|].
    intros E. rewrite (H i (or_introl eq_refl) E) in R. discriminate R.
  - apply IH. intros j J. apply H. now right.
Qed.

Lemma load_app a : forall b c ns, load read md (a ++ b) c ns =
  load read md b (fst (load read md a c ns)) (snd (load read md a c ns)).
Proof.
  induction a as [|i a IH]; intros b c ns; [reflexivity|]. cbn [app]. rewrite !load_cons.
  destruct (readable i); apply IH.
Qed.

(** The last item of this name with a file, if there is one. *)
Lemma last_of items name :
  (exists a i b, items = a ++ i :: b /\ ti_name i = name /\ readable i = true /\
    forall j, In j b -> ti_name j = name -> readable j = false) \/
  (forall i, In i items -> ti_name i = name -> readable i = false).
Proof.
  induction items as [|i items [(a & j & b & -> & E & R & L)|N]].
  - right. intros i [].
  - left. exists (i :: a), j, b. repeat split; assumption.
  - destruct (list_eq_dec ascii_dec (ti_name i) name) as [E|E]; [destruct (readable i) eqn:R|].
    + left. exists [], i, items. repeat split; assumption.
    + right. intros j [->|J]; [now intros _|now apply N].
    + right. intros j [->|J] H; [now destruct E|now apply N].
Qed.

Lemma cache_of items name : get name (tc_cache (new_text_cache read md items)) = get name (fst (load read md items [] [])).
Proof. unfold new_text_cache. destruct (load read md items [] []). reflexivity. Qed.

Lemma cache_last a i b c ns : readable i = true -> (forall j, In j b -> ti_name j = ti_name i -> readable j = false) ->
  get (ti_name i) (fst (load read md (a ++ i :: b) c ns)) = Some (shown i).
Proof.
  intros R L. rewrite load_app, load_cons, R, load_other by exact L. apply get_put_same.
Qed.

Lemma collect_spec cache names : (forall n, In n names -> exists i, get n cache = Some i) ->
  Forall2 (fun n i => get n cache = Some i) names (collect cache names).
Proof.
  induction names as [|n names IH]; intros H; [constructor|]. cbn [collect].
  destruct (H n (or_introl eq_refl)) as [i E]. rewrite E. constructor; [exact E|]. apply IH. intros m M. apply H. now right.
Qed.

Lemma cached_name items name i : get name (fst (load read md items [] [])) = Some i -> ti_name i = name.
Proof.
  destruct (last_of items name) as [(a & j & b & -> & <- & R & L)|N].
  - rewrite cache_last by assumption. now intros [= <-].
  - rewrite load_other by exact N. discriminate.
Qed.

Lemma items_of items :
  Forall2 (fun n i => get n (fst (load read md items [] [])) = Some i) (map ti_name (filter readable items))
    (tc_items (new_text_cache read md items)).
Proof.
  unfold new_text_cache. destruct (load read md items [] []) as [c ns] eqn:E. cbn [tc_items fst].
  pose proof (load_names items [] []) as N. rewrite E in N. cbn [snd app] in N. subst ns. apply collect_spec.
  intros n I. apply in_map_iff in I. destruct I as (i & <- & I). apply filter_In in I. destruct I as [I R].
  replace c with (fst (load read md items [] [])) by now rewrite E.
  destruct (last_of items (ti_name i)) as [(a & j & b & -> & H & R' & L)|N].
  - exists (shown j). rewrite <- H in *. now apply cache_last.
  - rewrite (N i I eq_refl) in R. discriminate R.
Qed.
End Text.

(** A name shows the file of the last item of that name that has one, as it was when the
    server started, and the rendered summary of that item. *)
Theorem C74_text read md before i after d : has_file read i d ->
  (forall j e, In j after -> ti_name j = ti_name i -> ~ has_file read j e) ->
  find_text (new_text_cache read md (before ++ i :: after)) (ti_name i) =
    {| ti_name := ti_name i; ti_path := ti_path i; ti_summary := md (ti_summary i); ti_data := d |}.
Proof.
  intros F L. unfold find_text. rewrite cache_of, cache_last.
  - unfold shown. destruct F as [-> _]. reflexivity.
  - apply readable_spec. now exists d.
  - intros j J E. destruct (readable read j) eqn:R; [|reflexivity]. apply readable_spec in R. destruct R as [e R].
    now destruct (L j e J E).
Qed.
Print Assumptions C74_text.

(** Any other tag gives an item without a name that shows the tag itself. *)
Theorem C74_unknown read md items tag : (forall i d, In i items -> ti_name i = tag -> ~ has_file read i d) ->
  let found := find_text (new_text_cache read md items) tag in
  ti_name found = [] /\ ti_summary found = B "Text Not Found" /\ ti_data found = B "Path: " ++ tag.
Proof.
  intros N. unfold find_text. rewrite cache_of, load_other; [now repeat split|].
  intros i I E. destruct (readable read i) eqn:R; [|reflexivity]. apply readable_spec in R. destruct R as [d R].
  now destruct (N i d I E).
Qed.
Print Assumptions C74_unknown.

(** So a request shows no other file than those of the items of this very name. *)
Theorem C74_only read md items tag : let found := find_text (new_text_cache read md items) tag in
  ti_data found = B "Path: " ++ tag \/ exists i, In i items /\ ti_name i = tag /\ has_file read i (ti_data found).
Proof.
  destruct (last_of read items tag) as [(a & i & b & -> & <- & R & L)|N].
  - right. exists i. split; [apply in_elt|]. split; [reflexivity|]. apply readable_spec in R. destruct R as [d F].
    rewrite (C74_text read md a i b d F); [exact F|]. intros j e J E G.
    assert (R : readable read j = true) by (apply readable_spec; now exists e). rewrite (L j J E) in R. discriminate R.
  - left. apply C74_unknown. intros i d I E F.
    assert (R : readable read i = true) by (apply readable_spec; now exists d). rewrite (N i I E) in R. discriminate R.
Qed.
Print Assumptions C74_only.

(** The list on the pages: one entry for each item that has a file, in order, under its
    name, and each the item that a request for its name shows. *)
Theorem C74_listed read md items : let tc := new_text_cache read md items in
  (exists with_file, map ti_name (tc_items tc) = map ti_name with_file /\
    (forall i, In i with_file <-> In i items /\ exists d, has_file read i d) /\
    (exists keep, with_file = filter keep items)) /\
  Forall (fun i => find_text tc (ti_name i) = i) (tc_items tc) /\
  (has_text tc = true <-> exists i d, In i items /\ has_file read i d).
Proof.
  pose proof (items_of read md items) as F. cbn zeta. split; [|split].
  - exists (filter (readable read) items). split; [|split].
    + remember (filter (readable read) items) as l eqn:E. clear E.
      remember (tc_items (new_text_cache read md items)) as m eqn:E. clear E.
      remember (map ti_name l) as ns eqn:E. clear E l. induction F as [|n i ns m H _ IH]; [reflexivity|].
      cbn [map]. rewrite IH. f_equal. now apply cached_name in H.
    + intros i. rewrite filter_In, readable_spec. reflexivity.
    + now exists (readable read).
  - remember (map ti_name (filter (readable read) items)) as ns eqn:E. clear E.
    remember (tc_items (new_text_cache read md items)) as m eqn:E. clear E.
    induction F as [|n i ns m H _ IH]; constructor; [|exact IH]. pose proof (cached_name _ _ _ _ _ H) as N.
    unfold find_text. rewrite cache_of, N, H. reflexivity.
  - assert (X : has_text (new_text_cache read md items) = true <-> exists n i, get n (tc_cache (new_text_cache read md items)) = Some i).
    { unfold has_text. destruct (tc_cache (new_text_cache read md items)) as [|[n i] m].
      - split; [discriminate|]. now intros (n & i & ?).
      - split; [|reflexivity]. intros _. exists n, i. cbn [get]. now rewrite beq_refl. }
    rewrite X. split.
    + intros (n & j & G). rewrite cache_of in G.
      destruct (last_of read items n) as [(a & i & b & -> & <- & R & L)|N].
      * apply readable_spec in R. destruct R as [d R]. exists i, d. split; [apply in_elt|exact R].
      * rewrite load_other in G by exact N. discriminate G.
    + intros (i & d & I & H). exists (ti_name i).
      assert (R : readable read i = true) by (apply readable_spec; now exists d).
      destruct (last_of read items (ti_name i)) as [(a & j & b & -> & E & R' & L)|N].
      * exists (shown read md j). rewrite cache_of, <- E. apply cache_last; [exact R'|]. now rewrite E.
      * rewrite (N i I eq_refl) in R. discriminate R.
Qed.
Print Assumptions C74_listed.

Definition sample_files (p : bytes) : option bytes :=
  if beq p (B "docs/bench.txt") then Some (B "goos: linux")
  else if beq p (B "docs/empty.txt") then Some [] else None.
Definition sample_item (n p : string) : text_item := {| ti_name := B n; ti_path := B p; ti_summary := B "s"; ti_data := [] |}.
Definition sample_items : list text_item :=
  [sample_item "bench.txt" "docs/bench.txt"; sample_item "empty.txt" "docs/empty.txt"; sample_item "bench.txt" "docs/gone.txt"].
Definition sample_cache : text_cache := new_text_cache sample_files (fun s => B "<p>" ++ s) sample_items.

(** The conditions of [C74_text] and of [C74_unknown] are met. *)
Example C74_text_ex :
  (exists before i after d, sample_items = before ++ i :: after /\ has_file sample_files i d /\
     (forall j e, In j after -> ti_name j = ti_name i -> ~ has_file sample_files j e) /\
     ti_data (find_text sample_cache (ti_name i)) = B "goos: linux") /\
  (forall i d, In i sample_items -> ti_name i = B "empty.txt" -> ~ has_file sample_files i d) /\
  map ti_name (tc_items sample_cache) = [B "bench.txt"] /\
  ti_data (find_text sample_cache (B "<b>")) = B "Path: <b>".
Proof.
  split; [|split; [|split]].
  - exists [], (sample_item "bench.txt" "docs/bench.txt"), (tl sample_items), (B "goos: linux").
    split; [reflexivity|]. split; [split; [reflexivity|discriminate]|]. split; [|reflexivity].
    intros j e [<-|[<-|[]]] _ [F N]; [|discriminate F]. injection F as <-. now destruct N.
  - intros i d [<-|[<-|[<-|[]]]] E [F N]; [discriminate E| |discriminate E]. injection F as <-. now destruct N.
  - reflexivity.
  - reflexivity.
Qed.

(** ** What reaches the client *)

Section Pages.
Variable keeper : Type.
Variable text : text_cache.
Variable keepers : gomap keeper.
Variable execute : page -> page_data keeper -> bytes * option bytes.
Variable send : bytes -> bytes * option bytes.

(** The whole of what a template prints. *)
Definition whole (p : page) (d : page_data keeper) (out : bytes) : Prop := execute p d = (out, None).

(** A writer sends a beginning of what it is given, all of it if there is no error. *)
Definition writer_ok : Prop := forall buf sent e, send buf = (sent, e) -> begins sent buf /\ (e = None -> sent = buf).

(** Only (a beginning of) a whole page is sent: the one asked for, or, if its template
    fails, the page of the errors with the errors so far and this one; what a failing
    template printed never is.  The status stays, so an error is answered with 200, as a
    page is. *)
Theorem C74_whole p q x : writer_ok ->
  let x' := page_function text keepers execute send p q x in
  x_status x' = x_status x /\
  exists sent page_out, x_body x' = x_body x ++ sent /\ begins sent page_out /\
    (whole p (page_data_for text keepers p q (x_errors x)) page_out \/
     (exists junk err d, p <> PError /\ execute p (page_data_for text keepers p q (x_errors x)) = (junk, Some err) /\
        d_errors d = x_errors x ++ [err] /\ whole PError d page_out) \/
     (page_out = [] /\ exists junk err, execute p (page_data_for text keepers p q (x_errors x)) = (junk, Some err))).
Proof.
  intros W. unfold page_function, page_once.
  destruct (execute p (page_data_for text keepers p q (x_errors x))) as [out [err|]] eqn:E.
  - destruct (page_eqb p PError) eqn:P; cbn [negb andb].
    + split; [reflexivity|]. exists [], []. cbn [x_body]. rewrite app_nil_r. split; [reflexivity|]. split; [now exists []|].
      right. right. split; [reflexivity|]. now exists out, err.
    + cbn [x_errors x_body x_status].
      destruct (execute PError (page_data_for text keepers PError q (x_errors x ++ [err]))) as [out2 [err2|]] eqn:E2; cbn [snd].
      * split; [reflexivity|]. exists [], []. cbn [x_body]. rewrite app_nil_r. split; [reflexivity|]. split; [now exists []|].
        right. right. split; [reflexivity|]. now exists out, err.
      * destruct (send out2) as [sent e] eqn:S. split; [reflexivity|]. exists sent, out2. split; [reflexivity|].
        split; [now apply (W out2 sent e)|]. right. left. exists out, err, (page_data_for text keepers PError q (x_errors x ++ [err])).
        split; [intros ->; discriminate P|]. split; [reflexivity|]. split; [reflexivity|exact E2].
  - cbn [andb]. destruct (send out) as [sent e] eqn:S. split; [reflexivity|]. exists sent, out. split; [reflexivity|].
    split; [now apply (W out sent e)|]. left. exact E.
Qed.

(** Nothing fails silently: without a new error on the context the page asked for was
    sent as a whole, and errors are only added. *)
Theorem C74_errors p q x : writer_ok ->
  let x' := page_function text keepers execute send p q x in
  begins (concat (x_errors x)) (concat (x_errors x')) /\
  exists new, x_errors x' = x_errors x ++ new /\ length new <= 2 /\
    (new = [] <-> exists out, whole p (page_data_for text keepers p q (x_errors x)) out /\ send out = (out, None)) /\
    (new = [] -> exists out, whole p (page_data_for text keepers p q (x_errors x)) out /\ x_body x' = x_body x ++ out).
Proof.
  intros W x'. assert (G : exists new, x_errors x' = x_errors x ++ new /\ length new <= 2 /\
    (new = [] <-> exists out, whole p (page_data_for text keepers p q (x_errors x)) out /\ send out = (out, None)) /\
    (new = [] -> exists out, whole p (page_data_for text keepers p q (x_errors x)) out /\ x_body x' = x_body x ++ out)).
  { subst x'. unfold page_function, page_once, whole.
    destruct (execute p (page_data_for text keepers p q (x_errors x))) as [out [err|]] eqn:E.
    - assert (Z : forall new : list bytes, new <> [] ->
        (new = [] <-> exists o, (out, Some err) = (o, None) /\ send o = (o, None)) /\
        forall P : Prop, new = [] -> P).
      { intros new N. split; [split; [intros H; now destruct N|now intros (o & ? & _)]|intros P H; now destruct N]. }
      destruct (page_eqb p PError) eqn:P; cbn [negb andb].
      + exists [err]. split; [reflexivity|]. split; [cbn; lia|]. destruct (Z [err]) as [A B]; [discriminate|].
        split; [exact A|apply B].
      + cbn [x_errors x_body x_status].
        destruct (execute PError (page_data_for text keepers PError q (x_errors x ++ [err]))) as [out2 [err2|]] eqn:E2; cbn [snd x_errors x_body].
        * exists [err; err2]. split; [now rewrite <- app_assoc|]. split; [cbn; lia|]. destruct (Z [err; err2]) as [A B]; [discriminate|].
          split; [exact A|apply B].
        * destruct (send out2) as [sent [e|]] eqn:S; cbn [x_errors x_body].
          -- exists [err; e]. split; [now rewrite <- app_assoc|]. split; [cbn; lia|].
             destruct (Z [err; e]) as [A B]; [discriminate|]. split; [exact A|apply B].
          -- exists [err]. split; [reflexivity|]. split; [cbn; lia|].
             destruct (Z [err]) as [A B]; [discriminate|]. split; [exact A|apply B].
    - cbn [andb]. destruct (send out) as [sent [e|]] eqn:S; cbn [x_errors x_body].
      + exists [e]. split; [reflexivity|]. split; [cbn; lia|]. split; [|discriminate]. split; [discriminate|].
        intros (o & [= <-] & S'). rewrite S in S'. discriminate S'.
      + exists []. split; [now rewrite app_nil_r|]. split; [cbn; lia|].
        assert (sent = out) as -> by now apply (W out sent None).
        split; [split; [|reflexivity]|]; intros _; now exists out. }
  split; [|exact G]. destruct G as (new & -> & _). rewrite concat_app. now eexists.
Qed.
End Pages.
Print Assumptions C74_whole.
Print Assumptions C74_errors.

(** ** What of a request is shown *)

Lemma trim_html t : trim_suffix (B ".html") (t ++ B ".html") = t.
Proof.
  unfold trim_suffix. rewrite app_length, Nat.add_sub, skipn_app, skipn_all, Nat.sub_diag. cbn [app skipn].
  rewrite beq_refl, firstn_app, Nat.sub_diag, firstn_all, firstn_O. apply app_nil_r.
Qed.

Lemma trim_none t : (forall s, t <> s ++ B ".html") -> trim_suffix (B ".html") t = t.
Proof.
  intros N. unfold trim_suffix. destruct (beq (skipn (length t - length (B ".html")) t) (B ".html")) eqn:E; [|reflexivity].
  apply beq_eq in E. destruct (N (firstn (length t - length (B ".html")) t)). rewrite <- E at 2. now rewrite firstn_skipn.
Qed.

(** The tag is taken with one .html off its end, and for nothing but the page it is for. *)
Theorem C74_tag {K} text (keepers : gomap K) t q errs : t <> [] ->
  (p_tag q = t ++ B ".html" \/ (p_tag q = t /\ forall s, t <> s ++ B ".html")) ->
  d_handler (page_data_for text keepers PHandler q errs) = t /\
  d_test (page_data_for text keepers PTest q errs) = t /\
  forall p, (p <> PHandler -> d_handler (page_data_for text keepers p q errs) = []) /\
            (p <> PTest -> d_test (page_data_for text keepers p q errs) = []).
Proof.
  intros N H. assert (T : trim_suffix (B ".html") (p_tag q) = t /\ exists c s, p_tag q = c :: s).
  { destruct t as [|c t]; [now destruct N|]. destruct H as [->|[-> H]].
    - split; [apply trim_html|]. now eexists _, _.
    - split; [now apply trim_none|]. now eexists _, _. }
  destruct T as (T & c & s & E). unfold page_data_for. rewrite T, E. cbn [d_handler d_test].
  split; [reflexivity|]. split; [reflexivity|]. intros p. split; intros P; destruct p; congruence.
Qed.
Print Assumptions C74_tag.

(** The keeper of a page is the one of the request; the page of the scores falls back on
    the one called Default. *)
Theorem C74_keeper {K} text (keepers : gomap K) p q errs :
  (forall k, get (p_keeper q) keepers = Some k -> d_keeper (page_data_for text keepers p q errs) = Some k) /\
  (get (p_keeper q) keepers = None ->
     d_keeper (page_data_for text keepers p q errs) = match p with PScores => get (B "Default") keepers | _ => None end).
Proof.
  unfold page_data_for. cbn [d_keeper]. split; [intros k|]; intros ->; destruct p; reflexivity.
Qed.
Print Assumptions C74_keeper.

(** What html/template does: the title is printed as it is, through unescape, and so are
    a text item's data, which are HTML; errors are strings and are escaped. *)
Definition template_ok {K} (b : bench) (w : wdata) (execute : page -> page_data K -> bytes * option bytes) : Prop :=
  (forall p d out, execute p d = (out, None) -> exists t, page_title b w p d = Some t /\ within t out) /\
  (forall d out i, execute PText d = (out, None) -> d_item d = Some i -> within (ti_data i) out) /\
  (forall d out, execute PError d = (out, None) -> forall e, In e (d_errors d) -> within (html_escape e) out).

Lemma within_app x s a b : within x s -> within x (a ++ s ++ b).
Proof. intros (u & v & ->). exists (a ++ u), (v ++ b). now rewrite <- !app_assoc. Qed.
Lemma within_trans x y z : within x y -> within y z -> within x z.
Proof. intros H (a & b & ->). now apply within_app. Qed.
Lemma within_fixed what name : within name (in_fixed what name).
Proof. exists (what ++ B " <span class=""fixed"">"), (B "</span>"). unfold in_fixed. now rewrite <- app_assoc. Qed.

Lemma page_sent {K} text (keepers : gomap K) execute send p q x out :
  execute p (page_data_for text keepers p q (x_errors x)) = (out, None) -> send out = (out, None) ->
  x_body (page_function text keepers execute send p q x) = x_body x ++ out.
Proof. intros E S. unfold page_function, page_once. rewrite E, S. reflexivity. Qed.

(** A tag that is not in the data comes back as it is, markup and all, in the page of a
    handler, of a test and of a text. *)
Theorem C74_reflected {K} read md items b w (keepers : gomap K) execute send p t q x out :
  let text := new_text_cache read md items in
  template_ok b w execute -> t <> [] ->
  match p with
  | PHandler => p_tag q = t ++ B ".html" /\ get t (b_handler_names b) = None
  | PTest => p_tag q = t ++ B ".html" /\ has_test b t = false /\ get t (test_names w) = None
  | PText => p_tag q = t /\ forall i d, In i items -> ti_name i = t -> ~ has_file read i d
  | _ => False
  end ->
  execute p (page_data_for text keepers p q (x_errors x)) = (out, None) -> send out = (out, None) ->
  within t (x_body (page_function text keepers execute send p q x)).
Proof.
  intros text (T1 & T2 & _) N H E S. rewrite (page_sent _ _ _ _ _ _ _ out E S).
  rewrite <- (app_nil_r out). apply within_app.
  destruct (T1 _ _ _ E) as (title & T & I).
  destruct p; try contradiction.
  - destruct H as (Q & H1 & H2). apply (within_trans t title); [|exact I].
    destruct (C74_tag text keepers t q (x_errors x) N (or_introl Q)) as (_ & D & _).
    cbn [page_title] in T. rewrite D, H1 in T. unfold w_test_name, name_or_tag in T. rewrite H2 in T. injection T as <-.
    apply within_fixed.
  - destruct H as (Q & H1). apply (within_trans t title); [|exact I].
    destruct (C74_tag text keepers t q (x_errors x) N (or_introl Q)) as (D & _).
    cbn [page_title] in T. rewrite D in T. unfold b_handler_name, name_or_tag in T. rewrite H1 in T. injection T as <-.
    apply within_fixed.
  - destruct H as (Q & H1). destruct (C74_unknown read md items t H1) as (_ & _ & D).
    apply (within_trans t (ti_data (find_text text t))).
    + subst text. rewrite D. exists (B "Path: "), []. now rewrite app_nil_r.
    + apply (T2 _ _ _ E). unfold page_data_for. cbn [d_item]. rewrite Q. destruct t; [now destruct N|reflexivity].
Qed.
Print Assumptions C74_reflected.

(** The request for a text without a tag fails, and the client gets the page of the errors. *)
Theorem C74_no_tag {K} b w text (keepers : gomap K) execute send q x : template_ok b w execute -> p_tag q = [] ->
  exists err more, x_errors (page_function text keepers execute send PText q x) = x_errors x ++ err :: more.
Proof.
  intros (T1 & _ & _) Q. unfold page_function, page_once.
  destruct (execute PText (page_data_for text keepers PText q (x_errors x))) as [out [err|]] eqn:E.
  - cbn [andb negb page_eqb x_errors].
    destruct (execute PError _) as [out2 [err2|]]; cbn [snd x_errors].
    + exists err, [err2]. now rewrite <- app_assoc.
    + destruct (send out2) as [s [e|]]; cbn [x_errors]; [exists err, [e]; now rewrite <- app_assoc|now exists err, []].
  - destruct (T1 _ _ _ E) as (t & T & _). unfold page_data_for in T. cbn [page_title d_item] in T. rewrite Q in T. discriminate T.
Qed.
Print Assumptions C74_no_tag.

(** Markup between tags needs one of these. *)
Definition markup (c : ascii) : Prop := In c [chr 60; chr 62; chr 34; chr 39].

Lemma escape_no_markup s c : In c (html_escape s) -> ~ markup c.
Proof.
  unfold html_escape. intros I M. apply in_flat_map in I. destruct I as (d & _ & I).
  assert (X : forallb (fun c => negb (existsb (Ascii.eqb c) [chr 60; chr 62; chr 34; chr 39])) (html_escape_char d) = true)
    by (destruct d as [[] [] [] [] [] [] [] []]; vm_compute; reflexivity).
  rewrite forallb_forall in X. specialize (X c I). apply negb_true_iff in X.
  assert (Y : existsb (Ascii.eqb c) [chr 60; chr 62; chr 34; chr 39] = true)
    by (apply existsb_exists; exists c; split; [exact M|apply Ascii.eqb_refl]).
  rewrite Y in X. discriminate X.
Qed.

(** An error that ends a template is shown on the page of the errors, its markup escaped. *)
Theorem C74_error_shown {K} b w text (keepers : gomap K) execute send p q x junk err out : p <> PError ->
  template_ok b w execute ->
  execute p (page_data_for text keepers p q (x_errors x)) = (junk, Some err) ->
  execute PError (page_data_for text keepers PError q (x_errors x ++ [err])) = (out, None) -> send out = (out, None) ->
  x_body (page_function text keepers execute send p q x) = x_body x ++ out /\
  forall e, In e (x_errors x ++ [err]) -> exists shown, within shown out /\ (forall c, In c shown -> ~ markup c) /\ shown = html_escape e.
Proof.
  intros P (_ & _ & T3) E E2 S. unfold page_function, page_once. rewrite E.
  assert (page_eqb p PError = false) as -> by (destruct p; try reflexivity; now destruct P). cbn [negb andb x_errors x_body].
  rewrite E2, S. cbn [snd x_body]. split; [reflexivity|]. intros e I. exists (html_escape e).
  split; [|split; [apply escape_no_markup|reflexivity]].
  apply (T3 (page_data_for text keepers PError q (x_errors x ++ [err]))); [exact E2|exact I].
Qed.
Print Assumptions C74_error_shown.

(** A server: it prints the title, the data and the errors. *)
Definition sample_execute (p : page) (d : page_data nat) : bytes * option bytes :=
  match page_title new_bench no_data p d with
  | None => (B "<html>", Some (B "nil pointer: <Item>"))
  | Some t => (t ++ match d_item d with Some i => ti_data i | None => [] end ++ flat_map html_escape (d_errors d), None)
  end.

Lemma within_flat f (l : list bytes) e : In e l -> within (f e) (flat_map f l).
Proof. intros I. apply in_split in I. destruct I as (a & b & ->). rewrite flat_map_app. exists (flat_map f a), (flat_map f b). reflexivity. Qed.

Lemma sample_execute_ok : template_ok new_bench no_data sample_execute.
Proof.
  unfold template_ok, sample_execute. split; [|split].
  - intros p d out. destruct (page_title _ _ p d) as [t|]; [|discriminate]. intros [= <-]. exists t. split; [reflexivity|].
    now exists [], (match d_item d with Some i => ti_data i | None => [] end ++ flat_map html_escape (d_errors d)).
  - intros d out i. destruct (page_title _ _ PText d) as [t|]; [|discriminate]. intros [= <-] ->.
    now exists t, (flat_map html_escape (d_errors d)).
  - intros d out. cbn [page_title]. intros [= <-] e I.
    apply (within_trans _ (flat_map html_escape (d_errors d))); [now apply within_flat|].
    exists (B "Server Error" ++ match d_item d with Some i => ti_data i | None => [] end), []. now rewrite app_nil_r, <- app_assoc.
Qed.

Definition sample_request (tag : bytes) : params := {| p_keeper := []; p_tag := tag |}.
Definition fresh : context := {| x_body := []; x_status := 200; x_errors := [] |}.
Definition sends (buf : bytes) : bytes * option bytes := (buf, None).

(** The conditions of the theorems are met: an image tag in a request comes back, and a
    request without a tag gets the errors. *)
Example C74_reflected_ex : writer_ok sends /\ template_ok new_bench no_data sample_execute /\
  (forall i d, In i sample_items -> ti_name i = B "<img src=x onerror=alert(1)>" -> ~ has_file sample_files i d) /\
  x_body (page_function sample_cache [] sample_execute sends PText (sample_request (B "<img src=x onerror=alert(1)>")) fresh) =
    B "Text File <span class=""fixed""></span>Path: <img src=x onerror=alert(1)>" /\
  x_body (page_function sample_cache [] sample_execute sends PHandler (sample_request (B "<img src=x onerror=alert(1)>.html")) fresh) =
    B "Handler <span class=""fixed""><img src=x onerror=alert(1)></span>" /\
  page_function sample_cache [] sample_execute sends PText (sample_request []) fresh =
    {| x_body := B "Server Errornil pointer: &lt;Item&gt;"; x_status := 200; x_errors := [B "nil pointer: <Item>"] |}.
Proof.
  split; [|split; [exact sample_execute_ok|split; [|now repeat split]]].
  - intros buf sent e [= <- <-]. split; [|reflexivity]. exists []. now rewrite app_nil_r.
  - intros i d [<-|[<-|[<-|[]]]] E; discriminate E.
Qed.

(** ** The function dict *)

(** At this place of the arguments there is a value for the name. *)
Definition gives {V} (as_string : V -> option bytes) (v : list V) (i : nat) (s : bytes) (x : V) : Prop :=
  exists k, nth_error v (2 * i) = Some k /\ as_string k = Some s /\ nth_error v (2 * i + 1) = Some x.

Lemma dict_spec {V} (as_string : V -> option bytes) n : forall v m s, length v <= n ->
  (exists i x, gives as_string v i s x /\ get s (dict_from V as_string v m) = Some x /\
     forall j y, i < j -> ~ gives as_string v j s y) \/
  (get s (dict_from V as_string v m) = get s m /\ forall j y, ~ gives as_string v j s y).
Proof.
  induction n as [|n IH]; intros v m s L.
  - destruct v; [|cbn in L; lia]. right. split; [reflexivity|]. intros j y (k & H & _). now destruct (2 * j).
  - destruct v as [|k [|x v]].
    + right. split; [reflexivity|]. intros j y (k & H & _). now destruct (2 * j).
    + right. split; [reflexivity|]. intros j y (k' & _ & _ & H). rewrite Nat.add_comm in H. cbn in H. now destruct (j + (j + 0)).
    + cbn [dict_from]. assert (T : forall j y, gives as_string (k :: x :: v) (S j) s y <-> gives as_string v j s y).
      { intros j y. unfold gives. replace (2 * S j) with (S (S (2 * j))) by lia.
        replace (S (S (2 * j)) + 1) with (S (S (2 * j + 1))) by lia. cbn [nth_error]. reflexivity. }
      assert (Z : forall y, gives as_string (k :: x :: v) 0 s y <-> as_string k = Some s /\ x = y).
      { intros y. unfold gives. cbn. split; [intros (k' & [= <-] & A & [= <-]); now split|].
        intros [A ->]. now exists k. }
      destruct (IH v (match as_string k with Some s' => put s' x m | None => m end) s) as [(i & y & G & D & M)|[D M]];
        [cbn in L; lia| |].
      * left. exists (S i), y. split; [now apply T|]. split; [exact D|]. intros [|j] z J; [lia|]. rewrite T. apply M. lia.
      * rewrite D. destruct (as_string k) as [s'|] eqn:A; [destruct (list_eq_dec ascii_dec s' s) as [->|NE]|].
        -- left. exists 0, x. split; [now apply Z|]. split; [apply get_put_same|].
           intros [|j] y J; [lia|]. rewrite T. apply M.
        -- right. split; [now apply get_put_other|]. intros [|j] y; [rewrite Z; intros [[= E] _]; now destruct NE|].
           rewrite T. apply M.
        -- right. split; [reflexivity|]. intros [|j] y; [rewrite Z; now intros [? _]|]. rewrite T. apply M.
Qed.

(** A name stands for the value after its last mention as a key that has one. *)
Theorem C74_dict {V} (as_string : V -> option bytes) v s x :
  get s (dict V as_string v) = Some x <->
  exists i, gives as_string v i s x /\ forall j y, i < j -> ~ gives as_string v j s y.
Proof.
  destruct (dict_spec as_string (length v) v [] s (le_n _)) as [(i & y & G & D & M)|[D M]]; fold (dict V as_string v) in D; rewrite D.
  - split.
    + intros [= <-]. now exists i.
    + intros (j & H & J). destruct (Nat.lt_trichotomy i j) as [C|[<-|C]].
      * now destruct (M j x C).
      * destruct G as (k & _ & _ & G), H as (k' & _ & _ & H). congruence.
      * now destruct (J i y C).
  - split; [discriminate|]. intros (i & G & _). now destruct (M i x).
Qed.
Print Assumptions C74_dict.

Example C74_dict_ex : forall v, v = [B "top"; B "1"; B "title"; B "2"; B "top"; B "3"; B "odd"] ->
  let names := fun k : bytes => if beq k (B "title") then None else Some k in
  get (B "top") (dict bytes names v) = Some (B "3") /\ gives names v 2 (B "top") (B "3") /\
  get (B "title") (dict bytes names v) = None /\ get (B "odd") (dict bytes names v) = None.
Proof. intros v ->. split; [reflexivity|]. split; [|split; reflexivity]. now exists (B "top"). Qed.
