(** Concrete data used to show that the hypotheses of the theorems can be met. *)

From Coq Require Import Ascii String List ZArith NArith Bool.
From Verif Require Import Bytes BytesProofs Json JsonProofs Slog SpecLog SpecFlash Flash EscapeProofs TextProofs FlashProofs.
Import ListNotations.

Definition member (s : bool) (k : string) (t : bytes) : bytes :=
  sep s ++ quote :: B k ++ quote :: B ": " ++ t.

Definition object3 (k1 : string) (t1 : bytes) (k2 : string) (t2 : bytes) (k3 : string) (t3 : bytes) : bytes :=
  brace :: (member false k1 t1 ++ member true k2 t2 ++ member true k3 t3) ++ [chr 125].

(** A standard library that marshals every group to an array. *)
Definition std0 : stdlib :=
  {| sl_marshal v :=
       match v with
       | VBool b => MOk (if b then B "true" else B "false")
       | VInt64 z => MOk (dec_of_Z z)
       | VUint64 n => MOk (dec_of_N n)
       | VString s => MOk (string_buf happ [] s)
       | VFloat64 (FFin t) => MOk t
       | VGroup l => MOk (B "[]")
       | _ => MErr (B "unsupported")
       end;
     sl_duration z := dec_of_Z z ++ B "ns";
     sl_source_struct s :=
       MOk (object3 "function" (string_buf happ [] (src_function s))
              "file" (string_buf happ [] (src_file s)) "line" (dec_of_Z (src_line s)));
     sl_source_map s :=
       MOk (object3 "file" (string_buf happ [] (src_file s))
              "function" (string_buf happ [] (src_function s)) "line" (dec_of_Z (src_line s)));
     sl_print r := N.leb 161 r |}.

Lemma string_vtext s : valid_utf8 s = true -> vtext (JStr s) (string_buf happ [] s).
Proof.
  intros V. destruct (utf8_escapes s V) as (e & E & Ve).
  rewrite string_buf_escape, (escape_framed [] s e E). cbn [app].
  apply vtext_str; [|apply escapes_body; auto].
  unfold clean. rewrite Ve, andb_true_r. exact (escapes_no_ctl s e E).
Qed.

Lemma vtext_marshalled j t : vtext j t -> marshalled (MOk t) = Some j.
Proof. intros H. unfold marshalled. rewrite (proj1 H). apply vtext_parses. exact H. Qed.

Lemma member_FT s k j t : plain (B k) = true -> vtext j t -> FT s [(B k, j)] (member s k t).
Proof. intros P H. apply FT_one; auto; [apply plain_clean|apply plain_body_self]; auto. Qed.

Lemma object3_vtext k1 j1 t1 k2 j2 t2 k3 j3 t3 :
  plain (B k1) = true -> plain (B k2) = true -> plain (B k3) = true ->
  vtext j1 t1 -> vtext j2 t2 -> vtext j3 t3 ->
  vtext (JObj [(B k1, j1); (B k2, j2); (B k3, j3)]) (object3 k1 t1 k2 t2 k3 t3).
Proof.
  intros P1 P2 P3 V1 V2 V3. apply FT_obj.
  apply (FT_app false [_] _ [_; _] _); [apply member_FT; auto|].
  apply (FT_app true [_] _ [_] _); apply member_FT; auto.
Qed.

Lemma std0_ok : stdlib_ok std0.
Proof.
  split; try reflexivity.
  - intros s V. apply vtext_marshalled, string_vtext, V.
  - intros s V1 V2. apply vtext_marshalled, object3_vtext; try reflexivity;
      try (apply string_vtext; auto). apply vtext_num, is_num_dec_Z.
  - intros s V1 V2. apply vtext_marshalled, object3_vtext; try reflexivity;
      try (apply string_vtext; auto). apply vtext_num, is_num_dec_Z.
Qed.

Definition time0 : gotime :=
  {| t_zero := false; t_format := fun _ => B "2024-03-01T10:00:00Z"; t_string := B "2024-03-01 10:00:00 UTC" |}.

Definition no_time : gotime := {| t_zero := true; t_format := fun _ => []; t_string := [] |}.

Definition source0 : source :=
  {| src_function := B "main.main"; src_file := B "/tmp/a b.go"; src_line := 42 |}.

Definition record0 (attrs : list attr) : record :=
  {| r_time := time0; r_level := 4; r_msg := B "hello ""world"""; r_source := Some source0; r_attrs := attrs |}.

(** A record of level Info without time. *)
Definition record1 (attrs : list attr) : record :=
  {| r_time := no_time; r_level := 0; r_msg := B "m"; r_source := None; r_attrs := attrs |}.

Definition obj0 : any_obs := plain_obs (MOk (B "{""a"":[1,2]}")).
Definition bad_obj : any_obs := plain_obs (MErr (B "json: unsupported type")).

Definition options0 (rep : option attr_fn) : options := {| o_add_source := true; o_replace := rep |}.
Definition options1 (rep : option attr_fn) : options := {| o_add_source := false; o_replace := rep |}.

(** Attributes of many kinds, nested, with empty ones. *)
Definition attrs0 : list attr :=
  [ (B "n", VInt64 (-7)); ([], VAny AnyNil); (B "empty", VGroup [([], VAny AnyNil); (B "e", VGroup [])]);
    ([], VGroup [(B "inl", VBool true); (B "deep", VGroup [(B "f", VFloat64 (FFin (B "1.5"))); (B "t", VTime time0)])]);
    (B "any", VAny (AnyObj obj0)); (B "lv", VLogValuer (VLogValuer (VString (B "tab	")) obj0) obj0);
    (B "key ""q""", VDuration 5); (B "nil", VAny AnyNil) ].

(** A ReplaceAttr function that drops the attribute with key [k] and renames msg. *)
Definition drop_key (k : string) : attr_fn := fun _ a =>
  if beq (fst a) (B k) then empty_attr
  else if beq (fst a) (B "msg") then (B "message", snd a) else a.

(** Running a derivation and a Handle call. *)
Definition run (std : stdlib) (n : nat) (o : options) (x : option extras) (ops : list op) (d : dead)
    (r : record) : option outcome :=
  match derive std n (HBase (new_handler o x)) ops with
  | Some g => handle_hdl std n d g r
  | None => None
  end.

Lemma run_logs n std o x ops d r out : run std n o x ops d r = Some out -> logs std o x ops d r out.
Proof.
  unfold run. destruct (derive std n (HBase (new_handler o x)) ops) as [g|] eqn:D; [|discriminate].
  intros H. eapply logs_intro; eauto.
Qed.
