(** Concrete surroundings for the checks of the benchmark suite, used to show that
    the hypotheses of the theorems can be met. *)

From Coq Require Import Ascii String List ZArith NArith Bool Arith Lia QArith Qcanon.
From Verif Require Import Bytes BytesProofs GoSort Json Slog Replace PropReplace Warnings BenchChecks SpecChecks ChecksProofs.
Import ListNotations.
Local Open Scope nat_scope.
Local Open Scope list_scope.

Definition num0 (t : bytes) : option Qc :=
  match t with
  | c :: d => if Ascii.eqb c (chr 45) then Some (Q2Qc (inject_Z (- Z.of_N (dec_value d))))
              else Some (Q2Qc (inject_Z (Z.of_N (dec_value t))))
  | [] => None
  end.

Lemma num0_int z : num0 (dec_of_Z z) = Some (Q2Qc (inject_Z z)).
Proof.
  assert (P : forall n, num0 (dec_of_N n) = Some (Q2Qc (inject_Z (Z.of_N n)))).
  { intros n. pose proof (dec_of_N_value n) as V. pose proof (dec_of_N_not_minus n) as D.
    destruct (dec_of_N n) as [|c d] eqn:X; [destruct D|].
    unfold num0. now rewrite D, V. }
  destruct z as [|p|p]; cbn [dec_of_Z].
  - apply (P 0%N).
  - rewrite P. do 4 f_equal.
  - unfold num0. cbn [Ascii.eqb]. rewrite Ascii.eqb_refl, dec_of_N_value. reflexivity.
Qed.

Lemma num0_ok : num_ok num0.
Proof. split; intros z _; rewrite num0_int; [reflexivity|discriminate]. Qed.

Definition marshal0 (v : dyn) : option bytes :=
  match v with
  | DNull => Some (B "null")
  | DBool b => Some (if b then B "true" else B "false")
  | DStr s => Some (quote :: s ++ [quote])
  | DArr [] => Some (B "[]")
  | DMap _ => Some (B "{}")
  | _ => None
  end.

Definition unmarshal0 (b : bytes) : log_map * option bytes :=
  match parse_json b with
  | Some (JObj fs) =>
      match decode num0 (JObj fs) with
      | Some (DMap m) => (Some m, None)
      | _ => (None, Some (B "number out of range"))
      end
  | Some JNull => (None, None)
  | Some _ => (None, Some (B "json: cannot unmarshal into Go value of type map[string]interface {}"))
  | None => (None, Some (B "invalid character"))
  end.

Definition env0 (use : bool) : env :=
  {| e_use := use; e_fn := B "BenchmarkTest"; e_casing := casing0; e_marshal := marshal0; e_unmarshal := unmarshal0;
     e_show := fun _ => B "?" |}.

Lemma env0_marshal use : marshal_ok (env0 use).
Proof.
  intros v w H. inversion H; subst; try reflexivity. cbn. inversion H0; subst; reflexivity.
Qed.

Lemma env0_unmarshal use : unmarshal_ok num0 (env0 use).
Proof.
  intros b fs m P D. exists m. cbn [env0 e_unmarshal]. unfold unmarshal0. rewrite P, D. split; [reflexivity|].
  split; [now apply (decode_valid num0 (JObj fs))|apply same_refl].
Qed.

Definition manager0 (only : list warning) : manager :=
  {| m_name := B "m"; m_prefix := B "# "; m_predefined := []; m_only := map w_name only; m_warnings := [] |}.

Lemma unheeded0 : unheeded (manager0 []).
Proof. intros n _ []. Qed.

(** A checker of [valid] for concrete values. *)
Fixpoint no_dups (l : list bytes) : bool :=
  match l with [] => true | x :: l' => negb (existsb (beq x) l') && no_dups l' end.
Fixpoint validb (v : dyn) : bool :=
  match v with
  | DArr l => (fix go (l : list dyn) : bool := match l with [] => true | x :: l' => validb x && go l' end) l
  | DMap l => no_dups (map fst l) &&
              (fix go (l : list (bytes * dyn)) : bool := match l with [] => true | (k, x) :: l' => validb x && go l' end) l
  | _ => true
  end.
Lemma no_dups_ok l : no_dups l = true -> NoDup l.
Proof.
  induction l as [|x l IH]; cbn; [constructor|]. rewrite andb_true_iff, negb_true_iff. intros [H T]. constructor; [|auto].
  intros I. assert (existsb (beq x) l = true); [|congruence]. apply existsb_exists. exists x. split; [exact I|apply beq_refl].
Qed.
Lemma validb_ok v : validb v = true -> valid v.
Proof.
  induction v using dyn_rect'; intros X; try constructor.
  - induction H; constructor; cbn in X; apply andb_true_iff in X; destruct X as [X1 X2]; auto.
  - cbn in X. apply andb_true_iff in X. apply no_dups_ok. tauto.
  - cbn in X. apply andb_true_iff in X. destruct X as [_ X]. induction H as [|[k x] l Hx Hl IH]; constructor; cbn in X;
      apply andb_true_iff in X; destruct X as [X1 X2]; auto.
Qed.
