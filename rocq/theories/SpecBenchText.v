(** Vocabulary for the whole output of a benchmark run: result lines, the lines
    that define the name of a handler, comment lines with the text of warnings,
    and noise; and what should be known of names and texts after reading it. *)

From Coq Require Import Ascii String List NArith QArith Bool.
From Verif Require Import Bytes GoSort Regex WarnParser SpecReport Bench SpecBench.
Import ListNotations.
Local Open Scope list_scope.

Inductive text_line : Type :=
| Run (gap : nat -> bytes) (r : result)
| Define (tag name : bytes)
| Comment (s : bytes)
| Noise (s : bytes).

(** As printed: bench/tests/suite.go 91 and, with the prefix of the benchmark
    suite, infra/warning/manager.go 278-331. *)
Definition show_line (l : text_line) : bytes :=
  match l with
  | Run g r => result_line g r
  | Define tag name => B "# Handler[" ++ tag ++ B "]=""" ++ name ++ B """"
  | Comment s => B "# " ++ s
  | Noise s => s
  end.
Definition whole_text (ls : list text_line) : bytes := concat (map (fun l => show_line l ++ [newline]) ls).

Definition one_word (s : bytes) : Prop := s <> [] /\ forall c, In c s -> ~ whitespace c.

(** A defined name has no bracket, a comment does not look like a definition, and
    noise looks like nothing else. *)
Definition text_ok (pf : bytes -> option Q) (l : text_line) : Prop :=
  match l with
  | Run g r => gap_ok g /\ result_ok pf r
  | Define tag name => one_word tag /\ one_word name /\ ~ In "]"%char name
  | Comment s => one_line s /\ (forall t, s <> t ++ [creturn]) /\
                 (forall w t, (forall c, In c w -> whitespace c) -> s <> w ++ B "Handler[" ++ t)
  | Noise s => one_line s /\ (forall t, s <> B "Benchmark" ++ t) /\ (forall t, s <> chr 35 :: t)
  end.

(** ** What is known afterwards *)

(** The comments. *)
Definition comments (ls : list text_line) : list bytes :=
  concat (map (fun l => match l with Comment s => [s] | _ => [] end) ls).

(** Lines one below the other. *)
Fixpoint lines_joined (ls : list bytes) : bytes :=
  match ls with [] => [] | [l] => l | l :: ls' => l ++ newline :: lines_joined ls' end.
Fixpoint from_text (ls : list bytes) : list bytes :=
  match ls with [] => [] | [] :: ls' => from_text ls' | _ => ls end.

(** The text of warnings: the comments one below the other, below what there was;
    empty comments before any other text do not count. *)
Definition text_known (before : bytes) (cs : list bytes) : bytes :=
  match before with [] => lines_joined (from_text cs) | _ => lines_joined (before :: cs) end.

(** The name defined last for a tag. *)
Fixpoint defined (ls : list text_line) (tag : bytes) : option bytes :=
  match ls with
  | [] => None
  | l :: ls' =>
      match defined ls' tag with
      | Some n => Some n
      | None => match l with Define t n => if beq t tag then Some n else None | _ => None end
      end
  end.

(** The tags of handlers and tests with results; the number of CPUs of the last
    result of a test. *)
Definition tested_handler (ls : list text_line) (h : bytes) : bool :=
  existsb (fun l => match l with Run _ r => beq (rs_handler r) h | _ => false end) ls.
Fixpoint cpus_known (ls : list text_line) (test : bytes) : option N :=
  match ls with
  | [] => None
  | l :: ls' =>
      match cpus_known ls' test with
      | Some n => Some n
      | None => match l with Run _ r => if beq (rs_test r) test then Some (rs_cpus r) else None | _ => None end
      end
  end.

(** The name of a handler: as defined last; without definition, as it was; else
    made from its tag if there are results. *)
Definition name_known (v : world) (before : option bytes) (ls : list text_line) (h : bytes) : option bytes :=
  match defined ls h, before with
  | Some n, _ => Some n
  | None, Some n => Some n
  | None, None => if tested_handler ls h then Some (handler_name v h) else None
  end.
