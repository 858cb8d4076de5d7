(** Vocabulary for the introductions of handlers in the text of a verification run
    and for what should be known of them afterwards. *)

From Coq Require Import Ascii String List NArith Bool.
From Verif Require Import Bytes GoSort Regex Warnings WarnParser SpecReport Summary.
Import ListNotations.
Local Open Scope list_scope.

(** ** The text *)

(** Either the introduction of a handler or another line. *)
Inductive said : Type :=
| Intro (c : creator)
| Talk (s : bytes).

Definition says (x : said) (out : bytes) : Prop :=
  match x with Intro c => setup_suite c out | Talk s => out = s ++ [newline] end.

(** A link that can be read back: name and target are clean text, and the name does
    not contain the arrow. *)
Definition clean (s : bytes) : Prop := s <> [] /\ one_line s /\ starts_clean s /\ ends_clean s.
Definition good_link (x : bytes * bytes) : Prop :=
  clean (fst x) /\ clean (snd x) /\ forall a b, fst x <> a ++ B "-->" ++ b.

(** Other lines do not begin like a report, like its end or like an introduction. *)
Definition said_ok (x : said) : Prop :=
  match x with
  | Intro c => clean (cr_name c) /\ Forall good_link (cr_links c) /\ NoDup (map fst (cr_links c))
  | Talk s => one_line s /\
      forall a b, (forall c, In c a -> whitespace c \/ c = chr 35) ->
        s <> a ++ B "Warnings" ++ b /\ s <> a ++ B "Handlers" ++ b /\ s <> a ++ B ":[" ++ b
  end.

(** ** What is kept *)

Definition white (c : ascii) : bool := existsb (Ascii.eqb c) [tab; newline; chr 12; creturn; space].
Fixpoint lead (s : bytes) : bytes := match s with c :: t => if white c then lead t else s | [] => [] end.
(** Without whitespace at either end. *)
Definition trimmed (s : bytes) : bytes := rev (lead (rev (lead s))).

(** The paragraph: all lines, trimmed, up to the first without text. *)
Fixpoint paragraph (ls : list bytes) : list bytes :=
  match ls with
  | [] => []
  | l :: ls' => match trimmed l with [] => [] | t => t :: paragraph ls' end
  end.
Definition one_paragraph (ls : list bytes) : bool :=
  forallb (fun l => match trimmed l with [] => false | _ => true end) ls.

Fixpoint below (ls : list bytes) : bytes :=
  match ls with [] => [] | [l] => l | l :: ls' => l ++ newline :: below ls' end.

(** The summary is kept up to a line without text, the links if there is no such
    line. *)
Definition summary_kept (c : creator) : bytes := below (paragraph (split_on newline (cr_summary c))).
Definition link_kept (c : creator) (k : bytes) : option bytes :=
  if one_paragraph (split_on newline (cr_summary c)) then get k (cr_links c) else None.

(** The last introduction for a tag: of a creator with a summary whose name belongs
    to the tag. *)
Fixpoint introduced (lookup : gomap bytes) (xs : list said) (h : bytes) : option creator :=
  match xs with
  | [] => None
  | x :: xs' =>
      match introduced lookup xs' h with
      | Some c => Some c
      | None =>
          match x with
          | Intro c => match cr_summary c, get (cr_name c) lookup with
                       | _ :: _, Some t => if beq t h then Some c else None
                       | _, _ => None
                       end
          | Talk _ => None
          end
      end
  end.

(** What is known after introductions: of the tag of an introduced handler the
    summary and the links of its last introduction; nothing else is changed. *)
Definition name_kept (w : wdata) (h : bytes) : bytes :=
  match get h (handler_data w) with Some d => hd_name d | None => [] end.
Record knows (lookup : gomap bytes) (xs : list said) (w w' : wdata) : Prop := {
  knows_introduced : forall h c, introduced lookup xs h = Some c ->
    exists d, get h (handler_data w') = Some d /\ hd_name d = name_kept w h /\
              hd_summary d = summary_kept c /\ forall k, get k (hd_links d) = link_kept c k;
  knows_others : forall h, introduced lookup xs h = None -> get h (handler_data w') = get h (handler_data w);
  knows_warnings : by_handler w' = by_handler w /\ by_test w' = by_test w /\ by_warning w' = by_warning w /\
                   test_names w' = test_names w
}.
