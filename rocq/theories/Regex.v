(** Regular expressions with the leftmost-first (Perl-like) meaning of Go's
    package regexp, as far as the patterns of the repository need them.

    Go matches runes, the model bytes.  Every class used is a set of ASCII
    characters or the complement of one, and multi-byte characters can only be
    met under an unbounded repetition, so that matches and submatches are the
    same. *)

From Coq Require Import Ascii String List ZArith NArith Bool Arith.
From Verif Require Import Bytes.
Import ListNotations.

Inductive re : Type :=
| RChr (p : ascii -> bool)          (* one character of a class *)
| REmpty
| RSeq (a b : re)
| RAlt (a b : re)                   (* the left alternative is preferred *)
| RStar (greedy : bool) (a : re)
| RGroup (n : nat) (a : re)         (* capturing parenthesis number n *)
| RBol                              (* ^ : beginning of the text *)
| REol                              (* $ : end of the text *)
| RWord.                            (* \b *)

(** ** Abbreviations *)

Definition is_char (c : ascii) : ascii -> bool := fun d => Ascii.eqb c d.
(** \s *)
Definition is_space (c : ascii) : bool :=
  match c with
  | "009"%char | "010"%char | "012"%char | "013"%char | " "%char => true
  | _ => false
  end.
(** . *)
Definition is_dot (c : ascii) : bool := negb (Ascii.eqb c newline).
(** \w *)
Definition is_word (c : ascii) : bool :=
  is_digit c || btw 65 90 c || btw 97 122 c || N.eqb (code c) 95.

Fixpoint rlit (s : bytes) : re :=
  match s with [] => REmpty | c :: s' => RSeq (RChr (is_char c)) (rlit s') end.
Definition lit (s : string) : re := rlit (B s).
Definition rstar := RStar true.
Definition rplus (a : re) : re := RSeq a (RStar true a).
Definition ropt (a : re) : re := RAlt a REmpty.
Definition ws := rstar (RChr is_space).
Definition ws1 := rplus (RChr is_space).
Definition digits1 := rplus (RChr is_digit).
Fixpoint rcat (l : list re) : re :=
  match l with [] => REmpty | r :: l' => RSeq r (rcat l') end.

(** ** Matching *)

(** Where a match has got to: submatches so far (latest first), the character
    before, what is left. *)
Record mstate : Type := {
  m_caps : list (nat * bytes);
  m_prev : option ascii;
  m_rest : bytes
}.

Definition word_at (o : option ascii) : bool := match o with Some c => is_word c | None => false end.

Definition captured (n : nat) (s s' : mstate) : mstate :=
  {| m_caps := (n, firstn (length (m_rest s) - length (m_rest s')) (m_rest s)) :: m_caps s';
     m_prev := m_prev s'; m_rest := m_rest s' |}.

(** All ways to match, the preferred first.  A repetition stops at an iteration
    that consumes nothing. *)
Fixpoint ms (r : re) (s : mstate) : list mstate :=
  match r with
  | RChr p =>
      match m_rest s with
      | c :: t => if p c then [{| m_caps := m_caps s; m_prev := Some c; m_rest := t |}] else []
      | [] => []
      end
  | REmpty => [s]
  | RSeq a b => flat_map (ms b) (ms a s)
  | RAlt a b => ms a s ++ ms b s
  | RStar greedy a =>
      (fix go (n : nat) (s : mstate) : list mstate :=
         match n with
         | O => [s]
         | S n' =>
             let more := flat_map (go n')
               (filter (fun s' => Nat.ltb (length (m_rest s')) (length (m_rest s))) (ms a s)) in
             if greedy then more ++ [s] else s :: more
         end) (length (m_rest s)) s
  | RGroup n a => map (captured n s) (ms a s)
  | RBol => match m_prev s with None => [s] | Some _ => [] end
  | REol => match m_rest s with [] => [s] | _ => [] end
  | RWord =>
      if xorb (word_at (m_prev s)) (word_at (hd_error (m_rest s))) then [s] else []
  end.

(** A match: what precedes it, the text matched, the submatches, what follows. *)
Record found : Type := { f_before : bytes; f_text : bytes; f_caps : list (nat * bytes); f_after : bytes }.

(** Search from a position on. *)
Fixpoint search (r : re) (before : bytes) (prev : option ascii) (s : bytes) : option found :=
  match ms r {| m_caps := []; m_prev := prev; m_rest := s |} with
  | s' :: _ => Some {| f_before := before;
                       f_text := firstn (length s - length (m_rest s')) s;
                       f_caps := m_caps s';
                       f_after := m_rest s' |}
  | [] => match s with
          | [] => None
          | c :: t => search r (before ++ [c]) (Some c) t
          end
  end.

(** FindSubmatch and relatives. *)
Definition find (r : re) (s : bytes) : option found := search r [] None s.

(** matches[n]; the empty string if the group took no part. *)
Fixpoint lookup_cap (n : nat) (caps : list (nat * bytes)) : bytes :=
  match caps with
  | [] => []
  | (m, t) :: rest => if Nat.eqb m n then t else lookup_cap n rest
  end.
Definition sub (n : nat) (f : found) : bytes := lookup_cap n (f_caps f).

(** Match. *)
Definition matches (r : re) (s : bytes) : bool := match find r s with Some _ => true | None => false end.

(** Regexp.Split with a negative count, for patterns that do not match the empty
    string.  [n] bounds the number of matches. *)
Fixpoint re_split_n (n : nat) (r : re) (s : bytes) : list bytes :=
  match n with
  | O => [s]
  | S n' =>
      match find r s with
      | None => [s]
      | Some f => f_before f :: re_split_n n' r (f_after f)
      end
  end.
Definition re_split (r : re) (s : bytes) : list bytes := re_split_n (length s) r s.

(** ** The functions of packages strings and bytes used with them *)

(** strings.Split with a separator of one character. *)
Fixpoint split_on (c : ascii) (s : bytes) : list bytes :=
  match s with
  | [] => [[]]
  | x :: t => if Ascii.eqb x c then [] :: split_on c t
              else match split_on c t with
                   | p :: ps => (x :: p) :: ps
                   | [] => [[x]]
                   end
  end.

(** strings.TrimLeft, TrimRight and Trim with a cutset of one character. *)
Fixpoint trim_left (c : ascii) (s : bytes) : bytes :=
  match s with x :: t => if Ascii.eqb x c then trim_left c t else s | [] => [] end.
Definition trim_right (c : ascii) (s : bytes) : bytes := rev (trim_left c (rev s)).
Definition trim (c : ascii) (s : bytes) : bytes := trim_right c (trim_left c s).
