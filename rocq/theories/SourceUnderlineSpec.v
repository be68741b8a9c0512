(** C114: what an underline is to mark, said without the functions that compute it. *)
From Coq Require Import Bool Arith Ascii String List.
From Verif Require Import Base.
From Verif Require Import SourceUnderline.
Import ListNotations.
Local Open Scope list_scope.

(** Column [k] of the line as it is shown belongs to its character number [i]: four columns for a tab, one for any other. *)
Inductive covers : bstr -> nat -> nat -> Prop :=
| covers_one c l : covers (c :: l) 0 0
| covers_tab l k : k < 4 -> covers (tab :: l) 0 k
| covers_after_tab l i k : covers l i k -> covers (tab :: l) (S i) (4 + k)
| covers_after c l i k : c <> tab -> covers l i k -> covers (c :: l) (S i) (1 + k).

(** One place of (line, column) before another. *)
Definition before (p q : nat * nat) : Prop := fst p < fst q \/ (fst p = fst q /\ snd p < snd q).
(** Character [j] of line [i] is between two places. *)
Definition between (first last : nat * nat) (i j : nat) : Prop := ~ before (i, j) first /\ before (i, j) last.

(** Line and column of a position in a text whose lines end with "\n" alone. *)
Inductive located : bstr -> nat -> nat * nat -> Prop :=
| located_here s : located s 0 (0, 0)
| located_newline s p i j : located s p (i, j) -> located (newline :: s) (S p) (S i, j)
| located_same c s p j : c <> newline -> located s p (0, j) -> located (c :: s) (S p) (0, S j)
| located_later c s p i j : c <> newline -> located s p (S i, j) -> located (c :: s) (S p) (S i, j).

(** The lines of a text. *)
Inductive lines : bstr -> list bstr -> Prop :=
| lines_last l : ~ In newline l -> lines l [l]
| lines_more l s ls : ~ In newline l -> lines s ls -> lines (l ++ newline :: s) (l :: ls).

Definition white (c : ascii) : Prop := c = " "%char \/ c = tab \/ c = newline \/ c = return_.
(** The range without what is blank at its front. *)
Definition trimmed (code : bstr) (pos end_ start : nat) : Prop :=
  pos <= start /\ start <= Nat.max pos end_ /\
  (forall p, pos <= p < start -> exists c, nth_error code p = Some c /\ white c) /\
  (start < end_ -> forall c, nth_error code start = Some c -> ~ white c).

(** A number written in decimal digits, without zeros in front of more digits. *)
Inductive numeral : bstr -> nat -> Prop :=
| numeral_digit d : d < 10 -> numeral [ascii_of_nat (48 + d)] d
| numeral_more s n d : numeral s n -> 0 < n -> d < 10 -> numeral (s ++ [ascii_of_nat (48 + d)]) (10 * n + d).
