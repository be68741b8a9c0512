(** The fixes of internal/rules/no_unnecessary_type_assertion/no_unnecessary_type_assertion.go; line numbers are of this file.  Positions count bytes. *)
From Coq Require Import Bool Arith ZArith Ascii String List.
From Verif Require Import Base Fixer.
Import ListNotations.
Open Scope Z_scope.

(** utils.IsStrWhiteSpace (internal/utils/utils.go 168-185) of a single byte taken as a rune (534, 585): tab, line feed, vertical tab, form feed, carriage return, space, and 160, the no-break space of Zs. *)
Definition byte_space (c : ascii) : bool := match nat_of_ascii c with 9%nat | 10%nat | 11%nat | 12%nat | 13%nat | 32%nat | 160%nat => true | _ => false end.
(** 528-538: back from [p] over white space, not before [low]. *)
Fixpoint back (code : bstr) (low p : nat) : nat :=
  match p with
  | O => O
  | S q => if Nat.ltb q low then p else if byte_space (nth q code " "%char) then back code low q else p
  end.
(** 585-587: how many bytes of white space come first. *)
Fixpoint spaces (t : bstr) : nat := match t with [] => O | c :: t => if byte_space c then S (spaces t) else O end.
(** strings.LastIndex (579-580). *)
Fixpoint prefix (pat t : bstr) : bool :=
  match pat, t with [], _ => true | p :: pat, c :: t => Ascii.eqb p c && prefix pat t | _ :: _, [] => false end.
Fixpoint last_index (pat t : bstr) : option nat :=
  match t with
  | [] => if prefix pat [] then Some O else None
  | _ :: r => match last_index pat r with Some i => Some (S i) | None => if prefix pat t then Some O else None end
  end.
(** Positions of an assertion with as: the end of the expression, the token as, the type without and with what comes before it. *)
Record as_places := { expression_end : nat; as_pos : nat; as_end : nat; type_pos : nat; type_end : nat }.
Definition remove (p q : nat) : fix_ ascii := mkFix [] (Z.of_nat p) (Z.of_nat q).

Section Fixes.
(** utils.IsStringWhiteSpace (utils.go 187-194) of a text. *)
Context (blank : bstr -> bool).
Definition slice (code : bstr) (p q : nat) : bstr := firstn (q - p) (skipn p code).
(** 523-557 *)
Definition as_fixes (code : bstr) (a : as_places) : list (fix_ ascii) :=
  let p := back code (expression_end a) (as_pos a) in
  if Nat.ltb (type_pos a) (as_end a) then [remove (expression_end a) (type_end a)]
  else if negb (blank (slice code (as_end a) (type_pos a))) then [remove p (as_end a); remove (type_pos a) (type_end a)]
  else [remove p (type_end a)].
End Fixes.
(** 559-564, 621-637: from the opening bracket to the end of the closing one. *)
Definition angle_fixes (opening closing_end : nat) : list (fix_ ascii) := [remove opening closing_end].
(** 578-601: the last comment for documentation in the text between [start] and the expression, with the white space after it. *)
Definition comment_fixes (code : bstr) (start expression_pos : nat) : option (list (fix_ ascii)) :=
  let t := slice code start expression_pos in
  match last_index (b "/**") t, last_index (b "*/") t with
  | Some i, Some j => if Nat.leb i j then Some [remove (start + i) (start + j + 2 + spaces (skipn (j + 2) t))] else None
  | _, _ => None
  end.
(** 567-639 for an assertion in angle brackets: its type is before the expression, so comments are looked for (572); [start] is that of 573-576. *)
Definition angle_report (code : bstr) (start expression_pos opening closing_end : nat) : list (fix_ ascii) :=
  match comment_fixes code start expression_pos with Some fs => fs | None => angle_fixes opening closing_end end.
(** 1058-1068: the text of the innermost expression without parentheses; in parentheses if it is an object literal and the assertion is the body of an arrow function. *)
Definition double_fixes (original : bstr) (object body_of_arrow : bool) (node_pos node_end : nat) : list (fix_ ascii) :=
  [mkFix (if object && body_of_arrow then b "(" ++ original ++ b ")" else original) (Z.of_nat node_pos) (Z.of_nat node_end)].
(** 1151-1158 *)
Definition bang_fixes (bang : nat) : list (fix_ ascii) := [remove bang (bang + 1)].
