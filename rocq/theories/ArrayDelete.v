(** no-array-delete (internal/rules/no_array_delete/no_array_delete.go): which delete expressions are reported and the text of the suggestion.  Line numbers are of this file. *)
From Coq Require Import Bool Arith ZArith Ascii String List.
From Verif Require Import Base Fixer.
Import ListNotations.
Open Scope Z_scope.

(** Types: one that is no union or intersection, with whether it is an array or tuple; unions and intersections. *)
Inductive ty := Plain (array : bool) (k : nat) | UnionT (l : list ty) | InterT (l : list ty).
(** checker.Checker_isArrayOrTupleType: not of a union or intersection. *)
Definition array_or_tuple (t : ty) : bool := match t with Plain a _ => a | _ => false end.
(** 27-47 *)
Definition underlying_array (t : ty) : bool :=
  match t with
  | UnionT l => forallb array_or_tuple l
  | InterT l => existsb array_or_tuple l
  | t => array_or_tuple t
  end.
(** What is deleted: an element of something of a type, anything else; in parentheses. *)
Inductive operand := Element (of : ty) | Parentheses (o : operand) | OtherOperand.
(** 51: ast.SkipParentheses. *)
Fixpoint skip (o : operand) : operand := match o with Parentheses o => skip o | o => o end.
(** 50-63 *)
Definition reported (o : operand) : bool := match skip o with Element t => underlying_array t | _ => false end.

(** The text of a file: tokens, and what is between them (space and comments). *)
Inductive element := Tok (t : bstr) | Space (t : bstr).
Definition etext (e : element) : bstr := match e with Tok t => t | Space t => t end.
Definition text (l : list element) : bstr := flat_map etext l.
(** scanner.GetRangeOfTokenAtPosition: the range of the first token from a position on (which is always where a token or space begins). *)
Fixpoint token_at (p : Z) (l : list element) (pos : Z) : Z * Z :=
  match l with
  | [] => (p, p)
  | e :: l => match e with
      | Tok t => if pos <=? p then (p, p + zlen t) else token_at (p + zlen t) l pos
      | Space t => token_at (p + zlen t) l pos
      end
  end.
(** 65-88: from where the node begins (with the space before it), where the array and the index end. *)
Definition fixes (file : list element) (node_pos array_end index_end : Z) : list (fix_ ascii) :=
  let '(d1, d2) := token_at 0 file node_pos in
  let '(l1, l2) := token_at 0 file array_end in
  let '(r1, r2) := token_at 0 file index_end in
  [mkFix [] d1 d2; mkFix (b ".splice(") l1 l2; mkFix (b ", 1)") r1 r2].
