(** use-unknown-in-catch-callback-variable (internal/rules/use_unknown_in_catch_callback_variable/use_unknown_in_catch_callback_variable.go): which functions are reported, and what is suggested.  Line numbers are of this file if no other is named. *)
From Coq Require Import Bool Arith ZArith Ascii String List.
From Verif Require Import Base Fixer.
Import ListNotations.
Open Scope Z_scope.

(** Types of parameters: unknown, arrays, tuples, others. *)
Inductive ty := Unknown | Arr (e : ty) | Tuple (l : list ty) | OtherT.
(** A parameter of a signature: whether it is declared with ... (77), and its type (74). *)
Record sparam := { dots : bool; stype : ty }.
(** What a parameter is named by (189): an identifier, an array pattern, an object pattern. *)
Inductive name_kind := Ident | ArrayPat | ObjectPat.
(** A parameter in the source text (162-165): ..., a type annotation, a question mark. *)
Record decl := { ddots : bool; annotated : bool; question : bool; dname : name_kind }.
(** A function expression: the call signatures of all union parts of its type in their order (65-66), the parameters as written, which for a this parameter are more than those of the signatures, and whether it is an arrow function without parentheses (internal/utils/ts_eslint.go, 602-610). *)
Record func := { fid : nat; signatures : list (list sparam); parameters : list decl; parenless : bool }.
(** Expressions in the place of a handler. *)
Inductive expr :=
| Fun (f : func)
| Logical (l r : expr)
| Comma (l r : expr)
| Cond (c t f : expr)
| Paren (e : expr)
| Else (k : nat).

(** 64-91; None: the program panics, on an index that is out of range (82). *)
Fixpoint flaggable (l : list (list sparam)) : option bool :=
  match l with
  | [] => Some false
  | [] :: l => flaggable l
  | (p :: _) :: l =>
      if dots p then
        match stype p with
        | Arr e => match e with Unknown => flaggable l | _ => Some true end
        | Tuple [] => None
        | Tuple (e :: _) => match e with Unknown => flaggable l | _ => Some true end
        | _ => Some true
        end
      else match stype p with Unknown => flaggable l | _ => Some true end
  end.
(** 93-114 *)
Fixpoint collect (e : expr) : option (list func) :=
  match e with
  | Paren e => collect e
  | Logical l r => match collect l, collect r with Some x, Some y => Some (x ++ y) | _, _ => None end
  | Comma _ r => collect r
  | Cond _ t f => match collect t, collect f with Some x, Some y => Some (x ++ y) | _, _ => None end
  | Fun f => match flaggable (signatures f) with None => None | Some true => Some [f] | Some false => Some [] end
  | Else _ => Some []
  end.

(** A call (116-118): whether the callee is an access and the name in it, if known (120-127), the arguments, and whether the object is thenable (157). *)
Inductive arg := Spread (e : expr) | Plain (e : expr).
Record call := { access : bool; property : option bstr; arguments : list arg; thenable : bool }.
(** 132-140 *)
Definition handler_index (n : bstr) : option nat :=
  if beqb n (b "catch") then Some 0%nat else if beqb n (b "then") then Some 1%nat else None.
(** 148-155: whether there is a spread up to the index. *)
Fixpoint spread_up_to (k : nat) (l : list arg) : bool :=
  match l with
  | [] => false
  | Spread _ :: _ => true
  | Plain _ :: l => match k with O => false | S k => spread_up_to k l end
  end.
(** 116-161: the functions that are flagged. *)
Definition flagged (c : call) : option (list func) :=
  if negb (access c) then Some []
  else match property c with
  | None => Some []
  | Some n =>
      match handler_index n with
      | None => Some []
      | Some k =>
          if Nat.ltb (List.length (arguments c)) (k + 1) then Some []
          else if spread_up_to k (arguments c) then Some []
          else if negb (thenable c) then Some []
          else match nth_error (arguments c) k with
               | Some (Plain e) | Some (Spread e) => collect e
               | None => None
               end
      end
  end.
(** What is reported (167-226): with a suggestion or without. *)
Inductive advice := Add_rest | Wrong_rest | Add | Wrong | Array_pattern | Object_pattern.
Definition advice_for (d : decl) : advice :=
  if ddots d then (if annotated d then Wrong_rest else Add_rest)
  else match dname d with
  | Ident => if annotated d then Wrong else Add
  | ArrayPat => Array_pattern
  | ObjectPat => Object_pattern
  end.
(** 161-165: the first parameter as written; the program panics if there is none. *)
Fixpoint reports_of (l : list func) : option (list (nat * advice)) :=
  match l with
  | [] => Some []
  | f :: l =>
      match parameters f, reports_of l with
      | d :: _, Some r => Some ((fid f, advice_for d) :: r)
      | _, _ => None
      end
  end.
Definition reports (c : call) : option (list (nat * advice)) :=
  match flagged c with None => None | Some l => reports_of l end.

(** Places in the source text: of the name, the end of the question mark, the annotation.  Starts are without trivia (internal/rule/rule.go, RuleFixInsertBefore, RuleFixReplace). *)
Record places := { name_pos : Z; name_end : Z; question_end : Z; type_pos : Z; type_end : Z }.
(** 169-220 *)
Definition fixes (d : decl) (parens_missing : bool) (p : places) : list (fix_ ascii) :=
  match advice_for d with
  | Add_rest => [mkFix (b ": [unknown]") (name_end p) (name_end p)]
  | Wrong_rest => [mkFix (b "[unknown]") (type_pos p) (type_end p)]
  | Add =>
      if parens_missing then [mkFix (b "(") (name_pos p) (name_pos p); mkFix (b ": unknown)") (name_end p) (name_end p)]
      else let e := if question d then question_end p else name_end p in [mkFix (b ": unknown") e e]
  | Wrong => [mkFix (b "unknown") (type_pos p) (type_end p)]
  | Array_pattern | Object_pattern => []
  end.
