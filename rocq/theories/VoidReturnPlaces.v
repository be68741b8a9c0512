(** strict-void-return (internal/rules/strict_void_return/strict_void_return.go): which expressions and members of a file are judged, by what listener, in what order and in what words
    (12-31, 87-131, 141-191, 193-216, 253-296, 298-360).  [judge], [check_expression], [argument_judged], [method_judged], [property_judged], [object_method_judged] are those of VoidReturn.v (C83). *)
From Coq Require Import Bool Arith Ascii String List.
From Verif Require Import Base VoidReturn.
Import ListNotations.
Local Open Scope list_scope.

(** ** Names of members *)
(** The expression of a computed name; a name.  Other kinds have no text. *)
Inductive inner_name := InIdentifier (s : bstr) | InString (s : bstr) | InNumber (s : bstr) | InBigInt (s : bstr) | InOther.
Inductive name_node := NIdentifier (s : bstr) | NPrivate (s : bstr) | NString (s : bstr) | NNumber (s : bstr) | NBigInt (s : bstr) | NComputed (e : option inner_name) | NOther.
(** 193-216 [getMemberName]; [symbol]: the name of the symbol at the name, if there is one. *)
Definition member_name (symbol : option bstr) (n : option name_node) : bstr :=
  match n with
  | None => []
  | Some n =>
      match symbol with
      | Some ((_ :: _) as s) => s
      | _ =>
          match n with
          | NIdentifier s | NPrivate s | NString s | NNumber s | NBigInt s => s
          | NComputed (Some (InIdentifier s | InString s | InNumber s | InBigInt s)) => s
          | _ => []
          end
      end
  end.

(** ** Nodes a listener is for.  Expressions, functions and methods by number. *)
Inductive element := ESpread (n : nat) | EExpr (n : nat).
(** 325-331: an attribute without value, with a string or element, with an expression in braces (none: nothing in them but a comment, or omitted). *)
Inductive attribute := AMissing | AString | AExpression (e : option nat).
Inductive site :=
| ArrayLiteral (l : list element)
| Arrow (block : bool) (body : option nat)  (* [block]: the body is one *)
| Binary (assignment : bool) (right_ : nat)  (* [assignment]: ast.IsAssignmentExpression with false: any operator that assigns *)
| CallOrNew (signatures : list signature) (arguments : list element)  (* call signatures of what is called, or construct signatures of what is constructed (151-157) *)
| Jsx (a : attribute)
| ObjectMethod (n : nat) (symbol : option bstr) (name : option name_node) (object_type : option (bstr -> option ftype))  (* the contextual type of the object, by its members *)
| ClassMethod (n : nat) (bases : list base) (m : option member) (has_body : bool)  (* [m]: none if the method has no name with a symbol (228-236) *)
| ClassProperty (bases : list base) (m : option member) (initial : option nat)
| PropertyAssignment (n : nat)
| Shorthand (n : nat)
| ReturnStatement (e : option nat)
| Declared (e : option nat)  (* a variable with its initial value *)
| Elsewhere (l : list nat).  (* any other node, with the expressions in it *)

Section Listeners.
(** allowReturnAny; the contextual type of an expression; what is known of a function. *)
Context (allow_any : bool) (contextual : nat -> option ftype) (function_of : nat -> given).
(** A report: the node judged, and what is reported of it. *)
Definition report_if (n : nat) : list (nat * report) := map (pair n) (judge allow_any (function_of n)).
(** 141-148 [checkExpressionNode] *)
Definition check (n : nat) : list (nat * report) := if check_expression (contextual n) then report_if n else [].
Definition check_opt (e : option nat) : list (nat * report) := match e with Some n => check n | None => [] end.
(** 159-190 *)
Fixpoint check_arguments (sigs : list signature) (i : nat) (l : list element) : list (nat * report) :=
  match l with
  | [] => []
  | ESpread _ :: l => check_arguments sigs (S i) l
  | EExpr n :: l => (if argument_judged sigs i (Plain (contextual n)) then report_if n else []) ++ check_arguments sigs (S i) l
  end.
Definition is_computed (n : option name_node) : bool := match n with Some (NComputed _) => true | _ => false end.
(** 298-360 with 253-296 *)
Definition listen (s : site) : list (nat * report) :=
  match s with
  | ArrayLiteral l => flat_map (fun e => match e with EExpr n => check n | ESpread _ => [] end) l
  | Arrow block body => if block then [] else check_opt body
  | Binary assignment n => if assignment then check n else []
  | CallOrNew sigs l => check_arguments sigs 0 l
  | Jsx a => match a with AExpression e => check_opt e | _ => [] end
  | ObjectMethod n symbol name object_type =>
      let member := match object_type with None => None | Some members => match member_name symbol name with [] => None | x => members x end end in
      if object_method_judged (is_computed name) member then report_if n else []
  | ClassMethod n bases m has_body => match m with Some m => if method_judged bases m has_body then report_if n else [] | None => [] end
  | ClassProperty bases m initial =>
      match initial with
      | None => []
      | Some n => if match m with Some m => property_judged bases m (Some (contextual n)) | None => check_expression (contextual n) end then report_if n else []
      end
  | PropertyAssignment n | Shorthand n => check n
  | ReturnStatement e | Declared e => check_opt e
  | Elsewhere _ => []
  end.
(** The nodes of a file in the order they are visited. *)
Definition run (l : list site) : list (nat * report) := flat_map listen l.
End Listeners.

(** 12-31, 88, 94, 98, 104, 109, 131: id and text. *)
Definition words (r : report) : bstr * bstr :=
  match r with
  | WholeFunction | TheType => (b "nonVoidFunc", b "Value-returning function used in a context where a void function is expected.")
  | AsyncFunction => (b "asyncFunc", b "Async function used in a context where a void function is expected.")
  | TheBody | TheReturn _ => (b "nonVoidReturn", b "Value returned in a context where a void return is expected.")
  end.
