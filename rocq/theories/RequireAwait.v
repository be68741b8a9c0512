(** Model of internal/rules/require_await/require_await.go.

    A file is a tree of the nodes the rule listens to, visited as in C14.  Questions to the type checker are answered in the
    nodes.  Nodes are named by numbers; only the node of a report is kept. *)
From Coq Require Import String Ascii Bool List ZArith.
From Verif Require Import Base Types Fixer.
Import ListNotations.
Open Scope Z_scope.

(** ** Scopes *)
(** The body of a function: none, a block with so many statements, or the expression of an arrow function,
    parentheses skipped: an [await], otherwise whether its type is thenable. *)
Inductive body := NoBody | Block (statements : nat) | AwaitBody | ExprBody (thenable : bool).
(** [ast.GetFunctionFlags]: async and generator. *)
Record function := Fn { fn_id : Z; fn_async : bool; fn_generator : bool; fn_arrow : bool; fn_body : body }.
(** What is yielded: a literal, otherwise whether the type is thenable, and the type. *)
Inductive argument := NoArgument | Literal | Argument (thenable : bool) (t : ty).
(** Children of a function: decorators and a computed name first, then parameters and body.  [Return]: thenable
    expression or not, [None] without expression. *)
Inductive node :=
| Function (f : function) (head rest : list node)
| AwaitExpr (ch : list node)
| ForOf (await : bool) (ch : list node)
| VarList (await_using : bool) (ch : list node)
| Yield (star : bool) (a : argument) (ch : list node)
| Return (thenable : option bool) (ch : list node)
| Other (ch : list node).

(** internal/utils/utils.go 50-61 [TypeRecurser]. *)
Fixpoint type_recurser (p : ty -> bool) (t : ty) : bool :=
  if is_set t [FUnion; FIntersection] then (fix any l := match l with [] => false | x :: l => if type_recurser p x then true else any l end) (t_parts t)
  else p t.

Section Rule.
(** Whether a type has a property [Symbol.asyncIterator]. *)
Variable async_iterator : ty -> bool.
(** Lines 26-31; [sc_async], [sc_generator]: [functionFlags]. *)
Record scope := Scope { sc_await : bool; sc_yield : bool; sc_async : bool; sc_generator : bool }.
(** Lines 209-221, 264-280. *)
Definition enter (f : function) : scope :=
  let kept := match fn_body f with NoBody | Block O => false | _ => true end in
  let s := Scope false false (kept && fn_async f) (kept && fn_generator f) in
  if fn_arrow f then
    if negb (sc_async s) then s
    else match fn_body f with
    | Block _ | AwaitBody => s
    | ExprBody true => Scope true (sc_yield s) (sc_async s) (sc_generator s)
    | _ => s
    end
  else s.
(** Lines 223-242. *)
Definition leave (f : function) (st : list scope) : list Z * list scope :=
  match st with
  | [] => ([], [])
  | s :: up => ((if sc_async s && negb (sc_await s) && negb (sc_generator s && sc_yield s) then [fn_id f] else []), up)
  end.
(** Lines 244-248. *)
Definition mark (st : list scope) : list scope :=
  match st with [] => [] | s :: up => Scope true (sc_yield s) (sc_async s) (sc_generator s) :: up end.
(** Lines 299-329. *)
Definition on_yield (star : bool) (a : argument) (st : list scope) : list scope :=
  match st with
  | [] => []
  | s :: up =>
      if sc_yield s then st
      else if negb (sc_generator s) then st
      else match a with
      | NoArgument | Literal => st
      | Argument thenable t =>
          let set := Scope (sc_await s) true (sc_async s) (sc_generator s) :: up in
          if negb star then if thenable then set else st
          else if type_recurser async_iterator t then set else st
      end
  end.
(** Lines 330-339. *)
Definition on_return (thenable : option bool) (st : list scope) : list scope :=
  match st with
  | [] => []
  | s :: up => if sc_await s || negb (sc_async s) then st else match thenable with Some true => mark st | _ => st end
  end.
(** Lines 255-340, the traversal. *)
Fixpoint walk (n : node) (st : list scope) : list Z * list scope :=
  let all := fix all l st := match l with [] => ([], st) | n :: l => let (a, st) := walk n st in let (c, st) := all l st in (a ++ c, st) end in
  match n with
  | Function f head rest => let (a, st) := all head (enter f :: st) in let (c, st) := all rest st in let (d, st) := leave f st in (a ++ c ++ d, st)
  | AwaitExpr ch => all ch (mark st)
  | ForOf await ch => all ch (if await then mark st else st)
  | VarList await_using ch => all ch (if await_using then mark st else st)
  | Yield star a ch => all ch (on_yield star a st)
  | Return t ch => all ch (on_return t st)
  | Other ch => all ch st
  end.
Definition reports (n : node) : list Z := fst (walk n []).
End Rule.

(** ** The suggestion *)
Inductive token := OpenParen | OpenBracket | Template | Asterisk | OtherToken.
(** A type reference: position of the name, its text (of [globalThis.X] the text [X], of other qualified names none), the range of the type arguments. *)
Record type_reference := TypeRef { tr_pos : Z; tr_end : Z; tr_name : bstr; tr_args : option (Z * Z) }.
Definition blank (c : ascii) : bool := existsb (Ascii.eqb c) (b " " ++ ["009"; "010"; "013"]%char).
(** Lines 60-104 [needsPrecedingSemicolon]: [before] is the text before the node, reversed; [after_method]: the node is a
    member of a class, interface or object literal and the member before it is a method, accessor or constructor. *)
Fixpoint skip_blank (before : bstr) : bstr := match before with c :: r => if blank c then skip_blank r else before | [] => [] end.
Definition needs_semicolon (before : bstr) (after_method : bool) : bool :=
  match skip_blank before with
  | [] => false
  | c :: r =>
      if existsb (Ascii.eqb c) (b ";:{,([") then false
      else if match r with d :: _ => existsb (beqb [d; c]) [b "=>"; b "++"; b "--"] | [] => false end then false
      else if Ascii.eqb c "}" && after_method then false
      else true
  end.
(** Lines 109-124 [isTypeReferenceNamed]; see [tr_name]. *)
Definition named (t : type_reference) (name : bstr) : bool := beqb (tr_name t) name.
(** Lines 130-189 [buildRemoveAsyncFixes]: start and end of [async], the end of the white space after it, the next
    token, whether the node begins an expression statement or is method-like; the return type, if it is a type
    reference. *)
Definition remove_async (async_start remove_end : Z) (next : token) (starts_statement method_like : bool) (before : bstr) (after_method : bool)
    (generator : bool) (ret : option type_reference) : list (fix_ ascii) :=
  let hazard := match next with OpenParen | OpenBracket | Template => true | _ => false end in
  let add := hazard && (starts_statement || method_like) && needs_semicolon before after_method in
  mkFix (if add then b ";" else []) async_start remove_end ::
  match ret with
  | None => []
  | Some t =>
      if generator && named t (b "AsyncGenerator") then [mkFix (b "Generator") (tr_pos t) (tr_end t)]
      else if negb generator && named t (b "Promise") then
        match tr_args t with
        | None => []
        | Some (pos, stop) => [mkFix [] stop (stop + 1); mkFix [] (tr_pos t) (pos - 1 + 1)]
        end
      else []
  end.
