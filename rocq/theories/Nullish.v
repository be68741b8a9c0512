(** prefer-nullish-coalescing (internal/rules/prefer_nullish_coalescing/prefer_nullish_coalescing.go).

    Nodes are expressions with the parentheses in them, places are lists of frames from the node outwards.  Texts are token lists; spaces and comments are left out. *)
From Coq Require Import String Ascii Bool List ZArith.
From Verif Require Import Base.
Import ListNotations.
Open Scope Z_scope.

(** Assignment operators: =, ||=, ??= and the rest. *)
Inductive aop := Plain | OrA | CoalA | Comp (k : bstr).
(** Binary operators; [Arith]: one that binds closer than the comparisons. *)
Inductive op := Or | And | Coal | Eq2 | Ne2 | Eq3 | Ne3 | Comma | Assign (a : aop) | Arith (k : bstr).
(** [Dot o private name q], [Elem o index q]: [q] says that there is a [?.]; the name of a private member is without [#].
    [Big]: bigint literals.  [Opaque n strong tight chain]: another expression: whether [IsStrongPrecedenceNode] (utils/ts_eslint.go 585-600) holds,
    whether it binds closer than the logical operators, whether [ast.IsOptionalChain] holds (calls). *)
Inductive expr :=
| Id (x : bstr) | This | Null | Str (s : bstr) | Tmpl (s : bstr) | Num (s : bstr) | Big (s : bstr)
| Dot (o : expr) (private : bool) (name : bstr) (q : bool) | Elem (o i : expr) (q : bool)
| NonNull (e : expr) | Paren (e : expr) | Not (e : expr) | Bin (o : op) (l r : expr) | Cond (c t f : expr)
| Opaque (n : Z) (strong tight chain : bool).

(** [ast.SkipParentheses]. *)
Fixpoint skip (e : expr) : expr := match e with Paren e => skip e | _ => e end.
Definition is_paren (e : expr) : bool := match e with Paren _ => true | _ => false end.
Definition is_logical_op (o : op) : bool := match o with Or | And | Coal => true | _ => false end.
(** [ast.IsLogicalExpression]: parentheses and [!] are skipped (assumed of typescript-go, as in TypeScript). *)
Fixpoint is_logical (e : expr) : bool :=
  match e with Paren e => is_logical e | Not e => is_logical e | Bin o _ _ => is_logical_op o | _ => false end.
(** 60-70 [isLogicalOrOperator]. *)
Definition is_or (e : expr) : bool := match e with Bin Or _ _ | Bin (Assign OrA) _ _ => true | _ => false end.
(** [ast.IsOptionalChain] of what is no member access: a non-null assertion or a call in a chain. *)
Fixpoint in_chain (e : expr) : bool :=
  match e with Dot o _ _ q => q || in_chain o | Elem o _ q => q || in_chain o | NonNull e => in_chain e | Opaque _ _ _ c => c | _ => false end.
(** 72-81 [isMemberAccessLike]. *)
Definition member_like (e : expr) : bool :=
  match skip e with Id _ | Dot _ _ _ _ | Elem _ _ _ => true | e => in_chain e end.

(** 83-118 [isNodeEqual]; names that are private identifiers are never equal (the switch has no case for them). *)
Fixpoint node_equal (a b : expr) : bool :=
  match a, b with
  | Id x, Id y => beqb x y
  | Dot o p n _, Dot o' p' n' _ => (negb p && negb p' && beqb n n') && node_equal o o'
  | Elem o i _, Elem o' i' _ => node_equal i i' && node_equal o o'
  | Null, Null => true
  | Str s, Str s' | Tmpl s, Tmpl s' => beqb s s'
  | Num s, Num s' | Big s, Big s' => beqb s s'
  | This, This => true
  | _, _ => false
  end.
(** 122-148 [getPropertyNameFromAccess]; the text of a private identifier starts with [#]. *)
Definition access_name (e : expr) : bstr :=
  match e with
  | Dot _ p n _ => if p then b "#" ++ n else n
  | Elem _ (Str s) _ | Elem _ (Tmpl s) _ => s
  | _ => []
  end.
(** 150-159 [getObjectExpressionFromAccess]. *)
Definition object_of (e : expr) : option expr := match e with Dot o _ _ _ | Elem o _ _ => Some o | _ => None end.
(** 162-177: all parentheses, then one non-null assertion. *)
Definition strip (e : expr) : expr := match skip e with NonNull e => e | e => e end.
(** 161-216 [areNodesSimilarMemberAccess]: first for [a] as it stands, second for [a] and [b] already stripped (two functions, since the recursion has to go down in [a]). *)
Fixpoint similarity (a : expr) : (expr -> bool) * (expr -> bool) :=
  let bare := fun b =>
    match a, object_of b with
    | Dot o _ _ _, Some o' | Elem o _ _, Some o' =>
        let an := access_name a in let bn := access_name b in
        if beqb an [] || beqb bn [] then
          match a, b with
          | Elem o i _, Elem o' i' _ => if negb (fst (similarity o) o') then false else node_equal i i'
          | Dot o _ _ _, Dot o' _ _ _ => if negb (beqb an bn) then false else fst (similarity o) o'
          | _, _ => false
          end
        else if negb (beqb an bn) then false else fst (similarity o) o'
    | _, _ => node_equal a b
    end in
  (fun b => match a with Paren a => fst (similarity a) b | NonNull a => snd (similarity a) (strip b) | _ => bare (strip b) end, bare).
Definition similar (a b : expr) : bool := fst (similarity a) b.

(** The place of a child in its parent.  [FTest]: the test of a do, if, for or while statement.  [FBoolean]: an argument of a call of the global [Boolean]
    (297-311).  [FCall]: an argument of another call.  [FOther]: the rest. *)
Inductive frame :=
| FParen | FNot | FBinL (o : op) (r : expr) | FBinR (l : expr) (o : op)
| FCondC (t f : expr) | FCondT (c f : expr) | FCondF (c t : expr) | FTest | FBoolean | FCall | FOther.
(** The parent around the child; at a statement or call the child is all there is of it. *)
Definition plug1 (f : frame) (e : expr) : expr :=
  match f with
  | FParen => Paren e | FNot => Not e | FBinL o r => Bin o e r | FBinR l o => Bin o l e
  | FCondC t f => Cond e t f | FCondT c f => Cond c e f | FCondF c t => Cond c t e
  | FTest | FBoolean | FCall | FOther => e
  end.
(** 218-265 [isConditionalTest]. *)
Fixpoint conditional_test (ctx : list frame) : bool :=
  match ctx with
  | (FParen | FNot) :: ctx | (FCondT _ _ | FCondF _ _) :: ctx => conditional_test ctx
  | FBinL o _ :: ctx => if is_logical_op o then conditional_test ctx else false
  | FBinR _ o :: ctx => if is_logical_op o then conditional_test ctx else match o with Comma => conditional_test ctx | _ => false end
  | FCondC _ _ :: _ | FTest :: _ => true
  | (FBoolean | FCall | FOther) :: _ | [] => false
  end.
(** 267-316 [isBooleanConstructorContext]. *)
Fixpoint boolean_context (ctx : list frame) (e : expr) : bool :=
  match ctx with
  | FParen :: ctx => boolean_context ctx (Paren e)
  | FNot :: ctx => if is_logical (Not e) then boolean_context ctx (Not e) else false
  | FCondT c f :: ctx => boolean_context ctx (Cond c e f)
  | FCondF c t :: ctx => boolean_context ctx (Cond c t e)
  | FBinL o r :: ctx => if is_logical_op o then boolean_context ctx (Bin o e r) else false
  | FBinR l o :: ctx => if is_logical_op o then boolean_context ctx (Bin o l e) else match o with Comma => boolean_context ctx (Bin o l e) | _ => false end
  | FBoolean :: _ => true
  | (FCondC _ _ | FTest | FCall | FOther) :: _ | [] => false
  end.

(** What [checker.Type_flags] says of a type that is no union or intersection: Any, Unknown, Null, Undefined, Void, StringLike, NumberLike, BigIntLike, BooleanLike,
    type parameters, object types; of the latter [TShape] are those that primitives can have as well. *)
Inductive atom := TAny | TUnknown | TNull | TUndefined | TVoid | TString | TNumber | TBigint | TBoolean | TParam | TObject | TShape.
(** [UnionTypeParts] and for each [IntersectionTypeParts]; one part is no union, one atom is no intersection. *)
Definition ty := list (list atom).
(** The options (options.go); [IgnorePrimitives] true is all four. *)
Record options := Options {
  ig_conditional : bool; ig_boolean : bool; ig_mixed : bool; ig_ternary : bool; ig_if : bool;
  ig_bigint : bool; ig_bool : bool; ig_number : bool; ig_string : bool }.
Definition any_or_unknown (t : ty) : bool := match t with [[TAny]] | [[TUnknown]] => true | _ => false end.
(** 351-365. *)
Definition is_nullable (t : ty) : bool :=
  any_or_unknown t || existsb (fun part => match part with [TNull] | [TUndefined] => true | _ => false end) t.
(** 330-349. *)
Definition ignorable (o : options) (a : atom) : bool :=
  match a with TBigint => ig_bigint o | TBoolean => ig_bool o | TNumber => ig_number o | TString => ig_string o | _ => false end.
Definition nothing_ignorable (o : options) : bool := negb (ig_bigint o || ig_bool o || ig_number o || ig_string o).
(** 367-394. *)
Definition eligible_type (o : options) (t : ty) : bool :=
  if negb (is_nullable t) then false
  else if nothing_ignorable o then true
  else if any_or_unknown t then false
  else negb (existsb (existsb (ignorable o)) t).

Section Check.
Variable o : options.
(** [GetTypeAtLocation] of the nodes that are asked for in one check. *)
Variable type_of : expr -> ty.

(** 396-416; [node] is the ternary or the || expression, or none for an if statement (whose parents are statements). *)
Definition truth_eligible (ctx : list frame) (node : option expr) (tested : expr) : bool :=
  if negb (eligible_type o (type_of tested)) then false
  else if ig_conditional o && conditional_test ctx then false
  else if ig_boolean o && match node with Some e => boolean_context ctx e | None => false end
          && negb (match node, ctx with Some (Cond _ _ _), (FBoolean | FCall) :: _ => true | _, _ => false end)
  then false else true.

(** 48-58; the empty operator with no nodes is [Empty]. *)
Inductive check_op := Empty | Negated | Equal | StrictEqual | NotEqual | NotStrictEq.
(** 418-472. *)
Definition skip_partial (null undef : bool) (operator : check_op) (target : expr) (allow_not_equal : bool) : bool :=
  if null && undef then false
  else if negb null && negb undef then true
  else match operator with
  | Equal => false
  | _ =>
      if allow_not_equal && match operator with NotEqual => true | _ => false end then false
      else if any_or_unknown (type_of target) then true
      else
        let has a := existsb (fun part => match part, a with [TNull], TNull | [TUndefined], TUndefined => true | _, _ => false end) (type_of target) in
        if undef && has TNull then true else if null && has TUndefined then true else false
  end.

(** 474-506 [isMixedLogicalExpression]: the search with a queue goes up while the parent is ||, and down through || and parentheses; the order in which it
    does makes no difference to whether an && is met. *)
Fixpoint mixed_below (e : expr) : bool :=
  match e with Paren e => mixed_below e | Bin And _ _ => true | Bin Or l r => mixed_below l || mixed_below r | _ => false end.
Fixpoint mixed_above (ctx : list frame) (e : expr) : bool :=
  match ctx with
  | [] => false
  | (FTest | FBoolean | FCall | FOther) :: _ => false
  | f :: ctx =>
      let current := plug1 f e in
      if is_logical current then
        match skip current with
        | Bin And _ _ => true
        | Bin Or l r => mixed_above ctx current || mixed_below l || mixed_below r
        | _ => false
        end
      else false
  end.
Definition mixed (ctx : list frame) (k l r : expr) : bool := mixed_above ctx k || mixed_below l || mixed_below r.

(** Where a fix inserts or replaces in [l || r]; [InLeft]: before the right operand of [l]. *)
Inductive spot := BeforeLeft | InLeft | AfterLeft | BeforeRight | AfterRight | Operator.
Inductive token := TOpen | TClose | TOp (k : op) | TUnit (e : expr).
(** The text of an expression: logical operators and parentheses, other expressions as one token each. *)
Fixpoint text (e : expr) : list token :=
  match e with
  | Paren e => TOpen :: text e ++ [TClose]
  | Bin k l r => if is_logical_op k then text l ++ TOp k :: text r else [TUnit e]
  | _ => [TUnit e]
  end.
(** 526-532: the parent, parentheses skipped, is logical and the node is not in parentheses itself. *)
Definition parent_logical (ctx : list frame) (e : expr) : bool :=
  match ctx with
  | [] | (FParen | FTest | FBoolean | FCall | FOther) :: _ => false
  | f :: _ => is_logical (plug1 f e)
  end.
(** 520-571; [k] is [Or] or [Assign OrA]. *)
Definition or_edits (ctx : list frame) (k : op) (l r : expr) : list (spot * token) :=
  let node := Bin k l r in
  let wrap := parent_logical ctx node in
  let inside := wrap && match l with Bin _ ll _ => is_logical l && negb (is_or ll) | _ => false end in
  (if wrap then [(if inside then InLeft else BeforeLeft, TOpen); (AfterRight, TClose)] else [])
  ++ match k with
     | Or => (if negb inside && is_logical l && negb (is_paren l) then [(BeforeLeft, TOpen); (AfterLeft, TClose)] else [])
             ++ (if is_logical r && negb (is_paren r) then [(BeforeRight, TOpen); (AfterRight, TClose)] else [])
     | _ => []
     end
  ++ [(Operator, TOp (match k with Or => Coal | _ => Assign CoalA end))].
Definition spot_eqb (a c : spot) : bool :=
  match a, c with BeforeLeft, BeforeLeft | InLeft, InLeft | AfterLeft, AfterLeft | BeforeRight, BeforeRight | AfterRight, AfterRight | Operator, Operator => true | _, _ => false end.
(** The text after the edits. *)
Definition edited (l r : expr) (edits : list (spot * token)) : list token :=
  let at_ s := map snd (filter (fun e => spot_eqb s (fst e)) edits) in
  at_ BeforeLeft
  ++ match l with Bin k ll lr => if is_logical_op k then text ll ++ TOp k :: at_ InLeft ++ text lr else text l | _ => text l end
  ++ at_ AfterLeft ++ at_ Operator ++ at_ BeforeRight ++ text r ++ at_ AfterRight.
(** 508-578: the new text of the expression if it is reported. *)
Definition check_or (ctx : list frame) (k : op) (l r : expr) : option (list token) :=
  if negb (truth_eligible ctx (Some (Bin k l r)) l) then None
  else if ig_mixed o && mixed ctx (Bin k l r) l r then None
  else Some (edited l r (or_edits ctx k l r)).
(** 684-696. *)
Definition listen_binary (ctx : list frame) (k : op) (l r : expr) : option (list token) :=
  match k with Or | Assign OrA => check_or ctx k l r | _ => None end.

(** utils/ts_api_utils.go 211-217, 231-233. *)
Definition is_null (e : expr) : bool := match e with Null => true | _ => false end.
Definition is_undefined (e : expr) : bool := match e with Id x => beqb x (b "undefined") | _ => false end.
Definition is_nullish_literal (e : expr) : bool := is_null e || is_undefined e.
(** 644-666: the operator of two comparisons joined. *)
Definition compound (k kl kr : op) : option check_op :=
  match k, kl, kr with
  | Or, Eq3, Eq3 => Some StrictEqual
  | Or, Eq2, (Eq3 | Eq2) | Or, Eq3, Eq2 => Some Equal
  | And, Ne3, Ne3 => Some NotStrictEq
  | And, Ne2, (Ne3 | Ne2) | And, Ne3, Ne2 => Some NotEqual
  | _, _, _ => None
  end.
(** 580-672 [getOperatorAndNodesInsideTestExpression]. *)
Definition inspect (test : expr) : option (check_op * list expr) :=
  let test := skip test in
  if member_like test then Some (Empty, [])
  else match test with
  | Not e => if member_like (skip e) then Some (Negated, []) else None
  | Bin k l r =>
      match k with
      | Eq2 => Some (Equal, [skip l; skip r])
      | Ne2 => Some (NotEqual, [skip l; skip r])
      | Eq3 => Some (StrictEqual, [skip l; skip r])
      | Ne3 => Some (NotStrictEq, [skip l; skip r])
      | Or | And =>
          match l, r with
          | Bin kl ll lr, Bin kr rl rr =>
              if (is_nullish_literal (skip ll) && is_nullish_literal (skip lr)) || (is_nullish_literal (skip rl) && is_nullish_literal (skip rr)) then None
              else
                let nodes := [skip ll; skip lr; skip rl; skip rr] in
                match compound k kl kr with Some operator => Some (operator, nodes) | None => None end
          | _, _ => None
          end
      | _ => None
      end
  | _ => None
  end.
(** 732-748, 855-870: null and undefined checks and the first node that is similar to the target; none if there is another node. *)
Fixpoint scan (nodes : list expr) (target : expr) (null undef : bool) (first : option expr) : option (bool * bool * option expr) :=
  match nodes with
  | [] => Some (null, undef, first)
  | x :: nodes =>
      if is_null x then scan nodes target true undef first
      else if is_undefined x then scan nodes target null true first
      else if similar x target then scan nodes target null undef (match first with None => Some x | _ => first end)
      else None
  end.
(** The operand of a negated test, the test otherwise (721-726, 844-847). *)
Definition tested (test : expr) : expr := match skip test with Not e => skip e | e => e end.
(** utils/ts_eslint.go 585-600. *)
Definition strong (e : expr) : bool :=
  match e with Str _ | Tmpl _ | Num _ | Big _ | Paren _ | Id _ | Dot _ _ _ _ | Elem _ _ _ => true | Opaque _ s _ _ => s | _ => false end.
(** 698-786: the two sides of the ?? expression if the ternary [c ? t : f] is reported; 770-778: the right one in parentheses if need be. *)
Definition check_ternary (ctx : list frame) (c t f : expr) : option (expr * expr) :=
  if ig_ternary o then None
  else match inspect c with
  | None => None
  | Some (operator, nodes) =>
      let '(other, nullish) := match operator with Empty | NotEqual | NotStrictEq => (t, f) | _ => (f, t) end in
      let rhs := if negb (strong nullish) && negb (is_paren nullish) then Paren nullish else nullish in
      match nodes with
      | [] =>
          if negb (similar (tested c) (skip other)) then None
          else if negb (truth_eligible ctx (Some (Cond c t f)) (tested c)) then None
          else Some (tested c, rhs)
      | _ =>
          match scan nodes (skip other) false false None with
          | Some (null, undef, Some lhs) => if skip_partial null undef operator lhs true then None else Some (lhs, rhs)
          | _ => None
          end
      end
  end.
(** 798-831: what is in the then branch: nothing of interest or one expression statement; [ast.IsAssignmentExpression(_, false)] allows for compound assignments. *)
Inductive then_branch := Otherwise | Single (e : expr).
(** 788-901: the two sides of the ??= statement if the if statement is reported. *)
Definition check_if (test : expr) (then_ : then_branch) (has_else : bool) : option (expr * expr) :=
  if ig_if o then None
  else if has_else then None
  else match then_ with
  | Otherwise => None
  | Single e =>
      match skip e with
      | Bin (Assign _) l r =>
          if negb (member_like l) then None
          else
            let lhs := if is_paren l then Paren (skip l) else l in
            match inspect test with
            | Some (Negated, _) =>
                if negb (similar (tested test) l) then None
                else if negb (truth_eligible [] None (tested test)) then None
                else Some (lhs, r)
            | Some ((Equal | StrictEqual) as operator, nodes) =>
                match scan nodes l false false None with
                | Some (null, undef, Some _) => if skip_partial null undef operator l false then None else Some (lhs, r)
                | _ => None
                end
            | _ => None
            end
      | _ => None
      end
  end.
End Check.
