(** prefer-optional-chain (internal/rules/prefer_optional_chain/prefer_optional_chain.go).

    Nodes are expressions with the parentheses in them.  Spaces and comments are left out, so two texts are the same if and only if the expressions are; new texts are lists of tokens.
    [comparedExpr] is nil only for operands that are [Invalid], and these are in no chain, so the tests for nil drop out.  The caches (721-724) only store what is
    computed again here, except that [flattenForFix] hands out slices that are then written to (see [and_parts]).
    [processChain] (1714-1752) does nothing inside JSX (528-544, 1723-1725) and for a node that [collectOperands] has been through before (1727-1735);
    [and_fixes] and [or_fixes] are for the other nodes. *)
From Coq Require Import String Ascii Bool List ZArith.
From Verif Require Import Base.
Import ListNotations.
Open Scope nat_scope.

(** [Rel]: < > <= >= in instanceof.  [Assign]: the five that [hasSideEffects] (595-599) knows; [AssignX]: the other assignments.
    [Arith k p]: any other operator and how close it binds. *)
Inductive op := And | Or | Coal | Eq2 | Ne2 | Eq3 | Ne3 | Comma | Rel (k : bstr) | Assign (k : bstr) | AssignX (k : bstr) | Arith (k : bstr) (p : nat).
(** Prefix operators: [!], [++] and [--], the rest. *)
Inductive pre := Not | Step (k : bstr) | Sign (k : bstr).
(** Type arguments: keywords, type references (with the text of their own arguments), others. *)
Inductive tynode := TyKey (k : bstr) | TyRef (n : bstr) (args : bstr) | TyOther (t : bstr).
(** [Dot o private name q], [Elem o i q], [Call f types args q]: [q] says that there is a [?.].  [Meta]: import.meta and new.target.
    [Opaque k n]: another expression of kind [k]. *)
(** [Collection]: literals of arrays and objects (1036-1037, 1138-1139).  [Maker]: functions, classes and JSX (1038-1043).  [Delete] and [Conditional]: 3683, 3689. *)
Inductive kind := Collection | Maker | Delete | Conditional | Other.
Inductive expr :=
| Id (x : bstr) | This | Super | Null | True_ | False_ | Str (s : bstr) | Num (s : bstr) | Big (s : bstr) | Raw (s : bstr)
| Dot (o : expr) (private : bool) (name : bstr) (q : bool) | Elem (o i : expr) (q : bool) | Call (f : expr) (types : option (list tynode)) (args : exprs) (q : bool)
| NonNull (e : expr) | Paren (e : expr) | As (e : expr) (t : bstr) | Cast (t : bstr) (e : expr)
| Bin (o : op) (l r : expr) | Pre (p : pre) (e : expr) | Post (k : bstr) (e : expr) | Typeof (e : expr) | Void (e : expr) | Await (e : expr) | Yield (e : expr)
| Tmpl (head : bstr) (spans : exprs) (lits : list bstr) | New (f : expr) (parens : bool) (args : exprs) | Meta (k n : bstr) | Opaque (k : kind) (n : Z)
with exprs := Nil | Cons (e : expr) (es : exprs).

Definition op_eqb (a c : op) : bool :=
  match a, c with
  | And, And | Or, Or | Coal, Coal | Eq2, Eq2 | Ne2, Ne2 | Eq3, Eq3 | Ne3, Ne3 | Comma, Comma => true
  | Rel k, Rel l | Assign k, Assign l | AssignX k, AssignX l => beqb k l
  | Arith k p, Arith l q => beqb k l && Nat.eqb p q
  | _, _ => false
  end.
Definition kind_eqb (a c : kind) : bool :=
  match a, c with Collection, Collection | Maker, Maker | Delete, Delete | Conditional, Conditional | Other, Other => true | _, _ => false end.
Definition pre_eqb (a c : pre) : bool :=
  match a, c with Not, Not => true | Step k, Step l | Sign k, Sign l => beqb k l | _, _ => false end.
Definition ty_eqb (a c : tynode) : bool :=
  match a, c with TyKey k, TyKey l => beqb k l | TyRef n x, TyRef m y => beqb n m && beqb x y | TyOther k, TyOther l => beqb k l | _, _ => false end.
Fixpoint all2 {A} (f : A -> A -> bool) (l m : list A) : bool :=
  match l, m with [], [] => true | x :: l, y :: m => f x y && all2 f l m | _, _ => false end.
Definition opt2 {A} (f : A -> A -> bool) (x y : option A) : bool := match x, y with None, None => true | Some x, Some y => f x y | _, _ => false end.
(** Two nodes have the same text. *)
Fixpoint expr_eqb (a c : expr) {struct a} : bool :=
  match a, c with
  | Id x, Id y | Str x, Str y => beqb x y
  | Num x, Num y | Big x, Big y | Raw x, Raw y => beqb x y
  | This, This | Super, Super | Null, Null | True_, True_ | False_, False_ => true
  | Dot o p n q, Dot o' p' n' q' => expr_eqb o o' && Bool.eqb p p' && beqb n n' && Bool.eqb q q'
  | Elem o i q, Elem o' i' q' => expr_eqb o o' && expr_eqb i i' && Bool.eqb q q'
  | Call f t x q, Call f' t' x' q' => expr_eqb f f' && opt2 (all2 ty_eqb) t t' && exprs_eqb x x' && Bool.eqb q q'
  | NonNull e, NonNull e' | Paren e, Paren e' => expr_eqb e e'
  | As e t, As e' t' | Cast t e, Cast t' e' => expr_eqb e e' && beqb t t'
  | Bin o l r, Bin o' l' r' => op_eqb o o' && expr_eqb l l' && expr_eqb r r'
  | Pre p e, Pre p' e' => pre_eqb p p' && expr_eqb e e'
  | Post k e, Post k' e' => beqb k k' && expr_eqb e e'
  | Typeof e, Typeof e' | Void e, Void e' => expr_eqb e e'
  | Await e, Await e' | Yield e, Yield e' => expr_eqb e e'
  | Tmpl h s l, Tmpl h' s' l' => beqb h h' && exprs_eqb s s' && all2 beqb l l'
  | New f p x, New f' p' x' => expr_eqb f f' && Bool.eqb p p' && exprs_eqb x x'
  | Meta k n, Meta k' n' => beqb k k' && beqb n n'
  | Opaque k n, Opaque k' n' => kind_eqb k k' && Z.eqb n n'
  | _, _ => false
  end
with exprs_eqb (a c : exprs) {struct a} : bool :=
  match a, c with Nil, Nil => true | Cons e es, Cons e' es' => expr_eqb e e' && exprs_eqb es es' | _, _ => false end.

(** [ast.SkipParentheses]. *)
Fixpoint skip (e : expr) : expr := match e with Paren e => skip e | _ => e end.
(** 304-315. *)
Fixpoint unwrap (e : expr) : expr := match e with Paren e | NonNull e => unwrap e | _ => e end.
(** utils/ts_api_utils.go 211-229, 255-257. *)
Definition is_null (e : expr) : bool := match e with Null => true | _ => false end.
Definition is_undefined_id (e : expr) : bool := match e with Id x => beqb x (b "undefined") | _ => false end.
Definition is_undefined (e : expr) : bool := is_undefined_id e || match e with Void _ => true | _ => false end.
Definition is_nullish (e : expr) : bool := is_null e || is_undefined e.
Definition is_access (e : expr) : bool := match e with Dot _ _ _ _ | Elem _ _ _ | Call _ _ _ _ => true | _ => false end.
Definition is_call (e : expr) : bool := match e with Call _ _ _ _ => true | _ => false end.
Definition is_new (e : expr) : bool := match e with New _ _ _ => true | _ => false end.
Definition is_id (e : expr) : bool := match e with Id _ => true | _ => false end.
Definition is_this (e : expr) : bool := match e with This => true | _ => false end.

(** 405-421, type nodes: the arguments of a type reference are not looked at. *)
Definition ty_same (a c : tynode) : bool :=
  match a, c with TyKey k, TyKey l => beqb k l | TyRef n _, TyRef m _ => beqb n m | _, _ => false end.
(** The text of the name of a property, with the [#] of a private one. *)
Definition name_text (private : bool) (n : bstr) : bstr := if private then b "#" ++ n else n.
(** 318-498 [areNodesStructurallyEqual]: parentheses and non-null assertions of [a] are skipped on the way down, those of [c] before each comparison. *)
Fixpoint same (a c0 : expr) {struct a} : bool :=
  let c := unwrap c0 in
  match a, c with
  | Paren a, _ | NonNull a, _ => same a c0
  | Id x, Id y => beqb x y
  | This, This | Null, Null | Super, Super => true
  | Dot o p n _, Dot o' p' n' _ => beqb (name_text p n) (name_text p' n') && same o o'
  | Elem o i _, Elem o' i' _ => same i i' && same o o'
  | Call f t x _, Call f' t' x' _ => same f f' && same_list x x' && opt2 (all2 ty_same) t t'
  | As e _, As e' _ => same e e'
  | Cast _ e, Cast _ e' => same e e'
  | Str s, Str s' => beqb s s'
  | Num s, Num s' | Big s, Big s' | Raw s, Raw s' => beqb s s'
  | True_, True_ | False_, False_ => true
  | Meta k n, Meta k' n' => beqb k k' && beqb n n'
  | Bin o l r, Bin o' l' r' => op_eqb o o' && same l l' && same r r'
  | Pre p e, Pre p' e' => pre_eqb p p' && same e e'
  | Typeof e, Typeof e' => same e e'
  | Tmpl h s l, Tmpl h' s' l' => beqb h h' && same_list s s' && all2 beqb l l'
  | Await e, Await e' => same e e'
  | _, _ => false
  end
with same_list (a c : exprs) {struct a} : bool :=
  match a, c with Nil, Nil => true | Cons e es, Cons e' es' => same e e' && same_list es es' | _, _ => false end.
(** 500-524 [isNodePrefixOf]. *)
Fixpoint prefix (shorter longer : expr) : bool :=
  same shorter longer ||
  match longer with
  | Paren e | NonNull e => prefix shorter e
  | Dot o _ _ _ | Elem o _ _ => prefix shorter o
  | Call f _ _ _ => prefix shorter f
  | _ => false
  end.
(** 546-566 [getBaseIdentifier]. *)
Fixpoint base (e : expr) : expr :=
  match e with Dot o _ _ _ | Elem o _ _ => base o | Call f _ _ _ => base f | NonNull e | Paren e => base e | As e _ => base e | _ => e end.
(** 568-619 [hasSideEffects]. *)
Fixpoint side_effects (e : expr) : bool :=
  match e with
  | Pre (Step _) _ | Post _ _ | Yield _ | Bin (Assign _) _ _ => true
  | Dot o _ _ _ => side_effects o
  | Elem o i _ => side_effects o || side_effects i
  | Call f _ _ _ => side_effects f
  | Paren e => side_effects e
  | _ => false
  end.
(** 1374-1420 [containsOptionalChain]. *)
Fixpoint has_chain (e : expr) : bool :=
  match e with
  | Paren e => has_chain e
  | Dot o _ _ q | Elem o _ q => q || has_chain o
  | Call f _ _ q => q || has_chain f
  | Bin _ l r => has_chain l || has_chain r
  | _ => false
  end.
(** 808-841 [extractCallSignatures]: the callee and the whole of each call; a callee is longer than those further in, so no entry is written twice. *)
Fixpoint call_sigs (e : expr) : list (expr * expr) :=
  match e with
  | Call f _ _ _ => (f, e) :: call_sigs f
  | Dot o _ _ _ | Elem o _ _ => call_sigs o
  | NonNull e => call_sigs e
  | _ => []
  end.
(** 1005-1025, 965-983: the root, parentheses and accesses skipped, is [new]. *)
Fixpoint rooted_in_new (e : expr) : bool :=
  match e with Paren e => rooted_in_new e | Dot o _ _ _ | Elem o _ _ => rooted_in_new o | Call f _ _ _ => rooted_in_new f | New _ _ _ => true | _ => false end.
(** 1027-1045. *)
Definition creates (e : expr) : bool :=
  match skip e with
  | Call f _ _ _ => is_id (skip f)
  | New _ _ _ | Tmpl _ _ _ | Await _ => true
  | Opaque (Collection | Maker) _ => true
  | _ => false
  end.
Inductive cmp := Equal | Subset | Superset | Unrelated.
(** 993-1072 [compareNodes]. *)
Definition compare (l r : expr) : cmp :=
  if side_effects l || side_effects r then Unrelated
  else if negb (has_chain l) && (creates l || rooted_in_new l) then Unrelated
  else if existsb (fun x => existsb (fun y => expr_eqb (fst x) (fst y) && negb (expr_eqb (snd x) (snd y))) (call_sigs r)) (call_sigs l) then Unrelated
  else if same l r then Equal else if prefix l r then Subset else if prefix r l then Superset else Unrelated.

(** The types of an operand, of its base or of the value it is compared with: union parts.  [AParam]: types with none of the flags that can have any value (type parameters),
    [ANever]: none with no value. *)
Inductive atom :=
| ANull | AUndef | AVoid | AAny | AUnknown | ABool (x : bool) | ANum | ANumLit (z : Z) | AStr | AStrLit (s : bstr) | ABig | ABigLit (z : Z) | AObject | AParam | ANever.
Definition ty := list atom.
Definition has (f : atom -> bool) (t : ty) : bool := existsb f t.
(** 747-806 [getTypeInfo]. *)
Definition has_null : ty -> bool := has (fun a => match a with ANull => true | _ => false end).
Definition has_undef : ty -> bool := has (fun a => match a with AUndef => true | _ => false end).
Definition has_void : ty -> bool := has (fun a => match a with AVoid => true | _ => false end).
Definition has_any : ty -> bool := has (fun a => match a with AAny => true | _ => false end).
Definition has_unknown : ty -> bool := has (fun a => match a with AUnknown => true | _ => false end).
Definition has_literal : ty -> bool := has (fun a => match a with ABool _ | ANumLit _ | AStrLit _ | ABigLit _ => true | _ => false end).
Definition has_bigint : ty -> bool := has (fun a => match a with ABig | ABigLit _ => true | _ => false end).
Definition has_boolean : ty -> bool := has (fun a => match a with ABool _ => true | _ => false end).
Definition has_number : ty -> bool := has (fun a => match a with ANum | ANumLit _ => true | _ => false end).
Definition has_string : ty -> bool := has (fun a => match a with AStr | AStrLit _ => true | _ => false end).
(** 659-714. *)
Definition any_or_unknown (t : ty) : bool := has_any t || has_unknown t.
Definition nullish_type (t : ty) : bool := has_null t || has_undef t || any_or_unknown t.
Definition explicit_nullish (t : ty) : bool := has_null t || has_undef t.
Definition both_nullish (t : ty) : bool := has_null t && has_undef t.
Definition empty_type (t : ty) : bool := match t with [] => true | _ => false end.
Definition can_undef (t : ty) : bool := empty_type t || has_undef t || has_void t || any_or_unknown t.
Definition can_nullish (t : ty) : bool := empty_type t || has_null t || has_undef t || has_void t || any_or_unknown t.
Definition always_undef (t : ty) : bool :=
  negb (empty_type t) && negb (any_or_unknown t) && forallb (fun a => match a with AUndef | AVoid => true | _ => false end) t.
Definition always_nullish (t : ty) : bool :=
  negb (empty_type t) && negb (any_or_unknown t) && forallb (fun a => match a with ANull | AUndef | AVoid => true | _ => false end) t.
(** 1084-1095 [typeIsAnyOrUnknown]. *)
Definition only_any (t : ty) : bool := negb (empty_type t) && forallb (fun a => match a with AAny | AUnknown => true | _ => false end) t.
(** 1097-1101 [wouldChangeReturnType]. *)
Definition changes_type (t : ty) : bool := has_literal t && negb (explicit_nullish t).

(** 27-47; [OperandTypeNotEqualNull] is never made. *)
Inductive otype :=
| Invalid | Plain | NotNull | NotUndef | NotBoth | Neg | NegAnd | TypeofCheck | Comparison | EqBoth | IsNull | IsUndef.
Definition otype_eqb (a c : otype) : bool :=
  match a, c with
  | Invalid, Invalid | Plain, Plain | NotNull, NotNull | NotUndef, NotUndef | NotBoth, NotBoth | Neg, Neg => true
  | NegAnd, NegAnd | TypeofCheck, TypeofCheck | Comparison, Comparison | EqBoth, EqBoth | IsNull, IsNull | IsUndef, IsUndef => true
  | _, _ => false
  end.
(** Where the compared expression is in the node: it is the node without parentheses and assertions, the operand of [!], a side of the comparison (without parentheses),
    or the operand of typeof on a side. *)
Inductive place := Whole | Negated | OnLeft | OnRight | TypeofLeft | TypeofRight.
(** 260-264; [idx] is the position among the operands. *)
Record operand := Operand { idx : nat; typ : otype; node : expr; compared : expr; place_of : place }.
(** 49-80. *)
Definition nullish_check (t : otype) : bool := match t with NotNull | NotUndef | NotBoth | IsNull | EqBoth | IsUndef | TypeofCheck => true | _ => false end.
Definition strict_check (t : otype) : bool := match t with NotNull | NotUndef => true | _ => false end.
Definition loose_check (t : otype) : bool := match t with NotBoth | EqBoth => true | _ => false end.
Definition trailing_comparison (t : otype) : bool := match t with NotNull | NotUndef | NotBoth | Comparison => true | _ => false end.
Definition comparison_or_null (t : otype) : bool := match t with Comparison => true | t => nullish_check t end.
Definition is_plain (o : operand) : bool := otype_eqb (typ o) Plain.
(** 287-302 [unwrapBinary]. *)
Definition binary (e : expr) : option (op * expr * expr) := match skip e with Bin o l r => Some (o, skip l, skip r) | _ => None end.
(** 82-104. *)
Definition comparison_against (f : expr -> bool) (o : operand) : bool :=
  match typ o, binary (node o) with Comparison, Some ((Eq2 | Eq3), l, r) => f l || f r | _, _ => false end.
Definition nullish_comparison : operand -> bool := comparison_against is_nullish.
Definition null_comparison : operand -> bool := comparison_against is_null.
(** 106-165. *)
Definition strict_null_or (o : operand) : bool :=
  match typ o with
  | IsNull | NotNull => true
  | Comparison => match binary (node o) with Some (Eq3, l, r) => is_null l || is_null r | _ => false end
  | _ => false
  end.
Definition strict_undef_or (o : operand) : bool :=
  match typ o with
  | IsUndef | NotUndef | TypeofCheck => true
  | Comparison => match binary (node o) with Some (Eq3, l, r) => is_undefined l || is_undefined r | _ => false end
  | _ => false
  end.
Definition or_nullish_check (o : operand) : bool :=
  match typ o with IsNull | IsUndef | EqBoth => true | Comparison => nullish_comparison o | _ => false end.
Definition nullish_operand (o : operand) : bool :=
  match typ o with
  | NotNull | NotUndef | NotBoth | IsNull | IsUndef | EqBoth => true
  | Comparison => match binary (node o) with Some (_, l, r) => is_null r || is_undefined_id r || is_null l || is_undefined_id l | None => false end
  | _ => false
  end.
Definition other_comparison (o : operand) : bool := otype_eqb (typ o) Comparison && negb (nullish_comparison o).

(** 1434-1618 [parseOperand]. *)
Definition strip_base (e : expr) : expr :=
  (fix go e := match e with Dot o _ _ _ | Elem o _ _ => go o | Call f _ _ _ => go f | NonNull e | Paren e => go e | As e _ => go e | Cast _ e => go e | _ => e end) e.
Definition is_str (e : expr) : bool := match e with Str _ => true | _ => false end.
Definition id_or_this (e : expr) : bool := is_id e || is_this e.
(** 1474-1557: what a comparison with null, undefined or a string is; the places are those of left and right or of typeof there. *)
Definition parse_check (and_chain : bool) (o : op) (expr_ value : expr) (at_ typeof_at : place) : option (otype * expr * place) :=
  let e := skip expr_ in
  let typeof_ :=
    match e, value with
    | Typeof x, Str s =>
        if beqb s (b "undefined") && match o with Ne3 | Ne2 => and_chain | Eq3 | Eq2 => negb and_chain | _ => false end then Some (TypeofCheck, x, typeof_at) else None
    | _, _ => None
    end in
  match typeof_ with
  | Some r => Some r
  | None =>
      let null := is_null value in let undef := is_undefined value in
      let ret t := Some (t, e, at_) in
      if and_chain then
        match o with
        | Ne3 => if null then ret NotNull else if undef then ret NotUndef else None
        | Ne2 => if null || undef then ret NotBoth else None
        | Eq3 => if null && id_or_this e then ret IsNull else if undef && id_or_this e then ret IsUndef else None
        | Eq2 => if (null || undef) && id_or_this e then ret EqBoth else None
        | _ => None
        end
      else if is_access e then (if null || undef then ret Comparison else None)
      else match o with
      | Eq3 => if null then ret NotNull else if undef then ret NotUndef else None
      | Eq2 => if null || undef then ret NotBoth else None
      | _ => None
      end
  end.
(** 1573-1615. *)
Definition parse_comparison (o : op) (l r : expr) : option (otype * expr * place) :=
  match o with
  | Rel _ => None
  | _ =>
      if is_access (skip l) && is_access (skip r) then None
      else if is_access (skip r) then Some (Comparison, skip r, OnRight)
      else if is_access (skip l) then Some (Comparison, skip l, OnLeft)
      else None
  end.
Definition parse (and_chain : bool) (i : nat) (n : expr) : operand :=
  let u := unwrap n in
  let invalid := Operand i Invalid n n Whole in
  let of r := match r with Some (t, e, p) => Operand i t n e p | None => invalid end in
  if is_this u then invalid
  else match strip_base u with
  | Bin And _ _ | Bin Or _ _ => invalid
  | _ =>
      match u with
      | Bin o l r =>
          let check :=
            if is_nullish r || is_str r then parse_check and_chain o l r OnLeft TypeofLeft
            else if is_nullish l || is_str l then parse_check and_chain o r l OnRight TypeofRight
            else None in
          match check with Some c => of (Some c) | None => of (parse_comparison o l r) end
      | Pre Not e => if is_this e then invalid else Operand i (if and_chain then NegAnd else Neg) n e Negated
      | _ => Operand i Plain n u Whole
      end
  end.

(** 1620-1642 [collectOperands]; [spine] also keeps the parentheses between the operands. *)
Inductive spine_item := SOpen | SClose | SOp | SLeaf (e : expr).
Fixpoint spine (o : op) (e : expr) : list spine_item :=
  match e with
  | Bin o' l r => if op_eqb o' o then spine o l ++ SOp :: spine o r else [SLeaf e]
  | Paren e' => match skip e' with Bin o' _ _ => if op_eqb o' o then SOpen :: spine o e' ++ [SClose] else [SLeaf e] | _ => [SLeaf e] end
  | _ => [SLeaf e]
  end.
Fixpoint leaves (l : list spine_item) : list expr := match l with [] => [] | SLeaf e :: l => e :: leaves l | _ :: l => leaves l end.
Definition number {A} (l : list A) : list (nat * A) := combine (seq 0 (length l)) l.
Definition operands (o : op) (e : expr) : list operand := map (fun p => parse (op_eqb o And) (fst p) (snd p)) (number (leaves (spine o e))).

(** The options (options.go). *)
Record options := Options {
  unsafe : bool; check_any : bool; check_bigint : bool; check_boolean : bool; check_number : bool; check_string : bool; check_unknown : bool; require_nullish : bool }.

(** Pieces of text: the base (in parentheses that are added, 1299-1301), a name, an index with its brackets, arguments. *)
Inductive piece := PBase (e : expr) (wrap : bool) | PName (private : bool) (n : bstr) | PIndex (i : expr) | PArgs (types : option (list tynode)) (args : exprs).
(** 626-633 [ChainPart]; [bang]: the text ends in the [!] of an assertion; [cut]: the last character is missing (1356).
    [requiresDot], [isPrivate] and [isCall] are seen from the piece. *)
Record part := Part { what : piece; bang : bool; cut : bool; optional : bool; non_null : bool }.
Definition piece_eqb (a c : piece) : bool :=
  match a, c with
  | PBase e w, PBase e' w' => expr_eqb e e' && Bool.eqb w w'
  | PName p n, PName p' n' => Bool.eqb p p' && beqb n n'
  | PIndex i, PIndex i' => expr_eqb i i'
  | PArgs t x, PArgs t' x' => opt2 (all2 ty_eqb) t t' && exprs_eqb x x'
  | _, _ => false
  end.
Definition text_eqb (a c : part) : bool := piece_eqb (what a) (what c) && Bool.eqb (bang a) (bang c).
(** 635-640 [baseText] of two parts. *)
Definition base_text_eqb (a c : part) : bool := piece_eqb (what a) (what c) && Bool.eqb (bang a && negb (non_null a)) (bang c && negb (non_null c)).
Definition call_part (p : part) : bool := match what p with PArgs _ _ => true | _ => false end.
Definition private_part (p : part) : bool := match what p with PName p _ => p | _ => false end.
(** 1203-1319 [flattenForFix]. *)
Fixpoint flatten_ (above : bool) (e : expr) : list part :=
  match e with
  | Paren i => match i with Await _ | Yield _ => [Part (PBase e false) false false false false] | _ => flatten_ above i end
  | NonNull i => flatten_ true i
  | Dot o p n q => flatten_ false o ++ [Part (PName p n) above false q above]
  | Elem o i q => flatten_ false o ++ [Part (PIndex i) above false q above]
  | Call f t x q => flatten_ false f ++ [Part (PArgs t x) false false q false]
  | As _ _ | Cast _ _ => [Part (PBase e true) false false false above]
  | _ => [Part (PBase e false) (above && is_id e) false false above]
  end.
Definition flatten (e : expr) : list part := flatten_ false e.
Definition depth (e : expr) : nat := length (flatten e).

(** Tokens of expressions. *)
Inductive tok :=
| TOpen | TClose | TLeaf (e : expr) | TDot (private : bool) (n : bstr) (q : bool) | TIdx (i : expr) (q : bool) | TArgs (types : option (list tynode)) (args : exprs) (q : bool)
| TBang | TOp (o : op) | TPre (p : pre) | TPost (k : bstr) | TAs (t : bstr) | TCast (t : bstr) | TTypeof | TVoid | TAwait | TYield | TCut (ts : list tok).
Fixpoint text (e : expr) : list tok :=
  match e with
  | Dot o p n q => text o ++ [TDot p n q]
  | Elem o i q => text o ++ [TIdx i q]
  | Call f t x q => text f ++ [TArgs t x q]
  | NonNull e => text e ++ [TBang]
  | Paren e => TOpen :: text e ++ [TClose]
  | As e t => text e ++ [TAs t]
  | Cast t e => TCast t :: text e
  | Bin o l r => text l ++ TOp o :: text r
  | Pre p e => TPre p :: text e
  | Post k e => text e ++ [TPost k]
  | Typeof e => TTypeof :: text e
  | Void e => TVoid :: text e
  | Await e => TAwait :: text e
  | Yield e => TYield :: text e
  | _ => [TLeaf e]
  end.
Definition member (n : nat) (l : list nat) : bool := existsb (Nat.eqb n) l.
(** The text of a part with or without [?.] before it; [cut]: the last character is missing. *)
Definition part_text (p : part) (q : bool) : list tok :=
  let ts := match what p with
            | PBase e w => if w then TOpen :: text e ++ [TClose] else text e
            | PName pr n => [TDot pr n q] | PIndex i => [TIdx i q] | PArgs t x => [TArgs t x q]
            end ++ (if bang p then [TBang] else []) in
  if cut p then [TCut ts] else ts.
(** 1329-1343; the second test of [part.optional] (1363) finds nothing more. *)
Definition opt_at (parts : list part) (lengths : list nat) (call_opt : bool) (i : nat) : bool :=
  match i, nth_error parts i with
  | S _, Some p => member i lengths || optional p || (call_part p && Nat.eqb i (length parts - 1) && call_opt)
  | _, _ => false
  end.
(** 1321-1372 [buildOptionalChain]. *)
Definition build (parts : list part) (lengths : list nat) (call_opt strip : bool) : option (list tok) :=
  let top := fold_right Nat.max 0 lengths in
  if existsb (fun x => opt_at parts lengths call_opt (fst x) && private_part (snd x)) (number parts) then None
  else Some (flat_map (fun x =>
    let '(i, p) := x in
    let p := if strip && Nat.ltb i (length parts - 1) && opt_at parts lengths call_opt (S i) && non_null p && Nat.ltb i top
             then (if bang p then Part (what p) false (cut p) (optional p) (non_null p) else Part (what p) false true (optional p) (non_null p)) else p in
    part_text p (opt_at parts lengths call_opt i)) (number parts)).

(** 169-230. *)
Record analysis := Analysis { a_null : bool; a_undef : bool; a_both : bool }.
Definition only_null (a : analysis) : bool := a_null a && negb (a_undef a) && negb (a_both a).
Definition only_undef (a : analysis) : bool := negb (a_null a) && a_undef a && negb (a_both a).
Definition incomplete (a : analysis) : bool := only_null a || only_undef a.
Definition analyze1 (or_mode : bool) (o : operand) : analysis :=
  match typ o with
  | NotNull | IsNull => Analysis true false false
  | NotUndef | IsUndef | TypeofCheck => Analysis false true false
  | NotBoth | EqBoth => Analysis false false true
  | Neg => Analysis false false or_mode
  | Plain => Analysis false false (negb or_mode)
  | Comparison =>
      match binary (node o) with
      | Some (Eq2, l, r) => Analysis false false (is_null l || is_null r || is_undefined l || is_undefined r)
      | Some (Eq3, l, r) => Analysis (is_null l || is_null r) (is_undefined l || is_undefined r) false
      | _ => Analysis false false false
      end
  | _ => Analysis false false false
  end.
Definition analyze (or_mode : bool) (chain : list operand) : analysis :=
  fold_right (fun o a => let x := analyze1 or_mode o in Analysis (a_null x || a_null a) (a_undef x || a_undef a) (a_both x || a_both a)) (Analysis false false false) chain.

(** What is reported on a node: the operands from [first] to [last] are replaced by [new], or the whole node. *)
Record fix_ := Fix { whole : bool; first : nat; last_ : nat; new : list tok; suggestion : bool }.
Definition last_of (chain : list operand) (d : operand) : operand := List.last chain d.
Definition nobody : operand := Operand 0 Invalid Null Null Whole.
Definition final (chain : list operand) : operand := List.last chain nobody.
Definition start (chain : list operand) : operand := hd nobody chain.
(** The operand before the last. *)
Definition previous (chain : list operand) : operand := final (removelast chain).

(** The tokens of the spine between operand [i] and the next. *)
Fixpoint between (o : op) (i : nat) (l : list spine_item) : list tok :=
  match l with
  | [] => []
  | SLeaf _ :: l => match i with
                    | 0 => (fix upto l := match l with SOpen :: l => TOpen :: upto l | SClose :: l => TClose :: upto l | SOp :: l => TOp o :: upto l | _ => [] end) l
                    | S i => between o i l
                    end
  | _ :: l => between o i l
  end.
(** How many parentheses are around the node. *)
Fixpoint parens (e : expr) : nat := match e with Paren e => S (parens e) | _ => 0 end.
Definition opens (e : expr) : list tok := repeat TOpen (parens e).
Definition closes (e : expr) : list tok := repeat TClose (parens e).

Section Rule.
Variable opts : options.
(** [GetTypeAtLocation] of a node in operand [i]. *)
Variable type_at : nat -> expr -> ty.
(** 3300-3301: what typeof is asked of in operand [i] has no declaration. *)
Variable undeclared : nat -> bool.
(** The number of characters of a text (3038). *)
Variable width : part -> nat.

Definition type_of (o : operand) : ty := type_at (idx o) (compared o).

(** 938-991. *)
Definition call_extension (and_chain : bool) (prev cur : operand) : bool :=
  if unsafe opts then true
  else if and_chain then is_plain prev && is_plain cur
  else (otype_eqb (typ prev) Neg && otype_eqb (typ cur) Neg) || (or_nullish_check prev && or_nullish_check cur).
Definition extends (and_chain : bool) (lst : expr) (cur first : expr) : bool :=
  (is_call (skip lst) || is_new (skip lst)) && negb (and_chain && rooted_in_new first) && prefix lst cur.
(** 1988-2032. *)
Definition should_stop (prev : operand) : bool :=
  if negb (strict_check (typ prev)) then false
  else
    let e := skip (compared prev) in
    let call := is_call e || is_new e in
    let element := match e with Elem _ _ _ => true | _ => false end in
    if negb call && negb element then false
    else
      let t := type_of prev in
      let null := has_null t || any_or_unknown t in let undef := has_undef t || any_or_unknown t in
      let partial := negb (only_any t) && null && undef in
      let mismatched := negb (only_any t) && negb undef && negb null in
      if call then partial || mismatched else mismatched || (partial && negb (unsafe opts)).
(** 2034-2065, the && half; the || half is not called. *)
Definition complementary (a c : operand) : bool :=
  match compare (compared a) (compared c) with
  | Equal =>
      let null o := otype_eqb (typ o) NotNull in
      let undef o := otype_eqb (typ o) NotUndef || otype_eqb (typ o) TypeofCheck in
      (null a && undef c) || (undef a && null c)
  | _ => false
  end.
(** 2067-2085. *)
Definition consistent (t u : otype) : bool :=
  let null x := match x with NotNull | IsNull => true | _ => false end in
  let undef x := match x with NotUndef | IsUndef | TypeofCheck => true | _ => false end in
  loose_check t || loose_check u || (null t && undef u) || (undef t && null u) || (null t && null u) || (undef t && undef u).

Definition keep (all : list (list operand)) (cur : list operand) : list (list operand) := if Nat.leb 2 (length cur) then all ++ [cur] else all.
Definition cmp_extended (and_chain : bool) (cur : list operand) (o : operand) : cmp :=
  let lst := final cur in
  match compare (compared lst) (compared o) with
  | Unrelated => if call_extension and_chain lst o && extends and_chain (compared lst) (compared o) (compared (start cur)) then Subset else Unrelated
  | c => c
  end.
(** 1761-1888 [buildAndChains], the loop; [lastExpr] is always what the last operand of the chain compares. *)
Fixpoint and_loop (all : list (list operand)) (cur : list operand) (lt : otype) (complete : bool) (ops : list operand) {struct ops} : list (list operand) :=
  match ops with
  | [] => keep all cur
  | o :: rest =>
      let opening := if is_plain o then Invalid else typ o in
      if match typ o with Invalid | NegAnd | EqBoth | IsNull | IsUndef => true | _ => false end then and_loop (keep all cur) [] Invalid false rest
      else match cur with
      | [] => if other_comparison o then and_loop all [] lt complete rest else and_loop all [o] (if is_plain o then lt else typ o) false rest
      | _ =>
          if complete then and_loop (keep all cur) [o] opening false rest
          else if should_stop (final cur) then keep all cur
          else
            let c := cmp_extended true cur o in
            let go_on :=
              if nullish_check (typ o) && negb (otype_eqb lt Invalid) && negb (consistent lt (typ o)) then keep all cur
              else match c with
              | Subset | Equal => and_loop all (cur ++ [o]) (if nullish_check (typ o) then typ o else lt) (other_comparison o) rest
              | _ => and_loop (keep all cur) [o] opening false rest
              end in
            match c, rest with
            | Equal, o2 :: rest2 => if complementary o o2 then and_loop all (cur ++ [o; o2]) lt complete rest2 else go_on
            | _, _ => go_on
            end
      end
  end.
(** 1890-1905: repeated plain operands at the end are dropped; [rev] has the last operand first. *)
Fixpoint trim (rev : list operand) : list operand :=
  match rev with
  | l :: ((p :: _) as rest) => if is_plain l && is_plain p && match compare (compared p) (compared l) with Equal => true | _ => false end then trim rest else rev
  | _ => rev
  end.
Definition and_chains (ops : list operand) : list (list operand) := map (fun c => rev (trim (rev c))) (and_loop [] [] Invalid false ops).

(** 888-933. *)
Definition bad_or_start (o : operand) : bool :=
  match typ o, binary (node o) with
  | Comparison, Some (k, l, r) =>
      match k with
      | Eq3 => negb (is_nullish l) && negb (is_nullish r)
      | Ne2 | Ne3 => (is_nullish l || is_nullish r) && id_or_this (if is_nullish r then l else r)
      | _ => false
      end
  | _, _ => false
  end.
(** 863-883. *)
Definition or_operand (t : otype) : bool := match t with Invalid | NegAnd => false | _ => true end.
(** 1910-1986 [buildOrChains], the loop. *)
Fixpoint or_loop (chain : list operand) (ops : list operand) : list operand :=
  match ops with
  | [] => chain
  | o :: rest =>
      if negb (or_operand (typ o)) then (if Nat.leb 2 (length chain) then chain else or_loop [] rest)
      else match chain with
      | [] => if bad_or_start o then or_loop [] rest else or_loop [o] rest
      | _ =>
          let l := final chain in
          let c := cmp_extended false chain o in
          match c with
          | Subset | Equal =>
              let repeated := match c with Equal => other_comparison o | _ => false end in
              let blocked := repeated && match typ l with Neg | NotNull | NotUndef | NotBoth | Plain => true | _ => other_comparison l end in
              if blocked && Nat.leb 2 (length chain) then chain
              else if blocked && other_comparison l then or_loop [] rest
              else or_loop (chain ++ [o]) rest
          | _ => if Nat.leb 2 (length chain) then chain else or_loop [o] rest
          end
      end
  end.
Definition or_chains (ops : list operand) : list (list operand) := let c := or_loop [] ops in if Nat.ltb (length c) 2 then [] else [c].

(** 1644-1712 [validateChain]. *)
Definition same_base (chain : list operand) : bool := forallb (fun o => same (base (compared (start chain))) (base (compared o))) (tl chain).
Definition has_access (chain : list operand) : bool := existsb (fun o => is_access (skip (compared o))) chain.
Definition skip_require_nullish (and_chain : bool) (chain : list operand) : bool :=
  if negb (require_nullish opts) then false
  else if negb and_chain && otype_eqb (typ (start chain)) Neg then true
  else forallb is_plain chain && negb (and_chain && existsb (fun o => explicit_nullish (type_of o)) (removelast chain)).
Definition valid_chain (and_chain : bool) (chain : list operand) : bool :=
  Nat.leb 2 (length chain) && same_base chain && has_access chain && negb (skip_require_nullish and_chain chain).

(** 1422-1432. *)
Definition rest_chained (chain : list operand) : bool := forallb (fun o => has_chain (compared o)) (tl chain).
(** 2803-2820. *)
Definition all_same (chain : list operand) : bool := forallb (fun o => all2 text_eqb (flatten (compared (start chain))) (flatten (compared o))) (tl chain).
(** 2822-2833. *)
Definition split_strict (chain : list operand) : bool :=
  match chain with
  | [a; c] =>
      let undef o := otype_eqb (typ o) NotUndef || otype_eqb (typ o) TypeofCheck in
      let null o := otype_eqb (typ o) NotNull in
      (undef a && null c) || (null a && undef c)
  | _ => false
  end.
(** 2835-2876; no operand of an && chain is negated. *)
Definition skip_optimal (chain : list operand) : bool :=
  rest_chained chain && existsb (fun o => strict_check (typ o)) chain
  && forallb (fun o => match typ o with Neg | NegAnd => false | t => negb (loose_check t) end) chain && both_nullish (type_of (start chain)).
(** 1173-1201 [shouldSkipByType]. *)
Definition skip_by_type (o : operand) : bool :=
  let t := type_at (idx o) (base (compared o)) in
  if require_nullish opts && explicit_nullish t then false
  else (has_any t && negb (check_any opts)) || (has_bigint t && negb (check_bigint opts)) || (has_boolean t && negb (check_boolean opts))
       || (has_number t && negb (check_number opts)) || (has_string t && negb (check_string opts)) || (has_unknown t && negb (check_unknown opts)).
(** 2123-2184: two operands, the second has a [?.] already. *)
Definition starts_with (f : part -> part -> bool) (l m : list part) : bool := all2 f l (firstn (length l) m).
Definition two_skipped (chain : list operand) : bool :=
  match chain with
  | [a; c] =>
      if negb (has_chain (compared c)) then false
      else
        let l := flatten (compared a) in let m := flatten (compared c) in
        let redundant := Nat.eqb (length m) (length l + 1) && starts_with (fun x y => text_eqb x y && Bool.eqb (optional x) (optional y)) l m
                         && match nth_error m (length l) with Some p => optional p | None => false end in
        (negb redundant && Nat.ltb (length l) (length m) && starts_with text_eqb l m && existsb optional (skipn (length l) m))
        || (otype_eqb (typ c) Comparison && redundant)
  | _ => false
  end.
(** 2241-2317. *)
Definition incomplete_check (chain : list operand) : bool :=
  let lst := final chain in
  let shorter := trailing_comparison (typ lst) || (is_plain lst && Nat.ltb (depth (compared (previous chain))) (depth (compared lst))) in
  let guards := if Nat.leb 2 (length chain) && shorter then removelast chain else chain in
  let a := analyze false guards in
  let cut_ := Nat.leb 2 (length chain) && Nat.ltb (length guards) (length chain) in
  let t := type_of (start guards) in
  let complete := negb (any_or_unknown t) && ((a_null a && negb (a_undef a) && has_null t && negb (has_undef t)) || (negb (a_null a) && a_undef a && has_undef t && negb (has_null t))) in
  negb (a_both a) && negb (existsb (fun o => otype_eqb (typ o) TypeofCheck) guards) && negb (cut_ && otype_eqb (typ lst) NotBoth)
  && negb (cut_ && has_chain (compared lst)) && negb (negb (nullish_type t)) && negb complete && incomplete a.
(** 2319-2390. *)
Definition safe_value (o : op) (t : ty) : bool :=
  match o with
  | Eq2 => negb (can_nullish t)
  | Eq3 => negb (can_undef t)
  | Ne2 => always_nullish t
  | Ne3 => always_undef t
  | Rel _ => false
  | _ => true
  end.
Definition unsafe_trailing (chain : list operand) : bool :=
  let lst := final chain in
  let trailing := otype_eqb (typ lst) Comparison
                  || (match typ lst with NotNull | NotUndef | NotBoth => true | _ => false end && Nat.ltb (depth (compared (previous chain))) (depth (compared lst))) in
  match binary (node lst) with
  | Some (k, l, r) =>
      let value := if same (compared lst) l then Some r else if same (compared lst) r then Some l else if is_access l then Some r else if is_access r then Some l else None in
      trailing && match value with Some v => negb (safe_value k (type_at (idx lst) v)) && negb (unsafe opts) | None => false end
  | None => false
  end.
(** 2098-2237 [validateAndChainForReporting]. *)
Definition and_reported (chain : list operand) : bool :=
  let fst_ := start chain in
  if is_plain fst_ && has_chain (compared fst_) then false
  else if strict_check (typ fst_) && has_chain (compared fst_) && negb (split_strict chain) then false
  else if all_same chain then false
  else if skip_optimal chain then false
  else if two_skipped chain then false
  else if is_plain fst_ && has_void (type_of fst_) then false
  else if negb (unsafe opts) && (existsb (fun o => match node o with NonNull _ => true | _ => false end) chain || incomplete_check chain) then false
  else if is_plain fst_ && (skip_by_type fst_ || (changes_type (type_of fst_) && negb (unsafe opts))) then false
  else if Nat.eqb (length chain) 2 && existsb (fun o => otype_eqb (typ o) TypeofCheck && negb (nullish_type (type_of o))) chain && is_call (skip (compared (final chain))) then false
  else negb (unsafe_trailing chain).

(** 3234-3269: the comparison around the chain; if the node is in parentheses nothing is added. *)
Definition around (o : operand) (code : list tok) : list tok :=
  match node o with
  | Bin k l r =>
      match place_of o with
      | TypeofLeft => opens l ++ TTypeof :: code ++ closes l ++ TOp k :: text r
      | TypeofRight => text l ++ TOp k :: opens r ++ TTypeof :: code ++ closes r
      | OnRight => text l ++ TOp k :: opens r ++ code
      | _ => match parens l with 0 => code ++ TOp k :: text r | _ => opens l ++ code end
      end
  | _ => code
  end.
(** 2919-3027: which operand the new chain ends with and how. *)
Inductive ending := EPlain | ETrailing | EComplementary | ELooseStrict.
Definition loose_strict (chain : list operand) : bool :=
  let p := previous chain in let before := removelast (removelast chain) in
  Nat.leb 3 (length chain) && is_plain (final chain) && strict_check (typ p)
  && negb (existsb (fun o => match compare (compared o) (compared p) with
                             | Equal => (otype_eqb (typ p) NotNull && (otype_eqb (typ o) NotUndef || otype_eqb (typ o) TypeofCheck)) || (otype_eqb (typ p) NotUndef && otype_eqb (typ o) NotNull)
                             | _ => false end) before)
  && match find (fun o => loose_check (typ o)) (rev before) with
     | Some o => match compare (compared o) (compared p) with Subset => true | _ => false end
     | None => false
     end.
(** 2921-2942: [compareNodes] is asked with the last operand first. *)
Definition ends_complementary (chain : list operand) : bool :=
  let l := final chain in let p := previous chain in
  let undef o := otype_eqb (typ o) NotUndef || otype_eqb (typ o) TypeofCheck in
  let null o := otype_eqb (typ o) NotNull in
  Nat.leb 2 (length chain) && match compare (compared l) (compared p) with Equal => (undef l && null p) || (null l && undef p) | _ => false end.
Definition ending_of (chain : list operand) : ending :=
  if ends_complementary chain then EComplementary
  else if loose_strict chain then ELooseStrict
  else if is_plain (final chain) then EPlain else ETrailing.
(** The operand whose access is written anew. *)
Definition source (chain : list operand) : operand := match ending_of chain with EComplementary | ELooseStrict => previous chain | _ => final chain end.
(** 3046-3118: the lengths that get a [?.]; [nodup] since they are kept as the keys of a map. *)
Definition checks (chain : list operand) : list operand := if is_plain (final chain) then removelast chain else chain.
Definition lengths_of (chain : list operand) : list nat :=
  let cs := checks chain in
  let others := existsb (fun o => negb (otype_eqb (typ o) TypeofCheck)) cs in
  map (fun o => depth (compared o)) (filter (fun o => negb (otype_eqb (typ o) TypeofCheck && others)) cs).
Definition filled (chain : list operand) : list nat :=
  let ls := lengths_of chain in
  match nodup Nat.eq_dec ls with
  | [1] =>
      let ps := flatten (node (final chain)) in
      let n := length ps - 1 in
      let upto := if is_plain (final chain) then (if Nat.ltb 0 n && call_part (List.last ps (Part (PBase Null false) false false false false)) then n - 1 else n) else 1 in
      ls ++ seq 1 upto
  | _ => ls
  end.
Definition strip_bang (p : part) : part := if non_null p then Part (what p) false (cut p) (optional p) false else p.
(** 3138-3188: of the operands that are a prefix the shortest that reaches part [i], the first of them. *)
Fixpoint shortest (i : nat) (l : list (list part)) : option (list part) :=
  match l with
  | [] => None
  | x :: l =>
      if Nat.ltb i (length x) then
        match shortest i l with Some y => if Nat.ltb (length y) (length x) then Some y else Some x | None => Some x end
      else shortest i l
  end.
(** 3033-3190: the parts that are written.  [flattenForFix] caches slices that are written to here, so the operand that the parts come from is seen as they are by then. *)
Definition and_parts (chain : list operand) : list part :=
  let src := source chain in
  let src_expr := if is_plain src then node src else compared src in
  let parts := flatten src_expr in
  let parts :=
    match (if is_plain (start chain) then flatten (node (start chain)) else []), parts with
    | [f], p :: ps => if Nat.ltb (width p) (width f) then f :: ps else p :: ps
    | _, ps => ps
    end in
  let cs := checks chain in
  if Nat.ltb 0 (length cs) && Nat.ltb 1 (length parts) then
    let reach := fold_right Nat.max 0 (map (fun o => depth (compared o)) cs) in
    let parts := map (fun x => if Nat.ltb (fst x) reach then strip_bang (snd x) else snd x) (number parts) in
    let seen o := if Nat.eqb (idx o) (idx src) && negb (is_plain o) then parts else flatten (if is_plain o then node o else compared o) in
    let prefixes := filter (fun ps => starts_with base_text_eqb ps parts && Nat.leb (length ps) (length parts)) (map seen cs) in
    map (fun x => let '(i, p) := x in
      match shortest i prefixes with
      | Some ps =>
          match nth_error ps i with
          | Some r => Part (what p) (bang p || (non_null r && negb (non_null p))) (cut p) (optional r) (non_null p || non_null r)
          | None => p
          end
      | None => p
      end) (number parts)
  else parts.
(** 3192-3206. *)
Definition call_optional (chain : list operand) (parts : list part) : bool :=
  match rev parts with
  | p :: _ => call_part p && existsb (fun o => Nat.eqb (depth (compared o)) (length parts - 1)) (removelast chain)
  | [] => false
  end.
(** 3324-3383. *)
Definition and_suggestion (chain : list operand) : bool :=
  if unsafe opts then false
  else
    let l := final chain in let f := start chain in let e := ending_of chain in
    let trailing := match e with EPlain => false | _ => true end in
    let s := negb (match typ l with EqBoth | NotBoth | IsUndef | NotUndef | TypeofCheck => true | _ => false end)
             && negb trailing && negb (existsb (fun o => has_undef (type_of o) || any_or_unknown (type_of o)) chain) in
    let s := s || (match typ f with NotBoth | NotNull | NotUndef => true | _ => false end && is_plain l && negb (any_or_unknown (type_of f))) in
    s || match e with EComplementary => otype_eqb (typ l) TypeofCheck || otype_eqb (typ (previous chain)) NotNull | _ => false end.
(** 2910-3386 [generateAndChainFixAndReport]; comments are left out (3214-3232, see [moved_comments]). *)
Definition and_fix (spn : list spine_item) (count : nat) (chain : list operand) : option fix_ :=
  let parts := and_parts chain in
  match build parts (filled chain) (call_optional chain parts) false with
  | None => None
  | Some code =>
      let l := final chain in
      let new_ :=
        match ending_of chain with
        | EPlain => code
        | ETrailing => around l code
        | EComplementary | ELooseStrict => around (previous chain) code ++ between And (idx (previous chain)) spn ++ text (node l)
        end in
      let from :=
        if otype_eqb (typ (start chain)) TypeofCheck && existsb (fun o => negb (otype_eqb (typ o) TypeofCheck)) (tl chain) && undeclared (idx (start chain)) then 1 else 0 in
      Some (Fix (Nat.eqb from 0 && Nat.eqb (length chain) count) (idx (nth from chain nobody)) (idx l) new_ (and_suggestion chain))
  end.
(** The fixes for the && expression [e]. *)
Definition and_fixes (e : expr) : list fix_ :=
  let spn := spine And e in let ops := operands And e in
  if Nat.ltb (length ops) 2 then []
  else flat_map (fun c => if valid_chain true c && and_reported c then match and_fix spn (length ops) c with Some f => [f] | None => [] end else []) (and_chains ops).

(** 1109-1171 [isOrChainComparisonSafe]; comparisons with < and so on are no operands (1577-1585).  The literals: 1134-1139. *)
Definition is_literal (e : expr) : bool :=
  match e with Num _ | Str _ | True_ | False_ => true | Opaque Collection _ => true | _ => false end.
Definition or_safe (o : operand) : bool :=
  match typ o, binary (node o) with
  | Comparison, Some (k, l, r) =>
      let go v :=
        match k with
        | Ne3 => is_literal v || is_null v
        | Eq3 => is_undefined v
        | Ne2 => negb (is_null v || is_undefined v) && negb (is_id v && negb (is_literal v)) && is_literal v
        | Eq2 => is_null v || is_undefined v
        | Rel _ => false
        | _ => true
        end in
      if is_access l then go r else if is_access r then go l else true
  | _, _ => true
  end.
(** 2878-2900; no operand has the type [IsNull], which is made in && chains only. *)
Definition or_skip_optimal (chain : list operand) : bool :=
  rest_chained chain && otype_eqb (typ (start chain)) IsNull
  && let t := type_of (start chain) in negb (has_undef t) && negb (any_or_unknown t).
(** 2607-2675. *)
Definition or_skip_chained (chain : list operand) : bool :=
  let f := start chain in
  let nulls := existsb (fun o => has_null (type_of o)) chain in let undefs := existsb (fun o => has_undef (type_of o)) chain in
  let explicit := match typ f with IsNull | EqBoth => true | _ => null_comparison f end in
  let loose o :=
    match typ o with
    | NotBoth | EqBoth | Plain | Neg => true
    | Comparison =>
        match node o with
        | Bin Eq2 l r => is_null (skip l) || is_null (skip r) || is_undefined_id (skip l) || is_undefined_id (skip r)
        | _ => false
        end
    | _ => false
    end in
  rest_chained chain && ((explicit && negb nulls && negb undefs) || (negb (existsb loose chain) && Bool.eqb nulls undefs)).
(** 2677-2711. *)
Definition or_skip_negated (chain : list operand) : bool :=
  let f := start chain in
  if otype_eqb (typ f) Neg && negb (unsafe opts) then
    if negb (is_access (skip (compared f))) then
      (fix go between_ l :=
         match l with
         | [] => false
         | o :: rest =>
             let last_one := match rest with [] => true | _ => false end in
             let comparison := otype_eqb (typ o) Comparison in
             let middle := comparison && nullish_comparison o && negb last_one in
             let between_ := between_ || middle in
             if negb (otype_eqb (typ o) Neg) && negb (comparison && or_safe o) && negb middle && negb (nullish_check (typ o)) && negb (is_plain o && last_one && between_)
             then true else go between_ rest
         end) false (tl chain)
    else existsb (fun o => otype_eqb (typ o) Comparison && negb (or_safe o)) (tl chain)
  else false.
(** 2713-2733. *)
Definition or_skip_checked (chain : list operand) : bool :=
  let f := start chain in let t := type_of f in
  negb (unsafe opts) && match typ f with NotBoth | NotNull | NotUndef => true | _ => false end
  && (fix go l :=
        match l with
        | [] => false
        | o :: rest =>
            (otype_eqb (typ o) Comparison && negb (or_safe o)
             && (match rest with [] => nullish_comparison o && (both_nullish t || any_or_unknown t) | _ => false end || negb (nullish_comparison o)))
            || go rest
        end) (tl chain).
(** 2735-2759. *)
Definition or_skip_plain (chain : list operand) : bool :=
  let f := start chain in
  is_plain f
  && (match skip (compared f) with Meta _ _ => true | _ => false end
      || (negb (unsafe opts) && negb (is_access (skip (compared f))) && existsb (fun o => otype_eqb (typ o) Comparison) (tl chain))).
(** 2451-2495: the chain up to the first strict check of what can be both null and undefined. *)
Definition half_checked (o : operand) : bool :=
  negb (has_chain (compared o)) && both_nullish (type_of o)
  && match typ o with
     | NotNull | NotUndef | IsNull | IsUndef => true
     | Comparison =>
         match skip (node o) with
         | Bin Eq3 l r => xorb (is_null r || is_null l) (is_undefined r || is_undefined l)
         | _ => false
         end
     | _ => false
     end.
Fixpoint truncate (chain : list operand) : list operand :=
  match chain with
  | o :: ((_ :: _) as rest) => if half_checked o then [o] else o :: truncate rest
  | l => l
  end.
(** 2413-2443. *)
Definition strict_complete (a : analysis) (chain : list operand) : bool :=
  let nullable o := nullish_type (type_of o) in
  existsb nullable chain
  && forallb (fun o =>
       let t := type_of o in
       negb (nullable o)
       || (negb (any_or_unknown t) && negb (both_nullish t) && negb (only_null a && negb (has_null t) && has_undef t) && negb (only_undef a && has_null t && negb (has_undef t)))) chain.
(** 2392-2542 [validateOrChainNullishChecks]. *)
Definition or_checks (chain : list operand) : option (list operand) :=
  if unsafe opts then Some chain
  else
    let a := analyze true chain in
    let complete := strict_complete a chain in
    if negb (a_both a) && nullish_type (type_of (start chain)) && negb (has_chain (compared (final chain))) && negb complete && incomplete a then None
    else
      let chain := truncate chain in
      if Nat.ltb (length chain) 2 then None
      else
        let f := start chain in
        if match typ f with TypeofCheck | IsNull | IsUndef | EqBoth => true | _ => false end
           && existsb (fun o => (otype_eqb (typ o) Comparison && negb (or_safe o)) || is_plain o || otype_eqb (typ o) Neg) (tl chain) then None
        else if only_null a && negb complete then None
        else if nullish_comparison f && existsb (fun o => otype_eqb (typ o) Comparison && negb (or_safe o) && negb (nullish_comparison o)) (tl chain) then None
        else Some chain.
(** 2544-2579, 2780-2798: some operand satisfies [f] with one after it. *)
Fixpoint pair_exists (f : operand -> operand -> bool) (chain : list operand) : bool :=
  match chain with [] => false | o :: rest => existsb (f o) rest || pair_exists f rest end.
Definition guard_negated (chain : list operand) : bool :=
  pair_exists (fun g o =>
    strict_check (typ g) && (any_or_unknown (type_of g) || both_nullish (type_of g)) && otype_eqb (typ o) Neg
    && match compare (compared g) (compared o) with Equal | Subset => true | _ => false end && is_access (skip (compared o))) chain.
Definition negated_call (chain : list operand) : bool :=
  pair_exists (fun g o =>
    otype_eqb (typ g) Neg && negb (otype_eqb (typ o) Neg)
    && match skip (compared o) with Call f _ _ _ => match compare (compared g) f with Equal => true | _ => false end | _ => false end) chain.
(** 2581-2801 [validateOrChainForReporting]. *)
Definition or_reported (chain : list operand) : option (list operand) :=
  if forallb is_plain chain then None
  else if or_skip_optimal chain then None
  else if all_same chain then None
  else if or_skip_chained chain then None
  else if or_skip_negated chain || or_skip_checked chain || or_skip_plain chain then None
  else match or_checks chain with
  | None => None
  | Some chain =>
      if Nat.ltb (length chain) 2 then None
      else if negb (unsafe opts) && guard_negated chain then None
      else if negb (unsafe opts) && existsb (fun o => (is_plain o || otype_eqb (typ o) Neg) && changes_type (type_of o)) chain then None
      else if negated_call chain then None
      else Some chain
  end.
(** 3397-3408: a plain operand at the end is left as it is. *)
Definition or_trailing_plain (chain : list operand) : bool :=
  Nat.leb 3 (length chain) && is_plain (final chain) && negb (unsafe opts) && nullish_operand (previous chain)
  && Nat.ltb (depth (compared (previous chain))) (depth (compared (final chain))).
(** 3477-3510: the comparison after the chain. *)
Definition or_around (o : operand) (code : list tok) : list tok :=
  if comparison_or_null (typ o) then
    match node o with
    | Bin k l r =>
        let yoda := match place_of o with OnLeft => negb (Nat.eqb (parens l) 0) | _ => true end in
        if yoda then code ++ TOp k :: text l else code ++ TOp k :: text r
    | _ => code
    end
  else if otype_eqb (typ o) Neg then TPre Not :: code else code.
(** 3533-3610. *)
Definition or_suggestion (chain : list operand) : bool :=
  let l := final chain in
  if unsafe opts then false
  else
    let s := negb (match typ l with Neg | EqBoth | NotBoth | IsUndef | NotUndef | TypeofCheck => true | _ => false end) in
    let a := analyze true chain in
    let matching :=
      let nullable o := nullish_type (type_of o) in
      existsb nullable chain
      && forallb (fun o =>
           let t := type_of o in
           negb (nullable o)
           || (negb (any_or_unknown t) && negb (both_nullish t) && negb (only_null a && (negb (has_null t) || has_undef t)) && negb (only_undef a && (has_null t || negb (has_undef t))))) chain in
    let shorter_undef := strict_null_or l && existsb (fun o => strict_undef_or o && Nat.ltb (depth (compared o)) (depth (compared l))) (removelast chain) in
    let s := s && negb (comparison_or_null (typ l) && negb ((incomplete a && matching) || shorter_undef)) in
    s && negb (existsb (fun o => any_or_unknown (type_of o) || both_nullish (type_of o)) chain).
(** 3388-3613 [generateOrChainFixAndReport]. *)
Definition or_fix (spn : list spine_item) (count : nat) (chain : list operand) : option fix_ :=
  let tail := or_trailing_plain chain in
  let chain' := if tail then removelast chain else chain in
  let f := start chain in
  if Nat.eqb (length chain) 2 && negb tail && (has_chain (compared f) || has_chain (node f)) then None
  else
    let l := final chain' in
    let parts := flatten (if is_plain l then node l else compared l) in
    let lengths := map (fun o => depth (compared o)) (if is_plain l then removelast chain' else chain') in
    let call_opt := match rev parts with p :: _ => call_part p && existsb (fun o => Nat.eqb (depth (node o)) (length parts - 1)) (removelast chain') | [] => false end in
    match build parts lengths call_opt true with
    | None => None
    | Some code =>
        let new_ := or_around l code ++ (if tail then between Or (idx (previous chain)) spn ++ text (node (final chain)) else []) in
        Some (Fix (Nat.eqb (length chain) count) (idx f) (idx (final chain)) new_ (or_suggestion chain))
    end.
Definition or_fixes (e : expr) : list fix_ :=
  let spn := spine Or e in let ops := operands Or e in
  if Nat.ltb (length ops) 2 then []
  else flat_map (fun c => if valid_chain false c then match or_reported c with Some c => match or_fix spn (length ops) c with Some f => [f] | None => [] end | None => [] end else []) (or_chains ops).
End Rule.

(** The text of the node after a fix: [skipping] is true inside what is replaced. *)
Fixpoint replace (o : op) (from upto i : nat) (new : list tok) (l : list spine_item) : list tok :=
  match l with
  | [] => []
  | SLeaf e :: l => (if Nat.eqb i from then new else if Nat.ltb from i && Nat.leb i upto then [] else text e) ++ replace o from upto (S i) new l
  | x :: l =>
      (if Nat.ltb from i && Nat.leb i upto then [] else match x with SOpen => [TOpen] | SClose => [TClose] | _ => [TOp o] end) ++ replace o from upto i new l
  end.
Definition fixed (o : op) (e : expr) (f : fix_) : list tok := if whole f then new f else replace o (first f) (last_ f) 0 (new f) (spine o e).

(** 3214-3232: the comments before the operands other than the first are put in front of the chain; [gaps] is what stands before each of these. *)
Definition blank (c : ascii) : bool := existsb (Ascii.eqb c) [" "%char; "009"%char; "010"%char; "013"%char].
Fixpoint trim_left (s : bstr) : bstr := match s with c :: s' => if blank c then trim_left s' else s | [] => [] end.
Definition moved_comments (gaps : list bstr) : bstr := trim_left (concat gaps).

(** 3615-3720 [handleEmptyObjectPattern].  Where the || or ?? expression [node] is in the access: its object or its index (3644-3652 do not look which);
    [inside]: in parentheses there. *)
Inductive role := AsObject | AsIndex.
Record access := Access { the_role : role; inside : bool; other : expr; a_private : bool; a_name : bstr; by_name : bool; a_optional : bool }.
(** The access with [node] in it; with [by_name] the node is the object. *)
Definition access_expr (a : access) (n : expr) : expr :=
  let n := if inside a then Paren n else n in
  if by_name a then Dot n (a_private a) (a_name a) (a_optional a)
  else match the_role a with AsObject => Elem n (other a) (a_optional a) | AsIndex => Elem (other a) n (a_optional a) end.
(** 3681-3689. *)
Definition needs_parens (e : expr) : bool :=
  match e with Opaque (Conditional | Delete) _ | Await _ | Bin _ _ _ | Pre _ _ | As _ _ | Void _ | Typeof _ | Post _ _ => true | _ => false end.
