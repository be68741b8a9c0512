(** Model of internal/rules/no_unnecessary_type_conversion/no_unnecessary_type_conversion.go.

    Nodes are the trees of Js.v in their contexts, positions count tokens.  White space and comments are left out: node
    positions and trimmed positions are the same.  Types and the question whether a callee is a function of the library
    are parameters. *)
From Coq Require Import String Ascii Bool List ZArith.
From Verif Require Import Base Types Fixer Js.
Import ListNotations.
Open Scope Z_scope.

Definition BigIntLike := [FBigInt; FBigIntLiteral].
(** Lines 60-64. *)
Definition matches (t : ty) (mask : list flag) : bool := forallb (fun p => is_set p mask) (union_parts t).
(** Lines 66-68. *)
Definition is_empty_string (t : tree) : bool := match t with Atom (AStr []) => true | _ => false end.
(** Line 95: [strconv.ParseFloat] of what a number prints as, and whether the float is its integer part: digits, with a fraction no
    integer, with a positive exponent an integer again.  [NaN] is none, an infinity is one. *)
Definition is_digit (c : Z) : bool := (48 <=? c) && (c <=? 57).
Fixpoint plain_number (s : list Z) : bool :=
  match s with
  | [] => true
  | 46 :: s => (fix fraction s := match s with [] => false | 101 :: 43 :: _ => true | c :: s => if is_digit c then fraction s else false end) s
  | 101 :: 43 :: _ => true
  | c :: s => if is_digit c then plain_number s else false
  end.
Definition infinity : list Z := [73; 110; 102; 105; 110; 105; 116; 121].
Definition integral (s : list Z) : bool :=
  let s := match s with 45 :: s => s | _ => s end in
  match s with
  | [] => false
  | c :: _ => (is_digit c && plain_number s) || (if list_eq_dec Z.eq_dec s infinity then true else false)
  end.
(** Lines 79-102. *)
Definition all_integers (t : ty) : bool :=
  match union_parts t with
  | [] => false
  | l => forallb (fun p => if negb (is_set p [FNumberLiteral]) then false else integral (t_text p)) l
  end.
(** [strings.ToLower], ASCII only. *)
Definition lower (s : bstr) : bstr := map (fun c => let n := nat_of_ascii c in if (65 <=? n)%nat && (n <=? 90)%nat then ascii_of_nat (n + 32) else c) s.

(** Range of the conversion, range of the expression, context and node replaced, the expression, the type named, whether it is [+=]. *)
Record report := Report { conv : Z * Z; expr_range : Z * Z; outer : list frame; node : tree; inner : tree; primitive : bstr; assigned : bool }.
Definition pos (c : list frame) : Z := zlen (before c).
Definition size (t : tree) : Z := zlen (print t).

Section Rule.
(** [utils.GetConstrainedTypeAtLocation], lines 74-77, [utils.IsBuiltinSymbolLike] of the type of the callee. *)
Variables (type_of : tree -> ty) (enum_member : ty -> bool) (builtin_symbol : tree -> list bstr -> bool).

(** Lines 192-227. *)
Definition binary_plus (c : list frame) (l r : tree) : option report :=
  let n := Bin OPlus l r in
  if is_empty_string r then
    if matches (type_of l) StringLike then Some (Report (pos c + size l, pos c + size n) (pos c, pos c + size l) c n l (b "string") false) else None
  else if is_empty_string l then
    if matches (type_of r) StringLike then Some (Report (pos c, pos c + size l + 1) (pos c + size l + 1, pos c + size n) c n r (b "string") false) else None
  else None.
(** Lines 229-271; the variable and [+=] are one token. *)
Definition plus_equals (c : list frame) (x : bstr) (r : tree) : option report :=
  let n := Pre (UAssign x true) r in
  if negb (is_empty_string r) then None
  else if negb (matches (type_of (Atom (AId x))) StringLike) then None
  else Some (Report (pos c, pos c + size n) (pos c, pos c + 1) c n (Atom (AId x)) (b "string") true).
(** Lines 18-23, 289-306. *)
Definition builtins (name : bstr) : option (list flag * list bstr) :=
  if beqb name (b "BigInt") then Some (BigIntLike, [b "BigInt"; b "BigIntConstructor"])
  else if beqb name (b "Boolean") then Some (BooleanLike, [b "Boolean"; b "BooleanConstructor"])
  else if beqb name (b "Number") then Some (NumberLike, [b "Number"; b "NumberConstructor"])
  else if beqb name (b "String") then Some (StringLike, [b "String"; b "StringConstructor"])
  else None.
(** Lines 273-333; a comma makes more than one argument. *)
Definition conversion_call (c : list frame) (f a : tree) : option report :=
  match f with
  | Atom (AId name) =>
      match a with
      | Bin OComma _ _ | Pre USpread _ => None
      | _ =>
          match builtins name with
          | None => None
          | Some (mask, names) =>
              if negb (builtin_symbol f names) then None
              else if negb (matches (type_of a) mask) then None
              else Some (Report (pos c, pos c + size f) (pos c + size f + 1, pos c + size f + 1 + size a) c (Call f a) a (lower name) false)
          end
      end
  | _ => None
  end.
(** Lines 335-364. *)
Definition to_string_call (c : list frame) (f : tree) : option report :=
  match f with
  | Member t n =>
      if negb (beqb n (b "toString")) then None
      else if is_set (type_of t) EnumLike || enum_member (type_of t) then None
      else if negb (matches (type_of t) StringLike) then None
      else Some (Report (pos c + size t + 1, pos c + size (Call0 f)) (pos c, pos c + size t) c (Call0 f) t (b "string") false)
  | _ => None
  end.
(** Lines 366-448. *)
Definition prefix_unary (c : list frame) (u : prefix) (t : tree) : option report :=
  match u with
  | UPlus => if matches (type_of t) NumberLike then Some (Report (pos c, pos c + 1) (pos c + 1, pos c + 1 + size t) c (Pre u t) t (b "number") false) else None
  | UNot =>
      match c with
      | FPre UNot :: c' =>
          if matches (type_of t) BooleanLike then Some (Report (pos c', pos c + 1) (pos c + 1, pos c + 1 + size t) c' (Pre UNot (Pre u t)) t (b "boolean") false) else None
      | _ => None
      end
  | UTilde =>
      match c with
      | FPre UTilde :: c' =>
          if all_integers (type_of t) then Some (Report (pos c', pos c + 1) (pos c + 1, pos c + 1 + size t) c' (Pre UTilde (Pre u t)) t (b "number") false) else None
      | _ => None
      end
  | _ => None
  end.
(** Lines 450-470. *)
Definition reported (c : list frame) (t : tree) : option report :=
  match t with
  | Bin OPlus l r => binary_plus c l r
  | Pre (UAssign x true) r => plus_equals c x r
  | Call f a => conversion_call c f a
  | Call0 f => to_string_call c f
  | Pre u t => prefix_unary c u t
  | _ => None
  end.
End Rule.

(** ** Suggestions *)
(** internal/utils/ts_eslint.go 585-600 [IsStrongPrecedenceNode]. *)
Definition strong (t : tree) : bool :=
  match t with
  | Atom (AOther _) => false
  | Atom _ | Par _ | Member _ _ | Call0 _ | Call _ _ | Suf _ (SIndex _) | Suf _ (STagged _) => true
  | _ => false
  end.
(** Lines 104-113. *)
Definition parenthesized (c : list frame) : bool := match c with FPar :: _ => true | _ => false end.
Definition one_line_return (c : list frame) (t : tree) : bool := match c, t with FPre (UArrow _) :: _, Atom (AObject _) => true | _, _ => false end.
(** The node is an argument: the commas around it are those of a call. *)
Fixpoint argument (c : list frame) : bool :=
  match c with FArg _ :: _ => true | FLeft OComma _ :: c | FRight OComma _ :: c => argument c | _ => false end.
(** Lines 115-144; an assignment is a binary expression too. *)
Definition weak_parent (c : list frame) : bool :=
  if argument c then false
  else match c with
  | [] => false
  | f :: _ =>
      match f with
      | FSuf SIncr | FSuf (SIndex _) | FSuf (STagged _) | FMember _ | FCallee0 | FCallee _ => true
      | FPre (UNot | UTilde | UPlus | UMinus | UAwait | UAssign _ _) => true
      | FLeft _ _ | FRight _ _ | FCond1 _ _ | FCond2 _ _ | FCond3 _ _ => true
      | _ => false
      end
  end.
Notation tfix := (fix_ tok).
(** Lines 151-171; [wrap]: what follows the expression, if the fix is not to remove the conversion. *)
Definition wrapping_fix (c : list frame) (n t : tree) (wrap : option (list tok)) : tfix :=
  let code := if negb (strong t) || one_line_return c t then TOpen :: print t ++ [TClose] else print t in
  let new := match wrap with
             | None => code
             | Some w => let code := code ++ w in if weak_parent c && negb (parenthesized c) then TOpen :: code ++ [TClose] else code
             end in
  mkFix new (pos c) (pos c + size n).
(** Lines 173-190, 249-269: the fixes of the two suggestions; [statement]: the whole expression is a statement, which for [+=] is
    removed (its semicolon is not a token here). *)
Definition suggestions (statement : bool) (r : report) : tfix * tfix :=
  (match assigned r, statement, outer r with
   | true, true, [] => mkFix [] (pos (outer r)) (pos (outer r) + size (node r))
   | _, _, _ => wrapping_fix (outer r) (node r) (inner r) None
   end,
   wrapping_fix (outer r) (node r) (inner r) (Some [TSuf (SSatisfies (primitive r))])).
(** The text with a suggestion applied. *)
Definition applied (sort_fixes : list tfix -> list tfix) (sort_msgs : list (msg tok) -> list (msg tok)) (text : list tok) (f : tfix) : res (list tok) :=
  let! r := apply_rule_fixes sort_fixes sort_msgs text [mkMsg 0 [f]] in Ok (fst (fst r)).
