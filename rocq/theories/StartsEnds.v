(** Model of internal/rules/prefer_string_starts_ends_with/prefer_string_starts_ends_with.go
    (line numbers below are of this file).

    Texts are lists of code points (the code looks at bytes only to compare them with ASCII
    characters).  Expressions are given without parentheses, as all functions below start
    with [ast.SkipParentheses]; numeric literals are integers. *)
From Coq Require Import Bool List ZArith.
From Verif Require Import JsText.
Import ListNotations.
Open Scope Z_scope.

Inductive expr :=
| ENum (z : Z)                          (* numeric literal *)
| ENeg (e : expr)                       (* -e *)
| ESub (l r : expr)                     (* l - r *)
| EStr (t : list Z)                     (* string literal, by value *)
| ETpl (t : list Z)                     (* template without substitutions, by value *)
| ELen (o : expr)                       (* o.length or o["length"] *)
| ENull
| EUndef                                (* the identifier undefined *)
| ERegex (t : list Z)                   (* regular expression literal, by source text *)
| ENew (args : list (option (list Z)))  (* new RegExp(args): string literals by value, or others *)
| EVar (x : nat)
| EOther (k : nat).

Inductive kind := KStart | KEnd.

(** ** Regular expressions *)

(** 312-314: the number of backslashes that end before position [i]. *)
Fixpoint backslashes (i : nat) (text : list Z) : nat :=
  match i with
  | O => O
  | S j => if nth j text 0 =? 92 then S (backslashes j text) else O
  end.
(** 308-321: the last slash after position 0 that has an even number of them. *)
Fixpoint closing_slash (i : nat) (text : list Z) : option nat :=
  match i with
  | O => None
  | S i' =>
      if negb (nth i text 0 =? 47) then closing_slash i' text
      else if Nat.even (backslashes i text) then Some i else closing_slash i' text
  end.
(** 303-325, [splitRegexLiteral]. *)
Definition split_regex (text : list Z) : option (list Z * list Z) :=
  if (List.length text <? 2)%nat || negb (nth 0 text 0 =? 47) then None
  else match closing_slash (List.length text - 1) text with
       | None => None
       | Some k => Some (firstn (k - 1) (skipn 1 text), skipn (k + 1) text)
       end.

(** [strings.HasPrefix(pattern, "^")] and [strings.HasSuffix(pattern, "$")]. *)
Definition has_prefix (c : Z) (p : list Z) : bool := match p with x :: _ => x =? c | [] => false end.
Definition has_suffix (c : Z) (p : list Z) : bool := has_prefix c (rev p).

(** 358: d D w W s S b B c x u k p P *)
Definition rejected_escape (c : Z) : bool :=
  existsb (Z.eqb c) [100; 68; 119; 87; 115; 83; 98; 66; 99; 120; 117; 107; 112; 80].
(** 376: . * + ? | ^ $ [ ] ( ) { } *)
Definition rejected_char (c : Z) : bool :=
  existsb (Z.eqb c) [46; 42; 43; 63; 124; 94; 36; 91; 93; 40; 41; 123; 125].

Section Rule.
(** [unicode.IsDigit], [strconv.IsPrint]. *)
Variable is_digit : Z -> bool.
Variable is_print : Z -> bool.
(** The initializer in the variable declaration of a name. *)
Variable decl : nat -> option expr.
(** [normalizedNodeText] (50-59) and [isStringType] (154-157). *)
Variable text_of : expr -> list Z.
Variable is_string : expr -> bool.

(** 341-387: the loop, with the flag [escaped]. *)
Fixpoint literal_text (escaped : bool) (content : list Z) : option (list Z) :=
  match content with
  | [] => if escaped then None else Some []
  | ch :: r =>
      if escaped then
        if ch =? 110 then option_map (cons 10) (literal_text false r)
        else if ch =? 114 then option_map (cons 13) (literal_text false r)
        else if ch =? 116 then option_map (cons 9) (literal_text false r)
        else if ch =? 118 then option_map (cons 11) (literal_text false r)
        else if ch =? 102 then option_map (cons 12) (literal_text false r)
        else if ch =? 48 then option_map (cons 0) (literal_text false r)
        else if rejected_escape ch then None
        else if is_digit ch then None
        else option_map (cons ch) (literal_text false r)
      else if ch =? 92 then literal_text true r
      else if rejected_char ch then None
      else option_map (cons ch) (literal_text false r)
  end.
(** 327-388, [parseRegExpText]. *)
Definition parse_text (pattern : list Z) : option (list Z) :=
  let isStartsWith := has_prefix 94 pattern in
  let isEndsWith := has_suffix 36 pattern in
  if Bool.eqb isStartsWith isEndsWith then None
  else let content := if isStartsWith then skipn 1 pattern else firstn (List.length pattern - 1) pattern in
       literal_text false content.

(** 438-457: from the pattern and the flags. *)
Definition parse_pattern (pattern flags : list Z) : option (kind * list Z) :=
  if existsb (fun c => existsb (Z.eqb c) [105; 109; 103; 121]) flags then None
  else
    let isStartsWith := has_prefix 94 pattern in
    let isEndsWith := has_suffix 36 pattern in
    if Bool.eqb isStartsWith isEndsWith then None
    else match parse_text pattern with
         | None => None
         | Some t => Some (if isStartsWith then KStart else KEnd, t)
         end.

(** 391-458, [parseRegExp].  The recursion through the declarations of variables is bounded
    by [fuel]; [None] says that the bound was reached, [Some None] is the answer no. *)
Fixpoint parse_regexp (fuel : nat) (e : expr) : option (option (kind * list Z)) :=
  match fuel with
  | O => None
  | S fuel' =>
      match e with
      | ERegex t =>
          match split_regex t with
          | None => Some None
          | Some (pattern, flags) => Some (parse_pattern pattern flags)
          end
      | ENew args =>
          match args with
          | Some pattern :: rest =>
              match rest with
              | [] => Some (parse_pattern pattern [])
              | Some flags :: _ => Some (parse_pattern pattern flags)
              | None :: _ => Some None
              end
          | _ => Some None
          end
      | EVar x => match decl x with Some i => parse_regexp fuel' i | None => Some None end
      | _ => Some None
      end
  end.

(** [strconv.Quote] (standard library), used at 632 and 785. *)
Definition hexc (d : Z) : Z := if d <? 10 then 48 + d else 87 + d.
Fixpoint hex_digits (n : nat) (z : Z) : list Z :=
  match n with O => [] | S n' => hex_digits n' (z / 16) ++ [hexc (z mod 16)] end.
Definition quote_char (c : Z) : list Z :=
  if (c =? 34) || (c =? 92) then [92; c]
  else if is_print c then [c]
  else if c =? 7 then [92; 97]
  else if c =? 8 then [92; 98]
  else if c =? 12 then [92; 102]
  else if c =? 10 then [92; 110]
  else if c =? 13 then [92; 114]
  else if c =? 9 then [92; 116]
  else if c =? 11 then [92; 118]
  else if (c <? 32) || (c =? 127) then 92 :: 120 :: hex_digits 2 c
  else if c <? 65536 then 92 :: 117 :: hex_digits 4 c
  else 92 :: 85 :: hex_digits 8 c.
Definition quote (t : list Z) : list Z := 34 :: flat_map quote_char t ++ [34].

(** ** Comparisons *)

(** 159-181, [staticNumber]. *)
Fixpoint static_number (e : expr) : option Z :=
  match e with
  | ENum z => Some z
  | ENeg e' => option_map Z.opp (static_number e')
  | _ => None
  end.
(** 183-207, [staticString]; fuel as above. *)
Fixpoint static_string (fuel : nat) (e : expr) : option (option (list Z)) :=
  match fuel with
  | O => None
  | S fuel' =>
      match e with
      | EStr t | ETpl t => Some (Some t)
      | EVar x => match decl x with Some i => static_string fuel' i | None => Some None end
      | _ => Some None
      end
  end.
(** 217-241, [getNullishKind]; fuel as above. *)
Inductive nullish := NUnknown | NNull | NUndefined.
Fixpoint nullish_kind (fuel : nat) (e : expr) : option nullish :=
  match fuel with
  | O => None
  | S fuel' =>
      match e with
      | ENull => Some NNull
      | EUndef => Some NUndefined
      | EVar x => match decl x with Some i => nullish_kind fuel' i | None => Some NUnknown end
      | _ => Some NUnknown
      end
  end.

(** In the functions that follow, running out of fuel counts as the answer no: the question
    whether enough fuel exists is dealt with on its own. *)
Variable fuel : nat.
Definition string_value (e : expr) : option (list Z) :=
  match static_string fuel e with Some r => r | None => None end.
Definition length16 (t : list Z) : Z := Z.of_nat (List.length (flat_map units t)).
(** 209-215. *)
Definition is_character (e : expr) : bool :=
  match string_value e with Some t => length16 t =? 1 | None => false end.

(** 61-63, [isSameTokens]. *)
Fixpoint same_text (a b : list Z) : bool :=
  match a, b with
  | [], [] => true
  | x :: a', y :: b' => (x =? y) && same_text a' b'
  | _, _ => false
  end.
Definition same_tokens (a b : expr) : bool := same_text (text_of a) (text_of b).

(** 243-266, [isLengthExpression]. *)
Definition is_length (node expected : expr) : bool :=
  if match node with ELen o => same_tokens o expected | _ => false end then true
  else match static_number node, string_value expected with
       | Some n, Some t => n =? length16 t
       | _, _ => false
       end.
(** 268-287, [isLengthAheadOfEnd]. *)
Definition is_length_ahead (node substring parent : expr) : bool :=
  match node with
  | ENeg e => is_length e substring
  | ESub l r => is_length l parent && is_length r substring
  | _ => false
  end.
(** 289-301, [isLastIndexExpression]. *)
Definition is_number (e : expr) (n : Z) : bool :=
  match static_number e with Some m => m =? n | None => false end.
Definition is_last_index (node expected : expr) : bool :=
  match node with
  | ESub l r => is_length l expected && is_number r 1
  | _ => false
  end.

(** The operators of 65-77, and 79-85. *)
Inductive op := OEq | OEqStrict | ONeq | ONeqStrict.
Definition is_negative (o : op) : bool := match o with ONeq | ONeqStrict => true | _ => false end.
Definition is_loose (o : op) : bool := match o with OEq | ONeq => true | _ => false end.

(** The left side of a comparison: [obj[idx]] or [obj.method(args)]. *)
Inductive method := MCharAt | MIndexOf | MLastIndexOf | MMatch | MSlice | MSubstring.
Inductive left := LIndex (obj idx : expr) | LCall (obj : expr) (m : method) (args : list expr).

(** What a fix makes of [obj.m(args) op right] or [obj[idx] op right]: [obj.startsWith(arg)]
    or [obj.endsWith(arg)], with [!] in front if [neg].  The argument is an expression of
    the source, or a text inserted as a string literal. *)
Inductive argument := AExpr (e : expr) | AText (t : list Z).
Record fix_ := mkFix { f_kind : kind; f_neg : bool; f_arg : argument }.

(** 496-537; [allow] is the option allowSingleElementEquality = always. *)
Definition fix_single (allow : bool) (o : op) (obj idx right : expr) : option fix_ :=
  if negb (is_string obj) then None
  else
    let isEndsWith := is_last_index idx obj in
    if allow && isEndsWith then None
    else
      let startsAtZero := negb isEndsWith && is_number idx 0 in
      if allow && startsAtZero then None
      else if negb startsAtZero && negb isEndsWith then None
      else if negb (is_character right) then None
      else Some (mkFix (if startsAtZero then KStart else KEnd) (is_negative o) (AExpr right)).

(** 638-704: [slice] and [substring]. *)
Definition is_string_literal (e : expr) : bool := match e with EStr _ => true | _ => false end.
Definition valid_position (m : method) (pos obj right : expr) : bool :=
  match pos with
  | ESub l r => is_length l obj && is_length r right
  | ENeg e => match m with MSlice => is_length e right | _ => false end
  | _ => false
  end.
Definition fix_slice (m : method) (o : op) (obj : expr) (args : list expr) (right : expr) : option fix_ :=
  if negb (is_string obj) then None
  else
    let isStartsWith := match args with [a0; a1] => is_number a0 0 && is_length a1 right | _ => false end in
    let isEndsWith :=
      match args with
      | [a0] => is_length_ahead a0 right obj
      | [a0; a1] => negb isStartsWith && ((is_length a1 obj || is_number a1 0) && is_length_ahead a0 right obj)
      | _ => false
      end in
    if negb isStartsWith && negb isEndsWith then None
    else if is_loose o && negb (is_string_literal right) then None
    else if (if isStartsWith
             then match args with [_; a1] => negb (is_length a1 right) | _ => true end
             else match args with a0 :: _ => negb (valid_position m a0 obj right) | [] => true end)
         then None
         else Some (mkFix (if isStartsWith then KStart else KEnd) (is_negative o) (AExpr right)).

(** 539-706, [handleBinaryCallExpression], and 708-727, [handleBinary].  For [lastIndexOf] the
    code also wants the right side without parentheses; this only means fewer fixes. *)
Definition fix_comparison (allow : bool) (l : left) (o : op) (right : expr) : option fix_ :=
  match l with
  | LIndex obj idx => fix_single allow o obj idx right
  | LCall obj MCharAt [idx] => fix_single allow o obj idx right
  | LCall obj MIndexOf [arg] =>
      if negb (is_number right 0) then None
      else if negb (is_string obj) then None
      else Some (mkFix KStart (is_negative o) (AExpr arg))
  | LCall obj MLastIndexOf [arg] =>
      match right with
      | ESub rl rr =>
          if negb (is_string obj) then None
          else if negb (is_length rl obj) || negb (is_length rr arg) then None
          else Some (mkFix KEnd (is_negative o) (AExpr arg))
      | _ => None
      end
  | LCall obj MMatch [arg] =>
      let operand := match nullish_kind fuel right with Some k => k | None => NUnknown end in
      if negb (is_string obj) then None
      else match operand with
           | NUnknown => None
           | _ =>
               if negb (is_loose o) && match operand with NNull => false | _ => true end then None
               else match parse_regexp fuel arg with
                    | Some (Some (k, t)) => Some (mkFix k (negb (is_negative o)) (AText t))
                    | _ => None
                    end
           end
  | LCall obj MSlice args => fix_slice MSlice o obj args right
  | LCall obj MSubstring args => fix_slice MSubstring o obj args right
  | LCall _ _ _ => None
  end.
End Rule.

(** ** The texts produced by the fixes *)

(** 460-477, [fixWithRightOperand], on the text of a comparison: parentheses around the left
    side ([lo], [lc]), the object, the accessed property with the call, the operator,
    parentheses around the right side ([ro], [rc]).  The ranges are: from the property to
    the right side without its parentheses, and from the end of that to the end. *)
Record comparison_text := mkCmp { lo : list Z; obj_t : list Z; prop_t : list Z; lc : list Z; op_t : list Z; ro : list Z; right_t : list Z; rc : list Z }.
Definition comparison_source (c : comparison_text) : list Z :=
  lo c ++ obj_t c ++ prop_t c ++ lc c ++ op_t c ++ ro c ++ right_t c ++ rc c.
Definition bang (neg : bool) : list Z := if neg then [33] else [].
Definition right_operand_result (neg : bool) (name : list Z) (c : comparison_text) : list Z :=
  bang neg ++ lo c ++ obj_t c ++ name ++ [40] ++ right_t c ++ [41].

(** 764-788 on the text of [re.test(arg)]: the text before the argument without its
    parentheses is removed; the call is inserted after the argument, its closing parenthesis
    is the one of the old call. *)
Record test_text := mkTest { callee_t : list Z; ao : list Z; arg_t : list Z; ac : list Z }.
Definition test_source (c : test_text) : list Z := callee_t c ++ [40] ++ ao c ++ arg_t c ++ ac c ++ [41].
Definition test_result (needsParen : bool) (name lit : list Z) (c : test_text) : list Z :=
  (if needsParen then [40] else []) ++ arg_t c ++ (if needsParen then [41] else []) ++
  name ++ [40] ++ lit ++ ac c ++ [41].
