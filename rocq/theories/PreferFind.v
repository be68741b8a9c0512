(** prefer-find (internal/rules/prefer_find/prefer_find.go). *)
From Coq Require Import Bool String Ascii List Arith ZArith QArith.
From Verif Require Import Base.
Import ListNotations.
Local Open Scope nat_scope.

(** * Static values (41-55).  Numbers are rational, infinite or not a number; zeros have no sign (no test here tells them apart). *)
Inductive num := NaN | Inf (neg : bool) | Fin (q : Q).
Inductive value := VString (s : bstr) | VNumber (n : num) | VBoolean (v : bool) | VNull | VBigInt (z : Z) | VUndefined | VSymbol.
Definition negate (n : num) : num := match n with NaN => NaN | Inf s => Inf (negb s) | Fin q => Fin (- q) end.

(** strings.TrimSpace, for ASCII. *)
Definition space (c : ascii) : bool := existsb (Ascii.eqb c) [" "; "009"; "010"; "011"; "012"; "013"]%char.
Fixpoint trim_left (t : bstr) : bstr := match t with [] => [] | c :: r => if space c then trim_left r else t end.
Definition trim_space (t : bstr) : bstr := rev (trim_left (rev (trim_left t))).

(** big.Int.SetString for a base of at most 16: an optional sign and digits. *)
Definition digit (c : ascii) : Z :=
  let n := Z.of_nat (nat_of_ascii c) in
  if (48 <=? n)%Z && (n <=? 57)%Z then (n - 48)%Z else if (97 <=? n)%Z && (n <=? 102)%Z then (n - 87)%Z else if (65 <=? n)%Z && (n <=? 70)%Z then (n - 55)%Z else 99%Z.
Fixpoint digits (base acc : Z) (t : bstr) : option Z :=
  match t with
  | [] => Some acc
  | c :: r => if (digit c <? base)%Z then digits base (acc * base + digit c)%Z r else None
  end.
Definition set_string (base : Z) (t : bstr) : option Z :=
  match t with
  | "-"%char :: ((_ :: _) as r) => option_map Z.opp (digits base 0 r)
  | "+"%char :: ((_ :: _) as r) => digits base 0 r
  | _ :: _ => digits base 0 t
  | [] => None
  end.
Definition base_of (c : ascii) : option Z :=
  match c with "x" | "X" => Some 16 | "b" | "B" => Some 2 | "o" | "O" => Some 8 | _ => None end%char%Z.

Section Model.
(** strconv.ParseFloat, [None] for errors; what a number or a big integer is as a property name, 59-73, 157. *)
Context (parse_float : bstr -> option num) (number_name : num -> bstr) (bigint_name : Z -> bstr).

(** 75-122 [toNumberFromString]. *)
Definition to_number_string (s : bstr) : num :=
  let s := trim_space s in
  if beqb s [] then Fin 0
  else if beqb s (b "Infinity") || beqb s (b "+Infinity") then Inf false
  else if beqb s (b "-Infinity") then Inf true
  else
    let (sign, t) := match s with "+"%char :: r => (b "+", r) | "-"%char :: r => (b "-", r) | _ => ([], s) end in
    match match t with "0"%char :: c :: r => match base_of c with Some base => Some (base, r) | None => None end | _ => None end with
    | Some (base, r) =>
        if beqb r [] then NaN
        else match set_string base (sign ++ r) with Some z => Fin (inject_Z z) | None => NaN end
    | None => match parse_float s with Some n => n | None => NaN end
    end.
(** 124-145 [toNumber]. *)
Definition to_number (v : value) : option num :=
  match v with
  | VNumber n => Some n
  | VString s => Some (to_number_string s)
  | VBoolean true => Some (Fin 1)
  | VBoolean false => Some (Fin 0)
  | VNull => Some (Fin 0)
  | VUndefined => Some NaN
  | VBigInt _ | VSymbol => None
  end.
(** 147-167 [staticValueToPropertyName]. *)
Definition property_name (v : value) : option bstr :=
  match v with
  | VString s => Some s
  | VNumber n => Some (number_name n)
  | VBoolean true => Some (b "true")
  | VBoolean false => Some (b "false")
  | VNull => Some (b "null")
  | VUndefined => Some (b "undefined")
  | VBigInt z => Some (bigint_name z)
  | VSymbol => None
  end.
(** 169-184 [isTreatedAsZeroByArrayAt]; math.Trunc. *)
Definition zero_for_at (v : value) : bool :=
  match v with
  | VSymbol => false
  | _ => match to_number v with
         | None => false
         | Some NaN => true
         | Some (Inf _) => false
         | Some (Fin q) => Z.eqb (Z.quot (Qnum q) (Zpos (Qden q))) 0
         end
  end.
(** 186-197 [isTreatedAsZeroByMemberAccess]. *)
Definition zero_for_member (v : value) : bool :=
  match v with
  | VString s => beqb s (b "0")
  | VNumber (Fin q) => Z.eqb (Qnum q) 0
  | VBigInt z => Z.eqb z 0
  | _ => false
  end.

(** Expressions, as far as [getStaticValue] looks at them.  A number or big integer literal has its value, [None] if it could not be parsed (199-212, 242-246).  An identifier has its name, its symbol (a place in a table)
    and whether it is the global one of this name (which is not looked at). *)
Inductive operator := Minus | Plus | OtherOperator.
Inductive sexpr :=
| SString (s : bstr) | SNumber (n : option num) | SBoolean (v : bool) | SNull | SBigInt (z : option Z)
| SIdentifier (name : bstr) (symbol : option nat) (global : bool)
| SPrefix (op : operator) (e : sexpr) | SAssertion (e : sexpr) | SParentheses (e : sexpr)
| SSymbolCall (optional_call : bool)  (* Symbol(...) and Symbol.for(...) *)
| SOther.
(** 231-327 [getStaticValue].  [consts]: for every symbol the initializer of its const declaration, if it has one (214-229).  Every turn visits another symbol, so as many turns as there are symbols, and one more, are enough. *)
Fixpoint static_from (fuel : nat) (consts : list (option sexpr)) (visited : list nat) (e : sexpr) : option value :=
  (fix go (e : sexpr) : option value :=
    match e with
    | SString s => Some (VString s)
    | SNumber n => option_map VNumber n
    | SBoolean v => Some (VBoolean v)
    | SNull => Some VNull
    | SBigInt z => option_map VBigInt z
    | SIdentifier name symbol _ =>
        if beqb name (b "undefined") then Some VUndefined
        else if beqb name (b "NaN") then Some (VNumber NaN)
        else if beqb name (b "Infinity") then Some (VNumber (Inf false))
        else match symbol, fuel with
             | Some i, S fuel =>
                 if existsb (Nat.eqb i) visited then None
                 else match nth_error consts i with Some (Some e) => static_from fuel consts (i :: visited) e | _ => None end
             | _, _ => None
             end
    | SPrefix op e =>
        match go e with
        | None => None
        | Some v =>
            match op with
            | Minus =>
                match v with
                | VBigInt z => Some (VBigInt (- z))
                | _ => match to_number v with Some n => Some (VNumber (negate n)) | None => None end
                end
            | Plus => match to_number v with Some n => Some (VNumber n) | None => None end
            | OtherOperator => None
            end
        end
    | SAssertion e => go e
    | SParentheses e => go e
    | SSymbolCall optional_call => if optional_call then None else Some VSymbol
    | SOther => None
    end) e.
Definition get_static (consts : list (option sexpr)) (e : sexpr) : option value := static_from (S (List.length consts)) consts [] e.

(** A member of an object: by name, or by an expression in brackets. *)
Inductive member := ByName (name : bstr) | ByExpression (e : sexpr).
(** 329-353 [isStaticMemberAccessOfValue]. *)
Definition is_member (consts : list (option sexpr)) (m : member) (name : bstr) : bool :=
  match m with
  | ByName n => beqb n name
  | ByExpression e => match get_static consts e with Some v => match property_name v with Some n => beqb n name | None => false end | None => false end
  end.

(** A type, by its union parts: null, undefined, or for every intersection part whether it is an array or tuple type. *)
Inductive part := Nullish | Parts (l : list bool).
(** 355-382 [isArrayish]. *)
Fixpoint arrayish_from (one : bool) (t : list part) : bool :=
  match t with
  | [] => one
  | Nullish :: t => arrayish_from one t
  | Parts l :: t => if forallb (fun x => x) l then arrayish_from true t else false
  end.
Definition is_arrayish (t : list part) : bool := arrayish_from false t.

(** Expressions with their texts.  [Call]: obj.m(args), the text before the member's name (or before its expression in brackets), the name, the text after it; [type]: the constrained type of obj;
    [optional_call]: m?.(args).  [Comma]: the text before its last expression.  [Conditional]: the texts up to its branches. *)
Inductive expr :=
| Call (obj args : nat) (optional_member optional_call : bool) (type : list part) (m : member) (before name after : bstr)
| Comma (left : nat) (before : bstr) (e : expr)
| Conditional (test : nat) (before : bstr) (a : expr) (colon : bstr) (d : expr)
| Parentheses (open : bstr) (e : expr) (close : bstr)
| Other (n : nat) (text : bstr).
(** 384-446 [parseArrayFilterExpressions]: the places of the names, with whether they are in brackets.  The text of the expression begins at [at_]. *)
Fixpoint text (e : expr) : bstr :=
  match e with
  | Call _ _ _ _ _ _ before name after => before ++ name ++ after
  | Comma _ before e => before ++ text e
  | Conditional _ before a colon d => before ++ text a ++ colon ++ text d
  | Parentheses o e c => o ++ text e ++ c
  | Other _ t => t
  end.
Fixpoint filters (consts : list (option sexpr)) (at_ : nat) (e : expr) : list (nat * nat * bool) :=
  match e with
  | Parentheses o e _ => filters consts (at_ + List.length o) e
  | Comma _ before e => filters consts (at_ + List.length before) e
  | Conditional _ before a colon d =>
      match filters consts (at_ + List.length before) a with
      | [] => []
      | l => match filters consts (at_ + List.length before + List.length (text a) + List.length colon) d with [] => [] | r => l ++ r end
      end
  | Call _ _ _ optional_call type m before name _ =>
      if optional_call then []
      else if negb (is_member consts m (b "filter")) then []
      else if negb (is_arrayish type) then []
      else [(at_ + List.length before, at_ + List.length before + List.length name, match m with ByExpression _ => true | ByName _ => false end)]
  | Other _ _ => []
  end.

(** 484-527 [findArrayElementAccessStart] on the text after the array; the offset from there.  Bytes above ASCII are never what is looked for, so runes are read byte by byte. *)
Fixpoint skip_line (n : nat) (t : bstr) : nat * bstr :=
  match t with
  | c :: r => if Ascii.eqb c "010" || Ascii.eqb c "013" then (n, t) else skip_line (S n) r
  | [] => (n, t)
  end.
Fixpoint skip_block (n : nat) (t : bstr) : nat * bstr :=
  match t with
  | c :: ((d :: r) as t') => if Ascii.eqb c "*" && Ascii.eqb d "/" then (n + 2, r) else skip_block (S n) t'
  | _ => (n, t)
  end.
Fixpoint access_start (fuel : nat) (n : nat) (t : bstr) : option nat :=
  match fuel, t with
  | S fuel, c :: r =>
      if space c then access_start fuel (S n) r
      else
        match r with
        | d :: r' =>
            if Ascii.eqb c "/" && Ascii.eqb d "/" then let (n, t) := skip_line (n + 2) r' in access_start fuel n t
            else if Ascii.eqb c "/" && Ascii.eqb d "*" then let (n, t) := skip_block (n + 2) r' in access_start fuel n t
            else if Ascii.eqb c "." || Ascii.eqb c "[" then Some n
            else access_start fuel (S n) r
        | [] => if Ascii.eqb c "." || Ascii.eqb c "[" then Some n else access_start fuel (S n) r
        end
  | _, _ => None
  end.

(** What is reported on: obj[index], or obj.m(args), each with the text after obj; [optional_access]: obj?.[index] and obj?.m(args). *)
Inductive access :=
| Element (obj : expr) (optional_access : bool) (index : sexpr) (rest : bstr)
| Method (obj : expr) (optional_access optional_call : bool) (m : member) (args : list sexpr) (rest : bstr).
Definition object (a : access) : expr := match a with Element o _ _ _ | Method o _ _ _ _ _ => o end.
Definition rest (a : access) : bstr := match a with Element _ _ _ r | Method _ _ _ _ _ r => r end.
Definition access_text (a : access) : bstr := text (object a) ++ rest a.
(** 448-482 [getObjectIfArrayAtZeroExpression] (which does not ask whether the member is optional), [isMemberAccessOfZero]. *)
Definition first_element (consts : list (option sexpr)) (a : access) : bool :=
  match a with
  | Method _ _ optional_call m [arg] _ =>
      negb optional_call && is_member consts m (b "at") && match get_static consts arg with Some v => zero_for_at v | None => false end
  | Method _ _ _ _ _ _ => false
  | Element _ optional_access index _ =>
      negb optional_access && match get_static consts index with Some v => zero_for_member v | None => false end
  end.
(** ast.SkipParentheses: what of the text is before the end of the expression inside. *)
Fixpoint inner_length (e : expr) : nat := match e with Parentheses o e c => List.length o + inner_length e | _ => List.length (text e) end.
(** 529-562 [reportPreferFind]: the edits (from, to, new text), positions relative to the beginning of the node. *)
Definition check (consts : list (option sexpr)) (a : access) : option (list (nat * nat * bstr)) :=
  if negb (first_element consts a) then None
  else
    match filters consts 0 (object a) with
    | [] => None
    | l =>
        let n := inner_length (object a) in
        match access_start (S (List.length (access_text a))) n (skipn n (access_text a)) with
        | None => None
        | Some start =>
            Some (map (fun p => (fst p, if snd p : bool then b """find""" else b "find")) l ++ [((start, List.length (access_text a)), [])])
        end
    end.
End Model.
