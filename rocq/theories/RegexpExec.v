(** prefer-regexp-exec (internal/rules/prefer_regexp_exec/prefer_regexp_exec.go): static values of arguments, flags of literals, the three fixes.  Line numbers are of this file. *)
From Coq Require Import Bool Arith Ascii String List.
From Verif Require Import Base.
Import ListNotations.
Open Scope nat_scope.
Open Scope list_scope.

Definition slash : ascii := "/"%char.
Definition backslash : ascii := "\"%char.

(** 116-122: whether an odd number of backslashes is before the place [i]. *)
Fixpoint run (l : bstr) : nat := match l with c :: l => if Ascii.eqb c backslash then S (run l) else 0 | [] => 0 end.
Definition is_escaped (s : bstr) (i : nat) : bool := Nat.odd (run (rev (firstn i s))).
(** 124-130: the last slash that is not escaped, not at the start. *)
Fixpoint closing (s : bstr) (i : nat) : option nat :=
  match i with
  | 0 => None
  | S j => if Ascii.eqb (nth i s "000"%char) slash && negb (is_escaped s i) then Some i else closing s j
  end.
(** 106-137 *)
Definition literal_flags (s : bstr) : option bstr :=
  if (List.length s <? 2) || negb (Ascii.eqb (nth 0 s "000"%char) slash) then None
  else match closing s (List.length s - 1) with Some i => Some (skipn (S i) s) | None => None end.

(** Arguments.  [Name]: an identifier, with the initializer if it is a constant that is not being looked at already (191-216).  [Cast]: as, <> and !.  [Constructor]: a call of RegExp, or with new; [parens]: there are parentheses for the arguments.
    [OtherLiteral]: templates without substitutions, numbers, booleans, null; with its text and whether it is a string.  [Undefined]: undefined and void expressions.  [Expression]: anything else. *)
Inductive arg :=
| Str (cooked : bstr)
| Regex (text : bstr)
| OtherLiteral (string_ : bool) (text : bstr)
| Name (n : nat) (init : option arg)
| Cast (a : arg)
| Paren (a : arg)
| Constructor (new_ parens : bool) (args : list arg)
| Spread (a : arg)
| Undefined
| Expression (n : nat).
Inductive static_value := SUnknown | SString | SRegExp (flags : bstr) | SOther.
Definition has_g (s : bstr) : bool := existsb (Ascii.eqb "g"%char) s.

Section Valid.
(** Whether the package regexp2 compiles a pattern. *)
Context (valid : bstr -> bool).
(** 172-245 [getStaticArgumentValue] *)
Fixpoint static (a : arg) : static_value :=
  match a with
  | Str _ => SString
  | Regex t => match literal_flags t with Some f => SRegExp f | None => SUnknown end
  | OtherLiteral _ _ => SOther
  | Name _ (Some i) => static i
  | Name _ None => SUnknown
  | Cast a | Paren a => static a
  | Constructor _ _ [] => SRegExp []
  | Constructor _ _ [Str p] => if valid p then SRegExp [] else SUnknown
  | Constructor _ _ (Str p :: Str f :: _) => if valid p then SRegExp f else SUnknown
  | _ => SUnknown
  end.
(** 151-170 *)
Fixpoint skip_parens (a : arg) : arg := match a with Paren a => skip_parens a | _ => a end.
Definition surely_not_global (a : arg) : bool :=
  match skip_parens a with
  | Constructor _ _ [] | Constructor _ _ [_] => true
  | Constructor _ _ (_ :: f :: _) =>
      match skip_parens f with
      | Undefined => true
      | Str f => negb (has_g f)
      | _ => false
      end
  | _ => false
  end.
(** 247-259: names of the parts of the type of the argument. *)
Inductive part := PString | PRegExp | POther.
Definition has_string (l : list part) : bool := existsb (fun p => match p with PString => true | _ => false end) l.
Definition has_regexp (l : list part) : bool := existsb (fun p => match p with PRegExp => true | _ => false end) l.

(** 304-346: which fix; [FixLiteral]: with a literal of the pattern, [FixExec]: a call of exec of the argument, [FixRegExp]: of a RegExp made of it. *)
Inductive fix_ := FixLiteral (pattern : bstr) | FixExec | FixRegExp.
Definition decide (a : arg) (types : list part) : option fix_ :=
  let st := static a in
  if match st with SRegExp f => has_g f | _ => false end then None
  else if match st with SUnknown => has_regexp types && negb (surely_not_global a) | _ => false end then None
  else match a with
  | Str p => if valid p then Some (FixLiteral p) else None
  | _ => match has_regexp types, has_string types with
         | true, false => Some FixExec
         | false, true => Some FixRegExp
         | _, _ => None
         end
  end.
End Valid.

(** 284-302: one argument, the name of the method, the name of the type of the object. *)
Definition looked_at (arguments : nat) (access : bool) (name : option bstr) (object_type : bstr) : bool :=
  (arguments =? 1) && access && match name with Some n => beqb n (b "match") | None => false end && beqb object_type (b "string").

(** 261-263 *)
Fixpoint escape_slashes (p : bstr) : bstr := match p with [] => [] | c :: p => if Ascii.eqb c slash then backslash :: slash :: escape_slashes p else c :: escape_slashes p end.
Definition to_literal (p : bstr) : bstr := slash :: escape_slashes p ++ [slash].
(** 85-104, 274-276, 330-345: the code of object and argument, each with whether its precedence is strong; [weak_parent]: the call is in an operator, an access or a callee, without parentheses. *)
Definition wrap (strong : bool) (code : bstr) : bstr := if strong then code else b "(" ++ code ++ b ")".
Definition fix_text (f : fix_) (object_ argument : bool * bstr) (weak_parent : bool) : bstr :=
  let o := wrap (fst object_) (snd object_) in
  let a := wrap (fst argument) (snd argument) in
  let code := match f with
    | FixLiteral p => to_literal p ++ b ".exec(" ++ o ++ b ")"
    | FixExec => a ++ b ".exec(" ++ o ++ b ")"
    | FixRegExp => b "RegExp(" ++ a ++ b ").exec(" ++ o ++ b ")"
    end in
  if weak_parent then b "(" ++ code ++ b ")" else code.
