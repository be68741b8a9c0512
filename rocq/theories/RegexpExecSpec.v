(** Regular expression literals as they are scanned, values of arguments, results of match and exec. *)
From Coq Require Import Bool Arith Ascii String List.
From Verif Require Import Base.
From Verif Require Import RegexpExec.
Import ListNotations.
Open Scope list_scope.

Definition newline (c : ascii) : bool := (Ascii.eqb c "010" || Ascii.eqb c "013")%char.
(** What is after the first slash of a literal: the pattern up to a slash that is neither escaped nor in a class, and the rest. *)
Fixpoint scan (class : bool) (s : bstr) : option (bstr * bstr) :=
  match s with
  | [] => None
  | c :: s =>
      if newline c then None
      else if Ascii.eqb c "\" then
        match s with
        | d :: s => if newline d then None else match scan class s with Some (p, r) => Some (c :: d :: p, r) | None => None end
        | [] => None
        end
      else if Ascii.eqb c "/" && negb class then Some ([], s)
      else match scan (if Ascii.eqb c "[" then true else if Ascii.eqb c "]" then false else class) s with Some (p, r) => Some (c :: p, r) | None => None end
  end%char.
(** A literal: no comment. *)
Definition scan_literal (s : bstr) : option (bstr * bstr) :=
  match s with
  | c :: d :: s => if Ascii.eqb c "/" && negb (Ascii.eqb d "/") && negb (Ascii.eqb d "*") then scan false (d :: s) else None
  | _ => None
  end%char.

(** Patterns as characters and escapes; an escaped slash is a slash. *)
Inductive unit_ := Chr (c : ascii) | Esc (c : ascii).
Fixpoint units (s : bstr) : list unit_ :=
  match s with
  | [] => []
  | c :: s => if Ascii.eqb c "\" then match s with d :: s => (if Ascii.eqb d "/" then Chr d else Esc d) :: units s | [] => [Chr c] end else Chr c :: units s
  end%char.
(** Complete patterns without line ends: no single backslash at the end, classes closed, no slash is escaped. *)
Fixpoint complete (class : bool) (s : bstr) : Prop :=
  match s with
  | [] => class = false
  | c :: s =>
      newline c = false /\
      (if Ascii.eqb c "\" then match s with d :: s => newline d = false /\ d <> "/" /\ complete class s | [] => False end
       else complete (if Ascii.eqb c "[" then true else if Ascii.eqb c "]" then false else class) s)
  end%char.

Inductive value := VStr (s : bstr) | VRegExp (pattern flags : bstr) | VUndefined | VOther (text : bstr) | VMatcher (text : bstr).
(** RegExp(v): the pattern; and the flags, if none are given. *)
Definition source (v : value) : bstr := match v with VStr s | VOther s | VMatcher s => s | VRegExp p _ => p | VUndefined => [] end.
Definition own_flags (v : value) : bstr := match v with VRegExp _ f => f | _ => [] end.
Definition is_spread (a : arg) : bool := match a with Spread _ => true | _ => false end.
Inductive value_of : arg -> value -> Prop :=
| OStr s : value_of (Str s) (VStr s)
| ORegex t p f : scan_literal t = Some (p, f) -> ~ In "/"%char f -> value_of (Regex t) (VRegExp p f)
| OLiteral (s : bool) t : value_of (OtherLiteral s t) (if s then VStr t else VOther t)
| OConst n a v : value_of a v -> value_of (Name n (Some a)) v
| OVariable n v : value_of (Name n None) v
| OCast a v : value_of a v -> value_of (Cast a) v
| OParen a v : value_of a v -> value_of (Paren a) v
| ONone n p : value_of (Constructor n p []) (VRegExp [] [])
| OOne n p a v : is_spread a = false -> value_of a v -> value_of (Constructor n p [a]) (VRegExp (source v) (own_flags v))
| OTwo n p a f rest v s : is_spread a = false -> is_spread f = false -> value_of a v -> value_of f (VStr s) -> value_of (Constructor n p (a :: f :: rest)) (VRegExp (source v) s)
| OTwoUndefined n p a f rest v : is_spread a = false -> is_spread f = false -> value_of a v -> value_of f VUndefined -> value_of (Constructor n p (a :: f :: rest)) (VRegExp (source v) (own_flags v))
| OSpread n p args q f : existsb is_spread (firstn 2 args) = true -> value_of (Constructor n p args) (VRegExp q f)
| OUndefined : value_of Undefined VUndefined
| OExpression n v : value_of (Expression n) v.
(** Types of values. *)
Definition of_types (v : value) (l : list part) : Prop := match v with VStr _ => In PString l | VRegExp _ _ => In PRegExp l | _ => In POther l end.

(** What a call gives: the first match with its groups, all matches, what a matcher of its own gives, an error. *)
Inductive result := First (p : list unit_) (flags : bstr) | All_ (p : list unit_) (flags : bstr) | Custom | TypeError | SyntaxError.
Definition exec (v : value) : result := match v with VRegExp p f => First (units p) f | _ => TypeError end.
Definition match_ (v : value) : result :=
  match v with
  | VRegExp p f => if existsb (Ascii.eqb "g") f then All_ (units p) f else First (units p) f
  | VMatcher _ => Custom
  | _ => First (units (source v)) []
  end%char.
(** What the fixed call gives. *)
Definition fixed (f : fix_) (v : value) : result :=
  match f with
  | FixLiteral p => match scan_literal (to_literal p) with Some (q, []) => First (units q) [] | _ => SyntaxError end
  | FixExec => exec v
  | FixRegExp => exec (VRegExp (source v) (own_flags v))
  end.
