(** Model of internal/rules/dot_notation/dot_notation.go.

    Texts are bytes.  What the checker says about the accessed property is data of the access.  [regexp.Compile], the decoding of
    characters outside ASCII and the value of a literal are parameters or data. *)
From Coq Require Import String Ascii Bool List ZArith.
From Verif Require Import Base Fixer.
Import ListNotations.
Open Scope Z_scope.

(** Lines 18-26. *)
Definition keywords : list bstr := map b
  ["abstract"; "boolean"; "break"; "byte"; "case"; "catch"; "char"; "class"; "const"; "continue"; "debugger";
   "default"; "delete"; "do"; "double"; "else"; "enum"; "export"; "extends"; "false"; "final"; "finally";
   "float"; "for"; "function"; "goto"; "if"; "implements"; "import"; "in"; "instanceof"; "int"; "interface";
   "long"; "native"; "new"; "null"; "package"; "private"; "protected"; "public"; "return"; "short"; "static";
   "super"; "switch"; "synchronized"; "this"; "throw"; "throws"; "transient"; "true"; "try"; "typeof"; "var";
   "void"; "volatile"; "while"; "with"]%string.
(** Lines 42-45. *)
Definition is_keyword (name : bstr) : bool := existsb (beqb name) keywords.
Definition in_range (lo hi c : ascii) : bool := (nat_of_ascii lo <=? nat_of_ascii c)%nat && (nat_of_ascii c <=? nat_of_ascii hi)%nat.
Definition is_ascii_char (x c : ascii) : bool := Ascii.eqb x c.
(** Lines 47-66. *)
Definition is_dot_identifier (name : bstr) : bool :=
  match name with
  | [] => false
  | first :: rest =>
      if negb (in_range "a" "z" first || in_range "A" "Z" first || is_ascii_char "_" first || is_ascii_char "$" first) then false
      else forallb (fun ch => in_range "a" "z" ch || in_range "A" "Z" ch || in_range "0" "9" ch || is_ascii_char "_" ch || is_ascii_char "$" ch) rest
  end.
(** The argument of an element access: literals by their value. *)
Inductive key := KStr (v : bstr) | KTrue | KFalse | KNull | KTemplate (v : bstr) | KOther.
(** Lines 68-86; [strconv.Quote] of a name (of which alone the result is used) puts it between quotes. *)
Definition quoted (v : bstr) : bstr := """"%char :: v ++ [""""%char].
Definition computed_value (k : key) : option (bstr * bstr) :=
  match k with
  | KStr v => Some (v, quoted v)
  | KTrue => Some (b "true", b "true")
  | KFalse => Some (b "false", b "false")
  | KNull => Some (b "null", b "null")
  | KTemplate v => Some (v, "`"%char :: v ++ ["`"%char])
  | KOther => None
  end.
(** Lines 88-97. *)
Definition static_name (k : key) : option bstr := match k with KStr v | KTemplate v => Some v | _ => None end.

(** ** Allowances *)
Inductive dkind := DGet | DSet | DIndex | DOther.
Record decl := Decl { dkind_of : dkind; is_private : bool; is_protected : bool }.
Definition is_get (d : decl) : bool := match dkind_of d with DGet => true | _ => false end.
Definition is_set (d : decl) : bool := match dkind_of d with DSet => true | _ => false end.
(** Lines 135-171: the declarations of the symbol, if there is one; [write]: [ast.IsWriteAccess] of the node. *)
Definition relevant (symbol : option (list decl)) (write : bool) : option decl :=
  match symbol with
  | None | Some [] => None
  | Some ((d :: _) as ds) =>
      let getter := find is_get ds in
      let setter := find is_set ds in
      match getter, setter with
      | None, None => Some d
      | _, _ =>
          if write then match setter with Some s => Some s | None => getter end
          else match getter with Some g => Some g | None => setter end
      end
  end.
Record options := Options { allow_private : bool; allow_protected : bool; allow_index : bool; allow_keywords : bool; allow_pattern : bstr }.
(** What the checker says: the symbol of the argument; the properties of the object's type without null and undefined, if there is such a
    type; whether an index signature of its apparent type takes the type of the argument, or its base type. *)
Record site := Site { symbol_at : option (list decl); properties : option (list (bstr * list decl)); written : bool; index_key : bool; index_base : bool }.
(** Lines 187-189, 276-329; [no_index]: the compiler option noPropertyAccessFromIndexSignature. *)
Definition skipped (o : options) (no_index : bool) (s : site) (k : key) : bool :=
  let index := allow_index o || no_index in
  if negb (allow_private o) && negb (allow_protected o) && negb index then false
  else
    let symbol :=
      match symbol_at s, static_name k, properties s with
      | None, Some name, Some ps => option_map snd (find (fun c => beqb (fst c) name) ps)
      | x, _, _ => x
      end in
    let by_declaration :=
      match relevant symbol (written s) with
      | None => false
      | Some d => (allow_private o && is_private d) || (allow_protected o && is_protected d) || (index && match dkind_of d with DIndex => true | _ => false end)
      end in
    if by_declaration then true
    else if (match symbol with None | Some [] => true | _ => false end) && index then
      if no_index then true
      else match properties s with Some _ => index_key s || index_base s | None => false end
    else false.

(** ** Reports *)
(** Lines 178-185. *)
Definition pattern_of (compile : bstr -> option (bstr -> bool)) (o : options) : res (option (bstr -> bool)) :=
  match allow_pattern o with [] => Ok None | p => match compile p with None => Panic | Some f => Ok (Some f) end end.
(** Lines 28-40. *)
Definition use_dot_text (key : bstr) : bstr := b "[" ++ key ++ b "] is better written in dot notation.".
Definition use_brackets_text (key : bstr) : bstr := b "." ++ key ++ b " is a syntax error.".
(** Lines 191-211, 332-337: the name and the message. *)
Definition use_dot (o : options) (pattern : option (bstr -> bool)) (no_index : bool) (s : site) (k : key) : option (bstr * bstr) :=
  if skipped o no_index s k then None
  else match computed_value k with
       | None => None
       | Some (value, formatted) =>
           if negb (is_dot_identifier value) then None
           else if negb (allow_keywords o) && is_keyword value then None
           else if match pattern with Some f => f value | None => false end then None
           else Some (value, use_dot_text formatted)
       end.
(** Lines 242-258: [name] is [None] for a private name. *)
Definition use_brackets (o : options) (name : option bstr) : option (bstr * bstr) :=
  if allow_keywords o then None
  else match name with None => None | Some n => if negb (is_keyword n) then None else Some (n, use_brackets_text n) end.

(** ** Fixes *)
(** [scanner.SkipTrivia] (typescript-go, not part of /repo): white space and comments, ASCII only. *)
Definition is_space (c : ascii) : bool := existsb (fun n => (nat_of_ascii c =? n)%nat) [9; 10; 11; 12; 13; 32]%nat.
Definition is_newline (c : ascii) : bool := existsb (fun n => (nat_of_ascii c =? n)%nat) [10; 13]%nat.
Inductive mode := MCode | MLine | MBlock.
Fixpoint trivia_len (m : mode) (s : bstr) : Z :=
  match s with
  | [] => 0
  | c :: r =>
      match m with
      | MCode =>
          if is_space c then 1 + trivia_len MCode r
          else if is_ascii_char "/" c then
            match r with
            | d :: r' => if is_ascii_char "/" d then 2 + trivia_len MLine r' else if is_ascii_char "*" d then 2 + trivia_len MBlock r' else 0
            | [] => 0
            end
          else 0
      | MLine => 1 + trivia_len (if is_newline c then MCode else MLine) r
      | MBlock =>
          if is_ascii_char "*" c then
            match r with
            | d :: r' => if is_ascii_char "/" d then 2 + trivia_len MCode r' else 1 + trivia_len MBlock r
            | [] => 1
            end
          else 1 + trivia_len MBlock r
      end
  end.
Definition skip_trivia (text : bstr) (p : Z) : Z := p + trivia_len MCode (skipn (Z.to_nat p) text).
(** [scanner.GetRangeOfTokenAtPosition] where the token is a bracket or a dot. *)
Definition token_range (text : bstr) (p : Z) : Z * Z := let q := skip_trivia text p in (q, q + 1).
(** Lines 98-123: [text] is the text of a numeric literal node, in which typescript-go writes the number as JavaScript does. *)
Definition is_decimal_integer (text : bstr) : bool :=
  match text with
  | [] => false
  | _ =>
      if existsb (fun c => existsb (fun x => is_ascii_char x c) [".";"e";"E";"x";"X";"o";"O";"b";"B";"n";"N"]%char) text then false
      else forallb (fun ic : nat * ascii => let (i, ch) := ic in
             in_range "0" "9" ch || (is_ascii_char "_" ch && (0 <? i)%nat && (i <? List.length text - 1)%nat)) (combine (seq 0 (List.length text)) text)
  end.
Section Fixes.
(** [scanner.IsIdentifierPart] of the first character, if it is not ASCII. *)
Variable unicode_part : bstr -> bool.
Definition part_char (c : ascii) : bool := in_range "a" "z" c || in_range "A" "Z" c || in_range "0" "9" c || is_ascii_char "_" c || is_ascii_char "$" c.
Definition starts_with_part (s : bstr) : bool :=
  match s with [] => false | c :: _ => if (nat_of_ascii c <? 128)%nat then part_char c else unicode_part s end.
(** Lines 125-133. *)
Definition needs_space (text : bstr) (node_end : Z) : bool :=
  let next := skip_trivia text node_end in
  if negb (next =? node_end) || (zlen text <=? next) then false
  else starts_with_part (skipn (Z.to_nat next) text).
Notation bfix := (fix_ ascii).
(** The ends of the object, of [?.] if it is there, of the argument and of the node; the text of the object if it is a numeric literal. *)
Record access := Access { object_end : Z; question_end : option Z; key_end : Z; node_end : Z; number : option bstr }.
(** Lines 213-239. *)
Definition dot_fixes (text : bstr) (a : access) (value : bstr) : list bfix :=
  let left := token_range text (object_end a) in
  let right := token_range text (key_end a) in
  let (fs, start) :=
    match question_end a with
    | None => ([mkFix (if match number a with Some n => is_decimal_integer n | None => false end then b " ." else b ".") (fst left) (fst left)], fst left)
    | Some q => ([], q)
    end in
  fs ++ [mkFix value start (snd right)] ++ (if needs_space text (node_end a) then [mkFix (b " ") (node_end a) (node_end a)] else []).
(** Lines 259-273: [object_end], whether [?.] is there, whether the object is the identifier [let], and the range of the name. *)
Definition bracket_fixes (text : bstr) (object_end : Z) (question is_let : bool) (name_start name_end : Z) (name : bstr) : list bfix :=
  if negb question && is_let then []
  else
    let dot := token_range text object_end in
    (if question then [] else [mkFix [] (fst dot) (snd dot)]) ++ [mkFix (b "[""" ++ name ++ b """]") name_start name_end].
End Fixes.
