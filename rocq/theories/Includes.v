(** Model of internal/rules/prefer_includes/prefer_includes.go.

    Texts are lists of code points.  The code compares bytes only with ASCII characters, so
    this makes no difference for UTF-8 text. *)
From Coq Require Import Bool List ZArith.
Import ListNotations.
Open Scope Z_scope.

(** prefer_includes.go:35-37. *)
Definition escape_string (s : list Z) : list Z := flat_map (fun c => if c =? 39 then [92; 39] else [c]) s.

(** The characters of prefer_includes.go:48: . * + ? | ^ $ [ ] ( ) { } *)
Definition metachar (c : Z) : bool :=
  existsb (Z.eqb c) [46; 42; 43; 63; 124; 94; 36; 91; 93; 40; 41; 123; 125].
(** prefer_includes.go:55: d D w W s S b B c x u *)
Definition escape_letter (c : Z) : bool :=
  existsb (Z.eqb c) [100; 68; 119; 87; 115; 83; 98; 66; 99; 120; 117].

(** prefer_includes.go:42-62, [prev] is [prevRune]. *)
Fixpoint simple_from (prev : Z) (p : list Z) : bool :=
  match p with
  | [] => true
  | ch :: p' =>
      if negb (prev =? 92)
      then if metachar ch then false else simple_from ch p'
      else if escape_letter ch then false else simple_from ch p'
  end.
Definition simple_pattern (p : list Z) : bool := simple_from 0 p.

(** prefer_includes.go:79-85: the greatest index in [1..i] that holds a slash. *)
Fixpoint find_slash (i : nat) (text : list Z) : option nat :=
  match i with
  | O => None
  | S i' => if nth i text 0 =? 47 then Some i else find_slash i' text
  end.

Section Extract.
(** [regexp2.Compile] succeeds. *)
Variable compiles : list Z -> bool.

(** prefer_includes.go:65-108; the empty result means no. *)
Definition extract_literal (text : list Z) : list Z :=
  if (List.length text <? 3)%nat || negb (nth 0 text 0 =? 47) then []
  else match find_slash (List.length text - 1) text with
       | None => []
       | Some k =>
           let pattern := firstn (k - 1) (skipn 1 text) in
           let flags := skipn (k + 1) text in
           if (0 <? List.length flags)%nat then []
           else if negb (compiles pattern) then []
           else if negb (simple_pattern pattern) then []
           else pattern
       end.

(** An argument of a call: a string literal with its value, or something else. *)
Inductive arg := AStr (text : list Z) | AOther.

(** prefer_includes.go:111-142, [RegExp] called with [new]. *)
Definition extract_ctor (args : list arg) : list Z :=
  match args with
  | AStr pattern :: _ =>
      if negb (compiles pattern) then []
      else if negb (simple_pattern pattern) then []
      else pattern
  | _ => []
  end.

(** The expression before [.test]: a regular expression literal, [new RegExp(...)], a
    variable with the initializer of its declaration, something else. *)
Inductive rexp := ELit (text : list Z) | ENew (args : list arg) | EVar (x : nat) | EOtherExp.

(** prefer_includes.go:145-172; [decl x] is the initializer in the declaration of [x]. *)
Definition resolve_variable (decl : nat -> option rexp) (e : rexp) : list Z :=
  match e with
  | EVar x =>
      match decl x with
      | Some (ELit t) => extract_literal t
      | Some (ENew args) => extract_ctor args
      | _ => []
      end
  | _ => []
  end.
(** prefer_includes.go:182-190. *)
Definition resolve_pattern (decl : nat -> option rexp) (e : rexp) : list Z :=
  let direct := match e with ELit t => extract_literal t | _ => [] end in
  match direct with [] => resolve_variable decl e | _ => direct end.
End Extract.

(** prefer_includes.go:404-408: the text inserted after the argument, ".includes('...')". *)
Definition includes_call (pattern : list Z) : list Z :=
  [46; 105; 110; 99; 108; 117; 100; 101; 115; 40] ++ 39 :: escape_string pattern ++ [39] ++ [41].

(** Comparisons: the operator and the right operand, a number literal (its value, when
    [strconv.Atoi] reads it), its negation, or something else. *)
Inductive cmp := CNeqStrict | CNeq | CEqStrict | CEq | CGt | CGe | CLt | CLe.
Inductive operand := ONum (z : Z) | ONeg (z : Z) | OOther.

(** prefer_includes.go:274-292. *)
Definition is_number (o : operand) (value : Z) : bool :=
  match o with ONum z => z =? value | ONeg z => - z =? value | OOther => false end.
(** prefer_includes.go:296-307. *)
Definition is_positive (op : cmp) (right : operand) : bool :=
  match op with
  | CNeqStrict | CNeq | CGt => is_number right (-1)
  | CGe => is_number right 0
  | _ => false
  end.
(** prefer_includes.go:311-322. *)
Definition is_negative (op : cmp) (right : operand) : bool :=
  match op with
  | CEqStrict | CEq | CLe => is_number right (-1)
  | CLt => is_number right 0
  | _ => false
  end.

(** prefer_includes.go:438-478: the new expression is [x.includes(y)], or its negation. *)
Inductive rewrite := RIncludes | RNotIncludes.
Definition rewrite_index (op : cmp) (right : operand) : option rewrite :=
  if negb (is_positive op right) && negb (is_negative op right) then None
  else if is_negative op right then Some RNotIncludes else Some RIncludes.
