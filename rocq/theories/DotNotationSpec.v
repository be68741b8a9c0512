(** What C52 (PropsDotNotation.v) is stated with: reserved words, names, allowances, and texts as pieces. *)
From Coq Require Import String Ascii Bool List ZArith.
From Verif Require Import Base Fixer DotNotation.
Import ListNotations.
Open Scope Z_scope.

(** ** Names *)
(** ECMA-262, third edition: 7.5.2 keywords, 7.5.3 future reserved words, and the literals of 7.8. *)
Definition reserved : list string :=
  (["break"; "else"; "new"; "var"; "case"; "finally"; "return"; "void"; "catch"; "for"; "switch"; "while"; "continue"; "function"; "this"; "with"; "default"; "if"; "throw"; "delete"; "in"; "try"; "do"; "instanceof"; "typeof"]%string ++
   ["abstract"; "enum"; "int"; "short"; "boolean"; "export"; "interface"; "static"; "byte"; "extends"; "long"; "super"; "char"; "final"; "native"; "synchronized"; "class"; "float"; "package"; "throws"; "const"; "goto"; "private"; "transient"; "debugger"; "implements"; "protected"; "volatile"; "double"; "import"; "public"]%string ++
   ["null"; "true"; "false"]%string)%list.
Definition is_reserved (n : bstr) : Prop := exists w, In w reserved /\ n = b w.
Definition code (c : ascii) : Z := Z.of_nat (nat_of_ascii c).
Definition digit (c : ascii) : Prop := 48 <= code c <= 57.
Definition name_start (c : ascii) : Prop := 97 <= code c <= 122 \/ 65 <= code c <= 90 \/ code c = 95 \/ code c = 36.
Definition name_part (c : ascii) : Prop := name_start c \/ digit c.
Definition is_name (n : bstr) : Prop := exists c r, n = c :: r /\ name_start c /\ Forall name_part r.
(** The property an argument names, and the argument as messages show it. *)
Inductive names : key -> bstr -> bstr -> Prop :=
| nm_str v : names (KStr v) v ([ascii_of_nat 34] ++ v ++ [ascii_of_nat 34])
| nm_true : names KTrue (b "true") (b "true")
| nm_false : names KFalse (b "false") (b "false")
| nm_null : names KNull (b "null") (b "null")
| nm_template v : names (KTemplate v) v ([ascii_of_nat 96] ++ v ++ [ascii_of_nat 96]).

(** ** Allowances *)
Definition wanted (write : bool) : dkind := if write then DSet else DGet.
(** The accessor used, else the other one, else the first declaration. *)
Inductive consulted (ds : list decl) (write : bool) : decl -> Prop :=
| co_wanted pre d post : ds = pre ++ d :: post -> dkind_of d = wanted write -> Forall (fun x => dkind_of x <> wanted write) pre -> consulted ds write d
| co_other pre d post : ds = pre ++ d :: post -> dkind_of d = wanted (negb write) -> Forall (fun x => dkind_of x <> wanted write) ds -> Forall (fun x => dkind_of x <> wanted (negb write)) pre -> consulted ds write d
| co_first d post : ds = d :: post -> Forall (fun x => dkind_of x <> DGet /\ dkind_of x <> DSet) ds -> consulted ds write d.
(** The declarations of the property: as the checker finds it, else the first property of that name. *)
Inductive found (s : site) (k : key) : option (list decl) -> Prop :=
| fo_symbol ds : symbol_at s = Some ds -> found s k (Some ds)
| fo_property n ps pre ds post : symbol_at s = None -> k = KStr n \/ k = KTemplate n -> properties s = Some ps -> ps = pre ++ (n, ds) :: post -> Forall (fun p => fst p <> n) pre -> found s k (Some ds)
| fo_none : symbol_at s = None -> (forall n ps, k = KStr n \/ k = KTemplate n -> properties s = Some ps -> Forall (fun p => fst p <> n) ps) -> found s k None.
Definition allowed (o : options) (no_index : bool) (s : site) (k : key) : Prop :=
  exists sym, found s k sym /\
    ((exists ds d, sym = Some ds /\ consulted ds (written s) d /\
        ((allow_private o = true /\ is_private d = true) \/ (allow_protected o = true /\ is_protected d = true) \/
         ((allow_index o = true \/ no_index = true) /\ dkind_of d = DIndex))) \/
     ((sym = None \/ sym = Some []) /\
        (no_index = true \/ (allow_index o = true /\ properties s <> None /\ (index_key s = true \/ index_base s = true))))).

(** ** Texts as pieces *)
Inductive piece := Word (s : bstr) | Num (s : bstr) | Punct (s : bstr) | Lit (s : bstr) | Triv (s : bstr).
Definition shown (p : piece) : bstr := match p with Word s | Num s | Punct s | Lit s | Triv s => s end.
Definition text_of (ps : list piece) : bstr := concat (map shown ps).
Section Pieces.
(** Whether a text that starts outside ASCII starts with a character identifiers may have. *)
Variable unicode_part : bstr -> bool.
Definition begins_part (s : bstr) : Prop := exists c r, s = c :: r /\ ((code c < 128 /\ name_part c) \/ (128 <= code c /\ unicode_part s = true)).
Definition begins_dot (s : bstr) : Prop := exists r, s = b "." ++ r.
Definition begins_digit (s : bstr) : Prop := exists c r, s = c :: r /\ digit c.
(** A decimal integer, which takes a dot after it as its own; numbers like [017] do not. *)
Definition octal (c : ascii) : Prop := 48 <= code c <= 55.
Definition decimal (s : bstr) : Prop := s <> [] /\ Forall (fun c => digit c \/ code c = 95) s /\ ~ exists r, s = b "0" ++ r /\ r <> [] /\ Forall octal r.
(** The text of a number, if it is an integer: digits, with underscores between them. *)
Definition integer (n : bstr) : Prop := n <> [] /\ Forall (fun c => digit c \/ code c = 95) n /\ (forall r, n <> b "_" ++ r) /\ (forall r, n <> r ++ b "_").
(** The piece stops where it is followed by this text. *)
Definition stops (p : piece) (rest : bstr) : Prop :=
  match p with
  | Word _ => ~ begins_part rest
  | Num s => ~ begins_part rest /\ (decimal s -> ~ begins_dot rest)
  | Punct s => (s = b "." \/ s = b "?.") -> ~ begins_digit rest
  | Lit _ | Triv _ => True
  end.
(** White space or a comment. *)
Inductive trivium : bstr -> Prop :=
| tr_space c : In (code c) [9; 10; 11; 12; 13; 32] -> trivium [c]
| tr_line body c : Forall (fun x => code x <> 10 /\ code x <> 13) body -> code c = 10 \/ code c = 13 -> trivium (b "//" ++ body ++ [c])
| tr_block body : (forall x y, body ++ b "*" <> x ++ b "*/" ++ y) -> trivium (b "/*" ++ body ++ b "*/").
(** A piece is not empty and starts with a whole character. *)
Definition whole (p : piece) : Prop :=
  shown p <> [] /\ (forall x y, begins_part (shown p ++ x) <-> begins_part (shown p ++ y)) /\
  match p with Triv s => trivium s | _ => True end.
Fixpoint reads (ps : list piece) (rest : bstr) : Prop :=
  match ps with [] => True | p :: r => whole p /\ stops p (text_of r ++ rest) /\ reads r rest end.

(** ** Accesses in a text *)
Definition trivia (l : list bstr) : list piece := map Triv l.
(** A piece; an access [o t1 ?. u \[ t2 lit t3 \]] after its object; an access [o t1 . t2 word] (or [?.]) after its object, the word spelled
    [word] and read [name].  [num]: the text of the object if it is a number. *)
Inductive chunk :=
| Keep (p : piece)
| Elem (t1 : list bstr) (question : option (list bstr)) (t2 : list bstr) (lit : bstr) (t3 : list bstr) (name : bstr) (num : option bstr)
| Dot (t1 : list bstr) (question : bool) (t2 : list bstr) (word name : bstr).
Definition pieces_of (c : chunk) : list piece :=
  match c with
  | Keep p => [p]
  | Elem t1 question t2 lit t3 _ _ =>
      trivia t1 ++ match question with Some u => Punct (b "?.") :: trivia u | None => [] end ++ [Punct (b "[")] ++ trivia t2 ++ [Lit lit] ++ trivia t3 ++ [Punct (b "]")]
  | Dot t1 question t2 word _ => trivia t1 ++ [Punct (if question then b "?." else b ".")] ++ trivia t2 ++ [Word word]
  end.
Definition pieces (cs : list chunk) : list piece := concat (map pieces_of cs).
(** The same accesses in the other notation. *)
Inductive rewritten (rest : bstr) : list chunk -> list piece -> Prop :=
| re_nil : rewritten rest [] []
| re_keep p cs out : rewritten rest cs out -> rewritten rest (Keep p :: cs) (p :: out)
| re_dot t1 t2 word name cs out : rewritten rest cs out ->
    rewritten rest (Dot t1 false t2 word name :: cs) (trivia t1 ++ trivia t2 ++ [Punct (b "["); Lit ([ascii_of_nat 34] ++ name ++ [ascii_of_nat 34]); Punct (b "]")] ++ out)
| re_dot_q t1 t2 word name cs out : rewritten rest cs out ->
    rewritten rest (Dot t1 true t2 word name :: cs) (trivia t1 ++ [Punct (b "?.")] ++ trivia t2 ++ [Punct (b "["); Lit ([ascii_of_nat 34] ++ name ++ [ascii_of_nat 34]); Punct (b "]")] ++ out)
| re_elem t1 question t2 lit t3 name num gap space cs out : rewritten rest cs out ->
    (** a space before the dot, if the object is a number whose text is an integer *)
    (gap = [] /\ (question <> None \/ num = None \/ exists n, num = Some n /\ ~ integer n) \/
     gap = [Triv (b " ")] /\ question = None /\ exists n, num = Some n /\ integer n) ->
    (** a space after the name, if something that continues it follows *)
    (space = [] /\ ~ begins_part (text_of (pieces cs) ++ rest) \/ space = [Triv (b " ")] /\ begins_part (text_of (pieces cs) ++ rest)) ->
    rewritten rest (Elem t1 question t2 lit t3 name num :: cs)
      (trivia t1 ++ gap ++ [Punct (match question with Some _ => b "?." | None => b "." end); Word name] ++ space ++ out).
(** The text of an object that is a decimal integer is an integer. *)
Fixpoint numbered (before : option piece) (cs : list chunk) : Prop :=
  match cs with
  | [] => True
  | Keep p :: r => numbered (Some p) r
  | Elem _ _ _ _ _ name num :: r =>
      is_name name /\ (forall s, before = Some (Num s) -> decimal s -> exists n, num = Some n /\ integer n) /\
      numbered (Some (Punct (b "]"))) r
  | Dot _ _ _ word _ :: r => numbered (Some (Word word)) r
  end.
(** The messages of the accesses of a text, from a place in it. *)
Fixpoint messages (text : bstr) (at_ : Z) (id : nat) (cs : list chunk) : list (msg ascii) :=
  match cs with
  | [] => []
  | c :: r =>
      let next := at_ + zlen (text_of (pieces_of c)) in
      match c with
      | Keep _ => messages text next id r
      | Elem t1 question t2 lit t3 name num =>
          mkMsg id (dot_fixes unicode_part text
            (Access at_ (match question with Some _ => Some (at_ + zlen (concat t1) + 2) | None => None end) (next - 1 - zlen (concat t3)) next num) name)
          :: messages text next (S id) r
      | Dot t1 question t2 word name =>
          mkMsg id (bracket_fixes text at_ question false (next - zlen word) next name) :: messages text next (S id) r
      end
  end.
End Pieces.
