(** What texts with export declarations say, what they export and what is left of them after types are removed. *)
From Coq Require Import Bool String Ascii List Arith Permutation.
From Verif Require Import Base.
From Verif Require Import TypeExports.
Import ListNotations.
Local Open Scope nat_scope.

(** * Tokens: words, string literals (with their quotes), punctuation; white space and comments are nothing.  Bytes outside ASCII are parts of words. *)
Inductive tok := W (w : bstr) | Q (s : bstr) | P (c : ascii).
Definition between (lo c hi : ascii) : bool := Nat.leb (nat_of_ascii lo) (nat_of_ascii c) && Nat.leb (nat_of_ascii c) (nat_of_ascii hi).
Definition word_char (c : ascii) : bool :=
  between "a" c "z" || between "A" c "Z" || between "0" c "9" || Ascii.eqb c "_" || Ascii.eqb c "$" || Nat.leb 128 (nat_of_ascii c).
Definition blank (c : ascii) : bool := Ascii.eqb c " " || between "009" c "013".
Definition quote (c : ascii) : bool := Ascii.eqb c """" || Ascii.eqb c "'".
Definition line_end (c : ascii) : bool := Ascii.eqb c "010" || Ascii.eqb c "013".
Inductive state := Out | InWord (w : bstr) | InQuote (q : ascii) (s : bstr) | Escaped (q : ascii) (s : bstr) | Slash | InLine | InBlock | BlockStar | Bad.
Definition start (c : ascii) : state * list tok :=
  if word_char c then (InWord [c], [])
  else if quote c then (InQuote c [c], [])
  else if Ascii.eqb c "/" then (Slash, [])
  else if blank c then (Out, [])
  else if existsb (Ascii.eqb c) ["{"; "}"; ","; ";"; ":"; "*"]%char then (Out, [P c])
  else (Bad, []).
Definition step (s : state) (c : ascii) : state * list tok :=
  match s with
  | Out => start c
  | InWord w => if word_char c then (InWord (w ++ [c]), []) else let (s, t) := start c in (s, W w :: t)
  | InQuote q s =>
      if Ascii.eqb c q then (Out, [Q (s ++ [c])]) else if Ascii.eqb c "\" then (Escaped q (s ++ [c]), [])
      else if line_end c then (Bad, []) else (InQuote q (s ++ [c]), [])
  | Escaped q s => (InQuote q (s ++ [c]), [])
  | Slash => if Ascii.eqb c "/" then (InLine, []) else if Ascii.eqb c "*" then (InBlock, []) else (Bad, [])
  | InLine => if line_end c then (Out, []) else (InLine, [])
  | InBlock => if Ascii.eqb c "*" then (BlockStar, []) else (InBlock, [])
  | BlockStar => if Ascii.eqb c "/" then (Out, []) else if Ascii.eqb c "*" then (BlockStar, []) else (InBlock, [])
  | Bad => (Bad, [])
  end.
Fixpoint scan (s : state) (t : bstr) : state * list tok :=
  match t with
  | [] => (s, [])
  | c :: t => let (s1, a) := step s c in let (s2, r) := scan s1 t in (s2, a ++ r)
  end.
Definition tokens (t : bstr) : option (list tok) :=
  match scan Out t with
  | (Out, l) | (InLine, l) => Some l
  | (InWord w, l) => Some (l ++ [W w])
  | _ => None
  end.

(** * Grammar.  A specifier as TypeScript reads it, where type and as may also be names: type modifier, local name, exported name. *)
Record entry := { e_type : bool; e_local : bstr; e_exported : bstr }.
Definition name (t : tok) : option bstr := match t with W w => Some w | Q s => Some s | P _ => None end.
Definition is_word (w : bstr) (t : tok) : bool := match t with W v => beqb v w | _ => false end.
Definition an_entry (ty : bool) (l e : tok) : option entry :=
  match name l, name e with Some l, Some e => Some {| e_type := ty; e_local := l; e_exported := e |} | _, _ => None end.
Definition read_specifier (l : list tok) : option entry :=
  match l with
  | [n] => an_entry false n n
  | [a; n] => if is_word (b "type") a then an_entry true n n else None
  | [x; y; z] => if is_word (b "as") y then an_entry false x z else None
  | [a; x; y; z] => if is_word (b "type") a && is_word (b "as") y then an_entry true x z else None
  | _ => None
  end.
(** Specifiers between commas, up to the closing brace; a comma after the last one is allowed. *)
Fixpoint read_specifiers (now : list tok) (l : list tok) : option (list entry * list tok) :=
  match l with
  | [] => None
  | P "}" :: l =>
      match now with
      | [] => Some ([], l)
      | _ => match read_specifier now with Some e => Some ([e], l) | None => None end
      end
  | P "," :: l =>
      match read_specifier now, read_specifiers [] l with
      | Some e, Some (es, l) => Some (e :: es, l)
      | _, _ => None
      end
  | t :: l => read_specifiers (now ++ [t]) l
  end.
(** A declaration: whether it is export type, what it exports, from which module, with which attributes. *)
Inductive clause := Names (l : list entry) | Star (as_ : option bstr).
Record decl := { d_type : bool; d_clause : clause; d_from : option bstr; d_with : list tok }.
Fixpoint upto_brace (l : list tok) : option (list tok * list tok) :=
  match l with
  | [] => None
  | P "}" :: l => Some ([], l)
  | t :: l => match upto_brace l with Some (a, l) => Some (t :: a, l) | None => None end
  end.
Definition read_from (l : list tok) : option (option bstr * list tok * list tok) :=
  match l with
  | W f :: Q s :: l =>
      if beqb f (b "from") then
        match l with
        | W v :: P "{" :: l' => if beqb v (b "with") then match upto_brace l' with Some (a, l) => Some (Some s, a, l) | None => None end else Some (Some s, [], l)
        | _ => Some (Some s, [], l)
        end
      else Some (None, [], l)
  | _ => Some (None, [], l)
  end.
Definition read_end (l : list tok) : list tok := match l with P ";" :: l => l | _ => l end.
Definition read_type (l : list tok) : bool * list tok :=
  match l with
  | W t :: P c :: r => if beqb t (b "type") && (Ascii.eqb c "{" || Ascii.eqb c "*") then (true, P c :: r) else (false, l)
  | _ => (false, l)
  end.
(** export type { ... } with a specifier that has the modifier type too is an error (TS2207). *)
Definition read_decl (l : list tok) : option (decl * list tok) :=
  match l with
  | W e :: l =>
      if beqb e (b "export") then
        let (ty, l) := read_type l in
        match l with
        | P "{" :: l =>
            match read_specifiers [] l with
            | Some (es, l) =>
                if ty && existsb e_type es then None
                else match read_from l with Some (f, w, l) => Some ({| d_type := ty; d_clause := Names es; d_from := f; d_with := w |}, read_end l) | None => None end
            | None => None
            end
        | P "*" :: W a :: n :: l =>
            if beqb a (b "as") then
              match name n, read_from l with
              | Some n, Some (Some f, w, l) => Some ({| d_type := ty; d_clause := Star (Some n); d_from := Some f; d_with := w |}, read_end l)
              | _, _ => None
              end
            else match read_from (W a :: n :: l) with
                 | Some (Some f, w, l) => Some ({| d_type := ty; d_clause := Star None; d_from := Some f; d_with := w |}, read_end l)
                 | _ => None
                 end
        | _ => None
        end
      else None
  | _ => None
  end.
Fixpoint read_decls (fuel : nat) (l : list tok) : option (list decl) :=
  match fuel, l with
  | _, [] => Some []
  | 0, _ => None
  | S fuel, _ => match read_decl l with Some (d, l) => match read_decls fuel l with Some ds => Some (d :: ds) | None => None end | None => None end
  end.
Definition read (t : bstr) : option (list decl) :=
  match tokens t with Some l => read_decls (List.length l) l | None => None end.

(** * What declarations export: type only or not, local name, exported name, module, attributes. *)
Record export := { x_type : bool; x_local : bstr; x_exported : bstr; x_from : option bstr; x_with : list tok }.
Definition exports_of (d : decl) : list export :=
  match d_clause d with
  | Names es => map (fun e => {| x_type := d_type d || e_type e; x_local := e_local e; x_exported := e_exported e; x_from := d_from d; x_with := d_with d |}) es
  | Star _ => []
  end.
Definition exports (ds : list decl) : list export := flat_map exports_of ds.
(** The exports as they should be: names that stand for types are exported as types. *)
Definition marked (is_type : bstr -> bool) (x : export) : export :=
  {| x_type := x_type x || is_type (x_local x); x_local := x_local x; x_exported := x_exported x; x_from := x_from x; x_with := x_with x |}.
(** What is left of them in JavaScript. *)
Definition left_ (is_type : bstr -> bool) (ds : list decl) : list export :=
  filter (fun x => negb (x_type x || is_type (x_local x))) (exports ds).

(** The modules that are still loaded in JavaScript: those of a star that is no type export (TypeScript never removes it), and of every name that is left. *)
Definition loaded (is_type : bstr -> bool) (ds : list decl) : list bstr :=
  flat_map (fun d => match d_clause d, d_from d with
                     | Star _, Some m => if d_type d then [] else [m]
                     | Names _, Some m => match left_ is_type [d] with [] => [] | _ => [m] end
                     | _, None => []
                     end) ds.
(** The names exported as values by a star, from a module with these. *)
Definition star_values (values : list bstr) (d : decl) : list bstr :=
  match d_clause d with
  | Star (Some n) => if d_type d then [] else [n]
  | Star None => if d_type d then [] else values
  | Names _ => []
  end.

(** * Names that stand for types: what a symbol is at the end of its aliases, or as soon as a type-only declaration is met. *)
Inductive stands_for (table : list symbol) : nat -> bool -> Prop :=
| StandsTypeOnly i y : nth_error table i = Some y -> type_only_declared y = true -> stands_for table i true
| StandsValue i y : nth_error table i = Some y -> type_only_declared y = false -> valued y = true -> stands_for table i false
| StandsType i y : nth_error table i = Some y -> type_only_declared y = false -> valued y = false -> aliased y = None -> stands_for table i true
| StandsAlias i y j r : nth_error table i = Some y -> type_only_declared y = false -> valued y = false -> aliased y = Some (Some j) -> stands_for table j r -> stands_for table i r.

(** The names of a declaration that stand for types, and declarations all of whose names are known. *)
Definition types_known (table : list symbol) (resolve : bstr -> option nat) (is_type : bstr -> bool) : Prop :=
  forall w, is_type w = true <-> exists s, resolve w = Some s /\ stands_for table s true.
Definition all_known (table : list symbol) (resolve : bstr -> option nat) (d : named) : Prop :=
  forall s after, In (s, after) (items d) -> type_only s = false -> exists i r, resolve (local s) = Some i /\ stands_for table i r.
Definition has_value (table : list symbol) (resolve : bstr -> option nat) (d : named) : Prop :=
  exists s after i, In (s, after) (items d) /\ type_only s = false /\ resolve (local s) = Some i /\ stands_for table i false.
Definition misplaced (is_type : bstr -> bool) (d : named) : list specifier :=
  filter (fun s => negb (type_only s) && is_type (local s)) (map fst (items d)).
Definition written (s : specifier) : bstr := if beqb (local s) (exported s) then local s else local s ++ b " as " ++ exported s.
Definition part_of (t : bstr) (r : range) : bstr := firstn (snd r - fst r) (skipn (fst r) t).

(** * Declarations whose parts are those of their text. *)
Definition separators (last : bool) (l : list tok) : Prop := if last then l = [P "}"%char] \/ l = [P ","%char; P "}"%char] else l = [P ","%char].
Definition begins_token (t : bstr) : Prop := match t with c :: _ => blank c = false /\ c <> "/"%char | [] => False end.
Definition ends_token (t : bstr) : Prop := blank (last t "000"%char) = false /\ fst (scan Out t) <> InLine.
Definition specifier_ok (s : specifier) (l : list tok) : Prop :=
  begins_token (spec_text s) /\ ends_token (spec_text s) /\ tokens (spec_text s) = Some l /\ read_specifier l = Some {| e_type := type_only s; e_local := local s; e_exported := exported s |}.
Inductive items_ok : list (specifier * bstr) -> Prop :=
| ItemsNil : items_ok []
| ItemsCons s after l ts seps :
    specifier_ok s ts -> separators (match l with [] => true | _ => false end) seps ->
    scan Out (spec_text s ++ after) = (Out, ts ++ seps) -> items_ok l -> items_ok ((s, after) :: l).
(** [head]: export (type) and the opening brace; for no specifiers also the closing one. *)
Definition named_ok (d : named) (w : list tok) : Prop :=
  let ty := if decl_type_only d then [W (b "type")] else [] in
  scan Out (head d) = (Out, W (b "export") :: ty ++ P "{"%char :: (match items d with [] => [P "}"%char] | _ => [] end)) /\ items_ok (items d) /\
  exists l, tokens (tail d) = Some l /\ (exists r, read_from l = Some (source d, w, r) /\ read_end r = []).
Definition the_decl (d : named) (w : list tok) : decl :=
  {| d_type := decl_type_only d;
     d_clause := Names (map (fun it => {| e_type := type_only (fst it); e_local := local (fst it); e_exported := exported (fst it) |}) (items d));
     d_from := source d; d_with := w |}.
Definition star_ok (s : star) (as_ : option bstr) (from : bstr) (w : list tok) : Prop :=
  let ty := if star_type_only s then [W (b "type")] else [] in
  scan Out (before s) = (Out, W (b "export") :: ty) /\
  exists l r, tokens (rest s) = Some (match as_ with Some n => [W (b "as"); (if quote (hd " "%char n) then Q n else W n)] | None => [] end ++ l) /\
    read_from l = Some (Some from, w, r) /\ read_end r = [].
(** The byte after the modifier type is no quote. *)
Definition apart (s : specifier) : Prop :=
  type_only s = true -> match skipn 4 (spec_text s) with c :: _ => quote c = false | [] => True end.

Definition all_apart (d : named) : Prop := forall s after, In (s, after) (items d) -> apart s.

(** * Edits, in the order of their places. *)
Fixpoint edited (at_ : nat) (t : bstr) (l : list (nat * nat * bstr)) : bstr :=
  match l with
  | [] => t
  | ((lo, hi), new) :: l => firstn (lo - at_) t ++ new ++ edited hi (skipn (hi - at_) t) l
  end.

(** * Enumerations of names. *)
Fixpoint more (l : list bstr) : bstr :=
  match l with [] => [] | [x] => b ", and " ++ x | x :: l => b ", " ++ x ++ more l end.
Definition enumeration (l : list bstr) : bstr :=
  match l with [] => [] | [x] => x | [x; y] => x ++ b " and " ++ y | x :: l => x ++ more l end.
