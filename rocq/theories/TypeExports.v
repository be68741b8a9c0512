(** consistent-type-exports (internal/rules/consistent_type_exports/consistent_type_exports.go). *)
From Coq Require Import Bool String Ascii List Arith.
From Verif Require Import Base.
Import ListNotations.
Local Open Scope nat_scope.

(** A symbol of the checker, as far as it is looked at (48-74): whether one of its declarations is a type-only import or export, its Value flag,
    and for aliases the symbol aliased at once, if there is one.  Symbols are places in a table. *)
Record symbol := { type_only_declared : bool; valued : bool; aliased : option (option nat) }.
(** 48-74 [isSymbolTypeBased]: [None] if unresolved.  Every turn visits another symbol of the table, so as many turns as there are symbols, and one more, are enough. *)
Fixpoint type_based_loop (fuel : nat) (table : list symbol) (visited : list nat) (s : option nat) : option bool :=
  match fuel, s with
  | S fuel, Some i =>
      if existsb (Nat.eqb i) visited then None
      else match nth_error table i with
           | None => None
           | Some y =>
               if type_only_declared y then Some true
               else if valued y then Some false
               else match aliased y with
                    | Some next => match next with None => None | Some j => type_based_loop fuel table (i :: visited) (Some j) end
                    | None => Some true
                    end
           end
  | _, _ => None
  end.
Definition is_symbol_type_based (table : list symbol) (s : option nat) : option bool :=
  type_based_loop (S (List.length table)) table [] s.

(** strings.TrimSpace and unicode.IsSpace, for ASCII. *)
Definition space (c : ascii) : bool := existsb (Ascii.eqb c) [" "; "009"; "010"; "011"; "012"; "013"]%char.
Fixpoint trim_left (cut : ascii -> bool) (t : bstr) : bstr :=
  match t with [] => [] | c :: r => if cut c then trim_left cut r else t end.
Definition trim_space (t : bstr) : bstr := rev (trim_left space (rev (trim_left space t))).
(** 95: the cutset of strings.TrimLeft. *)
Definition cutset (c : ascii) : bool := existsb (Ascii.eqb c) [" "; "009"; "013"; "010"]%char.
(** 81-96 [stripLeadingTypeKeyword]. *)
Definition strip_type (t : bstr) : bstr :=
  match t with
  | "t"%char :: "y"%char :: "p"%char :: "e"%char :: r =>
      match r with
      | [] => []
      | c :: _ => if negb (space c) && negb (Ascii.eqb c "/") then t else trim_left cutset r
      end
  | _ => t
  end.

(** An export specifier: its text, the texts of its two names ([PropertyName] and [Name]; equal to [exported] if there is no property name), whether it has the type modifier. *)
Record specifier := { spec_text : bstr; type_only : bool; local : bstr; exported : bstr }.
(** 98-118 [getExportSpecifierText]. *)
Definition specifier_text (s : specifier) : bstr :=
  if type_only s then strip_type (trim_space (spec_text s))
  else
    let l := trim_space (local s) in
    let e := trim_space (exported s) in
    if beqb l e then l else l ++ b " as " ++ e.

(** A declaration with named exports: its text is [head] (up to the first specifier), then every specifier with the text after it, up to the next specifier or through the closing brace, then [tail].
    [source]: the text of the module specifier. *)
Record named := { decl_type_only : bool; head : bstr; items : list (specifier * bstr); tail : bstr; source : option bstr }.
Definition items_text (l : list (specifier * bstr)) : bstr := flat_map (fun it => spec_text (fst it) ++ snd it) l.
Definition named_text (d : named) : bstr := head d ++ items_text (items d) ++ tail d.

(** strings.Join. *)
Fixpoint join (sep : bstr) (l : list bstr) : bstr :=
  match l with [] => [] | [x] => x | x :: r => x ++ sep ++ join sep r end.
(** 134-145 [joinWordList]. *)
Definition join_words (l : list bstr) : bstr :=
  match l with
  | [] => []
  | [x] => x
  | [x; y] => x ++ b " and " ++ y
  | _ => join (b ", ") (removelast l) ++ b ", and " ++ last l []
  end.
(** 147-158 [buildNamedExportStatement]; no source is the empty text. *)
Definition export_statement (type_only : bool) (specs : list bstr) (source : bstr) : bstr :=
  b "export " ++ (if type_only then b "type " else []) ++ b "{ " ++ join (b ", ") specs ++ b " }"
  ++ (if beqb source [] then [] else b " from " ++ source) ++ b ";".

(** Reports: message, its range, labels with ranges, and edits (from, to, new text).  Positions are relative to the first byte of the declaration, which is its export keyword (120-132 scan for it);
    [None] is the zero range of a diagnostic to which none was assigned (287). *)
Inductive message := TypeOverValue | SingleExportIsType (name : bstr) | MultipleExportsAreTypes (names : bstr).
Definition range := (nat * nat)%type.
Record report := { rep_message : message; rep_range : option range; rep_labels : list (bstr * range); rep_edits : list (nat * nat * bstr) }.

(** 39-46, 214-260 [analyzeNamedExport], without the declaration's own fields.  The nodes of the type-based specifiers by their ranges.  [resolve]: the symbol of a name in this declaration. *)
Record analyzed := { type_texts : list bstr; type_nodes : list range; type_names : list bstr; value_texts : list bstr }.
Fixpoint analyze (table : list symbol) (resolve : bstr -> option nat) (at_ : nat) (l : list (specifier * bstr)) : analyzed :=
  match l with
  | [] => {| type_texts := []; type_nodes := []; type_names := []; value_texts := [] |}
  | (s, after) :: l =>
      let a := analyze table resolve (at_ + List.length (spec_text s) + List.length after) l in
      let t := specifier_text s in
      if type_only s then {| type_texts := t :: type_texts a; type_nodes := type_nodes a; type_names := type_names a; value_texts := value_texts a |}
      else
        match is_symbol_type_based table (resolve (local s)) with
        | None => a
        | Some true => {| type_texts := t :: type_texts a; type_nodes := (at_, at_ + List.length (spec_text s)) :: type_nodes a; type_names := t :: type_names a; value_texts := value_texts a |}
        | Some false => {| type_texts := type_texts a; type_nodes := type_nodes a; type_names := type_names a; value_texts := t :: value_texts a |}
        end
  end.
(** 298: the labels of several names. *)
Definition label (name : bstr) : bstr := name ++ b " is a type export, try `type " ++ name ++ b "`".
(** 262-321 [checkNamedExport].  [inline]: the option fixMixedExportsWithInlineTypeSpecifier. *)
Definition check_named (inline : bool) (table : list symbol) (resolve : bstr -> option nat) (d : named) : option report :=
  if decl_type_only d then None
  else
    let a := analyze table resolve (List.length (head d)) (items d) in
    let src := match source d with Some t => trim_space t | None => [] end in
    let whole := (0, List.length (named_text d)) in
    match type_nodes a with
    | [] => None
    | first :: _ =>
        match value_texts a with
        | [] => Some {| rep_message := TypeOverValue; rep_range := Some (0, 6); rep_labels := [];
                        rep_edits := [(whole, export_statement true (type_texts a) src)] |}
        | _ =>
            let edits :=
              if inline then map (fun r => ((fst r, fst r), b "type ")) (type_nodes a)
              else [(whole, export_statement true (type_texts a) src ++ "010"%char :: export_statement false (value_texts a) src)] in
            match type_names a with
            | [n] => Some {| rep_message := SingleExportIsType n; rep_range := Some first; rep_labels := []; rep_edits := edits |}
            | ns => Some {| rep_message := MultipleExportsAreTypes (join_words ns); rep_range := None;
                            rep_labels := combine (map label ns) (type_nodes a); rep_edits := edits |}
            end
        end
    end.

(** export * from and export * as name from: the text is [before] the asterisk, the asterisk and [rest].  [properties]: for a module whose symbol and type are known, the names of the properties of its type,
    each with whether the property is found by its name (182-187). *)
Record star := { star_type_only : bool; before : bstr; rest : bstr; from_module : bool; properties : option (list (bstr * bool)) }.
Definition star_text (s : star) : bstr := before s ++ "*"%char :: rest s.
(** 165-212 [checkStarExport]. *)
Definition check_star (s : star) : option report :=
  if star_type_only s || negb (from_module s) then None
  else
    match properties s with
    | None => None
    | Some ps =>
        if existsb snd ps then None
        else Some {| rep_message := TypeOverValue; rep_range := Some (0, 6); rep_labels := []; rep_edits := [((List.length (before s), List.length (before s)), b "type ")] |}
    end.
