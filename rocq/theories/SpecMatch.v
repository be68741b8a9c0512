(** Model of the matching of types and values against specifiers, internal/utils/type_matches_specifier.go
    146-443 and 516-625.

    Strings are byte strings.  What the compiler knows (symbols, declarations, files) is given as records.
    File names are absolute, with / as the root: names with a drive letter or a URL are not modelled. *)
From Coq Require Import String Ascii Bool List ZArith.
From Verif Require Import Base Specifier.
Import ListNotations.
Open Scope Z_scope.

Definition slash : ascii := "/".
Definition backslash : ascii := "\".
(** [tspath.NormalizeSlashes]. *)
Definition normalize_slashes (s : bstr) : bstr := map (fun c => if Ascii.eqb c backslash then slash else c) s.
(** [strings.Split(s, "/")]. *)
Fixpoint split_slash (s : bstr) : list bstr :=
  match s with
  | [] => [[]]
  | c :: s' => if Ascii.eqb c slash then [] :: split_slash s'
               else match split_slash s' with x :: l => (c :: x) :: l | [] => [[c]] end
  end.
(** [strings.HasPrefix], [strings.Contains] and [strings.Index]. *)
Fixpoint has_prefix (p s : bstr) : bool :=
  match p, s with
  | [], _ => true
  | c :: p', d :: s' => Ascii.eqb c d && has_prefix p' s'
  | _ :: _, [] => false
  end.
Fixpoint contains (p s : bstr) : bool :=
  has_prefix p s || match s with [] => false | _ :: s' => contains p s' end.
Fixpoint index_of (c : ascii) (s : bstr) : Z :=
  match s with
  | [] => -1
  | d :: s' => if Ascii.eqb c d then 0 else match index_of c s' with -1 => -1 | i => i + 1 end
  end.
Definition node_modules : bstr := b "node_modules".

(** ** Packages *)

(** Lines 316-319 [containsNodeModulesSegment]. *)
Definition contains_node_modules (path : bstr) : bool :=
  contains (b "/node_modules/") (b "/" ++ normalize_slashes path ++ b "/").

(** Lines 286-314 [findPackageNameFromNodeModulesPath]; [after] are the segments behind segment [i]. *)
Definition package_after (after : list bstr) : option bstr :=
  match after with
  | [] => None
  | name :: rest =>
      if beqb name [] || beqb name (b ".") || beqb name (b "..") then None
      else if has_prefix (b "@") name then
        match rest with
        | second :: _ => if negb (beqb second []) then Some (name ++ b "/" ++ second) else None
        | [] => None
        end
      else Some name
  end.
(** The loop goes down from the last segment: [back] are the segments before, last one first. *)
Fixpoint package_loop (back after : list bstr) : option bstr :=
  match back with
  | [] => None
  | s :: back' =>
      if negb (beqb s node_modules) then package_loop back' (s :: after)
      else match package_after after with Some n => Some n | None => package_loop back' (s :: after) end
  end.
Definition package_of_path (file_name : bstr) : option bstr :=
  package_loop (rev (split_slash (normalize_slashes file_name))) [].

(** [tspath.GetDirectoryPath] for a name with slashes only: without trailing slash, up to the last one, but not
    less than the root. *)
Fixpoint drop_trailing (back : bstr) : bstr :=
  match back with c :: back' => if Ascii.eqb c slash then back else drop_trailing back' | [] => [] end.
Definition directory (path : bstr) : bstr :=
  match path with
  | [] => []
  | [c] => if Ascii.eqb c slash then path else []
  | c :: _ =>
      let back := rev path in
      let back := match back with d :: back' => if Ascii.eqb d slash then back' else back | [] => [] end in
      let dir := rev (match drop_trailing back with _ :: r => r | [] => [] end) in
      match dir with [] => if Ascii.eqb c slash then [slash] else [] | _ => dir end
  end.
Section Program.
(** The name in the [package.json] of a directory: [None] when the file cannot be read or parsed. *)
Variable package_json : bstr -> option bstr.
(** [program.Host().GetCurrentDirectory()] and [tspath.GetNormalizedAbsolutePath]. *)
Variable cwd : bstr.
Variable absolute : bstr -> bstr -> bstr.

(** Lines 259-284 [findPackageNameFromNearestPackageJSON]: every round shortens [dir]. *)
Fixpoint nearest_loop (fuel : nat) (dir : bstr) : option bstr :=
  match fuel with
  | O => None
  | S fuel' =>
      if negb (beqb dir []) && contains_node_modules dir then
        let up := let parent := directory dir in if beqb parent dir then None else nearest_loop fuel' parent in
        match package_json dir with
        | Some name => if negb (beqb name []) then Some name else up
        | None => up
        end
      else None
  end.
Definition nearest_package (file_name : bstr) : option bstr := nearest_loop (S (List.length file_name)) (directory file_name).
(** Lines 243-257 [findSourceFilePackageName]. *)
Definition source_file_package (name : bstr) : option bstr :=
  let file_name := normalize_slashes name in
  if negb (contains_node_modules file_name) then None
  else match nearest_package file_name with Some n => Some n | None => package_of_path file_name end.

(** Lines 349-360 [getTypesPackageName]. *)
Definition types_package_name (name : bstr) : res bstr :=
  match name with
  | [] => Ok name
  | c :: _ =>
      if negb (Ascii.eqb c "@") then Ok name
      else
        let i := index_of slash name in
        if (i <=? 1) || (i + 1 >=? zlen name) then Ok name
        else let! x := slice name 1 i in let! y := slice_from name (i + 1) in Ok (x ++ b "__" ++ y)
  end.

(** ** Declarations *)

(** A source file: its name, [IsSourceFileDefaultLibrary], [IsSourceFileFromExternalLibrary]. *)
Record file := File { f_name : bstr; f_lib : bool; f_external : bool }.
(** The ancestors of a declaration, itself first: namespace declarations, other module declarations with
    their name and whether it is a string literal, the source file, and other nodes. *)
Inductive anc := ANamespace | AModule (name : bstr) (literal : bool) | ASource | AOther.
Record decl := Decl { d_file : file; d_ancestors : list anc }.
(** Lines 201-221 [findParentModuleDeclaration]; a missing parent is a nil dereference. *)
Fixpoint parent_module (l : list anc) : res (option bstr) :=
  match l with
  | [] => Panic
  | AModule name literal :: _ => Ok (if literal then Some name else None)
  | ASource :: _ => Ok None
  | ANamespace :: l' => parent_module l'
  | AOther :: l' => parent_module l'
  end.
(** [Some] with a predicate that may panic. *)
Fixpoint some {A : Type} (f : A -> res bool) (l : list A) : res bool :=
  match l with [] => Ok false | x :: l' => let! y := f x in if y then Ok true else some f l' end.
(** Lines 223-231. *)
Definition in_declare_module (package : bstr) (ds : list decl) : res bool :=
  some (fun d => let! m := parent_module (d_ancestors d) in Ok (match m with Some n => beqb n package | None => false end)) ds.
(** Lines 321-347. *)
Definition in_declaration_file (package : bstr) (fs : list file) : res bool :=
  if beqb package [] then Ok false
  else
    let! types := types_package_name package in
    some (fun f =>
      match source_file_package (f_name f) with
      | None => Ok false
      | Some n =>
          if beqb n [] then Ok false
          else Ok ((beqb n package || beqb n types || beqb n (b "@types/" ++ package) || beqb n (b "@types/" ++ types)) && f_external f)
      end) fs.
(** Lines 362-370. *)
Definition in_package (package : bstr) (ds : list decl) (fs : list file) : res bool :=
  let! x := in_declare_module package ds in if x then Ok true else in_declaration_file package fs.
(** Lines 169-184. *)
Definition in_file (path : bstr) (fs : list file) : bool :=
  if beqb path [] then existsb (fun f => has_prefix cwd (f_name f)) fs
  else existsb (fun f => beqb (f_name f) (absolute path cwd)) fs.
(** Lines 186-199. *)
Definition in_lib (fs : list file) : bool := match fs with [] => true | _ => existsb f_lib fs end.
(** The switches of lines 395-406 and 431-442. *)
Definition from_source (s : specifier) (ds : list decl) : res bool :=
  let fs := map d_file ds in
  match s_from s with
  | FName => Ok true
  | FFile => Ok (in_file (s_path s) fs)
  | FLib => Ok (in_lib fs)
  | FPackage => in_package (s_package s) ds fs
  | FOther _ => Panic
  end.

(** ** Types, symbols and values *)
Record symbol := Sym { y_name : bstr; y_decls : list decl }.
(** A type: its alias symbol, its symbol, its name when it is intrinsic, and the parts when it is an
    intersection. *)
Inductive type_view := TView (alias sym : option symbol) (intrinsic : option bstr) (parts : list type_view).
Definition t_alias (t : type_view) := let 'TView a _ _ _ := t in a.
Definition t_sym (t : type_view) := let 'TView _ s _ _ := t in s.
Definition t_intrinsic (t : type_view) := let 'TView _ _ i _ := t in i.
Definition t_parts (t : type_view) := let 'TView _ _ _ p := t in p.
Definition mem (n : bstr) (ns : list bstr) : bool := existsb (fun x => beqb x n) ns.
(** Lines 146-167 [typeMatchesStringSpecifier]. *)
Definition name_matches (t : type_view) (names : list bstr) : bool :=
  let sym := match t_alias t with None => t_sym t | Some a => Some a end in
  if match sym with Some s => mem (y_name s) names | None => false end then true
  else match t_intrinsic t with Some n => mem n names | None => false end.
(** Lines 372-407 [typeMatchesSpecifier]. *)
Definition type_matches (t : type_view) (s : specifier) : res bool :=
  if negb (name_matches t (s_names s)) then Ok false
  else
    let sym := match t_sym t with None => t_alias t | Some y => Some y end in
    from_source s (match sym with Some y => y_decls y | None => [] end).
(** Lines 418-443 [SymbolMatchesSpecifierNameAndSource]. *)
Definition symbol_matches (sym : option symbol) (name : bstr) (s : specifier) : res bool :=
  match sym with
  | None => Ok false
  | Some y => if negb (mem name (s_names s)) then Ok false else from_source s (y_decls y)
  end.
(** Lines 516-541 [TypeMatchesSomeSpecifier].  A part is never the intersection itself. *)
Definition is_error (t : type_view) : bool := match t_intrinsic t with Some n => beqb n (b "error") | None => false end.
Definition type_matches_any (specifiers : list specifier) (t : type_view) : res bool :=
  if is_error t then Ok false else some (type_matches t) specifiers.
Definition type_matches_some (t : type_view) (specifiers : list specifier) : res bool :=
  let! x := type_matches_any specifiers t in
  if x then Ok true else some (type_matches_any specifiers) (t_parts t).

(** A node: its static name (lines 543-554; other nodes have the empty name), and whether it is in a file. *)
Record value_node := Value { v_name : bstr; v_in_file : bool }.
(** Lines 556-606 [valueMatchesSpecifier].  Reading the symbol of a nil type panics; lines 593-600 are not
    reached with a symbol. *)
Definition value_matches (v : value_node) (t : option type_view) (s : specifier) : res bool :=
  if beqb (v_name v) [] then Ok false
  else if negb (mem (v_name v) (s_names s)) then Ok false
  else if negb (v_in_file v) then Ok false
  else match s_from s with
       | FPackage =>
           match t with
           | None => Panic
           | Some t => match t_sym t with Some y => in_package (s_package s) (y_decls y) (map d_file (y_decls y)) | None => Ok false end
           end
       | _ => Ok true
       end.
(** Lines 608-625 [ValueMatchesSomeSpecifier]. *)
Definition value_matches_some (v : value_node) (specifiers : list specifier) (t : option type_view) : res bool :=
  some (value_matches v t) specifiers.
End Program.
