(** no-unnecessary-type-arguments (internal/rules/no_unnecessary_type_arguments/no_unnecessary_type_arguments.go): declarations that say the type parameters, the last type argument against its default, removed text.
    Line numbers are of this file. *)
From Coq Require Import Bool Arith ZArith List.
Import ListNotations.
Open Scope nat_scope.

(** Type parameters: their symbol, and the type of their default (198-203).  Types are numbers (identity of the checker's types). *)
Record parameter := { symbol : nat; default : option nat }.

(** * 50-106 [getTypeParametersFromType] *)
(** Declarations of a symbol, as 87-103 tells them apart: type aliases and interfaces, classes, variables (with the type parameters of the declaration of the first construct signature of their type; [None]: no such signature, or one without declaration), others. *)
Inductive declaration := Alias (l : list parameter) | Interface (l : list parameter) | Class (l : list parameter) | Variable_ (l : option (list parameter)) | Otherwise.
(** 21-23 [isTypeContextDeclaration]. *)
Definition of_types (d : declaration) : bool := match d with Alias _ | Interface _ => true | _ => false end.
(** 71-85: the comparison; [types]: 25-27 [isInTypeContext]. *)
Definition compare (types : bool) (x y : declaration) : Z :=
  let (x, y) := if negb types then (y, x) else (x, y) in
  ((if of_types x then -1 else 0) + (if of_types y then 1 else 0))%Z.
(** 87-105: the loop over the sorted declarations. *)
Fixpoint first_parameters (l : list declaration) : option (list parameter) :=
  match l with
  | [] => None
  | (Alias ps | Interface ps | Class ps) :: _ => Some ps
  | Variable_ (Some ps) :: _ => Some ps
  | Variable_ None :: l => first_parameters l
  | Otherwise :: l => first_parameters l
  end.
(** [sort]: slices.SortFunc, of which it is only known that it sorts. *)
Definition parameters_from_type (sort : (declaration -> declaration -> Z) -> list declaration -> list declaration) (types : bool) (declarations : list declaration) : option (list parameter) :=
  first_parameters (sort (compare types) declarations).
(** 25-27 [isInTypeContext]: type references and what is in them; extends of interfaces; implements. *)
Inductive place := TypeReference | InTypeReference | InInterface | Implements | Elsewhere.
Definition in_type_context (p : place) : bool := match p with TypeReference | InTypeReference | InInterface | Implements => true | Elsewhere => false end.
(** 108-121 [getTypeParametersFromCall]: [signature]: the type parameters of the declaration of the resolved signature; [from_type]: 118, for new expressions. *)
Definition parameters_from_call (signature : option (list parameter)) (is_new : bool) (from_type : option (list parameter)) : option (list parameter) :=
  match signature with
  | Some (p :: ps) => Some (p :: ps)
  | _ => if is_new then from_type else None
  end.

(** * 183-232 [checkArgsAndParameters] *)
Section Check.
(** Types with ObjectFlagsReference: their target and type arguments, 34-45. *)
Context (reference : nat -> option (nat * list nat)).
Definition for_comparison (t : nat) : nat * list nat := match reference t with Some r => r | None => (t, []) end.
Fixpoint same_list (l m : list nat) : bool := match l, m with [], [] => true | x :: l, y :: m => (x =? y) && same_list l m | _, _ => false end.
(** 210-228 *)
Definition types_match (d a : nat) : bool :=
  (d =? a) || (let (x, l) := for_comparison d in let (y, m) := for_comparison a in (x =? y) && same_list l m).
(** Type nodes: identifiers with their symbol, and what is in a node. *)
Inductive tnode := Node (identifier : option nat) (children : list tnode).
(** 123-144 [typeNodeReferencesTypeParameter]. *)
Fixpoint mentions (symbols : list nat) (n : tnode) : bool :=
  match n with Node s l => match s with Some s => existsb (Nat.eqb s) symbols | None => false end || existsb (mentions symbols) l end.
(** What is checked: a new expression with the number of its arguments; the types of the parameters of the resolved signature's declaration, if there is one (parameters without type left out). *)
Record use := { new_ : bool; value_arguments : nat; signature_types : option (list tnode) }.
(** 146-181 [constructorArgumentsCanInferTypeParameters] (each type parameter has a symbol). *)
Definition can_infer (u : use) (ps : list parameter) : bool :=
  if negb (new_ u) || (value_arguments u =? 0) then false
  else match ps with
  | [] => false
  | _ => match signature_types u with None => false | Some l => existsb (mentions (map symbol ps)) l end
  end.
(** 183-238: whether the last type argument is reported. *)
Definition check (u : use) (arguments : list nat) (ps : option (list parameter)) : bool :=
  match ps with
  | None => false
  | Some ps =>
      if (length arguments =? 0) || (length ps =? 0) then false
      else
        let last := length arguments - 1 in
        if length ps <=? last then false
        else match nth_error ps last, nth_error arguments last with
        | Some p, Some a =>
            match default p with
            | None => false
            | Some d => types_match d a && negb ((last =? 0) && can_infer u ps)
            end
        | _, _ => false
        end
  end.
End Check.

(** * 240-248: the removed text *)
(** A list of type arguments in the source: each with the text of its node (white space and comments before it belong to it) and the text up to the end of the comma after it (nothing, for the last without trailing comma);
    [tail]: white space and comments before the closing bracket, which is one character.  [start]: where the opening bracket, one character, begins. *)
Record written := { start : nat; nodes : list (nat * nat); tail : nat }.
(** Where the [i]-th node ends. *)
Fixpoint node_end (from : nat) (l : list (nat * nat)) (i : nat) : nat :=
  match l, i with
  | [], _ => from
  | (n, _) :: _, 0 => from + n
  | (n, c) :: l, S i => node_end (from + n + c) l i
  end.
Fixpoint list_end (from : nat) (l : list (nat * nat)) : nat := match l with [] => from | (n, c) :: l => list_end (from + n + c) l end.
(** 241-247: the only one with its brackets (the token after the end of the list, from one before its beginning); others from the end of the one before. *)
Definition removed (w : written) : nat * nat :=
  let last := length (nodes w) - 1 in
  let pos := start w + 1 in
  if last =? 0 then (pos - 1, list_end pos (nodes w) + tail w + 1)
  else (node_end pos (nodes w) (last - 1), node_end pos (nodes w) last).
Definition remove_range {A} (r : nat * nat) (text : list A) : list A := firstn (fst r) text ++ skipn (snd r) text.
