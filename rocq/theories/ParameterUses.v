(** Which references to a type parameter there are, where the body of a signature starts, and what is reported:
    internal/rules/no_unnecessary_type_parameters/no_unnecessary_type_parameters.go lines 16-31, 80-134, 234-299, 560-629; line numbers are of this file.
    The count of uses is that of TypeParameters.v and given here; [repeated] (301-322) is from there.
    Simplifications: of a node are kept a number, whether it is an identifier or a type node, its symbol, one range (with leading trivia where positions are compared, 121 and 306-311, and without it in reports, 617-619, 643) and its children with those of its JSDoc (115). The sort (120) is one by insertion; it differs from the one there at most in the order of references at the same position, and two identifiers never start at the same position. *)
From Coq Require Import Bool Arith Ascii String List.
From Verif Require Import Base TypeParameters.
Import ListNotations.
Open Scope nat_scope.

Inductive kind := Identifier | Type_node | Other_kind.
Inductive tree := Tree (number : nat) (k : kind) (symbol : option nat) (range : nat * nat) (children : list tree).
(** 88-116, below a node that is a type node or not *)
Fixpoint collect (target declaration : nat) (in_type : bool) (t : tree) : list (nat * nat) :=
  match t with
  | Tree n k s r children =>
      (match k with
       | Identifier => if negb (Nat.eqb n declaration) && in_type && match s with Some x => Nat.eqb x target | None => false end then [r] else []
       | _ => []
       end) ++ flat_map (collect target declaration (match k with Type_node => true | _ => false end)) children
  end.
Fixpoint insert (r : nat * nat) (l : list (nat * nat)) : list (nat * nat) :=
  match l with [] => [r] | x :: l => if fst r <=? fst x then r :: x :: l else x :: insert r l end.
(** 118-124 *)
Definition references (target declaration : nat) (t : tree) : list (nat * nat) := fold_right insert [] (collect target declaration false t).

(** The nodes with type parameters: the position of the members of a class (240-243); body and end of the type of functions and methods (244-275), of an arrow function whether its body is a function (260); the end of the type of signatures and types of functions (276-295). *)
Inductive signature_kind := S_class (members : nat) | S_function (body type_end : option nat) | S_arrow (body : option (nat * bool)) (type_end : option nat) | S_signature (type_end : option nat).
(** 234-299; None is math.MaxInt *)
Definition start_of_body (s : signature_kind) : option nat :=
  match s with
  | S_class m => Some m
  | S_function (Some p) _ => Some p
  | S_function None e => e
  | S_arrow (Some (p, is_function)) _ => if is_function then None else Some p
  | S_arrow None e => e
  | S_signature e => e
  end.

(** A type parameter: its range, its symbol, its name as a node with its range and text, its constraint: any, or another with its text. *)
Inductive constraint := C_any | C_type (text : bstr).
Record parameter := { prange : nat * nat; psymbol : option nat; name_node : nat; name_range : nat * nat; name : bstr; bound : option constraint }.
(** 127-134 *)
Definition constraint_text (p : parameter) : bstr := match bound p with Some (C_type t) => t | _ => b "unknown" end.
(** 16-31 *)
Record report := { at_ : nat * nat; message : bstr; label_at : nat * nat; label : bstr; replaced : list (nat * nat); replacement : bstr }.
(** 576-594 *)
Definition candidates (s : signature_kind) (t : tree) (ps : list parameter) : list (parameter * nat * list (nat * nat)) :=
  flat_map (fun p =>
    match psymbol p with
    | None => []
    | Some x =>
        let refs := references x (name_node p) t in
        if repeated (prange p) refs (start_of_body s) then [] else [(p, x, refs)]
    end) ps.
(** 560-629 *)
Definition check (s : signature_kind) (t : tree) (descriptor : bstr) (ps : list parameter) (counts : list nat -> nat -> option nat) : list report :=
  let cs := candidates s t ps in
  let targets := map (fun c => snd (fst c)) cs in
  flat_map (fun c =>
    match c with
    | (p, x, refs) =>
        match counts targets x with
        | None => []
        | Some n =>
            if Nat.ltb 2 n then []
            else [{| at_ := prange p;
                     message := b "Type parameter " ++ name p ++ b " is " ++ (if Nat.eqb n 1 then b "never used" else b "used only once") ++ b " in the " ++ descriptor ++ b " signature.";
                     label_at := match refs with [] => name_range p | r :: _ => r end;
                     label := b "This is the only usage of type parameter " ++ name p ++ b " in the signature.";
                     replaced := refs; replacement := constraint_text p |}]
        end
    end) cs.
