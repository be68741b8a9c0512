(** no-unnecessary-type-parameters (internal/rules/no_unnecessary_type_parameters/no_unnecessary_type_parameters.go): counting the uses of type parameters in signatures.
    Line numbers are of this file. *)
From Coq Require Import Bool List Arith.
Import ListNotations.

(** * Types as a graph *)
(** Types, symbols and nodes are numbers.  A declaration of a type parameter: its symbol, the node and the type of its constraint, the type of its default. *)
Record decl := { symbol : nat; constraint : option (nat * nat); default_type : option nat }.
(** References to tuples, to arrays (and whether the symbol is called Array), to anything else. *)
Inductive reference_kind := RTuple (readonly : bool) | RArray (named_array : bool) | ROther.
(** Signatures: the types of the parameters, the type parameters, the return type, the type of a type predicate. *)
Record signature := { this_type : option nat; parameter_types : list nat; type_parameters : list nat; return_type : option nat; predicate_type : option nat }.
Record mapped := { mapped_parameter : option nat; template_type : option nat; mapped_constraint : option nat }.
Record object := { property_types : list nat; mapping : option mapped; number_index : option nat; string_index : option nat; call_signatures : list signature; construct_signatures : list signature }.
(** What the checker says about a type: whether it is a type parameter (and its declaration, if its symbol has one); the type arguments of its alias; the parts of a union or intersection; an indexed access; a reference with its type arguments; the types of a template literal; check and extends types of a conditional type; an object type; the target of keyof types and string mappings. *)
Record node := { parameter : option (option decl); alias_arguments : list nat; parts : option (list nat); indexed : option (nat * nat); reference : option (reference_kind * list nat);
  template_parts : option (list nat); conditional : option (nat * nat); object_ : option object; target : option nat }.

(** A visit: the type, assumeMultipleUses, isReturnType. *)
Definition item := (nat * bool * bool)%type.
Definition plain (t : nat) : item := (t, false, false).
Definition optional (o : option nat) (a : bool) : list item := match o with Some t => [(t, a, false)] | None => [] end.
(** 389-420 [visitSignature]. *)
Definition signature_items (g : signature) : list item :=
  optional (this_type g) false ++ map plain (parameter_types g) ++ map plain (type_parameters g)
  ++ match match predicate_type g with Some t => Some t | None => return_type g end with Some t => [(t, false, true)] | None => [] end.
(** 473-487: the flag for type arguments. *)
Definition argument_flag (from_class a r : bool) (k : reference_kind) : bool :=
  match k with
  | RTuple readonly => from_class || a || (r && negb readonly)
  | RArray named => from_class || a || (r && named)
  | ROther => true
  end.
(** 503-538: object types. *)
Definition object_items (o : object) : list item :=
  map plain (property_types o)
  ++ match mapping o with
     | None => []
     | Some m => optional (mapped_parameter m) false ++ match property_types o with [] => match template_type m with Some t => [plain t] | None => optional (mapped_constraint m) false end | _ => [] end
     end
  ++ optional (number_index o) true ++ optional (string_index o) true
  ++ flat_map signature_items (call_signatures o) ++ flat_map signature_items (construct_signatures o).
(** 449-544: what is visited from a type that is no type parameter, in this order.  The checks of remainingTargets in the loops are those of [visit]. *)
Definition edges (from_class : bool) (n : node) (a r : bool) : list item :=
  match alias_arguments n with
  | _ :: _ => map (fun t => (t, true, false)) (alias_arguments n)
  | [] =>
  match parts n with Some l => map (fun t => (t, a, false)) l | None =>
  match indexed n with Some (o, i) => [(o, a, false); (i, a, false)] | None =>
  match reference n with Some (k, x :: l) => map (fun t => (t, argument_flag from_class a r k, r)) (x :: l) | _ =>
  match template_parts n with Some l => map (fun t => (t, a, false)) l | None =>
  match conditional n with Some (c, e) => [(c, a, false); (e, a, false)] | None =>
  match object_ n with Some o => object_items o | None =>
  optional (target n) a
  end end end end end end end.

(** * Visiting: 324-557 [collectTypeParameterUsageCounts] *)
(** visitedConstraints holds constraints, visitedDefault is one flag: the key [KDefault]. *)
Inductive key := KConstraint (node : nat) | KDefault.
Definition key_eqb (x y : key) : bool := match x, y with KConstraint a, KConstraint c => a =? c | KDefault, KDefault => true | _, _ => false end.
Definition hooks (d : decl) : list (key * nat) :=
  match constraint d with Some (c, t) => [(KConstraint c, t)] | None => [] end ++ match default_type d with Some t => [(KDefault, t)] | None => [] end.
Record state := { found : nat -> nat; remaining : nat; usages : nat -> nat; visited : list key }.
Definition update (f : nat -> nat) (x v : nat) : nat -> nat := fun y => if y =? x then v else f y.

Section Walk.
Context (types : nat -> node) (targets : list nat) (from_class : bool).
(** 337-358 [incrementIdentifierCount]. *)
Definition increment (s : nat) (a : bool) (st : state) : state :=
  if remaining st =? 0 then st
  else if negb (existsb (Nat.eqb s) targets) then st
  else if 2 <? found st s then st
  else let v := found st s + (if a then 2 else 1) in
  {| found := update (found st) s v; remaining := if 2 <? v then remaining st - 1 else remaining st; usages := usages st; visited := visited st |}.
(** 360-364 [incrementTypeUsages]. *)
Definition use (t : nat) (st : state) : state := {| found := found st; remaining := remaining st; usages := update (usages st) t (S (usages st t)); visited := visited st |}.
Definition mark (k : key) (st : state) : state := {| found := found st; remaining := remaining st; usages := usages st; visited := k :: visited st |}.
(** 371-378 [visitTypesList]. *)
Fixpoint visit_list (visit : item -> state -> option state) (l : list item) (st : state) : option state :=
  match l with [] => Some st | i :: l => match visit i st with Some st' => visit_list visit l st' | None => None end end.
(** 434-444: constraint and default of a type parameter. *)
Fixpoint visit_hooks (visit : item -> state -> option state) (l : list (key * nat)) (st : state) : option state :=
  match l with
  | [] => Some st
  | (k, t) :: l =>
      if existsb (key_eqb k) (visited st) then visit_hooks visit l st
      else match visit (plain t) (mark k st) with Some st' => visit_hooks visit l st' | None => None end
  end.
(** 422-546 [visitType]; [None]: the fuel was not enough. *)
Fixpoint visit (fuel : nat) (i : item) (st : state) : option state :=
  match fuel with
  | 0 => None
  | S fuel =>
      let '(t, a, r) := i in
      if remaining st =? 0 then Some st
      else let st := use t st in
      if 9 <? usages st t then Some st
      else match parameter (types t) with
      | Some None => Some st
      | Some (Some d) => visit_hooks (visit fuel) (hooks d) (increment (symbol d) a st)
      | None => visit_list (visit fuel) (edges from_class (types t) a r) st
      end
  end.
(** 332-335, 548-556: one node with the types visited from it: those of its signature, or its type. *)
Definition collect (fuel : nat) (roots : list item) (st : state) : option state :=
  visit_list (visit fuel) roots {| found := found st; remaining := remaining st; usages := fun _ => 0; visited := [] |}.
(** 200-233 [countTypeParameterUsage]: the groups are the type parameters, heritage types and members of a class, or the one node. *)
Fixpoint count (fuel : nat) (groups : list (list item)) (st : state) : option state :=
  match groups with
  | [] => Some st
  | g :: groups => if remaining st =? 0 then Some st else match collect fuel g st with Some st' => count fuel groups st' | None => None end
  end.
Definition start : state := {| found := fun _ => 0; remaining := length targets; usages := fun _ => 0; visited := [] |}.
(** 605-608: the counts that are reported. *)
Definition reported (st : state) (s : nat) : bool := (0 <? found st s) && negb (2 <? found st s).
End Walk.

(** * References in the source: 301-322 [isTypeParameterRepeatedInAST] *)
(** Positions as ranges of a type parameter and of references to it; [None]: there is no body (math.MaxInt). *)
Fixpoint repeated_from (total : nat) (p : nat * nat) (references : list (nat * nat)) (body : option nat) : bool :=
  match references with
  | [] => false
  | r :: references =>
      if (fst r <? snd p) && (fst p <? snd r) then repeated_from total p references body
      else if match body with Some x => x <? fst r | None => false end then repeated_from total p references body
      else if 2 <=? S total then true else repeated_from (S total) p references body
  end.
Definition repeated := repeated_from 0.
