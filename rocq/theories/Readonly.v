(** prefer-readonly (internal/rules/prefer_readonly/prefer_readonly.go).

    A file is a tree of nodes with the children visited in order (C14).  A node is named by its path: the kinds of the nodes above it, from below,
    each with the position of the child.

    Not modelled: parameters of a constructor that are patterns and have modifiers, an error of TypeScript.  The range of a report is that of the
    declaration up to the end of its name (379-386). *)
From Coq Require Import String Ascii Bool List ZArith.
From Verif Require Import Base.
Import ListNotations.
Open Scope Z_scope.

(** ** Types *)
(** [Leaf]: any type that is neither a union nor an intersection, by number. *)
Inductive ty := Inter (l : list ty) | Union (l : list ty) | Leaf (id : Z).
(** The symbol, [ObjectFlagsAnonymous], [ObjectFlagsClassOrInterface] of objects, and [getBaseTypes]. *)
Record info := Info { i_symbol : option Z; i_anonymous : bool; i_class : bool; i_bases : list Z }.
Inductive relation := ClassAndInstance | OfClass | OfInstance | NoRelation.

Section Types.
Variable types : Z -> info.
Definition mem (x : Z) (l : list Z) : bool := existsb (Z.eqb x) l.
(** 285-312: the queue is a stack, the last base is on top; [None]: out of fuel. *)
Fixpoint search (fuel : nat) (symbol : Z) (stack seen : list Z) : option bool :=
  match fuel with
  | O => None
  | S fuel =>
      match stack with
      | [] => Some false
      | t :: stack =>
          if mem t seen then search fuel symbol stack seen
          else match i_symbol (types t) with
               | Some s => if Z.eqb s symbol then Some true
                           else search fuel symbol (if i_class (types t) then rev (i_bases (types t)) ++ stack else stack) (t :: seen)
               | None => search fuel symbol (if i_class (types t) then rev (i_bases (types t)) ++ stack else stack) (t :: seen)
               end
      end
  end.
(** How long the loop may last. *)
Variable fuel : nat.
(** 274-313 [typeIsOrHasBaseType]; [base]: the symbol of the class. *)
Definition has_base (t : Z) (base : option Z) : bool :=
  match base with Some s => match search fuel s [t] [] with Some r => r | None => false end | None => false end.
(** 226-272 [getTypeToClassRelation]. *)
Definition join (result part : relation) : relation + relation :=
  match part with
  | OfClass => match result with OfInstance => inl ClassAndInstance | _ => inr OfClass end
  | OfInstance => match result with OfClass => inl ClassAndInstance | _ => inr OfInstance end
  | _ => inr result
  end.
Fixpoint relate (base : option Z) (t : ty) : relation :=
  match t with
  | Inter l => (fix go (result : relation) l := match l with
                 | [] => result
                 | x :: l => match join result (relate base x) with inl r => r | inr r => go r l end
                 end) NoRelation l
  | Union l => match l with [] => NoRelation | x :: _ => relate base x end
  | Leaf id =>
      if negb (match i_symbol (types id) with Some _ => true | None => false end) || negb (has_base id base) then NoRelation
      else if i_anonymous (types id) then OfClass else OfInstance
  end.
End Types.

(** ** Nodes *)
(** A declaration of a property or of a parameter of a constructor.  [d_private]: the modifier; [d_hash]: the name is [#x]; [d_frozen]: [accessor]
    or [readonly]; [d_lambda]: the initializer is an arrow function; [d_name]: its name as in accesses; [d_text]: its text; [d_wider]: the type
    to write when there is a literal as initializer and the type differs from the one of that (429-437, 341-377), if any. *)
Record decl := Decl {
  d_private : bool; d_hash : bool; d_static : bool; d_frozen : bool; d_computed : bool; d_lambda : bool; d_name : bstr; d_text : bstr;
  d_property : bool; d_typed : bool; d_init : bool; d_identifier : bool; d_wider : option bstr }.
(** [Access]: [x.name]; [Update]: [++] and [--]; [Wrap]: parentheses, [!], [as] and the like; [ForTarget]: [for ... of] and [for ... in] with an
    expression as the target, which is the first child; [Function]: functions, methods and accessors; the first child of assignments and binary
    operators is the left side.  Names of properties are no nodes. *)
Inductive kind :=
| Access (name : bstr) | Assign (plain : bool) | Binary | Update | Unary | Delete | Wrap | Element
| Array | Object | Property | SpreadElement | SpreadAssignment | ForTarget
| Function | Constructor (parameters : list decl) | Class | Declaration (d : decl) | This | Other.
Inductive node := Node (k : kind) (children : list node).
Definition path := list (kind * nat).

(** 315-339 [isDestructuringAssignment]: the loop; [current] is a node, the rest of the path is above it. *)
Definition binary (k : kind) : bool := match k with Assign _ | Binary => true | _ => false end.
Definition is_access (k : kind) : bool := match k with Access _ => true | _ => false end.
Fixpoint destructuring (current : kind) (above : path) : bool :=
  match above with
  | [] => false
  | (parent, i) :: above =>
      if match parent with
         | Object | Array | SpreadAssignment => true
         | SpreadElement => match above with (Array, _) :: _ => true | _ => false end
         | _ => false
         end
      then destructuring parent above
      else if binary parent && negb (is_access current) then match parent with Assign true => (i =? 0)%nat | _ => false end
      else false
  end.
(** 495-511 [handlePropertyAccessExpression] with 468-493: whether an access at this path counts as a modification. *)
Definition modifies (p : path) : bool :=
  match p with
  | [] => false
  | (parent, i) :: above =>
      if binary parent then match parent with Assign _ => (i =? 0)%nat | _ => false end
      else match parent with
           | Delete => true
           | _ => if destructuring parent above then true else match parent with Update => true | _ => false end
           end
  end.

(** ** Scopes *)
Record report := Report { r_decl : decl; r_text : bstr; r_help : bstr; r_before : bstr; r_after : option bstr }.
(** 75-89; [sc_class]: the path of the class. *)
Record scope := Scope {
  sc_class : path; sc_depth : Z; sc_modified : list bstr; sc_constructed : list bstr; sc_members : list decl; sc_statics : list decl;
  sc_static_modified : list bstr; sc_deferred : list report }.
Definition has (n : bstr) (l : list bstr) : bool := existsb (beqb n) l.
(** 53-58 [set]. *)
Fixpoint set_decl (l : list decl) (d : decl) : list decl :=
  match l with [] => [d] | x :: l => if beqb (d_name x) (d_name d) then d :: l else x :: set_decl l d end.

Section Rule.
Variable only_inline_lambdas : bool.
(** The type of the object of an access; the symbol of the type of a class (91-99). *)
Variables (types : Z -> info) (fuel : nat) (type_at : path -> ty) (symbol_of : path -> option Z).

(** 127-166 [addDeclaredVariable]. *)
Definition modifiable (d : decl) : bool :=
  (d_private d || d_hash d) && negb (d_frozen d) && negb (d_computed d) && negb (only_inline_lambdas && negb (d_lambda d)) &&
  negb (match d_name d with [] => true | _ => false end).
Definition with_members (s : scope) (m : list decl) : scope :=
  Scope (sc_class s) (sc_depth s) (sc_modified s) (sc_constructed s) m (sc_statics s) (sc_static_modified s) (sc_deferred s).
Definition with_statics (s : scope) (m : list decl) : scope :=
  Scope (sc_class s) (sc_depth s) (sc_modified s) (sc_constructed s) (sc_members s) m (sc_static_modified s) (sc_deferred s).
Definition add_declared (s : scope) (d : decl) : scope :=
  if negb (modifiable d) then s
  else if d_static d then with_statics s (set_decl (sc_statics s) d) else with_members s (set_decl (sc_members s) d).
(** 91-125 [newClassScope]. *)
Definition properties (members : list node) : list decl :=
  flat_map (fun n => match n with Node (Declaration d) _ => [d] | _ => [] end) members.
Definition new_scope (p : path) (members : list node) : scope :=
  fold_left add_declared (properties members) (Scope p (-1) [] [] [] [] [] []).
(** 168-187 [addVariableModification]. *)
Definition add_modification (s : scope) (name : bstr) (p : path) : scope :=
  let relation := relate types fuel (symbol_of (sc_class s)) (type_at p) in
  let instance := Scope (sc_class s) (sc_depth s) (name :: sc_modified s) (sc_constructed s) (sc_members s) (sc_statics s) (sc_static_modified s) (sc_deferred s) in
  let static (s : scope) := Scope (sc_class s) (sc_depth s) (sc_modified s) (sc_constructed s) (sc_members s) (sc_statics s) (name :: sc_static_modified s) (sc_deferred s) in
  match relation with
  | OfInstance =>
      if sc_depth s =? 0
      then Scope (sc_class s) (sc_depth s) (sc_modified s) (name :: sc_constructed s) (sc_members s) (sc_statics s) (sc_static_modified s) (sc_deferred s)
      else instance
  | ClassAndInstance => static instance
  | OfClass => static s
  | NoRelation => s
  end.
Definition with_depth (s : scope) (d : Z) : scope :=
  Scope (sc_class s) d (sc_modified s) (sc_constructed s) (sc_members s) (sc_statics s) (sc_static_modified s) (sc_deferred s).
(** 189-213. *)
Definition enter_constructor (s : scope) (ps : list decl) : scope := fold_left add_declared (filter d_private ps) (with_depth s 0).
Definition enter_function (s : scope) : scope := if sc_depth s =? -1 then s else with_depth s (sc_depth s + 1).
Definition exit_constructor (s : scope) : scope := with_depth s (-1).
Definition exit_function (s : scope) : scope := if sc_depth s =? -1 then s else with_depth s (sc_depth s - 1).

(** 13-19, 405-447 [buildReports], with 60-73 and 215-224: a text to put before the name and one to put after it. *)
Definition report_of (s : scope) (d : decl) : report :=
  Report d (b "Member '" ++ d_text d ++ b "' is never reassigned.") (b "Mark it as `readonly`.") (b "readonly ")
    (if d_property d && negb (d_typed d) && d_init d && d_identifier d && has (d_name d) (sc_constructed s)
     then match d_wider d with Some t => Some (b ": " ++ t) | None => None end else None).
Definition reports (s : scope) : list report :=
  map (report_of s) (filter (fun d => negb (has (d_name d) (sc_modified s))) (sc_members s) ++
                     filter (fun d => negb (has (d_name d) (sc_static_modified s))) (sc_statics s)).

(** ** The visit *)
(** The scopes, the innermost first, and what is reported. *)
Record state := State { stack : list scope; out : list report }.
Definition on_top (f : scope -> scope) (st : state) : state :=
  match stack st with [] => st | s :: l => State (f s :: l) (out st) end.
(** 449-466 [flushFinalizedScope] after 395-403. *)
Definition flush (st : state) : state :=
  match stack st with
  | [] => st
  | s :: l =>
      let all := reports s ++ sc_deferred s in
      match l with
      | parent :: l => State (Scope (sc_class parent) (sc_depth parent) (sc_modified parent) (sc_constructed parent) (sc_members parent) (sc_statics parent)
                                (sc_static_modified parent) (sc_deferred parent ++ all) :: l) (out st)
      | [] => State [] (out st ++ all)
      end
  end.
(** 527-596. *)
Definition enter (p : path) (k : kind) (children : list node) (st : state) : state :=
  match k with
  | Class => State (new_scope p children :: stack st) (out st)
  | Constructor ps => on_top (fun s => enter_constructor s ps) st
  | Function => on_top enter_function st
  | Access name => on_top (fun s => if modifies p then add_modification s name p else s) st
  | _ => st
  end.
Definition exit (k : kind) (st : state) : state :=
  match k with Class => flush st | Constructor _ => on_top exit_constructor st | Function => on_top exit_function st | _ => st end.
Fixpoint visit (p : path) (n : node) (st : state) : state :=
  let 'Node k children := n in
  exit k ((fix all (i : nat) (l : list node) (st : state) : state :=
             match l with [] => st | c :: l => all (S i) l (visit ((k, i) :: p) c st) end) 0%nat children (enter p k children st)).
Definition run (root : node) : list report := out (visit [] root (State [] [])).
End Rule.
