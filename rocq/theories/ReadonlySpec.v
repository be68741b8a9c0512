(** What C56 (PropsReadonly.v) says of members that are never assigned: which accesses are written, which class they belong to, and what is reported. *)
From Coq Require Import String Ascii Bool List ZArith.
From Verif Require Import Base Readonly.
Import ListNotations.
Open Scope Z_scope.

(** ** Places *)
Inductive at_ (root : node) : path -> node -> Prop :=
| at_root : at_ root [] root
| at_child p k cs i c : at_ root p (Node k cs) -> nth_error cs i = Some c -> at_ root ((k, i) :: p) c.
(** Below the class at [q], but in no class inside; and there in its constructor, but in no function inside. *)
Definition own (q p : path) : Prop := exists above i, p = above ++ (Class, i) :: q /\ Forall (fun x => fst x <> Class) above.
Definition directly (q p : path) : Prop :=
  exists above ps i j, p = above ++ (Constructor ps, i) :: (Class, j) :: q /\ Forall (fun x => fst x <> Class /\ fst x <> Function) above.
(** Constructors are members of classes. *)
Definition formed (root : node) : Prop := forall p ps cs, at_ root p (Node (Constructor ps) cs) -> exists i q, p = (Class, i) :: q.
(** The classes from top to bottom, outer ones before those inside. *)
Fixpoint classes (p : path) (n : node) : list (path * list node) :=
  let 'Node k cs := n in
  (match k with Class => [(p, cs)] | _ => [] end) ++
  (fix all (i : nat) (l : list node) : list (path * list node) := match l with [] => [] | c :: l => classes ((k, i) :: p) c ++ all (S i) l end) 0%nat cs.

(** ** Writing *)
(** What is at this place is assigned to: [target]; is a pattern to take values apart: [pattern]; is an element of one: [piece]. *)
Inductive target : path -> Prop :=
| tg_assign plain p : target ((Assign plain, 0%nat) :: p)
| tg_update i p : target ((Update, i) :: p)
| tg_delete i p : target ((Delete, i) :: p)
| tg_for p : target ((ForTarget, 0%nat) :: p)
| tg_wrap i p : target p -> target ((Wrap, i) :: p)
| tg_piece p : piece p -> target p
with pattern : path -> Prop :=
| pt_assign p : pattern ((Assign true, 0%nat) :: p)
| pt_for p : pattern ((ForTarget, 0%nat) :: p)
| pt_piece p : piece p -> pattern p
with piece : path -> Prop :=
| pc_element i p : pattern p -> piece ((Array, i) :: p)
| pc_others j i p : pattern p -> piece ((SpreadElement, j) :: (Array, i) :: p)
| pc_property j i p : pattern p -> piece ((Property, j) :: (Object, i) :: p)
| pc_rest j i p : pattern p -> piece ((SpreadAssignment, j) :: (Object, i) :: p).
(** The ways of writing that are recognized. *)
Inductive flat : path -> Prop :=
| fl_assign p : flat ((Assign true, 0%nat) :: p)
| fl_array i p : flat p -> flat ((Array, i) :: p).
Inductive recognized : path -> Prop :=
| rg_assign plain p : recognized ((Assign plain, 0%nat) :: p)
| rg_update i p : recognized ((Update, i) :: p)
| rg_delete i p : recognized ((Delete, i) :: p)
| rg_element i p : flat p -> recognized ((Array, i) :: p)
| rg_others j i p : flat p -> recognized ((SpreadElement, j) :: (Array, i) :: p)
| rg_property j i p : flat p -> recognized ((Property, j) :: (Object, i) :: p)
| rg_rest j i p : flat p -> recognized ((SpreadAssignment, j) :: (Object, i) :: p)
| rg_wrap i p : flat p -> recognized ((Wrap, i) :: p).
(** What is taken for writing: also what is below a node that is assigned to with [=] or is inside literals there. *)
Inductive below : kind -> path -> Prop :=
| bl_assign k p : (forall n, k <> Access n) -> below k ((Assign true, 0%nat) :: p)
| bl_literal k l i p : In l [Array; Object; SpreadAssignment] -> below l p -> below k ((l, i) :: p)
| bl_spread k i j p : below SpreadElement ((Array, j) :: p) -> below k ((SpreadElement, i) :: (Array, j) :: p).
Inductive counted : path -> Prop :=
| ct_assign plain p : counted ((Assign plain, 0%nat) :: p)
| ct_update i p : counted ((Update, i) :: p)
| ct_delete i p : counted ((Delete, i) :: p)
| ct_below k i p : k <> Binary -> (forall x, k <> Assign x) -> below k p -> counted ((k, i) :: p).

(** ** Types *)
Section Types.
Variable types : Z -> info.
(** The type or one it is derived from has this symbol. *)
Inductive derives (s : Z) : Z -> Prop :=
| de_here t : i_symbol (types t) = Some s -> derives s t
| de_base t x : i_class (types t) = true -> In x (i_bases (types t)) -> derives s x -> derives s t.
Inductive instance_of (s : Z) : ty -> Prop :=
| io_leaf id : i_symbol (types id) <> None -> i_anonymous (types id) = false -> derives s id -> instance_of s (Leaf id)
| io_inter l x : In x l -> instance_of s x -> instance_of s (Inter l)
| io_union l x : In x l -> instance_of s x -> instance_of s (Union l).
Inductive class_of (s : Z) : ty -> Prop :=
| co_leaf id : i_symbol (types id) <> None -> i_anonymous (types id) = true -> derives s id -> class_of s (Leaf id)
| co_inter l x : In x l -> class_of s x -> class_of s (Inter l)
| co_union l x : In x l -> class_of s x -> class_of s (Union l).
(** The parts of unions have the same relation to the class; those of an intersection are not both of the class and of its instances. *)
Inductive regular (s : Z) : ty -> Prop :=
| rl_leaf id : regular s (Leaf id)
| rl_inter l : (forall x, In x l -> regular s x /\ ~ (instance_of s x /\ class_of s x)) -> regular s (Inter l)
| rl_union l : (forall x y, In x l -> In y l -> regular s x /\ (instance_of s x -> instance_of s y) /\ (class_of s x -> class_of s y)) -> regular s (Union l).
(** The loop may last long enough for all types that can be met. *)
Definition enough (fuel : nat) (id : Z) : Prop :=
  exists universe, In id universe /\ NoDup universe /\ (forall t x, In t universe -> i_class (types t) = true -> In x (i_bases (types t)) -> In x universe) /\
    (1 + list_sum (map (fun t => List.length (i_bases (types t))) universe) < fuel)%nat.
Inductive part_of (id : Z) : ty -> Prop :=
| po_leaf : part_of id (Leaf id)
| po_inter l x : In x l -> part_of id x -> part_of id (Inter l)
| po_union l x : In x l -> part_of id x -> part_of id (Union l).
(** The relation that is computed says what it should. *)
Definition means (r : relation) (instance class : Prop) : Prop :=
  match r with
  | ClassAndInstance => instance /\ class
  | OfClass => ~ instance /\ class
  | OfInstance => instance /\ ~ class
  | NoRelation => ~ instance /\ ~ class
  end.
End Types.

(** ** Declarations *)
Section Declarations.
Variable only_inline_lambdas : bool.
Definition declared (members : list node) : list decl :=
  flat_map (fun n => match n with Node (Declaration d) _ => [d] | _ => [] end) members ++
  flat_map (fun n => match n with Node (Constructor ps) _ => filter d_private ps | _ => [] end) members.
(** Private, neither [readonly] nor an accessor, with a name that is known; with the option only arrow functions. *)
Definition open (d : decl) : Prop :=
  (d_private d = true \/ d_hash d = true) /\ d_frozen d = false /\ d_computed d = false /\ (only_inline_lambdas = true -> d_lambda d = true) /\ d_name d <> [].
(** The last of its name. *)
Definition latest (l : list decl) (d : decl) : Prop :=
  exists l1 l2, l = l1 ++ d :: l2 /\ open d /\ forall x, In x l2 -> open x -> d_static x = d_static d -> d_name x <> d_name d.
End Declarations.

(** ** Reports *)
Section Reports.
Variable only_inline_lambdas : bool.
Variables (types : Z -> info) (fuel : nat) (type_at : path -> ty) (symbol_of : path -> option Z).
Variable root : node.
(** The types of the objects of accesses are regular, and there is fuel for the search. *)
Definition sane : Prop := forall q s p name cs, at_ root p (Node (Access name) cs) -> symbol_of q = Some s ->
  regular types s (type_at p) /\ forall id, part_of id (type_at p) -> enough types fuel id.
(** An access of the class at [q] that counts as writing, with what is known of its object. *)
Definition write (q : path) (name : bstr) (instance class direct : Prop -> Prop) : Prop :=
  exists p cs s, at_ root p (Node (Access name) cs) /\ own q p /\ counted p /\ symbol_of q = Some s /\
    instance (instance_of types s (type_at p)) /\ class (class_of types s (type_at p)) /\ direct (directly q p).
Definition yes (P : Prop) : Prop := P.
Definition no (P : Prop) : Prop := ~ P.
Definition any (_ : Prop) : Prop := True.
(** Members are modified outside of the constructor, or anywhere if the object may also be the class; statics anywhere. *)
Definition modified (q : path) (d : decl) : Prop :=
  if d_static d then write q (d_name d) any yes any else write q (d_name d) yes any no \/ write q (d_name d) yes yes any.
Definition constructed (q : path) (d : decl) : Prop := write q (d_name d) yes no yes.
(** The type to add. *)
Definition annotated (q : path) (d : decl) (t : bstr) : Prop :=
  d_property d = true /\ d_typed d = false /\ d_init d = true /\ d_identifier d = true /\ constructed q d /\ d_wider d = Some t.
Definition expected (q : path) (members : list node) (r : report) : Prop :=
  latest only_inline_lambdas (declared members) (r_decl r) /\ ~ modified q (r_decl r) /\
  r_text r = b "Member '" ++ d_text (r_decl r) ++ b "' is never reassigned." /\ r_help r = b "Mark it as `readonly`." /\ r_before r = b "readonly " /\
  (forall x, r_after r = Some x <-> exists t, annotated q (r_decl r) t /\ x = b ": " ++ t).
End Reports.
