(** What C58 (PropsStringify.v) says of conversions to strings: verdicts on types without the memos, values and how they are converted. *)
From Coq Require Import String Ascii Bool List ZArith Relations.
From Verif Require Import Base Stringify.
Import ListNotations.
Open Scope Z_scope.

Section Types.
Variables (check_unknown : bool) (types : Z -> info).

(** The type is looked into: no type parameter, boolean or ignored. *)
Definition looked (t : Z) : Prop := i_param (types t) = None /\ i_boolean (types t) = false /\ i_ignored (types t) = false.
(** A declaration of one of the three methods. *)
Definition declared (t : Z) (in_object : bool) : Prop := exists l, In (Some l) (i_methods (types t)) /\ In in_object l.
(** Types that may be let pass whatever they are. *)
Variable loops : Z -> Prop.
(** The verdict on a type, without memos. *)
Inductive says : Z -> usefulness -> Prop :=
| s_loop t : loops t -> says t Always
| s_constraint t c u : i_param (types t) = Some (Some c) -> says c u -> says t u
| s_free t : i_param (types t) = Some None -> says t (if check_unknown then Sometimes else Always)
| s_boolean t : i_param (types t) = None -> i_boolean (types t) = true -> says t Always
| s_ignored t : i_param (types t) = None -> i_ignored (types t) = true -> says t Always
| s_inter_always t l x : looked t -> i_class (types t) = Inter l -> In x l -> says x Always -> says t Always
| s_inter_never t l f : looked t -> i_class (types t) = Inter l -> (forall x, In x l -> says x (f x)) -> (forall x, In x l -> f x <> Always) -> says t Never
| s_union_never t l : looked t -> i_class (types t) = Union l -> (forall x, In x l -> says x Never) -> says t Never
| s_union_always t l : looked t -> i_class (types t) = Union l -> l <> [] -> (forall x, In x l -> says x Always) -> says t Always
| s_union_sometimes t l x y u w : looked t -> i_class (types t) = Union l -> In x l -> says x u -> u <> Never -> In y l -> says y w -> w <> Always -> says t Sometimes
| s_tuple_never t l x : looked t -> i_class (types t) = Tuple l -> In x l -> says x Never -> says t Never
| s_tuple_sometimes t l f x : looked t -> i_class (types t) = Tuple l -> (forall x, In x l -> says x (f x)) -> (forall x, In x l -> f x <> Never) ->
    In x l -> f x = Sometimes -> says t Sometimes
| s_tuple_always t l : looked t -> i_class (types t) = Tuple l -> (forall x, In x l -> says x Always) -> says t Always
| s_array t e u : looked t -> i_class (types t) = Array (Some e) -> says e u -> says t u
| s_own t : looked t -> i_class (types t) = Plain -> declared t false -> says t Always
| s_object t : looked t -> i_class (types t) = Plain -> ~ declared t false -> declared t true -> says t Never
| s_unknown t : looked t -> i_class (types t) = Plain -> ~ declared t false -> ~ declared t true -> i_unknown (types t) = true -> check_unknown = true -> says t Sometimes
| s_any t : looked t -> i_class (types t) = Plain -> ~ declared t false -> ~ declared t true -> ~ (i_unknown (types t) = true /\ check_unknown = true) -> says t Always.
(** The same for [join], where only arrays and tuples matter. *)
Inductive joined : Z -> usefulness -> Prop :=
| j_loop t : loops t -> joined t Always
| j_inter_always t l x : i_class (types t) = Inter l -> In x l -> joined x Always -> joined t Always
| j_inter_never t l f : i_class (types t) = Inter l -> (forall x, In x l -> joined x (f x)) -> (forall x, In x l -> f x <> Always) -> joined t Never
| j_union_never t l : i_class (types t) = Union l -> (forall x, In x l -> joined x Never) -> joined t Never
| j_union_always t l : i_class (types t) = Union l -> l <> [] -> (forall x, In x l -> joined x Always) -> joined t Always
| j_union_sometimes t l x y u w : i_class (types t) = Union l -> In x l -> joined x u -> u <> Never -> In y l -> joined y w -> w <> Always -> joined t Sometimes
| j_tuple_never t l x : i_class (types t) = Tuple l -> In x l -> says x Never -> joined t Never
| j_tuple_sometimes t l f x : i_class (types t) = Tuple l -> (forall x, In x l -> says x (f x)) -> (forall x, In x l -> f x <> Never) ->
    In x l -> f x = Sometimes -> joined t Sometimes
| j_tuple_always t l : i_class (types t) = Tuple l -> (forall x, In x l -> says x Always) -> joined t Always
| j_array t e u : i_class (types t) = Array (Some e) -> says e u -> joined t u
| j_plain t : i_class (types t) = Plain -> joined t Always.

(** [x] is a part of [t]. *)
Inductive part (x t : Z) : Prop :=
| p_constraint : i_param (types t) = Some (Some x) -> part x t
| p_member l : (i_class (types t) = Union l \/ i_class (types t) = Inter l \/ i_class (types t) = Tuple l) -> In x l -> part x t
| p_element : i_class (types t) = Array (Some x) -> part x t.
(** The type does not contain itself, however deep. *)
Definition acyclic (t : Z) : Prop := Acc part t.
Definition inside : Z -> Z -> Prop := clos_refl_trans Z part.
(** Unions and intersections have parts; arrays have elements. *)
Definition proper (t : Z) : Prop := i_class (types t) <> Union [] /\ i_class (types t) <> Inter [].
Definition indexed (t : Z) : Prop := i_class (types t) <> Array None.
(** A type because of which something is reported. *)
Definition source (t : Z) : Prop :=
  (looked t /\ i_class (types t) = Plain /\ ~ declared t false /\ (declared t true \/ (i_unknown (types t) = true /\ check_unknown = true))) \/
  (i_param (types t) = Some None /\ check_unknown = true).
(** All the types met are in the list. *)
Definition closed (universe : list Z) : Prop := forall t x, In t universe -> part x t -> In x universe.

(** ** Values *)
(** An object (or primitive value) with a toString of its own or with that of Object; an array. *)
Inductive value := Leaf (own : bool) | List (l : list value).
(** toString of an array converts the elements. *)
Inductive base : value -> Prop :=
| b_leaf : base (Leaf false)
| b_list l v : In v l -> base v -> base (List l).
(** All the arrays in it have elements. *)
Inductive full : value -> Prop :=
| f_leaf o : full (Leaf o)
| f_list l : l <> [] -> (forall v, In v l -> full v) -> full (List l).
Definition own (t : Z) : Prop := exists l, nth_error (i_methods (types t)) 0 = Some (Some l) /\ In false l.
Inductive holds : Z -> value -> Prop :=
| h_constraint t c v : i_param (types t) = Some (Some c) -> holds c v -> holds t v
| h_free t v : i_param (types t) = Some None -> holds t v
| h_boolean t : i_param (types t) = None -> i_boolean (types t) = true -> holds t (Leaf true)
| h_union t l x v : i_param (types t) = None -> i_boolean (types t) = false -> i_class (types t) = Union l -> In x l -> holds x v -> holds t v
| h_inter t l v : i_param (types t) = None -> i_boolean (types t) = false -> i_class (types t) = Inter l -> (forall x, In x l -> holds x v) -> holds t v
| h_tuple t l vs : i_param (types t) = None -> i_boolean (types t) = false -> i_class (types t) = Tuple l -> List.length l = List.length vs ->
    (forall i x v, nth_error l i = Some x -> nth_error vs i = Some v -> holds x v) -> holds t (List vs)
| h_array t e vs : i_param (types t) = None -> i_boolean (types t) = false -> i_class (types t) = Array (Some e) -> (forall v, In v vs -> holds e v) -> holds t (List vs)
| h_own t : i_param (types t) = None -> i_boolean (types t) = false -> i_class (types t) = Plain -> own t -> holds t (Leaf true)
| h_object t : i_param (types t) = None -> i_boolean (types t) = false -> i_class (types t) = Plain -> ~ own t -> (exists o, declared t o) -> holds t (Leaf false)
| h_any t v : i_param (types t) = None -> i_boolean (types t) = false -> i_class (types t) = Plain -> ~ (exists o, declared t o) -> holds t v.
(** Types whose values are known: not any, no unconstrained type parameters; not ignored; no toLocaleString or valueOf without toString. *)
Definition known (t : Z) : Prop :=
  i_ignored (types t) = false /\ i_param (types t) <> Some None /\ (i_class (types t) = Plain -> (exists o, declared t o) /\ (declared t false -> own t)).
(** Intersections with a part on which the verdict is clear. *)
Definition clear (t : Z) : Prop := forall l, i_class (types t) = Inter l -> exists x, In x l /\ (says x Always \/ says x Never).

(** ** Places *)
(** What is converted by a site, in order: by toString, or ([true]) by join. *)
Inductive asks : site -> list (operand * bool) -> Prop :=
| a_right l r : o_string l = true -> asks (Plus l r) [(r, false)]
| a_left l r : o_string l = false -> o_string r = true -> o_private l = false -> asks (Plus l r) [(l, false)]
| a_neither l r : o_string l = false -> (o_string r = true -> o_private l = true) -> asks (Plus l r) []
| a_call o rest : asks (Call (StringName true) ((false, o) :: rest)) [(o, false)]
| a_join o args : asks (Call (Member (b "join") o) args) [(o, true)]
| a_method name o args : In name [b "toString"; b "toLocaleString"] -> asks (Call (Member name o) args) [(o, false)]
| a_other c args : (forall o rest, ~ (c = StringName true /\ args = (false, o) :: rest)) ->
    (forall name o, c = Member name o -> ~ In name [b "join"; b "toString"; b "toLocaleString"]) -> asks (Call c args) []
| a_template spans : asks (Template false spans) (map (fun o => (o, false)) spans)
| a_tagged spans : asks (Template true spans) [].
(** The report on what is converted; or none is due. *)
Definition word (u : usefulness) : bstr := match u with Never => b "will" | _ => b "may" end.
Inductive due (o : operand) : bool -> report -> Prop :=
| d_string u : o_literal o = false -> says (o_type o) u -> u <> Always ->
    due o false (Report (o_node o) (b "baseToString") (b "'" ++ o_text o ++ b "' " ++ word u ++ b " use Object's default stringification format ('[object Object]') when stringified."))
| d_join u : joined (o_constrained o) u -> u <> Always ->
    due o true (Report (o_node o) (b "baseArrayJoin") (b "Using `join()` for " ++ o_text o ++ b " " ++ word u ++ b " use Object's default stringification format ('[object Object]') when stringified.")).
Definition fine (o : operand) (by_join : bool) : Prop := if by_join then joined (o_constrained o) Always else o_literal o = true \/ says (o_type o) Always.
Inductive expected : list (operand * bool) -> list report -> Prop :=
| e_end : expected [] []
| e_report o j r l rs : due o j r -> expected l rs -> expected ((o, j) :: l) (r :: rs)
| e_fine o j l rs : fine o j -> expected l rs -> expected ((o, j) :: l) rs.
End Types.
(** No type is let pass. *)
Definition nowhere (t : Z) : Prop := False.
(** A type that contains itself, somewhere inside. *)
Definition circle (types : Z -> info) (t : Z) : Prop := clos_trans Z (part types) t t.
(** All the types asked about do not contain a type that does. *)
Definition tame (types : Z -> info) (l : list site) : Prop :=
  forall s asked o j, In s l -> asks s asked -> In (o, j) asked -> acyclic types (if j : bool then o_constrained o else o_type o).
Definition about (universe : list Z) (l : list site) : Prop :=
  forall s asked o j, In s l -> asks s asked -> In (o, j) asked -> In (if j : bool then o_constrained o else o_type o) universe.
