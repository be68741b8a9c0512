(** Specification vocabulary for the traversal: subtrees, bracketing,
    assignment targets. Stated on trees, without the visitor. *)
From Coq Require Import Bool List ZArith.
From Verif Require Import Visit.
Import ListNotations.
Open Scope Z_scope.

(** [sub n m]: [m] is [n] or one of its descendants. *)
Inductive sub : node -> node -> Prop :=
| sub_refl n : sub n n
| sub_child n c m : In c (children n) -> sub c m -> sub n m.

(** Identities of all nodes of a tree, counted with repetition. *)
Fixpoint ids (n : node) : list nat :=
  match n with
  | NGen i _ cs => i :: flat_map ids cs
  | NArr i es => i :: flat_map ids es
  | NObj i ps => i :: flat_map ids ps
  | NSpread i _ e => i :: ids e
  | NProp i head init => i :: flat_map ids head ++ ids init
  | NBin i l o r => i :: ids l ++ ids o ++ ids r
  end.

Section Spec.
Variables k_arr k_obj k_spread_el k_spread_as k_prop k_bin k_eq : Z.
Variable is_lhs : node -> bool.
Notation kind_of := (kind_of k_arr k_obj k_spread_el k_spread_as k_prop k_bin).

(** A binary expression with these operands is a simple assignment. *)
Definition assigns (l o : node) : Prop := kind_of o = k_eq /\ is_lhs l = true.

(** Kinds come from the parser: they are below 1000 (typescript-go has about
    350 of them). *)
Definition kinds_ok (root : node) : Prop := forall m, sub root m -> 0 <= kind_of m < 1000.

(** [nested n es]: [es] is an enter event of [n], possibly an inner marker
    pair, and between enter and exit the nested events of some of the children
    of [n], each at most once and in source order. *)
Inductive nested : node -> list event -> Prop :=
| nested_plain n inner :
    forest (children n) inner ->
    nested n ((kind_of n, id_of n) :: inner ++ [(kind_of n + 1000, id_of n)])
| nested_marked n mark inner :
    mark = 2000 \/ mark = 4000 ->
    forest (children n) inner ->
    nested n ((kind_of n, id_of n) :: (kind_of n + mark, id_of n) :: inner
              ++ [(kind_of n + mark + 1000, id_of n); (kind_of n + 1000, id_of n)])
with forest : list node -> list event -> Prop :=
| forest_nil : forest [] []
| forest_skip c cs es : forest cs es -> forest (c :: cs) es
| forest_take c cs e es : nested c e -> forest cs es -> forest (c :: cs) (e ++ es).

(** Where a node stands: target of a destructuring assignment or not. *)
Inductive place : Type := Target | Plain.

(** [position root m p]: following the grammar from the children of [root],
    with targets spreading only through elements, properties, spreads and
    property values. This is the reading of the code's comment in which the
    default value and the keys of a pattern are not part of the target. *)
Inductive position (root : node) : node -> place -> Prop :=
| pos_top c : In c (children root) -> position root c Plain
| pos_assign_left i l o r :
    position root (NBin i l o r) Plain -> assigns l o -> position root l Target
| pos_assign_op i l o r :
    position root (NBin i l o r) Plain -> assigns l o -> position root o Plain
| pos_assign_right i l o r :
    position root (NBin i l o r) Plain -> assigns l o -> position root r Plain
| pos_element i es e : position root (NArr i es) Target -> In e es -> position root e Target
| pos_property i ps e : position root (NObj i ps) Target -> In e ps -> position root e Target
| pos_spread i a e : position root (NSpread i a e) Target -> position root e Target
| pos_value i h e : position root (NProp i h e) Target -> position root e Target
| pos_plain n c :
    position root n Plain ->
    (forall i l o r, n = NBin i l o r -> ~ assigns l o) ->
    In c (children n) -> position root c Plain
| pos_below_target n c :
    position root n Target ->
    match n with NGen _ _ _ | NBin _ _ _ _ => True | _ => False end ->
    In c (children n) -> position root c Plain.

(** The kinds of for-in and for-of statements; their children are an optional
    'await', the initializer, the expression and the statement. *)
Variable is_for_in_of : Z -> bool.

(** The full notion of an assignment target of the list in the code's comment
    (linter.go 396-408), for the node kinds that assignments are made of: the
    left of any '=' in the tree, the initializer of any for-in or for-of, and
    what such a target contains through elements, properties, spreads and
    property values. *)
Inductive target (root : node) : node -> Prop :=
| tg_left i l o r : sub root (NBin i l o r) -> assigns l o -> target root l
| tg_loop i k pre init e st :
    sub root (NGen i k (pre ++ [init; e; st])) -> is_for_in_of k = true -> target root init
| tg_element i es e : target root (NArr i es) -> In e es -> target root e
| tg_property i ps e : target root (NObj i ps) -> In e ps -> target root e
| tg_spread i a e : target root (NSpread i a e) -> target root e
| tg_value i h e : target root (NProp i h e) -> target root e.

Definition literal (n : node) : Prop :=
  match n with NArr _ _ | NObj _ _ => True | _ => False end.

End Spec.

(** The six events of a node kind and their codes. *)
Inductive etype : Type := Enter | Exit | PatEnter | PatExit | NotPatEnter | NotPatExit.
Definition code (e : etype) (k : Z) : Z :=
  match e with
  | Enter => k
  | Exit => listener_on_exit k
  | PatEnter => listener_on_allow_pattern k
  | PatExit => listener_on_exit (listener_on_allow_pattern k)
  | NotPatEnter => listener_on_not_allow_pattern k
  | NotPatExit => listener_on_exit (listener_on_not_allow_pattern k)
  end.
