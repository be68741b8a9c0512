(** What C51 (PropsDuplicateTypes.v) says of unions and intersections: constituents, their order, the text without some of them, values. *)
From Coq Require Import Bool List ZArith Sorted.
From Verif Require Import Base Fixer DuplicateTypes.
Import ListNotations.
Open Scope Z_scope.

(** A node in [k] pairs of parentheses. *)
Inductive peeled : tnode -> nat -> tnode -> Prop :=
| pe_here n : peeled n 0 n
| pe_par t n k m : peeled n k m -> peeled (Par t n) (S k) m.
(** [x] at [a] with the path [q] is one of the types of the union or intersection [n], maybe in parentheses, at [pos] with the path [p]; [par] is the
    range of the latter. *)
Definition operator (inter : bool) : item := if inter then IAmp else IBar.
Definition directly (inter : bool) (n : tnode) (pos : Z) (p q : list nat) (x : tnode) (a : Z) (par : Z * Z) (last : bool) : Prop :=
  exists k t leading pre post, peeled n k (Op t inter leading (pre ++ x :: post)) /\ q = p ++ [length pre] /\
    a = pos + Z.of_nat k + zlen ((if leading : bool then [operator inter] else []) ++ concat (map (fun y => print y ++ [operator inter]) pre)) /\
    par = (pos + Z.of_nat k, pos + Z.of_nat k + zlen (print (Op t inter leading (pre ++ x :: post)))) /\ last = match post with [] => true | _ => false end.
(** The constituents that are looked at: those of the type itself, and of the constituents that are the first ones of their type. *)
Inductive looked (inter : bool) (first : list nat -> Prop) (n : tnode) (pos : Z) : list nat -> tnode -> Z -> Z * Z -> bool -> Prop :=
| lk_top q x a par la : directly inter n pos [] q x a par la -> looked inter first n pos q x a par la
| lk_in q x a par la r y a' par' la' : looked inter first n pos q x a par la -> first q -> directly inter x a q r y a' par' la' -> looked inter first n pos r y a' par' la'.
(** The order of the text; what is around comes before what is inside. *)
Inductive precedes : list nat -> list nat -> Prop :=
| pr_in p i q : precedes p (p ++ i :: q)
| pr_left p i j q r : (i < j)%nat -> precedes (p ++ i :: q) (p ++ j :: r).
(** The type without some of its constituents. *)
Fixpoint without (gone : list nat -> bool) (inter : bool) (p : list nat) (n : tnode) : tnode :=
  match n with
  | Leaf _ _ => n
  | Par t m => Par t (without gone inter p m)
  | Op t inter' leading l =>
      if Bool.eqb inter inter' then
        Op t inter' leading ((fix go i l := match l with [] => [] | x :: r => if gone (p ++ [i]) then go (S i) r else without gone inter (p ++ [i]) x :: go (S i) r end) 0%nat l)
      else n
  end.
(** The values of a type. *)
Section Values.
Context {value : Type}.
Variable mean : Z -> value -> Prop.
Fixpoint den (n : tnode) (v : value) : Prop :=
  match n with
  | Leaf t _ => mean t v
  | Par _ m => den m v
  | Op _ true _ l => (fix all l := match l with [] => True | x :: r => den x v /\ all r end) l
  | Op _ false _ l => (fix any l := match l with [] => False | x :: r => den x v \/ any r end) l
  end.
End Values.
(** Texts that are tokens for the scanner: no template with a substitution. *)
Inductive whole : list item -> Prop :=
| wh_nil : whole []
| wh_item x r : x <> ITick -> whole r -> whole (x :: r)
| wh_template body r : ~ In ITick body -> ~ In IHead body -> whole r -> whole (ITick :: body ++ ITick :: r).
Fixpoint scans (n : tnode) : Prop :=
  match n with
  | Leaf _ x => whole x
  | Par _ m => scans m
  | Op _ _ _ l => (fix all l := match l with [] => True | x :: r => scans x /\ all r end) l
  end.
(** Only one constituent. *)
Definition only (q : list nat) (r : list nat) : bool := if list_eq_dec Nat.eq_dec q r then true else false.
(** No union or intersection without constituents. *)
Fixpoint filled (n : tnode) : Prop :=
  match n with
  | Leaf _ _ => True
  | Par _ m => filled m
  | Op _ _ _ l => l <> [] /\ (fix all l := match l with [] => True | x :: r => filled x /\ all r end) l
  end.
(** [p] is the path of a node around the one with the path [q]. *)
Definition encloses (p q : list nat) : Prop := exists i r, q = p ++ i :: r.
(** All nodes of a type with the nodes around them, innermost first; [whole_type]: it is the type as written for a parameter. *)
Inductive sub : tnode -> Z -> list kind -> bool -> tnode -> Z -> list kind -> bool -> Prop :=
| sub_here n pos ps o : sub n pos ps o n pos ps o
| sub_par t m pos ps o x a qs o' : sub m (pos + 1) (KPar :: ps) false x a qs o' -> sub (Par t m) pos ps o x a qs o'
| sub_op t i d pre y post pos ps o x a qs o' :
    sub y (pos + zlen ((if d : bool then [operator i] else []) ++ concat (map (fun y => print y ++ [operator i]) pre))) (KOp i :: ps) false x a qs o' ->
    sub (Op t i d (pre ++ y :: post)) pos ps o x a qs o'.
(** Only parentheses are between the node and a type of the kind. *)
Definition hidden (ps : list kind) (inter : bool) : Prop := exists k rest, ps = repeat KPar k ++ KOp inter :: rest.
