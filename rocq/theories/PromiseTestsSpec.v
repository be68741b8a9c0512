(** Which values are tested for truth. *)
From Coq Require Import Bool Arith Ascii String List.
From Verif Require Import Base.
From Verif Require Import PromiseTests.
Import ListNotations.

(** A type is always a promise if each part has a then, one part of which has a signature whose first parameter may be a function. *)
Definition takes_function (sig : option (list nat)) : Prop := exists parts n, sig = Some parts /\ In n parts /\ 0 < n.
Definition promise (t : type) : Prop := forall p, In p t -> exists th sigs sig, p = Some th /\ In sigs th /\ In sig sigs /\ takes_function sig.

(** The numbers of all nodes. *)
Fixpoint numbers (e : expr) : list nat :=
  match e with
  | Leaf n _ => [n]
  | Paren n e => n :: numbers e
  | Plain n _ l r | Logic n _ l r | Assign n _ l r | Binary n _ l r | Tests n _ l r => n :: numbers l ++ numbers r
  end.
(** [inside x e]: [x] is [e] or within. *)
Inductive within (x : expr) : expr -> Prop :=
| w_self : within x x
| w_paren n e : within x e -> within x (Paren n e)
| w_plain_l n t l r : within x l -> within x (Plain n t l r)
| w_plain_r n t l r : within x r -> within x (Plain n t l r)
| w_logic_l n o l r : within x l -> within x (Logic n o l r)
| w_logic_r n o l r : within x r -> within x (Logic n o l r)
| w_assign_l n t l r : within x l -> within x (Assign n t l r)
| w_assign_r n t l r : within x r -> within x (Assign n t l r)
| w_binary_l n t l r : within x l -> within x (Binary n t l r)
| w_binary_r n t l r : within x r -> within x (Binary n t l r)
| w_tests_l n t l r : within x l -> within x (Tests n t l r)
| w_tests_r n t l r : within x r -> within x (Tests n t l r).
(** Expressions that make a value of their own, with its type. *)
Definition own (e : expr) : option type := match e with Leaf _ t | Plain _ t _ _ | Assign _ t _ _ | Binary _ t _ _ | Tests _ t _ _ => Some t | Paren _ _ | Logic _ _ _ _ => None end.
(** The value of [x] can be that of [e]. *)
Inductive gives (x : expr) : expr -> Prop :=
| g_self : own x <> None -> gives x x
| g_paren n e : gives x e -> gives x (Paren n e)
| g_left n o l r : gives x l -> gives x (Logic n o l r)
| g_right n o l r : gives x r -> gives x (Logic n o l r).
(** What the program tests for truth: conditions, and left operands of and and or. *)
Definition truth_tested (x root : expr) : Prop :=
  exists y, within y root /\
  match y with
  | Tests _ _ c _ => gives x c
  | Logic _ And l _ | Logic _ Or l _ => gives x l
  | _ => False
  end.
(** The same without assignments that stand in no parentheses of their own. *)
Inductive gives_shown (x : expr) : expr -> Prop :=
| s_self : own x <> None -> is_assign x = false -> gives_shown x x
| s_paren n e : gives_paren x e -> gives_shown x (Paren n e)
| s_left n o l r : gives_shown x l -> gives_shown x (Logic n o l r)
| s_right n o l r : gives_shown x r -> gives_shown x (Logic n o l r)
with gives_paren (x : expr) : expr -> Prop :=
| p_self : own x <> None -> gives_paren x x
| p_paren n e : gives_paren x e -> gives_paren x (Paren n e)
| p_left n o l r : gives_shown x l -> gives_paren x (Logic n o l r)
| p_right n o l r : gives_shown x r -> gives_paren x (Logic n o l r).
(** The first value of an operand, where there is no nullish operator on the way. *)
Inductive first_of (x : expr) : bool -> expr -> Prop :=
| f_self i : own x <> None -> i || negb (is_assign x) = true -> first_of x i x
| f_paren i n e : first_of x true e -> first_of x i (Paren n e)
| f_left i n o l r : o <> Nullish -> first_of x false l -> first_of x i (Logic n o l r).
(** What the rule looks at, without regard to what was checked before. *)
Definition asked (x root : expr) : Prop :=
  exists y, within y root /\
  match y with
  | Tests _ _ c _ => gives_shown x c
  | Logic _ o l _ => o <> Nullish /\ first_of x false l
  | Binary _ _ _ _ => x = y
  | _ => False
  end.
(** No binary expression stands in parentheses that are its own; [under]: in such parentheses. *)
Fixpoint no_binary_in_parens (under : bool) (e : expr) : Prop :=
  match e with
  | Leaf _ _ => True
  | Paren _ e => no_binary_in_parens true e
  | Binary _ _ l r => under = false /\ no_binary_in_parens false l /\ no_binary_in_parens false r
  | Plain _ _ l r | Logic _ _ l r | Assign _ _ l r | Tests _ _ l r => no_binary_in_parens false l /\ no_binary_in_parens false r
  end.
