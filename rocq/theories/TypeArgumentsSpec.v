(** Specification: what type arguments stand for, with defaults and inference; which declaration says the type parameters. *)
From Coq Require Import Bool Arith ZArith List Permutation Sorted.
From Verif Require Import TypeArguments.
Import ListNotations.
Open Scope nat_scope.

(** Types: type parameters and applications. *)
Inductive ty := Par (s : nat) | App (c : nat) (l : list ty).
Fixpoint subst (env : list (nat * ty)) (t : ty) : ty :=
  match t with
  | Par s => match find (fun e => fst e =? s) env with Some (_, u) => u | None => Par s end
  | App c l => App c (map (subst env) l)
  end.
Inductive occurs_in (s : nat) : ty -> Prop :=
| OPar : occurs_in s (Par s)
| OApp c l t : In t l -> occurs_in s t -> occurs_in s (App c l).
(** What the numbers of types stand for: references are applications of their target (which is a reference, too); the same applications have the same number, or the same target and arguments. *)
Definition faithful (reference : nat -> option (nat * list nat)) (den : nat -> ty) : Prop :=
  (forall t x l, reference t = Some (x, l) -> den t = App x (map den l) /\ reference x <> None) /\
  (forall t u, den t = den u -> t = u \/ exists r, reference t = Some r /\ reference u = Some r).

Section Filled.
Context (den : nat -> ty).
(** All type arguments: those that are written; for the others the defaults, in which those before are put in. *)
Inductive filled : list (nat * ty) -> list parameter -> list ty -> list ty -> Prop :=
| FEnd env : filled env [] [] []
| FWritten env p ps a l r : filled ((symbol p, a) :: env) ps l r -> filled env (p :: ps) (a :: l) (a :: r)
| FDefault env p ps d r : default p = Some d -> filled ((symbol p, subst env (den d)) :: env) ps [] r -> filled env (p :: ps) [] (subst env (den d) :: r).
(** Without written type arguments in calls: what is inferred, or the default. *)
Inductive inferred (candidate : nat -> option ty) : list (nat * ty) -> list parameter -> list ty -> Prop :=
| IEnd env : inferred candidate env [] []
| IFound env p ps t r : candidate (symbol p) = Some t -> inferred candidate ((symbol p, t) :: env) ps r -> inferred candidate env (p :: ps) (t :: r)
| IDefault env p ps d r : candidate (symbol p) = None -> default p = Some d -> inferred candidate ((symbol p, subst env (den d)) :: env) ps r -> inferred candidate env (p :: ps) (subst env (den d) :: r).
End Filled.
(** Type parameters named in a type node. *)
Inductive named_in (s : nat) : tnode -> Prop :=
| NHere l : named_in s (Node (Some s) l)
| NBelow i l n : In n l -> named_in s n -> named_in s (Node i l).
(** The arguments of a new expression may say what a type parameter is. *)
Definition may_say (u : use) (s : nat) : Prop := new_ u = true /\ value_arguments u <> 0 /\ exists l n, signature_types u = Some l /\ In n l /\ named_in s n.

(** Declarations for types, and what a declaration says. *)
Inductive declares_type : declaration -> Prop := TAlias l : declares_type (Alias l) | TInterface l : declares_type (Interface l).
Inductive says : declaration -> list parameter -> Prop :=
| SAlias l : says (Alias l) l
| SInterface l : says (Interface l) l
| SClass l : says (Class l) l
| SVariable l : says (Variable_ (Some l)) l.
Definition fits (types : bool) (d : declaration) : Prop := if types then declares_type d else ~ declares_type d.
Definition sorts (sort : (declaration -> declaration -> Z) -> list declaration -> list declaration) : Prop :=
  forall types l, Permutation (sort (compare types) l) l /\ StronglySorted (fun x y => (0 <= compare types y x)%Z) (sort (compare types) l).

(** The text of a list of type arguments: nodes with what follows them (commas). *)
Definition list_text {A} (l : list (list A * list A)) : list A := flat_map (fun x => fst x ++ snd x) l.
Definition sizes {A} (l : list (list A * list A)) : list (nat * nat) := map (fun x => (length (fst x), length (snd x))) l.
