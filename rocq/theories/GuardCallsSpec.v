(** What C110 (PropsGuardCalls.v) says. *)
From Coq Require Import String Ascii Bool List ZArith.
From Verif Require Import Base Types Condition.
From Verif Require Import GuardCalls.
Import ListNotations.
Open Scope Z_scope.

Definition has (t : ty) (l : list flag) : Prop := exists f, In f (t_flags t) /\ In f l.
Definition part (t p : ty) : Prop := In FUnion (t_flags t) /\ In p (t_parts t) \/ ~ In FUnion (t_flags t) /\ p = t.
(** A name of at most 120 characters. *)
Definition short (x n : list Z) : Prop := ((List.length x <= 120)%nat /\ n = x) \/ ((120 < List.length x)%nat /\ n = firstn 117 x ++ text (b "...")).

(** The argument at an index, if no spread is before it or there. *)
Definition plain_argument (l : list argument) (i : Z) (n : nat) : Prop := exists before after, l = map Arg before ++ Arg n :: after /\ Z.of_nat (List.length before) = i.
Definition guard_words (show : ty -> list Z) (value g : ty) (x : list Z) : Prop := exists a c, short (show value) a /\ short (show g) c /\ x = text (b "Type ") ++ a ++ text (b " already satisfies predicate type ") ++ c.
Definition guard_said (show : ty -> list Z) (r : report) (n : nat) (value g : ty) : Prop :=
  id r = b "typeGuardAlreadyIsType" /\ message r = b "Type predicate is unnecessary as the parameter type already satisfies the predicate." /\ at_ r = n /\ exists x, label r = Some (x, n) /\ guard_words show value g x.

(** A parameter guarded although its type satisfies the guard. *)
Definition needless (assignable : ty -> ty -> bool) (s : signature) (x : parameter) (g : ty) : Prop := exists p before after,
  guard s = Some p /\ params s = before ++ x :: after /\ pindex p = Z.of_nat (List.length before) /\ ptype p = Some g /\ (pkind p = Identifier_is \/ pkind p = This_is) /\ assignable (type_of x) g = true.
Definition place (f : function) (n : nat) : Prop := (literal f = true /\ body f = Some n) \/ ((literal f = false \/ body f = None) /\ n = node f).
Definition words (f : function) (truthy : bool) (i m : bstr) : Prop :=
  match literal f, truthy with
  | true, true => i = b "alwaysTruthy" /\ m = b "Unnecessary conditional, value is always truthy."
  | true, false => i = b "alwaysFalsy" /\ m = b "Unnecessary conditional, value is always falsy."
  | false, true => i = b "alwaysTruthyFunc" /\ m = b "This callback should return a conditional, but return is always truthy."
  | false, false => i = b "alwaysFalsyFunc" /\ m = b "This callback should return a conditional, but return is always falsy."
  end.
Definition return_said (show : ty -> list Z) (explanatory : nat -> bool) (f : function) (truthy : bool) (t : ty) (r : report) : Prop :=
  exists n, place f n /\ at_ r = n /\ words f truthy (id r) (message r) /\
  ((label r = None /\ (explanatory n = true \/ show t = [])) \/ (explanatory n = false /\ show t <> [] /\ exists x, short (show t) x /\ label r = Some (text (b "Return type: ") ++ x, n))).
(** What a signature returns, of a type parameter its constraint. *)
Definition gives (constraint : ty -> option ty) (s : signature) (t : ty) : Prop :=
  (has (returned s) [FTypeParameter] /\ constraint (returned s) = Some t) \/ ((~ has (returned s) [FTypeParameter] \/ constraint (returned s) = None) /\ t = returned s).

(** What an indexed access stands for. *)
Definition bounded (base : ty -> option ty) (t u : ty) : Prop := base t = Some u \/ base t = None /\ u = t.
Inductive reads (property : ty -> list Z -> option ty) (strings numbers : ty -> option ty) : ty -> ty -> ty -> ty -> Prop :=
| re_property t o i u : has i [FStringLiteral; FNumberLiteral] -> property o (t_text i) = Some u -> reads property strings numbers t o i u
| re_string t o i p u : (has i [FStringLiteral; FNumberLiteral] -> property o (t_text i) = None) -> part i p -> has p StringLike -> strings o = Some u -> reads property strings numbers t o i u
| re_number t o i p u : (has i [FStringLiteral; FNumberLiteral] -> property o (t_text i) = None) -> (forall q, part i q -> has q StringLike -> strings o = None) -> part i p -> has p NumberLike -> numbers o = Some u -> reads property strings numbers t o i u
| re_nothing t o i : (has i [FStringLiteral; FNumberLiteral] -> property o (t_text i) = None) -> (forall q, part i q -> has q StringLike -> strings o = None) -> (forall q, part i q -> has q NumberLike -> numbers o = None) -> reads property strings numbers t o i t.
Inductive stands (access : ty -> option (ty * ty)) (base : ty -> option ty) (property : ty -> list Z -> option ty) (strings numbers : ty -> option ty) : ty -> ty -> Prop :=
| st_plain t : ~ has t [FIndexedAccess] -> stands access base property strings numbers t t
| st_unknown t : has t [FIndexedAccess] -> access t = None -> stands access base property strings numbers t t
| st_access t o i o' i' u : has t [FIndexedAccess] -> access t = Some (o, i) -> bounded base o o' -> bounded base i i' -> reads property strings numbers t o' i' u -> stands access base property strings numbers t u.
