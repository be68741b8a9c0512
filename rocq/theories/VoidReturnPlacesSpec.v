(** What C111 (PropsVoidReturnPlaces.v) says. *)
From Coq Require Import Bool Arith Ascii String List.
From Verif Require Import Base VoidReturn VoidReturnSpec.
From Verif Require Import VoidReturnPlaces.
Import ListNotations.
Local Open Scope list_scope.

(** Names as they are spelled, or as the symbol says. *)
Inductive spelled : name_node -> bstr -> Prop :=
| sp_identifier s : spelled (NIdentifier s) s
| sp_private s : spelled (NPrivate s) s
| sp_string s : spelled (NString s) s
| sp_number s : spelled (NNumber s) s
| sp_bigint s : spelled (NBigInt s) s.
Definition called (symbol : option bstr) (n : name_node) (x : bstr) : Prop := x <> [] /\ (symbol = Some x \/ ((symbol = None \/ symbol = Some []) /\ spelled n x)).

(** Expressions where a function without result is expected. *)
Definition expected (contextual : nat -> option ftype) (n : nat) : Prop := exists t, contextual n = Some t /\ expects_nothing t.
(** Arguments that are callbacks: by their own type, if there is one signature or none asks for more; or because some signature asks for nothing and none for more. *)
Definition callback (contextual : nat -> option ftype) (sigs : list signature) (i n : nat) : Prop :=
  ((List.length sigs = 1 \/ forall r, wanted sigs i r -> exists p, r = One p /\ In p [VoidPart; UndefinedPart; NullPart; AnyPart; NeverPart; ParameterPart]) /\ expected contextual n)
  \/ (wanted sigs i (One VoidPart) /\ forall r, wanted sigs i r -> exists p, r = One p /\ In p [VoidPart; UndefinedPart; NullPart; AnyPart; NeverPart]).
(** A member of that name that returns nothing in what a class extends or implements. *)
Definition inherited (bases : list base) (m : option member) : Prop := exists x c t, m = Some x /\ In c bases /\ instance_members c (mname x) = Some t /\ expects_nothing t.

(** What is judged at a node. *)
Inductive judged (contextual : nat -> option ftype) : site -> nat -> Prop :=
| ju_element l n : In (EExpr n) l -> expected contextual n -> judged contextual (ArrayLiteral l) n
| ju_arrow n : expected contextual n -> judged contextual (Arrow false (Some n)) n
| ju_assignment n : expected contextual n -> judged contextual (Binary true n) n
| ju_argument sigs before n after : callback contextual sigs (List.length before) n -> judged contextual (CallOrNew sigs (before ++ EExpr n :: after)) n
| ju_jsx n : expected contextual n -> judged contextual (Jsx (AExpression (Some n))) n
| ju_object n symbol name x members t : called symbol name x -> (forall e, name <> NComputed e) -> members x = Some t -> expects_nothing t -> judged contextual (ObjectMethod n symbol (Some name) (Some members)) n
| ju_method n bases m : inherited bases m -> judged contextual (ClassMethod n bases m true) n
| ju_property_base bases m n : inherited bases m -> judged contextual (ClassProperty bases m (Some n)) n
| ju_property bases m n : expected contextual n -> judged contextual (ClassProperty bases m (Some n)) n
| ju_assigned n : expected contextual n -> judged contextual (PropertyAssignment n) n
| ju_shorthand n : expected contextual n -> judged contextual (Shorthand n) n
| ju_return n : expected contextual n -> judged contextual (ReturnStatement (Some n)) n
| ju_variable n : expected contextual n -> judged contextual (Declared (Some n)) n.

(** The expressions and methods that are part of a node. *)
Definition number (e : element) : nat := match e with ESpread n | EExpr n => n end.
Definition opt (e : option nat) : list nat := match e with Some n => [n] | None => [] end.
Definition members (s : site) : list nat :=
  match s with
  | ArrayLiteral l | CallOrNew _ l => map number l
  | Arrow _ e | ClassProperty _ _ e | ReturnStatement e | Declared e | Jsx (AExpression e) => opt e
  | Binary _ n | ObjectMethod n _ _ _ | ClassMethod n _ _ _ | PropertyAssignment n | Shorthand n => [n]
  | Jsx _ => []
  | Elsewhere l => l
  end.
