(** Specification: members whose value is a number, members whose value is a string. *)
From Coq Require Import Bool List Arith.
From Verif Require Import MixedEnums.
Import ListNotations.

Inductive numeric : member -> Prop :=
| NNone : numeric None
| NLiteral : numeric (Some Numeric)
| NType : numeric (Some (Expression false true)).
Inductive textual : member -> Prop :=
| TLiteral : textual (Some Quoted)
| TType n : textual (Some (Expression true n)).
(** One of the members is a number and one is a string. *)
Definition differ (m m' : member) : Prop := (numeric m /\ textual m') \/ (textual m /\ numeric m').
Definition agree (m m' : member) : Prop := (numeric m /\ numeric m') \/ (textual m /\ textual m').
(** The members of all declarations of an enum together. *)
Definition all_members (declarations : list declaration) : list member := flat_map (fun d => match d with EnumOf l => l | Namespace => [] end) declarations.
Definition mixed (l : list member) : Prop := exists m m', In m l /\ In m' l /\ numeric m /\ textual m'.
