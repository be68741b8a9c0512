(** What is expected at a place, and what is there. *)
From Coq Require Import Bool Arith Ascii String List.
From Verif Require Import Base VoidArgs VoidArgsSpec.
From Verif Require Import VoidPlaces.
Import ListNotations.

(** [expects p m e v]: at [p] a value of type [e] is expected and one of type [v] is given; the message for it is [m]. *)
Inductive expects : place -> message -> ty -> ty -> Prop :=
| e_attribute : forall v e, expects (Attribute (Some v) (Some e)) MAttribute e v
| e_assigned : forall e v, expects (Assigned (Some e) v) MProperty e v
| e_shorthand : forall e v, expects (Shorthand (Some e) v) MProperty e v
| e_method : forall v e, expects (Method false true v (Some e)) MProperty e v
| e_return : forall v e above, expects (Return (Some v) (Some e) above) MReturn e v
| e_assignment : forall e v, expects (Assignment e v) MVariable e v
| e_variable : forall a v e, expects (Declared (Some a) (Some v) e) MVariable e v
| e_member : forall hs ms i j m h n e, nth_error ms i = Some m -> nth_error hs j = Some h -> name m = Named n -> static m = false ->
    (In (n, e) (table h) \/ (~ (exists t, In (n, t) (table h)) /\ In (n, e) (properties h))) ->
    expects (ClassLike hs ms) (MInherited i j) e (own m).

(** The option for a place. *)
Definition option_of (o : void_options) (p : place) : bool :=
  match p with
  | Attribute _ _ => o_attributes o
  | Assigned _ _ | Shorthand _ _ | Method _ _ _ _ => o_properties o
  | Return _ _ _ => o_returns o
  | Assignment _ _ | Declared _ _ _ => o_variables o
  | ClassLike _ _ => o_inherited o
  | Spread _ | Unheard _ _ => false
  end.
(** Tables with one entry for each name. *)
Definition tidy (p : place) : Prop :=
  match p with ClassLike hs _ => forall h, In h hs -> NoDup (map fst (table h)) /\ NoDup (map fst (properties h)) | _ => True end.

(** Annotations of types that can have call signatures. *)
Inductive can_call : annot -> Prop :=
| k_conditional : can_call AConditional | k_function : can_call AFunction | k_import : can_call AImport | k_indexed : can_call AIndexed | k_infer : can_call AInfer
| k_qualified : can_call AQualified | k_this : can_call AThis | k_query : can_call AQuery | k_reference : can_call AReference
| k_intersection : forall l a, In a l -> can_call a -> can_call (AIntersection l)
| k_union : forall l a, In a l -> can_call a -> can_call (AUnion l)
| k_literal : forall ms, In CallSig ms -> can_call (ALiteral ms)
| k_parens : forall a, can_call a -> can_call (AParens a).
Definition bare (a : annot) : Prop := forall x, a <> AParens x.
(** The annotation that decides about a place: that of a variable, or that of the nearest function around a return statement. *)
Inductive decides : place -> annot -> Prop :=
| d_variable : forall a v e, decides (Declared (Some a) v e) a
| d_return : forall v e l f r a, Forall (fun x => function_like x = false) l -> function_like f = true -> annotation f = Some a -> decides (Return v e (l ++ f :: r)) a.
(** The types are those of the annotations: what returns void can be called. *)
Definition honest (p : place) : Prop := forall a m e v, decides p a -> expects p m e v -> takes_void e -> can_call a.
