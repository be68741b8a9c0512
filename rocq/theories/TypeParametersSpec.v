(** Specification: how often a type parameter is used, as the sizes of finite parts of the unfolded types. *)
From Coq Require Import Bool List Arith.
From Verif Require Import TypeParameters.
Import ListNotations.

(** * What is used by a type *)
Definition as_ (a r : bool) (l : list nat) (is_ : list item) : Prop := Forall2 (fun t i => i = (t, a, r)) l is_.
Definition maybe (o : option nat) (a : bool) (l : list item) : Prop := (forall t, o = Some t -> l = [(t, a, false)]) /\ (o = None -> l = []).
Inductive signature_uses (g : signature) : list item -> Prop :=
| SUses this params tps ret : maybe (this_type g) false this -> as_ false false (parameter_types g) params -> as_ false false (type_parameters g) tps ->
    (forall t, predicate_type g = Some t -> ret = [(t, false, true)]) ->
    (forall t, predicate_type g = None -> return_type g = Some t -> ret = [(t, false, true)]) ->
    (predicate_type g = None -> return_type g = None -> ret = []) ->
    signature_uses g (this ++ params ++ tps ++ ret).
Inductive signatures_use : list signature -> list item -> Prop :=
| SNone : signatures_use [] []
| SMore g l u v : signature_uses g u -> signatures_use l v -> signatures_use (g :: l) (u ++ v).
Inductive object_uses (o : object) : list item -> Prop :=
| OUses props p c num str calls news : as_ false false (property_types o) props ->
    (forall m, mapping o = Some m -> maybe (mapped_parameter m) false p) -> (mapping o = None -> p = [] /\ c = []) ->
    (forall m t, mapping o = Some m -> property_types o = [] -> template_type m = Some t -> c = [(t, false, false)]) ->
    (forall m, mapping o = Some m -> property_types o = [] -> template_type m = None -> maybe (mapped_constraint m) false c) ->
    (property_types o <> [] -> c = []) ->
    maybe (number_index o) true num -> maybe (string_index o) true str ->
    signatures_use (call_signatures o) calls -> signatures_use (construct_signatures o) news ->
    object_uses o (props ++ p ++ c ++ num ++ str ++ calls ++ news).
(** Type arguments count twice, except those of tuples and arrays outside classes; there, if mutable and returned. *)
Definition twice (from_class a r : bool) (k : reference_kind) : Prop :=
  match k with ROther => True | RTuple ro => from_class = true \/ a = true \/ (r = true /\ ro = false) | RArray named => from_class = true \/ a = true \/ (r = true /\ named = true) end.
Inductive uses (from_class : bool) (n : node) (a r : bool) : list item -> Prop :=
| UAlias l : alias_arguments n <> [] -> as_ true false (alias_arguments n) l -> uses from_class n a r l
| UParts l u : alias_arguments n = [] -> parts n = Some l -> as_ a false l u -> uses from_class n a r u
| UIndexed o i : alias_arguments n = [] -> parts n = None -> indexed n = Some (o, i) -> uses from_class n a r [(o, a, false); (i, a, false)]
| UReference k l f u : alias_arguments n = [] -> parts n = None -> indexed n = None -> reference n = Some (k, l) -> l <> [] -> (f = true <-> twice from_class a r k) -> as_ f r l u -> uses from_class n a r u
| UTemplate l u : alias_arguments n = [] -> parts n = None -> indexed n = None -> (forall k l, reference n = Some (k, l) -> l = []) -> template_parts n = Some l -> as_ a false l u -> uses from_class n a r u
| UConditional c e : alias_arguments n = [] -> parts n = None -> indexed n = None -> (forall k l, reference n = Some (k, l) -> l = []) -> template_parts n = None -> conditional n = Some (c, e) ->
    uses from_class n a r [(c, a, false); (e, a, false)]
| UObject o u : alias_arguments n = [] -> parts n = None -> indexed n = None -> (forall k l, reference n = Some (k, l) -> l = []) -> template_parts n = None -> conditional n = None -> object_ n = Some o ->
    object_uses o u -> uses from_class n a r u
| UTarget u : alias_arguments n = [] -> parts n = None -> indexed n = None -> (forall k l, reference n = Some (k, l) -> l = []) -> template_parts n = None -> conditional n = None -> object_ n = None ->
    maybe (target n) a u -> uses from_class n a r u.

(** * Counting *)
Section Count.
Context (types : nat -> node) (from_class : bool).
(** [n] uses of a symbol can be found in the unfolding of types, without constraints and defaults; a use counts twice where multiple uses are assumed. *)
Inductive uses_of (s : nat) : list item -> nat -> Prop :=
| UNone l : uses_of s l 0
| USkip i l n : uses_of s l n -> uses_of s (i :: l) n
| UHere t a r l n d : parameter (types t) = Some (Some d) -> symbol d = s -> uses_of s l n -> uses_of s ((t, a, r) :: l) ((if a then 2 else 1) + n)
| UInside t a r l u m n : parameter (types t) = None -> uses from_class (types t) a r u -> uses_of s u m -> uses_of s l n -> uses_of s ((t, a, r) :: l) (m + n).
(** The constraint and the default of a declaration, with what identifies them. *)
Inductive hook (d : decl) : key -> nat -> Prop :=
| HConstraint c t : constraint d = Some (c, t) -> hook d (KConstraint c) t
| HDefault t : default_type d = Some t -> hook d KDefault t.
(** Types that are reached, through constraints and defaults too. *)
Inductive reached (roots : list item) : nat -> Prop :=
| RRoot t a r : In (t, a, r) roots -> reached roots t
| RUse t a r u t' a' r' : reached roots t -> parameter (types t) = None -> uses from_class (types t) a r u -> In (t', a', r') u -> reached roots t'
| RHook t d k t' : reached roots t -> parameter (types t) = Some (Some d) -> hook d k t' -> reached roots t'.
Definition hooked (roots : list item) (k : key) (t : nat) : Prop := exists t0 d, reached roots t0 /\ parameter (types t0) = Some (Some d) /\ hook d k t.
(** Uses in the types of a node, and in constraints and defaults it reaches, each of them once. *)
Inductive hook_uses (s : nat) (roots : list item) : list key -> nat -> Prop :=
| HNone : hook_uses s roots [] 0
| HMore k ks t m n : ~ In k ks -> hooked roots k t -> uses_of s [(t, false, false)] m -> hook_uses s roots ks n -> hook_uses s roots (k :: ks) (m + n).
Definition total (s : nat) (roots : list item) (n : nat) : Prop := exists ks m h, uses_of s roots m /\ hook_uses s roots ks h /\ n = m + h.
Inductive totals (s : nat) : list (list item) -> nat -> Prop :=
| TNone : totals s [] 0
| TMore g gs m n : total s g m -> totals s gs n -> totals s (g :: gs) (m + n).
(** Only one default is reached, and a constraint has one type. *)
Definition coherent (roots : list item) : Prop := forall k t t', hooked roots k t -> hooked roots k t' -> t = t'.
(** A finite set of types with all that they use. *)
Definition closed (l : list nat) : Prop :=
  NoDup l /\ (forall t a r u t' a' r', In t l -> parameter (types t) = None -> uses from_class (types t) a r u -> In (t', a', r') u -> In t' l) /\
  (forall t d k t', In t l -> parameter (types t) = Some (Some d) -> hook d k t' -> In t' l).
End Count.

(** * References *)
(** A reference outside of the declaration that does not begin in the body. *)
Definition counted (p : nat * nat) (body : option nat) (r : nat * nat) : Prop := (snd p <= fst r \/ snd r <= fst p) /\ (forall x, body = Some x -> fst r <= x).
(** At least [n] elements with a property, at different places. *)
Inductive picks {A : Type} (P : A -> Prop) : nat -> list A -> Prop :=
| PNone l : picks P 0 l
| PSkip n x l : picks P n l -> picks P n (x :: l)
| PTake n x l : P x -> picks P n l -> picks P (S n) (x :: l).
