(** What is deprecated, and what says so. *)
From Coq Require Import Bool Arith Ascii String List.
From Verif Require Import Base.
From Verif Require Import Deprecated.
Import ListNotations.

(** The reason in comments: the text of the first deprecated tag of all, nothing if there is none. *)
Definition tags_of (d : option (list tag)) : list tag := match d with Some l => l | None => [] end.
Definition reason (docs : list (option (list tag))) (r : bstr) : Prop :=
  (exists pre c post, concat (map tags_of docs) = pre ++ Deprecated_tag c :: post /\ (forall x, In x pre -> x = Other_tag) /\ r = concat c)
  \/ (forall x, In x (concat (map tags_of docs)) -> x = Other_tag) /\ r = [].

Section Symbols.
Context (info : nat -> symbol).
(** A symbol is deprecated for a reason: that of its first deprecated declaration. *)
Definition declared (s : nat) (r : bstr) : Prop :=
  exists pre d post, decls (info s) = pre ++ d :: post /\ (forall x, In x pre -> deprecated x = false) /\ deprecated d = true /\ reason (docs d) r.
Definition undeprecated (s : nat) : Prop := forall d, In d (decls (info s)) -> deprecated d = false.
Definition maybe (s : option nat) (r : bstr) : Prop := exists u, s = Some u /\ declared u r.
(** The way of an alias to what it stands for. *)
Definition next (s u : nat) : Prop := alias (info s) = true /\ alias_declared (info s) = true /\ immediate (info s) = Some u.
(** Following aliases that are not deprecated, not on to the target where that counts. *)
Inductive passes (check : bool) (target : nat) : nat -> nat -> Prop :=
| Ps_here : forall s, passes check target s s
| Ps_on : forall s v u, next s v -> undeprecated s -> ~ (check = true /\ v = target) -> passes check target v u -> passes check target s u.
Definition finds (check : bool) (target s : nat) (r : bstr) : Prop :=
  exists u, passes check target s u /\
    (alias (info u) = true /\ declared u r \/ check = true /\ next u target /\ undeprecated u /\ declared target r).
(** What a search from a symbol comes to. *)
Definition searched (s : option nat) (check : bool) (r : bstr) : Prop :=
  exists u, s = Some u /\ (alias (info u) = false /\ check = true /\ declared u r \/ alias (info u) = true /\ finds check (aliased (info u)) u r).
(** A chain of aliases from a symbol to its end, with those on the way. *)
Inductive path : nat -> list nat -> nat -> Prop :=
| Pa_end : forall t, path t [] t
| Pa_next : forall s u l t, next s u -> path u l t -> path s (s :: l) t.
(** The first in a list that is deprecated. *)
Definition first_in (l : list nat) (r : bstr) : Prop :=
  exists pre u post, l = pre ++ u :: post /\ (forall x, In x pre -> undeprecated x) /\ declared u r.
(** A call: by the declaration of its signature, else by the symbol: for functions and methods only the aliases and, without a declaration, the function itself. *)
Definition stands_for (s t : nat) : Prop := alias (info s) = true /\ t = aliased (info s) \/ alias (info s) = false /\ t = s.
Definition is_function (s : nat) : Prop := exists t d l, stands_for s t /\ decls (info t) = d :: l /\ function_like d = true.
Definition call_says (d : option decl) (s : option nat) (r : bstr) : Prop :=
  (exists x, d = Some x /\ deprecated x = true /\ reason (docs x) r)
  \/ (forall x, d = Some x -> deprecated x = false) /\ exists u, s = Some u /\
     (~ is_function u /\ searched s true r
      \/ is_function u /\ (searched s false r \/ (forall q, ~ searched s false q) /\ d = None /\ exists t, stands_for u t /\ declared t r)).
(** A property read: the aliases, the property, the symbol, the value. *)
Definition read_says (property s value : option nat) (r : bstr) : Prop :=
  searched s true r
  \/ (forall q, ~ searched s true q) /\
     (maybe property r \/ (forall q, ~ maybe property q) /\ (maybe s r \/ (forall q, ~ maybe s q) /\ maybe value r)).
(** The property that a binding element reads. *)
Inductive property_read : option (option bstr) -> bstr -> bstr -> Prop :=
| Pr_renamed : forall name text, property_read (Some (Some name)) text name
| Pr_short : forall text, property_read None text text.
Inductive says : site -> bstr -> Prop :=
| Sa_called : forall d s r, call_says d s r -> says (Called (Some d) s) r
| Sa_attribute : forall p r, maybe p r -> says (Attribute p) r
| Sa_bound : forall renamed text ps name s v r, property_read renamed text name -> read_says (ps name) s v r -> says (Bound renamed text (Some ps) s v) r
| Sa_untyped : forall renamed text s v r, searched s true r -> says (Bound renamed text None s v) r
| Sa_short : forall p s v r, read_says p s v r -> says (Short true p s v) r
| Sa_short_untyped : forall p s v r, searched s true r -> says (Short false p s v) r
| Sa_plain : forall s r, searched s true r -> says (Plain s) r.
End Symbols.

(** Names that are declared, and the parents all of whose parts are taken for names. *)
Inductive declares : parent -> role -> grandparent -> Prop :=
| De_array : declares P_binding R_name G_array_pattern
| De_named : forall p g, In p [P_class_expression; P_variable; P_enum_member; P_class; P_method; P_property; P_getter; P_setter; P_import_equals] -> declares p R_name g
| De_key : forall r, r <> R_value -> declares P_assignment r G_object_literal
| De_any : forall p r g, In p [P_arrow; P_function; P_function_expression; P_enum; P_interface; P_module; P_method_signature; P_property_signature; P_type_alias; P_type_parameter; P_parameter] -> declares p r g.
(** Inside an import: one is met before a boundary. *)
Definition in_import (l : list around) : Prop := exists pre post, l = pre ++ A_import :: post /\ forall x, In x pre -> x = A_rest.
(** What a message says. *)
Definition blank (c : ascii) : Prop := In (nat_of_ascii c) [9; 10; 11; 12; 13; 32]%nat.
Definition space_only (s : bstr) : Prop := forall c, In c s -> blank c.
Inductive trimmed (s t : bstr) : Prop :=
| Trimmed : forall pre post, s = pre ++ t ++ post -> space_only pre -> space_only post ->
    (forall c r, t = c :: r -> ~ blank c) -> (forall r c, t = r ++ [c] -> ~ blank c) -> trimmed s t.
Inductive text_of (name reason : bstr) : bstr -> Prop :=
| To_plain : reason = [] -> text_of name reason (b "`" ++ name ++ b "` is deprecated.")
| To_reason : forall t, reason <> [] -> trimmed reason t -> text_of name reason (b "`" ++ name ++ b "` is deprecated. " ++ t).
