(** What C57 (PropsParams.v) says of parameters: which types can be written, and which types they lead to. *)
From Coq Require Import String Ascii Bool List ZArith.
From Verif Require Import Base Params.
Import ListNotations.
Open Scope Z_scope.

Section Types.
Variable methods : bool.
Variable types : Z -> info.

(** The name is [#x]. *)
Definition hidden (p : prop) : Prop := p_value p = Some true \/ (p_value p = None /\ In true (p_declarations p)).
(** A [private] property of a mapped type. *)
Definition covered (p : prop) : Prop := p_mapped p = true /\ p_private p = true.
(** A property that can be written, as far as the rule goes. *)
Definition writable (p : prop) : Prop :=
  ~ (methods = true /\ p_method p = true) /\ p_symbol p = false /\ p_check p = false /\ p_synthetic p = false /\
  ~ (p_mapped p = true /\ (p_method p = true \/ p_value p = None)) /\ p_readonly p = false /\ ~ hidden p /\ ~ covered p.

Definition arrays (t : Z) : Prop := i_array (types t) <> None \/ i_tuple (types t) <> None.
(** Only a function. *)
Definition plain_function (t : Z) : Prop := i_calls (types t) = true /\ i_props (types t) = [].
(** How a type is taken apart: into parts, into the elements of an array or tuple that is [readonly], or into properties. *)
Definition as_parts (t : Z) (l : list Z) : Prop :=
  i_allowed (types t) = false /\ (i_class (types t) = Union l \/ (i_class (types t) = Inter l /\ exists x, In x l /\ arrays x)).
Definition structured (t : Z) : Prop := i_allowed (types t) = false /\ i_class (types t) = Object /\ ~ plain_function t.
Definition as_elements (t : Z) : Prop :=
  structured t /\ ((exists n, i_array (types t) = Some n /\ n <> Some (b "Array")) \/ (i_array (types t) = None /\ i_tuple (types t) = Some (Tuple true true))).
Definition as_properties (t : Z) : Prop :=
  (i_allowed (types t) = false /\ exists l, i_class (types t) = Inter l /\ forall x, In x l -> ~ arrays x) \/
  (structured t /\ i_array (types t) = None /\ (i_tuple (types t) = None \/ exists r, i_tuple (types t) = Some (Tuple false r))).
(** A type that can be written itself. *)
Inductive flawed (t : Z) : Prop :=
| fl_array : structured t -> i_array (types t) = Some (Some (b "Array")) -> flawed t
| fl_tuple : structured t -> i_array (types t) = None -> i_tuple (types t) = Some (Tuple true false) -> flawed t
| fl_property p : as_properties t -> In p (i_props (types t)) -> writable p -> flawed t
| fl_index x : as_properties t -> In x (i_indexes (types t)) -> x_readonly x = false -> flawed t.
Inductive leads (t x : Z) : Prop :=
| ld_part l : as_parts t l -> In x l -> leads t x
| ld_element : as_elements t -> In x (i_args (types t)) -> leads t x
| ld_property p : as_properties t -> In p (i_props (types t)) -> p_method p = false -> ~ hidden p -> ~ covered p ->
    (p_type p = Some x \/ (p_type p = None /\ p_symbol_type p = Some x)) -> leads t x
| ld_index i : as_properties t -> In i (i_indexes (types t)) -> x_value i = Some x -> leads t x.
Inductive reach (t : Z) : Z -> Prop :=
| rc_here : reach t t
| rc_step x u : leads t x -> reach x u -> reach t u.

(** A finite number of types is met, and arrays of arrays of ... end. *)
Definition ends (t : Z) (fuel : nat) : Prop :=
  exists universe rank height, In t universe /\ NoDup universe /\
    (forall y x, In y universe -> leads y x -> In x universe) /\
    (forall y x, In y universe -> as_elements y -> In x (i_args (types y)) -> (rank x < rank y)%nat) /\
    (forall y, In y universe -> (rank y <= height)%nat) /\
    (List.length universe * S height + height < fuel)%nat.

(** Objects that brand a primitive type. *)
Definition tag (t : Z) : Prop := i_class (types t) = Object /\ i_calls (types t) = false /\ i_constructs (types t) = false.
Definition brand (t : Z) : Prop :=
  exists l, i_class (types t) = Inter l /\ (exists x, In x l /\ tag x) /\ (exists x, In x l /\ ~ tag x /\ i_literal (types x) = true) /\
    forall x, In x l -> tag x \/ i_literal (types x) = true.
Definition brands (t : Z) : Prop := (exists l, i_class (types t) = Union l /\ forall x, In x l -> brand x) \/ brand t.
End Types.

(** A parameter that is to be reported. *)
Definition wanted (opts : options) (types : Z -> info) (m : param) : Prop :=
  (m_property m = true -> o_check_properties opts = true) /\ (m_typed m = false -> o_ignore_inferred opts = false) /\
  exists t, m_type m = Some t /\ ~ brands types t /\ exists u, reach types t u /\ flawed (o_methods opts) types u.
