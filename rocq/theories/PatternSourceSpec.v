(** What a pattern reads. *)
From Coq Require Import Bool Arith Ascii String List.
From Verif Require Import Base Deprecated.
From Verif Require Import PatternSource.
Import ListNotations.

(** Steps from the value at the top down to a pattern: a property by name, the start of an array. *)
Inductive move := By_name (t : bstr) | Into_array.
(** The value at the top, and the steps to the pattern. *)
Inductive path : node -> nat -> list move -> Prop :=
| path_declaration t : path (Variable_declaration (Some t)) t []
| path_parameter t : path (Parameter_node t) t []
| path_written x u top l n : x <> [] -> path u top l -> path (Binding_element (Written x) n u) top (l ++ [By_name x])
| path_name x u top l : x <> [] -> path u top l -> path (Binding_element No_name (Name x) u) top (l ++ [By_name x])
| path_array u top l : path u top l -> path (Array_pattern u) top (l ++ [Into_array])
| path_object u top l : path u top l -> path (Object_pattern u) top l
| path_other u top l : path u top l -> path (Other_node u) top l.
(** Where the steps lead. *)
Section Types.
Context (property : nat -> bstr -> option nat).
Inductive leads : nat -> list move -> nat -> Prop :=
| leads_done t : leads t [] t
| leads_name t x e l r : property t x = Some e -> leads e l r -> leads t (By_name x :: l) r
| leads_first t e l r : property t (b "0") = Some e -> leads e l r -> leads t (Into_array :: l) r
| leads_array t l r : property t (b "0") = None -> leads t l r -> leads t (Into_array :: l) r.
End Types.
(** Patterns of objects only, each but the first behind a written name: { a: { b: { c } } }, given the names from the outside in. *)
Fixpoint nested (top : node) (names : list bstr) : node :=
  match names with [] => Object_pattern top | x :: names => nested (Binding_element (Written x) Pattern (Object_pattern top)) names end.
(** The names in turn, starting from a type. *)
Fixpoint in_turn (property : nat -> bstr -> option nat) (t : nat) (names : list bstr) : option nat :=
  match names with [] => Some t | x :: names => match property t x with Some e => in_turn property e names | None => None end end.
(** A tree of nodes as the parser builds it: a pattern is what its element, declaration or parameter binds. *)
Inductive above_pattern : node -> Prop :=
| ap_declaration i : above_pattern (Variable_declaration i)
| ap_parameter t : above_pattern (Parameter_node t)
| ap_object w u : above_pattern u -> above_pattern (Binding_element w Pattern (Object_pattern u))
| ap_array u : above_pattern u -> above_pattern (Binding_element No_name Pattern (Array_pattern u)).
Inductive is_pattern : node -> Prop :=
| ip_object u : above_pattern u -> is_pattern (Object_pattern u)
| ip_array u : above_pattern u -> is_pattern (Array_pattern u).
(** An array pattern is directly around an element on the way. *)
Inductive inside_array : node -> Prop :=
| ia_here w n u : inside_array (Binding_element w n (Array_pattern u))
| ia_element w n u : inside_array u -> inside_array (Binding_element w n u)
| ia_array u : inside_array u -> inside_array (Array_pattern u)
| ia_object u : inside_array u -> inside_array (Object_pattern u).
(** Keys whose text is known. *)
Inductive names_key : key -> bstr -> Prop :=
| nk_identifier t : names_key (Identifier_key t) t
| nk_private t : names_key (Private_key t) t
| nk_literal t : names_key (Literal_key t) t
| nk_computed t : names_key (Computed_key (Literal t)) t
| nk_string t : names_key (Computed_key (Expression (Some (String_value t)))) t
| nk_value t : names_key (Computed_key (Expression (Some (Other_value t)))) t.
