(** Properties of what no-deprecated takes for the type destructured and for the name of a property (C101). *)
From Coq Require Import Bool Arith Ascii String List Lia.
From Verif Require Import Base EngineProofs Deprecated DeprecatedSpec.
From Verif Require Import PatternSource PatternSourceSpec PatternSourceProofs.
Import ListNotations.

(** C101: the type found is the one where the names lead to from the initializer or parameter; there is none exactly if there is no such way. *)
Theorem C101_way : forall property u t, source_type property u = Some t <-> exists top l, path u top l /\ leads property top l t.
Proof. intros property u t. split; [apply source_path|intros (top & l & P & L); eapply path_source; eauto]. Qed.
Print Assumptions C101_way.

(** C101: with patterns of objects the type is that of the properties in turn. *)
Theorem C101_objects : forall property names, Forall (fun x => x <> []) names -> forall t,
  source_type property (nested (Variable_declaration (Some t)) names) = in_turn property t names /\ source_type property (nested (Parameter_node t) names) = in_turn property t names
  /\ source_type property (nested (Variable_declaration None) names) = None.
Proof. intros property names F t. rewrite !(nested_source property names F). auto. Qed.
Print Assumptions C101_objects.

(** C101: as the parser builds trees, what lies inside of an element of an array is left to the checker. *)
Theorem C101_arrays : forall property u d, is_pattern u -> inside_array u -> pattern_type property u d = d.
Proof.
  intros property u d P I. unfold pattern_type. replace (source_type property u) with (@None nat); [reflexivity|]. symmetry. destruct P as [u A|u A].
  - inversion I; subst. cbn [source_type]. apply above_none; auto.
  - inversion I; subst. cbn [source_type]. rewrite (above_none property u); auto.
Qed.
Print Assumptions C101_arrays.
(** C101: so is what lies behind a computed name, and what has no initializer. *)
Theorem C101_unknown : forall property n u d, pattern_type property (Object_pattern (Binding_element Computed n u)) d = d /\ pattern_type property (Object_pattern (Variable_declaration None)) d = d.
Proof. intros property n u d. split; unfold pattern_type; cbn [source_type]; [|reflexivity]. destruct (source_type property u); reflexivity. Qed.
Print Assumptions C101_unknown.
(** C101: where the way leads to a type, it is that type, whatever the checker says of the pattern. *)
Theorem C101_known : forall property u d top l t, path u top l -> leads property top l t -> pattern_type property u d = Some t.
Proof. intros property u d top l t P L. unfold pattern_type. assert (E : source_type property u = Some t) by (apply C101_way; eauto). rewrite E. reflexivity. Qed.
Print Assumptions C101_known.
(** C101: a name that is no pattern is never asked for: in trees of the parser only what is before the colon counts. *)
Theorem C101_colon : forall property w n u t, is_pattern u -> above_pattern (Binding_element w n u) -> source_type property (Binding_element w n u) = Some t ->
  exists x s, w = Written x /\ source_type property u = Some s /\ property s x = Some t.
Proof.
  intros property w n u t P A H. assert (n = Pattern) by (inversion A; reflexivity). subst n. cbn [source_type] in H. destruct (source_type property u) as [s|]; [|discriminate].
  unfold property_name in H. destruct w as [| |[|c0 r0]]; try discriminate. eauto.
Qed.
Print Assumptions C101_colon.

(** C101: the name of a key of an object literal. *)
Theorem C101_key : forall k t, key_name k = Some t <-> names_key k t.
Proof.
  intros k t. split.
  - destruct k as [|[|x|[[x|x]|]]|x|x|x|x]; cbn [key_name]; intros H; try discriminate; injection H as ->; constructor.
  - intros H. destruct H; reflexivity.
Qed.
Print Assumptions C101_key.
(** C101: a property in an object literal has a reason exactly if key, type of the context, property and checker agree. *)
Theorem C101_contextual : forall jsdoc dep lit k c n r, contextual jsdoc dep lit k c = Some (n, r) <->
  lit = true /\ names_key k n /\ exists ps s, c = Some ps /\ ps n = Some s /\ dep s = true /\ jsdoc (Some s) = Some r.
Proof.
  intros jsdoc dep lit k c n r. unfold contextual. split.
  - intros H. destruct lit; [|discriminate]. destruct (key_name k) as [x|] eqn:K; [|discriminate]. apply C101_key in K. destruct c as [ps|]; [|discriminate]. destruct (ps x) as [s|] eqn:P; [|discriminate].
    destruct (dep s) eqn:D; [|discriminate]. destruct (jsdoc (Some s)) as [q|] eqn:J; [|discriminate]. injection H as <- <-. split; auto. split; auto. exists ps, s. auto.
  - intros (-> & K & ps & s & -> & P & D & J). apply C101_key in K. rewrite K, P, D, J. reflexivity.
Qed.
Print Assumptions C101_contextual.

(** Types for the witnesses: 0 is a tuple of 1 and 2; 1 has the property old, 2 has none. *)
Definition tuple_property (t : nat) (x : bstr) : option nat :=
  if Nat.eqb t 0 then (if beqb x (b "0") then Some 1 else if beqb x (b "1") then Some 2 else None) else if Nat.eqb t 1 && beqb x (b "old") then Some 3 else None.
(** C101: that the type for an element of an array pattern is that of the element is false but for the first: const [x, y = z] = pair. *)
Theorem C101_index_refuted : exists property top, property top (b "1") <> None /\ property top (b "1") <> source_type property (Array_pattern (Variable_declaration (Some top))).
Proof. exists tuple_property, 0. split; discriminate. Qed.
Print Assumptions C101_index_refuted.
(** C101: a default value that nothing says is deprecated is reported, since the first element has a property of its name: const [x, y = old] = pair. *)
Definition plain_decl : decl := {| deprecated := false; docs := []; function_like := false |}.
Definition old_decl : decl := {| deprecated := true; docs := []; function_like := false |}.
Definition witness (s : nat) : symbol := {| decls := if Nat.eqb s 3 then [old_decl] else [plain_decl]; alias := false; aliased := s; alias_declared := false; immediate := None |}.
Theorem C101_default_refuted : exists property info top ps s m,
  pattern_type property (Array_pattern (Variable_declaration (Some top))) None = Some ps /\ (forall d, In d (decls (info s)) -> deprecated d = false) /\ alias (info s) = false /\
  check_identifier info 1 P_binding R_value G_array_pattern [A_rest] (Bound None (b "old") (Some (property ps)) (Some s) None) false (N_identifier (b "old")) = Some (Some m).
Proof. exists tuple_property, witness, 0, 1, 5, (b "`old` is deprecated."). split; [reflexivity|]. split; [intros d [<- | []]; reflexivity|]. split; [reflexivity|vm_compute; reflexivity]. Qed.
Print Assumptions C101_default_refuted.
(** C101: that a property with an empty name is found is false: const { '': { old } } = o is left to the checker though its type is known. *)
Theorem C101_empty_refuted : exists property t e, property t [] = Some e /\ source_type property (nested (Variable_declaration (Some t)) [[]]) = None /\ in_turn property t [[]] = Some e.
Proof. exists (fun _ _ => Some 1), 0, 1. repeat split; reflexivity. Qed.
Print Assumptions C101_empty_refuted.

(** Examples: { pair: { '0': { old } } } of a parameter, and the same with an array pattern inside. *)
Example C101_examples :
  source_type tuple_property (nested (Parameter_node 0) [b "0"; b "old"]) = Some 3
  /\ source_type tuple_property (nested (Parameter_node 0) [b "0"; b "new"]) = None
  /\ source_type tuple_property (Object_pattern (Binding_element No_name Pattern (Array_pattern (Parameter_node 0)))) = None
  /\ pattern_type tuple_property (Object_pattern (Binding_element No_name Pattern (Array_pattern (Parameter_node 0)))) (Some 1) = Some 1
  /\ source_type tuple_property (Array_pattern (Parameter_node 1)) = Some 1
  /\ key_name (Computed_key (Expression (Some (Other_value (b "1"))))) = Some (b "1") /\ key_name (Other_key (b "x")) = None.
Proof. repeat split; reflexivity. Qed.
