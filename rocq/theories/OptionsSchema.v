(** What the option schemas, internal/rules/*/schema.json, say. *)
From Coq Require Import String Ascii Bool List ZArith.
From Verif Require Import Base Payload PayloadSpec Specifier Options.
Import ListNotations.
Open Scope Z_scope.

(** Types of properties.  [SFlags]: an object of booleans with their defaults. *)
Inductive sty := SBool | SText | SEnum (ws : list bstr) | SList (t : sty) | SSpec | SEither (t u : sty) | SFlags (ps : list (bstr * bool)).
Record sprop := Property { p_name : bstr; p_type : sty; p_default : option json }.

(** internal/rules/shared_schemas.json: a specifier. *)
Inductive names_are : list (bstr * json) -> list bstr -> Prop :=
| na_one l s : In (b "name", JStr s) l -> names_are l [s]
| na_many l ns : In (b "name", JArr (map JStr ns)) l -> names_are l ns.
Definition only (ns : list bstr) (l : list (bstr * json)) : Prop := forall n v, In (n, v) l -> In n ns.
Inductive specifier_is : json -> specifier -> Prop :=
| si_name s : specifier_is (JStr s) (Spec FName [s] [] [])
| si_file l ns p : In (b "from", JStr (b "file")) l -> names_are l ns -> In (b "path", JStr p) l -> only [b "from"; b "name"; b "path"] l ->
    specifier_is (JObj l) (Spec FFile ns p [])
| si_files l ns : In (b "from", JStr (b "file")) l -> names_are l ns -> only [b "from"; b "name"] l -> specifier_is (JObj l) (Spec FFile ns [] [])
| si_lib l ns : In (b "from", JStr (b "lib")) l -> names_are l ns -> only [b "from"; b "name"] l -> specifier_is (JObj l) (Spec FLib ns [] [])
| si_package l ns p : In (b "from", JStr (b "package")) l -> names_are l ns -> In (b "package", JStr p) l -> only [b "from"; b "name"; b "package"] l ->
    specifier_is (JObj l) (Spec FPackage ns [] p).

(** A member that is missing or null. *)
Definition missing (n : bstr) (l : list (bstr * json)) : Prop := forall v, In (n, v) l -> v = JNull.
(** The documents that fit a type; a null flag is as good as a missing one. *)
Inductive valid : sty -> json -> Prop :=
| va_bool x : valid SBool (JBool x)
| va_text s : valid SText (JStr s)
| va_enum ws s : In s ws -> valid (SEnum ws) (JStr s)
| va_list t l : Forall (valid t) l -> valid (SList t) (JArr l)
| va_spec j s : specifier_is j s -> valid SSpec j
| va_left t u j : valid t j -> valid (SEither t u) j
| va_right t u j : valid u j -> valid (SEither t u) j
| va_flags ps l : (forall n d v, In (n, d) ps -> In (n, v) l -> v = JNull \/ exists x, v = JBool x) -> valid (SFlags ps) (JObj l).
(** Flags that an object gives: its own, or the default. *)
Definition flags_are (ps : list (bstr * bool)) (l : list (bstr * json)) (fl : list (bstr * bool)) : Prop :=
  Forall2 (fun p q => fst p = fst q /\ (In (fst p, JBool (snd q)) l \/ (missing (fst p) l /\ snd q = snd p))) ps fl.
(** How the rule sees a value. *)
Inductive shows : sty -> json -> oval -> Prop :=
| sh_bool x : shows SBool (JBool x) (OBool x)
| sh_text s : shows SText (JStr s) (OStr s)
| sh_optional s : shows SText (JStr s) (OOpt (Some s))
| sh_enum ws s : shows (SEnum ws) (JStr s) (OOpt (Some s))
| sh_strings l : shows (SList SText) (JArr (map JStr l)) (OStrs l)
| sh_specifiers l ss : Forall2 specifier_is l ss -> shows (SList SSpec) (JArr l) (OSpecs ss)
| sh_any t u j : shows (SEither t u) j (OAny (Some j))
| sh_set t x : shows (SEither SBool t) (JBool x) (OSet x)
| sh_flags ps l fl : flags_are ps l fl -> shows (SEither SBool (SFlags ps)) (JObj l) (OObj fl).
(** How it sees that there is none. *)
Inductive silent : sty -> oval -> Prop :=
| si_text : silent SText (OOpt None)
| si_enum ws : silent (SEnum ws) (OOpt None)
| si_specifiers : silent (SList SSpec) (OSpecs [])
| si_either t u : silent (SEither t u) OUnset.
(** The value of a property in the members [l]: the one given, otherwise the default, if any. *)
Definition property_is (p : sprop) (l : list (bstr * json)) (v : oval) : Prop :=
  (exists j, In (p_name p, j) l /\ j <> JNull /\ shows (p_type p) j v) \/
  (missing (p_name p) l /\ match p_default p with Some d => shows (p_type p) d v | None => silent (p_type p) v end).
(** Options that follow the schema, with null as missing; no options are an empty object. *)
Inductive follows (ps : list sprop) : option json -> list (bstr * json) -> Prop :=
| fo_none : follows ps None []
| fo_null : follows ps (Some JNull) []
| fo_object l : unambiguous (JObj l) -> (forall p v, In p ps -> In (p_name p, v) l -> v = JNull \/ valid (p_type p) v) -> follows ps (Some (JObj l)) l.

(** ** The schemas *)
(** consistent_return/schema.json. *)
Definition schema_consistent_return : list sprop := [Property (b "treatUndefinedAsUnspecified") (SBool) (Some (JBool false))].
(** consistent_type_exports/schema.json. *)
Definition schema_consistent_type_exports : list sprop := [Property (b "fixMixedExportsWithInlineTypeSpecifier") (SBool) (Some (JBool false))].
(** dot_notation/schema.json. *)
Definition schema_dot_notation : list sprop := [Property (b "allowIndexSignaturePropertyAccess") (SBool) (Some (JBool false));
  Property (b "allowKeywords") (SBool) (Some (JBool true));
  Property (b "allowPattern") (SText) (Some (JStr []));
  Property (b "allowPrivateClassPropertyAccess") (SBool) (Some (JBool false));
  Property (b "allowProtectedClassPropertyAccess") (SBool) (Some (JBool false))].
(** no_base_to_string/schema.json. *)
Definition schema_no_base_to_string : list sprop := [Property (b "checkUnknown") (SBool) (Some (JBool false));
  Property (b "ignoredTypeNames") (SList (SText)) (Some (JArr [JStr (b "Error"); JStr (b "RegExp"); JStr (b "URL"); JStr (b "URLSearchParams")]))].
(** no_confusing_void_expression/schema.json. *)
Definition schema_no_confusing_void_expression : list sprop := [Property (b "ignoreArrowShorthand") (SBool) (Some (JBool false));
  Property (b "ignoreVoidOperator") (SBool) (Some (JBool false));
  Property (b "ignoreVoidReturningFunctions") (SBool) (Some (JBool false))].
(** no_deprecated/schema.json. *)
Definition schema_no_deprecated : list sprop := [Property (b "allow") (SList (SSpec)) (Some (JArr []))].
(** no_duplicate_type_constituents/schema.json. *)
Definition schema_no_duplicate_type_constituents : list sprop := [Property (b "ignoreIntersections") (SBool) (Some (JBool false));
  Property (b "ignoreUnions") (SBool) (Some (JBool false))].
(** no_floating_promises/schema.json. *)
Definition schema_no_floating_promises : list sprop := [Property (b "allowForKnownSafeCalls") (SList (SSpec)) (Some (JArr []));
  Property (b "allowForKnownSafePromises") (SList (SSpec)) (Some (JArr []));
  Property (b "checkThenables") (SBool) (Some (JBool false));
  Property (b "ignoreIIFE") (SBool) (Some (JBool false));
  Property (b "ignoreVoid") (SBool) (Some (JBool true))].
(** no_meaningless_void_operator/schema.json. *)
Definition schema_no_meaningless_void_operator : list sprop := [Property (b "checkNever") (SBool) (Some (JBool false))].
(** no_misused_promises/schema.json. *)
Definition schema_no_misused_promises : list sprop := [Property (b "checksConditionals") (SBool) (Some (JBool true));
  Property (b "checksSpreads") (SBool) (Some (JBool true));
  Property (b "checksVoidReturn") (SEither (SBool) (SFlags [(b "arguments", true); (b "attributes", true); (b "inheritedMethods", true); (b "properties", true); (b "returns", true); (b "variables", true)])) (Some (JBool true))].
(** no_misused_spread/schema.json. *)
Definition schema_no_misused_spread : list sprop := [Property (b "allow") (SList (SSpec)) None].
(** no_unnecessary_boolean_literal_compare/schema.json. *)
Definition schema_no_unnecessary_boolean_literal_compare : list sprop := [Property (b "allowComparingNullableBooleansToFalse") (SBool) (Some (JBool true));
  Property (b "allowComparingNullableBooleansToTrue") (SBool) (Some (JBool true))].
(** no_unnecessary_condition/schema.json. *)
Definition schema_no_unnecessary_condition : list sprop := [Property (b "allowConstantLoopConditions") (SEither (SBool) (SEnum [b "never"; b "always"; b "only-allowed-literals"])) (Some (JStr (b "never")));
  Property (b "checkTypePredicates") (SBool) (Some (JBool false))].
(** no_unnecessary_type_assertion/schema.json. *)
Definition schema_no_unnecessary_type_assertion : list sprop := [Property (b "checkLiteralConstAssertions") (SBool) (Some (JBool false));
  Property (b "typesToIgnore") (SList (SText)) (Some (JArr []))].
(** no_unsafe_member_access/schema.json. *)
Definition schema_no_unsafe_member_access : list sprop := [Property (b "allowOptionalChaining") (SBool) (Some (JBool false))].
(** only_throw_error/schema.json. *)
Definition schema_only_throw_error : list sprop := [Property (b "allow") (SList (SSpec)) (Some (JArr []));
  Property (b "allowRethrowing") (SBool) (Some (JBool true));
  Property (b "allowThrowingAny") (SBool) (Some (JBool true));
  Property (b "allowThrowingUnknown") (SBool) (Some (JBool true))].
(** prefer_nullish_coalescing/schema.json. *)
Definition schema_prefer_nullish_coalescing : list sprop := [Property (b "ignoreBooleanCoercion") (SBool) (Some (JBool false));
  Property (b "ignoreConditionalTests") (SBool) (Some (JBool true));
  Property (b "ignoreIfStatements") (SBool) (Some (JBool false));
  Property (b "ignoreMixedLogicalExpressions") (SBool) (Some (JBool false));
  Property (b "ignoreTernaryTests") (SBool) (Some (JBool false));
  Property (b "ignorePrimitives") (SEither (SBool) (SFlags [(b "bigint", false); (b "boolean", false); (b "number", false); (b "string", false)])) None].
(** prefer_optional_chain/schema.json. *)
Definition schema_prefer_optional_chain : list sprop := [Property (b "allowPotentiallyUnsafeFixesThatModifyTheReturnTypeIKnowWhatImDoing") (SBool) (Some (JBool false));
  Property (b "checkAny") (SBool) (Some (JBool true));
  Property (b "checkBigInt") (SBool) (Some (JBool true));
  Property (b "checkBoolean") (SBool) (Some (JBool true));
  Property (b "checkNumber") (SBool) (Some (JBool true));
  Property (b "checkString") (SBool) (Some (JBool true));
  Property (b "checkUnknown") (SBool) (Some (JBool true));
  Property (b "requireNullish") (SBool) (Some (JBool false))].
(** prefer_promise_reject_errors/schema.json. *)
Definition schema_prefer_promise_reject_errors : list sprop := [Property (b "allow") (SList (SSpec)) (Some (JArr []));
  Property (b "allowEmptyReject") (SBool) (Some (JBool false));
  Property (b "allowThrowingAny") (SBool) (Some (JBool false));
  Property (b "allowThrowingUnknown") (SBool) (Some (JBool false))].
(** prefer_readonly/schema.json. *)
Definition schema_prefer_readonly : list sprop := [Property (b "onlyInlineLambdas") (SBool) (Some (JBool false))].
(** prefer_readonly_parameter_types/schema.json. *)
Definition schema_prefer_readonly_parameter_types : list sprop := [Property (b "allow") (SList (SSpec)) (Some (JArr []));
  Property (b "checkParameterProperties") (SBool) (Some (JBool true));
  Property (b "ignoreInferredTypes") (SBool) (Some (JBool false));
  Property (b "treatMethodsAsReadonly") (SBool) (Some (JBool false))].
(** prefer_string_starts_ends_with/schema.json. *)
Definition schema_prefer_string_starts_ends_with : list sprop := [Property (b "allowSingleElementEquality") (SEnum [b "always"; b "never"]) None].
(** promise_function_async/schema.json. *)
Definition schema_promise_function_async : list sprop := [Property (b "allowAny") (SBool) (Some (JBool true));
  Property (b "allowedPromiseNames") (SList (SText)) (Some (JArr []));
  Property (b "checkArrowFunctions") (SBool) (Some (JBool true));
  Property (b "checkFunctionDeclarations") (SBool) (Some (JBool true));
  Property (b "checkFunctionExpressions") (SBool) (Some (JBool true));
  Property (b "checkMethodDeclarations") (SBool) (Some (JBool true))].
(** require_array_sort_compare/schema.json. *)
Definition schema_require_array_sort_compare : list sprop := [Property (b "ignoreStringArrays") (SBool) (Some (JBool true))].
(** restrict_plus_operands/schema.json. *)
Definition schema_restrict_plus_operands : list sprop := [Property (b "allowAny") (SBool) (Some (JBool true));
  Property (b "allowBoolean") (SBool) (Some (JBool true));
  Property (b "allowNullish") (SBool) (Some (JBool true));
  Property (b "allowNumberAndString") (SBool) (Some (JBool true));
  Property (b "allowRegExp") (SBool) (Some (JBool true));
  Property (b "skipCompoundAssignments") (SBool) (Some (JBool false))].
(** restrict_template_expressions/schema.json. *)
Definition schema_restrict_template_expressions : list sprop := [Property (b "allowAny") (SBool) (Some (JBool true));
  Property (b "allowArray") (SBool) (Some (JBool false));
  Property (b "allowBoolean") (SBool) (Some (JBool true));
  Property (b "allowNullish") (SBool) (Some (JBool true));
  Property (b "allowNumber") (SBool) (Some (JBool true));
  Property (b "allowRegExp") (SBool) (Some (JBool true));
  Property (b "allowNever") (SBool) (Some (JBool false));
  Property (b "allow") (SList (SSpec)) (Some (JArr [JObj [(b "from", JStr (b "lib")); (b "name", JArr [JStr (b "Error"); JStr (b "URL"); JStr (b "URLSearchParams")])]]))].
(** strict_boolean_expressions/schema.json. *)
Definition schema_strict_boolean_expressions : list sprop := [Property (b "allowAny") (SBool) (Some (JBool false));
  Property (b "allowNullableBoolean") (SBool) (Some (JBool false));
  Property (b "allowNullableNumber") (SBool) (Some (JBool false));
  Property (b "allowNullableString") (SBool) (Some (JBool false));
  Property (b "allowNullableEnum") (SBool) (Some (JBool false));
  Property (b "allowNullableObject") (SBool) (Some (JBool true));
  Property (b "allowString") (SBool) (Some (JBool true));
  Property (b "allowNumber") (SBool) (Some (JBool true))].
(** strict_void_return/schema.json. *)
Definition schema_strict_void_return : list sprop := [Property (b "allowReturnAny") (SBool) (Some (JBool false))].
(** switch_exhaustiveness_check/schema.json. *)
Definition schema_switch_exhaustiveness_check : list sprop := [Property (b "allowDefaultCaseForExhaustiveSwitch") (SBool) (Some (JBool true));
  Property (b "considerDefaultExhaustiveForUnions") (SBool) (Some (JBool false));
  Property (b "defaultCaseCommentPattern") (SText) None;
  Property (b "requireDefaultForNonUnion") (SBool) (Some (JBool false))].
(** unbound_method/schema.json. *)
Definition schema_unbound_method : list sprop := [Property (b "ignoreStatic") (SBool) (Some (JBool false))].
Definition schemas : list (bstr * list sprop) := [(b "consistent_return", schema_consistent_return);
  (b "consistent_type_exports", schema_consistent_type_exports);
  (b "dot_notation", schema_dot_notation);
  (b "no_base_to_string", schema_no_base_to_string);
  (b "no_confusing_void_expression", schema_no_confusing_void_expression);
  (b "no_deprecated", schema_no_deprecated);
  (b "no_duplicate_type_constituents", schema_no_duplicate_type_constituents);
  (b "no_floating_promises", schema_no_floating_promises);
  (b "no_meaningless_void_operator", schema_no_meaningless_void_operator);
  (b "no_misused_promises", schema_no_misused_promises);
  (b "no_misused_spread", schema_no_misused_spread);
  (b "no_unnecessary_boolean_literal_compare", schema_no_unnecessary_boolean_literal_compare);
  (b "no_unnecessary_condition", schema_no_unnecessary_condition);
  (b "no_unnecessary_type_assertion", schema_no_unnecessary_type_assertion);
  (b "no_unsafe_member_access", schema_no_unsafe_member_access);
  (b "only_throw_error", schema_only_throw_error);
  (b "prefer_nullish_coalescing", schema_prefer_nullish_coalescing);
  (b "prefer_optional_chain", schema_prefer_optional_chain);
  (b "prefer_promise_reject_errors", schema_prefer_promise_reject_errors);
  (b "prefer_readonly", schema_prefer_readonly);
  (b "prefer_readonly_parameter_types", schema_prefer_readonly_parameter_types);
  (b "prefer_string_starts_ends_with", schema_prefer_string_starts_ends_with);
  (b "promise_function_async", schema_promise_function_async);
  (b "require_array_sort_compare", schema_require_array_sort_compare);
  (b "restrict_plus_operands", schema_restrict_plus_operands);
  (b "restrict_template_expressions", schema_restrict_template_expressions);
  (b "strict_boolean_expressions", schema_strict_boolean_expressions);
  (b "strict_void_return", schema_strict_void_return);
  (b "switch_exhaustiveness_check", schema_switch_exhaustiveness_check);
  (b "unbound_method", schema_unbound_method)].
