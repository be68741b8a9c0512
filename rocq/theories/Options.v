(** Model of the rule options: the generated internal/rules/*/options.go, [UnmarshalOptions] and [BoolOr] of
    internal/utils/utils.go 196-315, and the rules that look into an untyped option.

    Documents and the decoder library's rules are those of Payload.v.  Encoding follows the library too: an
    [omitempty] member is left out when its JSON value is null or an empty string, list or object, so [false] is
    written.  Simplification as there: numbers in untyped values are kept as literals. *)
From Coq Require Import String Ascii Bool List ZArith.
From Verif Require Import Base Payload Specifier.
Import ListNotations.
Open Scope Z_scope.

(** The Go types of the fields: bool, string, []string, []TypeOrValueSpecifier, interface{}, *string, a pointer to a
    string with an [UnmarshalJSON] that only takes some values, [BoolOr] of a struct of bools (with defaults). *)
Inductive kind := KBool | KStr | KStrs | KSpecs | KAny | KOptStr | KOptEnum (ws : list bstr) | KBoolOr (ps : list (bstr * bool)).
(** Their values; a nil slice is the empty list.  [OUnset], [OSet] and [OObj] are the values of [BoolOr]. *)
Inductive oval :=
| OBool (x : bool) | OStr (s : bstr) | OStrs (l : list bstr) | OSpecs (l : list specifier) | OAny (o : option json)
| OOpt (o : option bstr) | OUnset | OSet (x : bool) | OObj (l : list (bstr * bool)).
(** A field of an options struct: JSON name, type, what [UnmarshalJSON] sets when it is missing, [omitempty]. *)
Record ofield := Fld { f_name : bstr; f_kind : kind; f_default : option oval; f_omit : bool }.

(** [if v, ok := raw[n]; !ok || v == nil { plain.F = default }]; [raw] is the document as a map. *)
Definition given {A : Type} (raw : list (bstr * json)) (n : bstr) (default v : A) : A :=
  match member n raw with None => default | Some JNull => default | Some _ => v end.
(** [UnmarshalJSON] of a struct of bools: prefer_nullish_coalescing/options.go 23-47, no_misused_promises/options.go
    28-58. *)
Definition dec_flags (ps : list (bstr * bool)) : json -> option (list (bstr * bool)) := dec_struct (fun l =>
  traverse (fun p => match field l (fst p) dec_bool false with Some x => Some (fst p, given l (fst p) (snd p) x) | None => None end) ps).
(** utils.go 262-286 [BoolOr.UnmarshalJSON]: what does not fit is unset. *)
Definition dec_bool_or (ps : list (bstr * bool)) (j : json) : oval :=
  match j with
  | JNull => OUnset
  | JBool x => OSet x
  | _ => match dec_flags ps j with Some l => OObj l | None => OUnset end
  end.
(** prefer_string_starts_ends_with/options.go 25-43, below a pointer. *)
Definition dec_enum (ws : list bstr) (j : json) : option (option bstr) :=
  match j with
  | JNull => Some None
  | _ => match dec_string j with Some s => if existsb (fun w => beqb s w) ws then Some (Some s) else None | None => None end
  end.
(** The value of a decoded field, for example internal/rules/no_floating_promises/options.go 7-23. *)
Definition lift {A : Type} (c : A -> oval) (o : option A) : option oval := match o with Some x => Some (c x) | None => None end.
(** The decoder of the type of a field, as declared in the same struct. *)
Definition dec_kind (k : kind) (j : json) : option oval :=
  match k with
  | KBool => lift OBool (dec_bool j)
  | KStr => lift OStr (dec_string j)
  | KStrs => lift OStrs (dec_slice dec_string j)
  | KSpecs => lift OSpecs (dec_slice dec_specifier j)
  | KAny => lift OAny (dec_any j)
  | KOptStr => lift OOpt (dec_pointer j)
  | KOptEnum ws => lift OOpt (dec_enum ws j)
  | KBoolOr ps => Some (dec_bool_or ps j)
  end.
(** Go's zero value of that type. *)
Definition zero (k : kind) : oval :=
  match k with
  | KBool => OBool false | KStr => OStr [] | KStrs => OStrs [] | KSpecs => OSpecs [] | KAny => OAny None
  | KOptStr => OOpt None | KOptEnum _ => OOpt None | KBoolOr _ => OUnset
  end.
(** [UnmarshalJSON] of an options struct, for example no_floating_promises/options.go 28-55; a struct without the
    method has no defaults. *)
Definition dec_options (fs : list ofield) : json -> option (list (bstr * oval)) := dec_struct (fun l =>
  traverse (fun f =>
    match field l (f_name f) (dec_kind (f_kind f)) (zero (f_kind f)) with
    | Some v => Some (f_name f, match f_default f with Some d => given l (f_name f) d v | None => v end)
    | None => None
    end) fs).
(** utils.go 199-212 [UnmarshalOptions] for options that came from JSON; nil is written as null. *)
Definition unmarshal_options (fs : list ofield) (options : option json) : res (list (bstr * oval)) :=
  match unmarshal (dec_options fs) (Some (match options with Some j => j | None => JNull end)) with
  | Some v => Ok v
  | None => Panic
  end.

(** [json.Marshal] of an options struct. *)
Definition enc_value (v : oval) : option json :=
  match v with
  | OBool x => Some (JBool x)
  | OStr s => Some (JStr s)
  | OStrs l => Some (JArr (map JStr l))
  | OSpecs l => match traverse enc_specifier l with Some js => Some (JArr js) | None => None end
  | OAny None => Some JNull
  | OAny (Some j) => Some j
  | OOpt None => Some JNull
  | OOpt (Some s) => Some (JStr s)
  | OUnset => Some JNull
  | OSet x => Some (JBool x)
  | OObj l => Some (JObj (map (fun p => (fst p, JBool (snd p))) l))
  end.
(** What [omitempty] in the tags of the same structs leaves out. *)
Definition empty_json (j : json) : bool :=
  match j with JNull => true | JStr [] => true | JArr [] => true | JObj [] => true | _ => false end.
(** The members of an options struct, in the order of its fields. *)
Fixpoint enc_members (fs : list ofield) (vs : list (bstr * oval)) : option (list (bstr * json)) :=
  match fs, vs with
  | f :: fs', (_, v) :: vs' =>
      match enc_value v, enc_members fs' vs' with
      | Some j, Some l => Some (if f_omit f && empty_json j then l else (f_name f, j) :: l)
      | _, _ => None
      end
  | _, _ => Some []
  end.
(** utils.go 200 [json.Marshal(options)] of the struct. *)
Definition enc_options (fs : list ofield) (vs : list (bstr * oval)) : option json :=
  match enc_members fs vs with Some l => Some (JObj l) | None => None end.
(** utils.go 199-212 for options given as the struct. *)
Definition unmarshal_typed (fs : list ofield) (vs : list (bstr * oval)) : res (list (bstr * oval)) :=
  match enc_options fs vs with Some j => unmarshal_options fs (Some j) | None => Panic end.

(** ** The structs *)
(** consistent_return/options.go 7-29. *)
Definition options_consistent_return : list ofield := [Fld (b "treatUndefinedAsUnspecified") KBool (Some (OBool false)) true].
(** consistent_type_exports/options.go 7-29. *)
Definition options_consistent_type_exports : list ofield := [Fld (b "fixMixedExportsWithInlineTypeSpecifier") KBool (Some (OBool false)) true].
(** dot_notation/options.go 7-55. *)
Definition options_dot_notation : list ofield := [Fld (b "allowIndexSignaturePropertyAccess") KBool (Some (OBool false)) true;
  Fld (b "allowKeywords") KBool (Some (OBool true)) true;
  Fld (b "allowPattern") KStr (Some (OStr [])) true;
  Fld (b "allowPrivateClassPropertyAccess") KBool (Some (OBool false)) true;
  Fld (b "allowProtectedClassPropertyAccess") KBool (Some (OBool false)) true].
(** no_base_to_string/options.go 7-39. *)
Definition options_no_base_to_string : list ofield := [Fld (b "checkUnknown") KBool (Some (OBool false)) true;
  Fld (b "ignoredTypeNames") KStrs (Some (OStrs [b "Error"; b "RegExp"; b "URL"; b "URLSearchParams"])) true].
(** no_confusing_void_expression/options.go 7-42. *)
Definition options_no_confusing_void_expression : list ofield := [Fld (b "ignoreArrowShorthand") KBool (Some (OBool false)) true;
  Fld (b "ignoreVoidOperator") KBool (Some (OBool false)) true;
  Fld (b "ignoreVoidReturningFunctions") KBool (Some (OBool false)) true].
(** no_deprecated/options.go 8-29. *)
Definition options_no_deprecated : list ofield := [Fld (b "allow") KSpecs (Some (OSpecs [])) true].
(** no_duplicate_type_constituents/options.go 7-34. *)
Definition options_no_duplicate_type_constituents : list ofield := [Fld (b "ignoreIntersections") KBool (Some (OBool false)) true;
  Fld (b "ignoreUnions") KBool (Some (OBool false)) true].
(** no_floating_promises/options.go 8-55. *)
Definition options_no_floating_promises : list ofield := [Fld (b "allowForKnownSafeCalls") KSpecs (Some (OSpecs [])) true;
  Fld (b "allowForKnownSafePromises") KSpecs (Some (OSpecs [])) true;
  Fld (b "checkThenables") KBool (Some (OBool false)) true;
  Fld (b "ignoreIIFE") KBool (Some (OBool false)) true;
  Fld (b "ignoreVoid") KBool (Some (OBool true)) true].
(** no_meaningless_void_operator/options.go 7-28. *)
Definition options_no_meaningless_void_operator : list ofield := [Fld (b "checkNever") KBool (Some (OBool false)) true].
(** no_misused_promises/options.go 7-58 [ChecksVoidReturnOptions]. *)
Definition flags_void_return : list (bstr * bool) := [(b "arguments", true); (b "attributes", true); (b "inheritedMethods", true); (b "properties", true); (b "returns", true); (b "variables", true)].
(** no_misused_promises/options.go 60-93. *)
Definition options_no_misused_promises : list ofield := [Fld (b "checksConditionals") KBool (Some (OBool true)) true;
  Fld (b "checksSpreads") KBool (Some (OBool true)) true;
  Fld (b "checksVoidReturn") KAny (Some (OAny (Some (JBool true)))) true].
(** no_misused_spread/options.go 7-10. *)
Definition options_no_misused_spread : list ofield := [Fld (b "allow") KSpecs None true].
(** no_unnecessary_boolean_literal_compare/options.go 7-36. *)
Definition options_no_unnecessary_boolean_literal_compare : list ofield := [Fld (b "allowComparingNullableBooleansToFalse") KBool (Some (OBool true)) true;
  Fld (b "allowComparingNullableBooleansToTrue") KBool (Some (OBool true)) true].
(** no_unnecessary_condition/options.go 7-35. *)
Definition options_no_unnecessary_condition : list ofield := [Fld (b "allowConstantLoopConditions") KAny (Some (OAny (Some (JStr (b "never"))))) true;
  Fld (b "checkTypePredicates") KBool (Some (OBool false)) true].
(** no_unnecessary_type_assertion/options.go 7-34. *)
Definition options_no_unnecessary_type_assertion : list ofield := [Fld (b "checkLiteralConstAssertions") KBool (Some (OBool false)) true;
  Fld (b "typesToIgnore") KStrs (Some (OStrs [])) true].
(** no_unsafe_member_access/options.go 7-28. *)
Definition options_no_unsafe_member_access : list ofield := [Fld (b "allowOptionalChaining") KBool (Some (OBool false)) true].
(** only_throw_error/options.go 8-47. *)
Definition options_only_throw_error : list ofield := [Fld (b "allow") KSpecs (Some (OSpecs [])) true;
  Fld (b "allowRethrowing") KBool (Some (OBool true)) true;
  Fld (b "allowThrowingAny") KBool (Some (OBool true)) true;
  Fld (b "allowThrowingUnknown") KBool (Some (OBool true)) true].
(** prefer_nullish_coalescing/options.go 8-47 [IgnorePrimitivesOptions]. *)
Definition flags_primitives : list (bstr * bool) := [(b "bigint", false); (b "boolean", false); (b "number", false); (b "string", false)].
(** prefer_nullish_coalescing/options.go 49-101. *)
Definition options_prefer_nullish_coalescing : list ofield := [Fld (b "ignoreBooleanCoercion") KBool (Some (OBool false)) true;
  Fld (b "ignoreConditionalTests") KBool (Some (OBool true)) true;
  Fld (b "ignoreIfStatements") KBool (Some (OBool false)) true;
  Fld (b "ignoreMixedLogicalExpressions") KBool (Some (OBool false)) true;
  Fld (b "ignorePrimitives") (KBoolOr flags_primitives) None true;
  Fld (b "ignoreTernaryTests") KBool (Some (OBool false)) true].
(** prefer_optional_chain/options.go 7-78. *)
Definition options_prefer_optional_chain : list ofield := [Fld (b "allowPotentiallyUnsafeFixesThatModifyTheReturnTypeIKnowWhatImDoing") KBool (Some (OBool false)) true;
  Fld (b "checkAny") KBool (Some (OBool true)) true;
  Fld (b "checkBigInt") KBool (Some (OBool true)) true;
  Fld (b "checkBoolean") KBool (Some (OBool true)) true;
  Fld (b "checkNumber") KBool (Some (OBool true)) true;
  Fld (b "checkString") KBool (Some (OBool true)) true;
  Fld (b "checkUnknown") KBool (Some (OBool true)) true;
  Fld (b "requireNullish") KBool (Some (OBool false)) true].
(** prefer_promise_reject_errors/options.go 8-48. *)
Definition options_prefer_promise_reject_errors : list ofield := [Fld (b "allow") KSpecs (Some (OSpecs [])) true;
  Fld (b "allowEmptyReject") KBool (Some (OBool false)) true;
  Fld (b "allowThrowingAny") KBool (Some (OBool false)) true;
  Fld (b "allowThrowingUnknown") KBool (Some (OBool false)) true].
(** prefer_readonly/options.go 7-29. *)
Definition options_prefer_readonly : list ofield := [Fld (b "onlyInlineLambdas") KBool (Some (OBool false)) true].
(** prefer_readonly_parameter_types/options.go 8-47. *)
Definition options_prefer_readonly_parameter_types : list ofield := [Fld (b "allow") KSpecs (Some (OSpecs [])) true;
  Fld (b "checkParameterProperties") KBool (Some (OBool true)) true;
  Fld (b "ignoreInferredTypes") KBool (Some (OBool false)) true;
  Fld (b "treatMethodsAsReadonly") KBool (Some (OBool false)) true].
(** prefer_string_starts_ends_with/options.go 9-12. *)
Definition options_prefer_string_starts_ends_with : list ofield := [Fld (b "allowSingleElementEquality") (KOptEnum [b "always"; b "never"]) None true].
(** promise_function_async/options.go 7-61. *)
Definition options_promise_function_async : list ofield := [Fld (b "allowAny") KBool (Some (OBool true)) true;
  Fld (b "allowedPromiseNames") KStrs (Some (OStrs [])) true;
  Fld (b "checkArrowFunctions") KBool (Some (OBool true)) true;
  Fld (b "checkFunctionDeclarations") KBool (Some (OBool true)) true;
  Fld (b "checkFunctionExpressions") KBool (Some (OBool true)) true;
  Fld (b "checkMethodDeclarations") KBool (Some (OBool true)) true].
(** require_array_sort_compare/options.go 7-28. *)
Definition options_require_array_sort_compare : list ofield := [Fld (b "ignoreStringArrays") KBool (Some (OBool true)) true].
(** restrict_plus_operands/options.go 7-58. *)
Definition options_restrict_plus_operands : list ofield := [Fld (b "allowAny") KBool (Some (OBool true)) true;
  Fld (b "allowBoolean") KBool (Some (OBool true)) true;
  Fld (b "allowNullish") KBool (Some (OBool true)) true;
  Fld (b "allowNumberAndString") KBool (Some (OBool true)) true;
  Fld (b "allowRegExp") KBool (Some (OBool true)) true;
  Fld (b "skipCompoundAssignments") KBool (Some (OBool false)) true].
(** restrict_template_expressions/options.go 8-76. *)
Definition options_restrict_template_expressions : list ofield := [Fld (b "allow") KSpecs (Some (OSpecs [Spec FLib [b "Error"; b "URL"; b "URLSearchParams"] [] []])) false;
  Fld (b "allowAny") KBool (Some (OBool true)) true;
  Fld (b "allowArray") KBool (Some (OBool false)) true;
  Fld (b "allowBoolean") KBool (Some (OBool true)) true;
  Fld (b "allowNever") KBool (Some (OBool false)) true;
  Fld (b "allowNullish") KBool (Some (OBool true)) true;
  Fld (b "allowNumber") KBool (Some (OBool true)) true;
  Fld (b "allowRegExp") KBool (Some (OBool true)) true].
(** strict_boolean_expressions/options.go 7-71. *)
Definition options_strict_boolean_expressions : list ofield := [Fld (b "allowAny") KBool (Some (OBool false)) true;
  Fld (b "allowNullableBoolean") KBool (Some (OBool false)) true;
  Fld (b "allowNullableEnum") KBool (Some (OBool false)) true;
  Fld (b "allowNullableNumber") KBool (Some (OBool false)) true;
  Fld (b "allowNullableObject") KBool (Some (OBool true)) true;
  Fld (b "allowNullableString") KBool (Some (OBool false)) true;
  Fld (b "allowNumber") KBool (Some (OBool true)) true;
  Fld (b "allowString") KBool (Some (OBool true)) true].
(** strict_void_return/options.go 7-28. *)
Definition options_strict_void_return : list ofield := [Fld (b "allowReturnAny") KBool (Some (OBool false)) true].
(** switch_exhaustiveness_check/options.go 7-44. *)
Definition options_switch_exhaustiveness_check : list ofield := [Fld (b "allowDefaultCaseForExhaustiveSwitch") KBool (Some (OBool true)) true;
  Fld (b "considerDefaultExhaustiveForUnions") KBool (Some (OBool false)) true;
  Fld (b "defaultCaseCommentPattern") KOptStr None true;
  Fld (b "requireDefaultForNonUnion") KBool (Some (OBool false)) true].
(** unbound_method/options.go 7-28. *)
Definition options_unbound_method : list ofield := [Fld (b "ignoreStatic") KBool (Some (OBool false)) true].
(** The rules with an options object, by directory. *)
Definition tables : list (bstr * list ofield) := [(b "consistent_return", options_consistent_return);
  (b "consistent_type_exports", options_consistent_type_exports);
  (b "dot_notation", options_dot_notation);
  (b "no_base_to_string", options_no_base_to_string);
  (b "no_confusing_void_expression", options_no_confusing_void_expression);
  (b "no_deprecated", options_no_deprecated);
  (b "no_duplicate_type_constituents", options_no_duplicate_type_constituents);
  (b "no_floating_promises", options_no_floating_promises);
  (b "no_meaningless_void_operator", options_no_meaningless_void_operator);
  (b "no_misused_promises", options_no_misused_promises);
  (b "no_misused_spread", options_no_misused_spread);
  (b "no_unnecessary_boolean_literal_compare", options_no_unnecessary_boolean_literal_compare);
  (b "no_unnecessary_condition", options_no_unnecessary_condition);
  (b "no_unnecessary_type_assertion", options_no_unnecessary_type_assertion);
  (b "no_unsafe_member_access", options_no_unsafe_member_access);
  (b "only_throw_error", options_only_throw_error);
  (b "prefer_nullish_coalescing", options_prefer_nullish_coalescing);
  (b "prefer_optional_chain", options_prefer_optional_chain);
  (b "prefer_promise_reject_errors", options_prefer_promise_reject_errors);
  (b "prefer_readonly", options_prefer_readonly);
  (b "prefer_readonly_parameter_types", options_prefer_readonly_parameter_types);
  (b "prefer_string_starts_ends_with", options_prefer_string_starts_ends_with);
  (b "promise_function_async", options_promise_function_async);
  (b "require_array_sort_compare", options_require_array_sort_compare);
  (b "restrict_plus_operands", options_restrict_plus_operands);
  (b "restrict_template_expressions", options_restrict_template_expressions);
  (b "strict_boolean_expressions", options_strict_boolean_expressions);
  (b "strict_void_return", options_strict_void_return);
  (b "switch_exhaustiveness_check", options_switch_exhaustiveness_check);
  (b "unbound_method", options_unbound_method)].

(** ** Untyped options *)

(** no_misused_promises.go 87-119: the checks of void returns that are on.  [None]: the nil pointer. *)
Definition void_return (o : option json) : bool * option (list (bstr * bool)) :=
  let all := map (fun p => (fst p, true)) flags_void_return in
  match o with
  | None => (true, Some all)
  | Some (JBool x) => (x, if x then Some all else None)
  | Some (JObj l) => (true, match dec_flags flags_void_return (JObj l) with Some fl => Some fl | None => Some all end)
  | Some _ => (true, None)
  end.
(** Lines 901 and 924-945. *)
Definition checks_void_return (o : option json) (n : bstr) : bool :=
  let '(on, fl) := void_return o in
  on && match fl with Some fl => existsb (fun p => beqb (fst p) n && snd p) fl | None => false end.
(** no_unnecessary_condition.go 2071-2090, on values that came from JSON. *)
Definition loop_mode (o : option json) : bstr :=
  match o with
  | Some (JStr s) => s
  | Some (JBool true) => b "always"
  | _ => b "never"
  end.
(** Lines 1690-1701: whether a constant loop condition is let through; [literal] is [isAllowedConstantLiteral],
    [constant_true] whether the condition is [true] or of that type. *)
Definition loop_allowed (mode : bstr) (literal constant_true : bool) : bool :=
  if beqb mode (b "only-allowed-literals") && literal then true
  else beqb mode (b "always") && constant_true.
(** prefer_nullish_coalescing.go 332-350: the primitive types that are ignored. *)
Definition ignores_primitive (v : oval) (n : bstr) : bool :=
  match v with
  | OSet true => existsb (fun p => beqb (fst p) n) flags_primitives
  | OObj l => existsb (fun p => beqb (fst p) n && snd p) l
  | _ => false
  end.
(** return_await/options.go 23-47 with [UnmarshalOptions]. *)
Definition return_await_values : list bstr := [b "always"; b "error-handling-correctness-only"; b "in-try-catch"; b "never"].
Definition return_await_option (options : option json) : res bstr :=
  match options with
  | None => Ok (b "in-try-catch")
  | Some JNull => Ok (b "in-try-catch")
  | Some j => match dec_string j with Some s => if existsb (fun w => beqb s w) return_await_values then Ok s else Panic | None => Panic end
  end.
(** return_await.go 56-82. *)
Inductive whether := DontCare | Await | NoAwait.
Definition whether_to_await (affects : bool) (option : bstr) : res whether :=
  if beqb option (b "always") then Ok Await
  else if beqb option (b "error-handling-correctness-only") then Ok (if affects then Await else DontCare)
  else if beqb option (b "in-try-catch") then Ok (if affects then Await else NoAwait)
  else if beqb option (b "never") then Ok NoAwait
  else Panic.
