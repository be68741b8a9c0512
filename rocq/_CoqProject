-Q theories Verif
theories/Base.v
theories/Fixer.v
theories/FixerSpec.v
theories/FixerProofs.v
theories/FixerDisjoint.v
theories/PropsFixer.v
theories/Stream.v
theories/StreamSpec.v
theories/StreamProofs.v
theories/PropsStream.v
theories/Visit.v
theories/VisitSpec.v
theories/VisitProofs.v
theories/PropsVisit.v
theories/Engine.v
theories/EngineSpec.v
theories/EngineProofs.v
theories/PropsEngine.v
theories/Report.v
theories/ReportSpec.v
theories/ReportProofs.v
theories/PropsReport.v
theories/Pool.v
theories/PoolSpec.v
theories/PoolProofs.v
theories/PropsPool.v
theories/Timing.v
theories/TimingSpec.v
theories/TimingProofs.v
theories/PropsTiming.v
theories/Bfs.v
theories/BfsSpec.v
theories/BfsProofs.v
theories/TsConfig.v
theories/TsConfigSpec.v
theories/TsConfigProofs.v
theories/PLookup.v
theories/PLookupProofs.v
theories/PropsConfig.v
theories/TsDiag.v
theories/TsDiagSpec.v
theories/TsDiagProofs.v
theories/Run.v
theories/RunSpec.v
theories/RunProofs.v
theories/PropsRun.v
theories/Payload.v
theories/PayloadSpec.v
theories/PayloadProofs.v
theories/PropsPayload.v
theories/Overlay.v
theories/PropsOverlay.v
theories/Utf8.v
theories/JsText.v
theories/Utf8Proofs.v
theories/JsTextProofs.v
theories/Quote.v
theories/PropsQuote.v
theories/JsRegex.v
theories/JsRegexProofs.v
theories/Includes.v
theories/PropsIncludes.v
theories/JsString.v
theories/JsStringProofs.v
theories/StartsEnds.v
theories/StartsEndsProofs.v
theories/PropsStartsEnds.v
theories/JsTemplate.v
theories/Template.v
theories/TemplateProofs.v
theories/TemplateValueProofs.v
theories/TemplateEditProofs.v
theories/PropsTemplate.v
theories/Types.v
theories/StrictBool.v
theories/StrictBoolProofs.v
theories/StrictBoolWalk.v
theories/PropsStrictBool.v
theories/Switch.v
theories/PropsSwitch.v
theories/PropsSwitchText.v
theories/UnsafeAny.v
theories/PropsUnsafeAny.v
theories/Snapshot.v
theories/PropsSnapshotOrder.v
theories/PropsSnapshotFile.v
theories/Specifier.v
theories/PropsSpecifier.v
theories/SpecMatch.v
theories/PropsSpecMatch.v
theories/PropsSpecSource.v
theories/Options.v
theories/OptionsSchema.v
theories/PropsOptions.v
theories/PropsOptionsUse.v
theories/Print.v
theories/PrintSpec.v
theories/PrintProofs.v
theories/PrintBoxProofs.v
theories/PrintRowProofs.v
theories/PropsPrint.v
theories/FixOne.v
theories/JsExpr.v
theories/JsExprProofs.v
theories/BoolCompare.v
theories/BoolCompareProofs.v
theories/PropsBoolCompare.v
theories/ConsistentReturn.v
theories/PropsConsistentReturn.v
theories/RequireAwait.v
theories/PropsRequireAwait.v
theories/Js.v
theories/JsProofs.v
theories/TypeConversion.v
theories/TypeConversionProofs.v
theories/PropsTypeConversion.v
theories/DuplicateTypes.v
theories/DuplicateTypesSpec.v
theories/DuplicateTypesProofs.v
theories/DuplicateTypesFix.v
theories/PropsDuplicateTypes.v
theories/FixMany.v
theories/DotNotation.v
theories/DotNotationSpec.v
theories/DotNotationProofs.v
theories/DotNotationFix.v
theories/PropsDotNotation.v
theories/RedundantTypes.v
theories/RedundantTypesSpec.v
theories/RedundantTypesProofs.v
theories/RedundantTypesMeaning.v
theories/PropsRedundantTypes.v
theories/Condition.v
theories/ConditionSpec.v
theories/ConditionProofs.v
theories/ConditionRuleProofs.v
theories/PropsCondition.v
theories/Floating.v
theories/FloatingSpec.v
theories/FloatingProofs.v
theories/FloatingWorlds.v
theories/PropsFloating.v
theories/Readonly.v
theories/ReadonlySpec.v
theories/ReadonlyProofs.v
theories/PropsReadonly.v
theories/Params.v
theories/ParamsSpec.v
theories/ParamsProofs.v
theories/PropsParams.v
theories/Stringify.v
theories/StringifySpec.v
theories/StringifyProofs.v
theories/PropsStringify.v
theories/Nullish.v
theories/NullishSpec.v
theories/NullishProofs.v
theories/PropsNullish.v
theories/OptChain.v
theories/OptChainSpec.v
theories/OptChainProofs.v
theories/OptChainReport.v
theories/OptChainReading.v
theories/PropsOptChain.v
theories/OptChainOrSpec.v
theories/OptChainOr.v
theories/PropsOptChainOr.v
theories/OptEmpty.v
theories/OptEmptySpec.v
theories/OptEmptyProofs.v
theories/PropsOptEmpty.v
theories/ReturnAwait.v
theories/ReturnAwaitSpec.v
theories/ReturnAwaitProofs.v
theories/PropsReturnAwait.v
theories/TypeExports.v
theories/TypeExportsSpec.v
theories/TypeExportsProofs.v
theories/PropsTypeExports.v
theories/PreferFind.v
theories/PreferFindSpec.v
theories/PreferFindProofs.v
theories/PropsPreferFind.v
theories/VoidExpr.v
theories/VoidExprSpec.v
theories/VoidExprProofs.v
theories/PropsVoidExpr.v
theories/UselessDefault.v
theories/UselessDefaultSpec.v
theories/UselessDefaultProofs.v
theories/PropsUselessDefault.v
theories/UnsafeArgument.v
theories/UnsafeArgumentSpec.v
theories/UnsafeArgumentProofs.v
theories/PropsUnsafeArgument.v
theories/UnsafeAssignment.v
theories/UnsafeAssignmentSpec.v
theories/UnsafeAssignmentProofs.v
theories/PropsUnsafeAssignment.v
theories/EnumComparison.v
theories/EnumComparisonSpec.v
theories/EnumComparisonProofs.v
theories/PropsEnumComparison.v
theories/TypeParameters.v
theories/TypeParametersSpec.v
theories/TypeParametersProofs.v
theories/TypeParametersFix.v
theories/TypeParametersFixSpec.v
theories/TypeParametersFixProofs.v
theories/PropsTypeParameters.v
theories/UnnecessaryQualifier.v
theories/UnnecessaryQualifierSpec.v
theories/UnnecessaryQualifierProofs.v
theories/PropsUnnecessaryQualifier.v
theories/MixedEnums.v
theories/MixedEnumsSpec.v
theories/MixedEnumsProofs.v
theories/PropsMixedEnums.v
theories/AccessorPairs.v
theories/AccessorPairsSpec.v
theories/AccessorPairsProofs.v
theories/PropsAccessorPairs.v
theories/TypeArguments.v
theories/TypeArgumentsSpec.v
theories/TypeArgumentsProofs.v
theories/PropsTypeArguments.v
theories/UnboundMethod.v
theories/UnboundMethodSpec.v
theories/UnboundMethodProofs.v
theories/PropsUnboundMethod.v
theories/PromiseFunction.v
theories/PromiseFunctionSpec.v
theories/PromiseFunctionProofs.v
theories/PropsPromiseFunction.v
theories/PlusOperands.v
theories/PlusOperandsSpec.v
theories/PlusOperandsProofs.v
theories/PropsPlusOperands.v
theories/AwaitThenable.v
theories/AwaitThenableSpec.v
theories/AwaitThenableProofs.v
theories/PropsAwaitThenable.v
theories/RegexpExec.v
theories/RegexpExecSpec.v
theories/RegexpExecProofs.v
theories/PropsRegexpExec.v
theories/ReturnThis.v
theories/ReturnThisSpec.v
theories/ReturnThisProofs.v
theories/PropsReturnThis.v
theories/VoidReturn.v
theories/VoidReturnSpec.v
theories/VoidReturnProofs.v
theories/PropsVoidReturn.v
theories/FixPieces.v
theories/NonNullStyle.v
theories/NonNullStyleSpec.v
theories/NonNullStyleProofs.v
theories/PropsNonNullStyle.v
theories/ArrayDelete.v
theories/ArrayDeleteSpec.v
theories/ArrayDeleteProofs.v
theories/PropsArrayDelete.v
theories/ReduceParam.v
theories/ReduceParamSpec.v
theories/ReduceParamProofs.v
theories/PropsReduceParam.v
theories/MemberAccess.v
theories/MemberAccessSpec.v
theories/MemberAccessProofs.v
theories/PropsMemberAccess.v
theories/UseUnknown.v
theories/UseUnknownSpec.v
theories/UseUnknownProofs.v
theories/PropsUseUnknown.v
theories/MisusedSpread.v
theories/MisusedSpreadSpec.v
theories/MisusedSpreadProofs.v
theories/PropsMisusedSpread.v
theories/BuiltinLike.v
theories/BuiltinLikeSpec.v
theories/BuiltinLikeProofs.v
theories/PropsBuiltinLike.v
theories/TypeContains.v
theories/TypeContainsSpec.v
theories/TypeContainsProofs.v
theories/PropsTypeContains.v
theories/AssertionFix.v
theories/AssertionFixSpec.v
theories/AssertionFixProofs.v
theories/PropsAssertionFix.v
theories/AssertionCheck.v
theories/AssertionCheckSpec.v
theories/AssertionCheckProofs.v
theories/PropsAssertionCheck.v
theories/ImpliedEval.v
theories/ImpliedEvalSpec.v
theories/ImpliedEvalProofs.v
theories/PropsImpliedEval.v
theories/ThrowError.v
theories/ThrowErrorSpec.v
theories/ThrowErrorProofs.v
theories/PropsThrowError.v
theories/UnsafeReturn.v
theories/UnsafeReturnSpec.v
theories/UnsafeReturnProofs.v
theories/PropsUnsafeReturn.v
theories/UnsafeCall.v
theories/UnsafeCallSpec.v
theories/UnsafeCallProofs.v
theories/PropsUnsafeCall.v
theories/TypeParts.v
theories/TypePartsSpec.v
theories/TypePartsProofs.v
theories/PropsTypeParts.v
theories/Deprecated.v
theories/DeprecatedSpec.v
theories/DeprecatedProofs.v
theories/PropsDeprecated.v
theories/VoidOperator.v
theories/VoidOperatorSpec.v
theories/VoidOperatorProofs.v
theories/PropsVoidOperator.v
theories/PatternSource.v
theories/PatternSourceSpec.v
theories/PatternSourceProofs.v
theories/PropsPatternSource.v
theories/PromiseTests.v
theories/PromiseTestsSpec.v
theories/PromiseTestsProofs.v
theories/PropsPromiseTests.v
theories/VoidArgs.v
theories/VoidArgsSpec.v
theories/VoidArgsProofs.v
theories/PropsVoidArgs.v
theories/VoidPlaces.v
theories/VoidPlacesSpec.v
theories/VoidPlacesProofs.v
theories/PropsVoidPlaces.v
theories/AssertionContext.v
theories/AssertionContextSpec.v
theories/AssertionContextProofs.v
theories/PropsAssertionContext.v
theories/NestedArrays.v
theories/NestedArraysSpec.v
theories/NestedArraysProofs.v
theories/PropsNestedArrays.v
theories/Unchanged.v
theories/UnchangedSpec.v
theories/UnchangedProofs.v
theories/PropsUnchanged.v
theories/ParameterUses.v
theories/ParameterUsesSpec.v
theories/ParameterUsesProofs.v
theories/PropsParameterUses.v
theories/ChainCheck.v
theories/ChainCheckSpec.v
theories/ChainCheckProofs.v
theories/PropsChainCheck.v
theories/GuardCalls.v
theories/GuardCallsSpec.v
theories/GuardCallsProofs.v
theories/PropsGuardCalls.v
theories/Terminal.v
theories/TerminalSpec.v
theories/TerminalProofs.v
theories/PropsTerminal.v
theories/RuleTester.v
theories/RuleTesterSpec.v
theories/RuleTesterProofs.v
theories/PropsRuleTester.v
theories/VoidReturnPlaces.v
theories/VoidReturnPlacesSpec.v
theories/VoidReturnPlacesProofs.v
theories/PropsVoidReturnPlaces.v
theories/SourceUnderline.v
theories/SourceUnderlineSpec.v
theories/SourceUnderlineProofs.v
theories/PropsSourceUnderline.v
theories/SnapshotText.v
theories/SnapshotTextSpec.v
theories/SnapshotTextProofs.v
theories/PropsSnapshotText.v
