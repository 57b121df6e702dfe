-Q theories Verif
theories/Prelude.v
theories/Version.v
theories/VersionProofs.v
theories/Search.v
theories/SearchProofs.v
theories/Strings.v
theories/ValidateErr.v
theories/Native.v
theories/Split.v
theories/Lineage.v
theories/LineageProofs.v
theories/Toy.v
theories/WalkProofs.v
theories/GoLensProofs.v
theories/VersionFacts.v
theories/PropertiesVersion.v
theories/BindFacts.v
theories/PropertiesBind.v
theories/WalkFacts.v
theories/WalkDupProofs.v
theories/PropertiesWalk.v
theories/NativeProofs.v
theories/PropertiesNative.v
theories/Translate.v
theories/TranslateGoProofs.v
theories/TranslateCueProofs.v
theories/TranslateFacts.v
theories/PropertiesTranslate.v
theories/Vmux.v
theories/VmuxProofs.v
theories/PropertiesVmux.v
theories/ValidateProofs.v
theories/TypedFacts.v
theories/PropertiesValidate.v
theories/SplitProofs.v
theories/SplitFacts.v
theories/PropertiesSplit.v
theories/Paths.v
theories/Util.v
theories/UtilProofs.v
theories/PropertiesUtil.v
theories/Rewrite.v
theories/RewriteProofs.v
theories/PropertiesRewrite.v
theories/Locks.v
theories/LockProofs.v
theories/PropertiesLocks.v
theories/JSchema.v
theories/JSchemaProofs.v
theories/JSchemaSem.v
theories/PropertiesJSchema.v
theories/Oapi.v
theories/OapiProofs.v
theories/PropertiesOapi.v
theories/Cli.v
theories/CliProofs.v
theories/PropertiesCli.v
theories/Gocode.v
theories/GocodeProofs.v
theories/GocodeFacts.v
theories/GocodeSweepProofs.v
theories/GocodeReachProofs.v
theories/GocodeUnderProofs.v
theories/PropertiesGocode.v
theories/CueFrag.v
theories/CueSem.v
theories/CueProofs.v
theories/Compat.v
theories/CompatFacts.v
theories/PropertiesCompat.v
theories/Assign.v
theories/AssignSem.v
theories/AssignProofs.v
theories/AssignFacts.v
theories/AssignPathProofs.v
theories/PropertiesAssign.v
theories/Hydrate.v
theories/HydrateSem.v
theories/HydrateProofs.v
theories/HydrateFacts.v
theories/DehydrateFacts.v
theories/DehydrateExact.v
theories/UnifyProofs.v
theories/HydrateDeep.v
theories/HydrateErr.v
theories/PropertiesHydrate.v
theories/CueEval.v
theories/CueEvalSem.v
theories/CueEvalProofs.v
theories/CueKeepProofs.v
theories/CueOrderProofs.v
theories/CuePinProofs.v
theories/CueEvalFacts.v
theories/CueEvalBind.v
theories/CueEvalWitness.v
theories/PropertiesCueEval.v
theories/Load.v
theories/LoadProofs.v
theories/PropertiesLoad.v
theories/CliGen.v
theories/CliGenProofs.v
theories/PropertiesCliGen.v
theories/Init.v
theories/InitProofs.v
theories/PropertiesInit.v
theories/CueAst.v
theories/CueAstProofs.v
theories/CueAstFacts.v
theories/PropertiesCueAst.v
theories/GenName.v
theories/GenNameProofs.v
theories/GenConstProofs.v
theories/GenSpellProofs.v
theories/GenCommentProofs.v
theories/PropertiesGenName.v
theories/GenType.v
theories/GenTypeSpec.v
theories/GenTypeProofs.v
theories/GenDeclProofs.v
theories/GenEnumProofs.v
theories/GenMergeProofs.v
theories/GenEmbedProofs.v
theories/GenTypeFacts.v
theories/PropertiesGenType.v
theories/GoJson.v
theories/GoJsonSpec.v
theories/GoJsonProofs.v
theories/GoJsonFacts.v
theories/PropertiesGoJson.v
theories/GoComment.v
theories/GoCommentProofs.v
theories/GoCommentFacts.v
theories/PropertiesGoComment.v
theories/ComposeFacts.v
theories/PropertiesCompose.v
theories/VmuxAgainFacts.v
theories/PropertiesVmuxAgain.v
theories/TypeScript.v
theories/TypeScriptProofs.v
theories/PropertiesTypeScript.v
theories/GenFile.v
theories/GenUnionSpec.v
theories/GenUnionProofs.v
theories/GenUnionDocProofs.v
theories/GenUnionFacts.v
theories/PropertiesGenUnion.v
theories/Join.v
theories/JoinSem.v
theories/JoinProofs.v
theories/Traverse.v
theories/JoinFacts.v
theories/JoinWitness.v
theories/PropertiesJoin.v
theories/GuaranteeProofs.v
theories/GuaranteeWitness.v
theories/PropertiesGuarantee.v
theories/GrowthProofs.v
theories/GrowthWitness.v
theories/PropertiesGrowth.v
theories/Authoring.v
theories/AuthoringProofs.v
theories/AuthoringWitness.v
theories/AuthoringFacts.v
theories/PropertiesAuthoring.v
theories/OrderProofs.v
theories/PropertiesOrder.v
theories/BindErrorProofs.v
theories/BindErrorFacts.v
theories/CliHintProofs.v
theories/PropertiesBindErrors.v
theories/Prune.v
theories/PruneProofs.v
theories/PruneWitness.v
theories/PropertiesPrune.v
theories/Exemplars.v
theories/ExemplarProofs.v
theories/ExemplarExpand.v
theories/ExemplarFacts.v
theories/PropertiesExemplars.v
theories/GenGlobals.v
theories/GenGlobalsProofs.v
theories/PropertiesGenGlobals.v
theories/GenImports.v
theories/GenImportsProofs.v
theories/GenImportsFacts.v
theories/PropertiesGenImports.v
theories/AssignText.v
theories/AssignTextFacts.v
theories/PropertiesAssignText.v
theories/Utf8Proofs.v
theories/InputMap.v
theories/InputMapProofs.v
theories/PropertiesInputMap.v
theories/Uri.v
theories/UriProofs.v
theories/PropertiesUri.v
theories/Once.v
theories/OnceProofs.v
theories/PropertiesOnce.v
theories/GenRefProofs.v
theories/PropertiesGenRef.v
theories/GenTag.v
theories/GenTagProofs.v
theories/GenTagFacts.v
theories/PropertiesGenTag.v
theories/OpFilter.v
theories/OpFilterProofs.v
theories/OpFilterWitness.v
theories/PropertiesOpFilter.v
theories/EmbedSpec.v
theories/EmbedSpecProofs.v
theories/PropertiesEmbedSpec.v
theories/OpDefs.v
theories/OpDefsProofs.v
theories/OpDefsWitness.v
theories/PropertiesOpDefs.v
theories/RespCase.v
theories/RespCaseSpec.v
theories/RespCaseProofs.v
theories/RespCaseNotes.v
theories/RespCaseWitness.v
theories/PropertiesRespCase.v
theories/OpBodies.v
theories/OpBodiesSpec.v
theories/OpBodiesProofs.v
theories/OpBodiesNames.v
theories/OpBodiesWitness.v
theories/PropertiesOpBodies.v
theories/GenMergeDeep.v
theories/PropertiesGenMerge.v
theories/ParamTypes.v
theories/ParamTypesSpec.v
theories/ParamTypesProofs.v
theories/ParamTypesWitness.v
theories/PropertiesParamTypes.v
theories/OldMerge.v
theories/OldMergeSpec.v
theories/OldMergeProofs.v
theories/OldMergeWitness.v
theories/PropertiesOldMerge.v
theories/SliceParams.v
theories/SliceParamsSpec.v
theories/SliceParamsProofs.v
theories/PropertiesSliceParams.v
theories/OpSummary.v
theories/OpSummarySpec.v
theories/OpSummaryProofs.v
theories/PropertiesOpSummary.v
theories/ScopeConst.v
theories/ScopeConstProofs.v
theories/PropertiesScopeConst.v
