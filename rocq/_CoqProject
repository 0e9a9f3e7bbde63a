-Q theories Verif
theories/Base.v
theories/Fields.v
theories/Spec.v
theories/Wildcard.v
theories/WildcardProofs.v
theories/MortonProofs.v
theories/MatchWcProofs.v
theories/Match.v
theories/MatchProofs.v
theories/HSProofs.v
theories/PropWildcard.v
theories/Bdd.v
theories/SpecBdd.v
theories/BddProofs.v
theories/CuddProofs.v
theories/BddApi.v
theories/PropBdd.v
theories/BddHeap.v
theories/BddHeapProofs.v
theories/PropBddHeap.v
theories/Actions.v
theories/SpecAction.v
theories/Foata.v
theories/ActionProofs.v
theories/SpecExec.v
theories/ExecProofs.v
theories/RedundantProofs.v
theories/PerOutputProofs.v
theories/SpecSet.v
theories/ActionSetProofs.v
theories/PropAction.v
theories/Rule.v
theories/Normalise.v
theories/SpecNormalise.v
theories/NormaliseProofs.v
theories/EagerProofs.v
theories/PropNormalise.v
theories/InstProofs.v
theories/Merge.v
theories/SingleTable.v
theories/SpecPipeline.v
theories/MergeProofs.v
theories/SingleTableProofs.v
theories/PriorityProofs.v
theories/PathProofs.v
theories/SpecTags.v
theories/TagProofs.v
theories/PropMerge.v
theories/PropSingle.v
theories/PropTags.v
theories/SpecTall.v
theories/TallProofs.v
theories/PropTall.v
theories/Text.v
theories/Format.v
theories/SpecText.v
theories/FormatProofs.v
theories/PropFormat.v
theories/Limits.v
theories/Fib.v
theories/Unique.v
theories/Reverse.v
theories/SpecMisc.v
theories/MiscProofs.v
theories/ReverseProofs.v
theories/PropMisc.v
theories/Deps.v
theories/SpecDeps.v
theories/DepsProofs.v
theories/DepsTable.v
theories/DepsAny.v
theories/PropDeps.v
theories/DepsIncProofs.v
theories/PropDepsInc.v
theories/DepsPrefixProofs.v
theories/PropDepsPrefix.v
theories/DepsMultiProofs.v
theories/PropDepsMulti.v
theories/DepsInd.v
theories/DepsIndProofs.v
theories/PropDepsInd.v
theories/SpecCompress.v
theories/Compress.v
theories/TreeProofs.v
theories/GroupProofs.v
theories/SelectProofs.v
theories/SimilarProofs.v
theories/PropCompress.v
theories/Hspace.v
theories/SpecHspace.v
theories/HspaceProofs.v
theories/HspaceMerge.v
theories/PropHspace.v
theories/SpecEager.v
theories/EagerSem.v
theories/PropEager.v
theories/Lazy.v
theories/SpecLazy.v
theories/LazyProofs.v
theories/PropLazy.v
theories/Layout.v
theories/SpecLayout.v
theories/LayoutProofs.v
theories/LayoutRules.v
theories/LayoutRulesProofs.v
theories/PropLayout.v
theories/HsString.v
theories/HsStringProofs.v
theories/PropHsString.v
theories/Ryu.v
theories/SpecRyu.v
theories/RyuProofs.v
theories/PropRyu.v
theories/Ovs.v
theories/OvsRegex.v
theories/SpecOvs.v
theories/OvsValues.v
theories/OvsActions.v
theories/OvsPieces.v
theories/OvsFlows.v
theories/OvsWrite.v
theories/OvsGroups.v
theories/PropOvs.v
theories/Load.v
theories/SpecLoad.v
theories/LoadProofs.v
theories/PropLoad.v
theories/CEngine.v
theories/SpecGc.v
theories/CEngineProofs.v
theories/CEngineRun.v
theories/PropGc.v
theories/SpecTallTable.v
theories/TallTable.v
theories/PropTallTable.v
theories/CuddRefs.v
theories/SpecCuddRefs.v
theories/CuddRefsProofs.v
theories/PropCuddRefs.v
theories/Ttp.v
theories/SpecTtp.v
theories/PropTtp.v
theories/HspaceDiff.v
theories/SpecHspaceDiff.v
theories/HspaceDiffProofs.v
theories/PropHspaceDiff.v
theories/Tool.v
theories/SpecTool.v
theories/ToolProofs.v
theories/PropTool.v
theories/SpecCompressTool.v
theories/CompressTool.v
theories/SelectTotal.v
theories/CompressToolProofs.v
theories/PropCompressTotal.v
theories/CompressFib.v
theories/PropCompressTool.v
theories/EqualRules.v
theories/Convert.v
theories/PropConvert.v
theories/ToolTotal.v
theories/PropToolTotal.v
theories/SpecFibTool.v
theories/FibTool.v
theories/PropFibTool.v
theories/PropConvertCheck.v
theories/LayoutCompress.v
theories/SpecLayoutCompress.v
theories/PropLayoutCompress.v
theories/LayoutFib.v
theories/PropLayoutFib.v
theories/Files.v
theories/SpecFiles.v
theories/PropFiles.v
theories/PathText.v
theories/SpecPathText.v
theories/PropPathText.v
theories/MatchText.v
theories/SpecMatchText.v
theories/PropMatchText.v
theories/RuleText.v
theories/SpecRuleText.v
theories/PropRuleText.v
theories/FilesAuto.v
theories/SpecFilesAuto.v
theories/PropFilesAuto.v
