-Q theories Verif
theories/Base.v
theories/Pus.v
theories/Machine.v
theories/PusParse.v
theories/PusCheck.v
theories/PusLift.v
theories/Runtime.v
theories/RuntimeSpec.v
theories/RuntimeProofs.v
theories/PusMore.v
theories/RuntimeMore.v
theories/Wrapper.v
theories/WrapperProofs.v
theories/Canon.v
theories/CanonSpec.v
theories/CanonProofs.v
theories/CanonMain.v
theories/CanonGen.v
theories/CanonProblem.v
theories/CanonMore.v
theories/Info.v
theories/Examples.v
theories/PropRuntime.v
theories/PropSession.v
theories/PropNeed.v
theories/PropCanon.v
theories/Config.v
theories/PropConfig.v
theories/Retrieve.v
theories/RetrieveProofs.v
theories/PropRetrieve.v
theories/Merge.v
theories/MergeProofs.v
theories/PropMerge.v
theories/Explicit.v
theories/ExplicitProofs.v
theories/ExplicitVars.v
theories/ExplicitGrad.v
theories/PropExplicit.v
theories/Sparse.v
theories/SparseProofs.v
theories/Ldl.v
theories/LdlRank1.v
theories/LdlProofs.v
theories/GradSpec.v
theories/LdlMain.v
theories/Gradient.v
theories/FactorProofs.v
theories/GradKkt.v
theories/Qdldl.v
theories/GradSolve.v
theories/GradKktSolve.v
theories/GradMain.v
theories/GradCall.v
theories/GradSession.v
theories/GradSessionProofs.v
theories/GradGen.v
theories/MaskProofs.v
theories/PropFactor.v
theories/GradVars.v
theories/GradTotal.v
theories/PropGrad.v
theories/PropTotal.v
theories/GradSens.v
theories/GradDeriv.v
theories/PropSens.v
theories/GradUser.v
theories/PropUser.v
theories/TwoStage.v
theories/TwoStageProofs.v
theories/PropTwoStage.v
theories/Literals.v
theories/LiteralsProofs.v
theories/PropLiterals.v
theories/Cones.v
theories/PropCones.v
theories/Symbols.v
theories/SymbolsProofs.v
theories/PropSymbols.v
theories/CExample.v
theories/CExampleProofs.v
theories/PropCExample.v
theories/Params.v
theories/ParamsProofs.v
theories/PropParams.v
theories/EndToEnd.v
theories/EndSpec.v
theories/EndProofs.v
theories/PropEnd.v
theories/ExplicitEnd.v
theories/ExplicitEndSpec.v
theories/ExplicitEndProofs.v
theories/PropExplicitEnd.v
theories/StoredVars.v
theories/StoredSpec.v
theories/StoredProofs.v
theories/PropStored.v
theories/Layer.v
theories/LayerSpec.v
theories/LayerProofs.v
theories/PropLayer.v
theories/Import.v
theories/ImportSpec.v
theories/ImportProofs.v
theories/PropImport.v
theories/CTypes.v
theories/CTypesSpec.v
theories/CTypesProofs.v
theories/PropCTypes.v
theories/Build.v
theories/BuildSpec.v
theories/BuildProofs.v
theories/BuildProofs2.v
theories/BuildProofs3.v
theories/BuildProofs4.v
theories/PropBuild.v
theories/ExplicitLayer.v
theories/ExplicitLayerSpec.v
theories/ExplicitLayerProofs.v
theories/PropExplicitLayer.v
theories/Binding.v
theories/BindingSpec.v
theories/BindingProofs.v
theories/BindingProofs2.v
theories/BindingProofs3.v
theories/BindingProofs4.v
theories/PropBinding.v
theories/Text.v
theories/TextSpec.v
theories/TextProofs.v
theories/TextProofs2.v
theories/PropText.v
theories/Report.v
theories/ReportSpec.v
theories/ReportProofs.v
theories/ReportProofs2.v
theories/ReportProofs3.v
theories/PropReport.v
theories/Readme.v
theories/ReadmeSpec.v
theories/ReadmeProofs.v
theories/ReadmeProofs2.v
theories/ReadmeProofs3.v
theories/ReadmeProofs4.v
theories/ReadmeProofs5.v
theories/PropReadme.v
theories/Stray.v
theories/StraySpec.v
theories/StrayProofs.v
theories/PropStray.v
theories/Objects.v
theories/ObjectsSpec.v
theories/ObjectsProofs.v
theories/PropObjects.v
theories/CMake.v
theories/CMakeSpec.v
theories/CMakeProofs.v
theories/PropCMake.v
theories/Units.v
theories/UnitsProofs.v
theories/UnitsNames.v
theories/UnitsDecl.v
theories/UnitsUses.v
theories/UnitsAll.v
theories/PropUnits.v
theories/Template.v
theories/TemplateText.v
theories/TemplateSpec.v
theories/TemplateCheck.v
theories/TemplateCtx.v
theories/TemplateKinds.v
theories/TemplateProofs.v
theories/TemplateAll.v
theories/TemplateDefs.v
theories/PropTemplate.v
theories/GradDims.v
theories/PropGradDims.v
