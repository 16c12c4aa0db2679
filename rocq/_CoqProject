-Q theories Verif

theories/Base.v
theories/BaseFacts.v
theories/GoPath.v
theories/Utf8.v
theories/Quote.v
theories/SpecLit.v
theories/Types.v
theories/SpecTypes.v
theories/TypesFacts.v
theories/Imports.v
theories/SpecImports.v
theories/ImportsProofs.v
theories/ImportsTheorems.v
theories/PropImports.v
theories/LitProofs.v
theories/SpecGo.v
theories/SpecRender.v
theories/LexProofs.v
theories/TextProofs.v
theories/ParseProofs.v
theories/TextTheorems.v
theories/SpecText.v
theories/SpecDeclText.v
theories/TextExact.v
theories/SpecView.v
theories/TypesTheorems.v
theories/PropTypes.v
theories/UnicodeTables.v
theories/Names.v
theories/SpecNames.v
theories/NamesProofs.v
theories/PropNames.v
theories/Conv.v
theories/SpecConv.v
theories/ConvProofs.v
theories/ConvExact.v
theories/PropConv.v
theories/Fmt.v
theories/World.v
theories/SpecFile.v
theories/SpecDecl.v
theories/FileLexProofs.v
theories/QuoteProofs.v
theories/DeclParse.v
theories/DeclText.v
theories/FileTheorems.v
theories/SpecWorld.v
theories/WorldProofs.v
theories/DeclTheorems.v
theories/DeclExact.v
theories/SpecDoc.v
theories/DocProofs.v
theories/SpecSymbol.v
theories/SymbolProofs.v
theories/PropSymbol.v
theories/PropDoc.v
theories/PropFile.v
theories/SettleProofs.v
theories/QualifyProofs.v
theories/SpecQualify.v
theories/SpecShare.v
theories/QualifyTheorems.v
theories/SourceProofs.v
theories/SourceTheorems.v
theories/MeaningProofs.v
theories/UnsharedProofs.v
theories/QualifyExamples.v
theories/TurnProofs.v
theories/SharedProofs.v
theories/PropQualify.v
theories/Write.v
theories/SpecWrite.v
theories/WriteProofs.v
theories/HeaderProofs.v
theories/PathProofs.v
theories/PlaceProofs.v
theories/PropWrite.v
theories/Template.v
theories/SpecTemplate.v
theories/TemplateProofs.v
theories/TemplateRuns.v
theories/TemplateOrder.v
theories/TemplateTheorems.v
theories/TemplateExact.v
theories/PropTemplate.v
theories/SpecBuild.v
theories/BuildProofs.v
theories/BuildTypes.v
theories/BuildFiles.v
theories/BuildMeaning.v
theories/SpecBuildDoc.v
theories/BuildDocs.v
theories/PropBuild.v
theories/SpecCalls.v
theories/CallsProofs.v
theories/FromSpec.v
theories/PropCalls.v
theories/SpecProgram.v
theories/ProgramFrame.v
theories/ProgramCalls.v
theories/Golden.v
theories/Memory.v
theories/SpecMemory.v
theories/MemoryProofs.v
theories/MemoryQualify.v
theories/MemoryEdits.v
theories/MemoryShare.v
theories/ImportsExact.v
theories/MemoryTypes.v
theories/MemoryTheorems.v
theories/PropMemory.v
theories/SpecTotal.v
theories/TotalProofs.v
theories/TotalTheorems.v
theories/MethodTheorems.v
theories/BuildTotal.v
theories/TotalExamples.v
theories/PropTotal.v
theories/SpecFileTemplate.v
theories/FileTemplates.v
theories/TemplateOnce.v
theories/OnceTheorems.v
theories/QuietProofs.v
theories/TwiceTheorems.v
theories/BuildOnce.v
theories/BuildTemplates.v
theories/FileTemplateExamples.v
theories/PropFileTemplate.v
theories/ProgramProofs.v
theories/PropProgram.v
theories/Predeclared.v
theories/SpecPredeclared.v
theories/SpecFormat.v
theories/FormatProofs.v
theories/PredeclaredProofs.v
theories/PropFormat.v
theories/SpecMembers.v
theories/MemberFrame.v
theories/MemberCalls.v
theories/MemberProofs.v
theories/MemberTheorems.v
theories/MemberHistory.v
theories/MemberOwners.v
theories/MemberWriting.v
theories/PropMembers.v
theories/GoldenTypes.v
theories/IdiomProofs.v
theories/SpecTemplateText.v
theories/TemplateText.v
theories/TemplateTwice.v
theories/PropTemplateText.v
theories/TemplateMemory.v
theories/SpecTemplateMemory.v
theories/TemplateMemoryProofs.v
theories/TemplateMemoryTree.v
theories/TemplateMemoryKept.v
theories/SpecTemplateShared.v
theories/TemplateMemoryShared.v
theories/PropTemplateMemory.v
theories/SpecReferences.v
theories/ReferenceProofs.v
theories/PropReferences.v
theories/SpecScope.v
theories/ScopeProofs.v
theories/ScopeBuild.v
theories/UseProofs.v
theories/PropScope.v
theories/SpecCode.v
theories/CodeTokens.v
theories/CodeProofs.v
theories/CodeUse.v
theories/CodeExamples.v
theories/PropCode.v
theories/SpecAppend.v
theories/AppendProofs.v
theories/AppendText.v
theories/AppendTheorems.v
theories/AppendExamples.v
theories/PropAppend.v
theories/SpecArgs.v
theories/ArgsProofs.v
theories/PropArgs.v
theories/SpecOrder.v
theories/OrderProofs.v
theories/OrderText.v
theories/FirmProofs.v
theories/OrderTotal.v
theories/OrderExamples.v
theories/PropOrder.v
theories/SpecLocal.v
theories/LocalProofs.v
theories/OwnProofs.v
theories/AloneProofs.v
theories/LocalExamples.v
theories/SpecLocalData.v
theories/LocalTemplates.v
theories/LocalTemplateExamples.v
theories/PropLocal.v
theories/SpecTried.v
theories/TriedProofs.v
theories/PropTried.v
theories/AgainProofs.v
theories/AgainTheorems.v
theories/PropAgain.v
theories/SpecRetry.v
theories/RetryProofs.v
theories/RetryTemplates.v
theories/RetryExamples.v
theories/PropRetry.v
theories/SpecNil.v
theories/NilProofs.v
theories/PropNil.v
