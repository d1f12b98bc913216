-Q theories Verif
theories/GoStr.v
theories/Escape.v
theories/SpecLex.v
theories/SpecSpace.v
theories/EscapeProofs.v
theories/GoStrProofs.v
theories/Num.v
theories/NumProofs.v
theories/PropertiesText.v
theories/VTree.v
theories/WellKeyed.v
theories/VTreeProofs.v
theories/VTreeSim.v
theories/Ast.v
theories/SpecDoc.v
theories/SpecPrint.v
theories/DocProofs.v
theories/PrintProofs.v
theories/Alloc.v
theories/AllocProofs.v
theories/RenderProofs.v
theories/ReuseProofs.v
theories/PropertiesRender.v
theories/PropertiesColumns.v
theories/SpecCond.v
theories/SpecOrder.v
theories/Cond.v
theories/CondProofs.v
theories/PropertiesCond.v
theories/CondExact.v
theories/PropertiesOrder.v
theories/GoVal.v
theories/Maps.v
theories/SpecMap.v
theories/MapProofs.v
theories/PropertiesMap.v
theories/Queries.v
theories/PropertiesQuery.v
theories/Builder.v
theories/SpecBuilder.v
theories/BuilderProofs.v
theories/SpecErrors.v
theories/BuilderErrors.v
theories/BuilderText.v
theories/PropertiesBuilder.v
theories/PropertiesReturns.v
theories/Slices.v
theories/HeapCond.v
theories/HeapCondProofs.v
theories/PropertiesHeap.v
theories/Patterns.v
theories/SpecPattern.v
theories/PatternProofs.v
theories/ChainProofs.v
theories/PropertiesPattern.v
theories/Cases.v
theories/Exprs.v
theories/Functions.v
theories/PropertiesCase.v
theories/SpecBrackets.v
theories/BracketProofs.v
theories/SpecLeaves.v
theories/PropertiesBrackets.v
theories/SliceProofs.v
theories/HeapBuilder.v
theories/SpecPersist.v
theories/HeapBuilderProofs.v
theories/PersistProofs.v
theories/AgainProofs.v
theories/PropertiesPersist.v
theories/SpecExpr.v
theories/ReadProofs.v
theories/WrittenProofs.v
theories/SpecCalls.v
theories/ExprProofs.v
theories/FunctionProofs.v
theories/PropertiesExpr.v
theories/PropertiesCalls.v
theories/PropertiesShort.v
theories/Variants.v
theories/PropertiesVariants.v
theories/SpecNum.v
theories/NumRead.v
theories/PropertiesNum.v
theories/SpecTokens.v
theories/TokenProofs.v
theories/TokenTexts.v
theories/SpecShape.v
theories/TokenDocs.v
theories/TokenPrint.v
theories/PropertiesTokens.v
theories/SpecOutline.v
theories/SpecClauses.v
theories/OutlineProofs.v
theories/OutlinePrint.v
theories/PropertiesOutline.v
theories/SpecPhrases.v
theories/BuilderOutline.v
theories/PropertiesPhrases.v
theories/Concurrent.v
theories/SpecConcurrent.v
theories/ConcurrentProofs.v
theories/PropertiesConcurrent.v
theories/SpecGoroutines.v
theories/GoroutineProofs.v
theories/PropertiesGoroutines.v
theories/SpecGrammar.v
theories/SpecReading.v
theories/GrammarDocs.v
theories/GrammarProofs.v
theories/GrammarLemmas.v
theories/GrammarParts.v
theories/GrammarPatterns.v
theories/GrammarClauses.v
theories/ReadingProofs.v
theories/ReadingClauses.v
theories/ReadingStatements.v
theories/DottedNames.v
theories/PropertiesGrammar.v
theories/SpecStrings.v
theories/ParserMono.v
theories/ParserErase.v
theories/StringProofs.v
theories/PropertiesStrings.v
theories/SpecCalled.v
theories/PhrasePlaces.v
theories/CalledProofs.v
theories/PropertiesCalled.v
theories/SpecTruth.v
theories/TruthProofs.v
theories/PropertiesTruth.v
theories/PropertiesSame.v
theories/SpecUses.v
theories/UsesDocs.v
theories/UsesPrint.v
theories/PropertiesUses.v
theories/SpecAsked.v
theories/AskedProofs.v
theories/PropertiesAsked.v
theories/SpecDrawn.v
theories/DrawnProofs.v
theories/DrawnClauses.v
theories/PropertiesDrawn.v
theories/SpecUnited.v
theories/UnitedProofs.v
theories/PropertiesUnited.v
theories/SpecNested.v
theories/NestedProofs.v
theories/PropertiesNested.v
theories/SpecPanic.v
theories/Asking.v
theories/PropertiesPanic.v
theories/SpecUsed.v
theories/UsedProofs.v
theories/PropertiesUsed.v
theories/SpecExtend.v
theories/ExtendProofs.v
theories/PropertiesExtend.v
theories/PropertiesSaid.v
theories/SpecJoined.v
theories/JoinedProofs.v
theories/PropertiesJoined.v
theories/PropertiesInner.v
theories/PropertiesApart.v
