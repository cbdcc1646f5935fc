-Q theories Verif
theories/ModelBase.v
theories/ModelUtf8.v
theories/ModelRegex.v
theories/ModelLine.v
theories/ModelFormula.v
theories/ModelData.v
theories/ModelSource.v
theories/ModelReader.v
theories/ModelExample.v
theories/SpecExample.v
theories/ExampleFacts.v
theories/PropertiesExample.v
theories/ModelOrder.v
theories/SpecOrder.v
theories/OrderThms.v
theories/SpecGettext.v
theories/GettextFacts.v
theories/PropertiesGettext.v
theories/SpecManual.v
theories/ManualFacts.v
theories/ManualHuge.v
theories/PropertiesManual.v
theories/SpecEndless.v
theories/EndlessFacts.v
theories/SpecBare.v
theories/BareFacts.v
theories/BareWitness.v
theories/BareMore.v
theories/SpecRuntime.v
theories/RuntimeFacts.v
theories/PropertiesRuntime.v
theories/PropertiesBare.v
theories/ProgressFacts.v
theories/ForeverFacts.v
theories/ModelMachine.v
theories/ModelWork.v
theories/ModelMeter.v
theories/ModelLazy.v
theories/BaseFacts.v
theories/RegexFacts.v
theories/SpecLine.v
theories/SpecData.v
theories/LineFacts.v
theories/LineThms.v
theories/LineMore.v
theories/PropertiesLine.v
theories/SpecFormula.v
theories/FormulaFacts.v
theories/LexFacts.v
theories/FormulaThms.v
theories/EvalFacts.v
theories/DataFacts.v
theories/FormulaWitness.v
theories/PropertiesFormula.v
theories/SpecSource.v
theories/SourceFacts.v
theories/IterFacts.v
theories/SpecReader.v
theories/SpecBlock.v
theories/SpecError.v
theories/SpecHeader.v
theories/SpecFile.v
theories/DecFacts.v
theories/ReaderFacts.v
theories/ReadsFacts.v
theories/CatalogueFacts.v
theories/LocalFacts.v
theories/BlockFacts.v
theories/CommentFacts.v
theories/UnitFacts.v
theories/SoundFacts.v
theories/BlocksFacts.v
theories/FirstFacts.v
theories/FileFacts.v
theories/MapFacts.v
theories/HeaderFacts.v
theories/SpecWriter.v
theories/SplitFacts.v
theories/WriterFacts.v
theories/WritableFacts.v
theories/FileIntro.v
theories/BlockThms.v
theories/EntryThms.v
theories/CallFacts.v
theories/PieceFacts.v
theories/SpecAny.v
theories/AnyFacts.v
theories/AnyErrors.v
theories/SpecShape.v
theories/ShapeFacts.v
theories/PropertiesShape.v
theories/AnyParts.v
theories/PlaceFacts.v
theories/HeaderThms.v
theories/BlockWitness.v
theories/PropertiesBlock.v
theories/HeaderWitness.v
theories/SelectFacts.v
theories/RoundWitness.v
theories/PropertiesHeader.v
theories/CutFacts.v
theories/StreamFacts.v
theories/StreamThms.v
theories/PropertiesStream.v
theories/PropertiesRound.v
theories/CommonFacts.v
theories/IndepFacts.v
theories/PanicFacts.v
theories/ErrorFacts.v
theories/ErrorTextFacts.v
theories/PropertiesError.v
theories/AccessFacts.v
theories/PropertiesAccess.v
theories/SpecWork.v
theories/SpecMeter.v
theories/WorkFacts.v
theories/WorkThms.v
theories/WorkLinear.v
theories/WorkWitness.v
theories/MeterFacts.v
theories/PropertiesWork.v
theories/PropertiesMeter.v
theories/RepoTests.v
theories/SpecSize.v
theories/SizeFacts.v
theories/PropertiesMore.v
theories/SpecMachine.v
theories/MachineFacts.v
theories/PropertiesMachine.v
theories/SpecWhole.v
theories/WholeFacts.v
theories/ItemFacts.v
theories/WholeWitness.v
theories/PropertiesWhole.v
theories/SpecLazy.v
theories/LazyFacts.v
theories/FutureFacts.v
theories/LazyThms.v
theories/PlaceThms.v
theories/PropertiesLazy.v
theories/SpecUse.v
theories/UseFacts.v
theories/PropertiesUse.v
theories/PropertiesEndless.v
theories/SpecJoin.v
theories/JoinFacts.v
theories/PropertiesJoin.v
theories/SpecLayout.v
theories/LayoutFacts.v
theories/LayoutMore.v
theories/SpecSpelling.v
theories/SpellingFacts.v
theories/PropertiesLayout.v
theories/SpecBackslash.v
theories/BackslashFacts.v
theories/PropertiesBackslash.v
theories/SpecRule.v
theories/RuleFacts.v
theories/SpecRuleMore.v
theories/RuleMore.v
theories/PropertiesRule.v
theories/SpecExtracted.v
theories/ExtractedFacts.v
theories/FlagMore.v
theories/PropertiesExtracted.v
theories/PlatformFacts.v
theories/PropertiesPlatform.v
theories/SpecHead.v
theories/HeadFacts.v
theories/PropertiesHead.v
theories/SpecFlags.v
theories/FlagFacts.v
theories/NoteFacts.v
theories/PropertiesFlags.v
theories/CleanFacts.v
theories/PropertiesClean.v
theories/ModelParser.v
theories/SpecParser.v
theories/ParserFacts.v
theories/ParserThms.v
theories/PropertiesParser.v
theories/ModelSteps.v
theories/SpecSteps.v
theories/StepFacts.v
theories/PropertiesSteps.v
theories/ModelDiscard.v
theories/DiscardFacts.v
theories/PropertiesDiscard.v
theories/SpecSpacing.v
theories/SpacingFacts.v
theories/PropertiesSpacing.v
theories/PropertiesSpelling.v
theories/SpecMarks.v
theories/MarksFacts.v
theories/MarksMore.v
theories/PropertiesMarks.v
theories/FlagAny.v
theories/PropertiesFlagsAny.v
theories/SpecOutput.v
theories/OutputFacts.v
theories/PropertiesOutput.v
theories/SpecFault.v
theories/FaultFacts.v
theories/PropertiesFault.v
theories/SpecMemory.v
theories/MemoryFacts.v
theories/PropertiesMemory.v
theories/SpecCompiled.v
theories/CompiledFacts.v
theories/PropertiesCompiled.v
theories/SpecShown.v
theories/ShownFacts.v
theories/ShownWitness.v
theories/PropertiesShown.v
theories/ModelDebug.v
theories/DebugFacts.v
theories/DebugThms.v
theories/PropertiesDebug.v
theories/ModelReport.v
theories/SpecReport.v
theories/ReportFacts.v
theories/ReportThms.v
theories/ReportSize.v
theories/PropertiesReport.v
theories/SpecCalls.v
theories/CallWork.v
theories/PropertiesCalls.v
theories/SpecPattern.v
theories/PatternFacts.v
theories/PropertiesPattern.v
theories/SpecGrammar.v
theories/GrammarFacts.v
theories/PropertiesGrammar.v
theories/ModelProgram.v
theories/SpecProgram.v
theories/ProgramFacts.v
theories/PropertiesProgram.v
theories/CatalogueWitness.v
theories/InstanceFacts.v
theories/PropertiesInstances.v
theories/ModelPretty.v
theories/SpecPretty.v
theories/PrettyFacts.v
theories/PrettyThms.v
theories/PropertiesPretty.v
theories/SpecStitch.v
theories/StitchFacts.v
theories/StitchWitness.v
theories/PropertiesStitch.v
theories/SpecEscape.v
theories/EscapeFacts.v
theories/SpecFields.v
theories/FieldsFacts.v
theories/PropertiesEscape.v
theories/ModelDecoder.v
theories/SpecDecoder.v
theories/DecoderFacts.v
theories/DecoderMore.v
theories/PropertiesDecoder.v
theories/RepoTestsDecoder.v
theories/AnyItems.v
theories/CutUnits.v
theories/ValuesExact.v
theories/PropertiesItems.v
theories/SpecRetired.v
theories/RetiredFacts.v
theories/PropertiesRetired.v
theories/SpecSections.v
theories/SectionsFacts.v
theories/PropertiesSections.v
theories/SpecRearranged.v
theories/RearrangedFacts.v
theories/PropertiesRearranged.v
theories/SpecContent.v
theories/ContentFacts.v
theories/PropertiesContent.v
theories/SpecStatistics.v
theories/StatisticsFacts.v
theories/PropertiesStatistics.v
theories/SpecPicked.v
theories/PickedFacts.v
theories/PickedMore.v
theories/PropertiesPicked.v
theories/SpecCulprit.v
theories/CulpritFacts.v
theories/PropertiesCulprit.v
theories/SpecRenamed.v
theories/RenamedFacts.v
theories/RenamedThms.v
theories/RenamedWitness.v
theories/RenamedReport.v
theories/PropertiesRenamed.v
theories/ReportSame.v
theories/PropertiesReportSame.v
theories/ReportLayout.v
theories/PropertiesReportLayout.v
theories/SpecPossible.v
theories/PossibleFacts.v
theories/PossibleWitness.v
theories/PropertiesPossible.v
theories/SpecBadEnds.v
theories/PlaceErrors.v
theories/BadEndFacts.v
theories/PropertiesBadEnds.v
theories/SpecBadTexts.v
theories/BadTextFacts.v
theories/PropertiesBadTexts.v
theories/LateErrors.v
theories/TightErrors.v
theories/JointFacts.v
theories/PropertiesJoint.v
