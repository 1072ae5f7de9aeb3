-Q theories Verif
theories/Base.v
theories/BaseProofs.v
theories/PatternModel.v
theories/MatchingModel.v
theories/MatchingSpec.v
theories/MatchingProofs.v
theories/MatchingProperties.v
theories/Orders.v
theories/ValueModel.v
theories/ValueProofs.v
theories/LayoutModel.v
theories/HydrateModel.v
theories/HydrateSpec.v
theories/HydrateProofs.v
theories/HydrateSound.v
theories/HydrateDet.v
theories/HydrateComplete.v
theories/TermModel.v
theories/LayoutSpec.v
theories/HydratePost.v
theories/HydrateProperties.v
theories/HydrateExamples.v
theories/DehydrateModel.v
theories/DehydrateSpec.v
theories/DehydrateProofs.v
theories/DehydrateEmits.v
theories/DehydrateSim.v
theories/DehydrateOutcomes.v
theories/DehydrateEnds.v
theories/DehydrateFinish.v
theories/DehydrateProperties.v
theories/DehydrateExamples.v
theories/CharModel.v
theories/AutomatonModel.v
theories/AutomatonSpec.v
theories/AutomatonProofs.v
theories/AutomatonDet.v
theories/AutomatonTerm.v
theories/CharSpec.v
theories/CharProofs.v
theories/AutomatonProduct.v
theories/AutomatonMap.v
theories/AutomatonReach.v
theories/AutomatonMin.v
theories/AutomatonProperties.v
theories/AutomatonExamples.v
theories/DehydrateFits.v
theories/AutomatonEdges.v
theories/RegexpModel.v
theories/RegexpSpec.v
theories/RegexpBuild.v
theories/RegexpParse.v
theories/RegexpLang.v
theories/RegexpRead.v
theories/RegexpCompile.v
theories/RegexpProperties.v
theories/RegexpExamples.v
theories/TextPatternExamples.v
theories/NumberModel.v
theories/NumberSpec.v
theories/NumberProofs.v
theories/NumberProperties.v
theories/JsonModel.v
theories/JsonSpec.v
theories/JsonProperties.v
theories/CborModel.v
theories/CborSpec.v
theories/CborProperties.v
theories/RegistryProperties.v
theories/RegistryExamples.v
theories/AbsModel.v
theories/AbsSpec.v
theories/AbsProofs.v
theories/AbsProperties.v
theories/AbsMeaning.v
theories/AbsRedefine.v
theories/AbsScoping.v
theories/AbsExamples.v
theories/AbsJsonModel.v
theories/AbsJsonSpec.v
theories/AbsJsonProofs.v
theories/AbsJsonProperties.v
theories/AbsJsonExamples.v
theories/GenDataModel.v
theories/GenDataSpec.v
theories/GenDataProperties.v
theories/GenDataExamples.v
theories/RoundTripSpec.v
theories/RoundTripWrites.v
theories/RoundTripRun.v
theories/RoundTripMeans.v
theories/RoundTripProperties.v
theories/RoundTripExamples.v
theories/AbsRegistry.v
theories/AbsRegistryExamples.v
theories/GenModel.v
theories/GenSpec.v
theories/GenProofs.v
theories/GenProperties.v
theories/GenExamples.v
theories/GenSerModel.v
theories/GenSerSpec.v
theories/GenSerWrites.v
theories/GenSerReads.v
theories/GenSerProofs.v
theories/GenSerProperties.v
theories/GenSerExamples.v
theories/AttrModel.v
theories/AttrSpec.v
theories/AttrProofs.v
theories/AttrProperties.v
theories/AttrDerive.v
theories/AttrExamples.v
theories/CodeGenModel.v
theories/AbsAcceptSpec.v
theories/AbsAccept.v
theories/AbsAcceptExamples.v
theories/CodeGenSpec.v
theories/CodeGenProofs.v
theories/CodeGenProperties.v
theories/CodeGenExamples.v
theories/AbsSerdeModel.v
theories/AbsSerdeSpec.v
theories/AbsSerdeProofs.v
theories/AbsSerdeBack.v
theories/AbsSerdeAgree.v
theories/AbsSerdeTotal.v
theories/AbsSerdeProperties.v
theories/AbsSerdeExamples.v
theories/PreludeModel.v
theories/PreludeSpec.v
theories/PreludeProofs.v
theories/PreludeProperties.v
theories/PreludeExamples.v
theories/RegexpGood.v
theories/CliModel.v
theories/CliSpec.v
theories/CliProofs.v
theories/CliMono.v
theories/CliProperties.v
theories/CliData.v
theories/CliDataProperties.v
theories/CliCodec.v
theories/CliExamples.v
theories/GenWrittenSpec.v
theories/GenWritten.v
theories/GenWrittenProperties.v
theories/GenWrittenExamples.v
theories/UndefinedProperties.v
theories/UndefinedExamples.v
theories/DisplayModel.v
theories/DisplaySpec.v
theories/DisplayProperties.v
theories/DisplayExamples.v
theories/GenProgModel.v
theories/GenProgSpec.v
theories/AbsAnonymous.v
theories/AbsSerdeGood.v
theories/GenProgProofs.v
theories/GenProgProperties.v
theories/GenProgExamples.v
theories/SumProperties.v
theories/TextPatternProperties.v
theories/SumExamples.v
theories/LocalProperties.v
theories/LocalRoundTrip.v
theories/LocalExamples.v
theories/NumberRange.v
theories/NumberRangeExamples.v
theories/OtherDataProperties.v
theories/RenameProperties.v
theories/OtherDataExamples.v
theories/DehydrateUnique.v
theories/DehydrateUniqueProperties.v
theories/DehydrateUniqueExamples.v
theories/PositionModel.v
theories/PositionSpec.v
theories/PositionProofs.v
theories/PositionProperties.v
theories/PositionExamples.v
theories/PresetTypeProperties.v
theories/IdentProperties.v
theories/WriteBackSpec.v
theories/WriteBackProofs.v
theories/WriteBackProperties.v
theories/WriteBackExamples.v
theories/VariableModel.v
theories/VariableSpec.v
theories/VariableProofs.v
theories/VariableProperties.v
theories/VariableExamples.v
theories/CombineModel.v
theories/CombineSpec.v
theories/CombineProofs.v
theories/CombineProperties.v
theories/CombineExamples.v
theories/DistillTests.v
theories/MainModel.v
theories/MainSpec.v
theories/MainProofs.v
theories/MainProperties.v
theories/MainExamples.v
theories/ExtraModel.v
theories/ExtraSpec.v
theories/ExtraProofs.v
theories/ExtraProperties.v
theories/ExtraExamples.v
theories/DehydrateClash.v
theories/DehydrateClashExamples.v
theories/LayoutSerdeModel.v
theories/LayoutSerdeSpec.v
theories/LayoutSerdeProofs.v
theories/LayoutSerdeProperties.v
theories/LayoutSerdeExamples.v
theories/ReorderSpec.v
theories/ReorderProofs.v
theories/ReorderDehydrate.v
theories/ReorderProperties.v
theories/ReorderExamples.v
theories/AlphaSpec.v
theories/AlphaProofs.v
theories/AlphaProperties.v
theories/AlphaExamples.v
theories/CliLost.v
theories/CborReadModel.v
theories/CborReadSpec.v
theories/CborReadProofs.v
theories/CborReadProperties.v
theories/CborReadExamples.v
theories/RelabelSpec.v
theories/RelabelProofs.v
theories/RelabelProperties.v
theories/RelabelExamples.v
theories/RelabelBuild.v
theories/RelabelFiles.v
theories/FilesSpec.v
theories/FilesProperties.v
theories/FilesExamples.v
theories/CliExtraModel.v
theories/CliExtraSpec.v
theories/CliExtraProofs.v
theories/CliExtraProperties.v
theories/RelabelExtra.v
theories/FilesCborProperties.v
theories/CliExtraExamples.v
theories/PartitionModel.v
theories/PartitionProperties.v
theories/PartitionExamples.v
theories/MapIdsModel.v
theories/MapIdsProperties.v
theories/FloatModel.v
theories/FloatSpec.v
theories/FloatProperties.v
theories/FloatExamples.v
theories/SerdeDocSpec.v
theories/SerdeDocProofs.v
theories/SerdeDocLeaves.v
theories/SerdeDocNested.v
theories/SerdeDocBody.v
theories/SerdeDocProperties.v
theories/SerdeDocExamples.v
theories/LayoutDocSpec.v
theories/LayoutDocProofs.v
theories/LayoutDocProperties.v
theories/LayoutDocExamples.v
theories/LayoutDocTotal.v
theories/HintModel.v
theories/HintSpec.v
theories/HintProofs.v
theories/HintProperties.v
theories/HintExamples.v
theories/FaultSpec.v
theories/FaultProofs.v
theories/FaultProperties.v
theories/FaultExamples.v
theories/AcceptSpec.v
theories/AcceptProofs.v
theories/AcceptProperties.v
theories/AcceptExamples.v
theories/TakenSpec.v
theories/TakenProofs.v
theories/TakenProperties.v
theories/TakenExamples.v
theories/AmbiguityProperties.v
theories/AmbiguityExamples.v
theories/CompiledProofs.v
theories/CompiledProperties.v
theories/CompiledExamples.v
theories/TakenSums.v
theories/TakenSumsExamples.v
theories/NumberText.v
theories/NormalLiterals.v
theories/NormalLiteralsExamples.v
theories/WrittenBack.v
theories/WrittenBackExamples.v
theories/ReadAgain.v
theories/ReadAgainExamples.v
theories/ReadAgainTrees.v
theories/ReadAgainTreesExamples.v
