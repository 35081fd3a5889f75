-Q theories Verif
theories/Base.v
theories/BaseFacts.v
theories/Num.v
theories/Types.v
theories/Names.v
theories/Validate.v
theories/Derive.v
theories/Arrays.v
theories/Builders.v
theories/Config.v
theories/Sort.v
theories/Xml.v
theories/Encode.v
theories/Parse.v
theories/Expand.v
theories/SpecNum.v
theories/NumProofs.v
theories/NumErrors.v
theories/EnumProofs.v
theories/PropNumbers.v
theories/SpecArray.v
theories/ArrayProofs.v
theories/IndexProofs.v
theories/InstanceProofs.v
theories/MaskProofs.v
theories/PropArrays.v
theories/TreeFacts.v
theories/SpecValidate.v
theories/NameProofs.v
theories/ValidateProofs.v
theories/PropValidate.v
theories/SpecDerive.v
theories/DeriveProofs.v
theories/PropDerive.v
theories/SpecBuild.v
theories/BuilderProofs.v
theories/PropBuild.v
theories/SpecWalk.v
theories/WalkProofs.v
theories/PropWalk.v
theories/SpecConfig.v
theories/ConfigProofs.v
theories/PropConfig.v
theories/SpecSort.v
theories/SortProofs.v
theories/PropSort.v
theories/SpecText.v
theories/TrimProofs.v
theories/SpecXml.v
theories/XmlFacts.v
theories/BitProofs.v
theories/PropBits.v
theories/SpecParse.v
theories/ParseProofs.v
theories/IgnoreProofs.v
theories/PanicProofs.v
theories/SpecLayout.v
theories/LayoutProofs.v
theories/PropParse.v
theories/SpecRound.v
theories/RoundProofs.v
theories/EncodeProofs.v
theories/FitProofs.v
theories/PropRound.v
theories/SpecPath.v
theories/PathProofs.v
theories/SpecExpand.v
theories/ExpandProofs.v
theories/PlaceProofs.v
theories/ChainProofs.v
theories/MeaningProofs.v
theories/SpecFlat.v
theories/FlatProofs.v
theories/SpecFail.v
theories/FailProofs.v
theories/SpecProps.v
theories/PropertyProofs.v
theories/PropExpand.v
theories/SpecEnds.v
theories/EndProofs.v
theories/RankProofs.v
theories/PropEnds.v
theories/Top.v
theories/SpecShape.v
theories/ShapeProofs.v
theories/SpecCause.v
theories/CauseProofs.v
theories/StayProofs.v
theories/PropCause.v
theories/TopProofs.v
theories/SpecMarkup.v
theories/MarkupProofs.v
theories/MarkupOrder.v
theories/PropTop.v
theories/Serde.v
theories/SpecSerde.v
theories/SpecData.v
theories/SerdeProofs.v
theories/SerdeMore.v
theories/SerdePad.v
theories/PropSerde.v
theories/Mutate.v
theories/SpecMutate.v
theories/MutateProofs.v
theories/PropMutate.v
theories/ParseAt.v
theories/AtProofs.v
theories/SpecFault.v
theories/FaultProofs.v
theories/FaultMore.v
theories/FaultAll.v
theories/ReportProofs.v
theories/PropFault.v
theories/SpecRead.v
theories/ReadProofs.v
theories/PropRead.v
theories/SpecOrder.v
theories/OrderProofs.v
theories/PropOrder.v
theories/SpecKeys.v
theories/KeyProofs.v
theories/FormProofs.v
theories/PropKeys.v
theories/SpecExact.v
theories/ExactProofs.v
theories/ExactReach.v
theories/PropExact.v
theories/Show.v
theories/ShowProofs.v
theories/ShowMore.v
theories/PropShow.v
theories/SpecAgain.v
theories/AgainProofs.v
theories/SurviveProofs.v
theories/FillProofs.v
theories/PropAgain.v
theories/SpecRefuse.v
theories/RefuseProofs.v
theories/PropRefuse.v
theories/SpecWriting.v
theories/WritingProofs.v
theories/PropWriting.v
theories/Setters.v
theories/SpecCalls.v
theories/CallProofs.v
theories/PropCalls.v
theories/SpecMode.v
theories/ModeProofs.v
theories/PropMode.v
theories/SpecLeaves.v
theories/LeafProofs.v
theories/PropLeaves.v
theories/SpecKept.v
theories/KeptProofs.v
theories/PropKept.v
theories/SpecAlike.v
theories/AlikeProofs.v
theories/PropAlike.v
theories/SpecBreach.v
theories/BreachProofs.v
theories/PropBreach.v
theories/SpecNamed.v
theories/NamedProofs.v
theories/PropNamed.v
theories/Views.v
theories/PropView.v
theories/SpecTravel.v
theories/TravelProofs.v
theories/PropTravel.v
theories/CleanProofs.v
theories/ListedProofs.v
theories/PropBack.v
theories/SpecSwap.v
theories/SwapProofs.v
theories/PropSwap.v
theories/SpecUnion.v
theories/UnionProofs.v
theories/PropUnion.v
theories/FindProofs.v
theories/PropFind.v
theories/SpecLevel.v
theories/LevelProofs.v
theories/PropLevel.v
theories/SpecBare.v
theories/BareProofs.v
theories/PropBare.v
theories/SpecRoom.v
theories/RoomProofs.v
theories/PropRoom.v
theories/SpecRename.v
theories/RenameProofs.v
theories/PropRename.v
theories/SpecDocs.v
theories/DocsProofs.v
theories/PropDocs.v
theories/SpecPlaces.v
theories/PlacesProofs.v
theories/PropPlaces.v
theories/SpecSize.v
theories/SizeProofs.v
theories/PropSize.v
theories/SpecShare.v
theories/ShareProofs.v
theories/PropShare.v
theories/SpecWritten.v
theories/WrittenProofs.v
theories/WrittenBack.v
theories/PropWritten.v
theories/SpecComplete.v
theories/CompleteProofs.v
theories/CompleteBack.v
theories/PropComplete.v
theories/SpecOpen.v
theories/OpenProofs.v
theories/PropOpen.v
theories/StepsProofs.v
theories/PropSteps.v
theories/PropAny.v
theories/PropTold.v
theories/SpecDistinct.v
theories/DistinctProofs.v
theories/PropDistinct.v
theories/SpecDepth.v
theories/DepthProofs.v
theories/PropDepth.v
theories/PropIndexes.v
theories/PropPath.v
theories/SpecDeep.v
theories/DeepProofs.v
theories/PropDeep.v
theories/SpecBound.v
theories/BoundProofs.v
theories/PropBound.v
theories/SpecBits.v
theories/BitsProofs.v
theories/PropFieldBits.v
theories/PropGiven.v
theories/TwiceProofs.v
theories/PropTwice.v
theories/SelfProofs.v
theories/PropSelf.v
theories/SpecFrom.v
theories/PropFrom.v
theories/CasesA.v
theories/CasesB.v
theories/Conform.v
