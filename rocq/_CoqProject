-Q theories Verif
theories/Cxx.v
theories/CxxLemmas.v
theories/Core.v
theories/Spec.v
theories/CoreLemmas.v
theories/Arith.v
theories/ArithLemmas.v
theories/ArithProofs.v
theories/PropsArith.v
theories/Funcs.v
theories/SpecFuncs.v
theories/FuncLemmas.v
theories/FuncLemmas2.v
theories/FuncLemmas3.v
theories/CoreProofs.v
theories/PropsCore.v
theories/SpecText.v
theories/TextLemmas.v
theories/TextLemmas2.v
theories/SpecNum.v
theories/NumLemmas.v
theories/TombLemmas.v
theories/NumProofs.v
theories/Guard.v
theories/SpecGuard.v
theories/GuardLemmas.v
theories/PropsText.v
theories/PropsNum.v
theories/Mem.v
theories/MemLemmas.v
theories/Vec.v
theories/VecLemmas.v
theories/VecLemmas2.v
theories/VecLemmas3.v
theories/VecInst.v
theories/SpecVec.v
theories/VecProofs.v
theories/VecProofs2.v
theories/VecProofs3.v
theories/VecProofs4.v
theories/SpecHistory.v
theories/VecCost.v
theories/VecHistory.v
theories/VecProofs5.v
theories/PropsVec.v
theories/Variant.v
theories/SpecVariant.v
theories/VariantLemmas.v
theories/VariantProofs.v
theories/Optional.v
theories/SpecOptional.v
theories/OptionalLemmas.v
theories/OptionalProofs.v
theories/Nested.v
theories/SpecNested.v
theories/NestedLemmas.v
theories/Tuple.v
theories/TupleLemmas.v
theories/PropsTv.v
theories/Sort.v
theories/SpecSort.v
theories/SortLemmas.v
theories/SortProofs.v
theories/SortProofs2.v
theories/SortProofs3.v
theories/PropsSort.v
theories/Algo.v
theories/SpecAlgo.v
theories/AlgoProofs.v
theories/AlgoProofs2.v
theories/AlgoProofs3.v
theories/PropsAlgo.v
theories/DoubleBuffer.v
theories/InplaceRadix.v
theories/RadixKey.v
theories/SpecRadix.v
theories/RadixLemmas.v
theories/DoubleBufferProofs.v
theories/InplaceProofs.v
theories/InplaceProofs2.v
theories/InplaceProofs3.v
theories/InplaceProofs4.v
theories/InplaceProofs5.v
theories/RadixKeyProofs.v
theories/PropsRadix.v
theories/Unique.v
theories/SpecUnique.v
theories/UniqueProofs.v
theories/UniqueProofs2.v
theories/UniqueProofs3.v
theories/PropsUnique.v
theories/FlatMap.v
theories/SpecMap.v
theories/FlatMapProofs.v
theories/FlatMapProofs2.v
theories/LinearMap.v
theories/LinearMapProofs.v
theories/PropsMap.v
theories/LinkedList.v
theories/SpecList.v
theories/LinkedListProofs.v
theories/LinkedListProofs2.v
theories/LinkedListProofs3.v
theories/LinkedListProofs4.v
theories/LinkedListProofs5.v
theories/ForwardListProofs.v
theories/PropsList.v
theories/Sbo.v
theories/SpecSbo.v
theories/SboLemmas.v
theories/SboProofs.v
theories/SboProofs2.v
theories/PropsSbo.v
theories/DynArray.v
theories/SpecDyn.v
theories/DynProofs.v
theories/PropsDyn.v
theories/Range.v
theories/SpecRange.v
theories/Views.v
theories/Pieces.v
theories/RangeProofs.v
theories/ViewProofs.v
theories/ZipProofs.v
theories/PiecesProofs.v
theories/JoinProofs.v
theories/PropsView.v
theories/PropsPieces.v
theories/Sequence.v
theories/SpecSequence.v
theories/SequenceProofs.v
theories/MeetProofs.v
theories/Generate.v
theories/GenerateProofs.v
theories/Accumulate.v
theories/AccumulateProofs.v
theories/PropsSequence.v
theories/PropsGenerate.v
theories/Concat.v
theories/SpecConcat.v
theories/ConcatProofs.v
theories/PropsConcat.v
theories/Reverse.v
theories/ReverseProofs.v
theories/PropsReverse.v
theories/Keyed.v
theories/SpecDict.v
theories/KeyedProofs.v
theories/PropsKeyed.v
theories/StdVec.v
theories/StdVecProofs.v
theories/PropsStd.v
theories/StdList.v
theories/SpecStdList.v
theories/StdListProofs.v
theories/StdListHistory.v
theories/PropsStdList.v
theories/SpecPrograms.v
theories/SboCalm.v
theories/Programs.v
theories/PropsPrograms.v
theories/StringIn.v
theories/SpecStringIn.v
theories/StringInProofs.v
theories/PropsStringIn.v
theories/InplaceFunction.v
theories/SpecInplaceFunction.v
theories/InplaceFunctionProofs.v
theories/PropsInplaceFunction.v
theories/StreamInt.v
theories/SpecStreamInt.v
theories/StreamIntProofs.v
theories/PropsStreamInt.v
theories/ToAnyString.v
theories/ToAnyStringProofs.v
theories/PropsToAnyString.v
theories/SpecSeveral.v
theories/Several.v
theories/SpecVecPrograms.v
theories/VecPrograms.v
theories/PropsVecPrograms.v
theories/SpecStaticPrograms.v
theories/StaticPrograms.v
theories/PropsStaticPrograms.v
theories/SpecStablePrograms.v
theories/StablePrograms.v
theories/PropsStablePrograms.v
theories/Strings.v
theories/SpecStrings.v
theories/StringsProofs.v
theories/PropsStrings.v
theories/SpecListPrograms.v
theories/ListPrograms.v
theories/PropsListPrograms.v
theories/Bytes.v
theories/SpecBytes.v
theories/BytesProofs.v
theories/PropsBytes.v
theories/StaticUnsized.v
theories/PropsRest.v
theories/SpecDynPrograms.v
theories/DynPrograms.v
theories/PropsDynPrograms.v
theories/SpecVariantPrograms.v
theories/VariantPrograms.v
theories/PropsVariantPrograms.v
theories/Array.v
theories/SpecArray.v
theories/ArrayProofs.v
theories/PropsArray.v
theories/References.v
theories/SpecReferences.v
theories/ReferencesProofs.v
theories/PropsReferences.v
theories/Legacy.v
theories/LegacyProofs.v
theories/PropsLegacy.v
theories/Append.v
theories/SpecAppend.v
theories/AppendProofs.v
theories/PropsAppend.v
theories/FlatMemory.v
theories/FlatMemoryProofs.v
theories/SpecFlatMemory.v
theories/FlatMemoryProofs2.v
theories/PropsFlatMemory.v
theories/VecFill.v
theories/PropsFill.v
theories/LinearMemory.v
theories/LinearMemoryProofs.v
theories/PropsLinearMemory.v
theories/UniqueMemory.v
theories/UniqueMemoryProofs.v
theories/SpecFlatRange.v
theories/FlatRangeProofs.v
theories/PropsFlatRange.v
theories/SpecOptionalPrograms.v
theories/OptionalPrograms.v
theories/PropsOptionalPrograms.v
theories/SpecOptionalVariantPrograms.v
theories/OptionalVariantPrograms.v
theories/PropsOptionalVariantPrograms.v
theories/PropsDocs.v
theories/SpecMapPrograms.v
theories/MapPrograms.v
theories/PropsMapPrograms.v
theories/PropsExact.v
theories/PropsExactLists.v
theories/PropsUnsized.v
theories/PropsExactStatic.v
theories/SpecLinearPrograms.v
theories/LinearPrograms.v
theories/PropsLinearPrograms.v
theories/PropsExactVector.v
theories/PropsExactShift.v
theories/PropsExactRemainder.v
theories/PropsExactExpr.v
theories/MapUnsized.v
theories/PropsMapUnsized.v
theories/PropsExactCheck.v
theories/SpecStaticMapPrograms.v
theories/StaticMapPrograms.v
theories/PropsStaticMapPrograms.v
theories/PropsExactMixed.v
theories/PropsExactPieces.v
theories/ForwardErase.v
theories/PropsForwardErase.v
theories/SpecForwardPrograms.v
theories/ForwardPrograms.v
theories/PropsForwardPrograms.v
theories/Outside.v
theories/PropsOutside.v
theories/PropsTooLong.v
theories/ContainerOperators.v
theories/SpecContainerOperators.v
theories/ContainerOperatorProofs.v
theories/PropsContainerOperators.v
theories/OwnElement.v
theories/PropsOwnElement.v
theories/PropsSboExactly.v
theories/PropsExactAssume.v
theories/IndexType.v
theories/PropsIndexType.v
theories/SourceSize.v
theories/PropsSourceSize.v
theories/StoredFunction.v
theories/PropsStoredFunction.v
theories/PropsAssignTrivial.v
theories/EqualTo.v
theories/PropsEqualTo.v
theories/StdListStubs.v
theories/PropsStdListStubs.v
