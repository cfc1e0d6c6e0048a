-Q theories Verif
theories/Jax.v
theories/QueueModel.v
theories/QueueSpec.v
theories/QueueProofs.v
theories/PropQueue.v
theories/KeyModel.v
theories/SortProofs.v
theories/MergeModel.v
theories/MergeProofs.v
theories/PropMerge.v
theories/HeapModel.v
theories/HeapSpec.v
theories/HeapProofs.v
theories/HeapInsert.v
theories/HeapInv.v
theories/HeapDelete.v
theories/PropHeap.v
theories/HashModel.v
theories/HashProofs.v
theories/PropHash.v
theories/StableSort.v
theories/TableModel.v
theories/ProbeProofs.v
theories/TableLookup.v
theories/TableInv.v
theories/TableInsert.v
theories/ResolveProofs.v
theories/TableRounds.v
theories/TableCommit.v
theories/TableBound.v
theories/DedupeModel.v
theories/DedupeSpec.v
theories/DedupeProofs.v
theories/DedupeExact.v
theories/ParInsertModel.v
theories/ParInsert.v
theories/ParEffect.v
theories/Claims.v
theories/TritonModel.v
theories/TritonProofs.v
theories/PallasModel.v
theories/PallasProofs.v
theories/TableSpec.v
theories/TableHistory.v
theories/PropTable.v
theories/PropTableCases.v
theories/PropDedupe.v
theories/PropTableWide.v
theories/BitpackModel.v
theories/BitpackSpec.v
theories/BitpackProofs.v
theories/BitpackAgg.v
theories/BitpackBytes.v
theories/PropBitpack.v
theories/GroupFirst.v
theories/UpdateModel.v
theories/PropUpdate.v
theories/UniqueModel.v
theories/UniqueProofs.v
theories/PropUnique.v
theories/StructModel.v
theories/IOModel.v
theories/PropIO.v
theories/FilesModel.v
theories/PropFiles.v
theories/PropEvolve.v
theories/HeapFloat.v
theories/FloatOrder.v
theories/HeapFloatSim.v
theories/PropHeapFloat.v
theories/PropHeapLen.v
theories/PropHeapVals.v
theories/PrintModel.v
theories/PropPrint.v
theories/LegacyModel.v
theories/PropLegacy.v
theories/TieModel.v
theories/TieProofs.v
theories/TieKeys.v
theories/PropTies.v
theories/NameModel.v
theories/PropNames.v
theories/CompareModel.v
theories/PropCompare.v
theories/PropSafeCast.v
theories/BlockModel.v
theories/PropBlock.v
theories/PromoteModel.v
theories/FloatRound.v
theories/PropPromote.v
theories/PropMixed.v
theories/PropMixed2.v
theories/PropMixed3.v
theories/TableFloat.v
theories/TableFloatSim.v
theories/PropTableFloat.v
theories/PropTableFloat2.v
theories/PropNanCost.v
theories/IntCost.v
theories/PropIntCost.v
theories/PropSplit.v
theories/PropSplit2.v
theories/PropQueueDebt.v
theories/PropSplitCases.v
theories/PropCost.v
theories/PropCostCases.v
theories/TreeModel.v
theories/PropTree.v
theories/TreeModel2.v
theories/PropTree2.v
theories/PropHashBytes.v
theories/ArrayModel.v
theories/ArrayFacts.v
theories/ShapeModel.v
theories/PropShape.v
theories/RowsModel.v
theories/RowsLift.v
theories/PropRows.v
theories/PropRows2.v
theories/PropRows3.v
theories/PropRows4.v
theories/EqModel.v
theories/FloatEq.v
theories/PropEq.v
theories/PropEqTable.v
theories/AggModel.v
theories/AggKernel.v
theories/AggFacts.v
theories/PropAgg.v
theories/PropAgg2.v
theories/PropAggHash.v
theories/SoaModel.v
theories/PropSoa.v
theories/PropSoa2.v
theories/PropSoa3.v
theories/HeapArrays.v
theories/HeapRows.v
theories/HeapSim.v
theories/HeapSim2.v
theories/HeapSim3.v
theories/PropHeapArrays.v
theories/PropInverse.v
theories/PropInverse2.v
theories/TableArrays.v
theories/TableMap.v
theories/TableSim.v
theories/TableArraySpec.v
theories/TableArrayHist.v
theories/PropTableArrays.v
theories/ConstructModel.v
theories/PropRandom.v
theories/PropValidate.v
theories/PropDescriptor.v
theories/PackedFieldModel.v
theories/PropPackedField.v
theories/PropPackedField2.v
theories/RowsModel2.v
theories/PropRows5.v
theories/PropRows6.v
theories/PropRows7.v
theories/PropRows8.v
theories/HeapTypes.v
theories/PropHeapTypes.v
theories/TableConv.v
theories/TableConvSim.v
theories/PropTableConv.v
theories/PropTableConv2.v
theories/TakeModel.v
theories/PropTake.v
theories/ConvStore.v
theories/PropConvStore.v
theories/HeapValues.v
theories/PropHeapValues.v
theories/KvModel.v
theories/KvProofs.v
theories/QueueAgree.v
theories/EnvModel.v
theories/PropSettings.v
theories/PropSettings2.v
theories/SchemaModel.v
theories/AggAny.v
theories/PropAggFloat.v
theories/PropSchema.v
theories/PropSchema2.v
theories/PackEnv.v
theories/PropSettings3.v
theories/PropSettings4.v
theories/LiveModel.v
theories/PropLive.v
theories/PropLive2.v
theories/IterModel.v
theories/PropIter.v
theories/PackedAny.v
theories/PropPackedAny.v
theories/PropPackedAny2.v
theories/UpdateAnyModel.v
theories/PropSoa4.v
theories/SliceModel.v
theories/PropSlice.v
theories/DispatchModel.v
theories/PropDispatch.v
theories/PropRaises.v
theories/UpdateForeignModel.v
theories/PropForeign.v
theories/PadStatModel.v
theories/PropPadStat.v
theories/PropLike.v
theories/BlockTupleModel.v
theories/PropBlock2.v
theories/PropListRows.v
theories/PropTakeAlong.v
theories/PropFrontier.v
theories/PropFrontierCases.v
theories/PropDijkstra.v
theories/PropDijkstraCases.v
theories/PropAstar.v
theories/PropAstarCases.v
theories/PropTrace.v
theories/PropTraceCases.v
theories/MetaModel.v
theories/PropMeta.v
theories/PropSearchSame.v
theories/PropSearchSameCases.v
theories/PropRoom.v
theories/PropRoomCases.v
theories/PropNegCases.v
theories/PropGoal.v
theories/PropGoalCases.v
theories/PropHead.v
theories/PropHeadCases.v
