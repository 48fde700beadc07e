-Q theories Verif
theories/Base.v
theories/Spec.v
theories/SearchModel.v
theories/SearchProofs.v
theories/PropSearch.v
theories/Arr.v
theories/ArrRead.v
theories/ArrWf.v
theories/ArrReadProofs.v
theories/ArrSearchProofs.v
theories/PropRead.v
theories/ArrSlice.v
theories/ArrSliceProofs.v
theories/ArrSliceMain.v
theories/PropSlice.v
theories/ValidityModel.v
theories/PropValidity.v
theories/StatsModel.v
theories/StatsProofs.v
theories/StatsProofs2.v
theories/StatsProofs3.v
theories/PropStats.v
theories/IntEnc.v
theories/PropIntEnc.v
theories/RunEnc.v
theories/PropRunEnc.v
theories/DictEnc.v
theories/PropDict.v
theories/Unary.v
theories/PropUnary.v
theories/Delta.v
theories/PropDelta.v
theories/ArrOps.v
theories/OpsBase.v
theories/OpsFlat.v
theories/OpsCanon.v
theories/OpsCanon2.v
theories/OpsCanon3.v
theories/OpsTake.v
theories/OpsVarBin.v
theories/OpsSparse.v
theories/OpsTake2.v
theories/OpsChunked.v
theories/OpsFilter.v
theories/OpsFilter2.v
theories/OpsFilter3.v
theories/OpsMain.v
theories/PropOps.v
theories/PropOpsX.v
theories/BitpackTake.v
theories/PropVarBin.v
theories/PropView.v
theories/PropEnc.v
theories/DateTime.v
theories/Ipc.v
theories/PropIpc.v
theories/Layout.v
theories/LayoutRead.v
theories/LayoutWrite.v
theories/PropLayout.v
theories/PropFile.v
theories/PropFileX.v
theories/CmpSpec.v
theories/Compare.v
theories/CmpProofs.v
theories/PropCompare.v
theories/ExprSpec.v
theories/Expr.v
theories/PropPrune.v
theories/PropExpr.v
theories/TakeRows.v
theories/PropTakeRows.v
theories/Scalars.v
theories/FloatCast.v
theories/PropScalar.v
theories/Serde.v
theories/PropSerde.v
theories/Fsst.v
theories/PropFsst.v
theories/Alp.v
theories/PropAlp.v
theories/AlpOrder.v
theories/PropAlpCmp.v
theories/AlpRd.v
theories/PropAlpRd.v

theories/Roaring.v
theories/PropRoaring.v
theories/Compressor.v
theories/CompressorSpec.v
theories/CompressorProofs.v
theories/CompressorProofs2.v
theories/CompressorProofs3.v
theories/CompressorProofs4.v
theories/PropCompressor.v
theories/Sampling.v
theories/PropSampling.v
theories/Temporal.v
theories/PropTemporal.v
theories/Arrow.v
theories/ArrowSpec.v
theories/ArrowProofs.v
theories/ArrowProofs2.v
theories/PropArrow.v
theories/Iter.v
theories/PropIter.v
theories/StructOps.v
theories/PropStructOps.v
theories/BoolOps.v
theories/PropBoolOps.v
theories/MemTable.v
theories/PropMemTable.v
theories/Chooser.v
theories/ChooserProofs.v
theories/ChooserProofs2.v
theories/ChooserProofs3.v
theories/ChooserCost.v
theories/PropChooser.v
theories/PropRechunk.v
theories/PropStatsOrder.v
theories/PropScanTotal.v
theories/StatCache.v
theories/PropStatCache.v
theories/PropConstruct.v
theories/ExtStorage.v
theories/PropExtStorage.v
theories/Buf.v
theories/PropBuf.v
theories/Io.v
theories/PropIo.v
