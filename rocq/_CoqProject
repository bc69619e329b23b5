-Q theories Verif
theories/Base.v
theories/Spec.v
theories/MCommon.v
theories/MWriter.v
theories/MReader.v
theories/MDecoder.v
theories/MIter.v
theories/MFault.v
theories/SpecEnc.v
theories/MOpMaker.v
theories/MHasher.v
theories/MHashmap.v
theories/MTrgtMatcher.v
theories/MSrcMatcher.v
theories/MEncInner.v
theories/MEncode.v
theories/MLevels.v
theories/MMerger.v
theories/MTranscoder.v
theories/MVcdiff.v
theories/SpecApi.v
theories/SpecMerge.v
theories/SpecVcd.v
theories/PBase.v
theories/PCommon.v
theories/PStream.v
theories/PSection.v
theories/PWriter.v
theories/PDecoder.v
theories/PPatch.v
theories/POpMaker.v
theories/PHasher.v
theories/PHashmap.v
theories/PEncInner.v
theories/PEncode.v
theories/SpecFmt.v
theories/PFormat.v
theories/PFormat2.v
theories/PTotal.v
theories/PTotal2.v
theories/PMerge.v
theories/PMerge2.v
theories/PMerge3.v
theories/PMerge4.v
theories/PMerge5.v
theories/PTrans.v
theories/PVcdiff.v
theories/PMode.v
theories/PRobust.v
theories/PFind.v
theories/TCommon.v
theories/TSection.v
theories/TApply.v
theories/TOpMaker.v
theories/TEncode.v
theories/TMatch.v
theories/TFind.v
theories/TMerge.v
theories/TTrans.v
theories/TVcdiff.v
theories/TTotal.v
theories/TFormat.v
theories/TMode.v
theories/TFind2.v
theories/TPipe.v
theories/TTrunc.v
theories/TUntrust.v
theories/TIter.v
theories/TFault.v
theories/MWFault.v
theories/TWFault.v
theories/MPos.v
theories/PPos.v
theories/TPos.v
theories/TOff.v
theories/TMiss.v
theories/TLazy.v
theories/TSize.v
theories/MAlloc.v
theories/TAlloc.v
theories/MHeader.v
theories/THeader.v
theories/MStream.v
theories/TStream.v
theories/MFiles.v
theories/TFiles.v
theories/MAfter.v
theories/TAfter.v
theories/TBig.v
theories/TSettle.v
theories/MBroken.v
theories/TBroken.v
theories/MInPlace.v
theories/TInPlace.v
theories/TWrong.v
theories/M32.v
theories/PBytes.v
theories/T32Enc.v
theories/T32.v
theories/TSearch.v
theories/TSrcSearch.v
theories/SpecLit.v
theories/PLoss.v
theories/PRuns.v
theories/TRuns.v
theories/PBlock.v
theories/TBlock.v
theories/MInput.v
theories/TInput.v
theories/SpecAcc.v
theories/PAcc.v
theories/TAccept.v
theories/PMerge6.v
theories/TEmpty.v
theories/SpecGraft.v
theories/PGraft.v
theories/TGraft.v
theories/PCost.v
theories/TCost.v
theories/TProv.v
theories/TWindow.v
theories/PWeight.v
theories/TWeight.v
theories/TChain.v
theories/MOpApi.v
theories/TOpApi.v
theories/MInner.v
theories/TInner.v
theories/TJoin.v
