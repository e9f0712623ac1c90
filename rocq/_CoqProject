-Q theories Verif
theories/Chars.v
theories/Types.v
theories/Names.v
theories/Position.v
theories/ErrorText.v
theories/Parser.v
theories/Render.v
theories/Clone.v
theories/Api.v
theories/Tests.v
theories/SpecText.v
theories/TextProofs.v
theories/SpecRender.v
theories/NameProofs.v
theories/RenderProofs.v
theories/MinifyProofs.v
theories/SpecMisc.v
theories/MiscProofs.v
theories/TreeCheck.v
theories/SpecParse.v
theories/SpecTree.v
theories/SpecDoc.v
theories/SpecOpts.v
theories/SpecClone.v
theories/SpecError.v
theories/SpecFail.v
theories/HeapLemmas.v
theories/InvCtl.v
theories/CtlSteps.v
theories/CtlHandlers.v
theories/CtlEnd.v
theories/CtlRun.v
theories/Big.v
theories/BigSteps.v
theories/Area.v
theories/Replay.v
theories/RawText.v
theories/Attrs.v
theories/Struct.v
theories/Frame.v
theories/Birth.v
theories/TextInv.v
theories/CloseInv.v
theories/Shape.v
theories/Real.v
theories/Sim.v
theories/Tok.v
theories/PosInv.v
theories/Static.v
theories/StructEnd.v
theories/Final.v
theories/DocFacts.v
theories/DocEnd.v
theories/DocTree.v
theories/DocSound.v
theories/Mono.v
theories/Print.v
theories/Origin.v
theories/CloneProofs.v
theories/ErrorProofs.v
theories/FailProofs.v
theories/PropSource.v
theories/PropOptions.v
theories/PropParser.v
theories/PropTree.v
theories/PropDoc.v
theories/PropRender.v
theories/PropMisc.v
theories/PropClone.v
theories/PropError.v
theories/SpecFix.v
theories/FixProofs.v
theories/PropFix.v
theories/SpecStream.v
theories/Stream.v
theories/StreamSteps.v
theories/StreamRel.v
theories/StreamEnd.v
theories/StreamParse.v
theories/StreamRender.v
theories/StreamProofs.v
theories/PropStream.v
theories/SpecMap.v
theories/MapProofs.v
theories/PropMap.v
theories/SpecJoin.v
theories/JoinProofs.v
theories/PropJoin.v
theories/SpecShown.v
theories/Shown.v
theories/ShownRead.v
theories/ShownDoc.v
theories/PropShown.v
theories/Borrow.v
theories/SpecBorrow.v
theories/BorrowProofs.v
theories/BorrowEnd.v
theories/PropBorrow.v
theories/SpecEdit.v
theories/EditProofs.v
theories/PropEdit.v
theories/Cost.v
theories/SpecCost.v
theories/CostProofs.v
theories/CostWork.v
theories/CostLow.v
theories/PropCost.v
theories/SpecSettle.v
theories/Settle.v
theories/PropSettle.v
theories/RenderCost.v
theories/SpecSize.v
theories/SizeProofs.v
theories/SizeDoc.v
theories/PropSize.v
theories/Handles.v
theories/SpecHandles.v
theories/HandleProofs.v
theories/HandleDoc.v
theories/HandleThms.v
theories/PropHandles.v
theories/Depth.v
theories/SpecDepth.v
theories/DepthProofs.v
theories/DepthInv.v
theories/DepthDoc.v
theories/PropDepth.v
theories/File.v
theories/SpecFile.v
theories/FileProofs.v
theories/PropFile.v
theories/SpecNode.v
theories/NodeProofs.v
theories/RepairDoc.v
theories/NodeDoc.v
theories/PropNode.v
theories/SpecCut.v
theories/CutProofs.v
theories/PropCut.v
theories/SpecSwap.v
theories/SwapProofs.v
theories/PropSwap.v
theories/Debug.v
theories/SpecDebug.v
theories/DebugProofs.v
theories/DebugRead.v
theories/DebugDoc.v
theories/DebugText.v
theories/DebugEscape.v
theories/PropDebug.v
theories/SpecCase.v
theories/CaseProofs.v
theories/PropCase.v
theories/SpecAttrs.v
theories/AttrsProofs.v
theories/PropAttrs.v
theories/SpecFind.v
theories/FindProofs.v
theories/PropFind.v
theories/WrapProofs.v
theories/PropWrap.v
theories/DebugDepth.v
theories/DebugDepthProofs.v
theories/SpecTurn.v
theories/TurnProofs.v
theories/PropTurn.v
