-Q theories Verif
theories/Lang.v
theories/Sep.v
theories/Algo.v
theories/AlgoProofs.v
theories/Contig.v
theories/ContigLib.v
theories/Window.v
theories/InPlace.v
theories/Grow.v
theories/Grow2.v
theories/Ops.v
theories/Vector.v
theories/Devector.v
theories/DevLib.v
theories/DevShift.v
theories/DevBack.v
theories/DevFront.v
theories/DevSpec.v
theories/DevProofs.v
theories/DevInsert.v
theories/DevOps.v
theories/DevAssign.v
theories/DevTwo.v
theories/DevClient.v
theories/DevOk.v
theories/DevMem.v
theories/DevState.v
theories/DevSim.v
theories/DevThms.v
theories/DevDemo.v
theories/Props_Devector.v
theories/FreeFuns.v
theories/VectorProofs.v
theories/Client.v
theories/SeqSpec.v
theories/SeqClient.v
theories/SeqProofs.v
theories/VectorOk.v
theories/SmallVector.v
theories/SmallProofs.v
theories/SmallTwo.v
theories/SmallSpec.v
theories/SmallClient.v
theories/SmallOk.v
theories/State.v
theories/VecMem.v
theories/MemProofs.v
theories/VectorState.v
theories/AlgoThms.v
theories/Cost.v
theories/VectorCost.v
theories/SeqThms.v
theories/VectorThms.v
theories/Demo.v
theories/VectorDemo.v
theories/SmallMem.v
theories/SmallState.v
theories/SmallThms.v
theories/CompactVector.v
theories/CompactSpec.v
theories/CompactProofs.v
theories/CompactOps.v
theories/CompactAssign.v
theories/CompactClient.v
theories/CompactOk.v
theories/StaticVector.v
theories/StaticSpec.v
theories/StaticClient.v
theories/StaticOk.v
theories/StaticNoAlloc.v
theories/StaticMem.v
theories/StaticThms.v
theories/Wrap.v
theories/FlatSpec.v
theories/UnordSpec.v
theories/UnordModel.v
theories/UnordProofs.v
theories/UnordOps.v
theories/UnordRun.v
theories/UnordEq.v
theories/UnordClient.v
theories/UnordOk.v
theories/UnordMap.v
theories/UnordLists.v
theories/UnordThms.v
theories/UnordState.v
theories/UnordDemo.v
theories/Props_Unordered.v
theories/FlatModel.v
theories/FlatPure.v
theories/FlatExact.v
theories/FlatProofs.v
theories/FlatOps.v
theories/FlatRun.v
theories/FlatClient.v
theories/FlatOk.v
theories/FlatLists.v
theories/FlatHist.v
theories/FlatMem.v
theories/FlatThms.v
theories/FlatState.v
theories/FlatDemo.v
theories/Props_SmallVector.v
theories/Props_Vector.v
theories/Props_StaticVector.v
theories/CompactMem.v
theories/CompactThms.v
theories/Props_CompactVector.v
theories/Props_Flat.v
theories/Props_Algo.v
theories/SegAlgo.v
theories/SegIter.v
theories/SegLoops.v
theories/SegWin.v
theories/SegMoves.v
theories/SegShift.v
theories/Segmented.v
theories/SegStore.v
theories/SegGrow.v
theories/SegLib.v
theories/SegOps.v
theories/SegSeq.v
theories/SegSpec.v
theories/SegBack.v
theories/SegFeed.v
theories/SegVec.v
theories/SegAssign.v
theories/SegAccess.v
theories/SegFront.v
theories/SegDevOps.v
theories/SegDevIns.v
theories/SegDevAssign.v
theories/SegDevSpec.v
theories/SegTwo.v
theories/SegClient.v
theories/SegDevClient.v
theories/SegOk.v
theories/SegDevOk.v
theories/SegMem.v
theories/SegState.v
theories/SegThms.v
theories/SegIterLaws.v
theories/SegRuns.v
theories/SegDevThms.v
theories/Props_SegIter.v
theories/Props_Segmented.v
theories/Props_SegVector.v
theories/Props_SegDevector.v
theories/CopyBack.v
theories/CopyBackProofs.v
theories/SegAlgoThms.v
theories/Props_SegAlgo.v
theories/FlatCost.v
theories/SmallCost.v
theories/DevCost.v
theories/DevCycle.v
theories/Props_Cost.v
theories/SegCost.v
theories/Props_SegCost.v
theories/HetSpec.v
theories/HetModel.v
theories/HetProofs.v
theories/HetThms.v
theories/Props_Het.v
theories/UHetSpec.v
theories/UHetModel.v
theories/UHetProofs.v
theories/UHetThms.v
theories/Props_UHet.v
theories/SegSelf.v
theories/Props_SegSelf.v
theories/FlatRange.v
theories/UnordRange.v
theories/RangeRefuted.v
theories/Props_FlatRange.v
theories/EraseCost.v
theories/EraseRefuted.v
theories/Props_EraseCost.v
theories/InsertSpec.v
theories/InsertCost.v
theories/InsertRefuted.v
theories/Props_InsertCost.v
theories/DevInsertSpec.v
theories/DevInsertCost.v
theories/DevInsertRefuted.v
theories/Props_DevInsertCost.v
theories/SegMid.v
theories/SegInsertSpec.v
theories/SegInsertCost.v
theories/Props_SegInsertCost.v
theories/OwnFill.v
theories/OwnRun.v
theories/OwnContig.v
theories/OwnDev.v
theories/OwnSeg.v
theories/Props_OwnAssign.v
theories/Props_OwnSeg.v
theories/CtorSpec.v
theories/CtorCost.v
theories/CtorRefuted.v
theories/Props_CtorCost.v
theories/SegCtorCost.v
theories/Props_SegCtorCost.v
theories/AssignSpec.v
theories/AssignCost.v
theories/AssignMore.v
theories/Props_AssignCost.v
theories/SegAssignCost.v
theories/Props_SegAssignCost.v
theories/ResizeSpec.v
theories/ResizeCost.v
theories/SegResizeCost.v
theories/Props_ResizeCost.v
theories/Props_SegResizeCost.v
theories/SwapCost.v
theories/Props_SwapCost.v
theories/SegSwapCost.v
theories/Props_SegSwapCost.v
theories/RelSpec.v
theories/RelModel.v
theories/RelLists.v
theories/RelThms.v
theories/Props_Rel.v
theories/SegCopyCost.v
theories/Props_SegCopyCost.v
theories/RelCost.v
theories/Props_RelCost.v
theories/NthModel.v
theories/NthThms.v
theories/NthFlat.v
theories/Props_Nth.v
theories/FlatRel.v
theories/Props_FlatRel.v
theories/FlatRelCost.v
theories/Props_FlatRelCost.v
theories/NthEq.v
theories/Props_NthEq.v
