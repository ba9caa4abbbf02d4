-Q theories Verif
theories/Prelude.v
theories/Res.v
theories/Algebra.v
theories/Tensor.v
theories/TensorFacts.v
theories/Einsum.v
theories/EinsumFacts.v
theories/NetworkFacts.v
theories/Graph.v
theories/GraphBase.v
theories/GraphContract.v
theories/GraphOps.v
theories/GraphValue.v
theories/GraphOuter.v
theories/GraphConnect.v
theories/GraphJoin.v
theories/GraphBetween.v
theories/GraphRetail.v
theories/GraphFuse.v
theories/GraphFlatten.v
theories/GraphTrace.v
theories/GraphSplit.v
theories/GraphProg.v
theories/GraphSched.v
theories/GraphLaws.v
theories/GraphRedirect.v
theories/GraphQuery.v
theories/GraphQueryFacts.v
theories/GraphCompound.v
theories/GraphCopy.v
theories/NetIso.v
theories/GraphCopyFacts.v
theories/GraphDensity.v
theories/GraphExamples.v
theories/P_Contract.v
theories/P_Rewire.v
theories/Ncon.v
theories/NconFacts.v
theories/NconProof.v
theories/NconSpec.v
theories/NconTop.v
theories/NconCheck.v
theories/NconMain.v
theories/NconExamples.v
theories/P_Ncon.v
theories/R_Ncon.v
theories/Charge.v
theories/ChargeFacts.v
theories/ChargeInst.v
theories/BlockSparse.v
theories/BlockSpec.v
theories/ListFacts.v
theories/BlockFacts.v
theories/BlockDegen.v
theories/BlockReduce.v
theories/BlockMaps.v
theories/BlockTr.v
theories/BlockPart.v
theories/BstSpec.v
theories/BstFacts.v
theories/BstConv.v
theories/BstDot.v
theories/BstTensordot.v
theories/BstOps.v
theories/BstMain.v
theories/BstExamples.v
theories/P_Charge.v
theories/R_Charge.v
theories/P_Block.v
theories/R_Block.v
theories/GraphSlice.v
theories/GraphSliceFacts.v
theories/P_Query.v
theories/P_Copy.v
theories/R_Graph.v
theories/Backends.v
theories/BackendSpec.v
theories/BackendFacts.v
theories/BackendMain.v
theories/DecompFacts.v
theories/SvdTrunc.v
theories/SvdTruncFacts.v
theories/P_Backend.v
theories/P_Svd.v
theories/R_Backend.v
theories/SplitNode.v
theories/SplitNodeFacts.v
theories/SplitFullFacts.v
theories/SplitSpec.v
theories/P_Split.v
theories/P_Slice.v
theories/GraphNames.v
theories/GraphTotal.v
theories/GraphTotal2.v
theories/P_Total.v
theories/GraphDead.v
theories/PathContract.v
theories/PathFacts.v
theories/P_Path.v
theories/R_Path.v
theories/Context.v
theories/ContextSpec.v
theories/ContextFacts.v
theories/P_Context.v
theories/R_Context.v
theories/Linalg.v
theories/LinalgSpec.v
theories/LinalgFacts.v
theories/LinalgNode.v
theories/P_Linalg.v
theories/R_Linalg.v
theories/Mpo.v
theories/MpoSpec.v
theories/MpoFacts.v
theories/MpoMain.v
theories/P_Mpo.v
theories/R_Mpo.v
theories/BlockCache.v
theories/BlockCacheFacts.v
theories/P_Cache.v
theories/R_Cache.v
theories/SymSvd.v
theories/SymSvdFacts.v
theories/SymSvdMain.v
theories/SymSvdSpec.v
theories/SymSvdLargest.v
theories/SymSvdTensor.v
theories/SymSvdBond.v
theories/SymSvdTensorFacts.v
theories/SymSvdTensorMain.v
theories/SymSvdReshape.v
theories/P_SymSvd.v
theories/R_SymSvd.v
theories/Mps.v
theories/MpsSpec.v
theories/MpsNcon.v
theories/MpsSplit.v
theories/MpsState.v
theories/MpsPosition.v
theories/MpsCanon.v
theories/MpsGate.v
theories/MpsExamples.v
theories/P_Mps.v
theories/R_Mps.v
theories/MpsMeasureSpec.v
theories/MpsDouble.v
theories/MpsEnv.v
theories/MpsMeasure.v
theories/MpsNorm.v
theories/P_MpsMeasure.v
theories/R_MpsMeasure.v
theories/Dmrg.v
theories/DmrgSpec.v
theories/DmrgNcon.v
theories/DmrgTriple.v
theories/DmrgBlock.v
theories/DmrgMatvec.v
theories/DmrgFacts.v
theories/DmrgMain.v
theories/DmrgRun.v
theories/DmrgLocal.v
theories/P_Dmrg.v
theories/R_Dmrg.v
theories/CopyTensor.v
theories/CopyTensorSpec.v
theories/CopyTensorSum.v
theories/CopyTensorNet.v
theories/CopyTensorMove.v
theories/CopyTensorStep.v
theories/CopyTensorTotal.v
theories/CopyTensorBucket.v
theories/CopyTensorMain.v
theories/P_CopyTensor.v
theories/R_CopyTensor.v
theories/PathSolve.v
theories/PathSolveSpec.v
theories/PathSolveAdj.v
theories/PathSolveGreedy.v
theories/PathSolveKeep.v
theories/PathSolveGroups.v
theories/PathSolveFull.v
theories/PathSolveMain.v
theories/PathSolveNum.v
theories/PathSolveLabels.v
theories/PathSolveNcon.v
theories/PathSolveNconFacts.v
theories/PathSolveSolver.v
theories/PathSolveExamples.v
theories/P_PathSolve.v
theories/R_PathSolve.v
theories/Serial.v
theories/SerialSpec.v
theories/SerialCore.v
theories/SerialCopy.v
theories/SerialJson.v
theories/SerialFile.v
theories/SerialLoad.v
theories/SerialExamples.v
theories/P_Serial.v
theories/R_Serial.v
theories/Quantum.v
theories/QuantumSpec.v
theories/QuantumFacts.v
theories/QuantumNodes.v
theories/QuantumCopy.v
theories/QuantumJoin.v
theories/QuantumUnion.v
theories/QuantumOps.v
theories/QuantumTrace.v
theories/QuantumMake.v
theories/QuantumIdent.v
theories/QuantumExamples.v
theories/P_Quantum.v
theories/R_Quantum.v
theories/GraphLoose.v
theories/GraphTidy.v
theories/QuantumElim.v
theories/QuantumElimSpec.v
theories/QuantumElimStep.v
theories/QuantumElimGeo.v
theories/QuantumElimLoop.v
theories/QuantumElimMain.v
theories/QuantumElimExamples.v
theories/P_QuantumElim.v
theories/R_QuantumElim.v
theories/Krylov.v
theories/KrylovFacts.v
theories/KrylovSpec.v
theories/KrylovLanczos.v
theories/KrylovRitz.v
theories/KrylovMain.v
theories/KrylovInst.v
theories/KrylovExamples.v
theories/P_Krylov.v
theories/R_Krylov.v
theories/Gmres.v
theories/GmresSpec.v
theories/GmresFacts.v
theories/GmresStep.v
theories/GmresMain.v
theories/GmresTotal.v
theories/GmresSolve.v
theories/GmresExamples.v
theories/P_Gmres.v
theories/R_Gmres.v
theories/JaxKrylov.v
theories/JaxKrylovSpec.v
theories/JaxKrylovFacts.v
theories/JaxKrylovArn.v
theories/JaxKrylovShift.v
theories/JaxKrylovSort.v
theories/JaxKrylovMain.v
theories/JaxKrylovOuter.v
theories/JaxKrylovFinal.v
theories/JaxKrylovExamples.v
theories/JaxKrylovConv.v
theories/JaxKrylovTop.v
theories/P_JaxKrylov.v
theories/R_JaxKrylov.v
theories/JaxLanczos.v
theories/JaxLanczosFacts.v
theories/JaxLanczosMain.v
theories/JaxLanczosExamples.v
theories/P_JaxLanczos.v
theories/R_JaxLanczos.v
theories/SymLinalg.v
theories/SymLinalgGrade.v
theories/SymLinalgSpec.v
theories/SymLinalgMat.v
theories/SymLinalgBond.v
theories/SymLinalgFact.v
theories/SymLinalgInv.v
theories/SymLinalgDiag.v
theories/SymLinalgRect.v
theories/SymLinalgTensor.v
theories/SymLinalgBroadcast.v
theories/P_SymLinalg.v
theories/R_SymLinalg.v
theories/SymTrace.v
theories/SymTraceLoop.v
theories/SymTraceMain.v
theories/SymTraceDense.v
theories/P_SymTrace.v
theories/R_SymTrace.v
theories/MpoFermion.v
theories/MpoFermionSpec.v
theories/MpoFermionFacts.v
theories/P_MpoFermion.v
theories/R_MpoFermion.v
theories/Keras.v
theories/KerasSpec.v
theories/KerasCall.v
theories/KerasFacts.v
theories/KerasEntangler.v
theories/KerasMain.v
theories/P_Keras.v
theories/R_Keras.v
theories/KerasConv.v
theories/KerasConvSpec.v
theories/KerasConvFacts.v
theories/P_KerasConv.v
theories/R_KerasConv.v
theories/MpsInf.v
theories/MpsInfSpec.v
theories/MpsInfNcon.v
theories/MpsInfAlg.v
theories/MpsInfFacts.v
theories/MpsInfRoots.v
theories/MpsInfCell.v
theories/MpsInfCanon.v
theories/MpsInfExample.v
theories/P_MpsInf.v
theories/R_MpsInf.v
theories/Stitch.v
theories/Fft.v
theories/FftStitch.v
theories/FftSpec.v
theories/FftFacts.v
theories/FftMain.v
theories/P_Fft.v
theories/R_Fft.v
theories/Sat.v
theories/SatSpec.v
theories/SatFacts.v
theories/SatMain.v
theories/SatCount.v
theories/P_Sat.v
theories/R_Sat.v
theories/Wave.v
theories/WaveSpec.v
theories/WaveFacts.v
theories/WaveInv.v
theories/WaveMain.v
theories/WaveExp.v
theories/WaveTrotter.v
theories/P_Wave.v
theories/Topo.v
theories/TopoSpec.v
theories/TopoFacts.v
theories/P_Topo.v
theories/R_Topo.v
theories/MpsCheck.v
theories/MpsCheckSpec.v
theories/MpsCheckFacts.v
theories/P_MpsCheck.v
theories/R_MpsCheck.v
theories/IndexOps.v
theories/IndexSpec.v
theories/IndexFacts.v
theories/P_Index.v
theories/R_Index.v
theories/Graphviz.v
theories/GraphvizSpec.v
theories/GraphvizFacts.v
theories/P_Graphviz.v
theories/R_Graphviz.v
theories/Mera.v
theories/MeraSpec.v
theories/MeraFacts.v
theories/P_Mera.v
theories/TensorExpr.v
theories/TensorExprSpec.v
theories/TensorExprFacts.v
theories/P_TensorExpr.v
theories/XxzSym.v
theories/XxzSymFacts.v
theories/P_XxzSym.v
theories/Ising.v
theories/IsingSpec.v
theories/IsingFacts.v
theories/P_Ising.v
theories/MpoInf.v
theories/MpoInfSpec.v
theories/MpoInfFacts.v
theories/P_MpoInf.v
theories/R_MpoInf.v
theories/SwitchBackend.v
theories/SwitchBackendFacts.v
theories/P_SwitchBackend.v
theories/R_SwitchBackend.v
theories/Strides.v
theories/StridesFacts.v
theories/P_Strides.v
theories/R_Strides.v
theories/KrylovCheck.v
theories/P_KrylovCheck.v
theories/R_KrylovCheck.v
theories/Collapse.v
theories/CollapseFacts.v
theories/P_Collapse.v
theories/R_Collapse.v
theories/NodeQuery.v
theories/P_NodeQuery.v
theories/R_NodeQuery.v
