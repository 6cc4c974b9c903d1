-Q theories Verif
theories/Py.v
theories/Num.v
theories/Vari.v
theories/VariFacts.v
theories/PropVari.v
theories/Brc.v
theories/PyFacts.v
theories/SpecBrc.v
theories/BrcFacts.v
theories/BrcProb.v
theories/BrcDecomp.v
theories/BrcRules.v
theories/BrcRun.v
theories/BrcMisc.v
theories/BrcMain.v
theories/SpecNext.v
theories/BrcNext.v
theories/BrcProper.v
theories/PropBrc.v
theories/BrcStop.v
theories/PropBrc2.v
theories/PropNext.v
theories/Cpm.v
theories/SpecCpm.v
theories/CpmFacts.v
theories/CpmCond.v
theories/CpmProd.v
theories/CpmList.v
theories/CpmSum.v
theories/CpmMarg.v
theories/CpmElim.v
theories/CpmProb.v
theories/CpmMean.v
theories/PropCpm.v
theories/PropCpm2.v
theories/Model.v
theories/ModelFacts.v
theories/PropModel.v
theories/Net.v
theories/SpecNet.v
theories/NetFacts.v
theories/PropNet.v
theories/Sample.v
theories/SampleFacts.v
theories/PropSample.v
theories/SysVal.v
theories/SpecSys.v
theories/SysValFacts.v
theories/PropSys.v
theories/MsysProd.v
theories/SpecProd.v
theories/MsysProdFacts.v
theories/PropProd.v
theories/Bnb.v
theories/SpecBnb.v
theories/BnbFacts.v
theories/BnbDir.v
theories/PathModel.v
theories/PathFacts.v
theories/SysEvent.v
theories/PathModelFacts.v
theories/PropBnb.v
theories/PropPath.v
theories/Legacy.v
theories/SpecLegacy.v
theories/LegacyFacts.v
theories/PropLegacy.v
theories/Trans.v
theories/SpecTrans.v
theories/TransFacts.v
theories/NxPaths.v
theories/NetSys.v
theories/PropTrans.v
theories/Mcs.v
theories/SpecMcs.v
theories/McsFacts.v
theories/PropMcs.v
theories/VeCond.v
theories/SpecVe.v
theories/VeFacts.v
theories/VeTotal.v
theories/PropVe.v
theories/CalFacts.v
theories/CalJoin.v
theories/CalTotal.v
theories/PropCal.v
theories/Hybrid.v
theories/SpecHyb.v
theories/HybFacts.v
theories/HybEst.v
theories/PropHyb.v
theories/HybProd.v
theories/SpecHybProd.v
theories/HybProdFacts.v
theories/PropHybProd.v
theories/Reject.v
theories/PropRej.v
theories/Flow.v
theories/SpecFlow.v
theories/Lp.v
theories/FlowFacts.v
theories/FlowRef.v
theories/PropFlow.v
theories/Pipe.v
theories/SpecPipe.v
theories/PipeFacts.v
theories/PipeRef.v
theories/PipeRoute.v
theories/PropPipe.v
theories/Config.v
theories/SpecConfig.v
theories/ConfigFacts.v
theories/ConfigPaths.v
theories/ConfigSetup.v
theories/PropConfig.v
theories/BnbOrg.v
theories/BnbOrgFacts.v
theories/PropBnbOrg.v
theories/Power.v
theories/SpecPower.v
theories/BnetFacts.v
theories/PowerNodes.v
theories/PowerFacts.v
theories/PowerHouse.v
theories/PowerMain.v
theories/PowerDist.v
theories/PropPower.v
theories/MaxFlow.v
theories/SpecMaxFlow.v
theories/MaxFlowFacts.v
theories/MaxFlowRef.v
theories/PropMaxFlow.v
theories/PfMap.v
theories/SpecMap.v
theories/PfMapGeom.v
theories/PfMapFacts.v
theories/PfMapMain.v
theories/PfMapRun.v
theories/PfMapTable.v
theories/PropPfMap.v
theories/WriteNet.v
theories/SpecWrite.v
theories/WriteFacts.v
theories/WriteRun.v
theories/PropWrite.v
theories/SysJoint.v
theories/SysNot.v
theories/DemoNet.v
theories/SpecDemo.v
theories/TwoNet.v
theories/RbdRun.v
theories/RouRun.v
theories/PropDemo.v
theories/CondEst.v
theories/SpecCond.v
theories/CondFacts.v
theories/CondRun.v
theories/PropCond.v
theories/BnbDump.v
theories/SpecDump.v
theories/PropDump.v
theories/SysProd.v
theories/PostMap.v
theories/PostRun.v
theories/PostUpd.v
theories/SpecPost.v
theories/PostDep.v
theories/PostEnc.v
theories/PostSame.v
theories/PropPost.v
theories/RouConn.v
theories/SpecConn.v
theories/SpecCut.v
theories/MinCut.v
theories/RouConnFacts.v
theories/PropConn.v
theories/Ctor.v
theories/SpecCtor.v
theories/CtorFacts.v
theories/PropCtor.v
theories/SpecExact.v
theories/ExactFacts.v
theories/PropExact.v
theories/BndFacts.v
theories/PropBnd.v
theories/PropTight.v
theories/PropSharp.v
theories/Heap.v
theories/SpecHeap.v
theories/HeapFacts.v
theories/PropHeap.v
theories/SpecSplit.v
theories/SplitFacts.v
theories/PropSplit.v
theories/Round.v
theories/SpecRound.v
theories/RoundFacts.v
theories/PropRound.v
theories/PropErr.v
theories/BrcHeap.v
theories/SpecBrcHeap.v
theories/BrcHeapFacts.v
theories/BrcHeapRun.v
theories/PropBrcHeap.v
theories/RoundInf.v
theories/SpecRoundInf.v
theories/RoundInfFacts.v
theories/PropRoundInf.v
theories/Small.v
theories/PropSmall.v
theories/PropReject.v
theories/RouInf.v
theories/PropRouInf.v
theories/Pole.v
theories/PropPole.v
theories/Gmpe.v
theories/PropGmpe.v
theories/LogProd.v
theories/PropLogProd.v
theories/Interval.v
theories/PropInterval.v
theories/SpecTest.v
theories/TestCpm.v
theories/TestOp.v
theories/TestBrc.v
theories/TestNet.v
theories/PropTest.v
theories/PropFly.v
theories/HybCal.v
theories/HybCalFacts.v
theories/PropHybCal.v
theories/SpecHybCal.v
theories/HybCalSamp.v
theories/PropHybSamp.v
theories/PropData.v
theories/SfNet.v
theories/SfRun.v
theories/PropSf.v
theories/PowerCut.v
theories/PropPowerCut.v
theories/EmaBrc.v
theories/PropEmaBrc.v
theories/FlowMcs.v
theories/PropFlowMcs.v
theories/PfMcs.v
theories/PropPfMcs.v
theories/Compare.v
theories/PropCompare.v
theories/PfSingle.v
theories/PropPfSingle.v
theories/PropChoice.v
