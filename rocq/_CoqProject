-Q theories Verif
theories/Prelude.v
theories/FilterModel.v
theories/FilterSpec.v
theories/FilterProofs.v
theories/Props_Filters.v
theories/NetModel.v
theories/NetSpec.v
theories/NetProofs.v
theories/NetEmit.v
theories/NetHist.v
theories/NetTotal.v
theories/NetIso.v
theories/NetPipe.v
theories/NetTop.v
theories/NetOrderSpec.v
theories/NetOrder.v
theories/Props_Network.v
theories/ChainModel.v
theories/ChainSpec.v
theories/ChainProofs.v
theories/Props_Chain.v
theories/ConsumerModel.v
theories/ConsumerSpec.v
theories/ConsumerProofs.v
theories/Props_Consumers.v
theories/ProducerModel.v
theories/ProducerSpec.v
theories/ProducerProofs.v
theories/XReal.v
theories/MHSpec.v
theories/MHProofs.v
theories/DRProofs.v
theories/DRReal.v
theories/DRRun.v
theories/DRAlpha.v
theories/MHTop.v
theories/DEProofs.v
theories/DETop.v
theories/NoThrow.v
theories/Props_Producers.v
theories/StatsModel.v
theories/StatsSpec.v
theories/StatsProofs.v
theories/StatsCosModel.v
theories/StatsCosSpec.v
theories/StatsCosProofs.v
theories/StatsInst.v
theories/StatsTop.v
theories/Props_Stats.v
theories/StatsAffine.v
theories/StatsAffineTop.v
theories/Props_StatsTransform.v
theories/HistModel.v
theories/HistSpec.v
theories/HistProofs.v
theories/HistFloat.v
theories/HistTop.v
theories/Props_Hist.v
theories/ConcModel.v
theories/ConcSpec.v
theories/ConcInv.v
theories/ConcLocks.v
theories/ConcDeliv.v
theories/ConcInvs.v
theories/ConcSilent.v
theories/ConcMode.v
theories/ConcFlush.v
theories/ConcOnce.v
theories/ConcLive.v
theories/ConcTerm.v
theories/ConcRace.v
theories/ConcBad.v
theories/ConcWitness.v
theories/ConcSafe.v
theories/ConcTop.v
theories/ConcServe.v
theories/Props_Conc.v
theories/LockModel.v
theories/LockSpec.v
theories/LockProofs.v
theories/LockTop.v
theories/LockUses.v
theories/LockOnce.v
theories/LockObjects.v
theories/LockClasses.v
theories/ConcPerm.v
theories/Props_Lock.v
theories/DEConcModel.v
theories/DEConcSpec.v
theories/DEConcProofs.v
theories/DEConcDisc.v
theories/DEConcSim.v
theories/DEConcTop.v
theories/Props_DEConc.v
theories/ANetModel.v
theories/ANetBase.v
theories/ANetSpec.v
theories/ANetInv.v
theories/ANetFlow.v
theories/ANetFlush.v
theories/ANetExc.v
theories/ANetTop.v
theories/ANetTerm.v
theories/Props_ANet.v
theories/DEStatSpec.v
theories/DEStat.v
theories/Props_DEStat.v
theories/FloatSpec.v
theories/FloatBase.v
theories/FloatMean.v
theories/FloatCov.v
theories/FloatTop.v
theories/Props_Float.v
theories/MHRunSpec.v
theories/MarkovFinite.v
theories/MHRun.v
theories/Props_MHRun.v
theories/DRRunSpec.v
theories/DRLaw.v
theories/MarkovTop.v
theories/DRStat.v
theories/DRTop.v
theories/Props_DRRun.v
theories/MarkovStats.v
theories/MarkovThin.v
theories/PipeSpec.v
theories/PipeProofs.v
theories/Props_Pipe.v
theories/MarkovPerturb.v
theories/MHPrecSpec.v
theories/MHPrec.v
theories/MHPrec64Spec.v
theories/MHPrec64.v
theories/MHPrecTail.v
theories/Props_MHPrec.v
theories/AdaptSpec.v
theories/AdaptRun.v
theories/AdaptFinite.v
theories/AdaptMH.v
theories/AdaptCov.v
theories/AdaptExample.v
theories/Props_Adapt.v
theories/MemSpec.v
theories/MemProofs.v
theories/Props_Memory.v
theories/ContSpec.v
theories/ContProofs.v
theories/ContExample.v
theories/Props_Continue.v
theories/MarkovVar.v
theories/VarSpec.v
theories/VarProofs.v
theories/VarExample.v
theories/Props_Variance.v
theories/FaultModel.v
theories/FaultSpec.v
theories/FaultProofs.v
theories/FaultProofs2.v
theories/Props_Fault.v
theories/SettleSpec.v
theories/SettleProofs.v
theories/SettleTop.v
theories/Props_Settle.v
theories/MoveModel.v
theories/MoveSpec.v
theories/MoveNet.v
theories/MoveProofs.v
theories/MoveTop.v
theories/Props_Move.v
theories/FCosModel.v
theories/FCosSpec.v
theories/FCosRun.v
theories/FCosProofs.v
theories/FAcc.v
theories/Props_FloatCos.v
theories/FApprox.v
theories/FActProofs.v
theories/FActTop.v
theories/Props_FloatAct.v
theories/FAcmProofs.v
theories/FAcmTop.v
theories/Props_FloatAcm.v
theories/ExcSpec.v
theories/ExcProofs.v
theories/ExcDE.v
theories/ExcCount.v
theories/ExcTop.v
theories/Props_Exc.v
theories/DomSpec.v
theories/DomProofs.v
theories/DomTop.v
theories/Props_Domain.v
theories/DrdSpec.v
theories/DrdLaw.v
theories/DrdStat.v
theories/DrdKer.v
theories/DrdTop.v
theories/Props_DRDomain.v
theories/HfloSpec.v
theories/HfloProofs.v
theories/HfloTop.v
theories/HfloOvf.v
theories/Props_HistFloat.v
theories/PfloSpec.v
theories/PfloTop.v
theories/Props_PairFloat.v
theories/DebSpec.v
theories/DebProofs.v
theories/Props_DEDomain.v
theories/PhistTotal.v
theories/PfloTotal.v
theories/Props_PairTotal.v
