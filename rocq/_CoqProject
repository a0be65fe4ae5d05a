-Q theories Verif
theories/Layout.v
theories/LayoutProofs.v
theories/LayoutNlp.v
theories/LayoutNlpProofs.v
theories/LayoutDimsProofs.v
theories/ZeroModel.v
theories/ZeroProofs.v
theories/LayoutEnv.v
theories/LayoutTop.v
theories/PropLayout.v
theories/FP.v
theories/FPProofs.v
theories/SqpModel.v
theories/SqpSpec.v
theories/SqpProofs.v
theories/SqpTop.v
theories/SqpLogs.v
theories/SqpFinal.v
theories/SqpCases.v
theories/SqpRefuted.v
theories/SqpEval.v
theories/PropSqp.v
theories/RtiModel.v
theories/RtiProofs.v
theories/RtiTop.v
theories/RtiCases.v
theories/PropRti.v
theories/FPRound.v
theories/FPStep.v
theories/Arith.v
theories/FunnelModel.v
theories/FunnelProofs.v
theories/FunnelIeee.v
theories/FunnelWidth.v
theories/FunnelPenalty.v
theories/FunnelL1.v
theories/FunnelCases.v
theories/PropFunnel.v
theories/MeritModel.v
theories/MeritProofs.v
theories/MeritWeights.v
theories/MeritCases.v
theories/Vec.v
theories/MeritGrad.v
theories/MeritGradProofs.v
theories/PropMerit.v
theories/PropMeritGrad.v
theories/LinModel.v
theories/LinProofs.v
theories/LinSolve.v
theories/RSum.v
theories/Poly.v
theories/InterpProofs.v
theories/PadeModel.v
theories/PadeProofs.v
theories/PadeTop.v
theories/LinCases.v
theories/PropLin.v
theories/RegModel.v
theories/RegProofs.v
theories/PropReg.v
theories/CollModel.v
theories/CollProofs.v
theories/CollTop.v
theories/CollRadau.v
theories/CollGauss.v
theories/CollCases.v
theories/PropColl.v
theories/ErkModel.v
theories/ErkProofs.v
theories/ErkSens.v
theories/ErkAdj.v
theories/ErkHess.v
theories/ErkTop.v
theories/ErkCases.v
theories/PropErk.v
theories/StepModel.v
theories/StepProofs.v
theories/StepDdp.v
theories/StepTop.v
theories/StepCases.v
theories/PropStep.v
theories/ResModel.v
theories/ResProofs.v
theories/ResTop.v
theories/PropRes.v
theories/OcpModel.v
theories/OcpProofs.v
theories/OcpTop.v
theories/PropOcp.v
theories/DdpModel.v
theories/DdpProofs.v
theories/DdpTop.v
theories/PropDdp.v
theories/WfqpModel.v
theories/WfqpProofs.v
theories/WfqpDriver.v
theories/WfqpRun.v
theories/WfqpTop.v
theories/PropWfqp.v
theories/Arr.v
theories/ArrProofs.v
theories/CasadiModel.v
theories/CasadiSpec.v
theories/CasadiProofs.v
theories/CasadiTop.v
theories/PropCasadi.v
theories/DimsModel.v
theories/DimsSpec.v
theories/DimsProofs.v
theories/DimsTop.v
theories/PropDims.v
theories/IfaceModel.v
theories/IfaceSpec.v
theories/IfaceProofs.v
theories/IfaceTop.v
theories/IfaceCases.v
theories/PropIface.v
theories/BghModel.v
theories/BghSpec.v
theories/BghProofs.v
theories/BghTop.v
theories/BghGet.v
theories/BghInit.v
theories/PropBgh.v
theories/BghEvalModel.v
theories/BghEvalSpec.v
theories/BghEvalProofs.v
theories/BghAdjProofs.v
theories/BghEvalTop.v
theories/BghEvalCases.v
theories/PropBghEval.v
theories/CostModel.v
theories/CostSpec.v
theories/CostProofs.v
theories/CostTop.v
theories/CostLs.v
theories/CostNls.v
theories/CostOther.v
theories/CostCases.v
theories/PropCost.v
theories/QpsModel.v
theories/QpsSpec.v
theories/QpsProofs.v
theories/QpsTop.v
theories/QpsWhole.v
theories/QpsFactor.v
theories/QpsTol.v
theories/QpsCases.v
theories/QpsCases2.v
theories/PropQps.v
theories/OptsModel.v
theories/OptsSpec.v
theories/OptsProofs.v
theories/OptsTop.v
theories/OptsWhole.v
theories/OptsWfqp.v
theories/OptsCases.v
theories/PropOpts.v
theories/Par.v
theories/ParProofs.v
theories/OmpModel.v
theories/OmpSpec.v
theories/OmpProofs.v
theories/OmpTop.v
theories/OmpLoops.v
theories/OmpDims.v
theories/OmpAlias.v
theories/OmpCases.v
theories/PropOmp.v
theories/LayoutSolver.v
theories/LayoutSolverProofs.v
theories/LayoutMod.v
theories/LayoutModProofs.v
theories/LayoutSubTop.v
theories/PropLayoutSub.v
theories/LayoutSim.v
theories/LayoutSimProofs.v
theories/LayoutSimIrk.v
theories/LayoutSimTop.v
theories/PropLayoutSim.v
theories/RtiSpec.v
theories/RtiExact.v
theories/SqpIter.v
theories/CscModel.v
theories/OsqpModel.v
theories/OsqpSpec.v
theories/CscSpec.v
theories/CscProofs.v
theories/OsqpProofs.v
theories/OsqpRows.v
theories/OsqpKkt.v
theories/OsqpTop.v
theories/OsqpRun.v
theories/OsqpCsc.v
theories/OsqpCases.v
theories/PropOsqp.v
theories/ClarabelModel.v
theories/ClarabelSpec.v
theories/ClarabelProofs.v
theories/ClarabelArena.v
theories/ClarabelTop.v
theories/ClarabelCsc.v
theories/ClarabelCases.v
theories/PropClarabel.v
theories/DenseModel.v
theories/QpoModel.v
theories/DenseSpec.v
theories/DenseProofs.v
theories/StackProofs.v
theories/QpoProofs.v
theories/QpoTop.v
theories/QpoKkt.v
theories/QpoRun.v
theories/QpoCases.v
theories/QpoEnd.v
theories/PropQpo.v
theories/DaqpModel.v
theories/DaqpSpec.v
theories/DaqpProofs.v
theories/DaqpFill.v
theories/DaqpUpd.v
theories/DaqpKkt.v
theories/DaqpHot.v
theories/DaqpTop.v
theories/DaqpCases.v
theories/DaqpBad.v
theories/DaqpBad2.v
theories/DaqpBad3.v
theories/DaqpEnd.v
theories/PropDaqp.v
theories/LayoutQp.v
theories/LayoutQpProofs.v
theories/LayoutQpTop.v
theories/PropLayoutQp.v
theories/WarmModel.v
theories/WarmProofs.v
theories/WarmSpec.v
theories/WarmTop.v
theories/PropWarm.v
theories/PcondModel.v
theories/PcondProofs.v
theories/PropPcond.v
theories/BgpModel.v
theories/BgpProofs.v
theories/BgpCases.v
theories/PropBgp.v
theories/IrkModel.v
theories/IrkSpec.v
theories/IrkProofs.v
theories/IrkSens.v
theories/IrkFwd.v
theories/IrkAdj.v
theories/IrkHess.v
theories/IrkNewton.v
theories/IrkTop.v
theories/IrkCases.v
theories/PropIrk.v
theories/IrkZModel.v
theories/IrkZSpec.v
theories/IrkZProofs.v
theories/IrkZTop.v
theories/IrkZCases.v
theories/PropIrkZ.v
theories/IrkCostModel.v
theories/IrkCostSpec.v
theories/IrkCostProofs.v
theories/IrkCostTop.v
theories/IrkCostCases.v
theories/PropIrkCost.v
theories/DynModel.v
theories/DynSpec.v
theories/DynProofs.v
theories/DynTop.v
theories/DynCases.v
theories/PropDyn.v
theories/CvxModel.v
theories/CvxSpec.v
theories/CvxProofs.v
theories/CvxTop.v
theories/CvxConvex.v
theories/CvxCases.v
theories/PropCvx.v
theories/BgpFun.v
theories/TredModel.v
theories/TredProofs.v
theories/TredStep.v
theories/TredOrth.v
theories/TredReduce.v
theories/TredTop.v
theories/TredFinal.v
theories/TredCases.v
theories/PropTred.v
theories/TqlModel.v
theories/TqlProofs.v
theories/TqlSweep.v
theories/TqlLoop.v
theories/TqlTop.v
theories/TqlCases.v
theories/PropTql.v
theories/CvxSplit.v
theories/RegEig.v
theories/RegEigCases.v
theories/PropRegEig.v
theories/QpTolModel.v
theories/QpTolProofs.v
theories/PropQpTol.v
theories/WfL1Model.v
theories/WfL1Proofs.v
theories/WfL1Cases.v
theories/PropWfL1.v
theories/RhModel.v
theories/RhProofs.v
theories/RhCases.v
theories/PropRh.v
theories/RhTwo.v
