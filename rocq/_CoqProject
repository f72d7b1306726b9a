-Q theories Verif
theories/AliasDict.v
theories/AliasDictProofs.v
theories/Amdp.v
theories/AmdpProofs.v
theories/Base.v
theories/BaseFacts.v
theories/BenchProofs.v
theories/BenchRun.v
theories/BenchRunProofs.v
theories/BenchRunProofs2.v
theories/Benchmarks.v
theories/BinExists.v
theories/BuiltFacts.v
theories/CertProofs.v
theories/CertProofs2.v
theories/Certificates.v
theories/ChainTheory.v
theories/Cli.v
theories/CliProofs1.v
theories/CliProofs2.v
theories/CliProofs3.v
theories/CliProofs4.v
theories/CliProofs5.v
theories/CliProofs6.v
theories/CliProofs7.v
theories/CliProofs8.v
theories/CliProofs9.v
theories/DecideFinal.v
theories/Draw.v
theories/DrawProofs.v
theories/DrawProofs2.v
theories/DrawProofs3.v
theories/DrawProofs4.v
theories/ExCli.v
theories/ExCli2.v
theories/ExDraw.v
theories/ExFiles.v
theories/ExFloatCheck.v
theories/ExGen.v
theories/ExNan.v
theories/ExNear.v
theories/ExNumLabels.v
theories/ExProofs1.v
theories/ExProofs2.v
theories/ExProofs3.v
theories/ExProofs4.v
theories/ExProofs5.v
theories/ExRender.v
theories/ExRenderCmd.v
theories/ExRewCert.v
theories/ExRewNum.v
theories/ExRewSlack.v
theories/ExRewSys.v
theories/ExReward.v
theories/ExSlack.v
theories/ExTol.v
theories/ExTra.v
theories/Examples.v
theories/FarkCache.v
theories/FarkProofs.v
theories/FarkReal.v
theories/Farkas.v
theories/Files.v
theories/FilesFinal.v
theories/FilesProofs.v
theories/FilesProofs2.v
theories/FilesProofs3.v
theories/FilesProofs4.v
theories/FloatCheck.v
theories/FloatCheckProofs.v
theories/FloatCheckProofs2.v
theories/FloatCheckProofs3.v
theories/FloatCheckProofs4.v
theories/FloatFinal.v
theories/FloatNan.v
theories/FloatProofs.v
theories/FloatRow.v
theories/Formulations.v
theories/GenBuild.v
theories/GenFark.v
theories/GenFark2.v
theories/GenFark3.v
theories/GenMin.v
theories/Graph.v
theories/GraphProofs.v
theories/GraphSpec.v
theories/GroupProofs.v
theories/GurEdit.v
theories/GurEditProofs.v
theories/GurFinal.v
theories/GurFinal2.v
theories/GurForm.v
theories/GurFrom.v
theories/GurProofs.v
theories/Gurobi.v
theories/Heap.v
theories/HeapClient.v
theories/HeapFinal.v
theories/HeapGraph.v
theories/HeapGraphProofs.v
theories/HeapLogic.v
theories/HeapMecProofs.v
theories/HeapReachProofs.v
theories/HeapRunProofs.v
theories/HeapSccProofs.v
theories/HeapSpec.v
theories/HeapTreap.v
theories/HeapTreapProofs.v
theories/HeurFinal.v
theories/InvDict.v
theories/InvDictProofs.v
theories/InvDictSpec.v
theories/LabelMin.v
theories/LabelProofs.v
theories/LinSolve.v
theories/LpExists.v
theories/MatFacts.v
theories/Matrix.v
theories/MdpValue.v
theories/Mec.v
theories/MecProofs.v
theories/Milp.v
theories/MilpBuild.v
theories/MilpExact.v
theories/MilpFinal.v
theories/MilpForm.v
theories/MilpKeep.v
theories/MilpMax.v
theories/MilpMin.v
theories/MilpProofs.v
theories/NearProofs.v
theories/Num.v
theories/NumLabels.v
theories/P_Amdp.v
theories/P_Api.v
theories/P_Bench.v
theories/P_Cert.v
theories/P_Cli.v
theories/P_Data.v
theories/P_Decide.v
theories/P_Draw.v
theories/P_Ec.v
theories/P_Files.v
theories/P_Float.v
theories/P_FloatCheck.v
theories/P_Gen.v
theories/P_Graph.v
theories/P_GurEdit.v
theories/P_Gurobi.v
theories/P_Heap.v
theories/P_Heur.v
theories/P_Label.v
theories/P_Lp.v
theories/P_Milp.v
theories/P_Near.v
theories/P_NumLabels.v
theories/P_Prism.v
theories/P_Problem.v
theories/P_ReachForm.v
theories/P_Reduce.v
theories/P_Render.v
theories/P_RenderCmd.v
theories/P_RewCert.v
theories/P_RewNum.v
theories/P_RewProblem.v
theories/P_RewSlack.v
theories/P_RewSys.v
theories/P_Reward.v
theories/P_Slack.v
theories/P_Storm.v
theories/P_Sub.v
theories/P_Tol.v
theories/P_Tra.v
theories/P_Tree.v
theories/P_TreeMin.v
theories/Prism.v
theories/PrismProofs.v
theories/Problems.v
theories/QsDecide.v
theories/QsFixed.v
theories/QsProofs.v
theories/QsTotal.v
theories/QsWeights.v
theories/ReachForm.v
theories/ReachFormProofs.v
theories/Reduce.v
theories/ReduceProofs1.v
theories/ReduceProofs2.v
theories/ReduceProofs3.v
theories/ReduceProofs4.v
theories/ReduceProofs5.v
theories/ReduceProofs6.v
theories/RenderCmd.v
theories/RenderCmdProofs.v
theories/RewCert.v
theories/RewCertGen.v
theories/RewCertProofs.v
theories/RewDecide.v
theories/RewFinal.v
theories/RewForms.v
theories/RewGen.v
theories/RewMilp.v
theories/RewNum.v
theories/RewProblems.v
theories/RewQs.v
theories/RewSlackProofs.v
theories/RewSlackTheory.v
theories/RewSub.v
theories/RewTheory.v
theories/RewVec.v
theories/RewardForm.v
theories/RewardProofs.v
theories/RewardReduce.v
theories/RewardSys.v
theories/RewardSysProofs.v
theories/RfBridge.v
theories/RfFacts.v
theories/RfLpProofs.v
theories/RfLps.v
theories/RfTheory.v
theories/Scc.v
theories/SccProofs.v
theories/SccSpec.v
theories/SlackProofs.v
theories/SlackProofs2.v
theories/SlackProofs3.v
theories/SlackTheory.v
theories/SolverApi.v
theories/SolverApiProofs.v
theories/SpecApi.v
theories/SpecBench.v
theories/SpecBuilt.v
theories/SpecCli.v
theories/SpecDecide.v
theories/SpecDraw.v
theories/SpecEc.v
theories/SpecFiles.v
theories/SpecFloatCheck.v
theories/SpecFloatRow.v
theories/SpecForm.v
theories/SpecGen.v
theories/SpecGurEdit.v
theories/SpecGurobi.v
theories/SpecLabel.v
theories/SpecLp.v
theories/SpecMdp.v
theories/SpecMilp.v
theories/SpecNear.v
theories/SpecPrism.v
theories/SpecProb.v
theories/SpecReduce.v
theories/SpecRender.v
theories/SpecRenderCmd.v
theories/SpecRewCert.v
theories/SpecRewSlack.v
theories/SpecRewSub.v
theories/SpecRewSys.v
theories/SpecReward.v
theories/SpecSlack.v
theories/SpecStorm.v
theories/SpecSub.v
theories/SpecSystem.v
theories/SpecTra.v
theories/SpecTree.v
theories/SpecTreeMin.v
theories/Storm.v
theories/StormFinal.v
theories/StormFinal2.v
theories/StormFinal3.v
theories/StormProofs.v
theories/SubProofs1.v
theories/SubProofs2.v
theories/SubProofs3.v
theories/SubProofs4.v
theories/SubProofs5.v
theories/SubTheory.v
theories/Subsystem.v
theories/SumFacts.v
theories/TolProofs.v
theories/TolProofs2.v
theories/TolTheory.v
theories/TraProofs.v
theories/TraProofs2.v
theories/TraProofs3.v
theories/Treap.v
theories/TreapProofs.v
theories/TreapSpec.v
theories/Tree.v
theories/TreeDecomp.v
theories/TreeFinal.v
theories/TreeMin.v
theories/TreeMinFinal.v
theories/TreeMinWit.v
theories/TreeProofs.v
theories/TreeTimeout.v
