-Q theories Verif
theories/Base.v
theories/LitModel.v
theories/LitProofs.v
theories/LitProps.v
theories/CNFModel.v
theories/CNFSpec.v
theories/CNFProofs.v
theories/CNFProps.v
theories/ContainersModel.v
theories/ContainersSpec.v
theories/ContainersProofs.v
theories/ContainersProps.v
theories/HeapModel.v
theories/HeapSpec.v
theories/HeapProofs.v
theories/HeapProps.v
theories/Outcome.v
theories/TrailModel.v
theories/TrailSpec.v
theories/TrailProofs.v
theories/TrailLemmas.v
theories/TrailProps.v
theories/DbModel.v
theories/PropModel.v
theories/PropProofs.v
theories/DbProofs.v
theories/PropSpec.v
theories/PropLemmas.v
theories/PropProps.v
theories/AnalyzeModel.v
theories/AnalyzeProofs.v
theories/AnalyzeSpec.v
theories/AnalyzeLemmas.v
theories/AnalyzeProps.v
theories/SimpModel.v
theories/SubsProofs.v
theories/SimpProofs.v
theories/SimpSpec.v
theories/SimpLemmas.v
theories/SimpProps.v
theories/VEProofs.v
theories/VESpec.v
theories/VELemmas.v
theories/VEProps.v
theories/AsymmProofs.v
theories/AsymmSpec.v
theories/AsymmLemmas.v
theories/AsymmProps.v
theories/ReduceModel.v
theories/SolverModel.v
theories/SolverBase.v
theories/SolverUnits.v
theories/SolverSimp.v
theories/SolverSearch.v
theories/SolverProofs.v
theories/SolverSpec.v
theories/SolverLemmas.v
theories/SolverElim.v
theories/SolverCrash.v
theories/SolverProps.v
theories/ReduceSpec.v
theories/ReduceProofs.v
theories/ReduceProps.v
theories/IpasirModel.v
theories/IpasirSpec.v
theories/IpasirProofs.v
theories/IpasirProps.v
theories/DRATModel.v
theories/DRATLemmas.v
theories/DRATBase.v
theories/DRATProofs.v
theories/DRATProps.v
theories/AllocModel.v
theories/AllocSpec.v
theories/AllocLemmas.v
theories/AllocProofs.v
theories/AllocMore.v
theories/AllocProps.v
theories/DimacsModel.v
theories/DimacsSpec.v
theories/DimacsProofs.v
theories/DimacsMore.v
theories/DimacsProps.v
theories/DratFileModel.v
theories/DratFileProofs.v
theories/DratFileProps.v
theories/GateModel.v
theories/GateSpec.v
theories/BlockProofs.v
theories/BlockMore.v
theories/GatePat.v
theories/GateProofs.v
theories/DfsProofs.v
theories/GateMore.v
theories/GateCases.v
theories/GateProps.v
theories/MinModel.v
theories/MinSpec.v
theories/MinProofs.v
theories/MinMore.v
theories/MinCard.v
theories/MinProps.v
theories/MemoryModel.v
theories/MemorySpec.v
theories/MemoryProofs.v
theories/MemoryCases.v
theories/MemoryProps.v
theories/HashModel.v
theories/HashSpec.v
theories/HashProofs.v
theories/HashMore.v
theories/HashDegree.v
theories/HashCases.v
theories/HashProps.v
theories/BranchModel.v
theories/BranchSpec.v
theories/BranchProofs.v
theories/BranchMore.v
theories/BranchAdvice.v
theories/BranchCases.v
theories/BranchProps.v
theories/SimModel.v
theories/SimSpec.v
theories/SimWords.v
theories/SimPart.v
theories/SimHist.v
theories/SimProp.v
theories/SimCases.v
theories/SimProps.v
theories/CertSpec.v
theories/CertProofs.v
theories/CertSolver.v
theories/CertSimp.v
theories/CertHistory.v
theories/CertCases.v
theories/CertProps.v
theories/DRATSpec.v
theories/DRATComplete.v
theories/CertOpen.v
theories/DRATSolver.v
theories/DRATAcceptCases.v
theories/DRATAcceptProps.v
theories/ShareModel.v
theories/ShareSpec.v
theories/ShareProofs.v
theories/ShareCases.v
theories/ShareProps.v
theories/PortModel.v
theories/PortSpec.v
theories/PortProofs.v
theories/PortProps.v
theories/AigModel.v
theories/AigSpec.v
theories/GateReach.v
theories/AigProofs.v
theories/AigLoop.v
theories/AigMore.v
theories/AigPrint.v
theories/AigCases.v
theories/AigProps.v
theories/StaticModel.v
theories/StaticSpec.v
theories/StaticProofs.v
theories/StaticLemmas.v
theories/StaticMore.v
theories/StaticProps.v
theories/ApproxModel.v
theories/ApproxSpec.v
theories/ApproxLemmas.v
theories/ApproxProofs.v
theories/ApproxMore.v
theories/ApproxRefine.v
theories/ApproxTags.v
theories/ApproxRun.v
theories/ApproxProps.v
theories/ARModel.v
theories/ARSpec.v
theories/ARProofs.v
theories/ARProps.v
theories/OptModel.v
theories/OptSpec.v
theories/OptProofs.v
theories/OptProps.v
theories/DratTextModel.v
theories/DratTextSpec.v
theories/DratTextProofs.v
theories/DratTextSolver.v
theories/DratTextProps.v
theories/MainModel.v
theories/MainSpec.v
theories/MainOpt.v
theories/MainProofs.v
theories/MainMore.v
theories/MainDef.v
theories/MainCases.v
theories/MainProps.v
theories/RestartModel.v
theories/RestartSpec.v
theories/RestartProofs.v
theories/RestartCount.v
theories/SimpTerm.v
theories/RestartTerm.v
theories/RestartErr.v
theories/MainTerm.v
theories/RestartLemmas.v
theories/RestartProps.v
theories/HeurModel.v
theories/HeurSpec.v
theories/HeurProofs.v
theories/HeurRun.v
theories/HeurFilter.v
theories/HeurCases.v
theories/HeurProps.v
theories/MiterModel.v
theories/MiterSpec.v
theories/MiterProofs.v
theories/MiterCases.v
theories/MiterProps.v
theories/RecModel.v
theories/RecSpec.v
theories/RecProofs.v
theories/RecSim.v
theories/RecCases.v
theories/RecProps.v
theories/RsilModel.v
theories/RsilSpec.v
theories/RsilVan.v
theories/RsilPick.v
theories/RsilBudget.v
theories/RsilBudgetRun.v
theories/RsilMore.v
theories/RsilGen.v
theories/RsilMain.v
theories/RsilCases.v
theories/RsilProps.v
theories/RandModel.v
theories/RandSpec.v
theories/RandProofs.v
theories/RandRun.v
theories/RandCases.v
theories/RandProps.v
theories/DRATRatSpec.v
theories/DRATRat.v
theories/DRATRatCases.v
theories/DRATRatProps.v
theories/GraphModel.v
theories/GraphSpec.v
theories/BetweenWalks.v
theories/BetweenDep.v
theories/BetweenBfs.v
theories/BetweenProofs.v
theories/GraphBuild.v
theories/GraphWcc.v
theories/GraphProofs.v
theories/GraphUse.v
theories/GraphCases.v
theories/GraphProps.v
theories/AigTextModel.v
theories/AigTextSpec.v
theories/AigText.v
theories/AigTextProps.v
theories/FuzzModel.v
theories/FuzzSpec.v
theories/FuzzProofs.v
theories/FuzzProps.v
theories/PfModel.v
theories/PfSpec.v
theories/PfProofs.v
theories/PfProps.v
theories/BadSpec.v
theories/BadProofs.v
theories/BadProps.v
theories/OccModel.v
theories/OccSpec.v
theories/OccProofs.v
theories/OccProps.v
theories/MinMainModel.v
theories/MinMainSpec.v
theories/MinMainProofs.v
theories/MinMainProps.v
theories/MinRunModel.v
theories/MinRunProofs.v
theories/MinRunProps.v
theories/MinRunMainSpec.v
theories/MinRunMainModel.v
theories/MinRunMainProofs.v
theories/MinRunMainProps.v
theories/StatsModel.v
theories/StatsSpec.v
theories/StatsRun.v
theories/StatsProofs.v
theories/StatsProps.v
theories/ListGatesModel.v
theories/ListGatesSpec.v
theories/ListGatesProofs.v
theories/ListGatesProps.v
theories/DistModel.v
theories/DistSpec.v
theories/DistProofs.v
theories/DistProps.v
theories/DistriModel.v
theories/DistriSpec.v
theories/DistriProofs.v
theories/DistriProps.v
theories/TriModel.v
theories/TriSpec.v
theories/TriProofs.v
theories/TriProps.v
theories/CloseModel.v
theories/CloseSpec.v
theories/CloseProofs.v
theories/CloseProps.v
theories/CloseCenModel.v
theories/CloseCenProofs.v
theories/CloseCenProps.v
