-Q theories Verif
theories/F64.v
theories/SpecRcont.v
theories/RcontModel.v
theories/RcontProofs.v
theories/RcontProofs2.v
theories/PropsRcont.v
theories/Base.v
theories/Cells.v
theories/FOrder.v
theories/BinModel.v
theories/SpecBin.v
theories/BinProofs.v
theories/LinspaceProofs.v
theories/BinDataProofs.v
theories/SpecQuantile.v
theories/QuantileModel.v
theories/QuantileProofs.v
theories/PropsBin.v
theories/HistModel.v
theories/SpecHist.v
theories/HistProofs.v
theories/PropsHist.v
theories/RSum.v
theories/StatsModel.v
theories/SpecStats.v
theories/StatsProofs.v
theories/StatsProofs2.v
theories/StatsProofs3.v
theories/PropsStats.v
theories/PropsGMax.v
theories/BrentModel.v
theories/SpecSolver.v
theories/BrentProofs.v
theories/BivModel.v
theories/SpecBiv.v
theories/BivProofs.v
theories/BivProofs2.v
theories/PropsBiv.v
theories/Num.v
theories/PhikModel.v
theories/SpecPhik.v
theories/PhikProofs.v
theories/PhikProofs2.v
theories/SpecSpark.v
theories/PhikProofs3.v
theories/OverviewProofs.v
theories/PairMatProofs.v
theories/PhikMatProofs.v
theories/FrameProofs.v
theories/PhikInvProofs.v
theories/ArrayModel.v
theories/SpecArray.v
theories/ArrayProofs.v
theories/SparkModel.v
theories/SparkProofs.v
theories/PropsPhik.v
theories/SimModel.v
theories/SpecSim.v
theories/SimProofs.v
theories/PropsSim.v
theories/SigModel.v
theories/SpecSig.v
theories/SigProofs.v
theories/PropsSig.v
theories/BetaModel.v
theories/SpecBeta.v
theories/BetaProofs.v
theories/PropsBeta.v
theories/OutModel.v
theories/SpecOut.v
theories/OutProofs.v
theories/PropsOut.v
theories/PropsOut2.v
theories/PropsOut3.v
theories/PropsOut4.v
theories/HeapModel.v
theories/SpecHeap.v
theories/HeapProofs.v
theories/PropsHeap.v
theories/ReportModel.v
theories/SpecReport.v
theories/PropsReport.v
theories/PropsPlot.v
theories/PropsGlobal.v
theories/PropsBin2.v
theories/PropsStats2.v
theories/PropsBiv2.v
theories/PropsPhik2.v
theories/PropsSig2.v
theories/PropsSim2.v
theories/SpecTableDist.v
theories/HyperProofs.v
theories/RcontGen.v
theories/RcontCell.v
theories/RcontDist.v
theories/RcontRefine.v
theories/PropsTableDist.v
theories/Gauss.v
theories/SpecGauss.v
theories/CdfProofs.v
theories/PropsGauss.v
theories/PropsOut5.v
theories/PropsRcont2.v
theories/PropsOut6.v
theories/SpecBvn.v
theories/BvnProofs.v
theories/BvnProofs2.v
theories/BvnProofs3.v
theories/BvnProofs4.v
theories/BvnProofs5.v
theories/PropsBvn.v
theories/HyperBeta.v
theories/HyperBeta2.v
theories/HyperBeta3.v
theories/SpecBeta2.v
theories/PropsBeta2.v
theories/PropsMC.v
theories/PropsOrder.v
theories/PropsCols.v
theories/BrentFModel.v
theories/BrentFProofs.v
theories/PropsFloatPhik.v
theories/ResModel.v
theories/PropsRes.v
theories/Chi2FModel.v
theories/SpecChi2F.v
theories/Chi2FProofs.v
theories/Chi2FProofs2.v
theories/Chi2FProofs3.v
theories/PropsChi2F.v
theories/QuantileFModel.v
theories/QuantileFProofs.v
theories/SpecQuant.v
theories/QuantileFProofs2.v
theories/PropsQuantF.v
theories/SigFModel.v
theories/SpecSigF.v
theories/PropsSigF.v
theories/GlobFModel.v
theories/PropsGlobF.v
theories/OutFModel.v
theories/OutFProofs.v
theories/SpecOutF.v
theories/OutFProofs2.v
theories/PropsOutF.v
theories/CatModel.v
theories/SpecCat.v
theories/PropsCat.v
theories/PropsCat2.v
theories/SpecMerge.v
theories/MergeProofs.v
theories/PropsMerge.v
theories/SpecUnits.v
theories/PropsUnits.v
theories/OutIntModel.v
theories/PropsOutInt.v
theories/LabelModel.v
theories/LabelProofs.v
theories/SpecLabel.v
theories/PropsLabel.v
theories/PhikMatFModel.v
theories/SpecMatF.v
theories/PropsMatF.v
theories/SearchModel.v
theories/PropsSearch.v
theories/PropsFewBins.v
theories/GStatModel.v
theories/SpecGStat.v
theories/GStatProofs.v
theories/GStatProofs2.v
theories/PropsGStat.v
theories/PiBound.v
theories/ZTailModel.v
theories/SpecZTail.v
theories/ZTailProofs.v
theories/PropsZTail.v
theories/ChernFProofs.v
theories/PropsChernF.v
theories/ReplProofs.v
theories/PropsRepl.v
theories/SimFModel.v
theories/SimFProofs.v
theories/PropsSimF.v
theories/MCFModel.v
theories/SpecMCF.v
theories/PropsMCF.v
theories/SpecSubset.v
theories/PropsSubset.v
theories/LabelSigModel.v
theories/SpecLabelSig.v
theories/PropsLabelSig.v
theories/PropsLabelOut.v
theories/HybFModel.v
theories/SpecHybF.v
theories/HybFProofs.v
theories/PropsHybF.v
theories/SigMatFModel.v
theories/SpecSigMatF.v
theories/PropsSigMatF.v
theories/OutMatFModel.v
theories/SpecOutMatF.v
theories/PropsOutMatF.v
theories/SpecInf.v
theories/PropsInf.v
theories/SpecInfQ.v
theories/PropsInfQ.v
theories/OutMatsFModel.v
theories/SpecOutMatsF.v
theories/PropsOutMatsF.v
theories/PropsAlone.v
theories/PropsIcols.v
theories/PropsBinsArg.v
