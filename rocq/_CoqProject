-Q theories Verif
theories/Base.v
theories/Quantity.v
theories/SpecQuantity.v
theories/QuantityProofs.v
theories/FlatMap.v
theories/SpecFlatMap.v
theories/FlatMapProofs.v
theories/FlatMapThms.v
theories/Prop_Quantity.v
theories/Prop_FlatMap.v
theories/Ring.v
theories/Index.v
theories/SpecIndex.v
theories/IndexProofs.v
theories/Prop_Index.v
theories/Dense.v
theories/BTensor.v
theories/SpecBTensor.v
theories/LegsProofs.v
theories/BTensorProofs.v
theories/BTensorThms.v
theories/BTensorEx.v
theories/SelRule.v
theories/SelRuleProofs.v
theories/BTensorThms2.v
theories/Prop_BTensor.v
theories/BTensorArith.v
theories/SpecArith.v
theories/ArithProofs.v
theories/ArithThms.v
theories/Prop_Arith.v
theories/Truncate.v
theories/SpecTruncate.v
theories/TruncateProofs.v
theories/Prop_Truncate.v
theories/Dmrg.v
theories/SpecDmrg.v
theories/DmrgProofs.v
theories/DmrgThms.v
theories/Prop_Dmrg.v
theories/Tensordot.v
theories/SpecTensordot.v
theories/TensordotProofs.v
theories/TensordotThms.v
theories/Prop_Tensordot.v
theories/Reshape.v
theories/SpecReshape.v
theories/ReshapeProofs.v
theories/ReshapeThms.v
theories/Prop_Reshape.v
theories/View.v
theories/SpecView.v
theories/ViewProofs.v
theories/ViewThms.v
theories/ViewPut.v
theories/Prop_View.v
theories/Models.v
theories/SpecModels.v
theories/ModelsProofs.v
theories/ModelsThms.v
theories/ModelsEx.v
theories/Prop_Models.v
theories/ChainCheck.v
theories/SpecChainCheck.v
theories/ChainCheckProofs.v
theories/Prop_ChainCheck.v
theories/Chain.v
theories/SpecChain.v
theories/ChainProofs.v
theories/ChainThms.v
theories/ChainInst.v
theories/ChainEnd.v
theories/Prop_Chain.v
theories/Edges.v
theories/SpecEdges.v
theories/EdgesProofs.v
theories/EdgesBlock.v
theories/Prop_Edges.v
theories/Prop_EdgesEx.v
theories/Bcast.v
theories/SpecBcast.v
theories/BcastProofs.v
theories/BcastThms.v
theories/BcastMain.v
theories/Prop_Bcast.v
theories/Rand.v
theories/SpecRand.v
theories/RandProofs.v
theories/Prop_Rand.v
theories/SpecViewKeep.v
theories/ViewKeep.v
theories/Prop_ViewKeep.v
theories/SpecSector.v
theories/SectorThms.v
theories/Prop_Sector.v
theories/RandChain.v
theories/SpecRandChain.v
theories/RandChainProofs.v
theories/RandChainThms.v
theories/Prop_RandChain.v
theories/ModelsBlock.v
theories/SpecModelsBlock.v
theories/ModelsBlockProofs.v
theories/ModelsBlockThms.v
theories/RingQc.v
theories/Prop_ModelsBlock.v
theories/Bmm.v
theories/SpecBmm.v
theories/BmmProofs.v
theories/BmmLoops.v
theories/BmmThms.v
theories/BmmMain.v
theories/Prop_Bmm.v
theories/OpsBlock.v
theories/SpecOps.v
theories/OpsProofs.v
theories/OpsThms.v
theories/Prop_Ops.v
theories/BSvd.v
theories/SvdPieces.v
theories/SvdProofs.v
theories/SvdThms.v
theories/SpecSvd.v
theories/SvdMain.v
theories/SvdDense.v
theories/SvdEx.v
theories/Prop_Svd.v
theories/MoveOc.v
theories/SpecMove.v
theories/MoveProofs.v
theories/MoveThms.v
theories/MoveInst.v
theories/MoveEx.v
theories/Prop_Move.v
theories/BTrunc.v
theories/SpecBTrunc.v
theories/BTruncProofs.v
theories/BTruncThms.v
theories/BTruncDense.v
theories/BTruncMain.v
theories/BTruncEx.v
theories/Prop_BTrunc.v
theories/Coalesce.v
theories/SpecCoalesce.v
theories/CoalesceProofs.v
theories/CoalesceThms.v
theories/CoalesceEx.v
theories/Prop_Coalesce.v
theories/ModelsCoal.v
theories/SpecModelsCoal.v
theories/ModelsCoalProofs.v
theories/ModelsCoalThms.v
theories/ModelsCoalEx.v
theories/Prop_ModelsCoal.v
theories/BEigh.v
theories/SpecEigh.v
theories/EighPieces.v
theories/EighLoop.v
theories/EighMatrix.v
theories/EighThms.v
theories/EighSplit.v
theories/EighRule.v
theories/EighEx.v
theories/Prop_Eigh.v
theories/Num.v
theories/Eig2.v
theories/SpecEig2.v
theories/Eig2Proofs.v
theories/NumR.v
theories/Eig2Ex.v
theories/Prop_Eig2.v
theories/Lanczos.v
theories/SpecLanczos.v
theories/LanczosVec.v
theories/LanczosProofs.v
theories/LanczosEx.v
theories/Prop_Lanczos.v
theories/SiteUpdate.v
theories/SpecSiteUpdate.v
theories/ChainNorm.v
theories/ChainEnergy.v
theories/SiteUpdateProofs.v
theories/SiteUpdateThms.v
theories/SiteUpdateEx.v
theories/Prop_SiteUpdate.v
theories/DmrgRun.v
theories/SpecDmrgRun.v
theories/DmrgRunProofs.v
theories/DmrgRunThms.v
theories/DmrgRunMain.v
theories/DmrgRunEx.v
theories/Prop_DmrgRun.v
theories/Gdot.v
theories/SpecGdot.v
theories/GdotProofs.v
theories/GdotThms.v
theories/GdotEx.v
theories/Prop_Gdot.v
theories/MpsBox.v
theories/SpecMpsBox.v
theories/MpsBoxProofs.v
theories/Prop_MpsBox.v
theories/BLanczos.v
theories/SpecBLanczos.v
theories/BLanczosProofs.v
theories/BLanczosThms.v
theories/BLanczosEx.v
theories/BLanczosMiss.v
theories/BLanczosMain.v
theories/Prop_BLanczos.v
theories/Prop_TdotBlocks.v
theories/Erased.v
theories/SpecErased.v
theories/ErasedProofs.v
theories/ErasedThms.v
theories/ErasedRefs.v
theories/Prop_Erased.v
theories/QVec.v
theories/SpecQVec.v
theories/QVecProofs.v
theories/QVecThms.v
theories/Prop_QVec.v
theories/SpecBSiteUpdate.v
theories/BSvdCut.v
theories/BSiteUpdate.v
theories/BSiteUpdateThms.v
theories/BSiteChain.v
theories/BSiteUpdateEx.v
theories/Prop_BSiteUpdate.v
theories/BRunStep.v
theories/BDmrgRun.v
theories/SpecBDmrgRun.v
theories/BRunSite.v
theories/BRunProofs.v
theories/BRunMain.v
theories/BRunThms.v
theories/BRunEnergy.v
theories/BSiteUnit.v
theories/BRunEx.v
theories/Prop_BDmrgRun.v
theories/DmrgFree.v
theories/DmrgFreeThms.v
theories/EigenUpdate.v
theories/RandDmrg.v
theories/SpecRandDmrg.v
theories/RandDmrgThms.v
theories/EigenStep.v
theories/RandDmrgEx.v
theories/RandDmrgEx2.v
theories/Prop_RandDmrg.v
theories/Share.v
theories/SpecShare.v
theories/ShareProofs.v
theories/ShareThms.v
theories/ShareOps.v
theories/ShareEx.v
theories/Prop_Share.v
theories/ScalarOps.v
theories/SpecScalarOps.v
theories/ScalarOpsThms.v
theories/ScalarOpsEx.v
theories/Prop_ScalarOps.v
theories/RandBDmrg.v
theories/SpecRandBDmrg.v
theories/RandBDmrgThms.v
theories/RandUnit.v
theories/RandBEnergy.v
theories/RandBDmrgEx.v
theories/Prop_RandBDmrg.v
theories/RandPasses.v
theories/LanczosExact.v
theories/Guard.v
theories/SpecGuard.v
theories/GuardThms.v
theories/Prop_Guard.v
theories/DenseEigh.v
theories/SpecDenseEigh.v
theories/DenseEighThms.v
theories/DenseEighEx.v
theories/Prop_DenseEigh.v
theories/SpecDmrgStuck.v
theories/SiteUpdateExact.v
theories/DmrgRunExact.v
theories/DmrgRunExactEx.v
theories/Prop_DmrgRunExact.v
theories/SiteUpdateTrunc.v
theories/BellEx.v
theories/Prop_SiteUpdateTrunc.v
theories/BellRun.v
theories/Prop_DmrgTrunc.v
theories/SmallEx.v
theories/Prop_SiteUpdateSmall.v
theories/Compact.v
theories/SpecCompact.v
theories/CompactProofs.v
theories/CompactThms.v
theories/Prop_Compact.v
theories/CompactType.v
theories/SpecCompactType.v
theories/CompactTypeProofs.v
theories/CompactTypeMain.v
theories/Prop_CompactType.v
