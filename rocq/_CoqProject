-Q theories Verif
theories/IntModel.v
theories/IntSpec.v
theories/IntProofs.v
theories/PropsInt.v
theories/ValModel.v
theories/ValSpec.v
theories/ValProofs.v
theories/StreamModel.v
theories/StreamProofs.v
theories/PropsVal.v
theories/HashModel.v
theories/HashSpec.v
theories/HashProofs.v
theories/PropsHash.v
theories/SortModel.v
theories/SortSpec.v
theories/SortProofs.v
theories/PropsSort.v
theories/TarjanModel.v
theories/TarjanSpec.v
theories/TarjanProofs.v
theories/PropsTarjan.v
theories/ListModel.v
theories/ListSpec.v
theories/ListProofs.v
theories/PropsList.v
theories/IdModel.v
theories/IdSpec.v
theories/IdProofs.v
theories/PropsId.v
theories/SeqModel.v
theories/SeqSpec.v
theories/SeqProofs.v
theories/PropsSeq.v
theories/MatModel.v
theories/MatSpec.v
theories/MatTheory.v
theories/HermiteProofs.v
theories/HermiteProofs2.v
theories/InverseProofs.v
theories/InverseProofs2.v
theories/InverseMin.v
theories/MatProofs.v
theories/PropsMat.v
theories/EqModel.v
theories/EqSpec.v
theories/EqProofs.v
theories/EqProofs2.v
theories/EqProofs3.v
theories/EqProofs4.v
theories/PropsEq.v
theories/BMapModel.v
theories/BMapSpec.v
theories/BMapSem.v
theories/BMapLists.v
theories/BMapNorm.v
theories/BMapGauss.v
theories/BMapGauss2.v
theories/BMapOrder.v
theories/PropsBMap.v
theories/BDupModel.v
theories/BDupProofs.v
theories/PropsBDup.v
theories/BElimModel.v
theories/BElimSpec.v
theories/BElimSort.v
theories/BElimCols.v
theories/BElimProofs.v
theories/BElimFM.v
theories/BElimVars.v
theories/PropsBElim.v
theories/CtxModel.v
theories/CtxProofs.v
theories/PropsCtx.v
theories/AstModel.v
theories/AstSpec.v
theories/AstParse.v
theories/AstLex.v
theories/AstProofs.v
theories/AstValue.v
theories/PropsAst.v
theories/TightProofs.v
theories/PropsTight.v
theories/SpaceModel.v
theories/SpaceSpec.v
theories/SpaceBase.v
theories/SpaceOps.v
theories/SpaceOps2.v
theories/SpaceOps3.v
theories/SpaceOps4.v
theories/SpaceProofs.v
theories/PropsSpace.v
theories/SpaceAlign.v
theories/ReorderModel.v
theories/ReorderSpec.v
theories/ReorderBase.v
theories/ReorderProofs.v
theories/PropsReorder.v
theories/TightProofs2.v
theories/PropsTight2.v
theories/SpaceDims.v
theories/PropsTight3.v
theories/TabModel.v
theories/TabSpec.v
theories/TabBase.v
theories/TabStruct.v
theories/TabMark.v
theories/TabPivot.v
theories/TabStep.v
theories/TabSign.v
theories/TabMin.v
theories/TabKill.v
theories/TabAdd.v
theories/TabClose.v
theories/TabCut.v
theories/TabDetect.v
theories/TabRestore.v
theories/TabBuild.v
theories/TabMap.v
theories/TabComplete.v
theories/TabComplete2.v
theories/TabHold.v
theories/TabComplete3.v
theories/PropsTab.v
theories/PropsTabComplete.v
theories/TabEqModel.v
theories/TabEq.v
theories/TabEq2.v
theories/PropsTabEq.v
theories/TabRelaxModel.v
theories/TabRelax.v
theories/TabRelax2.v
theories/PropsTabRelax.v
theories/TabBasis.v
theories/PropsTabBasis.v
theories/LpModel.v
theories/LpUndo.v
theories/LpSpec.v
theories/LpMin.v
theories/LpSolve.v
theories/LpMap.v
theories/IlpModel.v
theories/IlpSpec.v
theories/IlpProofs.v
theories/PropsLp.v
theories/UndoSpec.v
theories/UndoBase.v
theories/UndoTrail.v
theories/UndoRoll.v
theories/UndoProofs.v
theories/UndoReach.v
theories/UndoOps.v
theories/PropsUndo.v
theories/LocalModel.v
theories/PolyModel.v
theories/PolySpec.v
theories/PolyBase.v
theories/PolyArith.v
theories/PolyOps.v
theories/PolyOps2.v
theories/PolyOps3.v
theories/PolyUniq.v
theories/PolyTerms.v
theories/PolyMore.v
theories/PolyHom.v
theories/PolyThms.v
theories/PropsPoly.v
theories/LocalSpec.v
theories/LocalProofs.v
theories/QpModel.v
theories/QpSpec.v
theories/QpProofs.v
theories/QpRefute.v
theories/PropsQp.v
theories/AffModel.v
theories/AffSpec.v
theories/AffBase.v
theories/AffNorm.v
theories/AffProofs.v
theories/AffArith.v
theories/AffPull.v
theories/AffAlign.v
theories/AffMore.v
theories/AffRefute.v
theories/PropsAff.v
theories/SimpModel.v
theories/SimpSpec.v
theories/SimpBase.v
theories/SimpDrop.v
theories/SimpDivs.v
theories/SimpShift.v
theories/SimpDups.v
theories/SimpIneq.v
theories/SimpGauss.v
theories/SimpNorm.v
theories/SimpNew.v
theories/SimpNorm2.v
theories/SimpNorm3.v
theories/SimpFinal.v
theories/PropsSimp.v
theories/SetModel.v
theories/SetBase.v
theories/SetSpec.v
theories/SetViews.v
theories/SetLift.v
theories/SetOps.v
theories/SetOps2.v
theories/SetOps3.v
theories/SetProject.v
theories/SetMaps.v
theories/PropsSet.v
theories/SubModel.v
theories/SubSpec.v
theories/SubBase.v
theories/SubDivs.v
theories/SubLoop.v
theories/SubDisj.v
theories/SubMaps.v
theories/SubProofs.v
theories/PropsSub.v
theories/PwModel.v
theories/PwSpec.v
theories/PwBase.v
theories/PwOps.v
theories/PwSets.v
theories/PwOpt.v
theories/PwMore.v
theories/PropsPw.v
theories/ScanModel.v
theories/ScanSpec.v
theories/ScanBase.v
theories/ScanLoop.v
theories/ScanProofs.v
theories/ScanToy.v
theories/PropsScan.v
theories/FlowModel.v
theories/FlowSpec.v
theories/FlowBase.v
theories/FlowMust.v
theories/FlowMay.v
theories/FlowProofs.v
theories/FlowFinal.v
theories/PropsFlow.v
theories/SchedModel.v
theories/SchedSpec.v
theories/SchedProofs.v
theories/SchedOps.v
theories/SchedMore.v
theories/SchedFinal.v
theories/SchedInv.v
theories/SchedMap.v
theories/PropsSched.v
theories/GistModel.v
theories/GistSpec.v
theories/GistFlat.v
theories/GistFull.v
theories/GistUset.v
theories/GistComp.v
theories/GistSet.v
theories/GistAlign.v
theories/GistOver.v
theories/GistBmap.v
theories/GistBasic.v
theories/GistMap.v
theories/PropsGist.v
theories/RdivModel.v
theories/RdivSpec.v
theories/RdivStep.v
theories/RdivElim.v
theories/RdivMore.v
theories/RdivSimp.v
theories/RdivCoal.v
theories/RdivSort.v
theories/RdivChange.v
theories/RdivTab.v
theories/RdivProofs.v
theories/PropsRdiv.v
theories/RdivSet.v
theories/PropsSetDrop.v
theories/QpReduce.v
theories/QpReduce2.v
theories/QpFlat.v
theories/QpFlat2.v
theories/QpMove.v
theories/PropsQpFlat.v
