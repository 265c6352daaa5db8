-Q theories Verif
theories/QcTac.v
theories/Base.v
theories/ListLib.v
theories/M_Stat.v
theories/S_Stat.v
theories/P_Stat.v
theories/P_Quant.v
theories/P_Even.v
theories/P_StatAll.v
theories/T_Stat.v
theories/M_Interp.v
theories/S_Interp.v
theories/P_Interp.v
theories/T_Interp.v
theories/S_Slice.v
theories/P_Slice.v
theories/M_Window.v
theories/S_Window.v
theories/P_Window.v
theories/T_Window.v
theories/M_Neigh.v
theories/S_Neigh.v
theories/P_Neigh.v
theories/P_NeighAll.v
theories/P_NeighMore.v
theories/P_NeighSafe.v
theories/T_Neigh.v
theories/M_Fast.v
theories/S_Fast.v
theories/P_Fast.v
theories/M_Sched.v
theories/S_Sched.v
theories/P_Sched.v
theories/P_SchedQ.v
theories/T_Fast.v
theories/M_Search.v
theories/S_Search.v
theories/P_Search.v
theories/T_Search.v
theories/M_Curve.v
theories/M_TfVec.v
theories/M_Score.v
theories/S_Curve.v
theories/S_Point.v
theories/S_Score.v
theories/P_Curve.v
theories/P_Mono.v
theories/P_QMap.v
theories/P_Point.v
theories/P_Score.v
theories/T_Curve.v
theories/M_Geo.v
theories/S_Geo.v
theories/P_Geo.v
theories/P_Neighbours.v
theories/P_Grid.v
theories/P_Points.v
theories/P_Box.v
theories/T_Geo.v
theories/S_Near.v
theories/M_Near.v
theories/P_Near.v
theories/M_Grd.v
theories/P_Grd.v
theories/P_Assign.v
theories/P_Write.v
theories/P_Missing.v
theories/P_Bound.v
theories/P_Count.v
theories/T_Near.v
theories/M_Bilin.v
theories/S_Bilin.v
theories/P_Bilin.v
theories/P_BilinGrid.v
theories/P_Trap.v
theories/T_Bilin.v
theories/M_Down.v
theories/S_Down.v
theories/P_Ens.v
theories/P_Grad.v
theories/P_GradAll.v
theories/P_CGrad.v
theories/T_Down.v
theories/RBase.v
theories/P_RBase.v
theories/M_Struct.v
theories/S_Struct.v
theories/P_Struct.v
theories/P_StructA.v
theories/P_StructB.v
theories/P_StructC.v
theories/T_Struct.v
theories/M_OI.v
theories/S_OI.v
theories/P_OISum.v
theories/P_OIInv.v
theories/P_OI.v
theories/P_OICell.v
theories/P_OISolve.v
theories/P_OIAll.v
theories/P_OIProps.v
theories/P_OITotal.v
theories/P_OIGrid.v
theories/P_OIPerm.v
theories/P_OIThm.v
theories/P_OIRef.v
theories/T_OI.v
theories/RPow.v
theories/M_Trans.v
theories/S_Trans.v
theories/P_Trans.v
theories/T_Trans.v
theories/M_Diag.v
theories/M_RelHum.v
theories/S_RelHum.v
theories/S_Diag.v
theories/P_RelHum.v
theories/P_Wind.v
theories/M_Wind32.v
theories/P_Wind32.v
theories/P_Press.v
theories/P_Humid.v
theories/P_DiagVec.v
theories/T_Diag.v
theories/M_Dist.v
theories/S_Dist.v
theories/P_Dist.v
theories/P_DistAll.v
theories/M_NScore.v
theories/S_NScore.v
theories/P_NScore.v
theories/T_Dist.v
theories/T_DistAll.v
theories/T_NScore.v
theories/M_CorrPts.v
theories/S_CorrPts.v
theories/P_CorrPts.v
theories/T_CorrPts.v
theories/M_LDC.v
theories/S_LDC.v
theories/P_LDC.v
theories/T_LDC.v
theories/M_Opt.v
theories/S_Opt.v
theories/P_Opt.v
theories/T_Opt.v
theories/M_EnsMulti.v
theories/S_EnsMulti.v
theories/P_EnsSel.v
theories/P_EnsMulti.v
theories/P_EnsAll.v
theories/P_EnsGrid.v
theories/P_StructMk.v
theories/T_EnsMulti.v
theories/M_Ensi.v
theories/S_Ensi.v
theories/P_RSum.v
theories/P_EnsiAlg.v
theories/P_EnsiCell.v
theories/P_EnsiSpec.v
theories/P_EnsiRoot.v
theories/P_Ensi.v
theories/P_EnsiAll.v
theories/P_EnsiWit.v
theories/P_EnsiFin.v
theories/T_Ensi.v
theories/M_EnsDyn.v
theories/S_EnsDyn.v
theories/P_RInv.v
theories/P_EnsDyn.v
theories/P_EnsDynCell.v
theories/P_EnsDynAll.v
theories/P_EnsDynRef.v
theories/T_EnsDyn.v
theories/M_EnsUtem.v
theories/S_EnsUtem.v
theories/P_RAlg.v
theories/P_EnsUtem.v
theories/P_EnsUtemSpec.v
theories/P_EnsUtemAll.v
theories/P_XLib.v
theories/P_EnsUtemRef.v
theories/P_EnsUtemTop.v
theories/T_EnsUtem.v
theories/P_EnsChk.v
theories/T_EnsChk.v
theories/M_COpt.v
theories/S_COpt.v
theories/P_COpt.v
theories/T_COpt.v
theories/M_CDate.v
theories/S_CDate.v
theories/P_CDateChk.v
theories/P_CDate.v
theories/T_CDate.v
theories/M_CText.v
theories/S_CText.v
theories/P_CText.v
theories/T_CText.v
theories/M_CUtil.v
theories/S_CUtil.v
theories/P_CUtil.v
theories/T_CUtil.v
theories/M_CCal.v
theories/S_CCal.v
theories/P_CCal.v
theories/T_CCal.v
theories/M_CCal2.v
theories/S_CCal2.v
theories/P_CCal2.v
theories/T_CCal2.v
theories/M_CTree.v
theories/S_CTree.v
theories/P_CTree.v
theories/T_CTree.v
theories/M_CDown.v
theories/S_CDown.v
theories/P_CDown.v
theories/T_CDown.v
theories/M_CNeigh.v
theories/S_CNeigh.v
theories/P_CNeigh.v
theories/T_CNeigh.v
theories/M_CQq.v
theories/S_CQq.v
theories/P_CQq.v
theories/T_CQq.v
theories/M_CGradient.v
theories/S_CGradient.v
theories/P_CGradient.v
theories/T_CGradient.v
theories/M_CPar.v
theories/S_CPar.v
theories/P_CPar.v
theories/P_CParTxt.v
theories/T_CPar.v
theories/M_CSetup.v
theories/S_CSetup.v
theories/P_CSetup.v
theories/P_CSetup2.v
theories/P_CSetup3.v
theories/P_CSetup4.v
theories/T_CSetup.v
theories/M_CDist.v
theories/S_CDist.v
theories/P_CDist.v
theories/P_CGauss.v
theories/P_CBct.v
theories/P_CZaga.v
theories/P_CPop.v
theories/P_CZaga2.v
theories/P_CDistEx.v
theories/T_CDist.v
theories/M_CDiag.v
theories/S_CDiag.v
theories/P_CDiag.v
theories/M_CCoast.v
theories/S_CCoast.v
theories/P_CCoast.v
theories/P_CAlt.v
theories/P_CDiagEx.v
theories/T_CDiag.v
theories/M_CBilin.v
theories/S_CBilin.v
theories/P_CBilin.v
theories/P_CBilinEx.v
theories/T_CBilin.v
theories/M_CKrig.v
theories/S_CKrig.v
theories/P_CKrig.v
theories/P_CKrigEx.v
theories/T_CKrig.v
theories/M_COi.v
theories/S_COi.v
theories/P_COi.v
theories/P_COi2.v
theories/P_COiEx.v
theories/T_COi.v
theories/M_COiTr.v
theories/P_COiTr.v
theories/T_COiTr.v
theories/M_CFile.v
theories/S_CFile.v
theories/P_CFile.v
theories/P_CFile2.v
theories/P_CFile3.v
theories/P_CFileEx.v
theories/T_CFile.v
theories/M_COiEns.v
theories/S_COiEns.v
theories/P_COiEns.v
theories/P_COiEns2.v
theories/P_COiEns3.v
theories/P_COiEns4.v
theories/P_COiEns5.v
theories/P_COiEns6.v
theories/T_COiEns.v
theories/M_CTrain.v
theories/S_CTrain.v
theories/P_CTrain.v
theories/P_CTrain2.v
theories/P_CTrain3.v
theories/P_CTrain4.v
theories/P_CTrain5.v
theories/T_CTrain.v
theories/M_CMain.v
theories/S_CMain.v
theories/P_CMain.v
theories/P_CMain2.v
theories/P_CMain3.v
theories/P_CMain4.v
theories/T_CMain.v
theories/M_CNc.v
theories/S_CNc.v
theories/P_CNc.v
theories/P_CNc2.v
theories/P_CNc3.v
theories/P_CNc4.v
theories/P_CNc5.v
theories/P_CNc6.v
theories/P_CNc7.v
theories/P_CNc8.v
theories/T_CNc.v
theories/P_CTight.v
theories/T_CTight.v
theories/M_CParNc.v
theories/S_CParNc.v
theories/P_CParNc.v
theories/P_CParNc2.v
theories/P_CParNc3.v
theories/P_CParNc4.v
theories/P_CParNc5.v
theories/P_CParNc6.v
theories/T_CParNc.v
theories/M_CNcOpen.v
theories/S_CNcOpen.v
theories/P_CNcOpen.v
theories/P_CNcOpen2.v
theories/M_CNcRest.v
theories/S_CNcRest.v
theories/P_CNcRest.v
theories/P_CNcRest2.v
theories/T_CNcOpen.v
theories/M_CNorcom.v
theories/S_CNorcom.v
theories/P_CNorcom.v
theories/P_CNorcom2.v
theories/T_CNorcom.v
theories/M_CVars.v
theories/S_CVars.v
theories/P_CVars.v
theories/T_CVars.v
theories/M_CLik.v
theories/S_CLik.v
theories/P_CLik.v
theories/T_CLik.v
theories/P_Fast3.v
theories/T_Fast3.v
theories/S_Sizes.v
theories/P_Sizes.v
theories/T_Sizes.v
