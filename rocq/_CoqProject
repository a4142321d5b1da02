-Q theories Verif
theories/Fl.v
theories/Cx.v
theories/Spec.v
theories/Spec2.v
theories/Spec3.v
theories/Spec4.v
theories/RealLemmas.v
theories/M_Utils.v
theories/M_EM.v
theories/M_Anis.v
theories/M_Fluid.v
theories/M_GM.v
theories/L_Lists.v
theories/L_Utils.v
theories/L_Anis.v
theories/L_Bond.v
theories/L_Thomsen.v
theories/L_EM1.v
theories/L_EM2.v
theories/L_EM3.v
theories/L_EM4.v
theories/L_EM5.v
theories/L_EM6.v
theories/L_EM7.v
theories/L_Fluid1.v
theories/L_Fluid2.v
theories/L_Fluid3.v
theories/L_Fluid4.v
theories/L_Fluid5.v
theories/L_Fluid6.v
theories/L_Fluid7.v
theories/L_Fluid8.v
theories/L_Fluid9.v
theories/L_Fluid10.v
theories/L_Fluid11.v
theories/L_GM1.v
theories/L_GM2.v
theories/L_GM3.v
theories/L_GM4.v
theories/L_GM5.v
theories/L_GM6.v
theories/Spec10.v
theories/L_GM7.v
theories/P_Utils.v
theories/P_Anis.v
theories/P_EM.v
theories/P_Fluid.v
theories/P_Fluid2.v
theories/P_GM.v
theories/M_Perm.v
theories/P_Perm.v
theories/Spec5.v
theories/M_AVO.v
theories/L_AVO1.v
theories/L_AVO2.v
theories/L_AVO3.v
theories/P_AVO.v
theories/M_BW.v
theories/L_BW.v
theories/L_BW2.v
theories/L_BW3.v
theories/P_BW.v
theories/M_Emp.v
theories/L_Emp.v
theories/P_Emp.v
theories/Spec6.v
theories/M_QI.v
theories/L_QI.v
theories/P_QI.v
theories/Spec7.v
theories/L_EM8.v
theories/L_EM9.v
theories/L_Prolate.v
theories/L_White.v
theories/L_Shape.v
theories/P_EM2.v
theories/Spec8.v
theories/Spec9.v
theories/L_AVO4.v
theories/P_AVO2.v
theories/M_Plot.v
theories/Spec11.v
theories/Spec12.v
theories/Spec13.v
theories/L_Plot.v
theories/P_Plot.v
theories/L_Cross.v
theories/L_Crack.v
theories/P_Cross.v
theories/P_Shape.v
theories/Spec14.v
theories/L_Ode.v
theories/L_Dem.v
theories/L_Dem2.v
theories/L_Dem3.v
theories/P_Dem.v
theories/L_VtiExact.v
theories/P_Thomsen.v
theories/L_Miranda.v
theories/L_SelfCons.v
theories/L_SelfCons2.v
theories/P_SelfCons.v
theories/Spec15.v
theories/L_Exact.v
theories/P_Exact.v
theories/M_Array.v
theories/M_ArrayFns.v
theories/Spec16.v
theories/L_Array.v
theories/L_ArrayFns.v
theories/P_Array.v
theories/M_Grid.v
theories/Spec17.v
theories/L_Grid.v
theories/L_GridFns.v
theories/P_Grid.v
theories/M_Round.v
theories/Spec18.v
theories/L_Round.v
theories/L_Round2.v
theories/L_RoundRel.v
theories/L_RoundFns.v
theories/L_RoundFns2.v
theories/P_Round.v
theories/Spec19.v
theories/L_Layers.v
theories/P_Layers.v
theories/L_Stiffer.v
theories/P_Stiffer.v
theories/Spec20.v
theories/L_Units.v
theories/L_Units2.v
theories/L_UnitsFns.v
theories/L_UnitsFns2.v
theories/L_UnitsFns3.v
theories/L_UnitsFns4.v
theories/L_UnitsArr.v
theories/L_UnitsRef.v
theories/P_Units.v
theories/Spec21.v
theories/L_Cont.v
theories/L_ContProg.v
theories/L_ContFns.v
theories/L_ContFns2.v
theories/L_ContFns3.v
theories/L_ContList.v
theories/P_Cont.v
theories/M_Double.v
theories/Spec22.v
theories/L_Double.v
theories/P_Double.v
theories/M_Store.v
theories/Spec23.v
theories/L_Store.v
theories/L_StoreFns.v
theories/L_StoreFns2.v
theories/P_Store.v
theories/M_Int.v
theories/M_IntFns.v
theories/Spec24.v
theories/L_Int.v
theories/P_Int.v
theories/Spec25.v
theories/L_Gap.v
theories/P_Gap.v
theories/Spec26.v
theories/L_Invert.v
theories/P_Invert.v
theories/M_List.v
theories/Spec27.v
theories/L_List.v
theories/P_List.v
theories/Spec28.v
theories/L_Pick.v
theories/P_Pick.v
theories/Spec29.v
theories/L_Modes.v
theories/L_ModesArr.v
theories/P_Modes.v
