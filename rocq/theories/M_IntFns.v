(** * M_IntFns: the programs of M_ArrayFns.v with their integers.

    Whole-number literals count as integers ([Spec24.written] covers the ones written [2.0]). In [EM.HS], [Fluid.Biot_HF] and
    [Fluid.Geertsma_Smit_HF] the reciprocals are written [x**-1] (EM.py 127, 130, 132, 135; Fluid.py 160, 193) and x may be an
    integer; elsewhere [x**-1] is only written of floats, where it is the same as [1/x]. *)
From Verif Require Import Fl M_Array M_ArrayFns M_Int.

Definition int_utils_V : iprog := ltac:(annotated false arr_utils_V).
Definition int_utils_poi : iprog := ltac:(annotated false arr_utils_poi).
Definition int_utils_lame : iprog := ltac:(annotated false arr_utils_lame).
Definition int_utils_M_from_V : iprog := ltac:(annotated false arr_utils_M_from_V).
Definition int_utils_crack_por : iprog := ltac:(annotated false arr_utils_crack_por).
Definition int_EM_cripor : iprog := ltac:(annotated false arr_EM_cripor).
Definition int_EM_HS_upper : iprog := ltac:(annotated true arr_EM_HS_upper).
Definition int_EM_HS_lower : iprog := ltac:(annotated true arr_EM_HS_lower).
Definition int_EM_hudson_rand : iprog := ltac:(annotated false arr_EM_hudson_rand).
Definition int_EM_Dilute_crack : iprog := ltac:(annotated false arr_EM_Dilute_crack).
Definition int_EM_OConnell_Budiansky : iprog := ltac:(annotated false arr_EM_OConnell_Budiansky).
Definition int_EM_SC_dilute_stress : iprog := ltac:(annotated false arr_EM_SC_dilute_stress).
Definition int_EM_SC_dilute_strain : iprog := ltac:(annotated false arr_EM_SC_dilute_strain).
Definition int_EM_MT_average : iprog := ltac:(annotated false arr_EM_MT_average).
Definition int_Anis_Thomsen : iprog := ltac:(annotated false arr_Anis_Thomsen).
Definition int_Anis_Thomsen_Tsvankin : iprog := ltac:(annotated false arr_Anis_Thomsen_Tsvankin).
Definition int_Fluid_Brie : iprog := ltac:(annotated false arr_Fluid_Brie).
Definition int_Fluid_Biot_HF : iprog := ltac:(annotated true arr_Fluid_Biot_HF).
Definition int_Fluid_Geertsma_Smit_HF : iprog := ltac:(annotated true arr_Fluid_Geertsma_Smit_HF).
Definition int_Fluid_Geertsma_Smit_LF : iprog := ltac:(annotated false arr_Fluid_Geertsma_Smit_LF).
Definition int_Fluid_Gassmann : iprog := ltac:(annotated false arr_Fluid_Gassmann).
Definition int_Fluid_Gassmann_sub : iprog := ltac:(annotated false arr_Fluid_Gassmann_sub).
Definition int_Fluid_vels : iprog := ltac:(annotated false arr_Fluid_vels).
Definition int_Fluid_Gassmann_vels : iprog := ltac:(annotated false arr_Fluid_Gassmann_vels).
Definition int_Fluid_Gassmann_approx : iprog := ltac:(annotated false arr_Fluid_Gassmann_approx).
Definition int_Fluid_Mavko_Jizba : iprog := ltac:(annotated false arr_Fluid_Mavko_Jizba).
Definition int_GM_ThomasStieber : iprog := ltac:(annotated false arr_GM_ThomasStieber).
Definition int_GM_silty_shale : iprog := ltac:(annotated false arr_GM_silty_shale).
Definition int_GM_shaly_sand : iprog := ltac:(annotated false arr_GM_shaly_sand).
Definition int_GM_contactcement_1 : iprog := ltac:(annotated false arr_GM_contactcement_1).
Definition int_GM_contactcement_2 : iprog := ltac:(annotated false arr_GM_contactcement_2).
Definition int_GM_hertzmindlin : iprog := ltac:(annotated false arr_GM_hertzmindlin).
Definition int_GM_softsand : iprog := ltac:(annotated false arr_GM_softsand).
Definition int_GM_Walton : iprog := ltac:(annotated false arr_GM_Walton).
Definition int_GM_stiffsand : iprog := ltac:(annotated false arr_GM_stiffsand).
Definition int_GM_constantcement_1 : iprog := ltac:(annotated false arr_GM_constantcement_1).
Definition int_GM_constantcement_2 : iprog := ltac:(annotated false arr_GM_constantcement_2).
Definition int_GM_MUHS_1 : iprog := ltac:(annotated false arr_GM_MUHS_1).
Definition int_GM_MUHS_2 : iprog := ltac:(annotated false arr_GM_MUHS_2).
Definition int_Perm_Kozeny_Carman : iprog := ltac:(annotated false arr_Perm_Kozeny_Carman).
Definition int_Perm_Kozeny_Carman_Percolation : iprog := ltac:(annotated false arr_Perm_Kozeny_Carman_Percolation).
Definition int_Perm_Owolabi : iprog := ltac:(annotated false arr_Perm_Owolabi).
Definition int_Perm_Perm_logs : iprog := ltac:(annotated false arr_Perm_Perm_logs).
Definition int_Perm_Panda_Lake : iprog := ltac:(annotated false arr_Perm_Panda_Lake).
Definition int_Perm_Panda_Lake_cem : iprog := ltac:(annotated false arr_Perm_Panda_Lake_cem).
Definition int_Perm_Revil : iprog := ltac:(annotated false arr_Perm_Revil).
Definition int_Perm_Fredrich : iprog := ltac:(annotated false arr_Perm_Fredrich).
Definition int_Perm_Bloch : iprog := ltac:(annotated false arr_Perm_Bloch).
Definition int_Perm_Bernabe : iprog := ltac:(annotated false arr_Perm_Bernabe).
Definition int_Emp_krief : iprog := ltac:(annotated false arr_Emp_krief).
Definition int_Emp_esti_VS : iprog := ltac:(annotated false arr_Emp_esti_VS).
Definition int_Emp_han : iprog := ltac:(annotated false arr_Emp_han).
Definition int_Emp_ehrenberg : iprog := ltac:(annotated false arr_Emp_ehrenberg).
Definition int_Emp_ramm_porosity_true : iprog := ltac:(annotated false arr_Emp_ramm_porosity_true).
Definition int_Emp_ramm_porosity_false : iprog := ltac:(annotated false arr_Emp_ramm_porosity_false).
Definition int_Emp_StPeter_1 : iprog := ltac:(annotated false arr_Emp_StPeter_1).
Definition int_Emp_StPeter_2 : iprog := ltac:(annotated false arr_Emp_StPeter_2).
Definition int_Emp_Scherbaum : iprog := ltac:(annotated false arr_Emp_Scherbaum).
Definition int_Emp_Sclater : iprog := ltac:(annotated false arr_Emp_Sclater).
Definition int_Emp_Storvoll : iprog := ltac:(annotated false arr_Emp_Storvoll).
Definition int_Emp_Hillis : iprog := ltac:(annotated false arr_Emp_Hillis).
Definition int_Emp_hjelstuen : iprog := ltac:(annotated false arr_Emp_hjelstuen).
Definition int_Emp_Cp : iprog := ltac:(annotated false arr_Emp_Cp).
Definition int_BW_dz_dp : iprog := ltac:(annotated false arr_BW_dz_dp).
Definition int_BW_pseudo_p_t : iprog := ltac:(annotated false arr_BW_pseudo_p_t).
Definition int_BW_rho_K_co2 : iprog := ltac:(annotated false arr_BW_rho_K_co2).
Definition int_BW_rho_K_gas : iprog := ltac:(annotated false arr_BW_rho_K_gas).
Definition int_BW_rho_K_oil : iprog := ltac:(annotated false arr_BW_rho_K_oil).
Definition int_BW_rho_K_go_sat : iprog := ltac:(annotated false arr_BW_rho_K_go_sat).
Definition int_BW_v_water : iprog := ltac:(annotated false arr_BW_v_water).
Definition int_BW_rho_K_water : iprog := ltac:(annotated false arr_BW_rho_K_water).
Definition int_BW_v_brine : iprog := ltac:(annotated false arr_BW_v_brine).
Definition int_BW_rho_K_brine : iprog := ltac:(annotated false arr_BW_rho_K_brine).
Definition int_BW_co2_brine_true : iprog := ltac:(annotated false arr_BW_co2_brine_true).
Definition int_BW_co2_brine_false : iprog := ltac:(annotated false arr_BW_co2_brine_false).
Definition int_AVO_zoeppritz : iprog := ltac:(annotated false arr_AVO_zoeppritz).
Definition int_AVO_AVO_abe : iprog := ltac:(annotated false arr_AVO_AVO_abe).
Definition int_AVO_AVO_ortho : iprog := ltac:(annotated false arr_AVO_AVO_ortho).
Definition int_GM_pcm_stiff_1 : iprog := ltac:(annotated false arr_GM_pcm_stiff_1).
Definition int_GM_pcm_stiff_2 : iprog := ltac:(annotated false arr_GM_pcm_stiff_2).
Definition int_GM_pcm_soft_1 : iprog := ltac:(annotated false arr_GM_pcm_soft_1).
Definition int_GM_pcm_soft_2 : iprog := ltac:(annotated false arr_GM_pcm_soft_2).
Definition int_GM_vpcm_1 : iprog := ltac:(annotated false arr_GM_vpcm_1).
Definition int_GM_vpcm_2 : iprog := ltac:(annotated false arr_GM_vpcm_2).
Definition int_QI_matrix_modulus : iprog := ltac:(annotated false arr_QI_matrix_modulus).

(** Number of arguments, k, program: integers up to 10^k in absolute value, whichever arguments they are. *)
Definition int_table : list (nat * Z * iprog) :=
  [(3%nat, 18%Z, int_utils_V); (2%nat, 18%Z, int_utils_poi); (2%nat, 18%Z, int_utils_lame); (3%nat, 5%Z, int_utils_M_from_V);
   (2%nat, 18%Z, int_utils_crack_por); (4%nat, 18%Z, int_EM_cripor); (6%nat, 9%Z, int_EM_hudson_rand); (3%nat, 18%Z, int_EM_Dilute_crack);
   (3%nat, 17%Z, int_EM_OConnell_Budiansky); (5%nat, 18%Z, int_EM_SC_dilute_stress); (5%nat, 18%Z, int_EM_SC_dilute_strain);
   (7%nat, 6%Z, int_EM_MT_average); (7%nat, 9%Z, int_Anis_Thomsen); (9%nat, 9%Z, int_Anis_Thomsen_Tsvankin);
   (7%nat, 4%Z, int_Fluid_Geertsma_Smit_LF); (5%nat, 9%Z, int_Fluid_Gassmann); (5%nat, 9%Z, int_Fluid_Gassmann_sub);
   (7%nat, 9%Z, int_Fluid_vels); (9%nat, 6%Z, int_Fluid_Gassmann_vels); (5%nat, 9%Z, int_Fluid_Gassmann_approx);
   (9%nat, 5%Z, int_Fluid_Mavko_Jizba); (3%nat, 9%Z, int_GM_ThomasStieber); (5%nat, 17%Z, int_GM_silty_shale);
   (6%nat, 17%Z, int_GM_shaly_sand); (7%nat, 9%Z, int_GM_contactcement_1); (7%nat, 18%Z, int_GM_contactcement_2);
   (6%nat, 3%Z, int_GM_hertzmindlin); (7%nat, 3%Z, int_GM_softsand); (6%nat, 4%Z, int_GM_Walton); (7%nat, 3%Z, int_GM_stiffsand);
   (8%nat, 9%Z, int_GM_constantcement_1); (8%nat, 18%Z, int_GM_constantcement_2); (8%nat, 9%Z, int_GM_MUHS_1); (8%nat, 17%Z, int_GM_MUHS_2);
   (2%nat, 6%Z, int_Perm_Kozeny_Carman); (4%nat, 3%Z, int_Perm_Kozeny_Carman_Percolation); (2%nat, 3%Z, int_Perm_Owolabi);
   (2%nat, 2%Z, int_Perm_Perm_logs); (5%nat, 1%Z, int_Perm_Panda_Lake); (2%nat, 6%Z, int_Perm_Panda_Lake_cem); (2%nat, 7%Z, int_Perm_Revil);
   (3%nat, 9%Z, int_Perm_Fredrich); (3%nat, 18%Z, int_Perm_Bloch); (4%nat, 4%Z, int_Perm_Bernabe); (3%nat, 18%Z, int_Emp_krief);
   (2%nat, 18%Z, int_Emp_esti_VS); (2%nat, 18%Z, int_Emp_han); (1%nat, 18%Z, int_Emp_ehrenberg); (1%nat, 18%Z, int_Emp_ramm_porosity_true);
   (1%nat, 18%Z, int_Emp_ramm_porosity_false); (1%nat, 17%Z, int_Emp_StPeter_1); (1%nat, 17%Z, int_Emp_StPeter_2);
   (1%nat, 18%Z, int_Emp_Scherbaum); (1%nat, 18%Z, int_Emp_Sclater); (1%nat, 18%Z, int_Emp_Storvoll); (1%nat, 18%Z, int_Emp_Hillis);
   (1%nat, 18%Z, int_Emp_hjelstuen); (1%nat, 8%Z, int_Emp_Cp); (2%nat, 18%Z, int_BW_dz_dp); (3%nat, 18%Z, int_BW_pseudo_p_t);
   (3%nat, 18%Z, int_BW_rho_K_co2); (3%nat, 18%Z, int_BW_rho_K_gas); (3%nat, 6%Z, int_BW_rho_K_oil); (4%nat, 18%Z, int_BW_rho_K_go_sat);
   (2%nat, 4%Z, int_BW_v_water); (2%nat, 4%Z, int_BW_rho_K_water); (3%nat, 4%Z, int_BW_v_brine); (3%nat, 4%Z, int_BW_rho_K_brine);
   (4%nat, 4%Z, int_BW_co2_brine_true); (4%nat, 4%Z, int_BW_co2_brine_false); (7%nat, 6%Z, int_AVO_zoeppritz); (6%nat, 18%Z, int_AVO_AVO_abe);
   (17%nat, 6%Z, int_AVO_AVO_ortho); (12%nat, 3%Z, int_GM_pcm_stiff_1); (12%nat, 3%Z, int_GM_pcm_stiff_2); (12%nat, 3%Z, int_GM_pcm_soft_1);
   (12%nat, 3%Z, int_GM_pcm_soft_2); (13%nat, 3%Z, int_GM_vpcm_1); (13%nat, 3%Z, int_GM_vpcm_2); (6%nat, 18%Z, int_QI_matrix_modulus)].
