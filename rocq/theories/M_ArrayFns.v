(** * M_ArrayFns: the functions of rockphypy that M_Array.v runs on arrays, read off their models.

    A function whose lines depend on a choice argument (bound, scheme, mode, ...) has one program per choice; any other value
    of that argument selects the last choice or an exception, as in the model. Not listed, because their lines treat arrays in
    a way of their own: [EM.VRH], [EM.Swiss_cheese], [AVO.Aki_Richards], [AVO.EI_ref], [AVO.AVO_HTI] (extra axes: see M_Grid.v), the functions
    that return matrices, the functions with masks, and the iterative ones. [BW.rho_K_go] and [BW.co2_brine] are listed for
    the default gas-oil ratio and the default mixing rule: given as arrays these two arguments cannot be compared with None. *)
From Verif Require Import Fl M_Utils M_EM M_Anis M_Fluid M_GM M_Perm M_Emp M_BW M_AVO M_QI M_Array.
Open Scope fl_scope.

Ltac unfolded t :=
  eval cbv beta iota zeta delta [
    utils_V utils_poi utils_lame utils_M_from_V utils_crack_por fsum fmap2 fdot EM_VRH EM_cripor EM_HS EM_hudson_rand
    EM_Dilute_crack EM_OConnell_Budiansky EM_SC_dilute EM_MT_average Anis_Thomsen Anis_Thomsen_Tsvankin Fluid_Brie
    Fluid_Biot_HF Fluid_Geertsma_Smit_HF Fluid_Geertsma_Smit_LF Fluid_Gassmann Fluid_Gassmann_sub Fluid_vels
    Fluid_Gassmann_vels Fluid_Gassmann_approx Fluid_Mavko_Jizba GM_ThomasStieber GM_silty_shale GM_shaly_sand
    GM_contactcement GM_hertzmindlin GM_softsand GM_Walton GM_stiffsand GM_constantcement GM_MUHS GM_pcm_ends
    GM_pcm_stiff GM_pcm_soft GM_pcm_final GM_pcm GM_vpcm Perm_Kozeny_Carman Perm_Kozeny_Carman_Percolation
    Perm_Owolabi Perm_Perm_logs Perm_Panda_Lake Perm_Panda_Lake_cem Perm_Revil Perm_Fredrich Perm_Bloch Perm_Bernabe
    Emp_krief Emp_esti_VS Emp_han Emp_ehrenberg Emp_ramm_porosity Emp_StPeter Emp_Scherbaum Emp_Sclater Emp_Storvoll
    Emp_Hillis Emp_hjelstuen Emp_Cp BW_gas_k BW_dz_dp BW_pseudo_p_t BW_gas_tail BW_rho_K_co2 BW_rho_K_gas BW_rho_K_oil
    BW_rho_K_go BW_w BW_v_water BW_rho_K_water BW_v_brine BW_rho_K_brine BW_co2_brine AVO_zoeppritz AVO_AVO_abe
    AVO_AVO_ortho QI_fractions QI_matrix_modulus String.eqb Ascii.eqb Bool.eqb Z.eqb Pos.eqb Nat.eqb negb length map
    flat_map seq nth fold_left app ] in t.
(** The program of [t], a model function applied to [tag 0], ..., [tag (n - 1)]. *)
Ltac program t n := let t := unfolded t in let p := rprog t n in exact p.

(** utils.py 13-33. *)
Definition arr_utils_V : prog := ltac:(program (utils_V mtag (tag 0) (tag 1) (tag 2)) 3%nat).
(** utils.py 36-53. *)
Definition arr_utils_poi : prog := ltac:(program (utils_poi mtag (tag 0) (tag 1)) 2%nat).
(** utils.py 56-73. *)
Definition arr_utils_lame : prog := ltac:(program (utils_lame mtag (tag 0) (tag 1)) 2%nat).
(** utils.py 76-109. *)
Definition arr_utils_M_from_V : prog := ltac:(program (utils_M_from_V mtag (tag 0) (tag 1) (tag 2)) 3%nat).
(** utils.py 277-294. *)
Definition arr_utils_crack_por : prog := ltac:(program (utils_crack_por mtag (tag 0) (tag 1)) 2%nat).
(** EM.py 43-66. *)
Definition arr_EM_cripor : prog := ltac:(program (EM_cripor mtag (tag 0) (tag 1) (tag 2) (tag 3)) 4%nat).
(** EM.py 102-136. *)
Definition arr_EM_HS_upper : prog := ltac:(program (EM_HS mtag (tag 0) (tag 1) (tag 2) (tag 3) (tag 4) "upper") 5%nat).
Definition arr_EM_HS_lower : prog := ltac:(program (EM_HS mtag (tag 0) (tag 1) (tag 2) (tag 3) (tag 4) "lower") 5%nat).
(** EM.py 288-323. *)
Definition arr_EM_hudson_rand : prog := ltac:(program (EM_hudson_rand mtag (tag 0) (tag 1) (tag 2) (tag 3) (tag 4) (tag 5)) 6%nat).
(** EM.py 609-631. *)
Definition arr_EM_Dilute_crack : prog := ltac:(program (EM_Dilute_crack mtag (tag 0) (tag 1) (tag 2)) 3%nat).
(** EM.py 634-657. *)
Definition arr_EM_OConnell_Budiansky : prog := ltac:(program (EM_OConnell_Budiansky mtag (tag 0) (tag 1) (tag 2)) 3%nat).
(** EM.py 822-859. *)
Definition arr_EM_SC_dilute_stress : prog := ltac:(program (EM_SC_dilute mtag (tag 0) (tag 1) (tag 2) (tag 3) (tag 4) "stress") 5%nat).
Definition arr_EM_SC_dilute_strain : prog := ltac:(program (EM_SC_dilute mtag (tag 0) (tag 1) (tag 2) (tag 3) (tag 4) "strain") 5%nat).
(** EM.py 902-935. *)
Definition arr_EM_MT_average : prog := ltac:(program (EM_MT_average mtag (tag 0) (tag 1) (tag 2) (tag 3) (tag 4) (tag 5) (tag 6)) 7%nat).
(** Anisotropy.py 12-39. *)
Definition arr_Anis_Thomsen : prog := ltac:(program (Anis_Thomsen mtag (tag 0) (tag 1) (tag 2) (tag 3) (tag 4) (tag 5) (tag 6)) 7%nat).
(** Anisotropy.py 42-71. *)
Definition arr_Anis_Thomsen_Tsvankin : prog := ltac:(program (Anis_Thomsen_Tsvankin mtag (tag 0) (tag 1) (tag 2) (tag 3) (tag 4) (tag 5) (tag 6) (tag 7) (tag 8)) 9%nat).
(** Fluid.py 13-34. *)
Definition arr_Fluid_Brie : prog := ltac:(program (Fluid_Brie mtag (tag 0) (tag 1) (tag 2) (tag 3)) 4%nat).
(** Fluid.py 117-161. *)
Definition arr_Fluid_Biot_HF : prog := ltac:(program (Fluid_Biot_HF mtag (tag 0) (tag 1) (tag 2) (tag 3) (tag 4) (tag 5) (tag 6) (tag 7)) 8%nat).
(** Fluid.py 164-201. *)
Definition arr_Fluid_Geertsma_Smit_HF : prog := ltac:(program (Fluid_Geertsma_Smit_HF mtag (tag 0) (tag 1) (tag 2) (tag 3) (tag 4) (tag 5) (tag 6) (tag 7)) 8%nat).
(** Fluid.py 204-236. *)
Definition arr_Fluid_Geertsma_Smit_LF : prog := ltac:(program (Fluid_Geertsma_Smit_LF mtag (tag 0) (tag 1) (tag 2) (tag 3) (tag 4) (tag 5) (tag 6)) 7%nat).
(** Fluid.py 239-265. *)
Definition arr_Fluid_Gassmann : prog := ltac:(program (Fluid_Gassmann mtag (tag 0) (tag 1) (tag 2) (tag 3) (tag 4)) 5%nat).
(** Fluid.py 268-293. *)
Definition arr_Fluid_Gassmann_sub : prog := ltac:(program (Fluid_Gassmann_sub mtag (tag 0) (tag 1) (tag 2) (tag 3) (tag 4)) 5%nat).
(** Fluid.py 296-327. *)
Definition arr_Fluid_vels : prog := ltac:(program (Fluid_vels mtag (tag 0) (tag 1) (tag 2) (tag 3) (tag 4) (tag 5) (tag 6)) 7%nat).
(** Fluid.py 328-366. *)
Definition arr_Fluid_Gassmann_vels : prog := ltac:(program (Fluid_Gassmann_vels mtag (tag 0) (tag 1) (tag 2) (tag 3) (tag 4) (tag 5) (tag 6) (tag 7) (tag 8)) 9%nat).
(** Fluid.py 368-393. *)
Definition arr_Fluid_Gassmann_approx : prog := ltac:(program (Fluid_Gassmann_approx mtag (tag 0) (tag 1) (tag 2) (tag 3) (tag 4)) 5%nat).
(** Fluid.py 506-552. *)
Definition arr_Fluid_Mavko_Jizba : prog := ltac:(program (Fluid_Mavko_Jizba mtag (tag 0) (tag 1) (tag 2) (tag 3) (tag 4) (tag 5) (tag 6) (tag 7) (tag 8)) 9%nat).
(** GM.py 18-44. *)
Definition arr_GM_ThomasStieber : prog := ltac:(program (GM_ThomasStieber (tag 0) (tag 1) (tag 2)) 3%nat).
(** GM.py 47-72. *)
Definition arr_GM_silty_shale : prog := ltac:(program (GM_silty_shale mtag (tag 0) (tag 1) (tag 2) (tag 3) (tag 4)) 5%nat).
(** GM.py 75-102. *)
Definition arr_GM_shaly_sand : prog := ltac:(program (GM_shaly_sand mtag (tag 0) (tag 1) (tag 2) (tag 3) (tag 4) (tag 5)) 6%nat).
(** GM.py 105-158. *)
Definition arr_GM_contactcement_1 : prog := ltac:(program (GM_contactcement mtag (tag 0) (tag 1) (tag 2) (tag 3) (tag 4) (tag 5) (tag 6) 1) 7%nat).
Definition arr_GM_contactcement_2 : prog := ltac:(program (GM_contactcement mtag (tag 0) (tag 1) (tag 2) (tag 3) (tag 4) (tag 5) (tag 6) 2) 7%nat).
(** GM.py 161-197. *)
Definition arr_GM_hertzmindlin : prog := ltac:(program (GM_hertzmindlin mtag (tag 0) (tag 1) (tag 2) (tag 3) (tag 4) (tag 5)) 6%nat).
(** GM.py 200-237. *)
Definition arr_GM_softsand : prog := ltac:(program (GM_softsand mtag (tag 0) (tag 1) (tag 2) (tag 3) (tag 4) (tag 5) (tag 6)) 7%nat).
(** GM.py 240-282. *)
Definition arr_GM_Walton : prog := ltac:(program (GM_Walton mtag (tag 0) (tag 1) (tag 2) (tag 3) (tag 4) (tag 5)) 6%nat).
(** GM.py 358-391. *)
Definition arr_GM_stiffsand : prog := ltac:(program (GM_stiffsand mtag (tag 0) (tag 1) (tag 2) (tag 3) (tag 4) (tag 5) (tag 6)) 7%nat).
(** GM.py 394-437. *)
Definition arr_GM_constantcement_1 : prog := ltac:(program (GM_constantcement mtag (tag 0) (tag 1) (tag 2) (tag 3) (tag 4) (tag 5) (tag 6) (tag 7) 1) 8%nat).
Definition arr_GM_constantcement_2 : prog := ltac:(program (GM_constantcement mtag (tag 0) (tag 1) (tag 2) (tag 3) (tag 4) (tag 5) (tag 6) (tag 7) 2) 8%nat).
(** GM.py 440-483. *)
Definition arr_GM_MUHS_1 : prog := ltac:(program (GM_MUHS mtag (tag 0) (tag 1) (tag 2) (tag 3) (tag 4) (tag 5) (tag 6) (tag 7) 1) 8%nat).
Definition arr_GM_MUHS_2 : prog := ltac:(program (GM_MUHS mtag (tag 0) (tag 1) (tag 2) (tag 3) (tag 4) (tag 5) (tag 6) (tag 7) 2) 8%nat).
(** Perm.py 13-38. *)
Definition arr_Perm_Kozeny_Carman : prog := ltac:(program (Perm_Kozeny_Carman mtag (tag 0) (tag 1)) 2%nat).
(** Perm.py 41-63. *)
Definition arr_Perm_Kozeny_Carman_Percolation : prog := ltac:(program (Perm_Kozeny_Carman_Percolation mtag (tag 0) (tag 1) (tag 2) (tag 3)) 4%nat).
(** Perm.py 66-86. *)
Definition arr_Perm_Owolabi : prog := ltac:(program (Perm_Owolabi (tag 0) (tag 1)) 2%nat).
(** Perm.py 89-119. *)
Definition arr_Perm_Perm_logs : prog := ltac:(program (Perm_Perm_logs mtag (tag 0) (tag 1)) 2%nat).
(** Perm.py 122-150. *)
Definition arr_Perm_Panda_Lake : prog := ltac:(program (Perm_Panda_Lake mtag (tag 0) (tag 1) (tag 2) (tag 3) (tag 4)) 5%nat).
(** Perm.py 153-170. *)
Definition arr_Perm_Panda_Lake_cem : prog := ltac:(program (Perm_Panda_Lake_cem mtag (tag 0) (tag 1)) 2%nat).
(** Perm.py 173-191. *)
Definition arr_Perm_Revil : prog := ltac:(program (Perm_Revil mtag (tag 0) (tag 1)) 2%nat).
(** Perm.py 194-222. *)
Definition arr_Perm_Fredrich : prog := ltac:(program (Perm_Fredrich mtag (tag 0) (tag 1) (tag 2)) 3%nat).
(** Perm.py 225-247. *)
Definition arr_Perm_Bloch : prog := ltac:(program (Perm_Bloch mtag (tag 0) (tag 1) (tag 2)) 3%nat).
(** Perm.py 250-285. *)
Definition arr_Perm_Bernabe : prog := ltac:(program (Perm_Bernabe mtag (tag 0) (tag 1) (tag 2) (tag 3)) 4%nat).
(** Emp.py 12-34. *)
Definition arr_Emp_krief : prog := ltac:(program (Emp_krief mtag (tag 0) (tag 1) (tag 2)) 3%nat).
(** Emp.py 37-64. *)
Definition arr_Emp_esti_VS : prog := ltac:(program (Emp_esti_VS mtag (tag 0) (tag 1)) 2%nat).
(** Emp.py 67-84. *)
Definition arr_Emp_han : prog := ltac:(program (Emp_han (tag 0) (tag 1)) 2%nat).
(** Emp.py 87-107. *)
Definition arr_Emp_ehrenberg : prog := ltac:(program (Emp_ehrenberg mtag (tag 0)) 1%nat).
(** Emp.py 130-150. *)
Definition arr_Emp_ramm_porosity_true : prog := ltac:(program (Emp_ramm_porosity mtag (tag 0) true) 1%nat).
Definition arr_Emp_ramm_porosity_false : prog := ltac:(program (Emp_ramm_porosity mtag (tag 0) false) 1%nat).
(** Emp.py 172-196. *)
Definition arr_Emp_StPeter_1 : prog := ltac:(program (Emp_StPeter (tag 0) 1) 1%nat).
Definition arr_Emp_StPeter_2 : prog := ltac:(program (Emp_StPeter (tag 0) 2) 1%nat).
(** Emp.py 199-217. *)
Definition arr_Emp_Scherbaum : prog := ltac:(program (Emp_Scherbaum (tag 0)) 1%nat).
(** Emp.py 220-234. *)
Definition arr_Emp_Sclater : prog := ltac:(program (Emp_Sclater mtag (tag 0)) 1%nat).
(** Emp.py 237-251. *)
Definition arr_Emp_Storvoll : prog := ltac:(program (Emp_Storvoll mtag (tag 0)) 1%nat).
(** Emp.py 254-269. *)
Definition arr_Emp_Hillis : prog := ltac:(program (Emp_Hillis mtag (tag 0)) 1%nat).
(** Emp.py 294-309. *)
Definition arr_Emp_hjelstuen : prog := ltac:(program (Emp_hjelstuen mtag (tag 0)) 1%nat).
(** Emp.py 312-326. *)
Definition arr_Emp_Cp : prog := ltac:(program (Emp_Cp (tag 0)) 1%nat).
(** BW.py 16-24. *)
Definition arr_BW_dz_dp : prog := ltac:(program (BW_dz_dp mtag (tag 0) (tag 1)) 2%nat).
(** BW.py 28-52. *)
Definition arr_BW_pseudo_p_t : prog := ltac:(program (BW_pseudo_p_t mtag (tag 0) (tag 1) (tag 2)) 3%nat).
(** BW.py 56-93. *)
Definition arr_BW_rho_K_co2 : prog := ltac:(program (BW_rho_K_co2 mtag (tag 0) (tag 1) (tag 2)) 3%nat).
(** BW.py 97-126. *)
Definition arr_BW_rho_K_gas : prog := ltac:(program (BW_rho_K_gas mtag (tag 0) (tag 1) (tag 2)) 3%nat).
(** BW.py 130-153. *)
Definition arr_BW_rho_K_oil : prog := ltac:(program (BW_rho_K_oil mtag (tag 0) (tag 1) (tag 2)) 3%nat).
(** BW.py 157-190. *)
Definition arr_BW_rho_K_go_sat : prog := ltac:(program (BW_rho_K_go mtag (tag 0) (tag 1) (tag 2) (tag 3) None) 4%nat).
(** BW.py 222-250. *)
Definition arr_BW_v_water : prog := ltac:(program (BW_v_water (tag 0) (tag 1)) 2%nat).
(** BW.py 195-219. *)
Definition arr_BW_rho_K_water : prog := ltac:(program (BW_rho_K_water (tag 0) (tag 1)) 2%nat).
(** BW.py 280-303. *)
Definition arr_BW_v_brine : prog := ltac:(program (BW_v_brine mtag (tag 0) (tag 1) (tag 2)) 3%nat).
(** BW.py 253-277. *)
Definition arr_BW_rho_K_brine : prog := ltac:(program (BW_rho_K_brine mtag (tag 0) (tag 1) (tag 2)) 3%nat).
(** BW.py 306-340. *)
Definition arr_BW_co2_brine_true : prog := ltac:(program (BW_co2_brine mtag (tag 0) (tag 1) (tag 2) (tag 3) None true) 4%nat).
Definition arr_BW_co2_brine_false : prog := ltac:(program (BW_co2_brine mtag (tag 0) (tag 1) (tag 2) (tag 3) None false) 4%nat).
(** AVO.py 157-220. *)
Definition arr_AVO_zoeppritz : prog := ltac:(program (AVO_zoeppritz (tag 0) (tag 1) (tag 2) (tag 3) (tag 4) (tag 5) (tag 6)) 7%nat).
(** AVO.py 223-273. *)
Definition arr_AVO_AVO_abe : prog := ltac:(program (AVO_AVO_abe mtag (tag 0) (tag 1) (tag 2) (tag 3) (tag 4) (tag 5)) 6%nat).
(** AVO.py 352-419. *)
Definition arr_AVO_AVO_ortho : prog := ltac:(program (AVO_AVO_ortho mtag (tag 0) (tag 1) (tag 2) (tag 3) (tag 4) (tag 5) (tag 6) (tag 7) (tag 8) (tag 9) (tag 10) (tag 11) (tag 12) (tag 13) (tag 14) (tag 15) (tag 16)) 17%nat).
(** GM.py 528-617. *)
Definition arr_GM_pcm_stiff_1 : prog := ltac:(program (GM_pcm mtag (tag 0) (tag 1) (tag 2) (tag 3) (tag 4) (tag 5) (tag 6) (tag 7) (tag 8) (tag 9) (tag 10) "stiff" 1 (tag 11)) 12%nat).
Definition arr_GM_pcm_stiff_2 : prog := ltac:(program (GM_pcm mtag (tag 0) (tag 1) (tag 2) (tag 3) (tag 4) (tag 5) (tag 6) (tag 7) (tag 8) (tag 9) (tag 10) "stiff" 2 (tag 11)) 12%nat).
Definition arr_GM_pcm_soft_1 : prog := ltac:(program (GM_pcm mtag (tag 0) (tag 1) (tag 2) (tag 3) (tag 4) (tag 5) (tag 6) (tag 7) (tag 8) (tag 9) (tag 10) "soft" 1 (tag 11)) 12%nat).
Definition arr_GM_pcm_soft_2 : prog := ltac:(program (GM_pcm mtag (tag 0) (tag 1) (tag 2) (tag 3) (tag 4) (tag 5) (tag 6) (tag 7) (tag 8) (tag 9) (tag 10) "soft" 2 (tag 11)) 12%nat).
(** GM.py 644-732. *)
Definition arr_GM_vpcm_1 : prog := ltac:(program (GM_vpcm mtag (tag 0) (tag 1) (tag 2) (tag 3) (tag 4) (tag 5) (tag 6) (tag 7) (tag 8) (tag 9) (tag 10) (tag 11) 1 (tag 12)) 13%nat).
Definition arr_GM_vpcm_2 : prog := ltac:(program (GM_vpcm mtag (tag 0) (tag 1) (tag 2) (tag 3) (tag 4) (tag 5) (tag 6) (tag 7) (tag 8) (tag 9) (tag 10) (tag 11) 2 (tag 12)) 13%nat).
(** QI.py 48-88. *)
Definition arr_QI_matrix_modulus : prog := ltac:(program (QI_matrix_modulus mtag (tag 0) (tag 1) (tag 2) (tag 3) (tag 4) (tag 5)) 6%nat).
