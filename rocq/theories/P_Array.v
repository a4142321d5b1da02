(** * P_Array: calls with arrays (C79). *)
From Verif Require Import Fl M_Utils M_EM M_Anis M_Fluid M_GM M_Perm M_Emp M_BW M_AVO M_QI M_Array M_ArrayFns Spec16 L_Array L_ArrayFns.
Open Scope fl_scope.

(** ** Which functions: each is the program M_ArrayFns.v gives it. *)
Theorem C79_programs_utils :
  (forall m K G rho, out2 (utils_V m K G rho) = run m arr_utils_V [K; G; rho]) /\
  (forall m K G, out1 (utils_poi m K G) = run m arr_utils_poi [K; G]) /\
  (forall m K G, out1 (utils_lame m K G) = run m arr_utils_lame [K; G]) /\
  (forall m den vp vs, out2 (utils_M_from_V m den vp vs) = run m arr_utils_M_from_V [den; vp; vs]) /\
  (forall m crd alpha, out1 (utils_crack_por m crd alpha) = run m arr_utils_crack_por [crd; alpha]).
Proof.
  split; [exact utils_V_arr|].
  split; [exact utils_poi_arr|].
  split; [exact utils_lame_arr|].
  split; [exact utils_M_from_V_arr|].
  exact utils_crack_por_arr.
Qed.
Print Assumptions C79_programs_utils.

Theorem C79_programs_EM :
  (forall m K0 G0 phi phic, out2 (EM_cripor m K0 G0 phi phic) = run m arr_EM_cripor [K0; G0; phi; phic]) /\
  (forall m f K1 K2 G1 G2, out2 (EM_HS m f K1 K2 G1 G2 "upper") = run m arr_EM_HS_upper [f; K1; K2; G1; G2]) /\
  (forall m f K1 K2 G1 G2, out2 (EM_HS m f K1 K2 G1 G2 "lower") = run m arr_EM_HS_lower [f; K1; K2; G1; G2]) /\
  (forall m K G Ki Gi alpha crd, out2 (EM_hudson_rand m K G Ki Gi alpha crd) = run m arr_EM_hudson_rand [K; G;
     Ki; Gi; alpha; crd]) /\
  (forall m Ks Gs cd, out2 (EM_Dilute_crack m Ks Gs cd) = run m arr_EM_Dilute_crack [Ks; Gs; cd]) /\
  (forall m K0 G0 crd, out2 (EM_OConnell_Budiansky m K0 G0 crd) = run m arr_EM_OConnell_Budiansky [K0; G0; crd]) /\
  (forall m Km Gm Ki Gi f, out2 (EM_SC_dilute m Km Gm Ki Gi f "stress") = run m arr_EM_SC_dilute_stress [Km; Gm;
     Ki; Gi; f]) /\
  (forall m Km Gm Ki Gi f, out2 (EM_SC_dilute m Km Gm Ki Gi f "strain") = run m arr_EM_SC_dilute_strain [Km; Gm;
     Ki; Gi; f]) /\
  (forall m f Kmat Gmat K1 G1 K2 G2, out2 (EM_MT_average m f Kmat Gmat K1 G1 K2 G2) = run m arr_EM_MT_average
     [f; Kmat; Gmat; K1; G1; K2; G2]).
Proof.
  split; [exact EM_cripor_arr|].
  split; [exact EM_HS_upper_arr|].
  split; [exact EM_HS_lower_arr|].
  split; [exact EM_hudson_rand_arr|].
  split; [exact EM_Dilute_crack_arr|].
  split; [exact EM_OConnell_Budiansky_arr|].
  split; [exact EM_SC_dilute_stress_arr|].
  split; [exact EM_SC_dilute_strain_arr|].
  exact EM_MT_average_arr.
Qed.
Print Assumptions C79_programs_EM.

Theorem C79_programs_Anisotropy :
  (forall m C11 C33 C13 C44 C66 den theta, out6 (Anis_Thomsen m C11 C33 C13 C44 C66 den theta) = run m
     arr_Anis_Thomsen [C11; C33; C13; C44; C66; den; theta]) /\
  (forall m C11 C22 C33 C12 C13 C23 C44 C55 C66, out7 (Anis_Thomsen_Tsvankin m C11 C22 C33 C12 C13 C23 C44 C55
     C66) = run m arr_Anis_Thomsen_Tsvankin [C11; C22; C33; C12; C13; C23; C44; C55; C66]).
Proof.
  split; [exact Anis_Thomsen_arr|].
  exact Anis_Thomsen_Tsvankin_arr.
Qed.
Print Assumptions C79_programs_Anisotropy.

Theorem C79_programs_Fluid :
  (forall m Kw Kgas Sw e, out1 (Fluid_Brie m Kw Kgas Sw e) = run m arr_Fluid_Brie [Kw; Kgas; Sw; e]) /\
  (forall m Kdry Gdry K0 Kfl rho0 rhofl phi alpha, out3 (Fluid_Biot_HF m Kdry Gdry K0 Kfl rho0 rhofl phi alpha)
     = run m arr_Fluid_Biot_HF [Kdry; Gdry; K0; Kfl; rho0; rhofl; phi; alpha]) /\
  (forall m Kdry Gdry K0 Kfl rho0 rhofl phi alpha, out2 (Fluid_Geertsma_Smit_HF m Kdry Gdry K0 Kfl rho0 rhofl
     phi alpha) = run m arr_Fluid_Geertsma_Smit_HF [Kdry; Gdry; K0; Kfl; rho0; rhofl; phi; alpha]) /\
  (forall m Vp0 Vpinf freq phi rhofl kapa eta, out1 (Fluid_Geertsma_Smit_LF m Vp0 Vpinf freq phi rhofl kapa eta)
     = run m arr_Fluid_Geertsma_Smit_LF [Vp0; Vpinf; freq; phi; rhofl; kapa; eta]) /\
  (forall m K_dry G_dry K_mat Kf phi, out2 (Fluid_Gassmann m K_dry G_dry K_mat Kf phi) = run m
     arr_Fluid_Gassmann [K_dry; G_dry; K_mat; Kf; phi]) /\
  (forall m phi K0 Ksat1 Kfl1 Kfl2, out1 (Fluid_Gassmann_sub m phi K0 Ksat1 Kfl1 Kfl2) = run m
     arr_Fluid_Gassmann_sub [phi; K0; Ksat1; Kfl1; Kfl2]) /\
  (forall m K_dry G_dry K0 D0 Kf Df phi, out3 (Fluid_vels m K_dry G_dry K0 D0 Kf Df phi) = run m arr_Fluid_vels
     [K_dry; G_dry; K0; D0; Kf; Df; phi]) /\
  (forall m Vp1 Vs1 rho1 rhofl1 Kfl1 rhofl2 Kfl2 K0 phi, out2 (Fluid_Gassmann_vels m Vp1 Vs1 rho1 rhofl1 Kfl1
     rhofl2 Kfl2 K0 phi) = run m arr_Fluid_Gassmann_vels [Vp1; Vs1; rho1; rhofl1; Kfl1; rhofl2; Kfl2; K0; phi]) /\
  (forall m Msat1 M0 Mfl1 phi Mfl2, out1 (Fluid_Gassmann_approx m Msat1 M0 Mfl1 phi Mfl2) = run m
     arr_Fluid_Gassmann_approx [Msat1; M0; Mfl1; phi; Mfl2]) /\
  (forall m Vp_hs Vs_hs Vpdry Vsdry K0 rhodry rhofl Kfl phi, out4 (Fluid_Mavko_Jizba m Vp_hs Vs_hs Vpdry Vsdry
     K0 rhodry rhofl Kfl phi) = run m arr_Fluid_Mavko_Jizba [Vp_hs; Vs_hs; Vpdry; Vsdry; K0; rhodry; rhofl; Kfl;
     phi]).
Proof.
  split; [exact Fluid_Brie_arr|].
  split; [exact Fluid_Biot_HF_arr|].
  split; [exact Fluid_Geertsma_Smit_HF_arr|].
  split; [exact Fluid_Geertsma_Smit_LF_arr|].
  split; [exact Fluid_Gassmann_arr|].
  split; [exact Fluid_Gassmann_sub_arr|].
  split; [exact Fluid_vels_arr|].
  split; [exact Fluid_Gassmann_vels_arr|].
  split; [exact Fluid_Gassmann_approx_arr|].
  exact Fluid_Mavko_Jizba_arr.
Qed.
Print Assumptions C79_programs_Fluid.

Theorem C79_programs_GM :
  (forall m phi_sand phi_sh vsh, out2 (GM_ThomasStieber phi_sand phi_sh vsh) = run m arr_GM_ThomasStieber
     [phi_sand; phi_sh; vsh]) /\
  (forall m C Kq Gq Ksh Gsh, out2 (GM_silty_shale m C Kq Gq Ksh Gsh) = run m arr_GM_silty_shale [C; Kq; Gq; Ksh;
     Gsh]) /\
  (forall m phis C Kss Gss Kcc Gcc, out2 (GM_shaly_sand m phis C Kss Gss Kcc Gcc) = run m arr_GM_shaly_sand
     [phis; C; Kss; Gss; Kcc; Gcc]) /\
  (forall m K0 G0 Kc Gc phi phic Cn, out2 (GM_contactcement m K0 G0 Kc Gc phi phic Cn 1) = run m
     arr_GM_contactcement_1 [K0; G0; Kc; Gc; phi; phic; Cn]) /\
  (forall m K0 G0 Kc Gc phi phic Cn, out2 (GM_contactcement m K0 G0 Kc Gc phi phic Cn 2) = run m
     arr_GM_contactcement_2 [K0; G0; Kc; Gc; phi; phic; Cn]) /\
  (forall m K0 G0 phic Cn sigma f, out2 (GM_hertzmindlin m K0 G0 phic Cn sigma f) = run m arr_GM_hertzmindlin
     [K0; G0; phic; Cn; sigma; f]) /\
  (forall m K0 G0 phi phic Cn sigma f, out2 (GM_softsand m K0 G0 phi phic Cn sigma f) = run m arr_GM_softsand
     [K0; G0; phi; phic; Cn; sigma; f]) /\
  (forall m K0 G0 phic Cn sigma f, out2 (GM_Walton m K0 G0 phic Cn sigma f) = run m arr_GM_Walton [K0; G0; phic;
     Cn; sigma; f]) /\
  (forall m K0 G0 phi phic Cn sigma f, out2 (GM_stiffsand m K0 G0 phi phic Cn sigma f) = run m arr_GM_stiffsand
     [K0; G0; phi; phic; Cn; sigma; f]) /\
  (forall m phi_b K0 G0 Kc Gc phi phic Cn, out2 (GM_constantcement m phi_b K0 G0 Kc Gc phi phic Cn 1) = run m
     arr_GM_constantcement_1 [phi_b; K0; G0; Kc; Gc; phi; phic; Cn]) /\
  (forall m phi_b K0 G0 Kc Gc phi phic Cn, out2 (GM_constantcement m phi_b K0 G0 Kc Gc phi phic Cn 2) = run m
     arr_GM_constantcement_2 [phi_b; K0; G0; Kc; Gc; phi; phic; Cn]) /\
  (forall m K0 G0 Kc Gc phi phi_b phic Cn, out2 (GM_MUHS m K0 G0 Kc Gc phi phi_b phic Cn 1) = run m
     arr_GM_MUHS_1 [K0; G0; Kc; Gc; phi; phi_b; phic; Cn]) /\
  (forall m K0 G0 Kc Gc phi phi_b phic Cn, out2 (GM_MUHS m K0 G0 Kc Gc phi phi_b phic Cn 2) = run m
     arr_GM_MUHS_2 [K0; G0; Kc; Gc; phi; phi_b; phic; Cn]).
Proof.
  split; [exact GM_ThomasStieber_arr|].
  split; [exact GM_silty_shale_arr|].
  split; [exact GM_shaly_sand_arr|].
  split; [exact GM_contactcement_1_arr|].
  split; [exact GM_contactcement_2_arr|].
  split; [exact GM_hertzmindlin_arr|].
  split; [exact GM_softsand_arr|].
  split; [exact GM_Walton_arr|].
  split; [exact GM_stiffsand_arr|].
  split; [exact GM_constantcement_1_arr|].
  split; [exact GM_constantcement_2_arr|].
  split; [exact GM_MUHS_1_arr|].
  exact GM_MUHS_2_arr.
Qed.
Print Assumptions C79_programs_GM.

Theorem C79_programs_Permeability :
  (forall m phi d, out1 (Perm_Kozeny_Carman m phi d) = run m arr_Perm_Kozeny_Carman [phi; d]) /\
  (forall m phi phic d B, out1 (Perm_Kozeny_Carman_Percolation m phi phic d B) = run m
     arr_Perm_Kozeny_Carman_Percolation [phi; phic; d; B]) /\
  (forall m phi Swi, out2 (Perm_Owolabi phi Swi) = run m arr_Perm_Owolabi [phi; Swi]) /\
  (forall m phi Swi, out4 (Perm_Perm_logs m phi Swi) = run m arr_Perm_Perm_logs [phi; Swi]) /\
  (forall m d C S tau phi, out1 (Perm_Panda_Lake m d C S tau phi) = run m arr_Perm_Panda_Lake [d; C; S; tau;
     phi]) /\
  (forall m phi d, out1 (Perm_Panda_Lake_cem m phi d) = run m arr_Perm_Panda_Lake_cem [phi; d]) /\
  (forall m phi d, out1 (Perm_Revil m phi d) = run m arr_Perm_Revil [phi; d]) /\
  (forall m phi d b, out1 (Perm_Fredrich m phi d b) = run m arr_Perm_Fredrich [phi; d; b]) /\
  (forall m S C D, out2 (Perm_Bloch m S C D) = run m arr_Perm_Bloch [S; C; D]) /\
  (forall m phi crf w r, out1 (Perm_Bernabe m phi crf w r) = run m arr_Perm_Bernabe [phi; crf; w; r]).
Proof.
  split; [exact Perm_Kozeny_Carman_arr|].
  split; [exact Perm_Kozeny_Carman_Percolation_arr|].
  split; [exact Perm_Owolabi_arr|].
  split; [exact Perm_Perm_logs_arr|].
  split; [exact Perm_Panda_Lake_arr|].
  split; [exact Perm_Panda_Lake_cem_arr|].
  split; [exact Perm_Revil_arr|].
  split; [exact Perm_Fredrich_arr|].
  split; [exact Perm_Bloch_arr|].
  exact Perm_Bernabe_arr.
Qed.
Print Assumptions C79_programs_Permeability.

Theorem C79_programs_Empirical :
  (forall m phi Kg Gg, out3 (Emp_krief m phi Kg Gg) = run m arr_Emp_krief [phi; Kg; Gg]) /\
  (forall m Vp vsh, out1 (Emp_esti_VS m Vp vsh) = run m arr_Emp_esti_VS [Vp; vsh]) /\
  (forall m phi C, out2 (Emp_han phi C) = run m arr_Emp_han [phi; C]) /\
  (forall m Z, out1 (Emp_ehrenberg m Z) = run m arr_Emp_ehrenberg [Z]) /\
  (forall m Z, out1 (Emp_ramm_porosity m Z true) = run m arr_Emp_ramm_porosity_true [Z]) /\
  (forall m Z, out1 (Emp_ramm_porosity m Z false) = run m arr_Emp_ramm_porosity_false [Z]) /\
  (forall m Pe, out2 (Emp_StPeter Pe 1) = run m arr_Emp_StPeter_1 [Pe]) /\
  (forall m Pe, out2 (Emp_StPeter Pe 2) = run m arr_Emp_StPeter_2 [Pe]) /\
  (forall m Z, out1 (Emp_Scherbaum Z) = run m arr_Emp_Scherbaum [Z]) /\
  (forall m phi, out1 (Emp_Sclater m phi) = run m arr_Emp_Sclater [phi]) /\
  (forall m Z, out1 (Emp_Storvoll m Z) = run m arr_Emp_Storvoll [Z]) /\
  (forall m Z, out1 (Emp_Hillis m Z) = run m arr_Emp_Hillis [Z]) /\
  (forall m Z, out1 (Emp_hjelstuen m Z) = run m arr_Emp_hjelstuen [Z]) /\
  (forall m phi, out1 (Emp_Cp phi) = run m arr_Emp_Cp [phi]).
Proof.
  split; [exact Emp_krief_arr|].
  split; [exact Emp_esti_VS_arr|].
  split; [exact Emp_han_arr|].
  split; [exact Emp_ehrenberg_arr|].
  split; [exact Emp_ramm_porosity_true_arr|].
  split; [exact Emp_ramm_porosity_false_arr|].
  split; [exact Emp_StPeter_1_arr|].
  split; [exact Emp_StPeter_2_arr|].
  split; [exact Emp_Scherbaum_arr|].
  split; [exact Emp_Sclater_arr|].
  split; [exact Emp_Storvoll_arr|].
  split; [exact Emp_Hillis_arr|].
  split; [exact Emp_hjelstuen_arr|].
  exact Emp_Cp_arr.
Qed.
Print Assumptions C79_programs_Empirical.

Theorem C79_programs_BW :
  (forall m P_pr T_pr, out1 (BW_dz_dp m P_pr T_pr) = run m arr_BW_dz_dp [P_pr; T_pr]) /\
  (forall m P T G, out3 (BW_pseudo_p_t m P T G) = run m arr_BW_pseudo_p_t [P; T; G]) /\
  (forall m P T G, out2 (BW_rho_K_co2 m P T G) = run m arr_BW_rho_K_co2 [P; T; G]) /\
  (forall m P T G, out2 (BW_rho_K_gas m P T G) = run m arr_BW_rho_K_gas [P; T; G]) /\
  (forall m P T den, out2 (BW_rho_K_oil m P T den) = run m arr_BW_rho_K_oil [P; T; den]) /\
  (forall m P T den G, out2 (BW_rho_K_go m P T den G None) = run m arr_BW_rho_K_go_sat [P; T; den; G]) /\
  (forall m T P, out1 (BW_v_water T P) = run m arr_BW_v_water [T; P]) /\
  (forall m T P, out2 (BW_rho_K_water T P) = run m arr_BW_rho_K_water [T; P]) /\
  (forall m T P S, out1 (BW_v_brine m T P S) = run m arr_BW_v_brine [T; P; S]) /\
  (forall m T P S, out2 (BW_rho_K_brine m T P S) = run m arr_BW_rho_K_brine [T; P; S]) /\
  (forall m temperature pressure salinity Sco2, out2 (BW_co2_brine m temperature pressure salinity Sco2 None
     true) = run m arr_BW_co2_brine_true [temperature; pressure; salinity; Sco2]) /\
  (forall m temperature pressure salinity Sco2, out2 (BW_co2_brine m temperature pressure salinity Sco2 None
     false) = run m arr_BW_co2_brine_false [temperature; pressure; salinity; Sco2]).
Proof.
  split; [exact BW_dz_dp_arr|].
  split; [exact BW_pseudo_p_t_arr|].
  split; [exact BW_rho_K_co2_arr|].
  split; [exact BW_rho_K_gas_arr|].
  split; [exact BW_rho_K_oil_arr|].
  split; [exact BW_rho_K_go_sat_arr|].
  split; [exact BW_v_water_arr|].
  split; [exact BW_rho_K_water_arr|].
  split; [exact BW_v_brine_arr|].
  split; [exact BW_rho_K_brine_arr|].
  split; [exact BW_co2_brine_true_arr|].
  exact BW_co2_brine_false_arr.
Qed.
Print Assumptions C79_programs_BW.

Theorem C79_programs_AVO :
  (forall m vp1 vs1 rho1 vp2 vs2 rho2 theta, out2 (AVO_zoeppritz vp1 vs1 rho1 vp2 vs2 rho2 theta) = run m
     arr_AVO_zoeppritz [vp1; vs1; rho1; vp2; vs2; rho2; theta]) /\
  (forall m vp1 vs1 d1 vp2 vs2 d2, out5 (AVO_AVO_abe m vp1 vs1 d1 vp2 vs2 d2) = run m arr_AVO_AVO_abe [vp1; vs1;
     d1; vp2; vs2; d2]) /\
  (forall m a1 b1 e11 d11 e12 d12 g1 rho1 a2 b2 e21 d21 e22 d22 g2 rho2 the, out2 (AVO_AVO_ortho m a1 b1 e11 d11
     e12 d12 g1 rho1 a2 b2 e21 d21 e22 d22 g2 rho2 the) = run m arr_AVO_AVO_ortho [a1; b1; e11; d11; e12; d12;
     g1; rho1; a2; b2; e21; d21; e22; d22; g2; rho2; the]).
Proof.
  split; [exact AVO_zoeppritz_arr|].
  split; [exact AVO_AVO_abe_arr|].
  exact AVO_AVO_ortho_arr.
Qed.
Print Assumptions C79_programs_AVO.

Theorem C79_programs_with_tests :
  (forall m f sigma K0 G0 phi phic v_cem v_ci Kc Gc Cn f_, out2 (GM_pcm m f sigma K0 G0 phi phic v_cem v_ci Kc
     Gc Cn "stiff" 1 f_) = run m arr_GM_pcm_stiff_1 [f; sigma; K0; G0; phi; phic; v_cem; v_ci; Kc; Gc; Cn; f_]) /\
  (forall m f sigma K0 G0 phi phic v_cem v_ci Kc Gc Cn f_, out2 (GM_pcm m f sigma K0 G0 phi phic v_cem v_ci Kc
     Gc Cn "stiff" 2 f_) = run m arr_GM_pcm_stiff_2 [f; sigma; K0; G0; phi; phic; v_cem; v_ci; Kc; Gc; Cn; f_]) /\
  (forall m f sigma K0 G0 phi phic v_cem v_ci Kc Gc Cn f_, out2 (GM_pcm m f sigma K0 G0 phi phic v_cem v_ci Kc
     Gc Cn "soft" 1 f_) = run m arr_GM_pcm_soft_1 [f; sigma; K0; G0; phi; phic; v_cem; v_ci; Kc; Gc; Cn; f_]) /\
  (forall m f sigma K0 G0 phi phic v_cem v_ci Kc Gc Cn f_, out2 (GM_pcm m f sigma K0 G0 phi phic v_cem v_ci Kc
     Gc Cn "soft" 2 f_) = run m arr_GM_pcm_soft_2 [f; sigma; K0; G0; phi; phic; v_cem; v_ci; Kc; Gc; Cn; f_]) /\
  (forall m alpha f sigma K0 G0 phi phic v_cem v_ci Kc Gc Cn f_, out2 (GM_vpcm m alpha f sigma K0 G0 phi phic
     v_cem v_ci Kc Gc Cn 1 f_) = run m arr_GM_vpcm_1 [alpha; f; sigma; K0; G0; phi; phic; v_cem; v_ci; Kc; Gc;
     Cn; f_]) /\
  (forall m alpha f sigma K0 G0 phi phic v_cem v_ci Kc Gc Cn f_, out2 (GM_vpcm m alpha f sigma K0 G0 phi phic
     v_cem v_ci Kc Gc Cn 2 f_) = run m arr_GM_vpcm_2 [alpha; f; sigma; K0; G0; phi; phic; v_cem; v_ci; Kc; Gc;
     Cn; f_]) /\
  (forall m vsh phi_c phi_0 M_sh M_g M_c, out1 (QI_matrix_modulus m vsh phi_c phi_0 M_sh M_g M_c) = run m
     arr_QI_matrix_modulus [vsh; phi_c; phi_0; M_sh; M_g; M_c]).
Proof.
  split; [exact GM_pcm_stiff_1_arr|].
  split; [exact GM_pcm_stiff_2_arr|].
  split; [exact GM_pcm_soft_1_arr|].
  split; [exact GM_pcm_soft_2_arr|].
  split; [exact GM_vpcm_1_arr|].
  split; [exact GM_vpcm_2_arr|].
  exact QI_matrix_modulus_arr.
Qed.
Print Assumptions C79_programs_with_tests.

(** None of them but the last group contains a test. *)
Theorem C79_straight : forall p,
  In p [arr_utils_V; arr_utils_poi; arr_utils_lame; arr_utils_M_from_V; arr_utils_crack_por; arr_EM_cripor;
    arr_EM_HS_upper; arr_EM_HS_lower; arr_EM_hudson_rand; arr_EM_Dilute_crack; arr_EM_OConnell_Budiansky;
    arr_EM_SC_dilute_stress; arr_EM_SC_dilute_strain; arr_EM_MT_average; arr_Anis_Thomsen;
    arr_Anis_Thomsen_Tsvankin; arr_Fluid_Brie; arr_Fluid_Biot_HF; arr_Fluid_Geertsma_Smit_HF;
    arr_Fluid_Geertsma_Smit_LF; arr_Fluid_Gassmann; arr_Fluid_Gassmann_sub; arr_Fluid_vels;
    arr_Fluid_Gassmann_vels; arr_Fluid_Gassmann_approx; arr_Fluid_Mavko_Jizba; arr_GM_ThomasStieber;
    arr_GM_silty_shale; arr_GM_shaly_sand; arr_GM_contactcement_1; arr_GM_contactcement_2; arr_GM_hertzmindlin;
    arr_GM_softsand; arr_GM_Walton; arr_GM_stiffsand; arr_GM_constantcement_1; arr_GM_constantcement_2;
    arr_GM_MUHS_1; arr_GM_MUHS_2; arr_Perm_Kozeny_Carman; arr_Perm_Kozeny_Carman_Percolation; arr_Perm_Owolabi;
    arr_Perm_Perm_logs; arr_Perm_Panda_Lake; arr_Perm_Panda_Lake_cem; arr_Perm_Revil; arr_Perm_Fredrich;
    arr_Perm_Bloch; arr_Perm_Bernabe; arr_Emp_krief; arr_Emp_esti_VS; arr_Emp_han; arr_Emp_ehrenberg;
    arr_Emp_ramm_porosity_true; arr_Emp_ramm_porosity_false; arr_Emp_StPeter_1; arr_Emp_StPeter_2;
    arr_Emp_Scherbaum; arr_Emp_Sclater; arr_Emp_Storvoll; arr_Emp_Hillis; arr_Emp_hjelstuen; arr_Emp_Cp;
    arr_BW_dz_dp; arr_BW_pseudo_p_t; arr_BW_rho_K_co2; arr_BW_rho_K_gas; arr_BW_rho_K_oil; arr_BW_rho_K_go_sat;
    arr_BW_v_water; arr_BW_rho_K_water; arr_BW_v_brine; arr_BW_rho_K_brine; arr_BW_co2_brine_true;
    arr_BW_co2_brine_false; arr_AVO_zoeppritz; arr_AVO_AVO_abe; arr_AVO_AVO_ortho] ->
  straight p = true.
Proof.
  apply Forall_forall. repeat (apply Forall_cons; [reflexivity|]). apply Forall_nil.
Qed.
Print Assumptions C79_straight.

(** ** Arrays act element by element. *)
(** NumPy numbers and arrays: the call returns, and element i of each result is the result of the call with the i-th elements. *)
Theorem C79_arrays_elementwise : forall p n env,
  straight p = true -> args_ok n env ->
  exists out, run_arr NumPy p env = Ret out /\ args_ok n out /\
    forall i, (i < n)%nat -> run NumPy p (map (elem i) env) = Ret (map (elem i) out).
Proof.
  intros p n env S H. pose proof (run_straight NumPy n p S env H) as R.
  destruct (run_arr NumPy p env) as [out|e|]; [|destruct R; discriminate|contradiction].
  exists out. destruct R as [Ho R]. split; [auto|split; [auto|]]. intros i Hi.
  specialize (R i _ Hi (elems_rels NumPy i env)).
  destruct (run NumPy p (map (elem i) env)) as [xs|e|]; simpl in R; try discriminate.
  f_equal. apply rels_numpy; auto.
Qed.
Print Assumptions C79_arrays_elementwise.

(** The results that depend on an array argument are arrays of the same length, the others are numbers. *)
Theorem C79_array_shapes : forall m p n env out,
  straight p = true -> (forall v, In v env -> full n v) -> run_arr m p env = Ret out ->
  (forall v, In v out -> full n v) /\ map is_arr out = kinds p (map is_arr env).
Proof. intros m p n env out S H E. exact (run_kind m n p S env out H E). Qed.
Print Assumptions C79_array_shapes.

(** Python floats mixed with arrays: if every element by itself gives finite numbers, the call gives exactly these. *)
Theorem C79_arrays_python_floats : forall p n env rs,
  straight p = true -> args_ok n env -> (0 < n)%nat ->
  (forall i, (i < n)%nat -> run PyFloat p (map (elem i) env) = Ret (map Fin (rs i))) ->
  exists out, run_arr PyFloat p env = Ret out /\
    forall i, (i < n)%nat -> map (elem i) out = map Fin (rs i).
Proof.
  intros p n env rs S H Hn F. pose proof (run_straight PyFloat n p S env H) as R.
  destruct (run_arr PyFloat p env) as [out|e|]; [| |contradiction].
  - exists out. destruct R as [Ho R]. split; [auto|]. intros i Hi. specialize (R i _ Hi (elems_rels PyFloat i env)).
    rewrite (F i Hi) in R. symmetry. apply rels_py; auto.
  - destruct R as [_ R]. destruct (R 0%nat _ Hn (elems_rels PyFloat 0 env)) as [e' E]. rewrite (F 0%nat Hn) in E. discriminate.
Qed.
Print Assumptions C79_arrays_python_floats.

(** Such a call raises only if every element by itself raises. *)
Theorem C79_arrays_raise : forall m p n env e,
  straight p = true -> args_ok n env -> run_arr m p env = Raise e ->
  m = PyFloat /\ forall i, (i < n)%nat -> exists e', run m p (map (elem i) env) = Raise e'.
Proof.
  intros m p n env e S H E. pose proof (run_straight m n p S env H) as R. rewrite E in R. destruct R as [Hm R].
  split; auto. intros i Hi. exact (R i _ Hi (elems_rels m i env)).
Qed.
Print Assumptions C79_arrays_raise.

(** Arrays of any lengths: the only failure is the ValueError of lengths that do not match. *)
Theorem C79_arrays_lengths : forall p env,
  straight p = true -> (forall v, In v env -> is_value v) ->
  (exists out, run_arr NumPy p env = Ret out) \/ run_arr NumPy p env = Raise ValueError.
Proof.
  intros p env S H. pose proof (run_any_length p S env H) as R.
  destruct (run_arr NumPy p env) as [out|e|]; simpl in R; [left; eauto|right; congruence|contradiction].
Qed.
Print Assumptions C79_arrays_lengths.

(** ** The functions with a test: right when they return ... *)
Theorem C79_tests_elementwise : forall p n env out,
  args_ok n env -> run_arr NumPy p env = Ret out ->
  forall i, (i < n)%nat -> run NumPy p (map (elem i) env) = Ret (map (elem i) out).
Proof.
  intros p n env out H E i Hi. destruct (run_any NumPy n p env out H E) as [_ R].
  specialize (R i _ Hi (elems_rels NumPy i env)).
  destruct (run NumPy p (map (elem i) env)) as [xs|e|]; simpl in R; try discriminate.
  f_equal. apply rels_numpy; auto.
Qed.
Print Assumptions C79_tests_elementwise.

(** ... but an array of several elements cannot be tested: [v_cem] of [GM.pcm] and [GM.vpcm], [vsh] of [QI.matrix_modulus]. *)
Theorem C79_tested_argument_refuted : forall m p j n env l,
  In (p, j) [(arr_GM_pcm_stiff_1, 6%nat); (arr_GM_pcm_stiff_2, 6%nat); (arr_GM_pcm_soft_1, 6%nat); (arr_GM_pcm_soft_2, 6%nat);
             (arr_GM_vpcm_1, 7%nat); (arr_GM_vpcm_2, 7%nat); (arr_QI_matrix_modulus, 0%nat)] ->
  args_ok n env -> (j < length env)%nat -> nth j env (VS Und) = VA l -> length l = n -> (2 <= n)%nat ->
  exists e, run_arr m p env = Raise e /\ (m = NumPy -> e = ValueError).
Proof.
  intros m p j n env l Hp H Hj Hnth Hl Hn. apply (run_blocked m j p l n); auto.
  repeat (destruct Hp as [Hp|Hp]; [injection Hp as <- <-; reflexivity|]). contradiction.
Qed.
Print Assumptions C79_tested_argument_refuted.

(** ** Read for three functions. *)
Lemma two_arrays n v w : full n v -> full n w -> is_arr v = true -> is_arr w = true ->
  exists a b, v = VA a /\ w = VA b /\ length a = n /\ length b = n.
Proof. destruct v as [|a], w as [|b]; simpl; try discriminate. intros; exists a, b; auto. Qed.
Lemma out2_ret o a b : out2 o = Ret [a; b] -> o = Ret (a, b).
Proof.
  destruct o as [[x y]|e|]; simpl; try discriminate. unfold rets.
  destruct x as [x| | | |ex]; simpl; try discriminate; destruct y as [y| | | |ey]; simpl; congruence.
Qed.
Lemma elem_full i n l : (i < n)%nat -> length l = n -> elem i (VA l) = nth i l Und.
Proof. intros Hi Hl. destruct l as [|x [|y l]]; simpl in *; auto. destruct i; [auto|lia]. Qed.
Lemma fin_is_value l : is_value (VA (map Fin l)).
Proof. intros x Hx. apply in_map_iff in Hx as (r & <- & _). exact I. Qed.

(** The upper bound over an array of fractions. *)
Theorem C79_hs_curve : forall fs K1 K2 G1 G2,
  exists ks gs,
    run_arr NumPy arr_EM_HS_upper [VA (map Fin fs); VS (Fin K1); VS (Fin K2); VS (Fin G1); VS (Fin G2)] = Ret [VA ks; VA gs] /\
    length ks = length fs /\ length gs = length fs /\
    forall i, (i < length fs)%nat ->
      EM_HS NumPy (Fin (nth i fs 0%R)) (Fin K1) (Fin K2) (Fin G1) (Fin G2) "upper" = Ret (nth i ks Und, nth i gs Und).
Proof.
  intros fs K1 K2 G1 G2.
  set (env := [VA (map Fin fs); VS (Fin K1); VS (Fin K2); VS (Fin G1); VS (Fin G2)]).
  assert (A : args_ok (length fs) env).
  { intros v Hv. repeat (destruct Hv as [<-|Hv]; [try (split; exact I)|]); [|contradiction].
    split; [right; apply map_length|apply fin_is_value]. }
  destruct (C79_arrays_elementwise arr_EM_HS_upper _ env eq_refl A) as (out & E & _ & H).
  destruct (C79_array_shapes NumPy arr_EM_HS_upper (length fs) env out eq_refl) as [F K]; auto.
  { intros v Hv. repeat (destruct Hv as [<-|Hv]; [try exact I|]); [|contradiction]. apply map_length. }
  destruct out as [|v [|w [|]]]; try discriminate. cbn in K. injection K as Kv Kw.
  destruct (two_arrays _ v w (F v (or_introl eq_refl)) (F w (or_intror (or_introl eq_refl))) Kv Kw) as (ks & gs & -> & -> & Lk & Lg).
  exists ks, gs. split; [auto|split; [auto|split; [auto|]]]. intros i Hi.
  specialize (H i Hi). unfold env in H. cbn [map] in H. change (map Fin fs) with (map Fin fs) in H.
  rewrite (elem_full i (length fs) (map Fin fs)) in H; [|auto|apply map_length].
  rewrite (nth_indep _ Und (Fin 0)), map_nth in H by (rewrite map_length; auto).
  rewrite (elem_full i (length fs) ks), (elem_full i (length fs) gs) in H by auto.
  change (elem i (VS ?x)) with x in H. rewrite <- EM_HS_upper_arr in H. apply out2_ret; auto.
Qed.
Print Assumptions C79_hs_curve.

(** Hertz-Mindlin over an array of stresses. *)
Theorem C79_hertzmindlin_curve : forall sigmas K0 G0 phic Cn f,
  exists ks gs,
    run_arr NumPy arr_GM_hertzmindlin [VS (Fin K0); VS (Fin G0); VS (Fin phic); VS (Fin Cn); VA (map Fin sigmas); VS (Fin f)]
      = Ret [VA ks; VA gs] /\
    length ks = length sigmas /\ length gs = length sigmas /\
    forall i, (i < length sigmas)%nat ->
      GM_hertzmindlin NumPy (Fin K0) (Fin G0) (Fin phic) (Fin Cn) (Fin (nth i sigmas 0%R)) (Fin f)
        = Ret (nth i ks Und, nth i gs Und).
Proof.
  intros fs K0 G0 phic Cn f.
  set (env := [VS (Fin K0); VS (Fin G0); VS (Fin phic); VS (Fin Cn); VA (map Fin fs); VS (Fin f)]).
  assert (A : args_ok (length fs) env).
  { intros v Hv. repeat (destruct Hv as [<-|Hv]; [try (split; exact I)|]); [|contradiction].
    split; [right; apply map_length|apply fin_is_value]. }
  destruct (C79_arrays_elementwise arr_GM_hertzmindlin _ env eq_refl A) as (out & E & _ & H).
  destruct (C79_array_shapes NumPy arr_GM_hertzmindlin (length fs) env out eq_refl) as [F K]; auto.
  { intros v Hv. repeat (destruct Hv as [<-|Hv]; [try exact I|]); [|contradiction]. apply map_length. }
  destruct out as [|v [|w [|]]]; try discriminate. cbn in K. injection K as Kv Kw.
  destruct (two_arrays _ v w (F v (or_introl eq_refl)) (F w (or_intror (or_introl eq_refl))) Kv Kw) as (ks & gs & -> & -> & Lk & Lg).
  exists ks, gs. split; [auto|split; [auto|split; [auto|]]]. intros i Hi.
  specialize (H i Hi). unfold env in H. cbn [map] in H.
  rewrite (elem_full i (length fs) (map Fin fs)) in H; [|auto|apply map_length].
  rewrite (nth_indep _ Und (Fin 0)), map_nth in H by (rewrite map_length; auto).
  rewrite (elem_full i (length fs) ks), (elem_full i (length fs) gs) in H by auto.
  change (elem i (VS ?x)) with x in H. rewrite <- GM_hertzmindlin_arr in H. apply out2_ret; auto.
Qed.
Print Assumptions C79_hertzmindlin_curve.

(** Gassmann with an array of dry bulk moduli and one shear modulus: the shear modulus comes back as the number it was. *)
Theorem C79_gassmann_shear : forall Ks G_dry K_mat Kf phi,
  exists ks,
    run_arr NumPy arr_Fluid_Gassmann [VA (map Fin Ks); VS (Fin G_dry); VS (Fin K_mat); VS (Fin Kf); VS (Fin phi)]
      = Ret [VA ks; VS (Fin G_dry)] /\ length ks = length Ks /\
    forall i, (i < length Ks)%nat ->
      Fluid_Gassmann NumPy (Fin (nth i Ks 0%R)) (Fin G_dry) (Fin K_mat) (Fin Kf) (Fin phi) = Ret (nth i ks Und, Fin G_dry).
Proof.
  intros fs G_dry K_mat Kf phi.
  set (env := [VA (map Fin fs); VS (Fin G_dry); VS (Fin K_mat); VS (Fin Kf); VS (Fin phi)]).
  assert (A : args_ok (length fs) env).
  { intros v Hv. repeat (destruct Hv as [<-|Hv]; [try (split; exact I)|]); [|contradiction].
    split; [right; apply map_length|apply fin_is_value]. }
  destruct (C79_arrays_elementwise arr_Fluid_Gassmann _ env eq_refl A) as (out & E & _ & H).
  destruct (C79_array_shapes NumPy arr_Fluid_Gassmann (length fs) env out eq_refl) as [F K]; auto.
  { intros v Hv. repeat (destruct Hv as [<-|Hv]; [try exact I|]); [|contradiction]. apply map_length. }
  destruct out as [|v [|w [|]]]; try discriminate. cbn in K. injection K as Kv Kw.
  destruct v as [|ks]; try discriminate. destruct w as [g|]; try discriminate.
  assert (Lk : length ks = length fs) by exact (F _ (or_introl eq_refl)).
  assert (g = Fin G_dry) as ->.
  { clear - E. unfold arr_Fluid_Gassmann, env in E. cbn [run_arr] in E.
    do 3 match type of E with
    | call ?x _ = _ => let z := fresh "z" in let Ez := fresh "Ez" in destruct x as [z|z|] eqn:Ez; cbn [call] in E; try discriminate; clear Ez
    end.
    cbn [app ev_arrs ev_arr nth call] in E. congruence. }
  exists ks. split; [auto|split; [auto|]]. intros i Hi.
  specialize (H i Hi). unfold env in H. cbn [map] in H.
  rewrite (elem_full i (length fs) (map Fin fs)) in H; [|auto|apply map_length].
  rewrite (nth_indep _ Und (Fin 0)), map_nth in H by (rewrite map_length; auto).
  rewrite (elem_full i (length fs) ks) in H by auto.
  change (elem i (VS ?x)) with x in H. rewrite <- Fluid_Gassmann_arr in H. apply out2_ret; auto.
Qed.
Print Assumptions C79_gassmann_shear.

(** ** Cases that meet the hypotheses. *)
(** Two fractions, one modulus given as a one-element array. *)
Example C79_nonvacuous :
  args_ok 2 [VA [#0; #1]; VA [#37]; VS #2; VS #44; VS #1] /\ ~ args_ok 2 [VA [#0; #1; #(1/2)]] /\
  straight arr_EM_HS_upper = true /\ straight arr_GM_vpcm_1 = false.
Proof.
  split; [|split; [|split; reflexivity]].
  - intros v Hv. repeat (destruct Hv as [<-|Hv]; [split; [simpl; auto|try exact I]|]); try contradiction;
      intros x Hx; repeat (destruct Hx as [<-|Hx]; [exact I|]); contradiction.
  - intros H. destruct (H _ (or_introl eq_refl)) as [[L|L] _]; discriminate.
Qed.
(** Python floats with an array: the porosity-free element of the critical-porosity model. *)
Example C79_nonvacuous_python :
  forall i, (i < 2)%nat ->
  run PyFloat arr_EM_cripor (map (elem i) [VS #36; VS #44; VA [#0; #(1/5)]; VS #(2/5)])
    = Ret (map Fin (nth i [[36; 44]; [36 * (1 - 1 / 5 / (2 / 5)); 44 * (1 - 1 / 5 / (2 / 5))]] [])%R).
Proof.
  intros i Hi. destruct i as [|[|i]]; [| |lia]; cbn [map elem nth]; rewrite <- (EM_cripor_arr PyFloat);
    unfold EM_cripor; rewrite fdiv_fin by lra; cbn; repeat f_equal; lra.
Qed.
(** ... and a division by a zero critical porosity raises, alone or with an array. *)
Example C79_nonvacuous_raise :
  run_arr PyFloat arr_EM_cripor [VA [#36; #37]; VS #44; VS #(1/5); VS #0] = Raise ZeroDivisionError /\
  args_ok 2 [VA [#36; #37]; VS #44; VS #(1/5); VS #0].
Proof.
  split.
  - cbn. destruct (Req_EM_T 0 0); [reflexivity|congruence].
  - intros v Hv. repeat (destruct Hv as [<-|Hv]; [split; [simpl; auto|try exact I]|]); try contradiction;
      intros x Hx; repeat (destruct Hx as [<-|Hx]; [exact I|]); contradiction.
Qed.
(** Lengths that do not match. *)
Example C79_nonvacuous_mismatch :
  run_arr NumPy arr_utils_lame [VA [#1; #2]; VA [#1; #2; #3]] = Raise ValueError.
Proof. reflexivity. Qed.
