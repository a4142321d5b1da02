(** * P_Cont: small changes of the inputs change the results little (C85).
    [continuous_fn f]: wherever [f] gives numbers, its results vary continuously with all inputs jointly; [robust_fn f]: around every
    input where it gives numbers it goes on giving numbers, so that a small enough error of measurement can neither make it raise nor
    give inf or nan. [continuous_on D f] asks the former at the inputs in [D] only (but lets the inputs leave [D] when they vary).
    A call with the wrong number of arguments is given no meaning ([Unknown]). *)
From Verif Require Import Fl RealLemmas M_Utils M_EM M_Anis M_Fluid M_GM M_Perm M_Emp M_BW M_AVO M_QI Spec16 Spec21 L_Cont L_ContProg L_ContFns L_ContFns2 L_ContFns3 L_ContList P_GM.
Open Scope R_scope.

(** Conversions between moduli and velocities, crack porosity. *)
Theorem C85_utils : forall m,
  continuous_fn (fun l => match l with [K; G; rho] => out2 (utils_V m K G rho) | _ => Unknown end) /\
  continuous_fn (fun l => match l with [K; G] => out1 (utils_poi m K G) | _ => Unknown end) /\
  robust_fn (fun l => match l with [K; G] => out1 (utils_poi m K G) | _ => Unknown end) /\
  continuous_fn (fun l => match l with [K; G] => out1 (utils_lame m K G) | _ => Unknown end) /\
  robust_fn (fun l => match l with [K; G] => out1 (utils_lame m K G) | _ => Unknown end) /\
  continuous_fn (fun l => match l with [den; vp; vs] => out2 (utils_M_from_V m den vp vs) | _ => Unknown end) /\
  robust_fn (fun l => match l with [den; vp; vs] => out2 (utils_M_from_V m den vp vs) | _ => Unknown end) /\
  continuous_fn (fun l => match l with [crd; alpha] => out1 (utils_crack_por m crd alpha) | _ => Unknown end) /\
  robust_fn (fun l => match l with [crd; alpha] => out1 (utils_crack_por m crd alpha) | _ => Unknown end).
Proof.
  intros m. repeat match goal with |- _ /\ _ => split end.
  - apply cont_utils_V.
  - apply cont_utils_poi.
  - apply robust_utils_poi.
  - apply cont_utils_lame.
  - apply robust_utils_lame.
  - apply cont_utils_M_from_V.
  - apply robust_utils_M_from_V.
  - apply cont_utils_crack_por.
  - apply robust_utils_crack_por.
Qed.
Print Assumptions C85_utils.

(** Effective medium theories. *)
Theorem C85_EM : forall m,
  continuous_fn (fun l => match l with [K0; G0; phi; phic] => out2 (EM_cripor m K0 G0 phi phic) | _ => Unknown end) /\
  robust_fn (fun l => match l with [K0; G0; phi; phic] => out2 (EM_cripor m K0 G0 phi phic) | _ => Unknown end) /\
  continuous_fn (fun l => match l with [f; K1; K2; G1; G2] => out2 (EM_HS m f K1 K2 G1 G2 "upper") | _ => Unknown end) /\
  robust_fn (fun l => match l with [f; K1; K2; G1; G2] => out2 (EM_HS m f K1 K2 G1 G2 "upper") | _ => Unknown end) /\
  continuous_fn (fun l => match l with [f; K1; K2; G1; G2] => out2 (EM_HS m f K1 K2 G1 G2 "lower") | _ => Unknown end) /\
  robust_fn (fun l => match l with [f; K1; K2; G1; G2] => out2 (EM_HS m f K1 K2 G1 G2 "lower") | _ => Unknown end) /\
  continuous_fn (fun l => match l with [K; G; Ki; Gi; alpha; crd] => out2 (EM_hudson_rand m K G Ki Gi alpha crd) | _ => Unknown end) /\
  robust_fn (fun l => match l with [K; G; Ki; Gi; alpha; crd] => out2 (EM_hudson_rand m K G Ki Gi alpha crd) | _ => Unknown end) /\
  continuous_fn (fun l => match l with [Ks; Gs; cd] => out2 (EM_Dilute_crack m Ks Gs cd) | _ => Unknown end) /\
  robust_fn (fun l => match l with [Ks; Gs; cd] => out2 (EM_Dilute_crack m Ks Gs cd) | _ => Unknown end) /\
  continuous_fn (fun l => match l with [K0; G0; crd] => out2 (EM_OConnell_Budiansky m K0 G0 crd) | _ => Unknown end) /\
  robust_fn (fun l => match l with [K0; G0; crd] => out2 (EM_OConnell_Budiansky m K0 G0 crd) | _ => Unknown end) /\
  continuous_fn (fun l => match l with [Km; Gm; Ki; Gi; f] => out2 (EM_SC_dilute m Km Gm Ki Gi f "stress") | _ => Unknown end) /\
  robust_fn (fun l => match l with [Km; Gm; Ki; Gi; f] => out2 (EM_SC_dilute m Km Gm Ki Gi f "stress") | _ => Unknown end) /\
  continuous_fn (fun l => match l with [Km; Gm; Ki; Gi; f] => out2 (EM_SC_dilute m Km Gm Ki Gi f "strain") | _ => Unknown end) /\
  robust_fn (fun l => match l with [Km; Gm; Ki; Gi; f] => out2 (EM_SC_dilute m Km Gm Ki Gi f "strain") | _ => Unknown end) /\
  continuous_fn (fun l => match l with [f; Kmat; Gmat; K1; G1; K2; G2] => out2 (EM_MT_average m f Kmat Gmat K1 G1 K2 G2) | _ => Unknown end) /\
  robust_fn (fun l => match l with [f; Kmat; Gmat; K1; G1; K2; G2] => out2 (EM_MT_average m f Kmat Gmat K1 G1 K2 G2) | _ => Unknown end).
Proof.
  intros m. repeat match goal with |- _ /\ _ => split end.
  - apply cont_EM_cripor.
  - apply robust_EM_cripor.
  - apply cont_EM_HS_upper.
  - apply robust_EM_HS_upper.
  - apply cont_EM_HS_lower.
  - apply robust_EM_HS_lower.
  - apply cont_EM_hudson_rand.
  - apply robust_EM_hudson_rand.
  - apply cont_EM_Dilute_crack.
  - apply robust_EM_Dilute_crack.
  - apply cont_EM_OConnell_Budiansky.
  - apply robust_EM_OConnell_Budiansky.
  - apply cont_EM_SC_dilute_stress.
  - apply robust_EM_SC_dilute_stress.
  - apply cont_EM_SC_dilute_strain.
  - apply robust_EM_SC_dilute_strain.
  - apply cont_EM_MT_average.
  - apply robust_EM_MT_average.
Qed.
Print Assumptions C85_EM.

(** Thomsen and Tsvankin parameters. *)
Theorem C85_Anis : forall m,
  continuous_fn (fun l => match l with [C11; C33; C13; C44; C66; den; theta] => out6 (Anis_Thomsen m C11 C33 C13 C44 C66 den theta) | _ => Unknown end) /\
  continuous_fn (fun l => match l with [C11; C22; C33; C12; C13; C23; C44; C55; C66] => out7 (Anis_Thomsen_Tsvankin m C11 C22 C33 C12 C13 C23 C44 C55 C66) | _ => Unknown end) /\
  robust_fn (fun l => match l with [C11; C22; C33; C12; C13; C23; C44; C55; C66] => out7 (Anis_Thomsen_Tsvankin m C11 C22 C33 C12 C13 C23 C44 C55 C66) | _ => Unknown end).
Proof.
  intros m. repeat match goal with |- _ /\ _ => split end.
  - apply cont_Anis_Thomsen.
  - apply cont_Anis_Thomsen_Tsvankin.
  - apply robust_Anis_Thomsen_Tsvankin.
Qed.
Print Assumptions C85_Anis.

(** Fluid substitution. For Brie mixing the saturation and the exponent must not both be zero (refuted below). *)
Theorem C85_Fluid : forall m,
  continuous_fn (fun l => match l with [Kdry; Gdry; K0; Kfl; rho0; rhofl; phi; alpha] => out3 (Fluid_Biot_HF m Kdry Gdry K0 Kfl rho0 rhofl phi alpha) | _ => Unknown end) /\
  continuous_fn (fun l => match l with [Kdry; Gdry; K0; Kfl; rho0; rhofl; phi; alpha] => out2 (Fluid_Geertsma_Smit_HF m Kdry Gdry K0 Kfl rho0 rhofl phi alpha) | _ => Unknown end) /\
  continuous_fn (fun l => match l with [Vp0; Vpinf; freq; phi; rhofl; kapa; eta] => out1 (Fluid_Geertsma_Smit_LF m Vp0 Vpinf freq phi rhofl kapa eta) | _ => Unknown end) /\
  continuous_fn (fun l => match l with [K_dry; G_dry; K_mat; Kf; phi] => out2 (Fluid_Gassmann m K_dry G_dry K_mat Kf phi) | _ => Unknown end) /\
  robust_fn (fun l => match l with [K_dry; G_dry; K_mat; Kf; phi] => out2 (Fluid_Gassmann m K_dry G_dry K_mat Kf phi) | _ => Unknown end) /\
  continuous_fn (fun l => match l with [phi; K0; Ksat1; Kfl1; Kfl2] => out1 (Fluid_Gassmann_sub m phi K0 Ksat1 Kfl1 Kfl2) | _ => Unknown end) /\
  robust_fn (fun l => match l with [phi; K0; Ksat1; Kfl1; Kfl2] => out1 (Fluid_Gassmann_sub m phi K0 Ksat1 Kfl1 Kfl2) | _ => Unknown end) /\
  continuous_fn (fun l => match l with [K_dry; G_dry; K0; D0; Kf; Df; phi] => out3 (Fluid_vels m K_dry G_dry K0 D0 Kf Df phi) | _ => Unknown end) /\
  continuous_fn (fun l => match l with [Vp1; Vs1; rho1; rhofl1; Kfl1; rhofl2; Kfl2; K0; phi] => out2 (Fluid_Gassmann_vels m Vp1 Vs1 rho1 rhofl1 Kfl1 rhofl2 Kfl2 K0 phi) | _ => Unknown end) /\
  continuous_fn (fun l => match l with [Msat1; M0; Mfl1; phi; Mfl2] => out1 (Fluid_Gassmann_approx m Msat1 M0 Mfl1 phi Mfl2) | _ => Unknown end) /\
  robust_fn (fun l => match l with [Msat1; M0; Mfl1; phi; Mfl2] => out1 (Fluid_Gassmann_approx m Msat1 M0 Mfl1 phi Mfl2) | _ => Unknown end) /\
  continuous_fn (fun l => match l with [Vp_hs; Vs_hs; Vpdry; Vsdry; K0; rhodry; rhofl; Kfl; phi] => out4 (Fluid_Mavko_Jizba m Vp_hs Vs_hs Vpdry Vsdry K0 rhodry rhofl Kfl phi) | _ => Unknown end) /\
  continuous_on (fun l => match l with [_; _; Sw; e] => Sw <> 0 \/ e <> 0 | _ => False end) (fun l => match l with [Kw; Kgas; Sw; e] => out1 (Fluid_Brie m Kw Kgas Sw e) | _ => Unknown end).
Proof.
  intros m. repeat match goal with |- _ /\ _ => split end.
  - apply cont_Fluid_Biot_HF.
  - apply cont_Fluid_Geertsma_Smit_HF.
  - apply cont_Fluid_Geertsma_Smit_LF.
  - apply cont_Fluid_Gassmann.
  - apply robust_Fluid_Gassmann.
  - apply cont_Fluid_Gassmann_sub.
  - apply robust_Fluid_Gassmann_sub.
  - apply cont_Fluid_vels.
  - apply cont_Fluid_Gassmann_vels.
  - apply cont_Fluid_Gassmann_approx.
  - apply robust_Fluid_Gassmann_approx.
  - apply cont_Fluid_Mavko_Jizba.
  - apply cont_Fluid_Brie.
Qed.
Print Assumptions C85_Fluid.

(** Granular media models. *)
Theorem C85_GM : forall m,
  continuous_fn (fun l => match l with [phi_sand; phi_sh; vsh] => out2 (GM_ThomasStieber phi_sand phi_sh vsh) | _ => Unknown end) /\
  continuous_fn (fun l => match l with [C; Kq; Gq; Ksh; Gsh] => out2 (GM_silty_shale m C Kq Gq Ksh Gsh) | _ => Unknown end) /\
  robust_fn (fun l => match l with [C; Kq; Gq; Ksh; Gsh] => out2 (GM_silty_shale m C Kq Gq Ksh Gsh) | _ => Unknown end) /\
  continuous_fn (fun l => match l with [phis; C; Kss; Gss; Kcc; Gcc] => out2 (GM_shaly_sand m phis C Kss Gss Kcc Gcc) | _ => Unknown end) /\
  robust_fn (fun l => match l with [phis; C; Kss; Gss; Kcc; Gcc] => out2 (GM_shaly_sand m phis C Kss Gss Kcc Gcc) | _ => Unknown end) /\
  continuous_fn (fun l => match l with [K0; G0; phic; Cn; sigma; f] => out2 (GM_hertzmindlin m K0 G0 phic Cn sigma f) | _ => Unknown end) /\
  continuous_fn (fun l => match l with [K0; G0; phi; phic; Cn; sigma; f] => out2 (GM_softsand m K0 G0 phi phic Cn sigma f) | _ => Unknown end) /\
  continuous_fn (fun l => match l with [K0; G0; phic; Cn; sigma; f] => out2 (GM_Walton m K0 G0 phic Cn sigma f) | _ => Unknown end) /\
  continuous_fn (fun l => match l with [K0; G0; phi; phic; Cn; sigma; f] => out2 (GM_stiffsand m K0 G0 phi phic Cn sigma f) | _ => Unknown end) /\
  robust_fn (fun l => match l with [phi_sand; phi_sh; vsh] => out2 (GM_ThomasStieber phi_sand phi_sh vsh) | _ => Unknown end).
Proof.
  intros m. repeat match goal with |- _ /\ _ => split end.
  - apply cont_GM_ThomasStieber.
  - apply cont_GM_silty_shale.
  - apply robust_GM_silty_shale.
  - apply cont_GM_shaly_sand.
  - apply robust_GM_shaly_sand.
  - apply cont_GM_hertzmindlin.
  - apply cont_GM_softsand.
  - apply cont_GM_Walton.
  - apply cont_GM_stiffsand.
  - apply robust_GM_ThomasStieber.
Qed.
Print Assumptions C85_GM.

(** Permeability relations. *)
Theorem C85_Perm : forall m,
  continuous_fn (fun l => match l with [phi; d] => out1 (Perm_Kozeny_Carman m phi d) | _ => Unknown end) /\
  robust_fn (fun l => match l with [phi; d] => out1 (Perm_Kozeny_Carman m phi d) | _ => Unknown end) /\
  continuous_fn (fun l => match l with [phi; phic; d; B] => out1 (Perm_Kozeny_Carman_Percolation m phi phic d B) | _ => Unknown end) /\
  robust_fn (fun l => match l with [phi; phic; d; B] => out1 (Perm_Kozeny_Carman_Percolation m phi phic d B) | _ => Unknown end) /\
  continuous_fn (fun l => match l with [phi; Swi] => out2 (Perm_Owolabi phi Swi) | _ => Unknown end) /\
  robust_fn (fun l => match l with [phi; Swi] => out2 (Perm_Owolabi phi Swi) | _ => Unknown end) /\
  continuous_fn (fun l => match l with [phi; Swi] => out4 (Perm_Perm_logs m phi Swi) | _ => Unknown end) /\
  continuous_fn (fun l => match l with [d; C; Sr; tau; phi] => out1 (Perm_Panda_Lake m d C Sr tau phi) | _ => Unknown end) /\
  robust_fn (fun l => match l with [d; C; Sr; tau; phi] => out1 (Perm_Panda_Lake m d C Sr tau phi) | _ => Unknown end) /\
  continuous_fn (fun l => match l with [phi; d] => out1 (Perm_Panda_Lake_cem m phi d) | _ => Unknown end) /\
  robust_fn (fun l => match l with [phi; d] => out1 (Perm_Panda_Lake_cem m phi d) | _ => Unknown end) /\
  continuous_fn (fun l => match l with [phi; d] => out1 (Perm_Revil m phi d) | _ => Unknown end) /\
  continuous_fn (fun l => match l with [phi; d; b] => out1 (Perm_Fredrich m phi d b) | _ => Unknown end) /\
  robust_fn (fun l => match l with [phi; d; b] => out1 (Perm_Fredrich m phi d b) | _ => Unknown end) /\
  continuous_fn (fun l => match l with [Sr; C; D] => out2 (Perm_Bloch m Sr C D) | _ => Unknown end) /\
  continuous_fn (fun l => match l with [phi; crf; w; r] => out1 (Perm_Bernabe m phi crf w r) | _ => Unknown end) /\
  robust_fn (fun l => match l with [phi; crf; w; r] => out1 (Perm_Bernabe m phi crf w r) | _ => Unknown end).
Proof.
  intros m. repeat match goal with |- _ /\ _ => split end.
  - apply cont_Perm_Kozeny_Carman.
  - apply robust_Perm_Kozeny_Carman.
  - apply cont_Perm_Kozeny_Carman_Percolation.
  - apply robust_Perm_Kozeny_Carman_Percolation.
  - apply cont_Perm_Owolabi.
  - apply robust_Perm_Owolabi.
  - apply cont_Perm_Perm_logs.
  - apply cont_Perm_Panda_Lake.
  - apply robust_Perm_Panda_Lake.
  - apply cont_Perm_Panda_Lake_cem.
  - apply robust_Perm_Panda_Lake_cem.
  - apply cont_Perm_Revil.
  - apply cont_Perm_Fredrich.
  - apply robust_Perm_Fredrich.
  - apply cont_Perm_Bloch.
  - apply cont_Perm_Bernabe.
  - apply robust_Perm_Bernabe.
Qed.
Print Assumptions C85_Perm.

(** Empirical relations. *)
Theorem C85_Emp : forall m,
  continuous_fn (fun l => match l with [Vp; vsh] => out1 (Emp_esti_VS m Vp vsh) | _ => Unknown end) /\
  robust_fn (fun l => match l with [Vp; vsh] => out1 (Emp_esti_VS m Vp vsh) | _ => Unknown end) /\
  continuous_fn (fun l => match l with [phi; C] => out2 (Emp_han phi C) | _ => Unknown end) /\
  robust_fn (fun l => match l with [phi; C] => out2 (Emp_han phi C) | _ => Unknown end) /\
  continuous_fn (fun l => match l with [Z] => out1 (Emp_ehrenberg m Z) | _ => Unknown end) /\
  robust_fn (fun l => match l with [Z] => out1 (Emp_ehrenberg m Z) | _ => Unknown end) /\
  continuous_fn (fun l => match l with [Z] => out1 (Emp_ramm_porosity m Z true) | _ => Unknown end) /\
  robust_fn (fun l => match l with [Z] => out1 (Emp_ramm_porosity m Z true) | _ => Unknown end) /\
  continuous_fn (fun l => match l with [Z] => out1 (Emp_ramm_porosity m Z false) | _ => Unknown end) /\
  robust_fn (fun l => match l with [Z] => out1 (Emp_ramm_porosity m Z false) | _ => Unknown end) /\
  continuous_fn (fun l => match l with [Pe] => out2 (Emp_StPeter Pe 1) | _ => Unknown end) /\
  robust_fn (fun l => match l with [Pe] => out2 (Emp_StPeter Pe 1) | _ => Unknown end) /\
  continuous_fn (fun l => match l with [Pe] => out2 (Emp_StPeter Pe 2) | _ => Unknown end) /\
  robust_fn (fun l => match l with [Pe] => out2 (Emp_StPeter Pe 2) | _ => Unknown end) /\
  continuous_fn (fun l => match l with [Z] => out1 (Emp_Scherbaum Z) | _ => Unknown end) /\
  robust_fn (fun l => match l with [Z] => out1 (Emp_Scherbaum Z) | _ => Unknown end) /\
  continuous_fn (fun l => match l with [phi] => out1 (Emp_Sclater m phi) | _ => Unknown end) /\
  continuous_fn (fun l => match l with [Z] => out1 (Emp_Storvoll m Z) | _ => Unknown end) /\
  robust_fn (fun l => match l with [Z] => out1 (Emp_Storvoll m Z) | _ => Unknown end) /\
  continuous_fn (fun l => match l with [Z] => out1 (Emp_Hillis m Z) | _ => Unknown end) /\
  robust_fn (fun l => match l with [Z] => out1 (Emp_Hillis m Z) | _ => Unknown end) /\
  continuous_fn (fun l => match l with [Z] => out1 (Emp_hjelstuen m Z) | _ => Unknown end) /\
  robust_fn (fun l => match l with [Z] => out1 (Emp_hjelstuen m Z) | _ => Unknown end) /\
  continuous_fn (fun l => match l with [phi] => out1 (Emp_Cp phi) | _ => Unknown end) /\
  robust_fn (fun l => match l with [phi] => out1 (Emp_Cp phi) | _ => Unknown end) /\
  continuous_fn (fun l => match l with [phi; Kg; Gg] => out3 (Emp_krief m phi Kg Gg) | _ => Unknown end).
Proof.
  intros m. repeat match goal with |- _ /\ _ => split end.
  - apply cont_Emp_esti_VS.
  - apply robust_Emp_esti_VS.
  - apply cont_Emp_han.
  - apply robust_Emp_han.
  - apply cont_Emp_ehrenberg.
  - apply robust_Emp_ehrenberg.
  - apply cont_Emp_ramm_porosity_true.
  - apply robust_Emp_ramm_porosity_true.
  - apply cont_Emp_ramm_porosity_false.
  - apply robust_Emp_ramm_porosity_false.
  - apply cont_Emp_StPeter_1.
  - apply robust_Emp_StPeter_1.
  - apply cont_Emp_StPeter_2.
  - apply robust_Emp_StPeter_2.
  - apply cont_Emp_Scherbaum.
  - apply robust_Emp_Scherbaum.
  - apply cont_Emp_Sclater.
  - apply cont_Emp_Storvoll.
  - apply robust_Emp_Storvoll.
  - apply cont_Emp_Hillis.
  - apply robust_Emp_Hillis.
  - apply cont_Emp_hjelstuen.
  - apply robust_Emp_hjelstuen.
  - apply cont_Emp_Cp.
  - apply robust_Emp_Cp.
  - apply cont_Emp_krief.
Qed.
Print Assumptions C85_Emp.

(** Batzle-Wang fluids. *)
Theorem C85_BW : forall m,
  continuous_fn (fun l => match l with [P_pr; T_pr] => out1 (BW_dz_dp m P_pr T_pr) | _ => Unknown end) /\
  continuous_fn (fun l => match l with [P; T; G] => out3 (BW_pseudo_p_t m P T G) | _ => Unknown end) /\
  robust_fn (fun l => match l with [P; T; G] => out3 (BW_pseudo_p_t m P T G) | _ => Unknown end) /\
  continuous_fn (fun l => match l with [P; T; G] => out2 (BW_rho_K_co2 m P T G) | _ => Unknown end) /\
  continuous_fn (fun l => match l with [P; T; G] => out2 (BW_rho_K_gas m P T G) | _ => Unknown end) /\
  continuous_fn (fun l => match l with [P; T; den] => out2 (BW_rho_K_oil m P T den) | _ => Unknown end) /\
  continuous_fn (fun l => match l with [P; T; den; G] => out2 (BW_rho_K_go m P T den G None) | _ => Unknown end) /\
  continuous_fn (fun l => match l with [T; P] => out1 (BW_v_water T P) | _ => Unknown end) /\
  robust_fn (fun l => match l with [T; P] => out1 (BW_v_water T P) | _ => Unknown end) /\
  continuous_fn (fun l => match l with [T; P] => out2 (BW_rho_K_water T P) | _ => Unknown end) /\
  robust_fn (fun l => match l with [T; P] => out2 (BW_rho_K_water T P) | _ => Unknown end) /\
  continuous_fn (fun l => match l with [T; P; Sr] => out1 (BW_v_brine m T P Sr) | _ => Unknown end) /\
  continuous_fn (fun l => match l with [T; P; Sr] => out2 (BW_rho_K_brine m T P Sr) | _ => Unknown end) /\
  continuous_fn (fun l => match l with [temperature; pressure; salinity; Sco2] => out2 (BW_co2_brine m temperature pressure salinity Sco2 None true) | _ => Unknown end) /\
  continuous_fn (fun l => match l with [temperature; pressure; salinity; Sco2] => out2 (BW_co2_brine m temperature pressure salinity Sco2 None false) | _ => Unknown end).
Proof.
  intros m. repeat match goal with |- _ /\ _ => split end.
  - apply cont_BW_dz_dp.
  - apply cont_BW_pseudo_p_t.
  - apply robust_BW_pseudo_p_t.
  - apply cont_BW_rho_K_co2.
  - apply cont_BW_rho_K_gas.
  - apply cont_BW_rho_K_oil.
  - apply cont_BW_rho_K_go_sat.
  - apply cont_BW_v_water.
  - apply robust_BW_v_water.
  - apply cont_BW_rho_K_water.
  - apply robust_BW_rho_K_water.
  - apply cont_BW_v_brine.
  - apply cont_BW_rho_K_brine.
  - apply cont_BW_co2_brine_true.
  - apply cont_BW_co2_brine_false.
Qed.
Print Assumptions C85_BW.

(** Reflection coefficients. *)
Theorem C85_AVO : forall m,
  continuous_fn (fun l => match l with [vp1; vs1; rho1; vp2; vs2; rho2; theta] => out2 (AVO_zoeppritz vp1 vs1 rho1 vp2 vs2 rho2 theta) | _ => Unknown end) /\
  continuous_fn (fun l => match l with [vp1; vs1; d1; vp2; vs2; d2] => out5 (AVO_AVO_abe m vp1 vs1 d1 vp2 vs2 d2) | _ => Unknown end) /\
  robust_fn (fun l => match l with [vp1; vs1; d1; vp2; vs2; d2] => out5 (AVO_AVO_abe m vp1 vs1 d1 vp2 vs2 d2) | _ => Unknown end) /\
  continuous_fn (fun l => match l with [a1; b1; e11; d11; e12; d12; g1; rho1; a2; b2; e21; d21; e22; d22; g2; rho2; the] => out2 (AVO_AVO_ortho m a1 b1 e11 d11 e12 d12 g1 rho1 a2 b2 e21 d21 e22 d22 g2 rho2 the) | _ => Unknown end) /\
  robust_fn (fun l => match l with [a1; b1; e11; d11; e12; d12; g1; rho1; a2; b2; e21; d21; e22; d22; g2; rho2; the] => out2 (AVO_AVO_ortho m a1 b1 e11 d11 e12 d12 g1 rho1 a2 b2 e21 d21 e22 d22 g2 rho2 the) | _ => Unknown end).
Proof.
  intros m. repeat match goal with |- _ /\ _ => split end.
  - apply cont_AVO_zoeppritz.
  - apply cont_AVO_AVO_abe.
  - apply robust_AVO_AVO_abe.
  - apply cont_AVO_AVO_ortho.
  - apply robust_AVO_AVO_ortho.
Qed.
Print Assumptions C85_AVO.

(** Cementation models: continuous also across the threshold between the cementing and the cemented regime. *)
Theorem C85_cement : forall m,
  continuous_on (fun l => match l with [K0; G0; Kc; Gc; phi; phic; Cn] => cement_ok K0 G0 Gc | _ => False end) (fun l => match l with [K0; G0; Kc; Gc; phi; phic; Cn] => out2 (GM_contactcement m K0 G0 Kc Gc phi phic Cn 1) | _ => Unknown end) /\
  continuous_on (fun l => match l with [K0; G0; Kc; Gc; phi; phic; Cn] => cement_ok K0 G0 Gc | _ => False end) (fun l => match l with [K0; G0; Kc; Gc; phi; phic; Cn] => out2 (GM_contactcement m K0 G0 Kc Gc phi phic Cn 2) | _ => Unknown end) /\
  continuous_on (fun l => match l with [phi_b; K0; G0; Kc; Gc; phi; phic; Cn] => cement_ok K0 G0 Gc | _ => False end) (fun l => match l with [phi_b; K0; G0; Kc; Gc; phi; phic; Cn] => out2 (GM_constantcement m phi_b K0 G0 Kc Gc phi phic Cn 1) | _ => Unknown end) /\
  continuous_on (fun l => match l with [phi_b; K0; G0; Kc; Gc; phi; phic; Cn] => cement_ok K0 G0 Gc | _ => False end) (fun l => match l with [phi_b; K0; G0; Kc; Gc; phi; phic; Cn] => out2 (GM_constantcement m phi_b K0 G0 Kc Gc phi phic Cn 2) | _ => Unknown end) /\
  continuous_on (fun l => match l with [K0; G0; Kc; Gc; phi; phi_b; phic; Cn] => cement_ok K0 G0 Gc | _ => False end) (fun l => match l with [K0; G0; Kc; Gc; phi; phi_b; phic; Cn] => out2 (GM_MUHS m K0 G0 Kc Gc phi phi_b phic Cn 1) | _ => Unknown end) /\
  continuous_on (fun l => match l with [K0; G0; Kc; Gc; phi; phi_b; phic; Cn] => cement_ok K0 G0 Gc | _ => False end) (fun l => match l with [K0; G0; Kc; Gc; phi; phi_b; phic; Cn] => out2 (GM_MUHS m K0 G0 Kc Gc phi phi_b phic Cn 2) | _ => Unknown end) /\
  continuous_on (fun l => match l with [f; sigma; K0; G0; phi; phic; v_cem; v_ci; Kc; Gc; Cn; f_] => cement_ok K0 G0 Gc /\ (v_cem = v_ci -> threshold_ok m K0 G0 Kc Gc phic v_ci Cn 1) | _ => False end) (fun l => match l with [f; sigma; K0; G0; phi; phic; v_cem; v_ci; Kc; Gc; Cn; f_] => out2 (GM_pcm m f sigma K0 G0 phi phic v_cem v_ci Kc Gc Cn "stiff" 1 f_) | _ => Unknown end) /\
  continuous_on (fun l => match l with [f; sigma; K0; G0; phi; phic; v_cem; v_ci; Kc; Gc; Cn; f_] => cement_ok K0 G0 Gc /\ (v_cem = v_ci -> threshold_ok m K0 G0 Kc Gc phic v_ci Cn 2) | _ => False end) (fun l => match l with [f; sigma; K0; G0; phi; phic; v_cem; v_ci; Kc; Gc; Cn; f_] => out2 (GM_pcm m f sigma K0 G0 phi phic v_cem v_ci Kc Gc Cn "stiff" 2 f_) | _ => Unknown end) /\
  continuous_on (fun l => match l with [f; sigma; K0; G0; phi; phic; v_cem; v_ci; Kc; Gc; Cn; f_] => cement_ok K0 G0 Gc /\ (v_cem = v_ci -> threshold_ok m K0 G0 Kc Gc phic v_ci Cn 1) | _ => False end) (fun l => match l with [f; sigma; K0; G0; phi; phic; v_cem; v_ci; Kc; Gc; Cn; f_] => out2 (GM_pcm m f sigma K0 G0 phi phic v_cem v_ci Kc Gc Cn "soft" 1 f_) | _ => Unknown end) /\
  continuous_on (fun l => match l with [f; sigma; K0; G0; phi; phic; v_cem; v_ci; Kc; Gc; Cn; f_] => cement_ok K0 G0 Gc /\ (v_cem = v_ci -> threshold_ok m K0 G0 Kc Gc phic v_ci Cn 2) | _ => False end) (fun l => match l with [f; sigma; K0; G0; phi; phic; v_cem; v_ci; Kc; Gc; Cn; f_] => out2 (GM_pcm m f sigma K0 G0 phi phic v_cem v_ci Kc Gc Cn "soft" 2 f_) | _ => Unknown end) /\
  continuous_on (fun l => match l with [alpha; f; sigma; K0; G0; phi; phic; v_cem; v_ci; Kc; Gc; Cn; f_] => cement_ok K0 G0 Gc /\ (v_cem = v_ci -> threshold_ok m K0 G0 Kc Gc phic v_ci Cn 1) | _ => False end) (fun l => match l with [alpha; f; sigma; K0; G0; phi; phic; v_cem; v_ci; Kc; Gc; Cn; f_] => out2 (GM_vpcm m alpha f sigma K0 G0 phi phic v_cem v_ci Kc Gc Cn 1 f_) | _ => Unknown end) /\
  continuous_on (fun l => match l with [alpha; f; sigma; K0; G0; phi; phic; v_cem; v_ci; Kc; Gc; Cn; f_] => cement_ok K0 G0 Gc /\ (v_cem = v_ci -> threshold_ok m K0 G0 Kc Gc phic v_ci Cn 2) | _ => False end) (fun l => match l with [alpha; f; sigma; K0; G0; phi; phic; v_cem; v_ci; Kc; Gc; Cn; f_] => out2 (GM_vpcm m alpha f sigma K0 G0 phi phic v_cem v_ci Kc Gc Cn 2 f_) | _ => Unknown end).
Proof.
  intros m. repeat match goal with |- _ /\ _ => split end.
  - apply cont_GM_contactcement_1.
  - apply cont_GM_contactcement_2.
  - apply cont_GM_constantcement_1.
  - apply cont_GM_constantcement_2.
  - apply cont_GM_MUHS_1.
  - apply cont_GM_MUHS_2.
  - apply cont_GM_pcm_stiff_1.
  - apply cont_GM_pcm_stiff_2.
  - apply cont_GM_pcm_soft_1.
  - apply cont_GM_pcm_soft_2.
  - apply cont_GM_vpcm_1.
  - apply cont_GM_vpcm_2.
Qed.
Print Assumptions C85_cement.

(** The matrix modulus: continuous also where the shale vanishes, unless the shale modulus is zero or there is no matrix. *)
Theorem C85_QI : forall m,
  continuous_on (fun l => match l with [vsh; phi_c; phi_0; M_sh; M_g; M_c] => vsh = 0 -> M_sh <> 0 /\ phi_0 <> 1 | _ => False end) (fun l => match l with [vsh; phi_c; phi_0; M_sh; M_g; M_c] => out1 (QI_matrix_modulus m vsh phi_c phi_0 M_sh M_g M_c) | _ => Unknown end).
Proof.
  intros m. repeat match goal with |- _ /\ _ => split end.
  - apply cont_QI_matrix_modulus.
Qed.
Print Assumptions C85_QI.

(** ** Averages over any number of constituents, Backus average of any number of layers *)
(** The first [n] numbers are the volumes, the next [n] the moduli. *)
Theorem C85_VRH : forall n,
  continuous_fn (fun l => if Nat.eqb (length l) (n + n) then out3 (EM_VRH (firstn n l) (skipn n l)) else Unknown) /\
  robust_fn (fun l => if Nat.eqb (length l) (n + n) then out3 (EM_VRH (firstn n l) (skipn n l)) else Unknown).
Proof. intros n. split; [apply cont_vrh|apply robust_vrh]. Qed.
Print Assumptions C85_VRH.
(** The first [n] numbers are the thicknesses, then come [n] Lame parameters and [n] shear moduli. *)
Theorem C85_Backus : forall n,
  continuous_fn (fun l => if Nat.eqb (length l) (n + n + n) then out5 (Anis_Backus (firstn n l) (firstn n (skipn n l)) (skipn (n + n) l)) else Unknown) /\
  (n <> O -> robust_fn (fun l => if Nat.eqb (length l) (n + n + n) then out5 (Anis_Backus (firstn n l) (firstn n (skipn n l)) (skipn (n + n) l)) else Unknown)).
Proof. intros n. split; [apply cont_backus|]. intros H. destruct n; [contradiction|]. apply robust_backus. Qed.
Print Assumptions C85_Backus.

(** ** Where the results jump *)
(** Brie's law jumps at zero water saturation and exponent zero: 0 to the power 0 is 1, but 0 to any positive power is 0. *)
Theorem C85_Brie_refuted : forall m, ~ continuous_fn (fun l => match l with [Kw; Kgas; Sw; e] => out1 (Fluid_Brie m Kw Kgas Sw e) | _ => Unknown end).
Proof. exact jump_Brie. Qed.
Print Assumptions C85_Brie_refuted.
(** The matrix modulus jumps where the last shale of modulus zero disappears. *)
Theorem C85_matrix_refuted : forall m,
  ~ continuous_fn (fun l => match l with [vsh; phi_c; phi_0; M_sh; M_g; M_c] => out1 (QI_matrix_modulus m vsh phi_c phi_0 M_sh M_g M_c) | _ => Unknown end).
Proof. exact jump_matrix. Qed.
Print Assumptions C85_matrix_refuted.

(** ** Non-vacuity *)
(** The formulas do give numbers, and the conditions of the cementation models hold for quartz grains with quartz cement. *)
Example C85_poi_nonvacuous : out1 (utils_poi PyFloat (Fin 37) (Fin 44)) = Ret (map Fin [(3 * 37 - 2 * 44) / (6 * 37 + 2 * 44)]).
Proof. unfold utils_poi. cbn [fmul fsub fadd]. rewrite fdiv_fin by lra. reflexivity. Qed.
Example C85_cement_nonvacuous : cement_ok 37 44 44 /\ threshold_ok PyFloat 37 44 37 44 0.4 0.04 9 1.
Proof.
  split; [unfold cement_ok; lra|]. destruct C39_nonvacuous as (Kb & Gb & E & HK & HG & _). split; [lra|]. split; [lra|]. split; [lra|].
  exists Kb, Gb. cbn [fsub]. replace (0.4 - 0.04) with 0.36 by lra. auto.
Qed.
Example C85_VRH_nonvacuous : out3 (EM_VRH (firstn 2 (map Fin [1/2; 1/2; 1; 1])) (skipn 2 (map Fin [1/2; 1/2; 1; 1]))) = Ret (map Fin [1; 1; 1]).
Proof.
  unfold EM_VRH, fdot. cbn [map firstn skipn length Nat.eqb negb fmap2 bind call]. rewrite !(fdiv_fin NumPy 1 1) by lra. unfold fsum. cbn [fold_right fmul fadd bind]. rewrite fdiv_fin by lra. cbn. do 2 f_equal; [|f_equal; [|f_equal]]; f_equal; field.
Qed.
