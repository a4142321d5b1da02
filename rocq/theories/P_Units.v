(** * P_Units: results do not depend on the choice of units (C84).
    [u] is any change of the units of length, mass and time; [inu u d x] is the number [x] of dimension [d] written in the new
    units, [after f r] is the result of a call with its numbers put in the new units by [f] (exceptions unchanged). Porosities, angles,
    fractions and coordination numbers are pure numbers and do not change. *)
From Verif Require Import Spec Spec20 Fl Cx M_Utils M_EM M_Anis M_Fluid M_GM M_Perm M_Emp M_AVO M_QI M_Array M_ArrayFns
  L_Utils L_EM6 L_AVO3 L_GM5 L_Units L_Units2 L_UnitsFns L_UnitsFns2 L_UnitsFns3 L_UnitsFns4 L_UnitsArr L_UnitsRef.
Open Scope R_scope.

(** The conversions between moduli and velocities and the elastic matrices. *)
Theorem C84_utils : forall u m,
  (forall K G rho, utils_V m (inu u stress K) (inu u stress G) (inu u density rho) = after (in2 u velocity velocity) (utils_V m K G rho)) /\
  (forall K G, utils_poi m (inu u stress K) (inu u stress G) = utils_poi m K G) /\
  (forall K G, utils_lame m (inu u stress K) (inu u stress G) = after (inu u stress) (utils_lame m K G)) /\
  (forall den vp vs, utils_M_from_V m (inu u density den) (inu u velocity vp) (inu u velocity vs) = after (in2 u stress stress) (utils_M_from_V m den vp vs)) /\
  (forall C11 C33 C13 C44 C55, utils_write_HTI_matrix (inu u stress C11) (inu u stress C33) (inu u stress C13) (inu u stress C44) (inu u stress C55) = after (inm u stress) (utils_write_HTI_matrix C11 C33 C13 C44 C55)) /\
  (forall C11 C33 C13 C44 C66, utils_write_VTI_matrix (inu u stress C11) (inu u stress C33) (inu u stress C13) (inu u stress C44) (inu u stress C66) = after (inm u stress) (utils_write_VTI_matrix C11 C33 C13 C44 C66)) /\
  (forall S11 S12 S13 S33 S44, utils_write_VTI_compliance (inu u compliance S11) (inu u compliance S12) (inu u compliance S13) (inu u compliance S33) (inu u compliance S44) = after (inm u compliance) (utils_write_VTI_compliance S11 S12 S13 S33 S44)) /\
  (forall C11 C22 C33 C12 C13 C23 C44 C55 C66, utils_write_matrix (inu u stress C11) (inu u stress C22) (inu u stress C33) (inu u stress C12) (inu u stress C13) (inu u stress C23) (inu u stress C44) (inu u stress C55) (inu u stress C66) = after (inm u stress) (utils_write_matrix C11 C22 C33 C12 C13 C23 C44 C55 C66)) /\
  (forall K G, utils_write_iso m (inu u stress K) (inu u stress G) = after (inm u stress) (utils_write_iso m K G)) /\
  (forall Vp0 Vp45 Vp90 Vs0 Vsh90 den, utils_v_to_c_VTI (inu u velocity Vp0) (inu u velocity Vp45) (inu u velocity Vp90) (inu u velocity Vs0) (inu u velocity Vsh90) (inu u density den) = after (inm u stress) (utils_v_to_c_VTI Vp0 Vp45 Vp90 Vs0 Vsh90 den)).
Proof.
  intros u m. repeat match goal with |- _ /\ _ => split end; intros.
  - apply units_utils_V.
  - apply units_utils_poi.
  - apply units_utils_lame.
  - apply units_utils_M_from_V.
  - apply units_utils_write_HTI_matrix.
  - apply units_utils_write_VTI_matrix.
  - apply units_utils_write_VTI_compliance.
  - apply units_utils_write_matrix.
  - apply units_utils_write_iso.
  - apply units_utils_v_to_c_VTI.
Qed.
Print Assumptions C84_utils.

(** Bounds, critical porosity and inclusion models. *)
Theorem C84_effective_media : forall u m,
  (forall K0 G0 phi phic, EM_cripor m (inu u stress K0) (inu u stress G0) phi phic = after (in2 u stress stress) (EM_cripor m K0 G0 phi phic)) /\
  (forall M0 Mf phic (den : bool), EM_cripor_reuss (inu u stress M0) (inu u stress Mf) phic den = after (inu u stress) (EM_cripor_reuss M0 Mf phic den)) /\
  (forall f K1 K2 G1 G2 (bound : string), EM_HS m f (inu u stress K1) (inu u stress K2) (inu u stress G1) (inu u stress G2) bound = after (in2 u stress stress) (EM_HS m f K1 K2 G1 G2 bound)) /\
  (forall K G phi alpha Kf (mat_ : bool), EM_Eshelby_Cheng m (inu u stress K) (inu u stress G) phi alpha (inu u stress Kf) mat_ = after (inec u) (EM_Eshelby_Cheng m K G phi alpha Kf mat_)) /\
  (forall Ks Gs phi, EM_Swiss_cheese m (inu u stress Ks) (inu u stress Gs) phi = after (in2 u stress stress) (EM_Swiss_cheese m Ks Gs phi)) /\
  (forall Ks Gs cd, EM_Dilute_crack m (inu u stress Ks) (inu u stress Gs) cd = after (in2 u stress stress) (EM_Dilute_crack m Ks Gs cd)) /\
  (forall K0 G0 crd, EM_OConnell_Budiansky m (inu u stress K0) (inu u stress G0) crd = after (in2 u stress stress) (EM_OConnell_Budiansky m K0 G0 crd)) /\
  (forall f Kmat Gmat K1 G1 K2 G2, EM_MT_average m f (inu u stress Kmat) (inu u stress Gmat) (inu u stress K1) (inu u stress G1) (inu u stress K2) (inu u stress G2) = after (in2 u stress stress) (EM_MT_average m f Kmat Gmat K1 G1 K2 G2)).
Proof.
  intros u m. repeat match goal with |- _ /\ _ => split end; intros.
  - apply units_EM_cripor.
  - apply units_EM_cripor_reuss.
  - apply units_EM_HS.
  - apply units_EM_Eshelby_Cheng.
  - apply units_EM_Swiss_cheese.
  - apply units_EM_Dilute_crack.
  - apply units_EM_OConnell_Budiansky.
  - apply units_EM_MT_average.
Qed.
Print Assumptions C84_effective_media.

(** Hudson's crack models. *)
Theorem C84_cracks : forall u m,
  (forall K G Ki Gi alpha crd (order axis : Z), EM_hudson m (inu u stress K) (inu u stress G) (inu u stress Ki) (inu u stress Gi) alpha crd order axis = after (inm u stress) (EM_hudson m K G Ki Gi alpha crd order axis)) /\
  (forall K G Ki Gi alpha crd, EM_hudson_rand m (inu u stress K) (inu u stress G) (inu u stress Ki) (inu u stress Gi) alpha crd = after (in2 u stress stress) (EM_hudson_rand m K G Ki Gi alpha crd)) /\
  (forall K G Ki Gi alpha crd theta, EM_hudson_cone m (inu u stress K) (inu u stress G) (inu u stress Ki) (inu u stress Gi) alpha crd theta = after (inm u stress) (EM_hudson_cone m K G Ki Gi alpha crd theta)).
Proof.
  intros u m. repeat match goal with |- _ /\ _ => split end; intros.
  - apply units_EM_hudson.
  - apply units_EM_hudson_rand.
  - apply units_EM_hudson_cone.
Qed.
Print Assumptions C84_cracks.

(** Anisotropy parameters and phase velocities. *)
Theorem C84_anisotropy : forall u m,
  (forall C11 C33 C13 C44 C66 den theta, Anis_Thomsen m (inu u stress C11) (inu u stress C33) (inu u stress C13) (inu u stress C44) (inu u stress C66) (inu u density den) theta = after (in6 u velocity velocity velocity dless dless dless) (Anis_Thomsen m C11 C33 C13 C44 C66 den theta)) /\
  (forall (C : mat) Den azimuth, Anis_vel_azi_HTI m (inm u stress C) (inu u density Den) azimuth = after (in3 u velocity velocity velocity) (Anis_vel_azi_HTI m C Den azimuth)) /\
  (forall (C : mat) Den azimuth, Anis_vel_azi_VTI m (inm u stress C) (inu u density Den) azimuth = after (in3 u velocity velocity velocity) (Anis_vel_azi_VTI m C Den azimuth)).
Proof.
  intros u m. repeat match goal with |- _ /\ _ => split end; intros.
  - apply units_Anis_Thomsen.
  - apply units_Anis_vel_azi_HTI.
  - apply units_Anis_vel_azi_VTI.
Qed.
Print Assumptions C84_anisotropy.

(** Fluid mixing and fluid substitution; velocities at high and low frequency. *)
Theorem C84_fluids : forall u m,
  (forall Kw Kgas Sw e, Fluid_Brie m (inu u stress Kw) (inu u stress Kgas) Sw e = after (inu u stress) (Fluid_Brie m Kw Kgas Sw e)) /\
  (forall Kdry Gdry K0 Kfl rho0 rhofl phi alpha, Fluid_Biot_HF m (inu u stress Kdry) (inu u stress Gdry) (inu u stress K0) (inu u stress Kfl) (inu u density rho0) (inu u density rhofl) phi alpha = after (in3 u velocity velocity velocity) (Fluid_Biot_HF m Kdry Gdry K0 Kfl rho0 rhofl phi alpha)) /\
  (forall Kdry Gdry K0 Kfl rho0 rhofl phi alpha, Fluid_Geertsma_Smit_HF m (inu u stress Kdry) (inu u stress Gdry) (inu u stress K0) (inu u stress Kfl) (inu u density rho0) (inu u density rhofl) phi alpha = after (in2 u velocity velocity) (Fluid_Geertsma_Smit_HF m Kdry Gdry K0 Kfl rho0 rhofl phi alpha)) /\
  (forall Vp0 Vpinf freq phi rhofl kapa eta, Fluid_Geertsma_Smit_LF m (inu u velocity Vp0) (inu u velocity Vpinf) (inu u frequency freq) phi (inu u density rhofl) (inu u area kapa) (inu u viscosity eta) = after (inu u velocity) (Fluid_Geertsma_Smit_LF m Vp0 Vpinf freq phi rhofl kapa eta)) /\
  (forall K_dry G_dry K_mat Kf phi, Fluid_Gassmann m (inu u stress K_dry) (inu u stress G_dry) (inu u stress K_mat) (inu u stress Kf) phi = after (in2 u stress stress) (Fluid_Gassmann m K_dry G_dry K_mat Kf phi)) /\
  (forall phi K0 Ksat1 Kfl1 Kfl2, Fluid_Gassmann_sub m phi (inu u stress K0) (inu u stress Ksat1) (inu u stress Kfl1) (inu u stress Kfl2) = after (inu u stress) (Fluid_Gassmann_sub m phi K0 Ksat1 Kfl1 Kfl2)) /\
  (forall K_dry G_dry K0 D0 Kf Df phi, Fluid_vels m (inu u stress K_dry) (inu u stress G_dry) (inu u stress K0) (inu u density D0) (inu u stress Kf) (inu u density Df) phi = after (in3 u velocity velocity density) (Fluid_vels m K_dry G_dry K0 D0 Kf Df phi)) /\
  (forall Vp1 Vs1 rho1 rhofl1 Kfl1 rhofl2 Kfl2 K0 phi, Fluid_Gassmann_vels m (inu u velocity Vp1) (inu u velocity Vs1) (inu u density rho1) (inu u density rhofl1) (inu u stress Kfl1) (inu u density rhofl2) (inu u stress Kfl2) (inu u stress K0) phi = after (in2 u velocity velocity) (Fluid_Gassmann_vels m Vp1 Vs1 rho1 rhofl1 Kfl1 rhofl2 Kfl2 K0 phi)) /\
  (forall Msat1 M0 Mfl1 phi Mfl2, Fluid_Gassmann_approx m (inu u stress Msat1) (inu u stress M0) (inu u stress Mfl1) phi (inu u stress Mfl2) = after (inu u stress) (Fluid_Gassmann_approx m Msat1 M0 Mfl1 phi Mfl2)).
Proof.
  intros u m. repeat match goal with |- _ /\ _ => split end; intros.
  - apply units_Fluid_Brie.
  - apply units_Fluid_Biot_HF.
  - apply units_Fluid_Geertsma_Smit_HF.
  - apply units_Fluid_Geertsma_Smit_LF.
  - apply units_Fluid_Gassmann.
  - apply units_Fluid_Gassmann_sub.
  - apply units_Fluid_vels.
  - apply units_Fluid_Gassmann_vels.
  - apply units_Fluid_Gassmann_approx.
Qed.
Print Assumptions C84_fluids.

(** Grain packs and cemented sands. *)
Theorem C84_granular : forall u m,
  (forall C Kq Gq Ksh Gsh, GM_silty_shale m C (inu u stress Kq) (inu u stress Gq) (inu u stress Ksh) (inu u stress Gsh) = after (in2 u stress stress) (GM_silty_shale m C Kq Gq Ksh Gsh)) /\
  (forall phis C Kss Gss Kcc Gcc, GM_shaly_sand m phis C (inu u stress Kss) (inu u stress Gss) (inu u stress Kcc) (inu u stress Gcc) = after (in2 u stress stress) (GM_shaly_sand m phis C Kss Gss Kcc Gcc)) /\
  (forall K0 G0 Kc Gc phi phic Cn (scheme : Z), GM_contactcement m (inu u stress K0) (inu u stress G0) (inu u stress Kc) (inu u stress Gc) phi phic Cn scheme = after (in2 u stress stress) (GM_contactcement m K0 G0 Kc Gc phi phic Cn scheme)) /\
  (forall K0 G0 phic Cn sigma f, GM_hertzmindlin m (inu u stress K0) (inu u stress G0) phic Cn (inu u stress sigma) f = after (in2 u stress stress) (GM_hertzmindlin m K0 G0 phic Cn sigma f)) /\
  (forall K0 G0 phi phic Cn sigma f, GM_softsand m (inu u stress K0) (inu u stress G0) phi phic Cn (inu u stress sigma) f = after (in2 u stress stress) (GM_softsand m K0 G0 phi phic Cn sigma f)) /\
  (forall K0 G0 phic Cn sigma f, GM_Walton m (inu u stress K0) (inu u stress G0) phic Cn (inu u stress sigma) f = after (in2 u stress stress) (GM_Walton m K0 G0 phic Cn sigma f)) /\
  (forall K0 G0 phi phic Cn sigma f, GM_stiffsand m (inu u stress K0) (inu u stress G0) phi phic Cn (inu u stress sigma) f = after (in2 u stress stress) (GM_stiffsand m K0 G0 phi phic Cn sigma f)) /\
  (forall phi_b K0 G0 Kc Gc phi phic Cn (scheme : Z), GM_constantcement m phi_b (inu u stress K0) (inu u stress G0) (inu u stress Kc) (inu u stress Gc) phi phic Cn scheme = after (in2 u stress stress) (GM_constantcement m phi_b K0 G0 Kc Gc phi phic Cn scheme)) /\
  (forall K0 G0 Kc Gc phi phi_b phic Cn (scheme : Z), GM_MUHS m (inu u stress K0) (inu u stress G0) (inu u stress Kc) (inu u stress Gc) phi phi_b phic Cn scheme = after (in2 u stress stress) (GM_MUHS m K0 G0 Kc Gc phi phi_b phic Cn scheme)) /\
  (forall f sigma K0 G0 phi phic v_cem v_ci Kc Gc Cn (mode_ : string) (scheme : Z) f_, GM_pcm m f (inu u stress sigma) (inu u stress K0) (inu u stress G0) phi phic v_cem v_ci (inu u stress Kc) (inu u stress Gc) Cn mode_ scheme f_ = after (in2 u stress stress) (GM_pcm m f sigma K0 G0 phi phic v_cem v_ci Kc Gc Cn mode_ scheme f_)) /\
  (forall alpha f sigma K0 G0 phi phic v_cem v_ci Kc Gc Cn (scheme : Z) f_, GM_vpcm m alpha f (inu u stress sigma) (inu u stress K0) (inu u stress G0) phi phic v_cem v_ci (inu u stress Kc) (inu u stress Gc) Cn scheme f_ = after (in2 u stress stress) (GM_vpcm m alpha f sigma K0 G0 phi phic v_cem v_ci Kc Gc Cn scheme f_)).
Proof.
  intros u m. repeat match goal with |- _ /\ _ => split end; intros.
  - apply units_GM_silty_shale.
  - apply units_GM_shaly_sand.
  - apply units_GM_contactcement.
  - apply units_GM_hertzmindlin.
  - apply units_GM_softsand.
  - apply units_GM_Walton.
  - apply units_GM_stiffsand.
  - apply units_GM_constantcement.
  - apply units_GM_MUHS.
  - apply units_GM_pcm.
  - apply units_GM_vpcm.
Qed.
Print Assumptions C84_granular.

(** Permeability models: grain sizes are lengths, permeabilities areas. *)
Theorem C84_permeability : forall u m,
  (forall phi d, Perm_Kozeny_Carman m phi (inu u length_d d) = after (inu u area) (Perm_Kozeny_Carman m phi d)) /\
  (forall phi phic d B, Perm_Kozeny_Carman_Percolation m phi phic (inu u length_d d) B = after (inu u area) (Perm_Kozeny_Carman_Percolation m phi phic d B)) /\
  (forall d C S tau phi, Perm_Panda_Lake m (inu u length_d d) C S tau phi = after (inu u area) (Perm_Panda_Lake m d C S tau phi)) /\
  (forall phi d, Perm_Panda_Lake_cem m phi (inu u length_d d) = after (inu u area) (Perm_Panda_Lake_cem m phi d)) /\
  (forall phi d, Perm_Revil m phi (inu u length_d d) = after (inu u area) (Perm_Revil m phi d)) /\
  (forall phi crf w r, Perm_Bernabe m phi crf (inu u length_d w) (inu u length_d r) = after (inu u area) (Perm_Bernabe m phi crf w r)).
Proof.
  intros u m. repeat match goal with |- _ /\ _ => split end; intros.
  - apply units_Perm_Kozeny_Carman.
  - apply units_Perm_Kozeny_Carman_Percolation.
  - apply units_Perm_Panda_Lake.
  - apply units_Perm_Panda_Lake_cem.
  - apply units_Perm_Revil.
  - apply units_Perm_Bernabe.
Qed.
Print Assumptions C84_permeability.

(** Reflection coefficients are pure numbers. *)
Theorem C84_reflectivity : forall u m,
  (forall vp1 vs1 rho1 vp2 vs2 rho2 theta, AVO_zoeppritz (inu u velocity vp1) (inu u velocity vs1) (inu u density rho1) (inu u velocity vp2) (inu u velocity vs2) (inu u density rho2) theta = AVO_zoeppritz vp1 vs1 rho1 vp2 vs2 rho2 theta) /\
  (forall theta vp1 vp2 vs1 vs2 den1 den2, AVO_Aki_Richards m theta (inu u velocity vp1) (inu u velocity vp2) (inu u velocity vs1) (inu u velocity vs2) (inu u density den1) (inu u density den2) = AVO_Aki_Richards m theta vp1 vp2 vs1 vs2 den1 den2) /\
  (forall vp1 vs1 d1 vp2 vs2 d2, AVO_AVO_abe m (inu u velocity vp1) (inu u velocity vs1) (inu u density d1) (inu u velocity vp2) (inu u velocity vs2) (inu u density d2) = AVO_AVO_abe m vp1 vs1 d1 vp2 vs2 d2) /\
  (forall a1 b1 e11 d11 e12 d12 g1 rho1 a2 b2 e21 d21 e22 d22 g2 rho2 the, AVO_AVO_ortho m (inu u velocity a1) (inu u velocity b1) e11 d11 e12 d12 g1 (inu u density rho1) (inu u velocity a2) (inu u velocity b2) e21 d21 e22 d22 g2 (inu u density rho2) the = AVO_AVO_ortho m a1 b1 e11 d11 e12 d12 g1 rho1 a2 b2 e21 d21 e22 d22 g2 rho2 the) /\
  (forall D1 D2 (C1 C2 : mat) theta azimuth, AVO_HTI_elem (inu u density D1) (inu u density D2) (inm u stress C1) (inm u stress C2) theta azimuth = AVO_HTI_elem D1 D2 C1 C2 theta azimuth).
Proof.
  intros u m. repeat match goal with |- _ /\ _ => split end; intros.
  - apply units_AVO_zoeppritz.
  - apply units_AVO_Aki_Richards.
  - apply units_AVO_AVO_abe.
  - apply units_AVO_AVO_ortho.
  - apply units_AVO_HTI_elem.
Qed.
Print Assumptions C84_reflectivity.

(** The quantitative-interpretation workflows. *)
Theorem C84_workflows : forall u m,
  (forall phi Kg Gg, Emp_krief m phi (inu u stress Kg) (inu u stress Gg) = after (in3 u stress stress stress) (Emp_krief m phi Kg Gg)) /\
  (forall vsh phi_c phi_0 M_sh M_g M_c, QI_matrix_modulus m vsh phi_c phi_0 (inu u stress M_sh) (inu u stress M_g) (inu u stress M_c) = after (inu u stress) (QI_matrix_modulus m vsh phi_c phi_0 M_sh M_g M_c)) /\
  (forall vsh phi_c phi_0 den_sh den_g den_c, QI_den_matrix m vsh phi_c phi_0 (inu u density den_sh) (inu u density den_g) (inu u density den_c) = after (inu u density) (QI_den_matrix m vsh phi_c phi_0 den_sh den_g den_c)) /\
  (forall Dqz Kqz Gqz Dsh Ksh Gsh vsh, QI_mineral (inu u density Dqz) (inu u stress Kqz) (inu u stress Gqz) (inu u density Dsh) (inu u stress Ksh) (inu u stress Gsh) vsh = after (in3 u stress stress density) (QI_mineral Dqz Kqz Gqz Dsh Ksh Gsh vsh)) /\
  (forall K0 G0 D0 Dqz Kqz Dsh Ksh Dc Kc Gc Db Kb phib_p phi_c sigma vsh (scheme : Z) f Cn phi, QI_screening_elem m (inu u stress K0) (inu u stress G0) (inu u density D0) (inu u density Dqz) (inu u stress Kqz) (inu u density Dsh) (inu u stress Ksh) (inu u density Dc) (inu u stress Kc) (inu u stress Gc) (inu u density Db) (inu u stress Kb) phib_p phi_c (inu u stress sigma) vsh scheme f Cn phi = after (in6 u velocity velocity velocity velocity velocity velocity) (QI_screening_elem m K0 G0 D0 Dqz Kqz Dsh Ksh Dc Kc Gc Db Kb phib_p phi_c sigma vsh scheme f Cn phi)) /\
  (forall phi_b K0 D0 G0 phi phi_c Cn Kc Gc Db Kb (scheme : Z) vsh Dsh Dqz Dc, QI_cst_vels m phi_b (inu u stress K0) (inu u density D0) (inu u stress G0) phi phi_c Cn (inu u stress Kc) (inu u stress Gc) (inu u density Db) (inu u stress Kb) scheme vsh (inu u density Dsh) (inu u density Dqz) (inu u density Dc) = after (in2 u velocity velocity) (QI_cst_vels m phi_b K0 D0 G0 phi phi_c Cn Kc Gc Db Kb scheme vsh Dsh Dqz Dc)) /\
  (forall Dqz Kqz Gqz Dsh Ksh Gsh Dc Kc Gc Db Kb phi_b phi_c vsh phi (scheme : Z), QI_cal_v_const (inu u density Dqz) (inu u stress Kqz) (inu u stress Gqz) (inu u density Dsh) (inu u stress Ksh) (inu u stress Gsh) (inu u density Dc) (inu u stress Kc) (inu u stress Gc) (inu u density Db) (inu u stress Kb) phi_b phi_c vsh phi scheme = after (in2 u velocity velocity) (QI_cal_v_const Dqz Kqz Gqz Dsh Ksh Gsh Dc Kc Gc Db Kb phi_b phi_c vsh phi scheme)).
Proof.
  intros u m. repeat match goal with |- _ /\ _ => split end; intros.
  - apply units_Emp_krief.
  - apply units_QI_matrix_modulus.
  - apply units_QI_den_matrix.
  - apply units_QI_mineral.
  - apply units_QI_screening_elem.
  - apply units_QI_cst_vels.
  - apply units_QI_cal_v_const.
Qed.
Print Assumptions C84_workflows.

(** Averages of any number of phases (of any quantity), layered media of any number of layers, and logs of any length. *)
Theorem C84_layers : forall u,
  (forall d, Qred (fst (fst d)) = fst (fst d) -> Qred (snd (fst d)) = snd (fst d) -> Qred (snd d) = snd d ->
    forall volumes M, EM_VRH volumes (inl u d M) = after (in3 u d d d) (EM_VRH volumes M)) /\
  (forall V lamda G, Anis_Backus (inl u length_d V) (inl u stress lamda) (inl u stress G)
    = after (in5 u stress stress stress stress stress) (Anis_Backus V lamda G)) /\
  (forall Vp Vs Den Depth, Anis_Backus_log (inl u velocity Vp) (inl u velocity Vs) (inl u density Den) (inl u length_d Depth)
    = after (in6 u stress stress stress stress stress density) (Anis_Backus_log Vp Vs Den Depth)).
Proof.
  intros u. repeat match goal with |- _ /\ _ => split end; intros.
  - apply units_EM_VRH. destruct d as ((a & b) & c). unfold dred. cbn [fst snd] in *. congruence.
  - apply units_Anis_Backus.
  - apply units_Anis_Backus_log.
Qed.
Print Assumptions C84_layers.

(** Iterative and differential schemes, after any number of rounds, and inclusions of any aspect ratio: the geometric factors are pure numbers. *)
Theorem C84_inclusions : forall u m,
  (forall phi Ks Gs n, EM_SC m phi (inu u stress Ks) (inu u stress Gs) n = after (in2 u stress stress) (EM_SC m phi Ks Gs n)) /\
  (forall f n Km Ki Gm Gi, EM_SC_flex m f n (inu u stress Km) (inu u stress Ki) (inu u stress Gm) (inu u stress Gi)
    = after (in2 u stress stress) (EM_SC_flex m f n Km Ki Gm Gi)) /\
  (forall Km Gm Ki Gi alpha, EM_PQ m (inu u stress Km) (inu u stress Gm) (inu u stress Ki) (inu u stress Gi) alpha = EM_PQ m Km Gm Ki Gi alpha) /\
  (forall dt Km Gm Ki Gi alpha, EM_PQ_vectorize dt (inu u stress Km) (inu u stress Gm) (inl u stress Ki) (inl u stress Gi) alpha
    = EM_PQ_vectorize dt Km Gm Ki Gi alpha) /\
  (forall K G t Gi Ki alpha, EM_DEM m (inu u stress K) (inu u stress G) t (inu u stress Gi, inu u stress Ki, alpha)
    = after (in2 u stress stress) (EM_DEM m K G t (Gi, Ki, alpha))) /\
  (forall dt K0 G0 K G X Alpha, EM_Berryman_func dt (inu u stress K0) (inu u stress G0) (inl u stress K) (inl u stress G) X Alpha
    = after (fun '(r, al) => (in2 u stress stress r, al)) (EM_Berryman_func dt K0 G0 K G X Alpha)) /\
  (forall fsolve K0 G0 Kfl crd alpha, EM_OConnell_Budiansky_fl m fsolve (inu u stress K0) (inu u stress G0) (inu u stress Kfl) crd alpha
    = after (in2 u stress stress) (EM_OConnell_Budiansky_fl m fsolve K0 G0 Kfl crd alpha)) /\
  (forall K G Ki Gi alpha crd, EM_hudson_ortho m (inu u stress K) (inu u stress G) (inu u stress Ki) (inu u stress Gi) alpha crd
    = after (inm u stress) (EM_hudson_ortho m K G Ki Gi alpha crd)).
Proof.
  intros u m. repeat match goal with |- _ /\ _ => split end; intros.
  - apply units_EM_SC.
  - apply units_EM_SC_flex.
  - apply units_EM_PQ.
  - apply units_EM_PQ_vectorize.
  - apply units_EM_DEM.
  - apply units_EM_Berryman_func.
  - apply units_EM_OConnell_Budiansky_fl.
  - apply units_EM_hudson_ortho.
Qed.
Print Assumptions C84_inclusions.

(** Rotated axes, orthorhombic parameters, squirt flow, Biot's and White's dispersion (frequency, viscosity and permeability change their
    units too), and Brown-Korringa's substitution with any correct matrix inverse. *)
Theorem C84_anisotropic_and_dispersive : forall u m,
  (forall C theta axis, Anis_Bond_trans (inm u stress C) theta axis = after (inm u stress) (Anis_Bond_trans C theta axis)) /\
  (forall c11 c22 c33 c12 c13 c23 c44 c55 c66, Anis_Thomsen_Tsvankin m (inu u stress c11) (inu u stress c22) (inu u stress c33) (inu u stress c12)
    (inu u stress c13) (inu u stress c23) (inu u stress c44) (inu u stress c55) (inu u stress c66)
    = Anis_Thomsen_Tsvankin m c11 c22 c33 c12 c13 c23 c44 c55 c66) /\
  (forall Vp_hs Vs_hs Vp Vs K0 rhod rhof Kfl phi, Fluid_Mavko_Jizba m (inu u velocity Vp_hs) (inu u velocity Vs_hs) (inu u velocity Vp) (inu u velocity Vs)
    (inu u stress K0) (inu u density rhod) (inu u density rhof) (inu u stress Kfl) phi
    = after (in4 u stress stress velocity velocity) (Fluid_Mavko_Jizba m Vp_hs Vs_hs Vp Vs K0 rhod rhof Kfl phi)) /\
  (forall S H, Fluid_Squirt_anisotropic m (in5 u compliance compliance compliance compliance compliance S) (in5 u compliance compliance compliance compliance compliance H)
    = after (inl u compliance) (Fluid_Squirt_anisotropic m S H)) /\
  (forall jv Kd Gd K0 Kfl rho0 rhofl eta phi kapa a alpha freq,
    Fluid_Biot m jv (inu u stress Kd) (inu u stress Gd) (inu u stress K0) (inu u stress Kfl) (inu u density rho0) (inu u density rhofl)
      (inu u viscosity eta) phi (inu u area kapa) (inu u length_d a) alpha (inu u frequency freq)
    = after (in6 u velocity velocity velocity dless dless dless) (Fluid_Biot m jv Kd Gd K0 Kfl rho0 rhofl eta phi kapa a alpha freq)) /\
  (forall Kd Gd K0 phi rho0 rho1 rho2 K1 K2 eta1 eta2 kapa a sg freq,
    Fluid_White_Dutta_Ode m (inu u stress Kd) (inu u stress Gd) (inu u stress K0) phi (inu u density rho0) (inu u density rho1) (inu u density rho2)
      (inu u stress K1) (inu u stress K2) (inu u viscosity eta1) (inu u viscosity eta2) (inu u area kapa) (inu u length_d a) sg (inu u frequency freq)
    = after (fun '(V, att, K) => (inu u velocity V, inu u (-1, 0, 0)%Q att, inc u stress K))
        (Fluid_White_Dutta_Ode m Kd Gd K0 phi rho0 rho1 rho2 K1 K2 eta1 eta2 kapa a sg freq)) /\
  (forall inv K0 G0, inverts inv -> K0 <> 0 -> G0 <> 0 ->
    (forall S Kfl phi, Fluid_Brown_Korringa_dry2sat m inv (inm u compliance S) (inu u stress (Fin K0)) (inu u stress (Fin G0)) (inu u stress Kfl) phi
      = after (inm u compliance) (Fluid_Brown_Korringa_dry2sat m inv S (Fin K0) (Fin G0) Kfl phi)) /\
    (forall S Kfl phi, Fluid_Brown_Korringa_sat2dry m inv (inm u compliance S) (inu u stress (Fin K0)) (inu u stress (Fin G0)) (inu u stress Kfl) phi
      = after (inm u compliance) (Fluid_Brown_Korringa_sat2dry m inv S (Fin K0) (Fin G0) Kfl phi)) /\
    (forall C S C2 S2 Kfl1 Kfl2 phi, is_inverse C S -> is_inverse S2 C2 ->
      Fluid_Brown_Korringa_sub m inv (finmat C) (Fin K0) (Fin G0) Kfl1 Kfl2 phi = Ret (finmat C2, finmat S2) ->
      Fluid_Brown_Korringa_sub m inv (inm u stress (finmat C)) (inu u stress (Fin K0)) (inu u stress (Fin G0)) (inu u stress Kfl1) (inu u stress Kfl2) phi
      = Ret (inm u stress (finmat C2), inm u compliance (finmat S2)))).
Proof.
  intros u m. repeat match goal with |- _ /\ _ => split end; intros.
  - apply units_Anis_Bond_trans.
  - apply units_Anis_Thomsen_Tsvankin.
  - apply units_Fluid_Mavko_Jizba.
  - apply units_Fluid_Squirt.
  - apply units_Fluid_Biot.
  - apply units_Fluid_White.
  - split; [|split].
    + apply units_dry2sat; auto.
    + apply units_sat2dry; auto.
    + intros C S C2 S2 Kfl1 Kfl2 phi. apply units_BK_sub; auto.
Qed.
Print Assumptions C84_anisotropic_and_dispersive.

(** Grain packs under stress (any polynomial root finder), azimuthal reflectivity on any mesh, normalised elastic impedance of any log, the
    screening table and the rock-physics template. *)
Theorem C84_packs_meshes_tables : forall u m,
  (forall K0 G0 n phi eps eps_axial path, path <> "iso-uni"%string -> GM_johnson m (inu u stress K0) (inu u stress G0) n phi eps eps_axial path
    = after (fun '(C, s33, s11) => (inm u stress C, inu u stress s33, inu u stress s11)) (GM_johnson m K0 G0 n phi eps eps_axial path)) /\
  (forall roots K0 G0 phi Cn sigma a_R, GM_Digby m roots (inu u stress K0) (inu u stress G0) phi Cn (inu u stress sigma) a_R
    = after (fun '(K, G) => (inl u stress K, inl u stress G)) (GM_Digby m roots K0 G0 phi Cn sigma a_R)) /\
  (forall D1 D2 C1 C2 theta azimuth, AVO_HTI (inu u density D1) (inu u density D2) (inm u stress C1) (inm u stress C2) theta azimuth
    = AVO_HTI D1 D2 C1 C2 theta azimuth) /\
  (forall samples theta SP, AVO_EI_ref m (map (in3 u velocity velocity density) samples) theta SP true
    = after (map (inei u)) (AVO_EI_ref m samples theta SP true)) /\
  (forall Dqz Kqz Gqz Dsh Ksh Gsh Dc Kc Gc Db Kb phib phic sigma vsh scheme f Cn,
    QI_screening (inu u density Dqz) (inu u stress Kqz) (inu u stress Gqz) (inu u density Dsh) (inu u stress Ksh) (inu u stress Gsh) (inu u density Dc)
      (inu u stress Kc) (inu u stress Gc) (inu u density Db) (inu u stress Kb) phib phic (inu u stress sigma) vsh scheme f Cn
    = after (fun '(phi, rows) => (phi, map (in6 u velocity velocity velocity velocity velocity velocity) rows))
        (QI_screening Dqz Kqz Gqz Dsh Ksh Gsh Dc Kc Gc Db Kb phib phic sigma vsh scheme f Cn)) /\
  (forall Kd Gd K0 D0 Kb Db Kh Dh phi Sw,
    QI_rpt_point (inu u stress Kd) (inu u stress Gd) (inu u stress K0) (inu u density D0) (inu u stress Kb) (inu u density Db) (inu u stress Kh) (inu u density Dh) phi Sw
    = after (in2 u impedance dless) (QI_rpt_point Kd Gd K0 D0 Kb Db Kh Dh phi Sw)).
Proof.
  intros u m. repeat match goal with |- _ /\ _ => split end; intros.
  - apply units_GM_johnson. assumption.
  - apply units_GM_Digby.
  - apply units_AVO_HTI.
  - apply units_AVO_EI_ref.
  - apply units_QI_screening.
  - apply units_QI_rpt_point.
Qed.
Print Assumptions C84_packs_meshes_tables.

(** Given arrays (of any lengths) or numbers in any mixture. *)
Theorem C84_arrays : forall m,
  unit_covariant m arr_utils_V [stress; stress; density] [velocity; velocity] /\
  unit_covariant m arr_utils_poi [stress; stress] [dless] /\
  unit_covariant m arr_utils_lame [stress; stress] [stress] /\
  unit_covariant m arr_utils_M_from_V [density; velocity; velocity] [stress; stress] /\
  unit_covariant m arr_utils_crack_por [dless; dless] [dless] /\
  unit_covariant m arr_EM_cripor [stress; stress; dless; dless] [stress; stress] /\
  unit_covariant m arr_EM_HS_upper [dless; stress; stress; stress; stress] [stress; stress] /\
  unit_covariant m arr_EM_HS_lower [dless; stress; stress; stress; stress] [stress; stress] /\
  unit_covariant m arr_EM_hudson_rand [stress; stress; stress; stress; dless; dless] [stress; stress] /\
  unit_covariant m arr_EM_Dilute_crack [stress; stress; dless] [stress; stress] /\
  unit_covariant m arr_EM_OConnell_Budiansky [stress; stress; dless] [stress; stress] /\
  unit_covariant m arr_EM_MT_average [dless; stress; stress; stress; stress; stress; stress] [stress; stress] /\
  unit_covariant m arr_Anis_Thomsen [stress; stress; stress; stress; stress; density; dless] [velocity; velocity; velocity; dless; dless; dless] /\
  unit_covariant m arr_Anis_Thomsen_Tsvankin [stress; stress; stress; stress; stress; stress; stress; stress; stress] [dless; dless; dless; dless; dless; dless; dless] /\
  unit_covariant m arr_Fluid_Brie [stress; stress; dless; dless] [stress] /\
  unit_covariant m arr_Fluid_Biot_HF [stress; stress; stress; stress; density; density; dless; dless] [velocity; velocity; velocity] /\
  unit_covariant m arr_Fluid_Geertsma_Smit_HF [stress; stress; stress; stress; density; density; dless; dless] [velocity; velocity] /\
  unit_covariant m arr_Fluid_Geertsma_Smit_LF [velocity; velocity; frequency; dless; density; area; viscosity] [velocity] /\
  unit_covariant m arr_Fluid_Gassmann [stress; stress; stress; stress; dless] [stress; stress] /\
  unit_covariant m arr_Fluid_Gassmann_sub [dless; stress; stress; stress; stress] [stress] /\
  unit_covariant m arr_Fluid_vels [stress; stress; stress; density; stress; density; dless] [velocity; velocity; density] /\
  unit_covariant m arr_Fluid_Gassmann_vels [velocity; velocity; density; density; stress; density; stress; stress; dless] [velocity; velocity] /\
  unit_covariant m arr_Fluid_Gassmann_approx [stress; stress; stress; dless; stress] [stress] /\
  unit_covariant m arr_Fluid_Mavko_Jizba [velocity; velocity; velocity; velocity; stress; density; density; stress; dless] [stress; stress; velocity; velocity] /\
  unit_covariant m arr_GM_ThomasStieber [dless; dless; dless] [dless; dless] /\
  unit_covariant m arr_GM_silty_shale [dless; stress; stress; stress; stress] [stress; stress] /\
  unit_covariant m arr_GM_shaly_sand [dless; dless; stress; stress; stress; stress] [stress; stress] /\
  unit_covariant m arr_GM_contactcement_1 [stress; stress; stress; stress; dless; dless; dless] [stress; stress] /\
  unit_covariant m arr_GM_contactcement_2 [stress; stress; stress; stress; dless; dless; dless] [stress; stress] /\
  unit_covariant m arr_GM_hertzmindlin [stress; stress; dless; dless; stress; dless] [stress; stress] /\
  unit_covariant m arr_GM_softsand [stress; stress; dless; dless; dless; stress; dless] [stress; stress] /\
  unit_covariant m arr_GM_Walton [stress; stress; dless; dless; stress; dless] [stress; stress] /\
  unit_covariant m arr_GM_stiffsand [stress; stress; dless; dless; dless; stress; dless] [stress; stress] /\
  unit_covariant m arr_GM_constantcement_1 [dless; stress; stress; stress; stress; dless; dless; dless] [stress; stress] /\
  unit_covariant m arr_GM_constantcement_2 [dless; stress; stress; stress; stress; dless; dless; dless] [stress; stress] /\
  unit_covariant m arr_GM_MUHS_1 [stress; stress; stress; stress; dless; dless; dless; dless] [stress; stress] /\
  unit_covariant m arr_GM_MUHS_2 [stress; stress; stress; stress; dless; dless; dless; dless] [stress; stress] /\
  unit_covariant m arr_Perm_Kozeny_Carman [dless; length_d] [area] /\
  unit_covariant m arr_Perm_Kozeny_Carman_Percolation [dless; dless; length_d; dless] [area] /\
  unit_covariant m arr_Perm_Panda_Lake [length_d; dless; dless; dless; dless] [area] /\
  unit_covariant m arr_Perm_Panda_Lake_cem [dless; length_d] [area] /\
  unit_covariant m arr_Perm_Revil [dless; length_d] [area] /\
  unit_covariant m arr_Perm_Bernabe [dless; dless; length_d; length_d] [area] /\
  unit_covariant m arr_Emp_krief [dless; stress; stress] [stress; stress; stress] /\
  unit_covariant m arr_AVO_zoeppritz [velocity; velocity; density; velocity; velocity; density; dless] [dless; dless] /\
  unit_covariant m arr_AVO_AVO_abe [velocity; velocity; density; velocity; velocity; density] [dless; dless; dless; dless; dless] /\
  unit_covariant m arr_AVO_AVO_ortho [velocity; velocity; dless; dless; dless; dless; dless; density; velocity; velocity; dless; dless; dless; dless; dless; density; dless] [dless; dless] /\
  unit_covariant m arr_QI_matrix_modulus [dless; dless; dless; stress; stress; stress] [stress] /\
  unit_covariant m arr_GM_pcm_stiff_1 [dless; stress; stress; stress; dless; dless; dless; dless; stress; stress; dless; dless] [stress; stress] /\
  unit_covariant m arr_GM_pcm_stiff_2 [dless; stress; stress; stress; dless; dless; dless; dless; stress; stress; dless; dless] [stress; stress] /\
  unit_covariant m arr_GM_pcm_soft_1 [dless; stress; stress; stress; dless; dless; dless; dless; stress; stress; dless; dless] [stress; stress] /\
  unit_covariant m arr_GM_pcm_soft_2 [dless; stress; stress; stress; dless; dless; dless; dless; stress; stress; dless; dless] [stress; stress] /\
  unit_covariant m arr_GM_vpcm_1 [dless; dless; stress; stress; stress; dless; dless; dless; dless; stress; stress; dless; dless] [stress; stress] /\
  unit_covariant m arr_GM_vpcm_2 [dless; dless; stress; stress; stress; dless; dless; dless; dless; stress; stress; dless; dless] [stress; stress] /\
  unit_covariant m arr_EM_SC_dilute_stress [stress; stress; stress; stress; dless] [dless; dless] /\
  unit_covariant m arr_EM_SC_dilute_strain [stress; stress; stress; stress; dless] [dless; dless].
Proof.
  intros m. split; [apply dims_utils_V|].
  split; [apply dims_utils_poi|].
  split; [apply dims_utils_lame|].
  split; [apply dims_utils_M_from_V|].
  split; [apply dims_utils_crack_por|].
  split; [apply dims_EM_cripor|].
  split; [apply dims_EM_HS_upper|].
  split; [apply dims_EM_HS_lower|].
  split; [apply dims_EM_hudson_rand|].
  split; [apply dims_EM_Dilute_crack|].
  split; [apply dims_EM_OConnell_Budiansky|].
  split; [apply dims_EM_MT_average|].
  split; [apply dims_Anis_Thomsen|].
  split; [apply dims_Anis_Thomsen_Tsvankin|].
  split; [apply dims_Fluid_Brie|].
  split; [apply dims_Fluid_Biot_HF|].
  split; [apply dims_Fluid_Geertsma_Smit_HF|].
  split; [apply dims_Fluid_Geertsma_Smit_LF|].
  split; [apply dims_Fluid_Gassmann|].
  split; [apply dims_Fluid_Gassmann_sub|].
  split; [apply dims_Fluid_vels|].
  split; [apply dims_Fluid_Gassmann_vels|].
  split; [apply dims_Fluid_Gassmann_approx|].
  split; [apply dims_Fluid_Mavko_Jizba|].
  split; [apply dims_GM_ThomasStieber|].
  split; [apply dims_GM_silty_shale|].
  split; [apply dims_GM_shaly_sand|].
  split; [apply dims_GM_contactcement_1|].
  split; [apply dims_GM_contactcement_2|].
  split; [apply dims_GM_hertzmindlin|].
  split; [apply dims_GM_softsand|].
  split; [apply dims_GM_Walton|].
  split; [apply dims_GM_stiffsand|].
  split; [apply dims_GM_constantcement_1|].
  split; [apply dims_GM_constantcement_2|].
  split; [apply dims_GM_MUHS_1|].
  split; [apply dims_GM_MUHS_2|].
  split; [apply dims_Perm_Kozeny_Carman|].
  split; [apply dims_Perm_Kozeny_Carman_Percolation|].
  split; [apply dims_Perm_Panda_Lake|].
  split; [apply dims_Perm_Panda_Lake_cem|].
  split; [apply dims_Perm_Revil|].
  split; [apply dims_Perm_Bernabe|].
  split; [apply dims_Emp_krief|].
  split; [apply dims_AVO_zoeppritz|].
  split; [apply dims_AVO_AVO_abe|].
  split; [apply dims_AVO_AVO_ortho|].
  split; [apply dims_QI_matrix_modulus|].
  split; [apply dims_GM_pcm_stiff_1|].
  split; [apply dims_GM_pcm_stiff_2|].
  split; [apply dims_GM_pcm_soft_1|].
  split; [apply dims_GM_pcm_soft_2|].
  split; [apply dims_GM_vpcm_1|].
  split; [apply dims_GM_vpcm_2|].
  split; [apply dims_EM_SC_dilute_stress|].
  apply dims_EM_SC_dilute_strain.
Qed.
Print Assumptions C84_arrays.

(** [EM.SC_dilute] returns the ratios to the host moduli, in every mode, so its "effective moduli" are pure numbers. *)
Theorem C84_SC_dilute_ratios : forall u m Km Gm Ki Gi f mode_,
  EM_SC_dilute m (inu u stress Km) (inu u stress Gm) (inu u stress Ki) (inu u stress Gi) f mode_ = EM_SC_dilute m Km Gm Ki Gi f mode_.
Proof. intros. apply units_EM_SC_dilute. Qed.
Print Assumptions C84_SC_dilute_ratios.
(** The claim that they are moduli is false. *)
Theorem C84_SC_dilute_refuted : forall m, ~ (forall u Km Gm Ki Gi f mode_,
  EM_SC_dilute m (inu u stress Km) (inu u stress Gm) (inu u stress Ki) (inu u stress Gi) f mode_
  = after (in2 u stress stress) (EM_SC_dilute m Km Gm Ki Gi f mode_)).
Proof. exact SC_dilute_not_modulus. Qed.
Print Assumptions C84_SC_dilute_refuted.
(** [Permeability.Fredrich] returns an inverse area: the permeability it reports is not an area. *)
Theorem C84_Fredrich_inverse_area : forall u m phi d b,
  Perm_Fredrich m phi (inu u length_d d) b = after (inu u (-2, 0, 0)%Q) (Perm_Fredrich m phi d b).
Proof. intros. apply units_Perm_Fredrich. Qed.
Print Assumptions C84_Fredrich_inverse_area.
Theorem C84_Fredrich_refuted : forall m, ~ (forall u phi d b, Perm_Fredrich m phi (inu u length_d d) b = after (inu u area) (Perm_Fredrich m phi d b)).
Proof. exact Fredrich_not_area. Qed.
Print Assumptions C84_Fredrich_refuted.
(** [GM.johnson] with the path "iso-uni" adds a stress to pure numbers: its lateral stress depends on the units. *)
Theorem C84_johnson_refuted : forall m, ~ (forall u K0 G0 n phi eps eps_axial,
  GM_johnson m (inu u stress K0) (inu u stress G0) n phi eps eps_axial "iso-uni"
  = after (fun '(C, s33, s11) => (inm u stress C, inu u stress s33, inu u stress s11)) (GM_johnson m K0 G0 n phi eps eps_axial "iso-uni")).
Proof. exact johnson_not_stress. Qed.
Print Assumptions C84_johnson_refuted.
(** Elastic impedance without the normalisation depends on the units. *)
Theorem C84_raw_impedance_refuted : forall m, ~ (forall u samples theta SP,
  AVO_EI_ref m (map (in3 u velocity velocity density) samples) theta SP false = after (map (inei u)) (AVO_EI_ref m samples theta SP false)).
Proof. exact EI_raw_not_impedance. Qed.
Print Assumptions C84_raw_impedance_refuted.

(** The factors: a stress in units with grams for kilograms and the same length and time is 1000 times larger; a quantity without
    dimension does not change; and products of dimensions multiply the factors. *)
Example C84_ex_factor : factor {| ul := 1; uw := 1000; ut := 1 |} stress = 1000.
Proof.
  unfold factor, stress; cbn [ul uw ut]. rewrite !Rpower_1l. replace (Q2R 1) with 1 by (unfold Q2R; cbn; lra). rewrite Rpower_1 by lra. ring.
Qed.
Example C84_ex_factor_velocity : factor {| ul := 1000; uw := 1; ut := 1 |} velocity = 1000.
Proof.
  unfold factor, velocity; cbn [ul uw ut]. rewrite !Rpower_1l. replace (Q2R 1) with 1 by (unfold Q2R; cbn; lra). rewrite Rpower_1 by lra. ring.
Qed.
(** A call that returns numbers, before and after the change: the velocities of a rock with moduli 12 and 9 and density 4 in old units. *)
Example C84_ex_V : utils_V PyFloat (inu quarter_mass stress (Fin 12)) (inu quarter_mass stress (Fin 9)) (inu quarter_mass density (Fin 4)) = utils_V PyFloat (Fin 12) (Fin 9) (Fin 4) /\
  exists vp vs, utils_V PyFloat (Fin 12) (Fin 9) (Fin 4) = Ret (Fin vp, Fin vs) /\ 0 < vs < vp.
Proof.
  split.
  - rewrite units_utils_V. destruct (utils_V _ _ _ _) as [(a & b)| |]; cbn [after call in2]; try reflexivity.
    assert (F : forall x, inu quarter_mass velocity x = x) by (intros [r| | | |]; cbn [inu]; unfold velocity; rewrite ?qm_0, ?Rmult_1_l; reflexivity).
    rewrite !F. reflexivity.
  - exists (sqrt ((12 + 4 / 3 * 9) / 4) * 1000), (sqrt (9 / 4) * 1000). split.
    + unfold utils_V. repeat (first [fl1 | rewrite fdiv_fin by lra | rewrite fsqrt_fin by lra]; cbv beta). reflexivity.
    + assert (0 < sqrt (9/4)) by (apply sqrt_lt_R0; lra). assert (sqrt (9/4) < sqrt ((12 + 4 / 3 * 9) / 4)) by (apply sqrt_lt_1; lra). lra.
Qed.
