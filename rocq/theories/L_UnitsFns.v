(** * L_UnitsFns: each modelled function commutes with a change of units. *)
From Verif Require Import Spec20 Fl Cx M_Utils M_EM M_Anis M_Fluid M_GM M_Perm M_Emp M_AVO M_QI M_Array L_Units L_Units2.
Open Scope R_scope.

Lemma after_dless1 u o : after (inu u dless) o = o.
Proof. destruct o; cbn; rewrite ?inu_dless; reflexivity. Qed.
Lemma after_dless2 u o : after (in2 u dless dless) o = o.
Proof. destruct o as [(a & b)| |]; cbn; rewrite ?inu_dless; reflexivity. Qed.
Lemma after_dless4 u o : after (in4 u dless dless dless dless) o = o.
Proof. destruct o as [(((a & b) & c) & d)| |]; cbn; rewrite ?inu_dless; reflexivity. Qed.
Lemma after_dless5 u o : after (in5 u dless dless dless dless dless) o = o.
Proof. destruct o as [((((a & b) & c) & d) & e)| |]; cbn; rewrite ?inu_dless; reflexivity. Qed.
Ltac unfu :=
  cbv beta iota zeta delta [
    utils_V utils_poi utils_lame utils_M_from_V utils_write_HTI_matrix utils_write_VTI_matrix utils_write_VTI_compliance utils_write_matrix utils_write_iso utils_v_to_c_VTI
    fsum fmap2 fdot map length Nat.eqb negb EM_VRH EM_cripor EM_cripor_reuss EM_HS EM_Eshelby_Cheng EM_Swiss_cheese EM_Dilute_crack EM_OConnell_Budiansky EM_MT_average
    EM_hudson EM_hudson_rand EM_hudson_cone Anis_Thomsen Anis_vel_azi_HTI Anis_vel_azi_VTI Fluid_Brie Fluid_Biot_HF Fluid_Geertsma_Smit_HF Fluid_Geertsma_Smit_LF Fluid_Gassmann
    Fluid_Gassmann_sub Fluid_vels Fluid_Gassmann_vels Fluid_Gassmann_approx GM_silty_shale GM_shaly_sand GM_contactcement GM_hertzmindlin GM_softsand GM_Walton
    GM_stiffsand GM_constantcement GM_MUHS GM_pcm_ends GM_pcm_stiff GM_pcm_soft GM_pcm_final GM_pcm GM_vpcm Perm_Kozeny_Carman Perm_Kozeny_Carman_Percolation Perm_Panda_Lake
    Perm_Panda_Lake_cem Perm_Revil Perm_Bernabe AVO_zoeppritz AVO_Aki_Richards AVO_AVO_abe AVO_AVO_ortho AVO_HTI_elem Emp_krief Emp_Cp QI_fractions QI_matrix_modulus
    QI_den_matrix QI_mineral QI_screening_elem QI_cst_vels QI_cal_v_const mask_lt mask_gt].
Ltac dless L := match goal with |- _ = ?r => rewrite <- (L r) end.
Section Fns.
Variables (u : units) (m : mode).
Lemma units_utils_V : forall K G rho, utils_V m (inu u stress K) (inu u stress G) (inu u density rho) = after (in2 u velocity velocity) (utils_V m K G rho).
Proof. intros. unfu. scs. Qed.
Lemma units_utils_poi : forall K G, utils_poi m (inu u stress K) (inu u stress G) = utils_poi m K G.
Proof. intros. dless (after_dless1 u). unfu. scs. Qed.
Lemma units_utils_lame : forall K G, utils_lame m (inu u stress K) (inu u stress G) = after (inu u stress) (utils_lame m K G).
Proof. intros. unfu. scs. Qed.
Lemma units_utils_M_from_V : forall den vp vs, utils_M_from_V m (inu u density den) (inu u velocity vp) (inu u velocity vs) = after (in2 u stress stress) (utils_M_from_V m den vp vs).
Proof. intros. unfu. scs. Qed.
Lemma units_utils_write_HTI_matrix : forall C11 C33 C13 C44 C55, utils_write_HTI_matrix (inu u stress C11) (inu u stress C33) (inu u stress C13) (inu u stress C44) (inu u stress C55) = after (inm u stress) (utils_write_HTI_matrix C11 C33 C13 C44 C55).
Proof. intros. unfu. scs. Qed.
Lemma units_utils_write_VTI_matrix : forall C11 C33 C13 C44 C66, utils_write_VTI_matrix (inu u stress C11) (inu u stress C33) (inu u stress C13) (inu u stress C44) (inu u stress C66) = after (inm u stress) (utils_write_VTI_matrix C11 C33 C13 C44 C66).
Proof. intros. unfu. scs. Qed.
Lemma units_utils_write_VTI_compliance : forall S11 S12 S13 S33 S44, utils_write_VTI_compliance (inu u compliance S11) (inu u compliance S12) (inu u compliance S13) (inu u compliance S33) (inu u compliance S44) = after (inm u compliance) (utils_write_VTI_compliance S11 S12 S13 S33 S44).
Proof. intros. unfu. scs. Qed.
Lemma units_utils_write_matrix : forall C11 C22 C33 C12 C13 C23 C44 C55 C66, utils_write_matrix (inu u stress C11) (inu u stress C22) (inu u stress C33) (inu u stress C12) (inu u stress C13) (inu u stress C23) (inu u stress C44) (inu u stress C55) (inu u stress C66) = after (inm u stress) (utils_write_matrix C11 C22 C33 C12 C13 C23 C44 C55 C66).
Proof. intros. unfu. scs. Qed.
Lemma units_utils_write_iso : forall K G, utils_write_iso m (inu u stress K) (inu u stress G) = after (inm u stress) (utils_write_iso m K G).
Proof. intros. unfu. scs. Qed.
Lemma units_utils_v_to_c_VTI : forall Vp0 Vp45 Vp90 Vs0 Vsh90 den, utils_v_to_c_VTI (inu u velocity Vp0) (inu u velocity Vp45) (inu u velocity Vp90) (inu u velocity Vs0) (inu u velocity Vsh90) (inu u density den) = after (inm u stress) (utils_v_to_c_VTI Vp0 Vp45 Vp90 Vs0 Vsh90 den).
Proof. intros. unfu. scs. Qed.
Lemma units_EM_cripor : forall K0 G0 phi phic, EM_cripor m (inu u stress K0) (inu u stress G0) phi phic = after (in2 u stress stress) (EM_cripor m K0 G0 phi phic).
Proof. intros. unfu. scs. Qed.
Lemma units_EM_cripor_reuss : forall M0 Mf phic (den : bool), EM_cripor_reuss (inu u stress M0) (inu u stress Mf) phic den = after (inu u stress) (EM_cripor_reuss M0 Mf phic den).
Proof. intros. unfu. scs. Qed.
Lemma units_EM_HS : forall f K1 K2 G1 G2 (bound : string), EM_HS m f (inu u stress K1) (inu u stress K2) (inu u stress G1) (inu u stress G2) bound = after (in2 u stress stress) (EM_HS m f K1 K2 G1 G2 bound).
Proof. intros. unfu. scs. Qed.
Lemma units_EM_Eshelby_Cheng : forall K G phi alpha Kf (mat_ : bool), EM_Eshelby_Cheng m (inu u stress K) (inu u stress G) phi alpha (inu u stress Kf) mat_ = after (inec u) (EM_Eshelby_Cheng m K G phi alpha Kf mat_).
Proof. intros. unfu. scs. Qed.
Lemma units_EM_Swiss_cheese : forall Ks Gs phi, EM_Swiss_cheese m (inu u stress Ks) (inu u stress Gs) phi = after (in2 u stress stress) (EM_Swiss_cheese m Ks Gs phi).
Proof. intros. unfu. scs. Qed.
Lemma units_EM_Dilute_crack : forall Ks Gs cd, EM_Dilute_crack m (inu u stress Ks) (inu u stress Gs) cd = after (in2 u stress stress) (EM_Dilute_crack m Ks Gs cd).
Proof. intros. unfu. scs. Qed.
Lemma units_EM_OConnell_Budiansky : forall K0 G0 crd, EM_OConnell_Budiansky m (inu u stress K0) (inu u stress G0) crd = after (in2 u stress stress) (EM_OConnell_Budiansky m K0 G0 crd).
Proof. intros. unfu. scs. Qed.
Lemma units_EM_MT_average : forall f Kmat Gmat K1 G1 K2 G2, EM_MT_average m f (inu u stress Kmat) (inu u stress Gmat) (inu u stress K1) (inu u stress G1) (inu u stress K2) (inu u stress G2) = after (in2 u stress stress) (EM_MT_average m f Kmat Gmat K1 G1 K2 G2).
Proof. intros. unfu. scs. Qed.
Lemma units_EM_hudson : forall K G Ki Gi alpha crd (order axis : Z), EM_hudson m (inu u stress K) (inu u stress G) (inu u stress Ki) (inu u stress Gi) alpha crd order axis = after (inm u stress) (EM_hudson m K G Ki Gi alpha crd order axis).
Proof. intros. unfu. scs. Qed.
Lemma units_EM_hudson_rand : forall K G Ki Gi alpha crd, EM_hudson_rand m (inu u stress K) (inu u stress G) (inu u stress Ki) (inu u stress Gi) alpha crd = after (in2 u stress stress) (EM_hudson_rand m K G Ki Gi alpha crd).
Proof. intros. unfu. scs. Qed.
Lemma units_EM_hudson_cone : forall K G Ki Gi alpha crd theta, EM_hudson_cone m (inu u stress K) (inu u stress G) (inu u stress Ki) (inu u stress Gi) alpha crd theta = after (inm u stress) (EM_hudson_cone m K G Ki Gi alpha crd theta).
Proof. intros. unfu. scs. Qed.
Lemma units_Anis_Thomsen : forall C11 C33 C13 C44 C66 den theta, Anis_Thomsen m (inu u stress C11) (inu u stress C33) (inu u stress C13) (inu u stress C44) (inu u stress C66) (inu u density den) theta = after (in6 u velocity velocity velocity dless dless dless) (Anis_Thomsen m C11 C33 C13 C44 C66 den theta).
Proof. intros. unfu. scs. Qed.
Lemma units_Anis_vel_azi_HTI : forall (C : mat) Den azimuth, Anis_vel_azi_HTI m (inm u stress C) (inu u density Den) azimuth = after (in3 u velocity velocity velocity) (Anis_vel_azi_HTI m C Den azimuth).
Proof. intros. unfu. scs. Qed.
Lemma units_Anis_vel_azi_VTI : forall (C : mat) Den azimuth, Anis_vel_azi_VTI m (inm u stress C) (inu u density Den) azimuth = after (in3 u velocity velocity velocity) (Anis_vel_azi_VTI m C Den azimuth).
Proof. intros. unfu. scs. Qed.
Lemma units_Fluid_Brie : forall Kw Kgas Sw e, Fluid_Brie m (inu u stress Kw) (inu u stress Kgas) Sw e = after (inu u stress) (Fluid_Brie m Kw Kgas Sw e).
Proof. intros. unfu. scs. Qed.
Lemma units_Fluid_Biot_HF : forall Kdry Gdry K0 Kfl rho0 rhofl phi alpha, Fluid_Biot_HF m (inu u stress Kdry) (inu u stress Gdry) (inu u stress K0) (inu u stress Kfl) (inu u density rho0) (inu u density rhofl) phi alpha = after (in3 u velocity velocity velocity) (Fluid_Biot_HF m Kdry Gdry K0 Kfl rho0 rhofl phi alpha).
Proof. intros. unfu. scs. Qed.
Lemma units_Fluid_Geertsma_Smit_HF : forall Kdry Gdry K0 Kfl rho0 rhofl phi alpha, Fluid_Geertsma_Smit_HF m (inu u stress Kdry) (inu u stress Gdry) (inu u stress K0) (inu u stress Kfl) (inu u density rho0) (inu u density rhofl) phi alpha = after (in2 u velocity velocity) (Fluid_Geertsma_Smit_HF m Kdry Gdry K0 Kfl rho0 rhofl phi alpha).
Proof. intros. unfu. scs. Qed.
Lemma units_Fluid_Geertsma_Smit_LF : forall Vp0 Vpinf freq phi rhofl kapa eta, Fluid_Geertsma_Smit_LF m (inu u velocity Vp0) (inu u velocity Vpinf) (inu u frequency freq) phi (inu u density rhofl) (inu u area kapa) (inu u viscosity eta) = after (inu u velocity) (Fluid_Geertsma_Smit_LF m Vp0 Vpinf freq phi rhofl kapa eta).
Proof. intros. unfu. scs. Qed.
Lemma units_Fluid_Gassmann : forall K_dry G_dry K_mat Kf phi, Fluid_Gassmann m (inu u stress K_dry) (inu u stress G_dry) (inu u stress K_mat) (inu u stress Kf) phi = after (in2 u stress stress) (Fluid_Gassmann m K_dry G_dry K_mat Kf phi).
Proof. intros. unfu. scs. Qed.
Lemma units_Fluid_Gassmann_sub : forall phi K0 Ksat1 Kfl1 Kfl2, Fluid_Gassmann_sub m phi (inu u stress K0) (inu u stress Ksat1) (inu u stress Kfl1) (inu u stress Kfl2) = after (inu u stress) (Fluid_Gassmann_sub m phi K0 Ksat1 Kfl1 Kfl2).
Proof. intros. unfu. scs. Qed.
Lemma units_Fluid_vels : forall K_dry G_dry K0 D0 Kf Df phi, Fluid_vels m (inu u stress K_dry) (inu u stress G_dry) (inu u stress K0) (inu u density D0) (inu u stress Kf) (inu u density Df) phi = after (in3 u velocity velocity density) (Fluid_vels m K_dry G_dry K0 D0 Kf Df phi).
Proof. intros. unfu. scs. Qed.
Lemma units_Fluid_Gassmann_vels : forall Vp1 Vs1 rho1 rhofl1 Kfl1 rhofl2 Kfl2 K0 phi, Fluid_Gassmann_vels m (inu u velocity Vp1) (inu u velocity Vs1) (inu u density rho1) (inu u density rhofl1) (inu u stress Kfl1) (inu u density rhofl2) (inu u stress Kfl2) (inu u stress K0) phi = after (in2 u velocity velocity) (Fluid_Gassmann_vels m Vp1 Vs1 rho1 rhofl1 Kfl1 rhofl2 Kfl2 K0 phi).
Proof. intros. unfu. scs. Qed.
Lemma units_Fluid_Gassmann_approx : forall Msat1 M0 Mfl1 phi Mfl2, Fluid_Gassmann_approx m (inu u stress Msat1) (inu u stress M0) (inu u stress Mfl1) phi (inu u stress Mfl2) = after (inu u stress) (Fluid_Gassmann_approx m Msat1 M0 Mfl1 phi Mfl2).
Proof. intros. unfu. scs. Qed.
Lemma units_GM_silty_shale : forall C Kq Gq Ksh Gsh, GM_silty_shale m C (inu u stress Kq) (inu u stress Gq) (inu u stress Ksh) (inu u stress Gsh) = after (in2 u stress stress) (GM_silty_shale m C Kq Gq Ksh Gsh).
Proof. intros. unfu. scs. Qed.
Lemma units_GM_shaly_sand : forall phis C Kss Gss Kcc Gcc, GM_shaly_sand m phis C (inu u stress Kss) (inu u stress Gss) (inu u stress Kcc) (inu u stress Gcc) = after (in2 u stress stress) (GM_shaly_sand m phis C Kss Gss Kcc Gcc).
Proof. intros. unfu. scs. Qed.
Lemma units_GM_contactcement : forall K0 G0 Kc Gc phi phic Cn (scheme : Z), GM_contactcement m (inu u stress K0) (inu u stress G0) (inu u stress Kc) (inu u stress Gc) phi phic Cn scheme = after (in2 u stress stress) (GM_contactcement m K0 G0 Kc Gc phi phic Cn scheme).
Proof. intros. unfu. scs. Qed.
Lemma units_GM_hertzmindlin : forall K0 G0 phic Cn sigma f, GM_hertzmindlin m (inu u stress K0) (inu u stress G0) phic Cn (inu u stress sigma) f = after (in2 u stress stress) (GM_hertzmindlin m K0 G0 phic Cn sigma f).
Proof. intros. unfu. scs. Qed.
Lemma units_GM_softsand : forall K0 G0 phi phic Cn sigma f, GM_softsand m (inu u stress K0) (inu u stress G0) phi phic Cn (inu u stress sigma) f = after (in2 u stress stress) (GM_softsand m K0 G0 phi phic Cn sigma f).
Proof. intros. unfu. scs. Qed.
Lemma units_GM_Walton : forall K0 G0 phic Cn sigma f, GM_Walton m (inu u stress K0) (inu u stress G0) phic Cn (inu u stress sigma) f = after (in2 u stress stress) (GM_Walton m K0 G0 phic Cn sigma f).
Proof. intros. unfu. scs. Qed.
Lemma units_GM_stiffsand : forall K0 G0 phi phic Cn sigma f, GM_stiffsand m (inu u stress K0) (inu u stress G0) phi phic Cn (inu u stress sigma) f = after (in2 u stress stress) (GM_stiffsand m K0 G0 phi phic Cn sigma f).
Proof. intros. unfu. scs. Qed.
Lemma units_GM_constantcement : forall phi_b K0 G0 Kc Gc phi phic Cn (scheme : Z), GM_constantcement m phi_b (inu u stress K0) (inu u stress G0) (inu u stress Kc) (inu u stress Gc) phi phic Cn scheme = after (in2 u stress stress) (GM_constantcement m phi_b K0 G0 Kc Gc phi phic Cn scheme).
Proof. intros. unfu. scs. Qed.
Lemma units_GM_MUHS : forall K0 G0 Kc Gc phi phi_b phic Cn (scheme : Z), GM_MUHS m (inu u stress K0) (inu u stress G0) (inu u stress Kc) (inu u stress Gc) phi phi_b phic Cn scheme = after (in2 u stress stress) (GM_MUHS m K0 G0 Kc Gc phi phi_b phic Cn scheme).
Proof. intros. unfu. scs. Qed.
Lemma units_GM_pcm : forall f sigma K0 G0 phi phic v_cem v_ci Kc Gc Cn (mode_ : string) (scheme : Z) f_, GM_pcm m f (inu u stress sigma) (inu u stress K0) (inu u stress G0) phi phic v_cem v_ci (inu u stress Kc) (inu u stress Gc) Cn mode_ scheme f_ = after (in2 u stress stress) (GM_pcm m f sigma K0 G0 phi phic v_cem v_ci Kc Gc Cn mode_ scheme f_).
Proof. intros. unfu. scs. Qed.
Lemma units_GM_vpcm : forall alpha f sigma K0 G0 phi phic v_cem v_ci Kc Gc Cn (scheme : Z) f_, GM_vpcm m alpha f (inu u stress sigma) (inu u stress K0) (inu u stress G0) phi phic v_cem v_ci (inu u stress Kc) (inu u stress Gc) Cn scheme f_ = after (in2 u stress stress) (GM_vpcm m alpha f sigma K0 G0 phi phic v_cem v_ci Kc Gc Cn scheme f_).
Proof. intros. unfu. scs. Qed.
Lemma units_Perm_Kozeny_Carman : forall phi d, Perm_Kozeny_Carman m phi (inu u length_d d) = after (inu u area) (Perm_Kozeny_Carman m phi d).
Proof. intros. unfu. scs. Qed.
Lemma units_Perm_Kozeny_Carman_Percolation : forall phi phic d B, Perm_Kozeny_Carman_Percolation m phi phic (inu u length_d d) B = after (inu u area) (Perm_Kozeny_Carman_Percolation m phi phic d B).
Proof. intros. unfu. scs. Qed.
Lemma units_Perm_Panda_Lake : forall d C S tau phi, Perm_Panda_Lake m (inu u length_d d) C S tau phi = after (inu u area) (Perm_Panda_Lake m d C S tau phi).
Proof. intros. unfu. scs. Qed.
Lemma units_Perm_Panda_Lake_cem : forall phi d, Perm_Panda_Lake_cem m phi (inu u length_d d) = after (inu u area) (Perm_Panda_Lake_cem m phi d).
Proof. intros. unfu. scs. Qed.
Lemma units_Perm_Revil : forall phi d, Perm_Revil m phi (inu u length_d d) = after (inu u area) (Perm_Revil m phi d).
Proof. intros. unfu. scs. Qed.
Lemma units_Perm_Bernabe : forall phi crf w r, Perm_Bernabe m phi crf (inu u length_d w) (inu u length_d r) = after (inu u area) (Perm_Bernabe m phi crf w r).
Proof. intros. unfu. scs. Qed.
Lemma units_AVO_zoeppritz : forall vp1 vs1 rho1 vp2 vs2 rho2 theta, AVO_zoeppritz (inu u velocity vp1) (inu u velocity vs1) (inu u density rho1) (inu u velocity vp2) (inu u velocity vs2) (inu u density rho2) theta = AVO_zoeppritz vp1 vs1 rho1 vp2 vs2 rho2 theta.
Proof. intros. dless (after_dless2 u). unfu. scs. Qed.
Lemma units_AVO_Aki_Richards : forall theta vp1 vp2 vs1 vs2 den1 den2, AVO_Aki_Richards m theta (inu u velocity vp1) (inu u velocity vp2) (inu u velocity vs1) (inu u velocity vs2) (inu u density den1) (inu u density den2) = AVO_Aki_Richards m theta vp1 vp2 vs1 vs2 den1 den2.
Proof. intros. dless (after_dless4 u). unfu. scs. Qed.
Lemma units_AVO_AVO_abe : forall vp1 vs1 d1 vp2 vs2 d2, AVO_AVO_abe m (inu u velocity vp1) (inu u velocity vs1) (inu u density d1) (inu u velocity vp2) (inu u velocity vs2) (inu u density d2) = AVO_AVO_abe m vp1 vs1 d1 vp2 vs2 d2.
Proof. intros. dless (after_dless5 u). unfu. scs. Qed.
Lemma units_AVO_AVO_ortho : forall a1 b1 e11 d11 e12 d12 g1 rho1 a2 b2 e21 d21 e22 d22 g2 rho2 the, AVO_AVO_ortho m (inu u velocity a1) (inu u velocity b1) e11 d11 e12 d12 g1 (inu u density rho1) (inu u velocity a2) (inu u velocity b2) e21 d21 e22 d22 g2 (inu u density rho2) the = AVO_AVO_ortho m a1 b1 e11 d11 e12 d12 g1 rho1 a2 b2 e21 d21 e22 d22 g2 rho2 the.
Proof. intros. dless (after_dless2 u). unfu. scs. Qed.
Lemma units_AVO_HTI_elem : forall D1 D2 (C1 C2 : mat) theta azimuth, AVO_HTI_elem (inu u density D1) (inu u density D2) (inm u stress C1) (inm u stress C2) theta azimuth = AVO_HTI_elem D1 D2 C1 C2 theta azimuth.
Proof. intros. dless (after_dless1 u). unfu. scs. Qed.
Lemma units_Emp_krief : forall phi Kg Gg, Emp_krief m phi (inu u stress Kg) (inu u stress Gg) = after (in3 u stress stress stress) (Emp_krief m phi Kg Gg).
Proof. intros. unfu. scs. Qed.
Lemma units_QI_matrix_modulus : forall vsh phi_c phi_0 M_sh M_g M_c, QI_matrix_modulus m vsh phi_c phi_0 (inu u stress M_sh) (inu u stress M_g) (inu u stress M_c) = after (inu u stress) (QI_matrix_modulus m vsh phi_c phi_0 M_sh M_g M_c).
Proof. intros. unfu. scs. Qed.
Lemma units_QI_den_matrix : forall vsh phi_c phi_0 den_sh den_g den_c, QI_den_matrix m vsh phi_c phi_0 (inu u density den_sh) (inu u density den_g) (inu u density den_c) = after (inu u density) (QI_den_matrix m vsh phi_c phi_0 den_sh den_g den_c).
Proof. intros. unfu. scs. Qed.
Lemma units_QI_mineral : forall Dqz Kqz Gqz Dsh Ksh Gsh vsh, QI_mineral (inu u density Dqz) (inu u stress Kqz) (inu u stress Gqz) (inu u density Dsh) (inu u stress Ksh) (inu u stress Gsh) vsh = after (in3 u stress stress density) (QI_mineral Dqz Kqz Gqz Dsh Ksh Gsh vsh).
Proof. intros. unfu. scs. Qed.
Lemma units_QI_screening_elem : forall K0 G0 D0 Dqz Kqz Dsh Ksh Dc Kc Gc Db Kb phib_p phi_c sigma vsh (scheme : Z) f Cn phi, QI_screening_elem m (inu u stress K0) (inu u stress G0) (inu u density D0) (inu u density Dqz) (inu u stress Kqz) (inu u density Dsh) (inu u stress Ksh) (inu u density Dc) (inu u stress Kc) (inu u stress Gc) (inu u density Db) (inu u stress Kb) phib_p phi_c (inu u stress sigma) vsh scheme f Cn phi = after (in6 u velocity velocity velocity velocity velocity velocity) (QI_screening_elem m K0 G0 D0 Dqz Kqz Dsh Ksh Dc Kc Gc Db Kb phib_p phi_c sigma vsh scheme f Cn phi).
Proof. intros. unfu. scs. Qed.
Lemma units_QI_cst_vels : forall phi_b K0 D0 G0 phi phi_c Cn Kc Gc Db Kb (scheme : Z) vsh Dsh Dqz Dc, QI_cst_vels m phi_b (inu u stress K0) (inu u density D0) (inu u stress G0) phi phi_c Cn (inu u stress Kc) (inu u stress Gc) (inu u density Db) (inu u stress Kb) scheme vsh (inu u density Dsh) (inu u density Dqz) (inu u density Dc) = after (in2 u velocity velocity) (QI_cst_vels m phi_b K0 D0 G0 phi phi_c Cn Kc Gc Db Kb scheme vsh Dsh Dqz Dc).
Proof. intros. unfu. scs. Qed.
Lemma units_QI_cal_v_const : forall Dqz Kqz Gqz Dsh Ksh Gsh Dc Kc Gc Db Kb phi_b phi_c vsh phi (scheme : Z), QI_cal_v_const (inu u density Dqz) (inu u stress Kqz) (inu u stress Gqz) (inu u density Dsh) (inu u stress Ksh) (inu u stress Gsh) (inu u density Dc) (inu u stress Kc) (inu u stress Gc) (inu u density Db) (inu u stress Kb) phi_b phi_c vsh phi scheme = after (in2 u velocity velocity) (QI_cal_v_const Dqz Kqz Gqz Dsh Ksh Gsh Dc Kc Gc Db Kb phi_b phi_c vsh phi scheme).
Proof. intros. unfu. scs. Qed.
End Fns.
