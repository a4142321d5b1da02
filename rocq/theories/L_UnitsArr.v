(** * L_UnitsArr: the dimensions of the programs of M_ArrayFns.v. *)
From Verif Require Import Spec20 Fl M_Array M_ArrayFns L_Units.
Import ListNotations.

Lemma covariant m p ins outs : hasp ins p outs -> unit_covariant m p ins outs.
Proof. intros H u xs L. apply units_run_arr; auto. Qed.
Lemma dims_utils_V m : unit_covariant m arr_utils_V [stress; stress; density] [velocity; velocity].
Proof. apply covariant. unfold arr_utils_V. hps. Qed.
Lemma dims_utils_poi m : unit_covariant m arr_utils_poi [stress; stress] [dless].
Proof. apply covariant. unfold arr_utils_poi. hps. Qed.
Lemma dims_utils_lame m : unit_covariant m arr_utils_lame [stress; stress] [stress].
Proof. apply covariant. unfold arr_utils_lame. hps. Qed.
Lemma dims_utils_M_from_V m : unit_covariant m arr_utils_M_from_V [density; velocity; velocity] [stress; stress].
Proof. apply covariant. unfold arr_utils_M_from_V. hps. Qed.
Lemma dims_utils_crack_por m : unit_covariant m arr_utils_crack_por [dless; dless] [dless].
Proof. apply covariant. unfold arr_utils_crack_por. hps. Qed.
Lemma dims_EM_cripor m : unit_covariant m arr_EM_cripor [stress; stress; dless; dless] [stress; stress].
Proof. apply covariant. unfold arr_EM_cripor. hps. Qed.
Lemma dims_EM_HS_upper m : unit_covariant m arr_EM_HS_upper [dless; stress; stress; stress; stress] [stress; stress].
Proof. apply covariant. unfold arr_EM_HS_upper. hps. Qed.
Lemma dims_EM_HS_lower m : unit_covariant m arr_EM_HS_lower [dless; stress; stress; stress; stress] [stress; stress].
Proof. apply covariant. unfold arr_EM_HS_lower. hps. Qed.
Lemma dims_EM_hudson_rand m : unit_covariant m arr_EM_hudson_rand [stress; stress; stress; stress; dless; dless] [stress; stress].
Proof. apply covariant. unfold arr_EM_hudson_rand. hps. Qed.
Lemma dims_EM_Dilute_crack m : unit_covariant m arr_EM_Dilute_crack [stress; stress; dless] [stress; stress].
Proof. apply covariant. unfold arr_EM_Dilute_crack. hps. Qed.
Lemma dims_EM_OConnell_Budiansky m : unit_covariant m arr_EM_OConnell_Budiansky [stress; stress; dless] [stress; stress].
Proof. apply covariant. unfold arr_EM_OConnell_Budiansky. hps. Qed.
Lemma dims_EM_MT_average m : unit_covariant m arr_EM_MT_average [dless; stress; stress; stress; stress; stress; stress] [stress; stress].
Proof. apply covariant. unfold arr_EM_MT_average. hps. Qed.
Lemma dims_Anis_Thomsen m : unit_covariant m arr_Anis_Thomsen [stress; stress; stress; stress; stress; density; dless] [velocity; velocity; velocity; dless; dless; dless].
Proof. apply covariant. unfold arr_Anis_Thomsen. hps. Qed.
Lemma dims_Anis_Thomsen_Tsvankin m : unit_covariant m arr_Anis_Thomsen_Tsvankin [stress; stress; stress; stress; stress; stress; stress; stress; stress] [dless; dless; dless; dless; dless; dless; dless].
Proof. apply covariant. unfold arr_Anis_Thomsen_Tsvankin. hps. Qed.
Lemma dims_Fluid_Brie m : unit_covariant m arr_Fluid_Brie [stress; stress; dless; dless] [stress].
Proof. apply covariant. unfold arr_Fluid_Brie. hps. Qed.
Lemma dims_Fluid_Biot_HF m : unit_covariant m arr_Fluid_Biot_HF [stress; stress; stress; stress; density; density; dless; dless] [velocity; velocity; velocity].
Proof. apply covariant. unfold arr_Fluid_Biot_HF. hps. Qed.
Lemma dims_Fluid_Geertsma_Smit_HF m : unit_covariant m arr_Fluid_Geertsma_Smit_HF [stress; stress; stress; stress; density; density; dless; dless] [velocity; velocity].
Proof. apply covariant. unfold arr_Fluid_Geertsma_Smit_HF. hps. Qed.
Lemma dims_Fluid_Geertsma_Smit_LF m : unit_covariant m arr_Fluid_Geertsma_Smit_LF [velocity; velocity; frequency; dless; density; area; viscosity] [velocity].
Proof. apply covariant. unfold arr_Fluid_Geertsma_Smit_LF. hps. Qed.
Lemma dims_Fluid_Gassmann m : unit_covariant m arr_Fluid_Gassmann [stress; stress; stress; stress; dless] [stress; stress].
Proof. apply covariant. unfold arr_Fluid_Gassmann. hps. Qed.
Lemma dims_Fluid_Gassmann_sub m : unit_covariant m arr_Fluid_Gassmann_sub [dless; stress; stress; stress; stress] [stress].
Proof. apply covariant. unfold arr_Fluid_Gassmann_sub. hps. Qed.
Lemma dims_Fluid_vels m : unit_covariant m arr_Fluid_vels [stress; stress; stress; density; stress; density; dless] [velocity; velocity; density].
Proof. apply covariant. unfold arr_Fluid_vels. hps. Qed.
Lemma dims_Fluid_Gassmann_vels m : unit_covariant m arr_Fluid_Gassmann_vels [velocity; velocity; density; density; stress; density; stress; stress; dless] [velocity; velocity].
Proof. apply covariant. unfold arr_Fluid_Gassmann_vels. hps. Qed.
Lemma dims_Fluid_Gassmann_approx m : unit_covariant m arr_Fluid_Gassmann_approx [stress; stress; stress; dless; stress] [stress].
Proof. apply covariant. unfold arr_Fluid_Gassmann_approx. hps. Qed.
Lemma dims_Fluid_Mavko_Jizba m : unit_covariant m arr_Fluid_Mavko_Jizba [velocity; velocity; velocity; velocity; stress; density; density; stress; dless] [stress; stress; velocity; velocity].
Proof. apply covariant. unfold arr_Fluid_Mavko_Jizba. hps. Qed.
Lemma dims_GM_ThomasStieber m : unit_covariant m arr_GM_ThomasStieber [dless; dless; dless] [dless; dless].
Proof. apply covariant. unfold arr_GM_ThomasStieber. hps. Qed.
Lemma dims_GM_silty_shale m : unit_covariant m arr_GM_silty_shale [dless; stress; stress; stress; stress] [stress; stress].
Proof. apply covariant. unfold arr_GM_silty_shale. hps. Qed.
Lemma dims_GM_shaly_sand m : unit_covariant m arr_GM_shaly_sand [dless; dless; stress; stress; stress; stress] [stress; stress].
Proof. apply covariant. unfold arr_GM_shaly_sand. hps. Qed.
Lemma dims_GM_contactcement_1 m : unit_covariant m arr_GM_contactcement_1 [stress; stress; stress; stress; dless; dless; dless] [stress; stress].
Proof. apply covariant. unfold arr_GM_contactcement_1. hps. Qed.
Lemma dims_GM_contactcement_2 m : unit_covariant m arr_GM_contactcement_2 [stress; stress; stress; stress; dless; dless; dless] [stress; stress].
Proof. apply covariant. unfold arr_GM_contactcement_2. hps. Qed.
Lemma dims_GM_hertzmindlin m : unit_covariant m arr_GM_hertzmindlin [stress; stress; dless; dless; stress; dless] [stress; stress].
Proof. apply covariant. unfold arr_GM_hertzmindlin. hps. Qed.
Lemma dims_GM_softsand m : unit_covariant m arr_GM_softsand [stress; stress; dless; dless; dless; stress; dless] [stress; stress].
Proof. apply covariant. unfold arr_GM_softsand. hps. Qed.
Lemma dims_GM_Walton m : unit_covariant m arr_GM_Walton [stress; stress; dless; dless; stress; dless] [stress; stress].
Proof. apply covariant. unfold arr_GM_Walton. hps. Qed.
Lemma dims_GM_stiffsand m : unit_covariant m arr_GM_stiffsand [stress; stress; dless; dless; dless; stress; dless] [stress; stress].
Proof. apply covariant. unfold arr_GM_stiffsand. hps. Qed.
Lemma dims_GM_constantcement_1 m : unit_covariant m arr_GM_constantcement_1 [dless; stress; stress; stress; stress; dless; dless; dless] [stress; stress].
Proof. apply covariant. unfold arr_GM_constantcement_1. hps. Qed.
Lemma dims_GM_constantcement_2 m : unit_covariant m arr_GM_constantcement_2 [dless; stress; stress; stress; stress; dless; dless; dless] [stress; stress].
Proof. apply covariant. unfold arr_GM_constantcement_2. hps. Qed.
Lemma dims_GM_MUHS_1 m : unit_covariant m arr_GM_MUHS_1 [stress; stress; stress; stress; dless; dless; dless; dless] [stress; stress].
Proof. apply covariant. unfold arr_GM_MUHS_1. hps. Qed.
Lemma dims_GM_MUHS_2 m : unit_covariant m arr_GM_MUHS_2 [stress; stress; stress; stress; dless; dless; dless; dless] [stress; stress].
Proof. apply covariant. unfold arr_GM_MUHS_2. hps. Qed.
Lemma dims_Perm_Kozeny_Carman m : unit_covariant m arr_Perm_Kozeny_Carman [dless; length_d] [area].
Proof. apply covariant. unfold arr_Perm_Kozeny_Carman. hps. Qed.
Lemma dims_Perm_Kozeny_Carman_Percolation m : unit_covariant m arr_Perm_Kozeny_Carman_Percolation [dless; dless; length_d; dless] [area].
Proof. apply covariant. unfold arr_Perm_Kozeny_Carman_Percolation. hps. Qed.
Lemma dims_Perm_Panda_Lake m : unit_covariant m arr_Perm_Panda_Lake [length_d; dless; dless; dless; dless] [area].
Proof. apply covariant. unfold arr_Perm_Panda_Lake. hps. Qed.
Lemma dims_Perm_Panda_Lake_cem m : unit_covariant m arr_Perm_Panda_Lake_cem [dless; length_d] [area].
Proof. apply covariant. unfold arr_Perm_Panda_Lake_cem. hps. Qed.
Lemma dims_Perm_Revil m : unit_covariant m arr_Perm_Revil [dless; length_d] [area].
Proof. apply covariant. unfold arr_Perm_Revil. hps. Qed.
Lemma dims_Perm_Bernabe m : unit_covariant m arr_Perm_Bernabe [dless; dless; length_d; length_d] [area].
Proof. apply covariant. unfold arr_Perm_Bernabe. hps. Qed.
Lemma dims_Emp_krief m : unit_covariant m arr_Emp_krief [dless; stress; stress] [stress; stress; stress].
Proof. apply covariant. unfold arr_Emp_krief. hps. Qed.
Lemma dims_AVO_zoeppritz m : unit_covariant m arr_AVO_zoeppritz [velocity; velocity; density; velocity; velocity; density; dless] [dless; dless].
Proof. apply covariant. unfold arr_AVO_zoeppritz. hps. Qed.
Lemma dims_AVO_AVO_abe m : unit_covariant m arr_AVO_AVO_abe [velocity; velocity; density; velocity; velocity; density] [dless; dless; dless; dless; dless].
Proof. apply covariant. unfold arr_AVO_AVO_abe. hps. Qed.
Lemma dims_AVO_AVO_ortho m : unit_covariant m arr_AVO_AVO_ortho [velocity; velocity; dless; dless; dless; dless; dless; density; velocity; velocity; dless; dless; dless; dless; dless; density; dless] [dless; dless].
Proof. apply covariant. unfold arr_AVO_AVO_ortho. hps. Qed.
Lemma dims_QI_matrix_modulus m : unit_covariant m arr_QI_matrix_modulus [dless; dless; dless; stress; stress; stress] [stress].
Proof. apply covariant. unfold arr_QI_matrix_modulus. hps. Qed.
Lemma dims_GM_pcm_stiff_1 m : unit_covariant m arr_GM_pcm_stiff_1 [dless; stress; stress; stress; dless; dless; dless; dless; stress; stress; dless; dless] [stress; stress].
Proof. apply covariant. unfold arr_GM_pcm_stiff_1. hps. Qed.
Lemma dims_GM_pcm_stiff_2 m : unit_covariant m arr_GM_pcm_stiff_2 [dless; stress; stress; stress; dless; dless; dless; dless; stress; stress; dless; dless] [stress; stress].
Proof. apply covariant. unfold arr_GM_pcm_stiff_2. hps. Qed.
Lemma dims_GM_pcm_soft_1 m : unit_covariant m arr_GM_pcm_soft_1 [dless; stress; stress; stress; dless; dless; dless; dless; stress; stress; dless; dless] [stress; stress].
Proof. apply covariant. unfold arr_GM_pcm_soft_1. hps. Qed.
Lemma dims_GM_pcm_soft_2 m : unit_covariant m arr_GM_pcm_soft_2 [dless; stress; stress; stress; dless; dless; dless; dless; stress; stress; dless; dless] [stress; stress].
Proof. apply covariant. unfold arr_GM_pcm_soft_2. hps. Qed.
Lemma dims_GM_vpcm_1 m : unit_covariant m arr_GM_vpcm_1 [dless; dless; stress; stress; stress; dless; dless; dless; dless; stress; stress; dless; dless] [stress; stress].
Proof. apply covariant. unfold arr_GM_vpcm_1. hps. Qed.
Lemma dims_GM_vpcm_2 m : unit_covariant m arr_GM_vpcm_2 [dless; dless; stress; stress; stress; dless; dless; dless; dless; stress; stress; dless; dless] [stress; stress].
Proof. apply covariant. unfold arr_GM_vpcm_2. hps. Qed.
Lemma dims_EM_SC_dilute_stress m : unit_covariant m arr_EM_SC_dilute_stress [stress; stress; stress; stress; dless] [dless; dless].
Proof. apply covariant. unfold arr_EM_SC_dilute_stress. hps. Qed.
Lemma dims_EM_SC_dilute_strain m : unit_covariant m arr_EM_SC_dilute_strain [stress; stress; stress; stress; dless] [dless; dless].
Proof. apply covariant. unfold arr_EM_SC_dilute_strain. hps. Qed.
