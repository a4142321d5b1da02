(** * L_ContFns: the formulas of M_ArrayFns.v are continuous, and most give numbers around every input where they do. *)
From Verif Require Import Fl RealLemmas M_Utils M_EM M_Anis M_Fluid M_GM M_Perm M_Emp M_BW M_AVO M_QI M_Array M_ArrayFns Spec16 L_ArrayFns Spec21 L_Cont L_ContProg.
Open Scope R_scope.

Ltac lst1 l Hl := lazymatch type of Hl with length l = 0%nat => destruct l; [|discriminate Hl] | _ => destruct l as [|? l]; [discriminate Hl|]; cbn [length] in Hl; apply eq_add_S in Hl; lst1 l Hl end.
Ltac lst2 l := first [destruct l as [|? l]; [reflexivity|]; lst2 l | idtac].
Ltac fn_eq L := let l := fresh "l" in let Hl := fresh "Hl" in intros l Hl; lst1 l Hl; apply L.
Tactic Notation "fn_ne" integer(n) := let l := fresh "l" in let Hl := fresh "Hl" in intros l Hl; do n (destruct l as [|? l]; [reflexivity|]); destruct l; [exfalso; apply Hl; reflexivity|reflexivity].
Ltac tame_lit := eexists; split; [reflexivity|split; [cbn [ev sem1 sem2 fneg]; rewrite ?fdiv_fin by lra; reflexivity|first [lra|split; lra]]].
Ltac tame_go :=
  lazymatch goal with
  | |- _ /\ _ => split; tame_go
  | |- True => exact I
  | |- _ \/ _ => first [left; tame_lit|right; tame_lit]
  end.
Ltac tame_tac p := unfold p; cbn [tames tame fold_right is_pow]; tame_go.

Lemma cont_utils_V m : continuous_fn (fun l => match l with [K; G; rho] => out2 (utils_V m K G rho) | _ => Unknown end).
Proof. apply (tames_continuous m 3 arr_utils_V); [fn_eq utils_V_arr|fn_ne 3|tame_tac arr_utils_V]. Qed.
Lemma cont_utils_poi m : continuous_fn (fun l => match l with [K; G] => out1 (utils_poi m K G) | _ => Unknown end).
Proof. apply (tames_continuous m 2 arr_utils_poi); [fn_eq utils_poi_arr|fn_ne 2|tame_tac arr_utils_poi]. Qed.
Lemma robust_utils_poi m : robust_fn (fun l => match l with [K; G] => out1 (utils_poi m K G) | _ => Unknown end).
Proof. apply (openp_robust m 2 arr_utils_poi); [fn_eq utils_poi_arr|fn_ne 2|reflexivity]. Qed.
Lemma cont_utils_lame m : continuous_fn (fun l => match l with [K; G] => out1 (utils_lame m K G) | _ => Unknown end).
Proof. apply (tames_continuous m 2 arr_utils_lame); [fn_eq utils_lame_arr|fn_ne 2|tame_tac arr_utils_lame]. Qed.
Lemma robust_utils_lame m : robust_fn (fun l => match l with [K; G] => out1 (utils_lame m K G) | _ => Unknown end).
Proof. apply (openp_robust m 2 arr_utils_lame); [fn_eq utils_lame_arr|fn_ne 2|reflexivity]. Qed.
Lemma cont_utils_M_from_V m : continuous_fn (fun l => match l with [den; vp; vs] => out2 (utils_M_from_V m den vp vs) | _ => Unknown end).
Proof. apply (tames_continuous m 3 arr_utils_M_from_V); [fn_eq utils_M_from_V_arr|fn_ne 3|tame_tac arr_utils_M_from_V]. Qed.
Lemma robust_utils_M_from_V m : robust_fn (fun l => match l with [den; vp; vs] => out2 (utils_M_from_V m den vp vs) | _ => Unknown end).
Proof. apply (openp_robust m 3 arr_utils_M_from_V); [fn_eq utils_M_from_V_arr|fn_ne 3|reflexivity]. Qed.
Lemma cont_utils_crack_por m : continuous_fn (fun l => match l with [crd; alpha] => out1 (utils_crack_por m crd alpha) | _ => Unknown end).
Proof. apply (tames_continuous m 2 arr_utils_crack_por); [fn_eq utils_crack_por_arr|fn_ne 2|tame_tac arr_utils_crack_por]. Qed.
Lemma robust_utils_crack_por m : robust_fn (fun l => match l with [crd; alpha] => out1 (utils_crack_por m crd alpha) | _ => Unknown end).
Proof. apply (openp_robust m 2 arr_utils_crack_por); [fn_eq utils_crack_por_arr|fn_ne 2|reflexivity]. Qed.
Lemma cont_EM_cripor m : continuous_fn (fun l => match l with [K0; G0; phi; phic] => out2 (EM_cripor m K0 G0 phi phic) | _ => Unknown end).
Proof. apply (tames_continuous m 4 arr_EM_cripor); [fn_eq EM_cripor_arr|fn_ne 4|tame_tac arr_EM_cripor]. Qed.
Lemma robust_EM_cripor m : robust_fn (fun l => match l with [K0; G0; phi; phic] => out2 (EM_cripor m K0 G0 phi phic) | _ => Unknown end).
Proof. apply (openp_robust m 4 arr_EM_cripor); [fn_eq EM_cripor_arr|fn_ne 4|reflexivity]. Qed.
Lemma cont_EM_HS_upper m : continuous_fn (fun l => match l with [f; K1; K2; G1; G2] => out2 (EM_HS m f K1 K2 G1 G2 "upper") | _ => Unknown end).
Proof. apply (tames_continuous m 5 arr_EM_HS_upper); [fn_eq EM_HS_upper_arr|fn_ne 5|tame_tac arr_EM_HS_upper]. Qed.
Lemma robust_EM_HS_upper m : robust_fn (fun l => match l with [f; K1; K2; G1; G2] => out2 (EM_HS m f K1 K2 G1 G2 "upper") | _ => Unknown end).
Proof. apply (openp_robust m 5 arr_EM_HS_upper); [fn_eq EM_HS_upper_arr|fn_ne 5|reflexivity]. Qed.
Lemma cont_EM_HS_lower m : continuous_fn (fun l => match l with [f; K1; K2; G1; G2] => out2 (EM_HS m f K1 K2 G1 G2 "lower") | _ => Unknown end).
Proof. apply (tames_continuous m 5 arr_EM_HS_lower); [fn_eq EM_HS_lower_arr|fn_ne 5|tame_tac arr_EM_HS_lower]. Qed.
Lemma robust_EM_HS_lower m : robust_fn (fun l => match l with [f; K1; K2; G1; G2] => out2 (EM_HS m f K1 K2 G1 G2 "lower") | _ => Unknown end).
Proof. apply (openp_robust m 5 arr_EM_HS_lower); [fn_eq EM_HS_lower_arr|fn_ne 5|reflexivity]. Qed.
Lemma cont_EM_hudson_rand m : continuous_fn (fun l => match l with [K; G; Ki; Gi; alpha; crd] => out2 (EM_hudson_rand m K G Ki Gi alpha crd) | _ => Unknown end).
Proof. apply (tames_continuous m 6 arr_EM_hudson_rand); [fn_eq EM_hudson_rand_arr|fn_ne 6|tame_tac arr_EM_hudson_rand]. Qed.
Lemma robust_EM_hudson_rand m : robust_fn (fun l => match l with [K; G; Ki; Gi; alpha; crd] => out2 (EM_hudson_rand m K G Ki Gi alpha crd) | _ => Unknown end).
Proof. apply (openp_robust m 6 arr_EM_hudson_rand); [fn_eq EM_hudson_rand_arr|fn_ne 6|reflexivity]. Qed.
Lemma cont_EM_Dilute_crack m : continuous_fn (fun l => match l with [Ks; Gs; cd] => out2 (EM_Dilute_crack m Ks Gs cd) | _ => Unknown end).
Proof. apply (tames_continuous m 3 arr_EM_Dilute_crack); [fn_eq EM_Dilute_crack_arr|fn_ne 3|tame_tac arr_EM_Dilute_crack]. Qed.
Lemma robust_EM_Dilute_crack m : robust_fn (fun l => match l with [Ks; Gs; cd] => out2 (EM_Dilute_crack m Ks Gs cd) | _ => Unknown end).
Proof. apply (openp_robust m 3 arr_EM_Dilute_crack); [fn_eq EM_Dilute_crack_arr|fn_ne 3|reflexivity]. Qed.
Lemma cont_EM_OConnell_Budiansky m : continuous_fn (fun l => match l with [K0; G0; crd] => out2 (EM_OConnell_Budiansky m K0 G0 crd) | _ => Unknown end).
Proof. apply (tames_continuous m 3 arr_EM_OConnell_Budiansky); [fn_eq EM_OConnell_Budiansky_arr|fn_ne 3|tame_tac arr_EM_OConnell_Budiansky]. Qed.
Lemma robust_EM_OConnell_Budiansky m : robust_fn (fun l => match l with [K0; G0; crd] => out2 (EM_OConnell_Budiansky m K0 G0 crd) | _ => Unknown end).
Proof. apply (openp_robust m 3 arr_EM_OConnell_Budiansky); [fn_eq EM_OConnell_Budiansky_arr|fn_ne 3|reflexivity]. Qed.
Lemma cont_EM_SC_dilute_stress m : continuous_fn (fun l => match l with [Km; Gm; Ki; Gi; f] => out2 (EM_SC_dilute m Km Gm Ki Gi f "stress") | _ => Unknown end).
Proof. apply (tames_continuous m 5 arr_EM_SC_dilute_stress); [fn_eq EM_SC_dilute_stress_arr|fn_ne 5|tame_tac arr_EM_SC_dilute_stress]. Qed.
Lemma robust_EM_SC_dilute_stress m : robust_fn (fun l => match l with [Km; Gm; Ki; Gi; f] => out2 (EM_SC_dilute m Km Gm Ki Gi f "stress") | _ => Unknown end).
Proof. apply (openp_robust m 5 arr_EM_SC_dilute_stress); [fn_eq EM_SC_dilute_stress_arr|fn_ne 5|reflexivity]. Qed.
Lemma cont_EM_SC_dilute_strain m : continuous_fn (fun l => match l with [Km; Gm; Ki; Gi; f] => out2 (EM_SC_dilute m Km Gm Ki Gi f "strain") | _ => Unknown end).
Proof. apply (tames_continuous m 5 arr_EM_SC_dilute_strain); [fn_eq EM_SC_dilute_strain_arr|fn_ne 5|tame_tac arr_EM_SC_dilute_strain]. Qed.
Lemma robust_EM_SC_dilute_strain m : robust_fn (fun l => match l with [Km; Gm; Ki; Gi; f] => out2 (EM_SC_dilute m Km Gm Ki Gi f "strain") | _ => Unknown end).
Proof. apply (openp_robust m 5 arr_EM_SC_dilute_strain); [fn_eq EM_SC_dilute_strain_arr|fn_ne 5|reflexivity]. Qed.
Lemma cont_EM_MT_average m : continuous_fn (fun l => match l with [f; Kmat; Gmat; K1; G1; K2; G2] => out2 (EM_MT_average m f Kmat Gmat K1 G1 K2 G2) | _ => Unknown end).
Proof. apply (tames_continuous m 7 arr_EM_MT_average); [fn_eq EM_MT_average_arr|fn_ne 7|tame_tac arr_EM_MT_average]. Qed.
Lemma robust_EM_MT_average m : robust_fn (fun l => match l with [f; Kmat; Gmat; K1; G1; K2; G2] => out2 (EM_MT_average m f Kmat Gmat K1 G1 K2 G2) | _ => Unknown end).
Proof. apply (openp_robust m 7 arr_EM_MT_average); [fn_eq EM_MT_average_arr|fn_ne 7|reflexivity]. Qed.
Lemma cont_Anis_Thomsen m : continuous_fn (fun l => match l with [C11; C33; C13; C44; C66; den; theta] => out6 (Anis_Thomsen m C11 C33 C13 C44 C66 den theta) | _ => Unknown end).
Proof. apply (tames_continuous m 7 arr_Anis_Thomsen); [fn_eq Anis_Thomsen_arr|fn_ne 7|tame_tac arr_Anis_Thomsen]. Qed.
Lemma cont_Anis_Thomsen_Tsvankin m : continuous_fn (fun l => match l with [C11; C22; C33; C12; C13; C23; C44; C55; C66] => out7 (Anis_Thomsen_Tsvankin m C11 C22 C33 C12 C13 C23 C44 C55 C66) | _ => Unknown end).
Proof. apply (tames_continuous m 9 arr_Anis_Thomsen_Tsvankin); [fn_eq Anis_Thomsen_Tsvankin_arr|fn_ne 9|tame_tac arr_Anis_Thomsen_Tsvankin]. Qed.
Lemma robust_Anis_Thomsen_Tsvankin m : robust_fn (fun l => match l with [C11; C22; C33; C12; C13; C23; C44; C55; C66] => out7 (Anis_Thomsen_Tsvankin m C11 C22 C33 C12 C13 C23 C44 C55 C66) | _ => Unknown end).
Proof. apply (openp_robust m 9 arr_Anis_Thomsen_Tsvankin); [fn_eq Anis_Thomsen_Tsvankin_arr|fn_ne 9|reflexivity]. Qed.
Lemma cont_Fluid_Biot_HF m : continuous_fn (fun l => match l with [Kdry; Gdry; K0; Kfl; rho0; rhofl; phi; alpha] => out3 (Fluid_Biot_HF m Kdry Gdry K0 Kfl rho0 rhofl phi alpha) | _ => Unknown end).
Proof. apply (tames_continuous m 8 arr_Fluid_Biot_HF); [fn_eq Fluid_Biot_HF_arr|fn_ne 8|tame_tac arr_Fluid_Biot_HF]. Qed.
Lemma cont_Fluid_Geertsma_Smit_HF m : continuous_fn (fun l => match l with [Kdry; Gdry; K0; Kfl; rho0; rhofl; phi; alpha] => out2 (Fluid_Geertsma_Smit_HF m Kdry Gdry K0 Kfl rho0 rhofl phi alpha) | _ => Unknown end).
Proof. apply (tames_continuous m 8 arr_Fluid_Geertsma_Smit_HF); [fn_eq Fluid_Geertsma_Smit_HF_arr|fn_ne 8|tame_tac arr_Fluid_Geertsma_Smit_HF]. Qed.
Lemma cont_Fluid_Geertsma_Smit_LF m : continuous_fn (fun l => match l with [Vp0; Vpinf; freq; phi; rhofl; kapa; eta] => out1 (Fluid_Geertsma_Smit_LF m Vp0 Vpinf freq phi rhofl kapa eta) | _ => Unknown end).
Proof. apply (tames_continuous m 7 arr_Fluid_Geertsma_Smit_LF); [fn_eq Fluid_Geertsma_Smit_LF_arr|fn_ne 7|tame_tac arr_Fluid_Geertsma_Smit_LF]. Qed.
Lemma cont_Fluid_Gassmann m : continuous_fn (fun l => match l with [K_dry; G_dry; K_mat; Kf; phi] => out2 (Fluid_Gassmann m K_dry G_dry K_mat Kf phi) | _ => Unknown end).
Proof. apply (tames_continuous m 5 arr_Fluid_Gassmann); [fn_eq Fluid_Gassmann_arr|fn_ne 5|tame_tac arr_Fluid_Gassmann]. Qed.
Lemma robust_Fluid_Gassmann m : robust_fn (fun l => match l with [K_dry; G_dry; K_mat; Kf; phi] => out2 (Fluid_Gassmann m K_dry G_dry K_mat Kf phi) | _ => Unknown end).
Proof. apply (openp_robust m 5 arr_Fluid_Gassmann); [fn_eq Fluid_Gassmann_arr|fn_ne 5|reflexivity]. Qed.
Lemma cont_Fluid_Gassmann_sub m : continuous_fn (fun l => match l with [phi; K0; Ksat1; Kfl1; Kfl2] => out1 (Fluid_Gassmann_sub m phi K0 Ksat1 Kfl1 Kfl2) | _ => Unknown end).
Proof. apply (tames_continuous m 5 arr_Fluid_Gassmann_sub); [fn_eq Fluid_Gassmann_sub_arr|fn_ne 5|tame_tac arr_Fluid_Gassmann_sub]. Qed.
Lemma robust_Fluid_Gassmann_sub m : robust_fn (fun l => match l with [phi; K0; Ksat1; Kfl1; Kfl2] => out1 (Fluid_Gassmann_sub m phi K0 Ksat1 Kfl1 Kfl2) | _ => Unknown end).
Proof. apply (openp_robust m 5 arr_Fluid_Gassmann_sub); [fn_eq Fluid_Gassmann_sub_arr|fn_ne 5|reflexivity]. Qed.
Lemma cont_Fluid_vels m : continuous_fn (fun l => match l with [K_dry; G_dry; K0; D0; Kf; Df; phi] => out3 (Fluid_vels m K_dry G_dry K0 D0 Kf Df phi) | _ => Unknown end).
Proof. apply (tames_continuous m 7 arr_Fluid_vels); [fn_eq Fluid_vels_arr|fn_ne 7|tame_tac arr_Fluid_vels]. Qed.
Lemma cont_Fluid_Gassmann_vels m : continuous_fn (fun l => match l with [Vp1; Vs1; rho1; rhofl1; Kfl1; rhofl2; Kfl2; K0; phi] => out2 (Fluid_Gassmann_vels m Vp1 Vs1 rho1 rhofl1 Kfl1 rhofl2 Kfl2 K0 phi) | _ => Unknown end).
Proof. apply (tames_continuous m 9 arr_Fluid_Gassmann_vels); [fn_eq Fluid_Gassmann_vels_arr|fn_ne 9|tame_tac arr_Fluid_Gassmann_vels]. Qed.
Lemma cont_Fluid_Gassmann_approx m : continuous_fn (fun l => match l with [Msat1; M0; Mfl1; phi; Mfl2] => out1 (Fluid_Gassmann_approx m Msat1 M0 Mfl1 phi Mfl2) | _ => Unknown end).
Proof. apply (tames_continuous m 5 arr_Fluid_Gassmann_approx); [fn_eq Fluid_Gassmann_approx_arr|fn_ne 5|tame_tac arr_Fluid_Gassmann_approx]. Qed.
Lemma robust_Fluid_Gassmann_approx m : robust_fn (fun l => match l with [Msat1; M0; Mfl1; phi; Mfl2] => out1 (Fluid_Gassmann_approx m Msat1 M0 Mfl1 phi Mfl2) | _ => Unknown end).
Proof. apply (openp_robust m 5 arr_Fluid_Gassmann_approx); [fn_eq Fluid_Gassmann_approx_arr|fn_ne 5|reflexivity]. Qed.
Lemma cont_Fluid_Mavko_Jizba m : continuous_fn (fun l => match l with [Vp_hs; Vs_hs; Vpdry; Vsdry; K0; rhodry; rhofl; Kfl; phi] => out4 (Fluid_Mavko_Jizba m Vp_hs Vs_hs Vpdry Vsdry K0 rhodry rhofl Kfl phi) | _ => Unknown end).
Proof. apply (tames_continuous m 9 arr_Fluid_Mavko_Jizba); [fn_eq Fluid_Mavko_Jizba_arr|fn_ne 9|tame_tac arr_Fluid_Mavko_Jizba]. Qed.
Lemma cont_GM_ThomasStieber : continuous_fn (fun l => match l with [phi_sand; phi_sh; vsh] => out2 (GM_ThomasStieber phi_sand phi_sh vsh) | _ => Unknown end).
Proof. apply (tames_continuous NumPy 3 arr_GM_ThomasStieber); [fn_eq GM_ThomasStieber_arr|fn_ne 3|tame_tac arr_GM_ThomasStieber]. Qed.
Lemma cont_GM_silty_shale m : continuous_fn (fun l => match l with [C; Kq; Gq; Ksh; Gsh] => out2 (GM_silty_shale m C Kq Gq Ksh Gsh) | _ => Unknown end).
Proof. apply (tames_continuous m 5 arr_GM_silty_shale); [fn_eq GM_silty_shale_arr|fn_ne 5|tame_tac arr_GM_silty_shale]. Qed.
Lemma robust_GM_silty_shale m : robust_fn (fun l => match l with [C; Kq; Gq; Ksh; Gsh] => out2 (GM_silty_shale m C Kq Gq Ksh Gsh) | _ => Unknown end).
Proof. apply (openp_robust m 5 arr_GM_silty_shale); [fn_eq GM_silty_shale_arr|fn_ne 5|reflexivity]. Qed.
Lemma cont_GM_shaly_sand m : continuous_fn (fun l => match l with [phis; C; Kss; Gss; Kcc; Gcc] => out2 (GM_shaly_sand m phis C Kss Gss Kcc Gcc) | _ => Unknown end).
Proof. apply (tames_continuous m 6 arr_GM_shaly_sand); [fn_eq GM_shaly_sand_arr|fn_ne 6|tame_tac arr_GM_shaly_sand]. Qed.
Lemma robust_GM_shaly_sand m : robust_fn (fun l => match l with [phis; C; Kss; Gss; Kcc; Gcc] => out2 (GM_shaly_sand m phis C Kss Gss Kcc Gcc) | _ => Unknown end).
Proof. apply (openp_robust m 6 arr_GM_shaly_sand); [fn_eq GM_shaly_sand_arr|fn_ne 6|reflexivity]. Qed.
Lemma cont_GM_hertzmindlin m : continuous_fn (fun l => match l with [K0; G0; phic; Cn; sigma; f] => out2 (GM_hertzmindlin m K0 G0 phic Cn sigma f) | _ => Unknown end).
Proof. apply (tames_continuous m 6 arr_GM_hertzmindlin); [fn_eq GM_hertzmindlin_arr|fn_ne 6|tame_tac arr_GM_hertzmindlin]. Qed.
Lemma cont_GM_softsand m : continuous_fn (fun l => match l with [K0; G0; phi; phic; Cn; sigma; f] => out2 (GM_softsand m K0 G0 phi phic Cn sigma f) | _ => Unknown end).
Proof. apply (tames_continuous m 7 arr_GM_softsand); [fn_eq GM_softsand_arr|fn_ne 7|tame_tac arr_GM_softsand]. Qed.
Lemma cont_GM_Walton m : continuous_fn (fun l => match l with [K0; G0; phic; Cn; sigma; f] => out2 (GM_Walton m K0 G0 phic Cn sigma f) | _ => Unknown end).
Proof. apply (tames_continuous m 6 arr_GM_Walton); [fn_eq GM_Walton_arr|fn_ne 6|tame_tac arr_GM_Walton]. Qed.
Lemma cont_GM_stiffsand m : continuous_fn (fun l => match l with [K0; G0; phi; phic; Cn; sigma; f] => out2 (GM_stiffsand m K0 G0 phi phic Cn sigma f) | _ => Unknown end).
Proof. apply (tames_continuous m 7 arr_GM_stiffsand); [fn_eq GM_stiffsand_arr|fn_ne 7|tame_tac arr_GM_stiffsand]. Qed.
Lemma cont_Perm_Kozeny_Carman m : continuous_fn (fun l => match l with [phi; d] => out1 (Perm_Kozeny_Carman m phi d) | _ => Unknown end).
Proof. apply (tames_continuous m 2 arr_Perm_Kozeny_Carman); [fn_eq Perm_Kozeny_Carman_arr|fn_ne 2|tame_tac arr_Perm_Kozeny_Carman]. Qed.
Lemma robust_Perm_Kozeny_Carman m : robust_fn (fun l => match l with [phi; d] => out1 (Perm_Kozeny_Carman m phi d) | _ => Unknown end).
Proof. apply (openp_robust m 2 arr_Perm_Kozeny_Carman); [fn_eq Perm_Kozeny_Carman_arr|fn_ne 2|reflexivity]. Qed.
Lemma cont_Perm_Kozeny_Carman_Percolation m : continuous_fn (fun l => match l with [phi; phic; d; B] => out1 (Perm_Kozeny_Carman_Percolation m phi phic d B) | _ => Unknown end).
Proof. apply (tames_continuous m 4 arr_Perm_Kozeny_Carman_Percolation); [fn_eq Perm_Kozeny_Carman_Percolation_arr|fn_ne 4|tame_tac arr_Perm_Kozeny_Carman_Percolation]. Qed.
Lemma robust_Perm_Kozeny_Carman_Percolation m : robust_fn (fun l => match l with [phi; phic; d; B] => out1 (Perm_Kozeny_Carman_Percolation m phi phic d B) | _ => Unknown end).
Proof. apply (openp_robust m 4 arr_Perm_Kozeny_Carman_Percolation); [fn_eq Perm_Kozeny_Carman_Percolation_arr|fn_ne 4|reflexivity]. Qed.
Lemma cont_Perm_Owolabi : continuous_fn (fun l => match l with [phi; Swi] => out2 (Perm_Owolabi phi Swi) | _ => Unknown end).
Proof. apply (tames_continuous NumPy 2 arr_Perm_Owolabi); [fn_eq Perm_Owolabi_arr|fn_ne 2|tame_tac arr_Perm_Owolabi]. Qed.
Lemma robust_Perm_Owolabi : robust_fn (fun l => match l with [phi; Swi] => out2 (Perm_Owolabi phi Swi) | _ => Unknown end).
Proof. apply (openp_robust NumPy 2 arr_Perm_Owolabi); [fn_eq Perm_Owolabi_arr|fn_ne 2|reflexivity]. Qed.
Lemma cont_Perm_Perm_logs m : continuous_fn (fun l => match l with [phi; Swi] => out4 (Perm_Perm_logs m phi Swi) | _ => Unknown end).
Proof. apply (tames_continuous m 2 arr_Perm_Perm_logs); [fn_eq Perm_Perm_logs_arr|fn_ne 2|tame_tac arr_Perm_Perm_logs]. Qed.
Lemma cont_Perm_Panda_Lake m : continuous_fn (fun l => match l with [d; C; Sr; tau; phi] => out1 (Perm_Panda_Lake m d C Sr tau phi) | _ => Unknown end).
Proof. apply (tames_continuous m 5 arr_Perm_Panda_Lake); [fn_eq Perm_Panda_Lake_arr|fn_ne 5|tame_tac arr_Perm_Panda_Lake]. Qed.
Lemma robust_Perm_Panda_Lake m : robust_fn (fun l => match l with [d; C; Sr; tau; phi] => out1 (Perm_Panda_Lake m d C Sr tau phi) | _ => Unknown end).
Proof. apply (openp_robust m 5 arr_Perm_Panda_Lake); [fn_eq Perm_Panda_Lake_arr|fn_ne 5|reflexivity]. Qed.
Lemma cont_Perm_Panda_Lake_cem m : continuous_fn (fun l => match l with [phi; d] => out1 (Perm_Panda_Lake_cem m phi d) | _ => Unknown end).
Proof. apply (tames_continuous m 2 arr_Perm_Panda_Lake_cem); [fn_eq Perm_Panda_Lake_cem_arr|fn_ne 2|tame_tac arr_Perm_Panda_Lake_cem]. Qed.
Lemma robust_Perm_Panda_Lake_cem m : robust_fn (fun l => match l with [phi; d] => out1 (Perm_Panda_Lake_cem m phi d) | _ => Unknown end).
Proof. apply (openp_robust m 2 arr_Perm_Panda_Lake_cem); [fn_eq Perm_Panda_Lake_cem_arr|fn_ne 2|reflexivity]. Qed.
Lemma cont_Perm_Revil m : continuous_fn (fun l => match l with [phi; d] => out1 (Perm_Revil m phi d) | _ => Unknown end).
Proof. apply (tames_continuous m 2 arr_Perm_Revil); [fn_eq Perm_Revil_arr|fn_ne 2|tame_tac arr_Perm_Revil]. Qed.
Lemma cont_Perm_Fredrich m : continuous_fn (fun l => match l with [phi; d; b] => out1 (Perm_Fredrich m phi d b) | _ => Unknown end).
Proof. apply (tames_continuous m 3 arr_Perm_Fredrich); [fn_eq Perm_Fredrich_arr|fn_ne 3|tame_tac arr_Perm_Fredrich]. Qed.
Lemma robust_Perm_Fredrich m : robust_fn (fun l => match l with [phi; d; b] => out1 (Perm_Fredrich m phi d b) | _ => Unknown end).
Proof. apply (openp_robust m 3 arr_Perm_Fredrich); [fn_eq Perm_Fredrich_arr|fn_ne 3|reflexivity]. Qed.
Lemma cont_Perm_Bloch m : continuous_fn (fun l => match l with [Sr; C; D] => out2 (Perm_Bloch m Sr C D) | _ => Unknown end).
Proof. apply (tames_continuous m 3 arr_Perm_Bloch); [fn_eq Perm_Bloch_arr|fn_ne 3|tame_tac arr_Perm_Bloch]. Qed.
Lemma cont_Perm_Bernabe m : continuous_fn (fun l => match l with [phi; crf; w; r] => out1 (Perm_Bernabe m phi crf w r) | _ => Unknown end).
Proof. apply (tames_continuous m 4 arr_Perm_Bernabe); [fn_eq Perm_Bernabe_arr|fn_ne 4|tame_tac arr_Perm_Bernabe]. Qed.
Lemma robust_Perm_Bernabe m : robust_fn (fun l => match l with [phi; crf; w; r] => out1 (Perm_Bernabe m phi crf w r) | _ => Unknown end).
Proof. apply (openp_robust m 4 arr_Perm_Bernabe); [fn_eq Perm_Bernabe_arr|fn_ne 4|reflexivity]. Qed.
Lemma cont_Emp_esti_VS m : continuous_fn (fun l => match l with [Vp; vsh] => out1 (Emp_esti_VS m Vp vsh) | _ => Unknown end).
Proof. apply (tames_continuous m 2 arr_Emp_esti_VS); [fn_eq Emp_esti_VS_arr|fn_ne 2|tame_tac arr_Emp_esti_VS]. Qed.
Lemma robust_Emp_esti_VS m : robust_fn (fun l => match l with [Vp; vsh] => out1 (Emp_esti_VS m Vp vsh) | _ => Unknown end).
Proof. apply (openp_robust m 2 arr_Emp_esti_VS); [fn_eq Emp_esti_VS_arr|fn_ne 2|reflexivity]. Qed.
Lemma cont_Emp_han : continuous_fn (fun l => match l with [phi; C] => out2 (Emp_han phi C) | _ => Unknown end).
Proof. apply (tames_continuous NumPy 2 arr_Emp_han); [fn_eq Emp_han_arr|fn_ne 2|tame_tac arr_Emp_han]. Qed.
Lemma robust_Emp_han : robust_fn (fun l => match l with [phi; C] => out2 (Emp_han phi C) | _ => Unknown end).
Proof. apply (openp_robust NumPy 2 arr_Emp_han); [fn_eq Emp_han_arr|fn_ne 2|reflexivity]. Qed.
Lemma cont_Emp_ehrenberg m : continuous_fn (fun l => match l with [Z] => out1 (Emp_ehrenberg m Z) | _ => Unknown end).
Proof. apply (tames_continuous m 1 arr_Emp_ehrenberg); [fn_eq Emp_ehrenberg_arr|fn_ne 1|tame_tac arr_Emp_ehrenberg]. Qed.
Lemma robust_Emp_ehrenberg m : robust_fn (fun l => match l with [Z] => out1 (Emp_ehrenberg m Z) | _ => Unknown end).
Proof. apply (openp_robust m 1 arr_Emp_ehrenberg); [fn_eq Emp_ehrenberg_arr|fn_ne 1|reflexivity]. Qed.
Lemma cont_Emp_ramm_porosity_true m : continuous_fn (fun l => match l with [Z] => out1 (Emp_ramm_porosity m Z true) | _ => Unknown end).
Proof. apply (tames_continuous m 1 arr_Emp_ramm_porosity_true); [fn_eq Emp_ramm_porosity_true_arr|fn_ne 1|tame_tac arr_Emp_ramm_porosity_true]. Qed.
Lemma robust_Emp_ramm_porosity_true m : robust_fn (fun l => match l with [Z] => out1 (Emp_ramm_porosity m Z true) | _ => Unknown end).
Proof. apply (openp_robust m 1 arr_Emp_ramm_porosity_true); [fn_eq Emp_ramm_porosity_true_arr|fn_ne 1|reflexivity]. Qed.
Lemma cont_Emp_ramm_porosity_false m : continuous_fn (fun l => match l with [Z] => out1 (Emp_ramm_porosity m Z false) | _ => Unknown end).
Proof. apply (tames_continuous m 1 arr_Emp_ramm_porosity_false); [fn_eq Emp_ramm_porosity_false_arr|fn_ne 1|tame_tac arr_Emp_ramm_porosity_false]. Qed.
Lemma robust_Emp_ramm_porosity_false m : robust_fn (fun l => match l with [Z] => out1 (Emp_ramm_porosity m Z false) | _ => Unknown end).
Proof. apply (openp_robust m 1 arr_Emp_ramm_porosity_false); [fn_eq Emp_ramm_porosity_false_arr|fn_ne 1|reflexivity]. Qed.
Lemma cont_Emp_StPeter_1 : continuous_fn (fun l => match l with [Pe] => out2 (Emp_StPeter Pe 1) | _ => Unknown end).
Proof. apply (tames_continuous NumPy 1 arr_Emp_StPeter_1); [fn_eq Emp_StPeter_1_arr|fn_ne 1|tame_tac arr_Emp_StPeter_1]. Qed.
Lemma robust_Emp_StPeter_1 : robust_fn (fun l => match l with [Pe] => out2 (Emp_StPeter Pe 1) | _ => Unknown end).
Proof. apply (openp_robust NumPy 1 arr_Emp_StPeter_1); [fn_eq Emp_StPeter_1_arr|fn_ne 1|reflexivity]. Qed.
Lemma cont_Emp_StPeter_2 : continuous_fn (fun l => match l with [Pe] => out2 (Emp_StPeter Pe 2) | _ => Unknown end).
Proof. apply (tames_continuous NumPy 1 arr_Emp_StPeter_2); [fn_eq Emp_StPeter_2_arr|fn_ne 1|tame_tac arr_Emp_StPeter_2]. Qed.
Lemma robust_Emp_StPeter_2 : robust_fn (fun l => match l with [Pe] => out2 (Emp_StPeter Pe 2) | _ => Unknown end).
Proof. apply (openp_robust NumPy 1 arr_Emp_StPeter_2); [fn_eq Emp_StPeter_2_arr|fn_ne 1|reflexivity]. Qed.
Lemma cont_Emp_Scherbaum : continuous_fn (fun l => match l with [Z] => out1 (Emp_Scherbaum Z) | _ => Unknown end).
Proof. apply (tames_continuous NumPy 1 arr_Emp_Scherbaum); [fn_eq Emp_Scherbaum_arr|fn_ne 1|tame_tac arr_Emp_Scherbaum]. Qed.
Lemma robust_Emp_Scherbaum : robust_fn (fun l => match l with [Z] => out1 (Emp_Scherbaum Z) | _ => Unknown end).
Proof. apply (openp_robust NumPy 1 arr_Emp_Scherbaum); [fn_eq Emp_Scherbaum_arr|fn_ne 1|reflexivity]. Qed.
Lemma cont_Emp_Sclater m : continuous_fn (fun l => match l with [phi] => out1 (Emp_Sclater m phi) | _ => Unknown end).
Proof. apply (tames_continuous m 1 arr_Emp_Sclater); [fn_eq Emp_Sclater_arr|fn_ne 1|tame_tac arr_Emp_Sclater]. Qed.
Lemma cont_Emp_Storvoll m : continuous_fn (fun l => match l with [Z] => out1 (Emp_Storvoll m Z) | _ => Unknown end).
Proof. apply (tames_continuous m 1 arr_Emp_Storvoll); [fn_eq Emp_Storvoll_arr|fn_ne 1|tame_tac arr_Emp_Storvoll]. Qed.
Lemma robust_Emp_Storvoll m : robust_fn (fun l => match l with [Z] => out1 (Emp_Storvoll m Z) | _ => Unknown end).
Proof. apply (openp_robust m 1 arr_Emp_Storvoll); [fn_eq Emp_Storvoll_arr|fn_ne 1|reflexivity]. Qed.
Lemma cont_Emp_Hillis m : continuous_fn (fun l => match l with [Z] => out1 (Emp_Hillis m Z) | _ => Unknown end).
Proof. apply (tames_continuous m 1 arr_Emp_Hillis); [fn_eq Emp_Hillis_arr|fn_ne 1|tame_tac arr_Emp_Hillis]. Qed.
Lemma robust_Emp_Hillis m : robust_fn (fun l => match l with [Z] => out1 (Emp_Hillis m Z) | _ => Unknown end).
Proof. apply (openp_robust m 1 arr_Emp_Hillis); [fn_eq Emp_Hillis_arr|fn_ne 1|reflexivity]. Qed.
Lemma cont_Emp_hjelstuen m : continuous_fn (fun l => match l with [Z] => out1 (Emp_hjelstuen m Z) | _ => Unknown end).
Proof. apply (tames_continuous m 1 arr_Emp_hjelstuen); [fn_eq Emp_hjelstuen_arr|fn_ne 1|tame_tac arr_Emp_hjelstuen]. Qed.
Lemma robust_Emp_hjelstuen m : robust_fn (fun l => match l with [Z] => out1 (Emp_hjelstuen m Z) | _ => Unknown end).
Proof. apply (openp_robust m 1 arr_Emp_hjelstuen); [fn_eq Emp_hjelstuen_arr|fn_ne 1|reflexivity]. Qed.
Lemma cont_Emp_Cp : continuous_fn (fun l => match l with [phi] => out1 (Emp_Cp phi) | _ => Unknown end).
Proof. apply (tames_continuous NumPy 1 arr_Emp_Cp); [fn_eq Emp_Cp_arr|fn_ne 1|tame_tac arr_Emp_Cp]. Qed.
Lemma robust_Emp_Cp : robust_fn (fun l => match l with [phi] => out1 (Emp_Cp phi) | _ => Unknown end).
Proof. apply (openp_robust NumPy 1 arr_Emp_Cp); [fn_eq Emp_Cp_arr|fn_ne 1|reflexivity]. Qed.
Lemma cont_BW_dz_dp m : continuous_fn (fun l => match l with [P_pr; T_pr] => out1 (BW_dz_dp m P_pr T_pr) | _ => Unknown end).
Proof. apply (tames_continuous m 2 arr_BW_dz_dp); [fn_eq BW_dz_dp_arr|fn_ne 2|tame_tac arr_BW_dz_dp]. Qed.
Lemma cont_BW_pseudo_p_t m : continuous_fn (fun l => match l with [P; T; G] => out3 (BW_pseudo_p_t m P T G) | _ => Unknown end).
Proof. apply (tames_continuous m 3 arr_BW_pseudo_p_t); [fn_eq BW_pseudo_p_t_arr|fn_ne 3|tame_tac arr_BW_pseudo_p_t]. Qed.
Lemma robust_BW_pseudo_p_t m : robust_fn (fun l => match l with [P; T; G] => out3 (BW_pseudo_p_t m P T G) | _ => Unknown end).
Proof. apply (openp_robust m 3 arr_BW_pseudo_p_t); [fn_eq BW_pseudo_p_t_arr|fn_ne 3|reflexivity]. Qed.
Lemma cont_BW_rho_K_co2 m : continuous_fn (fun l => match l with [P; T; G] => out2 (BW_rho_K_co2 m P T G) | _ => Unknown end).
Proof. apply (tames_continuous m 3 arr_BW_rho_K_co2); [fn_eq BW_rho_K_co2_arr|fn_ne 3|tame_tac arr_BW_rho_K_co2]. Qed.
Lemma cont_BW_rho_K_gas m : continuous_fn (fun l => match l with [P; T; G] => out2 (BW_rho_K_gas m P T G) | _ => Unknown end).
Proof. apply (tames_continuous m 3 arr_BW_rho_K_gas); [fn_eq BW_rho_K_gas_arr|fn_ne 3|tame_tac arr_BW_rho_K_gas]. Qed.
Lemma cont_BW_rho_K_oil m : continuous_fn (fun l => match l with [P; T; den] => out2 (BW_rho_K_oil m P T den) | _ => Unknown end).
Proof. apply (tames_continuous m 3 arr_BW_rho_K_oil); [fn_eq BW_rho_K_oil_arr|fn_ne 3|tame_tac arr_BW_rho_K_oil]. Qed.
Lemma cont_BW_rho_K_go_sat m : continuous_fn (fun l => match l with [P; T; den; G] => out2 (BW_rho_K_go m P T den G None) | _ => Unknown end).
Proof. apply (tames_continuous m 4 arr_BW_rho_K_go_sat); [fn_eq BW_rho_K_go_sat_arr|fn_ne 4|tame_tac arr_BW_rho_K_go_sat]. Qed.
Lemma cont_BW_v_water : continuous_fn (fun l => match l with [T; P] => out1 (BW_v_water T P) | _ => Unknown end).
Proof. apply (tames_continuous NumPy 2 arr_BW_v_water); [fn_eq BW_v_water_arr|fn_ne 2|tame_tac arr_BW_v_water]. Qed.
Lemma robust_BW_v_water : robust_fn (fun l => match l with [T; P] => out1 (BW_v_water T P) | _ => Unknown end).
Proof. apply (openp_robust NumPy 2 arr_BW_v_water); [fn_eq BW_v_water_arr|fn_ne 2|reflexivity]. Qed.
Lemma cont_BW_rho_K_water : continuous_fn (fun l => match l with [T; P] => out2 (BW_rho_K_water T P) | _ => Unknown end).
Proof. apply (tames_continuous NumPy 2 arr_BW_rho_K_water); [fn_eq BW_rho_K_water_arr|fn_ne 2|tame_tac arr_BW_rho_K_water]. Qed.
Lemma robust_BW_rho_K_water : robust_fn (fun l => match l with [T; P] => out2 (BW_rho_K_water T P) | _ => Unknown end).
Proof. apply (openp_robust NumPy 2 arr_BW_rho_K_water); [fn_eq BW_rho_K_water_arr|fn_ne 2|reflexivity]. Qed.
Lemma cont_BW_v_brine m : continuous_fn (fun l => match l with [T; P; Sr] => out1 (BW_v_brine m T P Sr) | _ => Unknown end).
Proof. apply (tames_continuous m 3 arr_BW_v_brine); [fn_eq BW_v_brine_arr|fn_ne 3|tame_tac arr_BW_v_brine]. Qed.
Lemma cont_BW_rho_K_brine m : continuous_fn (fun l => match l with [T; P; Sr] => out2 (BW_rho_K_brine m T P Sr) | _ => Unknown end).
Proof. apply (tames_continuous m 3 arr_BW_rho_K_brine); [fn_eq BW_rho_K_brine_arr|fn_ne 3|tame_tac arr_BW_rho_K_brine]. Qed.
Lemma cont_BW_co2_brine_true m : continuous_fn (fun l => match l with [temperature; pressure; salinity; Sco2] => out2 (BW_co2_brine m temperature pressure salinity Sco2 None true) | _ => Unknown end).
Proof. apply (tames_continuous m 4 arr_BW_co2_brine_true); [fn_eq BW_co2_brine_true_arr|fn_ne 4|tame_tac arr_BW_co2_brine_true]. Qed.
Lemma cont_BW_co2_brine_false m : continuous_fn (fun l => match l with [temperature; pressure; salinity; Sco2] => out2 (BW_co2_brine m temperature pressure salinity Sco2 None false) | _ => Unknown end).
Proof. apply (tames_continuous m 4 arr_BW_co2_brine_false); [fn_eq BW_co2_brine_false_arr|fn_ne 4|tame_tac arr_BW_co2_brine_false]. Qed.
Lemma cont_AVO_zoeppritz : continuous_fn (fun l => match l with [vp1; vs1; rho1; vp2; vs2; rho2; theta] => out2 (AVO_zoeppritz vp1 vs1 rho1 vp2 vs2 rho2 theta) | _ => Unknown end).
Proof. apply (tames_continuous NumPy 7 arr_AVO_zoeppritz); [fn_eq AVO_zoeppritz_arr|fn_ne 7|tame_tac arr_AVO_zoeppritz]. Qed.
Lemma cont_AVO_AVO_abe m : continuous_fn (fun l => match l with [vp1; vs1; d1; vp2; vs2; d2] => out5 (AVO_AVO_abe m vp1 vs1 d1 vp2 vs2 d2) | _ => Unknown end).
Proof. apply (tames_continuous m 6 arr_AVO_AVO_abe); [fn_eq AVO_AVO_abe_arr|fn_ne 6|tame_tac arr_AVO_AVO_abe]. Qed.
Lemma robust_AVO_AVO_abe m : robust_fn (fun l => match l with [vp1; vs1; d1; vp2; vs2; d2] => out5 (AVO_AVO_abe m vp1 vs1 d1 vp2 vs2 d2) | _ => Unknown end).
Proof. apply (openp_robust m 6 arr_AVO_AVO_abe); [fn_eq AVO_AVO_abe_arr|fn_ne 6|reflexivity]. Qed.
Lemma cont_AVO_AVO_ortho m : continuous_fn (fun l => match l with [a1; b1; e11; d11; e12; d12; g1; rho1; a2; b2; e21; d21; e22; d22; g2; rho2; the] => out2 (AVO_AVO_ortho m a1 b1 e11 d11 e12 d12 g1 rho1 a2 b2 e21 d21 e22 d22 g2 rho2 the) | _ => Unknown end).
Proof. apply (tames_continuous m 17 arr_AVO_AVO_ortho); [fn_eq AVO_AVO_ortho_arr|fn_ne 17|tame_tac arr_AVO_AVO_ortho]. Qed.
Lemma robust_AVO_AVO_ortho m : robust_fn (fun l => match l with [a1; b1; e11; d11; e12; d12; g1; rho1; a2; b2; e21; d21; e22; d22; g2; rho2; the] => out2 (AVO_AVO_ortho m a1 b1 e11 d11 e12 d12 g1 rho1 a2 b2 e21 d21 e22 d22 g2 rho2 the) | _ => Unknown end).
Proof. apply (openp_robust m 17 arr_AVO_AVO_ortho); [fn_eq AVO_AVO_ortho_arr|fn_ne 17|reflexivity]. Qed.
