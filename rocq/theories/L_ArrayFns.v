(** * L_ArrayFns: each program of M_ArrayFns.v, run on numbers, is the model of its function. *)
From Verif Require Import Fl M_Utils M_EM M_Anis M_Fluid M_GM M_Perm M_Emp M_BW M_AVO M_QI M_Array M_ArrayFns Spec16.
Open Scope fl_scope.

Lemma call_bind A B e (k : fl -> outcome A) (h : A -> outcome B) : call (bind e k) h = bind e (fun x => call (k x) h).
Proof. destruct e; reflexivity. Qed.
Lemma call_call A B C (o : outcome A) (k : A -> outcome B) (h : B -> outcome C) :
  call (call o k) h = call o (fun x => call (k x) h).
Proof. destruct o; reflexivity. Qed.
Lemma bind_ext B e (k h : fl -> outcome B) : (forall x, k x = h x) -> bind e k = bind e h.
Proof. intros E; destruct e; simpl; auto. Qed.
Lemma bind_step B e e' (k h : fl -> outcome B) : e = e' -> (forall x, k x = h x) -> bind e k = bind e' h.
Proof. intros <- E; destruct e; simpl; auto. Qed.
(** The value of an expression, one operation at a time (comparing whole expressions by computation is slow). *)
Section Ev.
Variables (m : mode) (env : list fl).
Lemma ev_ONeg a e : a = ev m env e -> fneg a = ev m env (EOp1 ONeg e).
Proof. intros ->; reflexivity. Qed.
Lemma ev_OSqrt a e : a = ev m env e -> fsqrt a = ev m env (EOp1 OSqrt e).
Proof. intros ->; reflexivity. Qed.
Lemma ev_OExp a e : a = ev m env e -> fexp a = ev m env (EOp1 OExp e).
Proof. intros ->; reflexivity. Qed.
Lemma ev_OLog a e : a = ev m env e -> flog a = ev m env (EOp1 OLog e).
Proof. intros ->; reflexivity. Qed.
Lemma ev_OSin a e : a = ev m env e -> fsin a = ev m env (EOp1 OSin e).
Proof. intros ->; reflexivity. Qed.
Lemma ev_OCos a e : a = ev m env e -> fcos a = ev m env (EOp1 OCos e).
Proof. intros ->; reflexivity. Qed.
Lemma ev_OTan a e : a = ev m env e -> ftan a = ev m env (EOp1 OTan e).
Proof. intros ->; reflexivity. Qed.
Lemma ev_OArcsin a e : a = ev m env e -> farcsin a = ev m env (EOp1 OArcsin e).
Proof. intros ->; reflexivity. Qed.
Lemma ev_OArccos a e : a = ev m env e -> farccos a = ev m env (EOp1 OArccos e).
Proof. intros ->; reflexivity. Qed.
Lemma ev_OArctan a e : a = ev m env e -> farctan a = ev m env (EOp1 OArctan e).
Proof. intros ->; reflexivity. Qed.
Lemma ev_OCosh a e : a = ev m env e -> fcosh a = ev m env (EOp1 OCosh e).
Proof. intros ->; reflexivity. Qed.
Lemma ev_ODeg2rad a e : a = ev m env e -> fdeg2rad a = ev m env (EOp1 ODeg2rad e).
Proof. intros ->; reflexivity. Qed.
Lemma ev_OPown n a e : a = ev m env e -> a ^^ n = ev m env (EOp1 (OPown n) e).
Proof. intros ->; reflexivity. Qed.
Lemma ev_OAdd a b e1 e2 : a = ev m env e1 -> b = ev m env e2 -> fadd a b = ev m env (EOp2 OAdd e1 e2).
Proof. intros -> ->; reflexivity. Qed.
Lemma ev_OSub a b e1 e2 : a = ev m env e1 -> b = ev m env e2 -> fsub a b = ev m env (EOp2 OSub e1 e2).
Proof. intros -> ->; reflexivity. Qed.
Lemma ev_OMul a b e1 e2 : a = ev m env e1 -> b = ev m env e2 -> fmul a b = ev m env (EOp2 OMul e1 e2).
Proof. intros -> ->; reflexivity. Qed.
Lemma ev_ODiv a b e1 e2 : a = ev m env e1 -> b = ev m env e2 -> fdiv m a b = ev m env (EOp2 ODiv e1 e2).
Proof. intros -> ->; reflexivity. Qed.
Lemma ev_ODivN a b e1 e2 : a = ev m env e1 -> b = ev m env e2 -> fdiv NumPy a b = ev m env (EOp2 ODivN e1 e2).
Proof. intros -> ->; reflexivity. Qed.
Lemma ev_OPow a b e1 e2 : a = ev m env e1 -> b = ev m env e2 -> fpow m a b = ev m env (EOp2 OPow e1 e2).
Proof. intros -> ->; reflexivity. Qed.
Lemma ev_OPowN a b e1 e2 : a = ev m env e1 -> b = ev m env e2 -> fpow NumPy a b = ev m env (EOp2 OPowN e1 e2).
Proof. intros -> ->; reflexivity. Qed.
Lemma ev_OMaximum a b e1 e2 : a = ev m env e1 -> b = ev m env e2 -> fmaximum a b = ev m env (EOp2 OMaximum e1 e2).
Proof. intros -> ->; reflexivity. Qed.
End Ev.
Ltac evr :=
  lazymatch goal with
  | |- _ = ev _ _ (EOp1 ONeg _) => apply ev_ONeg; evr
  | |- _ = ev _ _ (EOp1 OSqrt _) => apply ev_OSqrt; evr
  | |- _ = ev _ _ (EOp1 OExp _) => apply ev_OExp; evr
  | |- _ = ev _ _ (EOp1 OLog _) => apply ev_OLog; evr
  | |- _ = ev _ _ (EOp1 OSin _) => apply ev_OSin; evr
  | |- _ = ev _ _ (EOp1 OCos _) => apply ev_OCos; evr
  | |- _ = ev _ _ (EOp1 OTan _) => apply ev_OTan; evr
  | |- _ = ev _ _ (EOp1 OArcsin _) => apply ev_OArcsin; evr
  | |- _ = ev _ _ (EOp1 OArccos _) => apply ev_OArccos; evr
  | |- _ = ev _ _ (EOp1 OArctan _) => apply ev_OArctan; evr
  | |- _ = ev _ _ (EOp1 OCosh _) => apply ev_OCosh; evr
  | |- _ = ev _ _ (EOp1 ODeg2rad _) => apply ev_ODeg2rad; evr
  | |- _ = ev _ _ (EOp1 (OPown _) _) => apply ev_OPown; evr
  | |- _ = ev _ _ (EOp2 OAdd _ _) => apply ev_OAdd; evr
  | |- _ = ev _ _ (EOp2 OSub _ _) => apply ev_OSub; evr
  | |- _ = ev _ _ (EOp2 OMul _ _) => apply ev_OMul; evr
  | |- _ = ev _ _ (EOp2 ODiv _ _) => apply ev_ODiv; evr
  | |- _ = ev _ _ (EOp2 ODivN _ _) => apply ev_ODivN; evr
  | |- _ = ev _ _ (EOp2 OPow _ _) => apply ev_OPow; evr
  | |- _ = ev _ _ (EOp2 OPowN _ _) => apply ev_OPowN; evr
  | |- _ = ev _ _ (EOp2 OMaximum _ _) => apply ev_OMaximum; evr
  | _ => reflexivity
  end.
Lemma run_let m e p env : run m (PLet e p) env = bind (ev m env e) (fun x => run m p (env ++ [x])).
Proof. reflexivity. Qed.
Lemma run_if m c e1 e2 p q env b : b = semc c (ev m env e1) (ev m env e2) ->
  run m (PIf c e1 e2 p q) env = match b with Some true => run m p env | Some false => run m q env | None => Unknown end.
Proof. intros ->; reflexivity. Qed.
Ltac fn_step :=
  lazymatch goal with
  | |- call (bind _ _) _ = _ => rewrite call_bind
  | |- call (call _ _) _ = _ => rewrite call_call
  | |- call (Ret _) _ = _ => rewrite call_ret; cbv beta iota
  | |- call (match ?c with _ => _ end) _ = run _ _ _ =>
      rewrite (run_if _ _ _ _ _ _ _ c); [destruct c as [[|]|]; [| |reflexivity] | reflexivity]
  | |- bind ?e _ = run _ (PLet _ _) _ => rewrite run_let; apply bind_step; [evr|intros ?; cbn [app]]
  end.
Ltac fn := repeat fn_step; cbn [run map ev nth]; reflexivity.
Ltac unf :=
  match goal with |- ?a = run ?m ?p ?l => let a := unfolded a in change (a = run m p l) end.

Lemma utils_V_arr m K G rho : out2 (utils_V m K G rho) = run m arr_utils_V [K; G; rho].
Proof. unfold out2, arr_utils_V. unf. fn. Qed.
Lemma utils_poi_arr m K G : out1 (utils_poi m K G) = run m arr_utils_poi [K; G].
Proof. unfold out1, arr_utils_poi. unf. fn. Qed.
Lemma utils_lame_arr m K G : out1 (utils_lame m K G) = run m arr_utils_lame [K; G].
Proof. unfold out1, arr_utils_lame. unf. fn. Qed.
Lemma utils_M_from_V_arr m den vp vs : out2 (utils_M_from_V m den vp vs) = run m arr_utils_M_from_V [den; vp; vs].
Proof. unfold out2, arr_utils_M_from_V. unf. fn. Qed.
Lemma utils_crack_por_arr m crd alpha : out1 (utils_crack_por m crd alpha) = run m arr_utils_crack_por [crd; alpha].
Proof. unfold out1, arr_utils_crack_por. unf. fn. Qed.
Lemma EM_cripor_arr m K0 G0 phi phic : out2 (EM_cripor m K0 G0 phi phic) = run m arr_EM_cripor [K0; G0; phi; phic].
Proof. unfold out2, arr_EM_cripor. unf. fn. Qed.
Lemma EM_HS_upper_arr m f K1 K2 G1 G2 : out2 (EM_HS m f K1 K2 G1 G2 "upper") = run m arr_EM_HS_upper [f; K1; K2; G1; G2].
Proof. unfold out2, arr_EM_HS_upper. unf. fn. Qed.
Lemma EM_HS_lower_arr m f K1 K2 G1 G2 : out2 (EM_HS m f K1 K2 G1 G2 "lower") = run m arr_EM_HS_lower [f; K1; K2; G1; G2].
Proof. unfold out2, arr_EM_HS_lower. unf. fn. Qed.
Lemma EM_hudson_rand_arr m K G Ki Gi alpha crd : out2 (EM_hudson_rand m K G Ki Gi alpha crd) = run m arr_EM_hudson_rand [K; G; Ki; Gi; alpha; crd].
Proof. unfold out2, arr_EM_hudson_rand. unf. fn. Qed.
Lemma EM_Dilute_crack_arr m Ks Gs cd : out2 (EM_Dilute_crack m Ks Gs cd) = run m arr_EM_Dilute_crack [Ks; Gs; cd].
Proof. unfold out2, arr_EM_Dilute_crack. unf. fn. Qed.
Lemma EM_OConnell_Budiansky_arr m K0 G0 crd : out2 (EM_OConnell_Budiansky m K0 G0 crd) = run m arr_EM_OConnell_Budiansky [K0; G0; crd].
Proof. unfold out2, arr_EM_OConnell_Budiansky. unf. fn. Qed.
Lemma EM_SC_dilute_stress_arr m Km Gm Ki Gi f : out2 (EM_SC_dilute m Km Gm Ki Gi f "stress") = run m arr_EM_SC_dilute_stress [Km; Gm; Ki; Gi; f].
Proof. unfold out2, arr_EM_SC_dilute_stress. unf. fn. Qed.
Lemma EM_SC_dilute_strain_arr m Km Gm Ki Gi f : out2 (EM_SC_dilute m Km Gm Ki Gi f "strain") = run m arr_EM_SC_dilute_strain [Km; Gm; Ki; Gi; f].
Proof. unfold out2, arr_EM_SC_dilute_strain. unf. fn. Qed.
Lemma EM_MT_average_arr m f Kmat Gmat K1 G1 K2 G2 : out2 (EM_MT_average m f Kmat Gmat K1 G1 K2 G2) = run m arr_EM_MT_average [f; Kmat; Gmat; K1; G1; K2; G2].
Proof. unfold out2, arr_EM_MT_average. unf. fn. Qed.
Lemma Anis_Thomsen_arr m C11 C33 C13 C44 C66 den theta : out6 (Anis_Thomsen m C11 C33 C13 C44 C66 den theta) = run m arr_Anis_Thomsen [C11; C33; C13; C44; C66; den; theta].
Proof. unfold out6, arr_Anis_Thomsen. unf. fn. Qed.
Lemma Anis_Thomsen_Tsvankin_arr m C11 C22 C33 C12 C13 C23 C44 C55 C66 : out7 (Anis_Thomsen_Tsvankin m C11 C22 C33 C12 C13 C23 C44 C55 C66) = run m arr_Anis_Thomsen_Tsvankin [C11; C22; C33; C12; C13; C23; C44; C55; C66].
Proof. unfold out7, arr_Anis_Thomsen_Tsvankin. unf. fn. Qed.
Lemma Fluid_Brie_arr m Kw Kgas Sw e : out1 (Fluid_Brie m Kw Kgas Sw e) = run m arr_Fluid_Brie [Kw; Kgas; Sw; e].
Proof. unfold out1, arr_Fluid_Brie. unf. fn. Qed.
Lemma Fluid_Biot_HF_arr m Kdry Gdry K0 Kfl rho0 rhofl phi alpha : out3 (Fluid_Biot_HF m Kdry Gdry K0 Kfl rho0 rhofl phi alpha) = run m arr_Fluid_Biot_HF [Kdry; Gdry; K0; Kfl; rho0; rhofl; phi; alpha].
Proof. unfold out3, arr_Fluid_Biot_HF. unf. fn. Qed.
Lemma Fluid_Geertsma_Smit_HF_arr m Kdry Gdry K0 Kfl rho0 rhofl phi alpha : out2 (Fluid_Geertsma_Smit_HF m Kdry Gdry K0 Kfl rho0 rhofl phi alpha) = run m arr_Fluid_Geertsma_Smit_HF [Kdry; Gdry; K0; Kfl; rho0; rhofl; phi; alpha].
Proof. unfold out2, arr_Fluid_Geertsma_Smit_HF. unf. fn. Qed.
Lemma Fluid_Geertsma_Smit_LF_arr m Vp0 Vpinf freq phi rhofl kapa eta : out1 (Fluid_Geertsma_Smit_LF m Vp0 Vpinf freq phi rhofl kapa eta) = run m arr_Fluid_Geertsma_Smit_LF [Vp0; Vpinf; freq; phi; rhofl; kapa; eta].
Proof. unfold out1, arr_Fluid_Geertsma_Smit_LF. unf. fn. Qed.
Lemma Fluid_Gassmann_arr m K_dry G_dry K_mat Kf phi : out2 (Fluid_Gassmann m K_dry G_dry K_mat Kf phi) = run m arr_Fluid_Gassmann [K_dry; G_dry; K_mat; Kf; phi].
Proof. unfold out2, arr_Fluid_Gassmann. unf. fn. Qed.
Lemma Fluid_Gassmann_sub_arr m phi K0 Ksat1 Kfl1 Kfl2 : out1 (Fluid_Gassmann_sub m phi K0 Ksat1 Kfl1 Kfl2) = run m arr_Fluid_Gassmann_sub [phi; K0; Ksat1; Kfl1; Kfl2].
Proof. unfold out1, arr_Fluid_Gassmann_sub. unf. fn. Qed.
Lemma Fluid_vels_arr m K_dry G_dry K0 D0 Kf Df phi : out3 (Fluid_vels m K_dry G_dry K0 D0 Kf Df phi) = run m arr_Fluid_vels [K_dry; G_dry; K0; D0; Kf; Df; phi].
Proof. unfold out3, arr_Fluid_vels. unf. fn. Qed.
Lemma Fluid_Gassmann_vels_arr m Vp1 Vs1 rho1 rhofl1 Kfl1 rhofl2 Kfl2 K0 phi : out2 (Fluid_Gassmann_vels m Vp1 Vs1 rho1 rhofl1 Kfl1 rhofl2 Kfl2 K0 phi) = run m arr_Fluid_Gassmann_vels [Vp1; Vs1; rho1; rhofl1; Kfl1; rhofl2; Kfl2; K0; phi].
Proof. unfold out2, arr_Fluid_Gassmann_vels. unf. fn. Qed.
Lemma Fluid_Gassmann_approx_arr m Msat1 M0 Mfl1 phi Mfl2 : out1 (Fluid_Gassmann_approx m Msat1 M0 Mfl1 phi Mfl2) = run m arr_Fluid_Gassmann_approx [Msat1; M0; Mfl1; phi; Mfl2].
Proof. unfold out1, arr_Fluid_Gassmann_approx. unf. fn. Qed.
Lemma Fluid_Mavko_Jizba_arr m Vp_hs Vs_hs Vpdry Vsdry K0 rhodry rhofl Kfl phi : out4 (Fluid_Mavko_Jizba m Vp_hs Vs_hs Vpdry Vsdry K0 rhodry rhofl Kfl phi) = run m arr_Fluid_Mavko_Jizba [Vp_hs; Vs_hs; Vpdry; Vsdry; K0; rhodry; rhofl; Kfl; phi].
Proof. unfold out4, arr_Fluid_Mavko_Jizba. unf. fn. Qed.
Lemma GM_ThomasStieber_arr m phi_sand phi_sh vsh : out2 (GM_ThomasStieber phi_sand phi_sh vsh) = run m arr_GM_ThomasStieber [phi_sand; phi_sh; vsh].
Proof. unfold out2, arr_GM_ThomasStieber. unf. fn. Qed.
Lemma GM_silty_shale_arr m C Kq Gq Ksh Gsh : out2 (GM_silty_shale m C Kq Gq Ksh Gsh) = run m arr_GM_silty_shale [C; Kq; Gq; Ksh; Gsh].
Proof. unfold out2, arr_GM_silty_shale. unf. fn. Qed.
Lemma GM_shaly_sand_arr m phis C Kss Gss Kcc Gcc : out2 (GM_shaly_sand m phis C Kss Gss Kcc Gcc) = run m arr_GM_shaly_sand [phis; C; Kss; Gss; Kcc; Gcc].
Proof. unfold out2, arr_GM_shaly_sand. unf. fn. Qed.
Lemma GM_contactcement_1_arr m K0 G0 Kc Gc phi phic Cn : out2 (GM_contactcement m K0 G0 Kc Gc phi phic Cn 1) = run m arr_GM_contactcement_1 [K0; G0; Kc; Gc; phi; phic; Cn].
Proof. unfold out2, arr_GM_contactcement_1. unf. fn. Qed.
Lemma GM_contactcement_2_arr m K0 G0 Kc Gc phi phic Cn : out2 (GM_contactcement m K0 G0 Kc Gc phi phic Cn 2) = run m arr_GM_contactcement_2 [K0; G0; Kc; Gc; phi; phic; Cn].
Proof. unfold out2, arr_GM_contactcement_2. unf. fn. Qed.
Lemma GM_hertzmindlin_arr m K0 G0 phic Cn sigma f : out2 (GM_hertzmindlin m K0 G0 phic Cn sigma f) = run m arr_GM_hertzmindlin [K0; G0; phic; Cn; sigma; f].
Proof. unfold out2, arr_GM_hertzmindlin. unf. fn. Qed.
Lemma GM_softsand_arr m K0 G0 phi phic Cn sigma f : out2 (GM_softsand m K0 G0 phi phic Cn sigma f) = run m arr_GM_softsand [K0; G0; phi; phic; Cn; sigma; f].
Proof. unfold out2, arr_GM_softsand. unf. fn. Qed.
Lemma GM_Walton_arr m K0 G0 phic Cn sigma f : out2 (GM_Walton m K0 G0 phic Cn sigma f) = run m arr_GM_Walton [K0; G0; phic; Cn; sigma; f].
Proof. unfold out2, arr_GM_Walton. unf. fn. Qed.
Lemma GM_stiffsand_arr m K0 G0 phi phic Cn sigma f : out2 (GM_stiffsand m K0 G0 phi phic Cn sigma f) = run m arr_GM_stiffsand [K0; G0; phi; phic; Cn; sigma; f].
Proof. unfold out2, arr_GM_stiffsand. unf. fn. Qed.
Lemma GM_constantcement_1_arr m phi_b K0 G0 Kc Gc phi phic Cn : out2 (GM_constantcement m phi_b K0 G0 Kc Gc phi phic Cn 1) = run m arr_GM_constantcement_1 [phi_b; K0; G0; Kc; Gc; phi; phic; Cn].
Proof. unfold out2, arr_GM_constantcement_1. unf. fn. Qed.
Lemma GM_constantcement_2_arr m phi_b K0 G0 Kc Gc phi phic Cn : out2 (GM_constantcement m phi_b K0 G0 Kc Gc phi phic Cn 2) = run m arr_GM_constantcement_2 [phi_b; K0; G0; Kc; Gc; phi; phic; Cn].
Proof. unfold out2, arr_GM_constantcement_2. unf. fn. Qed.
Lemma GM_MUHS_1_arr m K0 G0 Kc Gc phi phi_b phic Cn : out2 (GM_MUHS m K0 G0 Kc Gc phi phi_b phic Cn 1) = run m arr_GM_MUHS_1 [K0; G0; Kc; Gc; phi; phi_b; phic; Cn].
Proof. unfold out2, arr_GM_MUHS_1. unf. fn. Qed.
Lemma GM_MUHS_2_arr m K0 G0 Kc Gc phi phi_b phic Cn : out2 (GM_MUHS m K0 G0 Kc Gc phi phi_b phic Cn 2) = run m arr_GM_MUHS_2 [K0; G0; Kc; Gc; phi; phi_b; phic; Cn].
Proof. unfold out2, arr_GM_MUHS_2. unf. fn. Qed.
Lemma Perm_Kozeny_Carman_arr m phi d : out1 (Perm_Kozeny_Carman m phi d) = run m arr_Perm_Kozeny_Carman [phi; d].
Proof. unfold out1, arr_Perm_Kozeny_Carman. unf. fn. Qed.
Lemma Perm_Kozeny_Carman_Percolation_arr m phi phic d B : out1 (Perm_Kozeny_Carman_Percolation m phi phic d B) = run m arr_Perm_Kozeny_Carman_Percolation [phi; phic; d; B].
Proof. unfold out1, arr_Perm_Kozeny_Carman_Percolation. unf. fn. Qed.
Lemma Perm_Owolabi_arr m phi Swi : out2 (Perm_Owolabi phi Swi) = run m arr_Perm_Owolabi [phi; Swi].
Proof. unfold out2, arr_Perm_Owolabi. unf. fn. Qed.
Lemma Perm_Perm_logs_arr m phi Swi : out4 (Perm_Perm_logs m phi Swi) = run m arr_Perm_Perm_logs [phi; Swi].
Proof. unfold out4, arr_Perm_Perm_logs. unf. fn. Qed.
Lemma Perm_Panda_Lake_arr m d C S tau phi : out1 (Perm_Panda_Lake m d C S tau phi) = run m arr_Perm_Panda_Lake [d; C; S; tau; phi].
Proof. unfold out1, arr_Perm_Panda_Lake. unf. fn. Qed.
Lemma Perm_Panda_Lake_cem_arr m phi d : out1 (Perm_Panda_Lake_cem m phi d) = run m arr_Perm_Panda_Lake_cem [phi; d].
Proof. unfold out1, arr_Perm_Panda_Lake_cem. unf. fn. Qed.
Lemma Perm_Revil_arr m phi d : out1 (Perm_Revil m phi d) = run m arr_Perm_Revil [phi; d].
Proof. unfold out1, arr_Perm_Revil. unf. fn. Qed.
Lemma Perm_Fredrich_arr m phi d b : out1 (Perm_Fredrich m phi d b) = run m arr_Perm_Fredrich [phi; d; b].
Proof. unfold out1, arr_Perm_Fredrich. unf. fn. Qed.
Lemma Perm_Bloch_arr m S C D : out2 (Perm_Bloch m S C D) = run m arr_Perm_Bloch [S; C; D].
Proof. unfold out2, arr_Perm_Bloch. unf. fn. Qed.
Lemma Perm_Bernabe_arr m phi crf w r : out1 (Perm_Bernabe m phi crf w r) = run m arr_Perm_Bernabe [phi; crf; w; r].
Proof. unfold out1, arr_Perm_Bernabe. unf. fn. Qed.
Lemma Emp_krief_arr m phi Kg Gg : out3 (Emp_krief m phi Kg Gg) = run m arr_Emp_krief [phi; Kg; Gg].
Proof. unfold out3, arr_Emp_krief. unf. fn. Qed.
Lemma Emp_esti_VS_arr m Vp vsh : out1 (Emp_esti_VS m Vp vsh) = run m arr_Emp_esti_VS [Vp; vsh].
Proof. unfold out1, arr_Emp_esti_VS. unf. fn. Qed.
Lemma Emp_han_arr m phi C : out2 (Emp_han phi C) = run m arr_Emp_han [phi; C].
Proof. unfold out2, arr_Emp_han. unf. fn. Qed.
Lemma Emp_ehrenberg_arr m Z : out1 (Emp_ehrenberg m Z) = run m arr_Emp_ehrenberg [Z].
Proof. unfold out1, arr_Emp_ehrenberg. unf. fn. Qed.
Lemma Emp_ramm_porosity_true_arr m Z : out1 (Emp_ramm_porosity m Z true) = run m arr_Emp_ramm_porosity_true [Z].
Proof. unfold out1, arr_Emp_ramm_porosity_true. unf. fn. Qed.
Lemma Emp_ramm_porosity_false_arr m Z : out1 (Emp_ramm_porosity m Z false) = run m arr_Emp_ramm_porosity_false [Z].
Proof. unfold out1, arr_Emp_ramm_porosity_false. unf. fn. Qed.
Lemma Emp_StPeter_1_arr m Pe : out2 (Emp_StPeter Pe 1) = run m arr_Emp_StPeter_1 [Pe].
Proof. unfold out2, arr_Emp_StPeter_1. unf. fn. Qed.
Lemma Emp_StPeter_2_arr m Pe : out2 (Emp_StPeter Pe 2) = run m arr_Emp_StPeter_2 [Pe].
Proof. unfold out2, arr_Emp_StPeter_2. unf. fn. Qed.
Lemma Emp_Scherbaum_arr m Z : out1 (Emp_Scherbaum Z) = run m arr_Emp_Scherbaum [Z].
Proof. unfold out1, arr_Emp_Scherbaum. unf. fn. Qed.
Lemma Emp_Sclater_arr m phi : out1 (Emp_Sclater m phi) = run m arr_Emp_Sclater [phi].
Proof. unfold out1, arr_Emp_Sclater. unf. fn. Qed.
Lemma Emp_Storvoll_arr m Z : out1 (Emp_Storvoll m Z) = run m arr_Emp_Storvoll [Z].
Proof. unfold out1, arr_Emp_Storvoll. unf. fn. Qed.
Lemma Emp_Hillis_arr m Z : out1 (Emp_Hillis m Z) = run m arr_Emp_Hillis [Z].
Proof. unfold out1, arr_Emp_Hillis. unf. fn. Qed.
Lemma Emp_hjelstuen_arr m Z : out1 (Emp_hjelstuen m Z) = run m arr_Emp_hjelstuen [Z].
Proof. unfold out1, arr_Emp_hjelstuen. unf. fn. Qed.
Lemma Emp_Cp_arr m phi : out1 (Emp_Cp phi) = run m arr_Emp_Cp [phi].
Proof. unfold out1, arr_Emp_Cp. unf. fn. Qed.
Lemma BW_dz_dp_arr m P_pr T_pr : out1 (BW_dz_dp m P_pr T_pr) = run m arr_BW_dz_dp [P_pr; T_pr].
Proof. unfold out1, arr_BW_dz_dp. unf. fn. Qed.
Lemma BW_pseudo_p_t_arr m P T G : out3 (BW_pseudo_p_t m P T G) = run m arr_BW_pseudo_p_t [P; T; G].
Proof. unfold out3, arr_BW_pseudo_p_t. unf. fn. Qed.
Lemma BW_rho_K_co2_arr m P T G : out2 (BW_rho_K_co2 m P T G) = run m arr_BW_rho_K_co2 [P; T; G].
Proof. unfold out2, arr_BW_rho_K_co2. unf. fn. Qed.
Lemma BW_rho_K_gas_arr m P T G : out2 (BW_rho_K_gas m P T G) = run m arr_BW_rho_K_gas [P; T; G].
Proof. unfold out2, arr_BW_rho_K_gas. unf. fn. Qed.
Lemma BW_rho_K_oil_arr m P T den : out2 (BW_rho_K_oil m P T den) = run m arr_BW_rho_K_oil [P; T; den].
Proof. unfold out2, arr_BW_rho_K_oil. unf. fn. Qed.
Lemma BW_rho_K_go_sat_arr m P T den G : out2 (BW_rho_K_go m P T den G None) = run m arr_BW_rho_K_go_sat [P; T; den; G].
Proof. unfold out2, arr_BW_rho_K_go_sat. unf. fn. Qed.
Lemma BW_v_water_arr m T P : out1 (BW_v_water T P) = run m arr_BW_v_water [T; P].
Proof. unfold out1, arr_BW_v_water. unf. fn. Qed.
Lemma BW_rho_K_water_arr m T P : out2 (BW_rho_K_water T P) = run m arr_BW_rho_K_water [T; P].
Proof. unfold out2, arr_BW_rho_K_water. unf. fn. Qed.
Lemma BW_v_brine_arr m T P S : out1 (BW_v_brine m T P S) = run m arr_BW_v_brine [T; P; S].
Proof. unfold out1, arr_BW_v_brine. unf. fn. Qed.
Lemma BW_rho_K_brine_arr m T P S : out2 (BW_rho_K_brine m T P S) = run m arr_BW_rho_K_brine [T; P; S].
Proof. unfold out2, arr_BW_rho_K_brine. unf. fn. Qed.
Lemma BW_co2_brine_true_arr m temperature pressure salinity Sco2 : out2 (BW_co2_brine m temperature pressure salinity Sco2 None true) = run m arr_BW_co2_brine_true [temperature; pressure; salinity; Sco2].
Proof. unfold out2, arr_BW_co2_brine_true. unf. fn. Qed.
Lemma BW_co2_brine_false_arr m temperature pressure salinity Sco2 : out2 (BW_co2_brine m temperature pressure salinity Sco2 None false) = run m arr_BW_co2_brine_false [temperature; pressure; salinity; Sco2].
Proof. unfold out2, arr_BW_co2_brine_false. unf. fn. Qed.
Lemma AVO_zoeppritz_arr m vp1 vs1 rho1 vp2 vs2 rho2 theta : out2 (AVO_zoeppritz vp1 vs1 rho1 vp2 vs2 rho2 theta) = run m arr_AVO_zoeppritz [vp1; vs1; rho1; vp2; vs2; rho2; theta].
Proof. unfold out2, arr_AVO_zoeppritz. unf. fn. Qed.
Lemma AVO_AVO_abe_arr m vp1 vs1 d1 vp2 vs2 d2 : out5 (AVO_AVO_abe m vp1 vs1 d1 vp2 vs2 d2) = run m arr_AVO_AVO_abe [vp1; vs1; d1; vp2; vs2; d2].
Proof. unfold out5, arr_AVO_AVO_abe. unf. fn. Qed.
Lemma AVO_AVO_ortho_arr m a1 b1 e11 d11 e12 d12 g1 rho1 a2 b2 e21 d21 e22 d22 g2 rho2 the : out2 (AVO_AVO_ortho m a1 b1 e11 d11 e12 d12 g1 rho1 a2 b2 e21 d21 e22 d22 g2 rho2 the) = run m arr_AVO_AVO_ortho [a1; b1; e11; d11; e12; d12; g1; rho1; a2; b2; e21; d21; e22; d22; g2; rho2; the].
Proof. unfold out2, arr_AVO_AVO_ortho. unf. fn. Qed.
Lemma GM_pcm_stiff_1_arr m f sigma K0 G0 phi phic v_cem v_ci Kc Gc Cn f_ : out2 (GM_pcm m f sigma K0 G0 phi phic v_cem v_ci Kc Gc Cn "stiff" 1 f_) = run m arr_GM_pcm_stiff_1 [f; sigma; K0; G0; phi; phic; v_cem; v_ci; Kc; Gc; Cn; f_].
Proof. unfold out2, arr_GM_pcm_stiff_1. unf. fn. Qed.
Lemma GM_pcm_stiff_2_arr m f sigma K0 G0 phi phic v_cem v_ci Kc Gc Cn f_ : out2 (GM_pcm m f sigma K0 G0 phi phic v_cem v_ci Kc Gc Cn "stiff" 2 f_) = run m arr_GM_pcm_stiff_2 [f; sigma; K0; G0; phi; phic; v_cem; v_ci; Kc; Gc; Cn; f_].
Proof. unfold out2, arr_GM_pcm_stiff_2. unf. fn. Qed.
Lemma GM_pcm_soft_1_arr m f sigma K0 G0 phi phic v_cem v_ci Kc Gc Cn f_ : out2 (GM_pcm m f sigma K0 G0 phi phic v_cem v_ci Kc Gc Cn "soft" 1 f_) = run m arr_GM_pcm_soft_1 [f; sigma; K0; G0; phi; phic; v_cem; v_ci; Kc; Gc; Cn; f_].
Proof. unfold out2, arr_GM_pcm_soft_1. unf. fn. Qed.
Lemma GM_pcm_soft_2_arr m f sigma K0 G0 phi phic v_cem v_ci Kc Gc Cn f_ : out2 (GM_pcm m f sigma K0 G0 phi phic v_cem v_ci Kc Gc Cn "soft" 2 f_) = run m arr_GM_pcm_soft_2 [f; sigma; K0; G0; phi; phic; v_cem; v_ci; Kc; Gc; Cn; f_].
Proof. unfold out2, arr_GM_pcm_soft_2. unf. fn. Qed.
Lemma GM_vpcm_1_arr m alpha f sigma K0 G0 phi phic v_cem v_ci Kc Gc Cn f_ : out2 (GM_vpcm m alpha f sigma K0 G0 phi phic v_cem v_ci Kc Gc Cn 1 f_) = run m arr_GM_vpcm_1 [alpha; f; sigma; K0; G0; phi; phic; v_cem; v_ci; Kc; Gc; Cn; f_].
Proof. unfold out2, arr_GM_vpcm_1. unf. fn. Qed.
Lemma GM_vpcm_2_arr m alpha f sigma K0 G0 phi phic v_cem v_ci Kc Gc Cn f_ : out2 (GM_vpcm m alpha f sigma K0 G0 phi phic v_cem v_ci Kc Gc Cn 2 f_) = run m arr_GM_vpcm_2 [alpha; f; sigma; K0; G0; phi; phic; v_cem; v_ci; Kc; Gc; Cn; f_].
Proof. unfold out2, arr_GM_vpcm_2. unf. fn. Qed.
Lemma QI_matrix_modulus_arr m vsh phi_c phi_0 M_sh M_g M_c : out1 (QI_matrix_modulus m vsh phi_c phi_0 M_sh M_g M_c) = run m arr_QI_matrix_modulus [vsh; phi_c; phi_0; M_sh; M_g; M_c].
Proof. unfold out1, arr_QI_matrix_modulus. unf. fn. Qed.
